(** Readings of the border of a domain of any shape, used in the statements of the theorems. *)
From Coq Require Import Reals ZArith.
From Coq Require Import List.
From Verif Require Import Base Spec MGeom MPolygon MDelaunay Bridge BridgeTile BridgeFill.
Import ListNotations.

(** [x] is not in the open sector clockwise from the ray through [a] to the ray through [b]; the corner at [p] may be convex, flat or reflex *)
Definition inner_side (p a b x : pt) : Prop :=
  if Rlt_dec (orient p a b) 0 then ~ (0 < orient p b x /\ 0 < orient p x a)%R else wedge p a b x.
(** a border of any shape: no site is inside a circle around an edge of the border, the neighbours of a border point are on the inner side of
    the border, and each corner is flat or clearly not flat *)
Definition any_border (tol : R) (o : trout RNum) : Prop :=
  forall v w1 w2 site a b, border_corner o v w1 w2 -> vertices_are (map read_point (o_points o)) [v; w1; w2] [site; a; b] ->
    gabriel_edge (output_sites o) (xy site) (xy a) /\ gabriel_edge (output_sites o) (xy site) (xy b) /\
    (forall w x, vertices_are (map read_point (o_points o)) [w] [x] -> (exists t, In t (o_tris o) /\ In v (corners t) /\ In w (corners t)) ->
       w <> v -> inner_side (xy site) (xy a) (xy b) (xy x)) /\
    (orient (xy site) (xy a) (xy b) = 0 \/ 4 * tol <= Rabs (orient (xy site) (xy a) (xy b)))%R.
(** a Delaunay triangulation of a domain of any shape, of different sites, in which the points the cells are made of are clearly apart *)
Record any_domain (tol : R) (o : trout RNum) : Prop := {
  ad_triangulation : triangulation (zlen (o_points o)) (map fst (o_edges o)) (o_tris o);
  ad_delaunay : delaunay_output o;
  ad_sites : NoDup (output_sites o);
  ad_apart : sources_apart tol o;
  ad_fans : fans o;
  ad_border : any_border tol o
}.
(** the points of a polygon all of whose border is seen from [p]: those of the triangles with corner [p] over its edges *)
Definition seen_part (p : pt) (vs : list pt) (x : pt) : Prop := exists a b, In (a, b) (edges_of vs) /\ in_hull [p; a; b] x.
(** [x] is inside one of these triangles *)
Definition inside_part (p : pt) (vs : list pt) (x : pt) : Prop :=
  exists a b, In (a, b) (edges_of vs) /\ (0 < orient p a x /\ 0 < orient a b x /\ 0 < orient b p x)%R.
(** the triangulation fills what the outlines bound, a region of any shape, the domain on the left of each outline: the sides of its border are
    the outlines with points strung on them, no site is inside a circle around a side of the border, the neighbours of a point of the border
    are on the inner side of the border, and consecutive sides of the border are on one line or clearly not *)
Record fills_any (tol : R) (outlines : list (list pt)) (o : trout RNum) : Prop := {
  fa_rings : exists rings, (forall a b, border_side (o_tris o) a b <-> exists ring, In ring rings /\ In (a, b) (edges_of ring)) /\ NoDup (concat rings) /\
    Forall2 (fun ring outline => exists rs, vertices_are (map read_point (o_points o)) ring rs /\ subdivides (map xy rs) outline) rings outlines;
  fa_gabriel : forall a b A B, border_side (o_tris o) a b -> vertices_are (map read_point (o_points o)) [a; b] [A; B] ->
    gabriel_edge (output_sites o) (xy A) (xy B);
  fa_inner : forall a b c A B C, border_side (o_tris o) a b -> border_side (o_tris o) b c -> vertices_are (map read_point (o_points o)) [a; b; c] [A; B; C] ->
    forall w x, vertices_are (map read_point (o_points o)) [w] [x] -> (exists t, In t (o_tris o) /\ In b (corners t) /\ In w (corners t)) ->
      w <> b -> inner_side (xy B) (xy C) (xy A) (xy x);
  fa_corners : forall a b c A B C, border_side (o_tris o) a b -> border_side (o_tris o) b c -> vertices_are (map read_point (o_points o)) [a; b; c] [A; B; C] ->
    (orient (xy A) (xy B) (xy C) = 0 \/ 4 * tol <= Rabs (orient (xy A) (xy B) (xy C)))%R
}.
