(** Regions that lie plainly in the plane, used in the statements of the theorems. *)
From Coq Require Import Reals ZArith.
From Coq Require Import List.
From Verif Require Import Base Spec MGeom MPolygon MGen MRegion MDelaunay Bridge BridgeTile BridgeFill BridgeWind.
Import ListNotations.

(** the outlines together go around no point more than once *)
Definition plain (outlines : list (list pt)) : Prop := forall q, (fold_right Z.add 0 (map (winding q) outlines) <= 1)%Z.
(** what a conforming triangulation of what the outlines bound is, the domain on the left of each outline: the sides of its border are the
    outlines with points strung on them, no site is inside a circle around a side of the border, and consecutive sides of the border are on one
    line or clearly not *)
Record fills_region (tol : R) (outlines : list (list pt)) (o : trout RNum) : Prop := {
  fr_rings : exists rings, (forall a b, border_side (o_tris o) a b <-> exists ring, In ring rings /\ In (a, b) (edges_of ring)) /\ NoDup (concat rings) /\
    Forall2 (fun ring outline => exists rs, vertices_are (map read_point (o_points o)) ring rs /\ subdivides (map xy rs) outline) rings outlines;
  fr_gabriel : forall a b A B, border_side (o_tris o) a b -> vertices_are (map read_point (o_points o)) [a; b] [A; B] ->
    gabriel_edge (output_sites o) (xy A) (xy B);
  fr_corners : forall a b c A B C, border_side (o_tris o) a b -> border_side (o_tris o) b c -> vertices_are (map read_point (o_points o)) [a; b; c] [A; B; C] ->
    (orient (xy A) (xy B) (xy C) = 0 \/ 4 * tol <= Rabs (orient (xy A) (xy B) (xy C)))%R
}.
(** what a triangulation of what the outlines bound is, Delaunay or not: its triangles are counterclockwise, no side is used twice in one
    direction, the sides of its border are the outlines with points strung on them, and its points are apart *)
Record triangle_answer (tol : R) (outlines : list (list pt)) (o : trout RNum) : Prop := {
  tn_triangulation : triangulation (zlen (o_points o)) (map fst (o_edges o)) (o_tris o);
  tn_ccw : forall t A B C, In t (o_tris o) -> vertices_are (map read_point (o_points o)) (corners t) [A; B; C] -> (0 < orient (xy A) (xy B) (xy C))%R;
  tn_once : directed_once (o_tris o);
  tn_rings : exists rings, (forall a b, border_side (o_tris o) a b <-> exists ring, In ring rings /\ In (a, b) (edges_of ring)) /\ NoDup (concat rings) /\
    Forall2 (fun ring outline => exists rs, vertices_are (map read_point (o_points o)) ring rs /\ subdivides (map xy rs) outline) rings outlines;
  tn_separated : separated tol (fun q => In q (map read_point (o_points o)));
  tn_apart : all_apart tol (map read_point (o_points o))
}.
(** what a list of polygons says of a point: the answers of containsPoint are the even-odd rule, or the point is near the border *)
Definition holds_point (tol : R) (pts : list (Point RNum)) (q : Point RNum) (g : polygon RNum) (e : bool) : Prop :=
  exists vs b, vertices_are pts (pg_points g) vs /\ e = even_odd (xy q) (map xy vs) /\
    containsPoint (N := RNum) tol (pg_points g) pts q = Ok b /\ (b = true <-> e = true \/ near_border tol (xy q) (map xy vs)).
(** the even-odd rule on the outline and the holes together *)
Definition region_holds (r : region RNum) (q : pt) : bool :=
  xorb (even_odd q (map xy (rg_p r))) (parity (map (fun h : hole RNum => even_odd q (map xy (h_points h))) (rg_holes r))).
