(** Readings of the border of an output used in the statements of the theorems. *)
From Coq Require Import Reals ZArith.
From Coq Require Import List.
From Verif Require Import Base Spec MGeom MPolygon MDelaunay Bridge.
Import ListNotations.

(** the corner of the border at [v], counterclockwise from its outer neighbour [w1] to its outer neighbour [w2] *)
Definition border_corner {N : Num} (o : trout N) (v w1 w2 : Z) : Prop :=
  exists w ws w' ts, open_fan (o_edges o) (o_tris o) v w ws w' ts /\ (w1 = w /\ w2 = w' \/ w1 = w' /\ w2 = w) /\
    exists t, In t (o_tris o) /\ In (v, w1) (sides t).
(** a convex domain: every corner of the border is convex or flat and has all sites in its wedge, it is flat or clearly not flat, and no
    site is inside a circle around an edge of the border *)
Definition convex_border (tol : R) (o : trout RNum) : Prop :=
  forall v w1 w2 site a b, border_corner o v w1 w2 -> vertices_are (map read_point (o_points o)) [v; w1; w2] [site; a; b] ->
    gabriel_edge (output_sites o) (xy site) (xy a) /\ gabriel_edge (output_sites o) (xy site) (xy b) /\
    convex_corner (xy site) (xy a) (xy b) /\ (forall s, In s (output_sites o) -> wedge (xy site) (xy a) (xy b) s) /\
    (orient (xy site) (xy a) (xy b) = 0 \/ 4 * tol <= orient (xy site) (xy a) (xy b))%R.
(** the points that are corners of triangles have closed or open fans *)
Definition fans {N : Num} (o : trout N) : Prop :=
  forall v, In v (flat_map corners (o_tris o)) -> (exists ws ts, closed_fan (map fst (o_edges o)) (o_tris o) v ws ts) \/
    (exists w ws w' ts, open_fan (o_edges o) (o_tris o) v w ws w' ts).
(** every point is a corner of a triangle *)
Definition all_used {N : Num} (o : trout N) : Prop := forall i, (0 <= i < zlen (o_points o))%Z -> In i (flat_map corners (o_tris o)).
(** the areas of the triangles *)
Definition triangle_areas (o : trout RNum) (as_ : list R) : Prop :=
  Forall2 (fun t a => exists A B C, vertices_are (map read_point (o_points o)) (corners t) [A; B; C] /\ a = shoelace [xy A; xy B; xy C]) (o_tris o) as_.
(** a Delaunay triangulation of a convex domain, of different sites, in which the points the cells are made of are clearly apart *)
Record convex_domain (tol : R) (o : trout RNum) : Prop := {
  cd_triangulation : triangulation (zlen (o_points o)) (map fst (o_edges o)) (o_tris o);
  cd_delaunay : delaunay_output o;
  cd_sites : NoDup (output_sites o);
  cd_apart : sources_apart tol o;
  cd_fans : fans o;
  cd_border : convex_border tol o
}.
