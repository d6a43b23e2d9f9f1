(** Readings of an output on doubles used in the statements of the theorems. *)
From Coq Require Import Reals ZArith.
From Coq Require Import List.
From Verif Require Import Base Spec MGeom MPolygon MDelaunay Bridge BridgeNum.
Import ListNotations.

(** the sites, as pairs of real numbers *)
Definition sites64 (o : trout F64) : list pt := map xyv (map read_point (o_points o)).
(** every triangle is counterclockwise with no site inside its circumscribed circle, in exact arithmetic on the values of
    the coordinates, and no side is used twice in one direction *)
Definition delaunay_output64 (o : trout F64) : Prop :=
  (forall t A B C, In t (o_tris o) -> vertices_are (map read_point (o_points o)) (corners t) [A; B; C] ->
     delaunay_triangle (sites64 o) (xyv A) (xyv B) (xyv C)) /\ directed_once (o_tris o).
(** [z] is the true Voronoi vertex of the [k]-th triangle: it has the same distance from its corners *)
Definition true_center (o : trout F64) (k : nat) (z : pt) : Prop :=
  exists t A B C, nth_error (o_tris o) k = Some t /\ vertices_are (map read_point (o_points o)) (corners t) [A; B; C] /\
    dist z (xyv A) = dist z (xyv B) /\ dist z (xyv B) = dist z (xyv C).
(** the nearest doubles of both coordinates *)
Definition rounded (z : pt) : pt := (nearest (fst z), nearest (snd z)).
(** rounded Voronoi vertices that coincide within the tolerance come from the same Voronoi vertex *)
Definition vertices_apart (tol : f64) (o : trout F64) : Prop :=
  forall k k' z z', true_center o k z -> true_center o k' z' -> coincide (val tol) (rounded z) (rounded z') -> z = z'.
(** the two points are within the tolerance in both coordinates, after rounding the second *)
Definition rounds_near (tol : f64) (q : Point F64) (z : pt) : Prop := coincide (val tol) (xyv q) (rounded z).
(** a Voronoi vertex shared by several triangles is stored once: it is not shared, or the tolerance does not confuse the computed vertices *)
Definition vertices_stored_once (tol : f64) (o : trout F64) : Prop :=
  clustered tol (fun c => exists k, center_of o k c) \/
  forall k k' z, true_center o k z -> true_center o k' z -> k = k'.
(** [z] is a true vertex of the cells: a Voronoi vertex, the middle of an edge with at most one triangle, or a site *)
Definition true_source (o : trout F64) (z : pt) : Prop :=
  (exists k, true_center o k z) \/
  (exists e A B, In e (o_edges o) /\ (length (incident (o_tris o) (fst e)) <= 1)%nat /\
     vertices_are (map read_point (o_points o)) [fst (fst e); snd (fst e)] [A; B] /\ z = midpoint (xyv A) (xyv B)) \/
  In z (sites64 o).
(** after rounding, the coordinates of such points are clearly close or clearly apart, and points that coincide within the tolerance
    come from the same point *)
Definition sources_apart64 (tol : f64) (o : trout F64) : Prop :=
  (forall z z', true_source o z -> true_source o z' ->
     clear_of (val tol) (fst (rounded z) - fst (rounded z')) /\ clear_of (val tol) (snd (rounded z) - snd (rounded z'))) /\
  (forall z z', true_source o z -> true_source o z' -> coincide (val tol) (rounded z) (rounded z') -> z = z').
(** what Triangle is trusted to answer: a Delaunay triangulation of points on a grid that are clearly apart, in which every used point has a fan *)
Record delaunay_answer64 (e m : Z) (tol : f64) (o : trout F64) : Prop := {
  d64_triangulation : triangulation (zlen (o_points o)) (map fst (o_edges o)) (o_tris o);
  d64_grid : Forall (gpm e m) (map read_point (o_points o));
  d64_delaunay : delaunay_output64 o;
  d64_fans : forall v, In v (flat_map corners (o_tris o)) -> (exists ws ts, closed_fan (map fst (o_edges o)) (o_tris o) v ws ts) \/
     (exists w ws w' ts, open_fan (o_edges o) (o_tris o) v w ws w' ts);
  d64_clustered : clustered tol (fun q => In q (map read_point (o_points o)));
  d64_apart : apart_by (near64 tol) (map read_point (o_points o))
}.
(** what the constrained triangulation is taken to be: a triangulation of grid points, apart, with no flat triangle *)
Record triangulated64 (e : Z) (tol : f64) (o : trout F64) : Prop := {
  t64_triangulation : triangulation (zlen (o_points o)) (map fst (o_edges o)) (o_tris o);
  t64_grid : Forall (grid_point e) (map read_point (o_points o));
  t64_flat : forall t A B C, In t (o_tris o) -> vertices_are (map read_point (o_points o)) (corners t) [A; B; C] -> orient (xyv A) (xyv B) (xyv C) <> 0%R;
  t64_clustered : clustered tol (fun q => In q (map read_point (o_points o)));
  t64_apart : apart_by (near64 tol) (map read_point (o_points o))
}.
