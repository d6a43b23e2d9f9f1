(** The Voronoi cells of a convex domain tile it: property C110. *)
From Coq Require Import Reals Lra.
From Verif Require Import Base Spec MUtil MGeom MHull MPolygon MMaps MTriangle MGen MRegion MDelaunay MVoronoi Bridge BridgeTile.
From Verif Require Import PDelaunay PVoronoi PTile6 Samples14.
Open Scope Z_scope.

(** C110 *)
Theorem C110_cells_are_regions_of_domain : forall (tol : R), (0 < tol)%R -> forall o : trout RNum, convex_domain tol o ->
  forall fuel (d : delaunay RNum), read_output (N := RNum) tol o = Ok d -> (length (o_tris o) < fuel)%nat ->
  exists m, voronoi (N := RNum) tol fuel d = Ok m /\
    Forall2 (fun v (g : polygon RNum) => exists site vs, vertices_are (map read_point (o_points o)) [v] [site] /\
      vertices_are (ul_list (ms_points m)) (pg_points g) vs /\ strictly_convex (map xy vs) /\
      forall x, in_hull (map xy vs) x <-> in_hull (output_sites o) x /\ voronoi_region (output_sites o) (xy site) x)
      (dedup (flat_map corners (o_tris o))) (ms_polygons m).
Proof. exact tiles_exact. Qed.
Print Assumptions C110_cells_are_regions_of_domain.

Theorem C110_cells_tile_domain : forall (tol : R), (0 < tol)%R -> forall o : trout RNum, convex_domain tol o ->
  forall fuel (d : delaunay RNum), read_output (N := RNum) tol o = Ok d -> (length (o_tris o) < fuel)%nat -> all_used o ->
  exists m, voronoi (N := RNum) tol fuel d = Ok m /\
    (forall x, in_hull (output_sites o) x ->
       exists g vs, In g (ms_polygons m) /\ vertices_are (ul_list (ms_points m)) (pg_points g) vs /\ in_hull (map xy vs) x) /\
    (forall i j g g' vs vs' x, nth_error (ms_polygons m) i = Some g -> nth_error (ms_polygons m) j = Some g' -> i <> j ->
       vertices_are (ul_list (ms_points m)) (pg_points g) vs -> vertices_are (ul_list (ms_points m)) (pg_points g') vs' ->
       (forall a b, In (a, b) (edges_of (map xy vs)) -> (0 < orient a b x)%R) -> ~ in_hull (map xy vs') x).
Proof. exact tiles_cover. Qed.
Print Assumptions C110_cells_tile_domain.

Theorem C110_areas_add_up : forall (tol : R), (0 < tol)%R -> forall o : trout RNum, convex_domain tol o ->
  forall fuel (d : delaunay RNum), read_output (N := RNum) tol o = Ok d -> (length (o_tris o) < fuel)%nat ->
  exists m areas tas, voronoi (N := RNum) tol fuel d = Ok m /\
    Forall2 (fun g a => exists g', getArea (N := RNum) g (ul_list (ms_points m)) = Ok (g', a)) (ms_polygons m) areas /\
    triangle_areas o tas /\ sumR areas = sumR tas.
Proof. exact areas_add_up. Qed.
Print Assumptions C110_areas_add_up.

(** a hexagon with a point inside *)
Example C110_hypotheses_met : convex_domain (1 / 100000)%R (hex_out RNum) /\ all_used (hex_out RNum) /\
  (exists d, read_output (N := RNum) (1 / 100000)%R (hex_out RNum) = Ok d) /\ (0 < 1 / 100000)%R.
Proof. split; [exact hex_domain|]. split; [exact hex_used|]. split; [exact hex_read|lra]. Qed.
