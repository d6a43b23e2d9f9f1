(** The Voronoi cells of a domain of any shape, with reflex corners and holes: property C112. *)
From Coq Require Import Reals Lra List.
From Verif Require Import Base Spec MUtil MGeom MHull MPolygon MMaps MTriangle MGen MRegion MDelaunay MVoronoi Bridge BridgeTile BridgeHist BridgeFill BridgeAny.
From Verif Require Import PDelaunay PVoronoi PHist PAny5 PAny6 Samples16.
Import ListNotations.
Open Scope Z_scope.

(** C112 *)
Theorem C112_cells_seen_from_sites : forall (tol : R), (0 < tol)%R -> forall (o : trout RNum), any_domain tol o -> forall fuel (d : delaunay RNum),
  read_output (N := RNum) tol o = Ok d -> (length (o_tris o) < fuel)%nat ->
  exists m, voronoi (N := RNum) tol fuel d = Ok m /\
    Forall2 (fun v (g : polygon RNum) => exists site vs, vertices_are (map read_point (o_points o)) [v] [site] /\ vertices_are (ul_list (ms_points m)) (pg_points g) vs /\
      (forall x y, In (x, y) (edges_of (map xy vs)) -> (0 <= orient (xy site) x y)%R) /\
      forall x, seen_part (xy site) (map xy vs) x -> voronoi_region (output_sites o) (xy site) x) (dedup (flat_map corners (o_tris o))) (ms_polygons m).
Proof. exact parts_seen. Qed.
Print Assumptions C112_cells_seen_from_sites.

(** C112 *)
Theorem C112_cells_do_not_overlap : forall (tol : R), (0 < tol)%R -> forall (o : trout RNum), any_domain tol o -> forall fuel (d : delaunay RNum),
  read_output (N := RNum) tol o = Ok d -> (length (o_tris o) < fuel)%nat ->
  exists m, voronoi (N := RNum) tol fuel d = Ok m /\
    forall i j v v' g g' site site' vs vs' x, nth_error (dedup (flat_map corners (o_tris o))) i = Some v -> nth_error (dedup (flat_map corners (o_tris o))) j = Some v' ->
      nth_error (ms_polygons m) i = Some g -> nth_error (ms_polygons m) j = Some g' -> i <> j ->
      vertices_are (map read_point (o_points o)) [v; v'] [site; site'] -> vertices_are (ul_list (ms_points m)) (pg_points g) vs -> vertices_are (ul_list (ms_points m)) (pg_points g') vs' ->
      inside_part (xy site) (map xy vs) x -> ~ seen_part (xy site') (map xy vs') x.
Proof. exact parts_apart. Qed.
Print Assumptions C112_cells_do_not_overlap.

(** C112 *)
Theorem C112_areas_add_up_any_shape : forall (tol : R), (0 < tol)%R -> forall (o : trout RNum), any_domain tol o -> forall fuel (d : delaunay RNum),
  read_output (N := RNum) tol o = Ok d -> (length (o_tris o) < fuel)%nat ->
  exists m areas tas, voronoi (N := RNum) tol fuel d = Ok m /\
    Forall2 (fun g a => exists g', getArea (N := RNum) g (ul_list (ms_points m)) = Ok (g', a)) (ms_polygons m) areas /\
    triangle_areas o tas /\ sumR areas = sumR tas.
Proof. exact parts_add_up. Qed.
Print Assumptions C112_areas_add_up_any_shape.

(** C112 *)
Theorem C112_generator_any_region : forall (tol : R) fuel triangulate seeds (r : region RNum) outer inner, (0 < tol)%R -> region_made r ->
  (outer = map xy (rg_p r) \/ outer = rev (map xy (rg_p r))) -> (0 <= shoelace outer)%R ->
  Forall2 (fun (h : hole RNum) l => (l = map xy (h_points h) \/ l = rev (map xy (h_points h))) /\ (shoelace l <= 0)%R) (rg_holes r) inner ->
  separated tol (fun q => In q (seeds ++ getRegionPoints r)) ->
  exists inp, build_pslg (N := RNum) tol (region_copy r) seeds [] = Ok inp /\ in_holes inp = map (fun h : hole RNum => xy (h_center h)) (rg_holes r) /\
    let o := triangulate swConforming inp in
    delaunay_answer tol o -> sources_apart tol o -> fills_any tol (outer :: inner) o -> (length (o_tris o) < fuel)%nat ->
    exists v m areas, voronoiGenerator (N := RNum) tol triangulate fuel seeds r = Ok (v, m) /\
      ul_list (ms_points m) = map read_point (o_points o) /\
      Forall2 (fun k (g : polygon RNum) => exists site vs, vertices_are (ul_list (ms_points m)) [k] [site] /\
        vertices_are (ul_list (ms_points v)) (pg_points g) vs /\ (forall x y, In (x, y) (edges_of (map xy vs)) -> (0 <= orient (xy site) x y)%R) /\
        forall x, seen_part (xy site) (map xy vs) x -> voronoi_region (map xy (ul_list (ms_points m))) (xy site) x)
        (dedup (flat_map corners (o_tris o))) (ms_polygons v) /\
      Forall2 (fun g a => exists g', getArea (N := RNum) g (ul_list (ms_points v)) = Ok (g', a)) (ms_polygons v) areas /\
      sumR areas = (Rabs (shoelace (map xy (rg_p r))) - sumR (map (fun h : hole RNum => Rabs (shoelace (map xy (h_points h)))) (rg_holes r)))%R.
Proof. exact generator_any. Qed.
Print Assumptions C112_generator_any_region.

(** a square with a square hole, triangulated with eight more points on its outer border *)
Example C112_hypotheses_met : region_made r_frame /\ (0 <= shoelace (map xy (rg_p r_frame)))%R /\
  Forall2 (fun (h : hole RNum) l => (l = map xy (h_points h) \/ l = rev (map xy (h_points h))) /\ (shoelace l <= 0)%R) (rg_holes r_frame) [map xy gap] /\
  separated (1 / 100000)%R (fun q => In q (frame_seeds ++ getRegionPoints r_frame)) /\
  delaunay_answer (1 / 100000)%R (ring_out RNum) /\ sources_apart (1 / 100000)%R (ring_out RNum) /\
  fills_any (1 / 100000)%R (map xy (rg_p r_frame) :: [map xy gap]) (ring_out RNum) /\ any_domain (1 / 100000)%R (ring_out RNum) /\
  exists d, read_output (N := RNum) (1 / 100000)%R (ring_out RNum) = Ok d.
Proof.
  split; [exact r_frame_made|]. split; [exact frame_outer|]. split; [exact frame_inner|]. split; [exact frame_separated|].
  split; [exact ring_answer|]. split; [exact ring_sources|]. split; [exact ring_fills|]. split; [exact ring_domain|exact ring_read].
Qed.
