(** The Voronoi cells of a domain of any shape cover it, and containsPoint finds the cell of a point: properties C113 and C114. *)
From Coq Require Import Reals Lra Lia List Bool.
From Verif Require Import Base Spec MUtil MGeom MHull MPolygon MMaps MTriangle MGen MRegion MDelaunay MVoronoi Bridge BridgeTile BridgeHist BridgeFill BridgeAny BridgeWind.
From Verif Require Import PContains PDelaunay PVoronoi PHist PWind3 PWind4 Samples16 Samples17.
Import ListNotations.
Open Scope Z_scope.

(** C113 *)
Theorem C113_cells_cover_triangles : forall (tol : R), (0 < tol)%R -> forall (o : trout RNum), any_domain tol o -> forall fuel (d : delaunay RNum),
  read_output (N := RNum) tol o = Ok d -> (length (o_tris o) < fuel)%nat ->
  exists m, voronoi (N := RNum) tol fuel d = Ok m /\
    forall t A B C q, In t (o_tris o) -> vertices_are (map read_point (o_points o)) (corners t) [A; B; C] -> in_hull [xy A; xy B; xy C] q ->
      exists v g site vs, In (v, g) (combine (dedup (flat_map corners (o_tris o))) (ms_polygons m)) /\ vertices_are (map read_point (o_points o)) [v] [site] /\
        vertices_are (ul_list (ms_points m)) (pg_points g) vs /\ seen_part (xy site) (map xy vs) q /\ voronoi_region (output_sites o) (xy site) q.
Proof. exact parts_cover. Qed.
Print Assumptions C113_cells_cover_triangles.

(** C113 *)
Theorem C113_cells_within_triangles : forall (tol : R), (0 < tol)%R -> forall (o : trout RNum), any_domain tol o -> forall fuel (d : delaunay RNum),
  read_output (N := RNum) tol o = Ok d -> (length (o_tris o) < fuel)%nat ->
  exists m, voronoi (N := RNum) tol fuel d = Ok m /\
    forall v g site vs a b q, In (v, g) (combine (dedup (flat_map corners (o_tris o))) (ms_polygons m)) -> vertices_are (map read_point (o_points o)) [v] [site] ->
      vertices_are (ul_list (ms_points m)) (pg_points g) vs -> In (a, b) (edges_of (map xy vs)) -> (0 < orient (xy site) a b)%R -> in_hull [xy site; a; b] q ->
      exists t A B C, In t (o_tris o) /\ vertices_are (map read_point (o_points o)) (corners t) [A; B; C] /\ in_hull [xy A; xy B; xy C] q.
Proof. exact parts_inside. Qed.
Print Assumptions C113_cells_within_triangles.

(** C113 *)
Theorem C113_generator_covers_region : forall (tol : R) fuel triangulate seeds (r : region RNum) outer inner, (0 < tol)%R -> region_made r ->
  (outer = map xy (rg_p r) \/ outer = rev (map xy (rg_p r))) ->
  Forall2 (fun (h : hole RNum) l => l = map xy (h_points h) \/ l = rev (map xy (h_points h))) (rg_holes r) inner ->
  separated tol (fun q => In q (seeds ++ getRegionPoints r)) ->
  exists inp, build_pslg (N := RNum) tol (region_copy r) seeds [] = Ok inp /\ in_holes inp = map (fun h : hole RNum => xy (h_center h)) (rg_holes r) /\
    let o := triangulate swConforming inp in
    delaunay_answer tol o -> sources_apart tol o -> fills_any tol (outer :: inner) o -> (length (o_tris o) < fuel)%nat ->
    exists v m, voronoiGenerator (N := RNum) tol triangulate fuel seeds r = Ok (v, m) /\ ul_list (ms_points m) = map read_point (o_points o) /\
      (forall q, even_odd q (map xy (rg_p r)) = true -> Forall (fun h : hole RNum => even_odd q (map xy (h_points h)) = false) (rg_holes r) ->
        exists k g site vs, In (k, g) (combine (dedup (flat_map corners (o_tris o))) (ms_polygons v)) /\ vertices_are (ul_list (ms_points m)) [k] [site] /\
          vertices_are (ul_list (ms_points v)) (pg_points g) vs /\ seen_part (xy site) (map xy vs) q /\ voronoi_region (map xy (ul_list (ms_points m))) (xy site) q) /\
      (forall k g site vs q, In (k, g) (combine (dedup (flat_map corners (o_tris o))) (ms_polygons v)) -> vertices_are (ul_list (ms_points m)) [k] [site] ->
        vertices_are (ul_list (ms_points v)) (pg_points g) vs -> inside_part (xy site) (map xy vs) q -> 1 <= fold_right Z.add 0 (map (winding q) (outer :: inner))).
Proof. exact generator_covers. Qed.
Print Assumptions C113_generator_covers_region.

(** a square with a square hole, triangulated with eight more points on its outer border, and a point between the squares *)
Example C113_hypotheses_met : region_made r_frame /\
  Forall2 (fun (h : hole RNum) l => l = map xy (h_points h) \/ l = rev (map xy (h_points h))) (rg_holes r_frame) [map xy gap] /\
  separated (1 / 100000)%R (fun q => In q (frame_seeds ++ getRegionPoints r_frame)) /\
  delaunay_answer (1 / 100000)%R (ring_out RNum) /\ sources_apart (1 / 100000)%R (ring_out RNum) /\
  fills_any (1 / 100000)%R (map xy (rg_p r_frame) :: [map xy gap]) (ring_out RNum) /\ any_domain (1 / 100000)%R (ring_out RNum) /\
  (exists d, read_output (N := RNum) (1 / 100000)%R (ring_out RNum) = Ok d) /\
  even_odd (2, 1 / 2)%R (map xy (rg_p r_frame)) = true /\ Forall (fun h : hole RNum => even_odd (2, 1 / 2)%R (map xy (h_points h)) = false) (rg_holes r_frame).
Proof.
  split; [exact r_frame_made|]. split; [exact frame_sides|]. split; [exact frame_separated|].
  split; [exact ring_answer|]. split; [exact ring_sources|]. split; [exact ring_fills|]. split; [exact ring_domain|]. split; [exact ring_read|]. split; [exact frame_in|exact frame_not_hole].
Qed.

(** C114 *)
Theorem C114_windings_add_up : forall (tol : R), (0 < tol)%R -> forall (o : trout RNum), any_domain tol o -> forall fuel (d : delaunay RNum),
  read_output (N := RNum) tol o = Ok d -> (length (o_tris o) < fuel)%nat ->
  exists m, voronoi (N := RNum) tol fuel d = Ok m /\
    forall q, exists ws ts, Forall2 (fun (g : polygon RNum) x => exists vs, vertices_are (ul_list (ms_points m)) (pg_points g) vs /\ no_short_edge tol (map xy vs) /\ x = winding q (map xy vs) /\ 0 <= x) (ms_polygons m) ws /\
      Forall2 (fun t x => exists A B C, vertices_are (map read_point (o_points o)) (corners t) [A; B; C] /\ x = winding q [xy A; xy B; xy C]) (o_tris o) ts /\
      fold_right Z.add 0 ws = fold_right Z.add 0 ts.
Proof. exact windings_add_up. Qed.
Print Assumptions C114_windings_add_up.

(** C114 *)
Theorem C114_generator_point_location : forall (tol : R) fuel triangulate seeds (r : region RNum) outer inner, (0 < tol)%R -> region_made r ->
  (outer = map xy (rg_p r) \/ outer = rev (map xy (rg_p r))) ->
  Forall2 (fun (h : hole RNum) l => l = map xy (h_points h) \/ l = rev (map xy (h_points h))) (rg_holes r) inner ->
  separated tol (fun q => In q (seeds ++ getRegionPoints r)) ->
  exists inp, build_pslg (N := RNum) tol (region_copy r) seeds [] = Ok inp /\ in_holes inp = map (fun h : hole RNum => xy (h_center h)) (rg_holes r) /\
    let o := triangulate swConforming inp in
    delaunay_answer tol o -> sources_apart tol o -> fills_any tol (outer :: inner) o -> (length (o_tris o) < fuel)%nat ->
    exists v m, voronoiGenerator (N := RNum) tol triangulate fuel seeds r = Ok (v, m) /\ ul_list (ms_points m) = map read_point (o_points o) /\
      (forall q : Point RNum, exists es, Forall2 (fun (g : polygon RNum) e => exists vs b, vertices_are (ul_list (ms_points v)) (pg_points g) vs /\ e = even_odd (xy q) (map xy vs) /\
          containsPoint (N := RNum) tol (pg_points g) (ul_list (ms_points v)) q = Ok b /\ (b = true <-> e = true \/ near_border tol (xy q) (map xy vs))) (ms_polygons v) es /\
        parity es = xorb (even_odd (xy q) (map xy (rg_p r))) (parity (map (fun h : hole RNum => even_odd (xy q) (map xy (h_points h))) (rg_holes r))) /\
        0 <= fold_right Z.add 0 (map (winding (xy q)) (outer :: inner)) /\
        (fold_right Z.add 0 (map (winding (xy q)) (outer :: inner)) <= 1 ->
           Z.of_nat (count_occ bool_dec es true) = fold_right Z.add 0 (map (winding (xy q)) (outer :: inner)))).
Proof. exact generator_locates. Qed.
Print Assumptions C114_generator_point_location.

(** the outlines go around the point between the squares once, and around a point in the hole and a point outside not at all *)
Example C114_hypotheses_met :
  fold_right Z.add 0 (map (winding (2, 1 / 2)%R) (map xy (rg_p r_frame) :: [map xy gap])) = 1 /\
  fold_right Z.add 0 (map (winding (0, 1 / 2)%R) (map xy (rg_p r_frame) :: [map xy gap])) = 0 /\
  fold_right Z.add 0 (map (winding (5, 1 / 2)%R) (map xy (rg_p r_frame) :: [map xy gap])) = 0.
Proof. exact frame_windings. Qed.
