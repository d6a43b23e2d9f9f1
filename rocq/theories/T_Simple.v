(** Regions whose outlines go around no point more than once, convex ones among them: properties C115 and C116. *)
From Coq Require Import Reals Lra Lia List Bool.
From Verif Require Import Base Spec MUtil MGeom MHull MPolygon MMaps MTriangle MGen MRegion MDelaunay MVoronoi Bridge BridgeTile BridgeHist BridgeFill BridgeAny BridgeWind BridgeSimple.
From Verif Require Import PContains PDelaunay PVoronoi PHist PSimple2 PSimple3 PSimple4 Samples16 Samples17 Samples18.
Import ListNotations.
Open Scope Z_scope.

(** C115 *)
Theorem C115_cells_tile_region : forall (tol : R) fuel triangulate seeds (r : region RNum) outer inner, (0 < tol)%R -> region_made r ->
  (outer = map xy (rg_p r) \/ outer = rev (map xy (rg_p r))) -> (0 <= shoelace outer)%R ->
  Forall2 (fun (h : hole RNum) l => (l = map xy (h_points h) \/ l = rev (map xy (h_points h))) /\ (shoelace l <= 0)%R) (rg_holes r) inner ->
  plain (outer :: inner) -> separated tol (fun q => In q (seeds ++ getRegionPoints r)) ->
  exists inp, build_pslg (N := RNum) tol (region_copy r) seeds [] = Ok inp /\ in_holes inp = map (fun h : hole RNum => xy (h_center h)) (rg_holes r) /\
    let o := triangulate swConforming inp in
    delaunay_answer tol o -> sources_apart tol o -> fills_region tol (outer :: inner) o -> (length (o_tris o) < fuel)%nat ->
    exists v m areas, voronoiGenerator (N := RNum) tol triangulate fuel seeds r = Ok (v, m) /\ ul_list (ms_points m) = map read_point (o_points o) /\
      Forall2 (fun k (g : polygon RNum) => exists site vs, vertices_are (ul_list (ms_points m)) [k] [site] /\
        vertices_are (ul_list (ms_points v)) (pg_points g) vs /\ (forall x y, In (x, y) (edges_of (map xy vs)) -> (0 <= orient (xy site) x y)%R) /\
        forall x, seen_part (xy site) (map xy vs) x -> voronoi_region (map xy (ul_list (ms_points m))) (xy site) x)
        (dedup (flat_map corners (o_tris o))) (ms_polygons v) /\
      Forall2 (fun g a => exists g', getArea (N := RNum) g (ul_list (ms_points v)) = Ok (g', a)) (ms_polygons v) areas /\
      sumR areas = (Rabs (shoelace (map xy (rg_p r))) - sumR (map (fun h : hole RNum => Rabs (shoelace (map xy (h_points h)))) (rg_holes r)))%R /\
      forall q : Point RNum, exists es ts, Forall2 (holds_point tol (ul_list (ms_points v)) q) (ms_polygons v) es /\ Forall2 (holds_point tol (ul_list (ms_points m)) q) (ms_polygons m) ts /\
        (count_occ bool_dec es true = if region_holds r (xy q) then 1%nat else 0%nat) /\ (count_occ bool_dec ts true = if region_holds r (xy q) then 1%nat else 0%nat) /\
        (region_holds r (xy q) = true -> exists k g site vs, In (k, g) (combine (dedup (flat_map corners (o_tris o))) (ms_polygons v)) /\ vertices_are (ul_list (ms_points m)) [k] [site] /\
          vertices_are (ul_list (ms_points v)) (pg_points g) vs /\ seen_part (xy site) (map xy vs) (xy q) /\ voronoi_region (map xy (ul_list (ms_points m))) (xy site) (xy q)).
Proof. exact generator_tiles. Qed.
Print Assumptions C115_cells_tile_region.

(** C115 *)
Theorem C115_convex_outlines_plain : forall outer inner, strictly_convex outer -> Forall (fun l => strictly_convex (rev l)) inner -> plain (outer :: inner).
Proof. exact convex_plain. Qed.
Print Assumptions C115_convex_outlines_plain.

(** C115 *)
Theorem C115_plain_is_on_inner_side : forall (tol : R), (0 < tol)%R -> forall outlines (o : trout RNum), delaunay_answer tol o -> fills_region tol outlines o -> plain outlines -> fills_any tol outlines o.
Proof. exact region_any. Qed.
Print Assumptions C115_plain_is_on_inner_side.

(** a square with a square hole, triangulated with eight more points on its outer border *)
Example C115_hypotheses_met : region_made r_frame /\ (0 <= shoelace (map xy (rg_p r_frame)))%R /\
  Forall2 (fun (h : hole RNum) l => (l = map xy (h_points h) \/ l = rev (map xy (h_points h))) /\ (shoelace l <= 0)%R) (rg_holes r_frame) [map xy gap] /\
  strictly_convex (map xy (rg_p r_frame)) /\ Forall (fun l => strictly_convex (rev l)) [map xy gap] /\ plain (map xy (rg_p r_frame) :: [map xy gap]) /\
  separated (1 / 100000)%R (fun q => In q (frame_seeds ++ getRegionPoints r_frame)) /\
  delaunay_answer (1 / 100000)%R (ring_out RNum) /\ sources_apart (1 / 100000)%R (ring_out RNum) /\
  fills_region (1 / 100000)%R (map xy (rg_p r_frame) :: [map xy gap]) (ring_out RNum).
Proof.
  split; [exact r_frame_made|]. split; [exact frame_outer|]. split; [exact frame_inner|]. split; [exact (proj1 frame_convex)|]. split; [exact (proj2 frame_convex)|]. split; [exact frame_plain|]. split; [exact frame_separated|].
  split; [exact ring_answer|]. split; [exact ring_sources|exact ring_region].
Qed.

(** C116 *)
Theorem C116_triangles_apart : forall (tol : R) outlines (o : trout RNum), triangle_answer tol outlines o -> plain outlines ->
  forall t t' A B C A' B' C' q, In t (o_tris o) -> In t' (o_tris o) -> vertices_are (map read_point (o_points o)) (corners t) [A; B; C] -> vertices_are (map read_point (o_points o)) (corners t') [A'; B'; C'] ->
    (0 < orient (xy A) (xy B) q /\ 0 < orient (xy B) (xy C) q /\ 0 < orient (xy C) (xy A) q)%R -> (0 < orient (xy A') (xy B') q /\ 0 < orient (xy B') (xy C') q /\ 0 < orient (xy C') (xy A') q)%R -> t = t'.
Proof. exact triangles_apart. Qed.
Print Assumptions C116_triangles_apart.

(** C116 *)
Theorem C116_triangles_tile_region : forall (tol : R) triangulate seeds (r : region RNum) (c : gen_call RNum) restricted outer inner, (0 < tol)%R -> region_made r ->
  (c = CallConstrained /\ restricted = [] \/ c = CallConstrainedWith restricted) ->
  (outer = map xy (rg_p r) \/ outer = rev (map xy (rg_p r))) -> (0 <= shoelace outer)%R ->
  Forall2 (fun (h : hole RNum) l => (l = map xy (h_points h) \/ l = rev (map xy (h_points h))) /\ (shoelace l <= 0)%R) (rg_holes r) inner ->
  plain (outer :: inner) -> separated tol (fun q => In q (seeds ++ getRegionPoints r)) ->
  exists inp, build_pslg (N := RNum) tol (region_copy r) seeds restricted = Ok inp /\ in_holes inp = map (fun h : hole RNum => xy (h_center h)) (rg_holes r) /\
    let o := triangulate swConstrained inp in triangle_answer tol (outer :: inner) o ->
    exists g m areas, gen_do (N := RNum) triangulate tol (gen_ctor seeds r) c = (g, Ok (OutMesh (ByValue m))) /\ ul_list (ms_points m) = map read_point (o_points o) /\
      Forall2 (fun (t : triangle RNum) a => exists g', getArea (N := RNum) (tr_poly t) (ul_list (ms_points m)) = Ok (g', a) /\ (0 < a)%R) (ms_polygons m) areas /\
      sumR areas = (Rabs (shoelace (map xy (rg_p r))) - sumR (map (fun h : hole RNum => Rabs (shoelace (map xy (h_points h)))) (rg_holes r)))%R /\
      forall q : Point RNum, exists es, Forall2 (fun (t : triangle RNum) e => holds_point tol (ul_list (ms_points m)) q (tr_poly t) e) (ms_polygons m) es /\
        count_occ bool_dec es true = if region_holds r (xy q) then 1%nat else 0%nat.
Proof. exact constrained_tiles. Qed.
Print Assumptions C116_triangles_tile_region.

(** an L, cut into four triangles *)
Example C116_hypotheses_met : region_made r_ell /\ (0 <= shoelace (map xy (rg_p r_ell)))%R /\
  Forall2 (fun (h : hole RNum) l => (l = map xy (h_points h) \/ l = rev (map xy (h_points h))) /\ (shoelace l <= 0)%R) (rg_holes r_ell) [] /\
  plain [map xy (rg_p r_ell)] /\ separated (1 / 100000)%R (fun q => In q ([] ++ getRegionPoints r_ell)) /\ triangle_answer (1 / 100000)%R [map xy (rg_p r_ell)] (ell_out RNum).
Proof.
  split; [exact r_ell_made|]. split; [exact ell_outer|]. split; [rewrite (proj2 r_ell_points); constructor|]. split; [exact ell_plain|]. split; [exact ell_separated|exact ell_answer].
Qed.
