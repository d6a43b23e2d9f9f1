(** The Voronoi generator tiles a convex region: property C111. *)
From Coq Require Import Reals Lra List.
From Verif Require Import Base Spec MUtil MGeom MHull MPolygon MMaps MTriangle MGen MRegion MDelaunay MVoronoi Bridge BridgeTile BridgeHist BridgeFill.
From Verif Require Import PDelaunay PVoronoi PHist PFill3 Samples15.
Import ListNotations.
Open Scope Z_scope.

(** C111 *)
Theorem C111_generator_tiles_convex_region : forall (tol : R) fuel triangulate seeds (r : region RNum) outline, (0 < tol)%R -> region_made r -> rg_holes r = [] ->
  (outline = map xy (rg_p r) \/ outline = rev (map xy (rg_p r))) -> convex_outline outline ->
  separated tol (fun q => In q (seeds ++ rg_p r)) ->
  (forall q q', In q (seeds ++ rg_p r) -> In q' (seeds ++ rg_p r) -> coincide tol (xy q) (xy q') -> xy q = xy q') ->
  exists inp, build_pslg (N := RNum) tol (region_copy r) seeds [] = Ok inp /\
    (forall x, In x (in_points inp) <-> In x (map xy (seeds ++ rg_p r))) /\
    let o := triangulate swConforming inp in
    delaunay_answer tol o -> sources_apart tol o -> fills tol outline (in_points inp) o -> (length (o_tris o) < fuel)%nat ->
    exists v m areas, voronoiGenerator (N := RNum) tol triangulate fuel seeds r = Ok (v, m) /\
      ul_list (ms_points m) = map read_point (o_points o) /\
      Forall2 (fun k (g : polygon RNum) => exists site vs, vertices_are (ul_list (ms_points m)) [k] [site] /\
        vertices_are (ul_list (ms_points v)) (pg_points g) vs /\ strictly_convex (map xy vs) /\
        forall x, in_hull (map xy vs) x <-> in_hull outline x /\ voronoi_region (map xy (ul_list (ms_points m))) (xy site) x)
        (dedup (flat_map corners (o_tris o))) (ms_polygons v) /\
      (forall x, in_hull outline x -> exists g vs, In g (ms_polygons v) /\ vertices_are (ul_list (ms_points v)) (pg_points g) vs /\ in_hull (map xy vs) x) /\
      (forall i j g g' vs vs' x, nth_error (ms_polygons v) i = Some g -> nth_error (ms_polygons v) j = Some g' -> i <> j ->
         vertices_are (ul_list (ms_points v)) (pg_points g) vs -> vertices_are (ul_list (ms_points v)) (pg_points g') vs' ->
         (forall a b, In (a, b) (edges_of (map xy vs)) -> (0 < orient a b x)%R) -> ~ in_hull (map xy vs') x) /\
      Forall2 (fun g a => exists g', getArea (N := RNum) g (ul_list (ms_points v)) = Ok (g', a)) (ms_polygons v) areas /\
      sumR areas = shoelace outline.
Proof. exact generator_tiles. Qed.
Print Assumptions C111_generator_tiles_convex_region.

(** a square with one seed in it, triangulated with four more points on its border *)
Example C111_hypotheses_met : region_made r_win /\ (rg_holes r_win = []) /\ convex_outline (map xy (rg_p r_win)) /\
  separated (1 / 100000)%R (fun q => In q (win_seeds ++ rg_p r_win)) /\
  (forall q q', In q (win_seeds ++ rg_p r_win) -> In q' (win_seeds ++ rg_p r_win) -> coincide (1 / 100000)%R (xy q) (xy q') -> xy q = xy q') /\
  delaunay_answer (1 / 100000)%R (win_out RNum) /\ sources_apart (1 / 100000)%R (win_out RNum) /\
  forall given, (forall x, In x given <-> In x (map xy (win_seeds ++ rg_p r_win))) -> fills (1 / 100000)%R (map xy (rg_p r_win)) given (win_out RNum).
Proof.
  split; [exact r_win_made|]. split; [exact (proj2 r_win_parts)|]. split; [exact win_convex|]. split; [exact win_separated|]. split; [exact win_apart|].
  split; [exact win_answer|]. split; [exact win_sources|exact win_fills].
Qed.
