(** The whole Voronoi generator on doubles. *)
From Coq Require Import Reals Lra Lia ZArith SpecFloat List Bool.
From Verif Require Import Base Spec SpecNum MUtil MGeom MHull MPolygon MMaps MTriangle MGen MRegion MDelaunay MVoronoi Bridge BridgeNum BridgeVor64.
From Verif Require Import PUtil PRegion PDelaunay PPipe64 PVor64 PVor64b.
Import ListNotations.
Open Scope Z_scope.

Lemma generator64 (e m : Z) (tol : f64) fuel (triangulate : switches -> pslg F64 -> trout F64) (seeds : list (Point F64)) (r : region F64) :
  -199 <= e <= 200 -> 0 <= m <= 16 -> tolerance64 tol -> region_made r -> clustered tol (fun q => In q (seeds ++ getRegionPoints r)) ->
  exists inp, build_pslg (N := F64) tol (region_copy r) seeds [] = Ok inp /\
    (forall q, In q (seeds ++ getRegionPoints r) -> exists y, In (xy64 y) (in_points inp) /\ near64 tol y q) /\
    let o := triangulate swConforming inp in
    delaunay_answer64 e m tol o -> (length (o_tris o) < fuel)%nat ->
    exists v mm, voronoiGenerator (N := F64) tol triangulate fuel seeds r = Ok (v, mm) /\
      ul_list (ms_points mm) = map read_point (o_points o) /\
      map (fun g : polygon F64 => pg_points g) (ms_polygons mm) = map corners (o_tris o) /\
      (vertices_apart tol o -> vertices_stored_once tol o ->
       Forall2 (fun k (g : polygon F64) => forall ws ts, closed_fan (map fst (o_edges o)) (o_tris o) k ws ts ->
        exists site zs vs, vertices_are (ul_list (ms_points mm)) [k] [site] /\ vertices_are (ul_list (ms_points v)) (pg_points g) vs /\
          (strictly_convex zs \/ strictly_convex (rev zs)) /\ (forall x, voronoi_region (map xyv (ul_list (ms_points mm))) (xyv site) x <-> in_hull zs x) /\
          map xyv vs = map rounded zs)
        (dedup (flat_map corners (o_tris o))) (ms_polygons v)) /\
      (sources_apart64 tol o ->
       Forall2 (fun k (g : polygon F64) => forall w ws w' ts, open_fan (o_edges o) (o_tris o) k w ws w' ts ->
        exists w1 w2 site a b zs vs, (w1 = w /\ w2 = w' \/ w1 = w' /\ w2 = w) /\ (exists t, In t (o_tris o) /\ In (k, w1) (sides t)) /\
          vertices_are (ul_list (ms_points mm)) [k; w1; w2] [site; a; b] /\ vertices_are (ul_list (ms_points v)) (pg_points g) vs /\
          map xyv vs = map rounded zs /\ (forall z, In z zs -> true_source o z) /\
          (gabriel_edge (map xyv (ul_list (ms_points mm))) (xyv site) (xyv a) -> gabriel_edge (map xyv (ul_list (ms_points mm))) (xyv site) (xyv b) ->
           convex_corner (xyv site) (xyv a) (xyv b) -> (forall s, In s (map xyv (ul_list (ms_points mm))) -> wedge (xyv site) (xyv a) (xyv b) s) ->
           (orient (xyv site) (xyv a) (xyv b) = 0 \/ 4 * val tol <= orient (xyv site) (xyv a) (xyv b))%R ->
           (strictly_convex zs \/ strictly_convex (rev zs)) /\
           forall x, in_hull zs x <-> voronoi_region (map xyv (ul_list (ms_points mm))) (xyv site) x /\ wedge (xyv site) (xyv a) (xyv b) x))
        (dedup (flat_map corners (o_tris o))) (ms_polygons v)).
Proof.
  intros He Hm Ht M CL.
  destruct (pslg_doubles tol Ht (region_copy r) seeds [] (rm_copy _ M)) as (pl & ss & rs & vs & E & _ & _ & C & _).
  { cbn [flat_map]. rewrite app_nil_r. exact CL. }
  eexists. split; [exact E|]. split.
  - intros q Hq. destruct (C q Hq) as (y & Hy & K). exists y. split; [|exact K]. cbn [in_points]. apply in_map. exact Hy.
  - cbn zeta. set (o := triangulate swConforming _). intros [T G D F S A] L.
    destruct (inner_cells_near e m tol fuel o ltac:(lia) Hm Ht T G D F L) as (d & v & RO & Ev & _).
    destruct (mesh_doubles tol Ht o d T RO S A) as (mm & _ & Em & _ & P1 & _ & P2 & _).
    exists v, mm. split; [|split; [exact P1|split; [exact P2|]]].
    + unfold voronoiGenerator, ensure. cbn [gen_ctor gn_data]. unfold callTriangle. cbn [gen_ctor gn_region gn_seeds]. rewrite E. fold o. rewrite RO. cbn [bind]. rewrite Em. cbn [bind]. rewrite Ev. reflexivity.
    + rewrite P1. fold (sites64 o). split.
      * intros VA VS. destruct (inner_cells_exactly e m tol fuel o ltac:(lia) Hm Ht T G D F L VA VS) as (d' & v' & RO' & Ev' & R).
        rewrite RO in RO'. injection RO' as <-. rewrite Ev in Ev'. injection Ev' as <-. exact R.
      * intros SA. destruct (border_cells_exactly e m tol fuel o He Hm Ht T G D F L SA) as (d' & v' & RO' & Ev' & R).
        rewrite RO in RO'. injection RO' as <-. rewrite Ev in Ev'. injection Ev' as <-. exact R.
Qed.
