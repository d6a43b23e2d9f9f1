(** The Voronoi generator on a convex region: the cells tile the region. *)
From Coq Require Import Reals Lra Lia ZArith List Bool Permutation.
From Verif Require Import Base Spec MUtil MGeom MHull MPolygon MMaps MTriangle MGen MRegion MDelaunay MVoronoi Bridge BridgeTile BridgeHist BridgeFill.
From Verif Require Import PUtil PPoint PRegion PDelaunay PVoronoi PVorCell PHist PTile6 PFill PFill2.
Import ListNotations.
Local Open Scope Z_scope.

Lemma generator_tiles (tol : R) fuel triangulate seeds (r : region RNum) outline : (0 < tol)%R -> region_made r -> rg_holes r = [] ->
  (outline = map xy (rg_p r) \/ outline = rev (map xy (rg_p r))) -> convex_outline outline ->
  separated tol (fun q => In q (seeds ++ rg_p r)) ->
  (forall q q', In q (seeds ++ rg_p r) -> In q' (seeds ++ rg_p r) -> coincide tol (xy q) (xy q') -> xy q = xy q') ->
  exists inp, build_pslg (N := RNum) tol (region_copy r) seeds [] = Ok inp /\
    (forall x, In x (in_points inp) <-> In x (map xy (seeds ++ rg_p r))) /\
    let o := triangulate swConforming inp in
    delaunay_answer tol o -> sources_apart tol o -> fills tol outline (in_points inp) o -> (length (o_tris o) < fuel)%nat ->
    exists v m areas, voronoiGenerator (N := RNum) tol triangulate fuel seeds r = Ok (v, m) /\
      ul_list (ms_points m) = map read_point (o_points o) /\
      Forall2 (fun k (g : polygon RNum) => exists site vs, vertices_are (ul_list (ms_points m)) [k] [site] /\
        vertices_are (ul_list (ms_points v)) (pg_points g) vs /\ strictly_convex (map xy vs) /\
        forall x, in_hull (map xy vs) x <-> in_hull outline x /\ voronoi_region (map xy (ul_list (ms_points m))) (xy site) x)
        (dedup (flat_map corners (o_tris o))) (ms_polygons v) /\
      (forall x, in_hull outline x -> exists g vs, In g (ms_polygons v) /\ vertices_are (ul_list (ms_points v)) (pg_points g) vs /\ in_hull (map xy vs) x) /\
      (forall i j g g' vs vs' x, nth_error (ms_polygons v) i = Some g -> nth_error (ms_polygons v) j = Some g' -> i <> j ->
         vertices_are (ul_list (ms_points v)) (pg_points g) vs -> vertices_are (ul_list (ms_points v)) (pg_points g') vs' ->
         (forall a b, In (a, b) (edges_of (map xy vs)) -> (0 < orient a b x)%R) -> ~ in_hull (map xy vs') x) /\
      Forall2 (fun g a => exists g', getArea (N := RNum) g (ul_list (ms_points v)) = Ok (g', a)) (ms_polygons v) areas /\
      sumR areas = shoelace outline.
Proof.
  intros TP M NH EO CO SE AP.
  assert (RP : getRegionPoints r = rg_p r) by (unfold getRegionPoints; rewrite NH; apply app_nil_r).
  assert (SE' : separated tol (fun q => In q (seeds ++ getRegionPoints (region_copy r)))) by (change (getRegionPoints (region_copy r)) with (getRegionPoints r); rewrite RP; exact SE).
  destruct (build_pslg_correct tol TP (region_copy r) seeds [] (rm_copy _ M) SE') as (pl & ss & rs & vs & E & _ & _ & INC & C & _).
  change (getRegionPoints (region_copy r)) with (getRegionPoints r) in INC, C. rewrite RP in INC, C.
  eexists. split; [exact E|]. cbn [in_points].
  assert (IP : forall x, In x (map xy pl) <-> In x (map xy (seeds ++ rg_p r))).
  { intros x. split; intros H; apply in_map_iff in H as (q & <- & H); [apply in_map, INC, H|].
    destruct (C q H) as (y & Hy & K). rewrite <- (AP y q (INC y Hy) H K). apply in_map, Hy. }
  split; [exact IP|]. cbn zeta. set (o := triangulate swConforming _). intros DA SA FL L.
  pose proof (fill_domain tol TP outline (map xy pl) o DA SA CO FL) as CD.
  destruct (read_output_total tol o (da_triangulation _ _ DA) (delaunay_proper o (da_delaunay _ _ DA))) as (d & RO).
  destruct (delaunay_mesh tol TP o d (da_triangulation _ _ DA) RO (da_separated _ _ DA) (da_apart _ _ DA)) as (m & _ & Em & _ & P1 & _ & _).
  destruct (tiles_exact tol TP o CD fuel d RO L) as (v & Ev & X1).
  destruct (tiles_cover tol TP o CD fuel d RO L (fl_used _ _ _ _ FL)) as (v' & Ev' & X2 & X3). rewrite Ev in Ev'. assert (K : forall A (x y : A), Ok x = Ok y -> x = y) by congruence. apply K in Ev'. subst v'.
  destruct (areas_add_up tol TP o CD fuel d RO L) as (v' & areas & tas & Ev' & X4 & X5 & X6). rewrite Ev in Ev'. apply K in Ev'. subst v'.
  assert (OG : incl outline (map xy pl)).
  { intros x Hx. apply IP. rewrite map_app. apply in_or_app. right. destruct EO as [->| ->]; [exact Hx|apply in_rev; exact Hx]. }
  pose proof (fun x => fill_hull tol outline (map xy pl) o FL x OG) as HU.
  exists v, m, areas. split; [|split; [exact P1|split; [|split; [|split; [exact X3|split; [exact X4|]]]]]].
  - unfold voronoiGenerator, ensure. cbn [gen_ctor gn_data]. unfold callTriangle. cbn [gen_ctor gn_region gn_seeds]. rewrite E. fold o. rewrite RO. cbn [bind]. rewrite Em. cbn [bind]. rewrite Ev. reflexivity.
  - rewrite P1. eapply PVorCell.Forall2_weaken; [|exact X1]. intros k g (site & ws & A1 & A2 & A3 & A4). exists site, ws. split; [exact A1|]. split; [exact A2|]. split; [exact A3|].
    intros x. rewrite A4, HU. reflexivity.
  - intros x Hx. apply X2, HU, Hx.
  - rewrite X6. exact (fill_area tol outline (map xy pl) o DA FL tas X5).
Qed.
