(** The Voronoi generator and the documented program on doubles: what they store adds up to the region. *)
From Coq Require Import Reals Lra Lia ZArith SpecFloat List Bool Permutation.
From Flocq Require Import Core BinarySingleNaN.
From Verif Require Import Base Spec SpecNum MUtil MGeom MHull MPolygon MMaps MTriangle MGen MRegion MDelaunay MVoronoi MMesh MFormat MHist MFile MProgram Bridge BridgeNum BridgeHist BridgeVor64 Bridge64 BridgeProg BridgeTile BridgeFill BridgeAny BridgeWind BridgeSimple BridgeSimple64 BridgeJordan BridgeRound.
From Verif Require Import PUtil PPoint PPoly PPoly2 PTri PMore PContains PRegion PDelaunay PVoronoi PFan PVorGeo PVorCell PTile PTile2 PTile3 PTile4 PTile5 PTile6 PDual PAny PAny2 PAny3 PFill PFill2 PPipe64 PVor64 PVor64b PHist64 PWind PAny4 PAny5 PAny6 PWind2 PWind3 PWind4 PSimple PSimple2 PSimple3 PSimple64 PRound PRound2 PRound3 PRound4 PJordan5.
From Verif Require PReg64 PProgram.
Import ListNotations.
Local Open Scope Z_scope.

Definition sweep (a b : pt) : R := (vcross a b / 2)%R.
Lemma sweep_additive : additive sweep.
Proof. split; [intros a b; unfold sweep, vcross; lra|]. intros a b c O. unfold sweep, orient, vcross, vsub in *. cbn [fst snd] in *. lra. Qed.
Lemma loop_sweep vs : loop_w sweep vs = shoelace vs.
Proof.
  unfold loop_w, along_w, shoelace, sweep. induction (edges_of vs) as [|x es IH]; [cbn; lra|]. cbn [map]. unfold sumR in *. cbn [fold_right]. rewrite IH. lra.
Qed.

Lemma region_exact (tol : f64) outlines (o : trout F64) : fills_region64 tol outlines o -> fills_region (val tol) outlines (exact_output o).
Proof.
  intros [H1 H2 H3]. constructor.
  - destruct H1 as (rings & H & ND & F). exists rings. split; [exact H|]. split; [exact ND|]. eapply Forall2_weaken; [|exact F].
    intros ring outline (rs & V & S). exists (map PGrid.real_point rs). split; [rewrite exact_points; apply real_vertices, V|]. rewrite map_map. exact S.
  - intros a b A B HB V. unfold output_sites. rewrite exact_sites. rewrite exact_points in V. apply vertices_real in V as (vs & V & E). destruct vs as [|A' [|B' [|? ?]]]; try discriminate. injection E as -> ->. exact (H2 a b A' B' HB V).
  - intros a b c A B C B1 B2 V. rewrite exact_points in V. apply vertices_real in V as (vs & V & E). destruct vs as [|A' [|B' [|C' [|? ?]]]]; try discriminate. injection E as -> -> ->. exact (H3 a b c A' B' C' B1 B2 V).
Qed.

Section Region.
  Variables (e m : Z) (tol : f64) (fuel : nat) (r : region F64) (outer : list pt) (inner : list (list pt)) (o : trout F64).
  Hypothesis He : -199 <= e <= 200.
  Hypothesis Hm : 0 <= m <= 16.
  Hypothesis Ht : tolerance64 tol.
  Hypothesis EO : outer = map xyv (rg_p r) \/ outer = rev (map xyv (rg_p r)).
  Hypothesis SO : (0 <= shoelace outer)%R.
  Hypothesis HO : Forall2 (fun (h : hole F64) l => (l = map xyv (h_points h) \/ l = rev (map xyv (h_points h))) /\ (shoelace l <= 0)%R) (rg_holes r) inner.
  Hypothesis PL : plain (outer :: inner).
  Hypothesis DA : delaunay_answer64 e m tol o.
  Hypothesis SA : sources_apart64 tol o.
  Hypothesis FR64 : fills_region64 tol (outer :: inner) o.
  Let FR := region_exact tol (outer :: inner) o FR64.
  Hypothesis LF : (length (o_tris o) < fuel)%nat.
  Lemma outlines_once q : sumZ (map (winding q) (outer :: inner)) = if region_holds64 r q then 1 else 0.
  Proof.
    destruct (small_answer e m tol Ht o DA) as (t & _ & A).
    assert (P : 0 <= sumZ (map (winding q) (outer :: inner))).
    { apply le_IZR. rewrite <- sumR_IZR, map_map. rewrite <- (map_ext _ _ (loop_winding q)).
      rewrite <- (rings_fill_w (outer :: inner) (exact_output o) (tg_corners _ _ _ (da_triangulation _ _ A)) (proj2 (da_delaunay _ _ A)) (fr_rings _ _ _ FR) _ (fw_additive q)).
      apply sumR_nonneg. intros y Hy. apply in_map_iff in Hy as (x & <- & Hx). exact (at_nonneg t (exact_output o) A q x Hx). }
    pose proof (PL q) as L. assert (RP : Z.odd (sumZ (map (winding q) (outer :: inner))) = region_holds64 r q) by exact (region_parity64 r outer inner q EO HO).
    assert (K : sumZ (map (winding q) (outer :: inner)) = 0 \/ sumZ (map (winding q) (outer :: inner)) = 1) by (clear - P L; lia).
    destruct K as [K|K]; rewrite K in RP |- *; rewrite <- RP; reflexivity.
  Qed.
  Lemma answer_adds_up d : read_output (N := F64) tol o = Ok d -> exists mm, voronoi (N := F64) tol fuel d = Ok mm /\ adds_up64 r o mm.
  Proof.
    intros RO. destruct (cells_add_up e He m Hm tol Ht o DA SA (outer :: inner) FR PL d RO fuel LF) as (mm & zss & E & L & F & S). exists mm. split; [exact E|]. exists zss. split; [exact L|]. split; [exact F|]. split.
    - rewrite <- (signed_areas64 r outer inner EO SO HO). transitivity (sumR (map (loop_w sweep) (outer :: inner))); [rewrite <- (S _ sweep_additive)|]; f_equal; apply map_ext; intros zs; [symmetry|]; apply loop_sweep.
    - intros q. assert (W : fold_right Z.add 0 (map (fun zs => winding q (map rounded zs)) zss) = if region_holds64 r q then 1 else 0).
      { rewrite <- outlines_once. apply eq_IZR. rewrite <- !sumR_IZR, !map_map. transitivity (sumR (map (loop_w (fw q)) (outer :: inner))); [rewrite <- (S _ (fw_additive q))|]; f_equal; apply map_ext; intros zs; [symmetry|]; apply loop_winding. }
      split; [exact W|]. exists (map (fun zs => Z.odd (winding q (map rounded zs))) zss). split.
      + clear - F L. revert L F. generalize (ms_polygons mm) as gs. generalize (dedup (flat_map corners (o_tris o))) as ks. intros ks gs. revert ks zss. induction gs as [|g gs IH]; intros [|k ks] zss L F; try discriminate L; cbn [combine] in F; inversion F as [|? zs ? zss' (site & vs & _ & VS & EV & _) F' X Y]; subst; cbn [map]; constructor.
        * exists vs. split; [exact VS|]. rewrite winding_odd. destruct EV as [-> | ->]; [reflexivity|]. rewrite map_rev. symmetry. apply even_odd_rev.
        * apply (IH ks); [injection L; auto|exact F'].
      + rewrite <- (map_map (fun zs => winding q (map rounded zs)) Z.odd), sum_parity, W. destruct (region_holds64 r q); reflexivity.
  Qed.
End Region.

Lemma generator_adds_up (e m : Z) (tol : f64) fuel (triangulate : switches -> pslg F64 -> trout F64) (seeds : list (Point F64)) (r : region F64) outer inner :
  -199 <= e <= 200 -> 0 <= m <= 16 -> tolerance64 tol -> region_made r -> clustered tol (fun q => In q (seeds ++ getRegionPoints r)) ->
  (outer = map xyv (rg_p r) \/ outer = rev (map xyv (rg_p r))) -> (0 <= shoelace outer)%R ->
  Forall2 (fun (h : hole F64) l => (l = map xyv (h_points h) \/ l = rev (map xyv (h_points h))) /\ (shoelace l <= 0)%R) (rg_holes r) inner -> plain (outer :: inner) ->
  exists inp, build_pslg (N := F64) tol (region_copy r) seeds [] = Ok inp /\
    let o := triangulate swConforming inp in
    delaunay_answer64 e m tol o -> sources_apart64 tol o -> fills_region64 tol (outer :: inner) o -> (length (o_tris o) < fuel)%nat ->
    exists v mm, voronoiGenerator (N := F64) tol triangulate fuel seeds r = Ok (v, mm) /\ ul_list (ms_points mm) = map read_point (o_points o) /\ adds_up64 r o v.
Proof.
  intros He Hm Ht M CL EO SO HO PL.
  destruct (pslg_doubles tol Ht (region_copy r) seeds [] (rm_copy _ M)) as (pl & ss & rs & vs & E & _ & _ & C & _).
  { cbn [flat_map]. rewrite app_nil_r. exact CL. }
  eexists. split; [exact E|]. cbn zeta. set (o := triangulate swConforming _). intros DA SA FR L. pose proof DA as [T G D F S A].
  destruct (inner_cells_near e m tol fuel o ltac:(lia) Hm Ht T G D F L) as (d & v0 & RO & _).
  destruct (answer_adds_up e m tol fuel r outer inner o He Hm Ht EO SO HO PL DA SA FR L d RO) as (v & Ev & AU).
  destruct (mesh_doubles tol Ht o d T RO S A) as (mm & _ & Em & _ & P1 & _).
  exists v, mm. split; [|split; [exact P1|exact AU]].
  unfold voronoiGenerator, ensure. cbn [gen_ctor gn_data]. unfold callTriangle. cbn [gen_ctor gn_region gn_seeds]. rewrite E. fold o. rewrite RO. cbn [bind]. rewrite Em. cbn [bind]. rewrite Ev. reflexivity.
Qed.
Lemma program_adds_up (e m : Z) (tol : f64) fuel (triangulate : switches -> pslg F64 -> trout F64) (order : list iseg -> list iseg)
    (home : text) (d : disk) (name : text) (pts : list (Point F64)) (os : list (region_op F64)) (r0 r : region F64) outer inner :
  -199 <= e <= 200 -> 0 <= m <= 16 -> tolerance64 tol -> (forall l, Permutation (order l) l) ->
  Forall op_built64 os -> region_ctor (N := F64) tol pts = Ok r0 -> region_run (N := F64) tol r0 os = Ok r ->
  clustered tol (fun q => In q (rg_seeds r ++ getRegionPoints r)) -> dk_writable d (home ++ slash :: name) = true ->
  (outer = map xyv (rg_p r) \/ outer = rev (map xyv (rg_p r))) -> (0 <= shoelace outer)%R ->
  Forall2 (fun (h : hole F64) l => (l = map xyv (h_points h) \/ l = rev (map xyv (h_points h))) /\ (shoelace l <= 0)%R) (rg_holes r) inner -> plain (outer :: inner) ->
  exists inp, build_pslg (N := F64) tol (region_copy r) (rg_seeds r) [] = Ok inp /\
    let o := triangulate swConforming inp in
    delaunay_answer64 e m tol o -> sources_apart64 tol o -> fills_region64 tol (outer :: inner) o -> (length (o_tris o) < fuel)%nat ->
    exists d' v mm t, mesh_program (N := F64) tol print_double triangulate fuel order (Some home) d pts os name = Ok (d', (v, mm)) /\
      dk_text d' (home ++ slash :: name) = Some t /\
      (zlen (ul_list (ms_points v)) < 1000000 -> exists segs, lists_once (fun s => um_find iseg_eqb s (ms_edges v)) segs /\
        mesh_text (N := F64) print_double (ul_list (ms_points v)) segs (map (fun g : polygon F64 => pg_points g) (ms_polygons v)) t) /\
      adds_up64 r o v.
Proof.
  intros He Hm Ht HP HB HC HR CL W EO SO HO PL. pose proof Ht as [Tf Tp]. pose proof (tol_pos tol Ht) as T0.
  destruct (PReg64.region_history64 tol Tf T0 os r0 r (rm_ctor _ _ _ HC) HB HR) as [MR _].
  destruct (PProgram.mesh_program_correct64 e m tol fuel triangulate order home d name pts os r0 r He Hm Ht HP HB HC HR CL W) as (_ & inp & E & _ & G1).
  destruct (generator_adds_up e m tol fuel triangulate (rg_seeds r) r outer inner He Hm Ht MR CL EO SO HO PL) as (inp' & E' & G2).
  assert (K : forall A (x y : A), Ok x = Ok y -> x = y) by congruence. rewrite E in E'. apply K in E'. subst inp'. exists inp. split; [exact E|]. cbn zeta in *. intros DA SA FR L.
  destruct (G1 DA L) as (d' & v & mm & t & X1 & X2 & _ & _ & X3 & X4 & _). destruct (G2 DA SA FR L) as (v' & mm' & Y1 & _ & Y2). rewrite X3 in Y1. apply K in Y1. injection Y1 as <- <-.
  exists d', v, mm, t. auto.
Qed.
(** the direction of the outline, and that it has an inside, follow for simple outlines *)
Lemma simple_program_adds_up (e m : Z) (tol : f64) fuel (triangulate : switches -> pslg F64 -> trout F64) (order : list iseg -> list iseg)
    (home : text) (d : disk) (name : text) (pts : list (Point F64)) (os : list (region_op F64)) (r0 r : region F64) outer inner :
  -199 <= e <= 200 -> 0 <= m <= 16 -> tolerance64 tol -> (forall l, Permutation (order l) l) ->
  Forall op_built64 os -> region_ctor (N := F64) tol pts = Ok r0 -> region_run (N := F64) tol r0 os = Ok r ->
  clustered tol (fun q => In q (rg_seeds r ++ getRegionPoints r)) -> dk_writable d (home ++ slash :: name) = true ->
  (outer = map xyv (rg_p r) \/ outer = rev (map xyv (rg_p r))) ->
  Forall2 (fun (h : hole F64) l => l = map xyv (h_points h) \/ l = rev (map xyv (h_points h))) (rg_holes r) inner -> simple_region outer inner ->
  exists inp, build_pslg (N := F64) tol (region_copy r) (rg_seeds r) [] = Ok inp /\
    let o := triangulate swConforming inp in
    delaunay_answer64 e m tol o -> sources_apart64 tol o -> fills_region64 tol (outer :: inner) o -> (length (o_tris o) < fuel)%nat ->
    exists d' v mm t, mesh_program (N := F64) tol print_double triangulate fuel order (Some home) d pts os name = Ok (d', (v, mm)) /\
      dk_text d' (home ++ slash :: name) = Some t /\
      (zlen (ul_list (ms_points v)) < 1000000 -> exists segs, lists_once (fun s => um_find iseg_eqb s (ms_edges v)) segs /\
        mesh_text (N := F64) print_double (ul_list (ms_points v)) segs (map (fun g : polygon F64 => pg_points g) (ms_polygons v)) t) /\
      adds_up64 r o v.
Proof.
  intros He Hm Ht HP HB HC HR CL W EO HO SR. apply program_adds_up with (r0 := r0); try assumption.
  - left. exact (sr_outer _ _ SR).
  - pose proof (sr_inner _ _ SR) as SI. clear - HO SI. induction HO as [|h l hs inner EL F IH]; [constructor|]. apply Forall_cons_iff in SI as [S1 S2]. constructor; [split; [exact EL|left; exact S1]|apply IH, S2].
  - apply simple_region_plain, SR.
Qed.
