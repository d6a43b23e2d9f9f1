(** Example data for T_Round: an acute triangle on doubles, whose Voronoi vertex (3/2, 7/6) is not a double. *)
From Coq Require Import Reals Lra Lia ZArith SpecFloat List Bool.
From Flocq Require Import Core BinarySingleNaN.
From Verif Require Import Base Spec MUtil MGeom MHull MPolygon MMaps MTriangle MGen MRegion MDelaunay MVoronoi MHist Bridge BridgeNum BridgeVor64 BridgeTile BridgeHist BridgeFill BridgeAny BridgeWind BridgeSimple BridgeSimple64 BridgeJordan BridgeRound.
From Verif Require Import PUtil PPoint PFloat PGrid PGrid3 PGrid4 PContains PTri PPoly2 PRegion PDelaunay PVoronoi PFan PVorGeo PVorCell PTile4 PTile5 PFill PAny6 PSimple3 PSimple4 PVor64 PVor64b PPipe64 Samples11 Samples Samples4 Samples5 Samples6 Samples7 Samples8 Samples10 Samples12 Samples13 Samples15 Samples16 Samples17 Samples18 Samples19 Samples20.
Import ListNotations.
Local Open Scope Z_scope.

Definition wedge_out (N : Num) : trout N :=
  mkTrout (N := N) [(nZ 0, nZ 0, 1); (nZ 3, nZ 0, 1); (nZ 1, nZ 3, 1)] [(0, 1, 1); (1, 2, 1); (2, 0, 1)] [(0, 1, 2)].
Definition wedge64 : list (Point F64) := [zpt 0 0; zpt 3 0; zpt 1 3].
Definition r_wedge64 : region F64 := ok_or r_none (region_ctor (N := F64) tol64 wedge64).
Lemma r_wedge64_ctor : region_ctor (N := F64) tol64 wedge64 = Ok r_wedge64.
Proof. unfold r_wedge64. destruct (region_ctor (N := F64) tol64 wedge64) eqn:E; [reflexivity|]. exfalso.
  assert (K : (match region_ctor (N := F64) tol64 wedge64 with Ok _ => true | Err _ => false end) = true) by (vm_compute; reflexivity). rewrite E in K. discriminate. Qed.
Lemma r_wedge64_made : region_made r_wedge64.
Proof. exact (rm_ctor _ _ _ r_wedge64_ctor). Qed.
Lemma r_wedge64_shape : rg_p r_wedge64 = wedge64 /\ rg_holes r_wedge64 = [] /\ rg_seeds r_wedge64 = [].
Proof. apply (ctor_shape tol64 wedge64 r_none). vm_compute. reflexivity. Qed.
Lemma r_wedge64_run : region_run (N := F64) tol64 r_wedge64 [] = Ok r_wedge64.
Proof. reflexivity. Qed.
Lemma wedge64_xyv : map xyv (rg_p r_wedge64) = [(0, 0); (3, 0); (1, 3)]%R.
Proof. rewrite (proj1 r_wedge64_shape). unfold wedge64. cbn [map]. rewrite !zpt_xyv by (cbn; lia). reflexivity. Qed.
Lemma wedge64_grid : Forall (grid_point 0) wedge64.
Proof. repeat first [apply Forall_cons|apply Forall_nil]; apply zpt_grid; cbn; lia. Qed.
Lemma wedge64_clustered : clustered tol64 (fun q => In q (rg_seeds r_wedge64 ++ getRegionPoints r_wedge64)).
Proof.
  apply (clustered_sub tol64 (grid_point 0)); [exact grid0_clustered|]. unfold getRegionPoints. destruct r_wedge64_shape as (E1 & E2 & E3). rewrite E1, E2, E3. cbn [flat_map app]. intros q H.
  rewrite ?app_nil_r in H. pose proof wedge64_grid as A. rewrite Forall_forall in A. apply A. exact H.
Qed.
Lemma wedge64_simple : simple_region (map xyv (rg_p r_wedge64)) [].
Proof.
  rewrite wedge64_xyv. constructor.
  - constructor.
    + cbn [concat app]. nodup_pts.
    + repeat constructor; cbn; lia.
    + meet_ok.
  - unfold shoelace, edges_of, vcross. cbn. lra.
  - constructor.
  - constructor.
  - intros l1 l l2 l' E. destruct l1; discriminate.
Qed.
Lemma wedge_triangulation N : triangulation (zlen (o_points (wedge_out N))) (map fst (o_edges (wedge_out N))) (o_tris (wedge_out N)).
Proof.
  constructor; cbn [wedge_out o_points o_edges o_tris map fst].
  - intros a b H. cbn in H. unfold zlen; cbn [length]. repeat destruct H as [H|H]; try injection H as <- <-; try contradiction; lia.
  - intros i j s s' Hi Hj E. nth_cases; try reflexivity; discriminate E.
  - intros t H. cbn [In] in H. repeat destruct H as [<-|H]; try contradiction; repeat constructor; cbn; intuition lia.
  - intros t s Ht H. cbn [In] in Ht. repeat destruct Ht as [<-|Ht]; try contradiction; cbn in H; repeat destruct H as [<-|H]; try contradiction;
    apply existsb_exists; reflexivity.
Qed.
Lemma wedge_points_R : map read_point (o_points (wedge_out RNum)) = [bp 0 0; bp 3 0; bp 1 3]%R.
Proof. reflexivity. Qed.
Lemma wedge_points_64 : map read_point (o_points (wedge_out F64)) = [bz 0 0; bz 3 0; bz 1 3].
Proof. reflexivity. Qed.
Ltac open_wedge := cbn [wedge_out o_edges o_tris]; split; [cbn [app]; sector_ok|]; split; [cbn [app]; nodup_ok|]; split; [cbn [app]; around_ok|markers_ok].
Lemma wedge_fans : fans (wedge_out RNum).
Proof.
  intros v H. assert (v = 0 \/ v = 1 \/ v = 2) as [->|[->| ->]] by (cbn in H; lia); clear H.
  - right. exists 1, [], 2, [0]%nat. open_wedge.
  - right. exists 2, [], 0, [0]%nat. open_wedge.
  - right. exists 0, [], 1, [0]%nat. open_wedge.
Qed.
Lemma wedge_delaunay : delaunay_output (wedge_out RNum).
Proof.
  split.
  - intros t A B C Ht H. unfold output_sites. rewrite wedge_points_R in *. cbn [wedge_out o_tris In] in Ht.
    repeat destruct Ht as [<-|Ht]; try contradiction; corners_R H; delaunay_R.
  - unfold directed_once. cbn [wedge_out o_tris]. nodirected.
Qed.
Lemma wedge_center k c : center_of (wedge_out RNum) k c -> xy c = (3 / 2, 7 / 6)%R.
Proof.
  intros (t & A & B & C & Hk & H & CC).
  assert (NZ : orient (xy A) (xy B) (xy C) <> 0%R). { destruct (proj1 wedge_delaunay t A B C (nth_error_In _ _ Hk) H) as [O _]. lra. }
  rewrite wedge_points_R in H. cbn [wedge_out o_tris] in Hk.
  destruct (proj1 (circumcenter_correct A B C) NZ) as (c' & E' & D1 & D2 & _). rewrite CC in E'. injection E' as <-. clear CC NZ.
  apply dist_eq in D1; apply dist_eq in D2. destruct c as [x y b1 b2]. unfold xy in D1, D2 |- *. cbn [px py] in *.
  nth_cases; corners_R H; unfold vdot, vsub in *; cbn [fst snd px py bp] in *; f_equal; lra.
Qed.
Lemma wedge_exact : exact_output (wedge_out F64) = wedge_out RNum.
Proof.
  unfold exact_output, wedge_out. cbn [o_points o_edges o_tris map fst snd]. rewrite !valZ by (cbn; lia). reflexivity.
Qed.
Lemma wedge_delaunay64 : delaunay_output64 (wedge_out F64).
Proof. apply delaunay_exact. rewrite wedge_exact. exact wedge_delaunay. Qed.
Lemma wedge_gpm : Forall (gpm 0 4) (map read_point (o_points (wedge_out F64))).
Proof. rewrite wedge_points_64. repeat first [apply Forall_cons|apply Forall_nil]; apply bz_gpm; cbn; lia. Qed.
Lemma wedge_grid64 : Forall (grid_point 0) (map read_point (o_points (wedge_out F64))).
Proof. rewrite wedge_points_64. repeat first [apply Forall_cons|apply Forall_nil]; apply bz_grid; cbn; lia. Qed.
Lemma wedge_answer64 : delaunay_answer64 0 4 tol64 (wedge_out F64).
Proof.
  constructor; [apply wedge_triangulation|exact wedge_gpm|exact wedge_delaunay64|apply wedge_fans| |].
  - apply (clustered_sub tol64 (grid_point 0)); [exact grid0_clustered|]. intros q H. pose proof wedge_grid64 as A. rewrite Forall_forall in A. apply A. exact H.
  - intros i j a b Hi Hj D [C1 C2]. apply (map_nth_error xyv) in Hi, Hj. rewrite wedge_points_64 in Hi, Hj. cbn [map] in Hi, Hj.
    rewrite !bz_xyv in Hi, Hj by (cbn; lia). pose proof tol64_lt1 as T.
    revert C1 C2 Hi Hj. generalize (xyv a) (xyv b). intros u w C1 C2 Hi Hj. apply Rabs_def2 in C1, C2.
    destruct i as [|[|[|i]]]; cbn [nth_error] in Hi; try (destruct i; discriminate);
    destruct j as [|[|[|j]]]; cbn [nth_error] in Hj; try (destruct j; discriminate);
    try (apply D; reflexivity); assert (EU := f_equal (fun x => match x with Some v => v | None => u end) Hi); assert (EW := f_equal (fun x => match x with Some v => v | None => w end) Hj); cbv iota beta in EU, EW; subst u w; cbn [fst snd] in C1, C2; lra.
Qed.
Lemma wedge_true z : true_source (wedge_out F64) z ->
  (z = (3 / 2, 7 / 6) \/ z = (3 / 2, 0) \/ z = (2, 3 / 2) \/ z = (1 / 2, 3 / 2) \/ z = (0, 0) \/ z = (3, 0) \/ z = (1, 3))%R.
Proof.
  intros [(k & H)|[(e & A & B & He & _ & V & ->)|H]].
  - apply true_center_exact in H as (c & C & <-); [|exact wedge_delaunay64]. rewrite wedge_exact in C. left. exact (wedge_center k c C).
  - apply real_vertices in V. rewrite <- exact_points, wedge_exact, wedge_points_R in V. cbn [map] in V. rewrite <- !real_xy. cbn [wedge_out o_edges In] in He.
    repeat destruct He as [<-|He]; try contradiction; cbn [fst snd] in V; inversion_clear V as [|? ? ? ? [_ V1] V']; inversion_clear V' as [|? ? ? ? [_ V2] _]; apply (f_equal (fun o => match o with Some x => xy x | None => xy (real_point A) end)) in V1; apply (f_equal (fun o => match o with Some x => xy x | None => xy (real_point A) end)) in V2;
    change (Z.to_nat 0) with 0%nat in *; change (Z.to_nat 1) with 1%nat in *; change (Z.to_nat 2) with 2%nat in *; cbn [nth_error] in V1, V2; rewrite <- V1, <- V2;
    unfold midpoint, xy, bp; cbn [fst snd px py]; [right; left|right; right; left|right; right; right; left]; apply injective_projections; cbn [fst snd]; lra.
  - rewrite sites_exact, wedge_exact in H. unfold output_sites in H. rewrite wedge_points_R in H. unfold xy, bp in H. cbn [map px py In] in H. destruct H as [<-|[<-|[<-|[]]]]; auto 10.
Qed.
Lemma wedge_rounded z : true_source (wedge_out F64) z -> ((fst (rounded z) = fst z) /\ (snd (rounded z) = snd z \/ snd z = 7 / 6 /\ 9 / 8 <= snd (rounded z) <= 5 / 4))%R.
Proof.
  assert (HF : forall k, Z.abs k <= 16 -> nearest (IZR k / 2) = (IZR k / 2)%R).
  { intros k K. assert (G : on_grid (-1) (IZR k / 2, IZR k / 2)%R) by (exists k, k; split; [lia|]; split; [lia|]; change (bpow radix2 (-1)) with (/ 2)%R; reflexivity).
    apply (on_grid_rounded (-1)) in G; [|lia]. unfold rounded in G. cbn [fst snd] in G. congruence. }
  assert (N : forall x k, x = (IZR k / 2)%R -> Z.abs k <= 16 -> nearest x = x) by (intros x k -> K; exact (HF k K)).
  intros H. apply wedge_true in H. destruct H as [->|[->|[->|[->|[->|[->| ->]]]]]]; unfold rounded; cbn [fst snd];
  (split; [first [apply (N _ 0); [lra|lia]|apply (N _ 1); [lra|lia]|apply (N _ 2); [lra|lia]|apply (N _ 3); [lra|lia]|apply (N _ 4); [lra|lia]|apply (N _ 6); [lra|lia]]|]);
  try (left; first [apply (N _ 0); [lra|lia]|apply (N _ 1); [lra|lia]|apply (N _ 2); [lra|lia]|apply (N _ 3); [lra|lia]|apply (N _ 4); [lra|lia]|apply (N _ 6); [lra|lia]]).
  right. split; [reflexivity|]. assert (E1 : nearest (9 / 8) = (9 / 8)%R).
  { assert (G : on_grid (-3) (9 / 8, 9 / 8)%R) by (exists 9, 9; split; [lia|]; split; [lia|]; change (bpow radix2 (-3)) with (/ 8)%R; reflexivity). apply (on_grid_rounded (-3)) in G; [|lia]. unfold rounded in G. cbn [fst snd] in G. congruence. }
  assert (E2 : nearest (5 / 4) = (5 / 4)%R).
  { assert (G : on_grid (-2) (5 / 4, 5 / 4)%R) by (exists 5, 5; split; [lia|]; split; [lia|]; change (bpow radix2 (-2)) with (/ 4)%R; reflexivity). apply (on_grid_rounded (-2)) in G; [|lia]. unfold rounded in G. cbn [fst snd] in G. congruence. }
  split; [rewrite <- E1|rewrite <- E2]; rewrite !nearest_rnd; apply round_le; try lra; typeclasses eauto.
Qed.
Lemma wedge_sources : sources_apart64 tol64 (wedge_out F64).
Proof.
  pose proof tol64_range as [_ T']. pose proof tol64_pos as T0.
  assert (K : forall x y : R, (x = y \/ x <= y - / 4 \/ y <= x - / 4)%R -> clear_of (val tol64) (x - y) /\ (Rabs (x - y) < val tol64 -> x = y)%R).
  { intros x y [->|[H|H]]; unfold clear_of; [rewrite Rminus_diag_eq, Rabs_R0 by reflexivity; split; [left; lra|reflexivity]|rewrite Rabs_left by lra; split; [right; lra|lra]|rewrite Rabs_pos_eq by lra; split; [right; lra|lra]]. }
  assert (C : forall z z', true_source (wedge_out F64) z -> true_source (wedge_out F64) z' ->
    ((fst (rounded z) = fst (rounded z') \/ fst (rounded z) <= fst (rounded z') - / 4 \/ fst (rounded z') <= fst (rounded z) - / 4) /\
     (snd (rounded z) = snd (rounded z') \/ snd (rounded z) <= snd (rounded z') - / 4 \/ snd (rounded z') <= snd (rounded z) - / 4) /\ (fst (rounded z) = fst (rounded z') -> snd (rounded z) = snd (rounded z') -> z = z'))%R).
  { intros z z' H H'. destruct (wedge_rounded z H) as [X Y]. destruct (wedge_rounded z' H') as [X' Y']. apply wedge_true in H, H'.
    assert (YY : z = z' -> snd (rounded z) = snd (rounded z')) by (intros ->; reflexivity). revert X Y X' Y' YY. generalize (rounded z) (rounded z'). intros [u v] [u' v']. cbn [fst snd]. intros -> Y -> Y' YY.
    destruct H as [->|[->|[->|[->|[->|[->| ->]]]]]], H' as [->|[->|[->|[->|[->|[->| ->]]]]]]; cbn [fst snd] in *; try (specialize (YY eq_refl); subst v');
    (split; [lra|]); (split; [first [left; reflexivity|lra]|]); intros E1 E2; first [reflexivity|exfalso; lra]. }
  split; intros z z' H H'; destruct (C z z' H H') as (X & Y & I); destruct (K _ _ X) as [K1 K2], (K _ _ Y) as [K3 K4].
  - split; assumption.
  - intros [C1 C2]. apply I; auto.
Qed.
Lemma wedge_border a b : border_side (o_tris (wedge_out RNum)) a b <-> exists ring, In ring [[0; 1; 2]] /\ In (a, b) (edges_of ring).
Proof.
  rewrite border_one_sided. split.
  - intros H. cbn in H. repeat destruct H as [H|H]; try contradiction; injection H as <- <-; exists [0; 1; 2]; (split; [left; reflexivity|cbn; tauto]).
  - intros (ring & Hr & H). cbn [In] in Hr. destruct Hr as [<-|[]]; cbn in H; repeat destruct H as [H|H]; try contradiction; injection H as <- <-; cbn; tauto.
Qed.
Lemma wedge_strung : subdivides (map xy [bp 0 0; bp 3 0; bp 1 3])%R [(0, 0); (3, 0); (1, 3)]%R.
Proof.
  unfold subdivides. cbn [map app]. unfold xy, bp, mkP. cbn [px py].
  apply (sp_edge (0, 0)%R (3, 0)%R _ []); [exact I|]. apply (sp_edge (3, 0)%R (1, 3)%R _ []); [exact I|]. apply (sp_edge (1, 3)%R (0, 0)%R [] [] []); [exact I|].
  apply sp_one.
Qed.
Lemma wedge_fills : fills_region (val tol64) [map xyv (rg_p r_wedge64)] (exact_output (wedge_out F64)).
Proof.
  rewrite wedge64_xyv, wedge_exact. pose proof tol64_lt1 as T. constructor.
  - exists [[0; 1; 2]]. split; [exact wedge_border|]. split; [cbn [concat app]; nodup_ok|]. rewrite wedge_points_R. constructor; [|constructor]. eexists. split; [|exact wedge_strung]. repeat constructor; try lia.
  - intros a b A B HB V. apply wedge_border in HB as (ring & Hr & HB). cbn [In] in Hr. destruct Hr as [<-|[]]. unfold output_sites. rewrite wedge_points_R in *. cbn in HB.
    repeat destruct HB as [HB|HB]; try contradiction; injection HB as <- <-; ends_R V; intros q Hq; apply dist_le; cbn [map In] in Hq; unfold midpoint, vdot, vsub, xy in *; cbn [fst snd px py bp] in *;
    repeat destruct Hq as [<-|Hq]; try contradiction; cbn [fst snd] in *; lra.
  - intros a b c A B C HB HC V. apply wedge_border in HB as (ring & Hr & HB), HC as (ring' & Hr' & HC). cbn [In] in Hr, Hr'. destruct Hr as [<-|[]], Hr' as [<-|[]]. rewrite wedge_points_R in *. cbn in HB.
    repeat destruct HB as [HB|HB]; try contradiction; injection HB as <- <-; cbn in HC; repeat destruct HC as [HC|HC]; try contradiction; try discriminate HC; injection HC as <-; corners_R V;
    unfold orient, vcross, vsub, xy; cbn [fst snd px py bp]; right; unfold Rabs; destruct Rcase_abs; lra.
Qed.
Lemma wedge_fills64 : fills_region64 tol64 [map xyv (rg_p r_wedge64)] (wedge_out F64).
Proof.
  pose proof wedge_fills as [_ H2 H3]. constructor.
  - exists [[0; 1; 2]]. split; [exact wedge_border|]. split; [cbn [concat app]; nodup_ok|]. rewrite wedge_points_64. constructor; [|constructor]. exists [bz 0 0; bz 3 0; bz 1 3]. split; [repeat constructor; try lia|].
    cbn [map]. rewrite !bz_xyv by (cbn; lia). rewrite wedge64_xyv. exact wedge_strung.
  - intros a b A B HB V. specialize (H2 a b (real_point A) (real_point B) HB). unfold output_sites in H2. rewrite exact_sites, exact_points in H2. exact (H2 (real_vertices _ _ _ V)).
  - intros a b c A B C B1 B2 V. specialize (H3 a b c (real_point A) (real_point B) (real_point C) B1 B2). rewrite exact_points in H3. exact (H3 (real_vertices _ _ _ V)).
Qed.
