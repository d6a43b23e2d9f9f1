(** Seeding, histories and holes of regions on doubles. *)
From Coq Require Import Reals Lra Lia ZArith SpecFloat List Bool.
From Flocq Require Import Core BinarySingleNaN.
From Verif Require Import Base Spec MUtil MGeom MHull MPolygon MGen MRegion MHist Bridge BridgeNum BridgeHist Bridge64.
From Verif Require Import PUtil PPoly2 PRegion PFloat PGrid PGrid2 PGrid3 PGrid4 PGrid6 PGrid8 PGen64 PRandom PHist.
Import ListNotations.
Local Open Scope Z_scope.

(** * Histories *)
Lemma fine64_of e tol r : plan64_fine e tol (plan64_of r) -> grid_region e r /\ long_edges tol r.
Proof.
  intros [[G1 G2] [L1 L2]]. cbn [plan64_of p64_outline p64_holes] in *. rewrite Forall_map in G2, L2.
  split; split; assumption.
Qed.
Lemma kept_filter_in {A} (P : A -> Prop) (keep : A -> bool) s : (forall q, In q s -> (keep q = true <-> P q)) -> kept P s (filter keep s).
Proof.
  induction s as [|x s IH]; intros H; [constructor|]. cbn [filter]. destruct (keep x) eqn:E.
  - constructor; [apply H; [now left|exact E]|apply IH; intros q Hq; apply H; now right].
  - constructor; [|apply IH; intros q Hq; apply H; now right]. intros K. apply H in K; [congruence|now left].
Qed.
Lemma seeded64_filter tol r keep s : fin tol -> (0 < val tol)%R -> region_made r -> (forall q, keep q = true <-> in_domain (N := F64) tol r q) ->
  seeded64 tol (plan64_of r) s (plan64_of (with_seeds r (filter keep s))).
Proof.
  intros Ft TP M K. split; [reflexivity|]. split; [reflexivity|]. split.
  - intros q Hq. apply filter_In in Hq. apply Hq.
  - intros e He F S. destruct (fine64_of e tol r F) as [G L]. rewrite Forall_forall in S. apply kept_filter_in. intros q Hq.
    rewrite K, (domain_doubles e He tol Ft TP r q M G (S q Hq) L). unfold inside_domain, plan64_inside. cbn [plan64_of p64_outline p64_holes].
    rewrite Forall_map. reflexivity.
Qed.
Lemma addHole_parts64 clip (cf : config F64) (r : region F64) h :
  plan64_of (fst (addHole clip cf r h)) = plan64_of r \/
  plan64_of (fst (addHole clip cf r h)) = mkPlan64 (rg_p r) (map h_points (rg_holes r) ++ [h_points h]) (rg_seeds r) \/
  exists pts, plan64_of (fst (addHole clip cf r h)) = mkPlan64 pts (map h_points (rg_holes r)) (rg_seeds r).
Proof.
  unfold addHole. destruct (mapM _ (rg_p r)) as [s|]; [|left; reflexivity]. destruct (mapM _ (h_points h)) as [c|]; [|left; reflexivity].
  assert (G : let x := match containsPoint (N := F64) (cf_tol cf) (pg_points (rg_poly r)) (rg_p r) (h_center h) with
                | Err e => (r, Err e) | Ok true => (mkRegion (rg_poly r) (rg_p r) (rg_holes r ++ [h]) (rg_seeds r), Ok tt)
                | Ok false => (r, Err (Throw "Hole lies completely outside of domain region")) end in
     plan64_of (fst x) = plan64_of r \/ plan64_of (fst x) = mkPlan64 (rg_p r) (map h_points (rg_holes r) ++ [h_points h]) (rg_seeds r)).
  { cbn zeta. destruct (containsPoint _ _ _ _) as [[|]|]; [right|left; reflexivity|left; reflexivity]. unfold plan64_of; cbn [fst rg_p rg_holes rg_seeds]. rewrite map_app. reflexivity. }
  destruct (clip s c) as [|path [|path2 l]]; try (destruct G as [G|G]; [left; exact G|right; left; exact G]).
  destruct (mapM _ path) as [pts|]; [|left; reflexivity]. right. right. exists pts. unfold region_mutate. destruct (polygon_mutate _ _ _). reflexivity.
Qed.
Lemma step_plan64 tol r o r' : fin tol -> (0 < val tol)%R -> region_made r -> op_built64 o -> region_do (N := F64) tol r o = Ok r' ->
  region_made r' /\ plan64_step tol (plan64_of r) o (plan64_of r').
Proof.
  intros Ft TP M B H. destruct (seeding_char (N := F64) tol r M) as (keep & K & H1 & H2 & H3). destruct o as [s|s|g nX nY| |clip cf h| |pts|]; cbn [region_do plan64_step] in *.
  - split; [exact (rm_addSeeds _ _ _ _ M H)|]. rewrite H1 in H. injection H as <-. apply seeded64_filter; assumption.
  - split; [exact (rm_read _ _ _ _ M H)|]. rewrite H2 in H. injection H as <-. apply (seeded64_filter tol r keep (rg_seeds r ++ s)); assumption.
  - apply bind_ok in H as ([r1 g1] & HG & E). injection E as <-. split; [exact (rm_generate _ _ _ _ _ _ _ M HG)|].
    destruct (proj1 (H3 _ _ _ _ _) HG) as (new & G & Er). rewrite Er. exists r, g1, new. split; [reflexivity|]. split; [exact G|]. apply (seeded64_filter tol r keep (rg_seeds r ++ new)); assumption.
  - injection H as <-. split; [apply rm_cleanSeeds; exact M|reflexivity].
  - injection H as <-. split; [apply rm_addHole; assumption|]. apply addHole_parts64.
  - injection H as <-. split; [apply rm_cleanHoles; exact M|reflexivity].
  - injection H as <-. split; [apply rm_mutate; exact M|]. unfold region_mutate. destruct (polygon_mutate _ _ _). reflexivity.
  - injection H as <-. split; [apply rm_copy; exact M|reflexivity].
Qed.
Lemma region_history64 tol : fin tol -> (0 < val tol)%R -> forall os r r', region_made r -> Forall op_built64 os -> region_run (N := F64) tol r os = Ok r' ->
  region_made r' /\ plan64_run tol (plan64_of r) os (plan64_of r').
Proof.
  intros Ft TP. induction os as [|o os IH]; intros r r' M B H; cbn [region_run] in H.
  - injection H as <-. split; [exact M|constructor].
  - apply bind_ok in H as (r1 & H1 & H). inversion_clear B as [|? ? B1 B2]. destruct (step_plan64 tol r o r1 Ft TP M B1 H1) as [M1 S1].
    destruct (IH r1 r' M1 B2 H) as [M2 S2]. split; [exact M2|]. econstructor; eassumption.
Qed.

(** * Generated seeds *)
Lemma box_fold_grid e (l : list PF) (a b c d : f64) : Forall (grid_point e) l -> grid e (2 ^ 20) a -> grid e (2 ^ 20) b -> grid e (2 ^ 20) c -> grid e (2 ^ 20) d ->
  let '(a', b', c', d') := fold_left (fun '(x0, x1, y0, y1) (v : PF) =>
        (if nltb (n := F64) (px v) x0 then px v else x0, if nltb (n := F64) x1 (px v) then px v else x1,
         if nltb (n := F64) (py v) y0 then py v else y0, if nltb (n := F64) y1 (py v) then py v else y1)) l (a, b, c, d) in
  grid e (2 ^ 20) a' /\ grid e (2 ^ 20) b' /\ grid e (2 ^ 20) c' /\ grid e (2 ^ 20) d'.
Proof.
  intros G. revert a b c d. induction G as [|v l [Gx Gy] _ IH]; intros a b c d A B C D; [cbn; auto|]. cbn [fold_left].
  apply IH; destruct (nltb _ _); assumption.
Qed.
Lemma getBox_grid e (r : region F64) : -200 <= e <= 40 -> Forall (grid_point e) (rg_p r) -> rg_p r <> [] ->
  grid_point e (bb1 (getBox (N := F64) r)) /\ grid_point e (bb2 (getBox (N := F64) r)).
Proof.
  intros He G NE. destruct (rg_p r) as [|v l] eqn:E; [congruence|]. apply Forall_cons_iff in G as [[Gx Gy] Gl].
  destruct big64 as (F1 & V1 & F2 & V2).
  assert (B : forall x, grid e (2 ^ 20) x -> (-9223372036854775808 < val x < 9223372036854775808)%R).
  { intros x X. assert (K : (Rabs (val x) <= bpow radix2 (20 + e))%R) by (eapply (grid_bound e (2 ^ 20) 20); [exact X|lia|lia]).
    assert (K' : (bpow radix2 (20 + e) < bpow radix2 63)%R) by (apply bpow_lt; lia). change (bpow radix2 63) with 9223372036854775808%R in K'.
    apply Rabs_le_inv in K. lra. }
  pose proof (B _ Gx) as Bx. pose proof (B _ Gy) as By.
  unfold getBox. rewrite E. cbn [fold_left].
  assert (H1 : forall x, grid e (2 ^ 20) x -> nltb (n := F64) x (nZ (n := F64) 9223372036854775808) = true).
  { intros x X. rewrite ltb_correct by (try assumption; eapply grid_fin; eassumption). rewrite V1. apply Rltb_true. apply B. exact X. }
  assert (H2 : forall x, grid e (2 ^ 20) x -> nltb (n := F64) (nZ (n := F64) (-9223372036854775808)) x = true).
  { intros x X. rewrite ltb_correct by (try assumption; eapply grid_fin; eassumption). rewrite V2. apply Rltb_true. apply B. exact X. }
  rewrite (H1 _ Gx), (H1 _ Gy), (H2 _ Gx), (H2 _ Gy).
  pose proof (box_fold_grid e l _ _ _ _ Gl Gx Gx Gy Gy) as K. destruct (fold_left _ l _) as [[[a b] c] d]. destruct K as (A1 & A2 & A3 & A4).
  split; split; assumption.
Qed.
Lemma generated_seeds e tol (r : region F64) nX nY dX dY : -200 <= e <= 40 -> fin tol -> (0 < val tol)%R ->
  region_made r -> grid_region e r -> long_edges tol r -> rg_p r <> [] -> Forall (grid_point e) (rg_seeds r) ->
  2 <= nX <= 2 ^ 31 -> 2 <= nY <= 2 ^ 31 ->
  let box := getBox (N := F64) r in
  let x0 := val (bb_xMin box) in let x1 := val (bb_xMax box) in let y0 := val (bb_yMin box) in let y1 := val (bb_yMax box) in
  (x1 - x0 = IZR (dX * (nX - 1)) * bpow radix2 e)%R -> (y1 - y0 = IZR (dY * (nY - 1)) * bpow radix2 e)%R ->
  let g := GBoth (N := F64) f_constant f_constant in
  exists new seeds, generateSeedPoints (N := F64) tol r g nX nY = Ok (with_seeds r seeds, g) /\
    kept (inside_domain tol r) (rg_seeds r ++ new) seeds /\ length new = (Z.to_nat nX * Z.to_nat nY)%nat /\
    forall i j, (i < Z.to_nat nY)%nat -> (j < Z.to_nat nX)%nat -> exists q, nth_error new (i * Z.to_nat nX + j) = Some q /\
      xyv q = (x0 + INR j * ((x1 - x0) / IZR (nX - 1)), y0 + INR i * ((y1 - y0) / IZR (nY - 1)))%R.
Proof.
  intros He Ft TP M G L NE S HX HY box x0 x1 y0 y1 DX DY g.
  assert (He' : -200 <= e <= 200) by lia.
  destruct (getBox_grid e r He (proj1 G) NE) as [G1 G2].
  destruct (generate_exact e [] box nX nY dX dY He' G1 G2 HX HY DX DY) as (new & E & Ln & Gn & T). fold g in E.
  destruct (genSeeds_char (N := F64) tol r g nX nY M) as (keep & K & C).
  exists new, (filter keep (rg_seeds r ++ new)). split; [|split; [|split; [exact Ln|exact T]]].
  - apply C. exists new. split; [exact E|reflexivity].
  - assert (SA : Forall (grid_point e) (rg_seeds r ++ new)) by (apply Forall_app; split; assumption). rewrite Forall_forall in SA.
    apply kept_filter_in. intros q Hq. rewrite K. exact (domain_doubles e He' tol Ft TP r q M G (SA q Hq) L).
Qed.

(** * Holes *)
Lemma mul_overflow (x y : f64) : fin x -> fin y -> ~ (Rabs (rnd (val x * val y)) < big)%R -> is_finite_SF (@nmul F64 x y) = false.
Proof.
  intros Hx Hy Hb. destruct (fin_as_B x Hx) as (bx & -> & Fx & Vx). destruct (fin_as_B y Hy) as (by_ & -> & Fy & Vy).
  rewrite Vx, Vy in *. cbn [nmul F64]. change f64_prec with 53. change f64_emax with 1024. rewrite mul_equiv.
  pose proof (Bmult_correct 53 1024 prec64 emax64 mode_NE bx by_) as H.
  rewrite Rlt_bool_false in H by (apply Rnot_lt_le; exact Hb). rewrite H. reflexivity.
Qed.
Lemma mul_nonfinite (x y : f64) : is_finite_SF y = false -> is_finite_SF (@nmul F64 x y) = false.
Proof. intros H. destruct x as [[]|[]| |[] ? ?], y as [[]|[]| |[] ? ?]; try discriminate H; reflexivity. Qed.
Lemma fits_int x k : truncates x k -> (in_int k = true <-> (-2147483649 < x < 2147483648)%R).
Proof.
  intros T. rewrite (truncates_unique x k (Rtrunc x) T (Rtrunc_truncates x)). apply in_int_range.
Qed.
Lemma scale_int (scale : Z) (x : f64) : Z.abs scale <= 2 ^ 31 -> SpecFloat.valid_binary 53 1024 x = true ->
  (fin x /\ (-2147483649 < nearest (IZR scale * val x) < 2147483648)%R ->
     exists k, to_int (N := F64) (nmul (n := F64) (nZ scale) x) = Ok k /\ truncates (nearest (IZR scale * val x)) k) /\
  (~ (fin x /\ (-2147483649 < nearest (IZR scale * val x) < 2147483648)%R) ->
     exists m, to_int (N := F64) (nmul (n := F64) (nZ scale) x) = Err (UB m)).
Proof.
  intros Hs VX. destruct (ofZ_small scale Hs) as [Fs Vs]. change nearest with rnd. split.
  - intros [Fx B]. destruct (mul_correct (@nZ F64 scale) x Fs Fx) as [Fy Vy].
    { rewrite Vs. eapply Rlt_trans with (bpow radix2 32); [change (bpow radix2 32) with 4294967296%R; apply Rabs_def1; lra|apply bpow_lt; lia]. }
    rewrite Vs in Vy. destruct (trunc_val _ Fy) as (k & Ek & Tk). rewrite Vy in Tk. exists k. split; [|exact Tk].
    unfold to_int. rewrite Ek, (proj2 (fits_int _ _ Tk) B). reflexivity.
  - intros NB. destruct (is_finite_SF x) eqn:FX.
    + assert (Fx : fin x) by (split; assumption).
      destruct (Rlt_dec (Rabs (rnd (val (@nZ F64 scale) * val x))) big) as [L|L].
      * destruct (mul_correct (@nZ F64 scale) x Fs Fx L) as [Fy Vy]. rewrite Vs in Vy. destruct (trunc_val _ Fy) as (k & Ek & Tk). rewrite Vy in Tk.
        unfold to_int. rewrite Ek. destruct (in_int k) eqn:IK; [|eexists; reflexivity].
        exfalso. apply NB. split; [exact Fx|]. apply (fits_int _ _ Tk). exact IK.
      * pose proof (mul_overflow _ _ Fs Fx L) as O. unfold to_int. destruct (nmul (n := F64) (nZ scale) x); try discriminate O; eexists; reflexivity.
    + pose proof (mul_nonfinite (@nZ F64 scale) x FX) as O. unfold to_int. destruct (nmul (n := F64) (nZ scale) x); try discriminate O; eexists; reflexivity.
Qed.
Lemma scalePoint64 scale (q : PF) : Z.abs scale <= 2 ^ 31 -> canonical_point q ->
  (fits64 scale q -> exists k, scalePoint (N := F64) scale q = Ok k /\ on_grid64 scale q k) /\
  (~ fits64 scale q -> exists m, scalePoint (N := F64) scale q = Err (UB m)).
Proof.
  intros Hs [C1 C2]. destruct (scale_int scale (px q) Hs C1) as [A1 A2]. destruct (scale_int scale (py q) Hs C2) as [B1 B2]. unfold scalePoint. split.
  - intros [[F1 F2] [R1 R2]]. destruct (A1 (conj F1 R1)) as (k1 & E1 & T1). destruct (B1 (conj F2 R2)) as (k2 & E2 & T2).
    rewrite E1, E2. exists (k1, k2). split; [reflexivity|split; assumption].
  - intros NF. 
    assert (D : forall x : f64, SpecFloat.valid_binary 53 1024 x = true -> (fin x /\ (-2147483649 < nearest (IZR scale * val x) < 2147483648)%R) \/ ~ (fin x /\ (-2147483649 < nearest (IZR scale * val x) < 2147483648)%R)).
    { intros x V. destruct (is_finite_SF x) eqn:F; [|right; intros [[_ F'] _]; congruence].
      destruct (Rlt_dec (-2147483649) (nearest (IZR scale * val x))) as [L1|L1]; [|right; intros [_ [L _]]; contradiction].
      destruct (Rlt_dec (nearest (IZR scale * val x)) 2147483648) as [L2|L2]; [left; split; [split; assumption|auto]|right; intros [_ [_ L]]; contradiction]. }
    destruct (D (px q) C1) as [P|P].
    + destruct (A1 P) as (k1 & E1 & _). rewrite E1. cbn [bind]. destruct (D (py q) C2) as [Q|Q].
      * exfalso. apply NF. destruct P as [P1 P2], Q as [Q1 Q2]. split; [split; assumption|auto].
      * destruct (B2 Q) as (m & E). rewrite E. exists m. reflexivity.
    + destruct (A2 P) as (m & E). rewrite E. exists m. reflexivity.
Qed.
Lemma scale_list64 scale (l : list PF) : Z.abs scale <= 2 ^ 31 -> Forall canonical_point l ->
  (Forall (fits64 scale) l -> exists ks, mapM (scalePoint (N := F64) scale) l = Ok ks /\ Forall2 (on_grid64 scale) l ks) /\
  (~ Forall (fits64 scale) l -> exists m, mapM (scalePoint (N := F64) scale) l = Err (UB m)).
Proof.
  intros Hs. induction 1 as [|q l Cq Cl [IH1 IH2]]; cbn [mapM].
  - split; [intros _; exists []; split; constructor|]. intros N. destruct N. constructor.
  - destruct (scalePoint64 scale q Hs Cq) as [Q1 Q2]. split.
    + intros F. inversion_clear F as [|? ? F1 F2]. destruct (Q1 F1) as (k & E & O). destruct (IH1 F2) as (ks & E' & O').
      rewrite E, E'. exists (k :: ks). split; [reflexivity|constructor; assumption].
    + intros NF. destruct (scalePoint (N := F64) scale q) as [k|er] eqn:E.
      * assert (NL : ~ Forall (fits64 scale) l).
        { intros FL. assert (Fq : ~ fits64 scale q) by (intros Fq; apply NF; constructor; assumption). destruct (Q2 Fq) as (m & E'). congruence. }
        destruct (IH2 NL) as (m & E'). cbn [bind]. rewrite E'. exists m. reflexivity.
      * cbn [bind]. destruct (Classical_Prop.classic (fits64 scale q)) as [Fq|Fq]; [destruct (Q1 Fq) as (k & E' & _); congruence|].
        destruct (Q2 Fq) as (m & E'). exists m. congruence.
Qed.
Lemma unscale_int scale k : 0 < Z.abs scale <= 2 ^ 31 -> Z.abs k <= 2 ^ 53 ->
  exists c, divr (N := F64) (nZ k) (nmul (nZ 1) (nZ scale)) = Ok c /\ fin c /\ val c = nearest (IZR k / IZR scale).
Proof.
  intros Hs Hk. destruct (ofZ_small scale ltac:(lia)) as [Fs Vs]. destruct (ofZ_small 1 ltac:(lia)) as [F1 V1]. destruct (ofZ_small 0 ltac:(lia)) as [F0 V0].
  destruct (ofZ_correct k Hk) as [Fk Vk]. change F64_ofZ with (@nZ F64) in *. change nearest with rnd.
  assert (M1 : rnd (IZR 1 * IZR scale) = IZR scale) by (rewrite Rmult_1_l; apply rnd_int; lia).
  assert (SM : forall n, Z.abs n <= 2 ^ 53 -> (Rabs (IZR n) <= bpow radix2 53)%R) by (intros n Hn; rewrite <- abs_IZR; change (bpow radix2 53) with (IZR (2 ^ 53)); apply IZR_le; exact Hn).
  destruct (mul_correct (@nZ F64 1) (@nZ F64 scale) F1 Fs) as [Fd Vd].
  { rewrite V1, Vs, M1. eapply Rle_lt_trans; [apply SM; lia|apply bpow_lt; lia]. }
  rewrite V1, Vs, M1 in Vd. set (den := nmul (n := F64) (nZ 1) (nZ scale)) in *.
  assert (NZ : IZR scale <> 0%R) by (apply not_0_IZR; lia).
  assert (PA : (1 <= Rabs (IZR scale))%R) by (rewrite <- abs_IZR; apply (IZR_le 1); lia).
  assert (Q : (Rabs (IZR k / IZR scale) <= bpow radix2 53)%R).
  { unfold Rdiv. rewrite Rabs_mult, Rabs_inv. apply Rle_trans with (Rabs (IZR k) * 1)%R; [|rewrite Rmult_1_r; apply SM; exact Hk].
    apply Rmult_le_compat_l; [apply Rabs_pos|]. rewrite <- Rinv_1. apply Rinv_le_contravar; lra. }
  destruct (rnd_error _ 53 ltac:(lia) Q) as [_ B].
  destruct (div_correct (@nZ F64 k) den Fk Fd) as [Fc Vc]; [lra|rewrite Vk, Vd; eapply Rle_lt_trans; [exact B|]; apply bpow_lt; lia|]. rewrite Vk, Vd in Vc.
  eexists. split; [|split; [exact Fc|exact Vc]]. unfold divr. rewrite (eqb_correct _ _ Fd F0), Vd, V0. unfold Reqb. destruct Req_EM_T; [contradiction|reflexivity].
Qed.
Lemma unscale_list64 scale path : 0 < Z.abs scale <= 2 ^ 31 -> Forall (fun k : Z * Z => Z.abs (fst k) <= 2 ^ 53 /\ Z.abs (snd k) <= 2 ^ 53) path ->
  exists l, mapM (unscalePoint (N := F64) scale) path = Ok l /\ Forall2 (off_grid64 scale) path l.
Proof.
  intros Hs. induction 1 as [|k l [K1 K2] _ (l' & E & F)]; [exists []; split; constructor|]. cbn [mapM].
  destruct (unscale_int scale (fst k) Hs K1) as (x & E1 & F1 & V1). destruct (unscale_int scale (snd k) Hs K2) as (y & E2 & F2 & V2).
  exists (mkP (N := F64) x y :: l'). unfold unscalePoint at 1. rewrite E1, E2. cbn [bind]. rewrite E. split; [reflexivity|]. constructor; [|exact F].
  split; [split; assumption|]. unfold xyv. cbn [px py mkP]. rewrite V1, V2. reflexivity.
Qed.
Lemma addHole_outcomes64 clip (cf : config F64) (r : region F64) (h : hole F64) : 0 < Z.abs (cf_scale cf) <= 2 ^ 31 -> region_made r ->
  Forall (fits64 (cf_scale cf)) (rg_p r ++ h_points h) ->
  exists S H, Forall2 (on_grid64 (cf_scale cf)) (rg_p r) S /\ Forall2 (on_grid64 (cf_scale cf)) (h_points h) H /\
  let r' := fst (addHole clip cf r h) in let o := snd (addHole clip cf r h) in
  (forall path, clip S H = [path] -> Forall (fun k : Z * Z => Z.abs (fst k) <= 2 ^ 53 /\ Z.abs (snd k) <= 2 ^ 53) path ->
     Forall2 (off_grid64 (cf_scale cf)) path (rg_p r') /\ pg_points (rg_poly r') = trivialIndex (length path) /\
     rg_holes r' = rg_holes r /\ rg_seeds r' = rg_seeds r /\
     ((exists i j, non_adjacent (length path) i j /\ crossing_pair (N := F64) (cf_tol cf) (rg_p r') i j) -> o = Err (Throw "Self intersecting polygons are not supported")) /\
     (~ (exists i j, non_adjacent (length path) i j /\ crossing_pair (N := F64) (cf_tol cf) (rg_p r') i j) -> o = Ok tt)) /\
  (length (clip S H) <> 1%nat ->
     (region_containsPoint (N := F64) (cf_tol cf) r (h_center h) = Ok true ->
        o = Ok tt /\ r' = mkRegion (rg_poly r) (rg_p r) (rg_holes r ++ [h]) (rg_seeds r)) /\
     (region_containsPoint (N := F64) (cf_tol cf) r (h_center h) = Ok false ->
        o = Err (Throw "Hole lies completely outside of domain region") /\ r' = r)).
Proof.
  intros Hs HM Hf. apply Forall_app in Hf as [Hf1 Hf2].
  assert (CAN : forall l, Forall (fits64 (cf_scale cf)) l -> Forall canonical_point l).
  { intros l. apply Forall_impl. intros q [[[V1 _] [V2 _]] _]. split; assumption. }
  destruct (proj1 (scale_list64 (cf_scale cf) (rg_p r) ltac:(lia) (CAN _ Hf1)) Hf1) as (S & ES & HS).
  destruct (proj1 (scale_list64 (cf_scale cf) (h_points h) ltac:(lia) (CAN _ Hf2)) Hf2) as (H & EH & HH).
  exists S, H. split; [exact HS|]. split; [exact HH|]. cbn zeta. unfold addHole. rewrite ES, EH. split.
  - intros path -> PB. destruct (unscale_list64 (cf_scale cf) path Hs PB) as (l & El & Fl). rewrite El.
    pose proof (mutate_char (N := F64) (cf_tol cf) r l) as MC. cbn zeta in MC.
    destruct MC as (M1 & M2 & M3 & M4 & M5 & M6). assert (LL : length path = length l) by (clear - Fl; induction Fl; cbn; congruence). rewrite LL. rewrite M1. split; [exact Fl|]. split; [exact M2|]. split; [exact M3|]. split; [exact M4|].
    split.
    + intros X. apply M5. exact X.
    + intros X. apply M6. exact X.
  - intros HL. unfold region_containsPoint. destruct (clip S H) as [|p1 [|p2 l]]; [|cbn in HL; lia|].
    + split; intros E; rewrite E; auto.
    + split; intros E; rewrite E; auto.
Qed.
Lemma addHole_range64 clip (cf : config F64) (r : region F64) (h : hole F64) : Z.abs (cf_scale cf) <= 2 ^ 31 ->
  Forall canonical_point (rg_p r ++ h_points h) -> ~ Forall (fits64 (cf_scale cf)) (rg_p r ++ h_points h) ->
  exists m, addHole clip cf r h = (r, Err (UB m)).
Proof.
  intros Hs C NF. apply Forall_app in C as [C1 C2]. unfold addHole.
  destruct (scale_list64 (cf_scale cf) (rg_p r) Hs C1) as [A1 A2]. destruct (scale_list64 (cf_scale cf) (h_points h) Hs C2) as [B1 B2].
  destruct (Classical_Prop.classic (Forall (fits64 (cf_scale cf)) (rg_p r))) as [F|F].
  - destruct (A1 F) as (S & ES & _). rewrite ES. destruct B2 as (m & E); [intros F2; apply NF, Forall_app; auto|]. rewrite E. exists m. reflexivity.
  - destruct (A2 F) as (m & E). rewrite E. exists m. reflexivity.
Qed.
