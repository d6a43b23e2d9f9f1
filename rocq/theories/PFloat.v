(** The binary64 operations of the model as rounded real operations (Flocq). *)
From Coq Require Import Reals Lra ZArith Lia Bool SpecFloat.
From Flocq Require Import Core BinarySingleNaN Relative.
From Verif Require Import Base BridgeNum.
Local Open Scope Z_scope.

Definition fexp64 : Z -> Z := SpecFloat.fexp 53 1024.
Definition rnd (r : R) : R := round radix2 fexp64 ZnearestE r.
Definition big : R := bpow radix2 1024.

Global Instance prec64 : Prec_gt_0 53 := eq_refl _.
Global Instance emax64 : Prec_lt_emax 53 1024 := eq_refl _.
Global Instance fexp64_valid : Valid_exp fexp64 := @fexp_correct 53 1024 prec64.
Global Instance fexp64_mono : Monotone_exp fexp64 := @fexp_monotone 53 1024.

Lemma rnd_aux_equiv sx mx ex lx :
  SpecFloat.binary_round_aux 53 1024 sx mx ex lx = binary_round_aux 53 1024 mode_NE sx mx ex lx.
Proof.
  unfold SpecFloat.binary_round_aux, binary_round_aux. destruct (shr_fexp _ _ _ _ _) as [mrs' e'].
  assert (E : forall s m l, round_nearest_even m l = choice_mode mode_NE s m l).
  { intros s m l. destruct l as [|[]]; try reflexivity. cbn. unfold Round.cond_incr. now destruct (Z.even m). }
  rewrite (E sx). reflexivity.
Qed.
Lemma round_equiv s m e : SpecFloat.binary_round 53 1024 s m e = binary_round 53 1024 mode_NE s m e.
Proof.
  unfold SpecFloat.binary_round, binary_round, shl_align_fexp. destruct (shl_align _ _ _). apply rnd_aux_equiv.
Qed.
Lemma normalize_equiv m e sz :
  SpecFloat.binary_normalize 53 1024 m e sz = B2SF (binary_normalize 53 1024 prec64 emax64 mode_NE m e sz).
Proof. destruct m; cbn; [reflexivity| |]; rewrite B2SF_SF2B; apply round_equiv. Qed.

(** A valid float as a Flocq float. *)
Lemma as_B x : SpecFloat.valid_binary 53 1024 x = true -> exists b : binary_float 53 1024, x = B2SF b.
Proof. intros H. exists (SF2B x H). now rewrite B2SF_SF2B. Qed.

Lemma add_equiv (x y : binary_float 53 1024) : SFadd 53 1024 (B2SF x) (B2SF y) = B2SF (Bplus mode_NE x y).
Proof.
  destruct x as [sx|sx| |sx mx ex Bx]; destruct y as [sy|sy| |sy my ey By];
  try reflexivity; try (cbn; destruct (Bool.eqb _ _); reflexivity). apply normalize_equiv.
Qed.
Lemma sub_equiv (x y : binary_float 53 1024) : SFsub 53 1024 (B2SF x) (B2SF y) = B2SF (Bminus mode_NE x y).
Proof.
  destruct x as [sx|sx| |sx mx ex Bx]; destruct y as [sy|sy| |sy my ey By];
  try reflexivity; try (cbn; destruct (Bool.eqb _ _); reflexivity).
  cbn. unfold Zminus. rewrite <- cond_Zopp_negb. apply normalize_equiv.
Qed.
Lemma mul_equiv (x y : binary_float 53 1024) : SFmul 53 1024 (B2SF x) (B2SF y) = B2SF (Bmult mode_NE x y).
Proof.
  destruct x as [sx|sx| |sx mx ex Bx]; destruct y as [sy|sy| |sy my ey By]; try reflexivity.
  cbn. rewrite B2SF_SF2B. apply rnd_aux_equiv.
Qed.
Lemma div_equiv (x y : binary_float 53 1024) : SFdiv 53 1024 (B2SF x) (B2SF y) = B2SF (Bdiv mode_NE x y).
Proof.
  destruct x as [sx|sx| |sx mx ex Bx]; destruct y as [sy|sy| |sy my ey By]; try reflexivity.
  cbn -[SFdiv_core_binary]. rewrite B2SF_SF2B. destruct (SFdiv_core_binary _ _ _ _ _ _) as [[mz ez] lz]. apply rnd_aux_equiv.
Qed.
Lemma sqrt_equiv (x : binary_float 53 1024) : SFsqrt 53 1024 (B2SF x) = B2SF (Bsqrt mode_NE x).
Proof.
  destruct x as [sx|sx| |sx mx ex Bx]; try reflexivity; try (destruct sx; reflexivity).
  destruct sx; [reflexivity|]. cbn -[SFsqrt_core_binary]. rewrite B2SF_SF2B. destruct (SFsqrt_core_binary _ _ _ _) as [[mz ez] lz]. apply rnd_aux_equiv.
Qed.

Lemma fin_B (b : binary_float 53 1024) : is_finite b = true -> fin (B2SF b).
Proof. intros H. split; [apply valid_binary_B2SF|now rewrite is_finite_SF_B2SF]. Qed.
Lemma val_B (b : binary_float 53 1024) : val (B2SF b) = B2R b.
Proof. apply SF2R_B2SF. Qed.
Lemma fin_as_B x : fin x -> exists b : binary_float 53 1024, x = B2SF b /\ is_finite b = true /\ val x = B2R b.
Proof.
  intros [V F]. destruct (as_B x V) as [b ->]. exists b. rewrite is_finite_SF_B2SF in F. rewrite val_B. auto.
Qed.

Lemma add_correct x y : fin x -> fin y -> (Rabs (rnd (val x + val y)) < big)%R ->
  fin (@nadd F64 x y) /\ val (@nadd F64 x y) = rnd (val x + val y).
Proof.
  intros Hx Hy Hb. destruct (fin_as_B x Hx) as (bx & -> & Fx & Vx). destruct (fin_as_B y Hy) as (by_ & -> & Fy & Vy).
  rewrite Vx, Vy in *. cbn [nadd F64]. change f64_prec with 53. change f64_emax with 1024. rewrite add_equiv.
  pose proof (Bplus_correct 53 1024 prec64 emax64 mode_NE bx by_ Fx Fy) as H.
  rewrite Rlt_bool_true in H by exact Hb. destruct H as (H1 & H2 & _).
  split; [apply fin_B; exact H2|rewrite val_B; exact H1].
Qed.
Lemma sub_correct x y : fin x -> fin y -> (Rabs (rnd (val x - val y)) < big)%R ->
  fin (@nsub F64 x y) /\ val (@nsub F64 x y) = rnd (val x - val y).
Proof.
  intros Hx Hy Hb. destruct (fin_as_B x Hx) as (bx & -> & Fx & Vx). destruct (fin_as_B y Hy) as (by_ & -> & Fy & Vy).
  rewrite Vx, Vy in *. cbn [nsub F64]. change f64_prec with 53. change f64_emax with 1024. rewrite sub_equiv.
  pose proof (Bminus_correct 53 1024 prec64 emax64 mode_NE bx by_ Fx Fy) as H.
  rewrite Rlt_bool_true in H by exact Hb. destruct H as (H1 & H2 & _).
  split; [apply fin_B; exact H2|rewrite val_B; exact H1].
Qed.
Lemma mul_correct x y : fin x -> fin y -> (Rabs (rnd (val x * val y)) < big)%R ->
  fin (@nmul F64 x y) /\ val (@nmul F64 x y) = rnd (val x * val y).
Proof.
  intros Hx Hy Hb. destruct (fin_as_B x Hx) as (bx & -> & Fx & Vx). destruct (fin_as_B y Hy) as (by_ & -> & Fy & Vy).
  rewrite Vx, Vy in *. cbn [nmul F64]. change f64_prec with 53. change f64_emax with 1024. rewrite mul_equiv.
  pose proof (Bmult_correct 53 1024 prec64 emax64 mode_NE bx by_) as H.
  rewrite Rlt_bool_true in H by exact Hb. destruct H as (H1 & H2 & _).
  split; [apply fin_B; rewrite H2, Fx, Fy; reflexivity|rewrite val_B; exact H1].
Qed.
Lemma div_correct x y : fin x -> fin y -> val y <> 0%R -> (Rabs (rnd (val x / val y)) < big)%R ->
  fin (@ndiv F64 x y) /\ val (@ndiv F64 x y) = rnd (val x / val y).
Proof.
  intros Hx Hy Hz Hb. destruct (fin_as_B x Hx) as (bx & -> & Fx & Vx). destruct (fin_as_B y Hy) as (by_ & -> & Fy & Vy).
  rewrite Vx, Vy in *. cbn [ndiv F64]. change f64_prec with 53. change f64_emax with 1024. rewrite div_equiv.
  pose proof (Bdiv_correct 53 1024 prec64 emax64 mode_NE bx by_ Hz) as H.
  rewrite Rlt_bool_true in H by exact Hb. destruct H as (H1 & H2 & _).
  split; [apply fin_B; rewrite H2; exact Fx|rewrite val_B; exact H1].
Qed.
Lemma opp_correct x : fin x -> fin (@nopp F64 x) /\ val (@nopp F64 x) = (- val x)%R.
Proof.
  intros Hx. destruct (fin_as_B x Hx) as (b & -> & F & V). rewrite V. cbn [nopp F64].
  replace (SFopp (B2SF b)) with (B2SF (Bopp b)) by (destruct b; reflexivity).
  split; [apply fin_B; rewrite is_finite_Bopp; exact F|rewrite val_B; apply B2R_Bopp].
Qed.
Lemma abs_correct x : fin x -> fin (@nabs F64 x) /\ val (@nabs F64 x) = Rabs (val x).
Proof.
  intros Hx. destruct (fin_as_B x Hx) as (b & -> & F & V). rewrite V. cbn [nabs F64].
  replace (SFabs (B2SF b)) with (B2SF (Babs b)) by (destruct b; reflexivity).
  split; [apply fin_B; rewrite is_finite_Babs; exact F|rewrite val_B; apply B2R_Babs].
Qed.
Lemma ltb_correct x y : fin x -> fin y -> @nltb F64 x y = Rltb (val x) (val y).
Proof.
  intros Hx Hy. destruct (fin_as_B x Hx) as (bx & -> & Fx & Vx). destruct (fin_as_B y Hy) as (by_ & -> & Fy & Vy).
  rewrite Vx, Vy. cbn [nltb F64]. change (SFltb (B2SF bx) (B2SF by_)) with (Bltb bx by_). rewrite Bltb_correct by assumption.
  destruct (Rlt_bool_spec (B2R bx) (B2R by_)); symmetry; [now apply Rltb_true|now apply Rltb_false].
Qed.
Lemma leb_correct x y : fin x -> fin y -> @nleb F64 x y = Rleb (val x) (val y).
Proof.
  intros Hx Hy. destruct (fin_as_B x Hx) as (bx & -> & Fx & Vx). destruct (fin_as_B y Hy) as (by_ & -> & Fy & Vy).
  rewrite Vx, Vy. cbn [nleb F64]. change (SFleb (B2SF bx) (B2SF by_)) with (Bleb bx by_). rewrite Bleb_correct by assumption.
  destruct (Rle_bool_spec (B2R bx) (B2R by_)); symmetry; [now apply Rleb_true|now apply Rleb_false].
Qed.
Lemma eqb_correct x y : fin x -> fin y -> @neqb F64 x y = Reqb (val x) (val y).
Proof.
  intros Hx Hy. destruct (fin_as_B x Hx) as (bx & -> & Fx & Vx). destruct (fin_as_B y Hy) as (by_ & -> & Fy & Vy).
  rewrite Vx, Vy. cbn [neqb F64]. change (SFeqb (B2SF bx) (B2SF by_)) with (Beqb bx by_). rewrite Beqb_correct by assumption.
  destruct (Req_bool_spec (B2R bx) (B2R by_)); symmetry; [now apply Reqb_true|now apply Reqb_false].
Qed.

(** Integers. *)
Lemma rnd_int n : Z.abs n <= 2 ^ 53 -> rnd (IZR n) = IZR n.
Proof.
  intros Hn. apply round_generic; [apply valid_rnd_N|].
  replace (IZR n) with (F2R (Float radix2 n 0)) by (unfold F2R; cbn; ring).
  destruct (Z.eq_dec (Z.abs n) (2 ^ 53)) as [E|E].
  - assert (G : generic_format radix2 fexp64 (bpow radix2 53)).
    { apply generic_format_bpow. unfold fexp64, SpecFloat.fexp, SpecFloat.emin. cbn. lia. }
    replace (F2R (Float radix2 n 0)) with (if 0 <=? n then bpow radix2 53 else - bpow radix2 53)%R.
    + destruct (0 <=? n); [exact G|now apply generic_format_opp].
    + unfold F2R. cbn [Fnum Fexp]. rewrite Rmult_1_r. change (bpow radix2 53) with (IZR (2 ^ 53)).
      destruct (0 <=? n) eqn:Z0; [apply Z.leb_le in Z0|apply Z.leb_gt in Z0; rewrite <- opp_IZR]; f_equal; lia.
  - apply generic_format_F2R. intros Hz. unfold cexp.
    assert (mag radix2 (F2R (Float radix2 n 0)) <= 53).
    { apply mag_le_bpow; [now apply F2R_neq_0|]. unfold F2R. cbn [Fnum Fexp]. change (bpow radix2 0) with 1%R. rewrite Rmult_1_r, <- abs_IZR.
      change (bpow radix2 53) with (IZR (2 ^ 53)). apply IZR_lt. lia. }
    unfold fexp64, SpecFloat.fexp, SpecFloat.emin. lia.
Qed.
Lemma int_small n : Z.abs n <= 2 ^ 53 -> (Rabs (IZR n) < big)%R.
Proof.
  intros H. rewrite <- abs_IZR. apply Rle_lt_trans with (IZR (2 ^ 53)); [now apply IZR_le|].
  change (IZR (2 ^ 53)) with (bpow radix2 53). apply bpow_lt. lia.
Qed.
Lemma ofZ_correct n : Z.abs n <= 2 ^ 53 -> fin (F64_ofZ n) /\ val (F64_ofZ n) = IZR n.
Proof.
  intros H. unfold F64_ofZ. change f64_prec with 53. change f64_emax with 1024. rewrite normalize_equiv.
  pose proof (binary_normalize_correct 53 1024 prec64 emax64 mode_NE n 0 false) as C. cbv zeta in C.
  replace (F2R (Float radix2 n 0)) with (IZR n) in C by (unfold F2R; cbn; ring).
  change (round radix2 (SpecFloat.fexp 53 1024) (round_mode mode_NE) (IZR n)) with (rnd (IZR n)) in C.
  rewrite rnd_int in C by assumption. rewrite Rlt_bool_true in C by now apply int_small.
  destruct C as (C1 & C2 & _). split; [now apply fin_B|now rewrite val_B].
Qed.
(** Two finite floats of the same non-zero value are the same float. *)
Lemma val_inj x y : fin x -> fin y -> val x = val y -> val x <> 0%R -> x = y.
Proof.
  intros Hx Hy E Hz. destruct (fin_as_B x Hx) as (bx & -> & Fx & Vx). destruct (fin_as_B y Hy) as (by_ & -> & Fy & Vy).
  f_equal. rewrite Vx in *. rewrite Vy in *. apply B2R_inj; [| |assumption].
  - destruct bx; cbn in *; try lra; reflexivity || discriminate.
  - rewrite E in Hz. destruct by_; cbn in *; try lra; reflexivity || discriminate.
Qed.
