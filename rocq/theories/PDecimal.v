(** Proofs about printing a double and reading it back. *)
From Coq Require Import Reals Lra ZArith QArith Qabs Qpower Qreals Lia List Bool Ascii Arith SpecFloat.
From Flocq Require Import Core BinarySingleNaN Relative.
From Verif Require Import Base Spec SpecNum Bridge BridgeNum MUtil MGeom MHull MPolygon MMaps MTriangle MGen MRegion MDelaunay MMesh MFormat
  PUtil PMaps PPoly PPoly2 PMesh PFloat PFormat.
Import ListNotations.
Local Open Scope Z_scope.

(** * Six digits determine a decimal of six digits. *)
Lemma round_digits_unique num den M E : 0 < num -> 0 < den -> 100000 <= M < 1000000 ->
  (forall k, 0 <= k -> 0 <= E - 1 + k -> 100000000 * Z.abs (num * 10 ^ k - M * 10 ^ (E + k) * den) <= M * 10 ^ (E + k) * den) ->
  round_digits 6 num den = (M, E + 5).
Proof.
  intros Hn Hd HM Hc. destruct (round_digits 6 num den) as [m x] eqn:Em.
  destruct (round_digits_spec 6 num den m x ltac:(lia) Hn Hd Em) as (B & Hx & n & Hnm & S).
  change (10 ^ (6 - 1)) with 100000 in B. change (10 ^ 6) with 1000000 in B.
  set (x0 := dexp num den) in *. set (k := Z.abs E + Z.abs x0 + 10).
  pose proof (dexp_spec num den k Hn Hd ltac:(lia) ltac:(lia)) as HD. fold x0 in HD.
  specialize (Hc k ltac:(lia) ltac:(lia)). specialize (S k ltac:(lia) ltac:(lia)).
  set (A := num * 10 ^ k) in *. set (U := 10 ^ (E - 1 + k) * den). 
  assert (HU : 0 < U) by (apply Z.mul_pos_pos; [apply pow10_pos; lia|assumption]).
  assert (P : forall j, 0 <= j -> 10 ^ (E - 1 + k + j) * den = 10 ^ j * U).
  { intros j Hj. unfold U. rewrite Z.pow_add_r by lia. ring. }
  assert (E1 : M * 10 ^ (E + k) * den = 10 * M * U).
  { replace (E + k) with (E - 1 + k + 1) by lia. rewrite <- Z.mul_assoc, (P 1) by lia. change (10 ^ 1) with 10. ring. }
  rewrite E1 in Hc. replace (10 * M * U) with (10 * (M * U)) in Hc by ring.
  assert (HW : 100000 * U <= M * U <= 999999 * U) by (split; apply Z.mul_le_mono_nonneg_r; lia).
  set (W := M * U) in *. clearbody A.
  assert (Hbetween : forall a b, - U < (a - b) * U < U -> a = b).
  { intros a b H. assert (-1 * U < (a - b) * U < 1 * U) as [H1 H2] by lia.
    apply Z.mul_lt_mono_pos_r in H1; [|assumption]. apply Z.mul_lt_mono_pos_r in H2; [|assumption]. lia. }
  assert (X : x0 = E + 5 \/ x0 = E + 4).
  { destruct (Z.le_gt_cases x0 (E + 3)) as [Hle|Hgt].
    - exfalso. assert (10 ^ (x0 + k) <= 10 ^ (E - 1 + k + 4)) by (apply Z.pow_le_mono_r; lia).
      assert (Q : den * (10 * 10 ^ (x0 + k)) <= 10 * (10 ^ (E - 1 + k + 4) * den)).
      { replace (10 * (10 ^ (E - 1 + k + 4) * den)) with (den * (10 * 10 ^ (E - 1 + k + 4))) by ring. apply Z.mul_le_mono_nonneg_l; [clear - Hd; lia|]. apply Z.mul_le_mono_nonneg_l; [clear; lia|assumption]. }
      rewrite (P 4) in Q by (clear; lia). change (10 ^ 4) with 10000 in Q. apply proj2 in HD. clear - HD Q Hc HW HU. lia.
    - destruct (Z.le_gt_cases (E + 6) x0) as [Hge|Hlt]; [exfalso|lia].
      assert (10 ^ (E - 1 + k + 7) <= 10 ^ (x0 + k)) by (apply Z.pow_le_mono_r; lia).
      assert (Q : 10 ^ (E - 1 + k + 7) * den <= den * 10 ^ (x0 + k)).
      { rewrite Z.mul_comm. apply Z.mul_le_mono_nonneg_l; [clear - Hd; lia|assumption]. }
      rewrite (P 7) in Q by (clear; lia). change (10 ^ 7) with 10000000 in Q. apply proj1 in HD. clear - HD Q Hc HW HU. lia. }
  destruct X as [X|X]; rewrite X in *.
  - replace (E + 5 - 6 + 1 + k) with (E - 1 + k + 1) in S by lia.
    rewrite <- (Z.mul_assoc n), !(P 1) in S by lia. change (10 ^ 1) with 10 in S.
    replace (n * (10 * U)) with (10 * (n * U)) in S by ring.
    assert (n = M). { apply Hbetween. rewrite Z.mul_sub_distr_r. fold W. set (V := n * U) in *. clearbody V W U. clear - S Hc HW HU. lia. }
    subst n.
    assert (x - (E + 5) = 0 \/ x - (E + 5) = 1) as [H'|H'] by lia; rewrite H' in *.
    + rewrite Z.pow_0_r in *. f_equal; lia.
    + change (10 ^ 1) with 10 in *. lia.
  - replace (E + 4 - 6 + 1 + k) with (E - 1 + k) in S by lia. rewrite <- (Z.mul_assoc n) in S. fold U in S.
    assert (HD2 : A < 1000000 * U).
    { replace (den * (10 * 10 ^ (E + 4 + k))) with (10 ^ (E - 1 + k + 6) * den) in HD.
      - rewrite (P 6) in HD by lia. change (10 ^ 6) with 1000000 in HD. lia.
      - replace (E - 1 + k + 6) with (Z.succ (E + 4 + k)) by lia. rewrite Z.pow_succ_r by lia. ring. }
    assert (M = 100000). { apply Hbetween. rewrite Z.mul_sub_distr_r. fold W. clearbody W U. clear - Hc HW HD2 HU. lia. }
    assert (HW2 : W = 100000 * U) by (unfold W; f_equal; assumption).
    assert (n = 1000000). { apply Hbetween. rewrite Z.mul_sub_distr_r. set (V := n * U) in *. clearbody V W U. clear - S Hc HW2 HU. lia. }
    assert (x - (E + 4) = 0 \/ x - (E + 4) = 1) as [H'|H'] by lia; rewrite H' in *.
    + rewrite Z.pow_0_r in *. lia.
    + change (10 ^ 1) with 10 in *. f_equal; lia.
Qed.

(** * Decimals as real numbers. *)
Lemma Q2R_inject z : Q2R (inject_Z z) = IZR z.
Proof. unfold Q2R, inject_Z. cbn. field. Qed.
Lemma Q2R_scaled_nonneg b m e : 0 < b -> 0 <= e -> Q2R (scaled b m e) = IZR (m * b ^ e).
Proof.
  intros Hb He. rewrite <- Q2R_inject. apply Qeq_eqR.
  pose proof (scaled_shift b m e 0 Hb ltac:(lia) ltac:(lia)) as H. rewrite Z.add_0_r in H. rewrite <- H.
  change (b ^ 0) with 1. ring.
Qed.
Lemma Q2R_scaled_neg b m e : 0 < b -> e <= 0 -> Q2R (scaled b m e) = (IZR m / IZR (b ^ (- e)))%R.
Proof.
  intros Hb He. pose proof (scaled_shift b m e (- e) Hb ltac:(lia) ltac:(lia)) as H.
  replace (e + - e) with 0 in H by lia. rewrite Z.pow_0_r, Z.mul_1_r in H.
  apply Qeq_eqR in H. rewrite Q2R_mult, !Q2R_inject in H. rewrite <- H. field.
  apply IZR_neq. pose proof (Z.pow_pos_nonneg b (- e)). lia.
Qed.
Lemma Q2R_scaled_pos b m e : 0 < b -> 0 < m -> (0 < Q2R (scaled b m e))%R.
Proof.
  intros Hb Hm. destruct (Z.le_gt_cases 0 e) as [H|H].
  - rewrite Q2R_scaled_nonneg by assumption. apply IZR_lt. pose proof (Z.pow_pos_nonneg b e). nia.
  - rewrite Q2R_scaled_neg by lia. apply Rdiv_lt_0_compat; apply IZR_lt; [assumption|]. apply Z.pow_pos_nonneg; lia.
Qed.

Definition neg_if (s : bool) (r : R) : R := if s then (- r)%R else r.

Lemma val_finite s m e : val (S754_finite s m e) = neg_if s (Q2R (scaled 2 (Zpos m) e)).
Proof.
  unfold val, SF2R, F2R. cbn [Fnum Fexp].
  assert (B : (IZR (Zpos m) * bpow radix2 e)%R = Q2R (scaled 2 (Zpos m) e)).
  { destruct (Z.le_gt_cases 0 e) as [H|H].
    - rewrite Q2R_scaled_nonneg, mult_IZR by lia. f_equal. symmetry. change 2 with (radix_val radix2) at 1. now rewrite IZR_Zpower.
    - rewrite Q2R_scaled_neg by lia. unfold Rdiv. f_equal. change 2 with (radix_val radix2) at 1.
      rewrite IZR_Zpower by lia. rewrite <- bpow_opp. f_equal. lia. }
  destruct s; cbn [cond_Zopp neg_if].
  - rewrite <- B, opp_IZR. ring.
  - exact B.
Qed.

(** Reading a decimal gives the nearest double. *)
Lemma rnd_neg s r : rnd (neg_if s r) = neg_if s (rnd r).
Proof. destruct s; [apply round_NE_opp|reflexivity]. Qed.
Lemma neg_if_abs s r : Rabs (neg_if s r) = Rabs r.
Proof. destruct s; [apply Rabs_Ropp|reflexivity]. Qed.

Lemma decimal64_correct s m e : 0 < m -> (Rabs (rnd (Q2R (scaled 10 m e))) < big)%R ->
  fin (decimal64 s m e) /\ val (decimal64 s m e) = neg_if s (rnd (Q2R (scaled 10 m e))).
Proof.
  intros Hm Hb. unfold decimal64. change f64_prec with 53. change f64_emax with 1024.
  destruct (0 <=? e) eqn:He.
  - apply Z.leb_le in He. pose proof (pow10_pos e He).
    destruct (m * 10 ^ e) as [|p|p] eqn:Ep; [nia| |nia].
    rewrite Q2R_scaled_nonneg in * by lia. rewrite Ep in *. rewrite round_equiv.
    pose proof (binary_round_correct 53 1024 prec64 emax64 mode_NE s p 0) as C. cbv zeta in C. destruct C as [C1 C].
    replace (F2R (Float radix2 (cond_Zopp s (Zpos p)) 0)) with (neg_if s (IZR (Zpos p))) in C
      by (unfold F2R; destruct s; cbn [Fnum Fexp cond_Zopp neg_if]; [rewrite opp_IZR|]; cbn; ring).
    change (round radix2 (SpecFloat.fexp 53 1024) (round_mode mode_NE)) with rnd in C. rewrite rnd_neg in C.
    rewrite Rlt_bool_true in C by (rewrite neg_if_abs; exact Hb). destruct C as (C2 & C3 & _).
    split; [split; assumption|exact C2].
  - apply Z.leb_gt in He. destruct m as [|p|p]; [lia| |lia].
    pose proof (pow10_pos (- e) ltac:(lia)) as Hp. rewrite Q2R_scaled_neg in * by lia.
    destruct (10 ^ (- e)) as [|q|q]; [lia| |lia].
    pose proof (Bdiv_correct_aux 53 1024 prec64 emax64 mode_NE s p 0 false q 0) as C. cbv zeta in C.
    destruct (SFdiv_core_binary 53 1024 (Zpos p) 0 (Zpos q) 0) as [[mz ez] lz]. rewrite rnd_aux_equiv.
    rewrite xorb_false_r in C. destruct C as [C1 C].
    replace (F2R (Float radix2 (cond_Zopp s (Zpos p)) 0) / F2R (Float radix2 (cond_Zopp false (Zpos q)) 0))%R
      with (neg_if s (IZR (Zpos p) / IZR (Zpos q))) in C.
    2:{ unfold F2R. destruct s; cbn [Fnum Fexp cond_Zopp neg_if]; [rewrite opp_IZR|]; change (bpow radix2 0) with 1%R; field; apply IZR_neq; lia. }
    change (round radix2 (SpecFloat.fexp 53 1024) (round_mode mode_NE)) with rnd in C. rewrite rnd_neg in C.
    rewrite Rlt_bool_true in C by (rewrite neg_if_abs; exact Hb). destruct C as (C2 & C3 & _).
    split; [split; assumption|exact C2].
Qed.

(** The decimals in the range of the claim are normal and do not overflow. *)
Lemma decimal_range M E : 0 < M < 1000000 -> -300 <= E <= 300 ->
  (bpow radix2 (-1022) <= Q2R (scaled 10 M E) <= bpow radix2 1023)%R.
Proof.
  intros HM HE.
  assert (L : (IZR (2 ^ 1022) * Q2R (scaled 10 M E) * IZR (10 ^ 300) >= IZR (10 ^ 300))%R).
  { replace (IZR (2 ^ 1022) * Q2R (scaled 10 M E) * IZR (10 ^ 300))%R with (IZR (2 ^ 1022) * (Q2R (scaled 10 M E) * IZR (10 ^ 300)))%R by ring.
    rewrite <- (Q2R_inject (10 ^ 300)), <- Q2R_mult. rewrite (Qeq_eqR _ _ (scaled_shift 10 M E 300 ltac:(lia) ltac:(lia) ltac:(lia))).
    rewrite !Q2R_inject, <- mult_IZR. apply IZR_ge.
    assert (1 <= M * 10 ^ (E + 300)) by (pose proof (pow10_pos (E + 300) ltac:(lia)); nia).
    assert (10 ^ 300 <= 2 ^ 1022) by (vm_compute; discriminate). set (a := M * 10 ^ (E + 300)) in *. set (b := 2 ^ 1022) in *. set (c := 10 ^ 300) in *. nia. }
  assert (Hc : (0 < IZR (10 ^ 300))%R) by (apply IZR_lt, pow10_pos; lia).
  assert (Hb : (0 < IZR (2 ^ 1022))%R) by (apply IZR_lt, Z.pow_pos_nonneg; lia).
  split.
  - apply Rmult_le_reg_l with (IZR (2 ^ 1022)); [assumption|].
    replace (IZR (2 ^ 1022) * bpow radix2 (-1022))%R with 1%R.
    + apply Rmult_le_reg_r with (IZR (10 ^ 300)); [assumption|]. rewrite Rmult_1_l. lra.
    + change (IZR (2 ^ 1022)) with (IZR (Zpower radix2 1022)). rewrite IZR_Zpower by lia. rewrite <- bpow_plus. reflexivity.
  - apply Rmult_le_reg_r with (IZR (10 ^ 300)); [assumption|].
    rewrite <- (Q2R_inject (10 ^ 300)) at 1. rewrite <- Q2R_mult, (Qeq_eqR _ _ (scaled_shift 10 M E 300 ltac:(lia) ltac:(lia) ltac:(lia))).
    replace (bpow radix2 1023) with (IZR (2 ^ 1023)) by (change (IZR (2 ^ 1023)) with (IZR (Zpower radix2 1023)); now rewrite IZR_Zpower by lia).
    rewrite Q2R_inject, <- mult_IZR. apply IZR_le.
    assert (10 ^ (E + 300) <= 10 ^ 600) by (apply Z.pow_le_mono_r; lia).
    assert (1000000 * 10 ^ 600 <= 2 ^ 1023 * 10 ^ 300) by (vm_compute; discriminate).
    pose proof (pow10_pos (E + 300) ltac:(lia)). set (a := 10 ^ (E + 300)) in *. set (b := 2 ^ 1023 * 10 ^ 300) in *. set (c := 10 ^ 600) in *. nia.
Qed.

Lemma decimal_rounded M E : 0 < M < 1000000 -> -300 <= E <= 300 ->
  let d := Q2R (scaled 10 M E) in
  (Rabs (rnd d) < big)%R /\ (0 < rnd d)%R /\ (100000000 * Rabs (rnd d - d) <= d)%R.
Proof.
  intros HM HE d. destruct (decimal_range M E HM HE) as [L U]. fold d in L, U.
  pose proof (bpow_gt_0 radix2 (-1022)) as B0.
  assert (G : forall k, -1022 <= k -> generic_format radix2 fexp64 (bpow radix2 k)).
  { intros k Hk. apply generic_format_bpow. unfold fexp64, SpecFloat.fexp, SpecFloat.emin. lia. }
  assert (R1 : (bpow radix2 (-1022) <= rnd d)%R).
  { rewrite <- (round_generic radix2 fexp64 ZnearestE (bpow radix2 (-1022))) by (apply G; lia). apply round_le; [typeclasses eauto|typeclasses eauto|exact L]. }
  assert (R2 : (rnd d <= bpow radix2 1023)%R).
  { rewrite <- (round_generic radix2 fexp64 ZnearestE (bpow radix2 1023)) by (apply G; lia). apply round_le; [typeclasses eauto|typeclasses eauto|exact U]. }
  split; [|split].
  - rewrite Rabs_pos_eq by lra. apply Rle_lt_trans with (1 := R2). apply bpow_lt. lia.
  - lra.
  - pose proof (relative_error_N_FLT radix2 (-1074) 53 prec64 (fun x => negb (Z.even x)) d) as H.
    change (FLT_exp (-1074) 53) with fexp64 in H. change (round radix2 fexp64 (Znearest (fun x => negb (Z.even x))) d) with (rnd d) in H.
    rewrite (Rabs_pos_eq d) in H by lra. specialize (H L). change (Z.opp 53 + 1) with (-53 + 1) in H.
    assert (B : (100000000 * (/ 2 * bpow radix2 (-53 + 1)) <= 1)%R).
    { change (bpow radix2 (-53 + 1)) with (/ IZR (2 ^ 52))%R. apply Rmult_le_reg_r with (IZR (2 ^ 52)); [apply IZR_lt; reflexivity|].
      replace (100000000 * (/ 2 * / IZR (2 ^ 52)) * IZR (2 ^ 52))%R with (100000000 / 2)%R.
      - change (2 ^ 52) with 4503599627370496. lra.
      - field. apply IZR_neq. discriminate. }
    assert (0 < d)%R by lra. apply Rle_trans with (100000000 * (/ 2 * bpow radix2 (-53 + 1) * d))%R; [lra|].
    rewrite <- Rmult_assoc. rewrite <- (Rmult_1_l d) at 2. apply Rmult_le_compat_r; lra.
Qed.

Lemma six_normal M : 0 < M < 1000000 -> exists j, 0 <= j <= 5 /\ 100000 <= M * 10 ^ j < 1000000.
Proof.
  intros H.
  assert (M < 10 \/ 10 <= M < 100 \/ 100 <= M < 1000 \/ 1000 <= M < 10000 \/ 10000 <= M < 100000 \/ 100000 <= M) as [C|[C|[C|[C|[C|C]]]]] by lia;
  [exists 5|exists 4|exists 3|exists 2|exists 1|exists 0]; (split; [lia|]); [change (10 ^ 5) with 100000|change (10 ^ 4) with 10000|change (10 ^ 3) with 1000|change (10 ^ 2) with 100|change (10 ^ 1) with 10|change (10 ^ 0) with 1]; lia.
Qed.

Lemma finite_sign x s r : fin x -> val x = neg_if s r -> (0 < r)%R ->
  exists m e, x = S754_finite s m e /\ Q2R (scaled 2 (Zpos m) e) = r.
Proof.
  intros [V F] Hv Hr. destruct x as [s'|s'| |s' m e]; try discriminate F.
  - cbn in Hv. destruct s; cbn in Hv; lra.
  - exists m, e. rewrite val_finite in Hv. pose proof (Q2R_scaled_pos 2 (Zpos m) e ltac:(lia) ltac:(lia)).
    destruct s, s'; cbn [neg_if] in Hv; try lra; (split; [reflexivity|lra]).
Qed.

Lemma six_digits_survive s M E : 0 < M < 1000000 -> -300 <= E <= 300 ->
  fin (decimal64 s M E) /\ atof64 (print_double (decimal64 s M E)) = decimal64 s M E.
Proof.
  intros HM HE. set (d := Q2R (scaled 10 M E)).
  destruct (decimal_rounded M E HM HE) as (B & P & A). fold d in B, P, A.
  destruct (decimal64_correct s M E (proj1 HM) B) as [F V]. fold d in V. split; [assumption|].
  destruct (finite_sign _ s (rnd d) F V P) as (mx & ex & Hx & Hv). set (x := decimal64 s M E) in *.
  destruct (six_normal M HM) as (j & Hj & HMj).
  assert (Eq : (scaled 10 (M * 10 ^ j) (E - j) == scaled 10 M E)%Q).
  { apply (Qmult_inj_r _ _ (inject_Z (10 ^ 400))).
    - apply Qnot_eq_sym, Qlt_not_eq, inject_pos, pow10_pos. lia.
    - rewrite !scaled_shift by lia. apply inject_Z_injective. rewrite <- Z.mul_assoc, <- Z.pow_add_r by lia. do 2 f_equal. lia. }
  destruct (double_fraction mx ex) as (num & den & Hn & Hd & Hq & Heq).
  assert (HD : round_digits 6 num den = (M * 10 ^ j, E - j + 5)).
  { apply round_digits_unique; try assumption. intros k Hk Hk2. apply le_IZR.
    rewrite mult_IZR, abs_IZR, minus_IZR, (mult_IZR num), (mult_IZR (_ * _) den).
    apply Qeq_eqR in Hq. rewrite Q2R_mult, !Q2R_inject, Hv in Hq. rewrite <- Hq.
    pose proof (Qeq_eqR _ _ (scaled_shift 10 (M * 10 ^ j) (E - j) k ltac:(lia) Hk ltac:(lia))) as HS.
    rewrite Q2R_mult, (Qeq_eqR _ _ Eq), !Q2R_inject in HS. fold d in HS. rewrite <- HS.
    assert (0 < IZR den)%R by now apply IZR_lt. assert (0 < IZR (10 ^ k))%R by (apply IZR_lt, pow10_pos; lia).
    replace (rnd d * IZR den * IZR (10 ^ k) - d * IZR (10 ^ k) * IZR den)%R with ((rnd d - d) * (IZR den * IZR (10 ^ k)))%R by ring.
    assert (0 < IZR den * IZR (10 ^ k))%R by now apply Rmult_lt_0_compat.
    rewrite Rabs_mult, (Rabs_pos_eq (IZR den * _)) by lra. rewrite <- Rmult_assoc.
    replace (d * IZR (10 ^ k) * IZR den)%R with (d * (IZR den * IZR (10 ^ k)))%R by ring.
    apply Rmult_le_compat_r; [lra|exact A]. }
  destruct (print_fraction_digits num den _ _ Hn Hd HD) as (m2 & e2 & HL & Hm2 & Hs).
  replace (E - j + 5 - 5) with (E - j) in Hs by lia. rewrite Eq in Hs. apply Qeq_eqR in Hs. fold d in Hs.
  assert (HP : print_double x = (if s then ["-"%char] else []) ++ print_fraction num den).
  { rewrite Hx. unfold print_double. destruct (0 <=? ex); injection Heq as -> ->; destruct s; reflexivity. }
  rewrite HP, (atof_literal _ _ _ HL s).
  destruct (decimal64_correct s m2 e2 Hm2) as [F2 V2]; [rewrite Hs; exact B|]. rewrite Hs in V2.
  apply val_inj; [assumption|assumption|congruence|]. rewrite V2. destruct s; cbn; lra.
Qed.

(** toString<double> of an int is what [print_g] prints. *)
Lemma print_double_of_int n : Z.abs n <= 2 ^ 53 -> toString_double_of_int n = print_g n.
Proof.
  intros Hn. unfold toString_double_of_int, print_g. cbv zeta.
  destruct (Z.eq_dec n 0) as [->|Hz]; [reflexivity|].
  destruct (ofZ_correct n Hn) as [F V].
  assert (Hs : val (F64_ofZ n) = neg_if (n <? 0) (IZR (Z.abs n))).
  { rewrite V. destruct (n <? 0) eqn:E; cbn [neg_if]; [apply Z.ltb_lt in E; rewrite <- opp_IZR; f_equal; lia|apply Z.ltb_ge in E; f_equal; lia]. }
  destruct (finite_sign _ _ _ F Hs) as (m & e & -> & HQ); [apply IZR_lt; lia|].
  destruct (double_fraction m e) as (num & den & H1 & H2 & Hq & Heq).
  apply Qeq_eqR in Hq. rewrite Q2R_mult, !Q2R_inject, HQ, <- mult_IZR in Hq. apply eq_IZR in Hq.
  assert (HP : print_double (S754_finite (n <? 0) m e) = (if n <? 0 then ["-"%char] else []) ++ print_fraction num den).
  { unfold print_double. destruct (0 <=? e); injection Heq as -> ->; destruct (n <? 0); reflexivity. }
  rewrite HP, <- Hq, print_fraction_int by lia. destruct (n <? 0); reflexivity.
Qed.

(** Coordinates that survive. *)
Lemma six_digit_reread x : six_digit x -> atof64 (print_double x) = x.
Proof.
  intros [(s & ->)|(s & M & E & HM & HE & ->)].
  - destruct s; reflexivity.
  - exact (proj2 (six_digits_survive s M E HM HE)).
Qed.
Lemma reread_points (pts : list (Point F64)) :
  Forall (fun q => six_digit (@px F64 q) /\ six_digit (@py F64 q)) pts ->
  map (reread (N := F64) atof64 print_double) pts = map unmarked pts.
Proof.
  induction 1 as [|[x y] l [Hx Hy] _ IH]; [reflexivity|]. cbn [map]. rewrite IH. f_equal.
  unfold reread, unmarked. cbn [px py] in *. rewrite (six_digit_reread x Hx), (six_digit_reread y Hy). reflexivity.
Qed.
Lemma points_printable (pts : list (Point F64)) : Forall (printable (N := F64) print_double) pts.
Proof. apply Forall_forall. intros q _. split; apply print_double_field. Qed.

Lemma reread_spec s m e : exists M E, 0 < M /\ rounded_to 6 (scaled 2 (Zpos m) e) (scaled 10 M E) /\
  atof64 (print_double (S754_finite s m e)) = decimal64 s M E.
Proof.
  destruct (print_double_spec s m e) as (b & M & E & -> & L & P & R). exists M, E. split; [assumption|]. split; [assumption|].
  exact (atof_literal b M E L s).
Qed.

Lemma double_file (tol : f64) (pts : list (Point F64)) (kss : list (list Z)) start :
  Forall (fun q => six_digit (@px F64 q) /\ six_digit (@py F64 q)) pts ->
  zlen pts <= int_max -> zlen kss <= int_max ->
  Forall (fun ks => zlen ks < 1000000 /\ Forall (fun k => Z.abs (k + start) < 1000000) ks) kss ->
  strict_weak_order_on (fun q => In q (map unmarked pts)) (pt_ltb (N := F64) tol) ->
  (forall i j a b, nth_error (map unmarked pts) i = Some a -> nth_error (map unmarked pts) j = Some b -> equivb (pt_ltb (N := F64) tol) a b = true -> i = j) ->
  exists m, createFromStream (N := F64) atof64 tol (polygon_ctor_idx (N := F64) tol) (@pg_points F64) mesh_new
      (unlines (print_int (zlen pts) :: map (point_string (N := F64) print_double) pts ++
                print_int (zlen kss) :: map (fun ks => polygon_string (map (fun k => k + start) ks)) kss)) start = Ok m /\
    ul_list (ms_points m) = map unmarked pts /\ map (@pg_points F64) (ms_polygons m) = kss /\
    forall nb s, um_find (iseg_match nb) s (ms_edges m) = spec_sm_run (cell_inserts 0 (map edges_of kss)) (canon s).
Proof.
  intros H6 A B C D E. pose proof (reread_points pts H6) as HR.
  destruct (read_back (N := F64) tol atof64 print_double pts kss start (points_printable pts) A B C) as (m & M1 & M2 & M3);
    [rewrite HR; exact D|rewrite HR; exact E|]. exists m. rewrite HR in M2. auto.
Qed.

(** Fixed notation. *)
Lemma print_decimals_literal prec num den v : 0 <= prec -> 0 <= num -> 0 < den -> (v * inject_Z den == inject_Z num)%Q ->
  exists M, 0 <= M /\ literal (print_decimals prec num den) M (- prec) /\ rounded_decimals prec v (scaled 10 M (- prec)).
Proof.
  intros Hp Hn Hd Hv. pose proof (pow10_pos prec Hp) as HP.
  destruct (round_div_near (num * 10 ^ prec) den) as [A B]; [nia|assumption|].
  set (m := round_div (num * 10 ^ prec) den) in *. exists m. split; [assumption|]. split.
  - unfold print_decimals. cbv zeta. fold m. destruct (prec =? 0) eqn:E.
    + apply Z.eqb_eq in E. subst prec. destruct (dec_spec m B) as (D1 & D2 & D3 & _).
      rewrite <- D3 at 2. rewrite <- run_value_dval by assumption. apply lit_plain; [assumption|now apply Forall_decimal].
    + apply Z.eqb_neq in E. set (P := 10 ^ prec) in *.
      destruct (dec_spec (m / P)) as (D1 & D2 & D3 & _); [apply Z.div_pos; lia|].
      pose proof (Z.mod_pos_bound m P HP) as Hmod. destruct (dec_spec (m mod P)) as (D1' & D2' & D3' & _); [lia|].
      destruct (pad_spec prec (dec (m mod P)) D1') as (G & L & V); [apply dec_length_le; [exact Hmod|lia]|].
      assert (HA : Forall isdig (dec (m / P) ++ pad prec (dec (m mod P)))) by (apply Forall_app; auto).
      replace m with (run_value (dec (m / P) ++ pad prec (dec (m mod P)))) at 3.
      2:{ rewrite run_value_dval by assumption. rewrite dval_app, D3, dval_acc, V, D3', L. fold P.
          rewrite (Z.div_mod m P) at 3 by lia. lia. }
      rewrite <- L at 3. apply lit_frac; [assumption| |now apply Forall_decimal].
      intros Hnil. rewrite Hnil in L. cbn in L. lia.
  - split; [exists m; reflexivity|].
    set (K := inject_Z (10 ^ prec)). assert (HK : (0 < K)%Q) by (apply inject_pos; assumption).
    pose proof (inject_pos den Hd) as Hd'. set (D := inject_Z den) in *.
    assert (HDK : (0 < D * K)%Q) by (apply Qmult_lt_0_compat; assumption).
    assert (EV : (v * (D * K) == inject_Z (num * 10 ^ prec))%Q).
    { rewrite inject_Z_mult, <- Hv. unfold K. ring. }
    assert (E1 : forall z, (scaled 10 z (- prec) * (D * K) == inject_Z (z * den))%Q).
    { intros z. pose proof (scaled_shift 10 z (- prec) prec ltac:(lia) Hp ltac:(lia)) as HS.
      replace (- prec + prec) with 0 in HS by lia. rewrite Z.pow_0_r, Z.mul_1_r in HS.
      rewrite inject_Z_mult, <- HS. unfold D, K. ring. }
    apply (Qmult_le_r _ _ (D * K)); [assumption|]. rewrite <- (Qabs_pos (D * K)) at 1 by (apply Qlt_le_weak; assumption).
    rewrite <- Qabs_Qmult. setoid_replace ((v - scaled 10 m (- prec)) * (D * K))%Q with (inject_Z (num * 10 ^ prec - m * den)).
    2:{ unfold Z.sub. rewrite inject_Z_plus, inject_Z_opp, <- EV, <- E1. ring. }
    rewrite <- Qmult_assoc, E1, <- inject_abs.
    apply (Qmult_le_l _ _ (inject_Z 2)); [reflexivity|]. rewrite Qmult_assoc. change (inject_Z 2 * (1#2))%Q with (inject_Z 2 * / inject_Z 2)%Q.
    rewrite Qmult_inv_r, Qmult_1_l by discriminate. rewrite <- inject_Z_mult, <- Zle_Qle. lia.
Qed.
Lemma with_precision_spec s m e prec : 0 <= prec ->
  exists body M, toStringWithPrecision (S754_finite s m e) prec = (if s then ["-"%char] else []) ++ body /\
    literal body M (- prec) /\ rounded_decimals prec (scaled 2 (Zpos m) e) (scaled 10 M (- prec)).
Proof.
  intros Hp. destruct (double_fraction m e) as (num & den & Hn & Hd & Hv & Heq).
  destruct (print_decimals_literal prec num den _ Hp ltac:(lia) Hd Hv) as (M & _ & A & B).
  exists (print_decimals prec num den), M. split; [|auto].
  unfold toStringWithPrecision. destruct (0 <=? e); injection Heq as -> ->; destruct s; reflexivity.
Qed.

Lemma decimal64_nearest s m e : 0 < m -> (Rabs (nearest (Q2R (scaled 10 m e))) < bpow radix2 1024)%R ->
  fin (decimal64 s m e) /\ val (decimal64 s m e) = if s then (- nearest (Q2R (scaled 10 m e)))%R else nearest (Q2R (scaled 10 m e)).
Proof. exact (decimal64_correct s m e). Qed.
Lemma atof_nearest (s : bool) (t : text) m e : literal t m e -> 0 < m ->
  (Rabs (nearest (Q2R (scaled 10 m e))) < bpow radix2 1024)%R ->
  let x := atof64 ((if s then ["-"%char] else []) ++ t) in
  fin x /\ val x = if s then (- nearest (Q2R (scaled 10 m e)))%R else nearest (Q2R (scaled 10 m e)).
Proof. intros H Hm Hb x. unfold x. rewrite (atof_literal t m e H s). now apply decimal64_nearest. Qed.
