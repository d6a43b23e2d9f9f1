(** Functions that meet what is asked of sin and cos on doubles. *)
From Coq Require Import Reals Lra Psatz Lia ZArith SpecFloat List Bool.
From Flocq Require Import Core.
From Verif Require Import Base Spec MUtil MGeom MGen Bridge BridgeNum BridgeTrig64.
From Verif Require Import PUtil PPoint PFloat.
Local Open Scope R_scope.

(** the multiple of [2^-52] below the exact value *)
Definition grid52 (f : R -> R) (x : f64) : f64 := @ndiv F64 (@nZ F64 (Zfloor (f (val x) * bpow radix2 52))) (@nZ F64 (2 ^ 52)).
Lemma grid52_accurate (f : R -> R) : (forall x, -1 <= f x <= 1) -> accurate (grid52 f) f.
Proof.
  intros B x Fx. unfold grid52. set (m := Zfloor (f (val x) * bpow radix2 52)).
  assert (P : 0 < bpow radix2 52) by apply bpow_gt_0. pose proof (B (val x)) as Bx.
  pose proof (Zfloor_lb (f (val x) * bpow radix2 52)) as L1. pose proof (Zfloor_ub (f (val x) * bpow radix2 52)) as L2. fold m in L1, L2.
  assert (I52 : IZR (2 ^ 52) = bpow radix2 52) by reflexivity.
  assert (M : (- 2 ^ 52 <= m <= 2 ^ 52)%Z).
  { split; [apply Zfloor_lub; rewrite opp_IZR, I52; nra|apply le_IZR; rewrite I52; nra]. }
  destruct (ofZ_correct m) as [Fm Vm]; [lia|]. destruct (ofZ_correct (2 ^ 52)) as [Fd Vd]; [lia|]. change F64_ofZ with (@nZ F64) in *.
  assert (Q : IZR m / IZR (2 ^ 52) = IZR m * bpow radix2 (-52)) by (unfold Rdiv; rewrite I52, <- bpow_opp; reflexivity).
  assert (X : rnd (IZR m * bpow radix2 (-52)) = IZR m * bpow radix2 (-52)).
  { apply round_generic; [typeclasses eauto|]. apply generic_format_FLT. destruct (Z.eq_dec m (2 ^ 52)) as [->|N1]; [|destruct (Z.eq_dec m (- 2 ^ 52)) as [->|N2]].
    - exists (Float radix2 1 0); [unfold F2R; cbn [Fnum Fexp]; rewrite I52, <- bpow_plus; cbn; lra|cbn; lia|cbn; lia].
    - exists (Float radix2 (-1) 0); [unfold F2R; cbn [Fnum Fexp]; rewrite opp_IZR, I52, Ropp_mult_distr_l_reverse, <- bpow_plus; cbn; lra|cbn; lia|cbn; lia].
    - exists (Float radix2 m (-52)); [reflexivity|cbn [Fnum]; change (Zpower radix2 53) with (2 ^ 53)%Z; lia|cbn; lia]. }
  assert (P52 : bpow radix2 (-52) * bpow radix2 52 = 1) by (rewrite <- bpow_plus; reflexivity).
  assert (N52 : 0 < bpow radix2 (-52)) by apply bpow_gt_0.
  assert (AB : Rabs (IZR m * bpow radix2 (-52)) <= 1).
  { assert (IZR (- 2 ^ 52) <= IZR m <= IZR (2 ^ 52)) as [M1 M2] by (split; apply IZR_le; lia). rewrite opp_IZR in M1. rewrite I52 in *. apply Rabs_le. split; nra. }
  destruct (div_correct _ _ Fm Fd) as [F V]; [rewrite Vd, I52; lra|rewrite Vm, Vd, Q, X; eapply Rle_lt_trans; [exact AB|]; change 1 with (bpow radix2 0); apply bpow_lt; lia|].
  rewrite Vm, Vd, Q, X in V. split; [exact F|]. rewrite V. split; [exact AB|]. apply Rabs_le.
  assert (f (val x) = f (val x) * bpow radix2 52 * bpow radix2 (-52)) as -> by (rewrite Rmult_assoc, (Rmult_comm (bpow radix2 52)), P52; ring). nra.
Qed.

Lemma cos52_accurate : accurate (grid52 cos) cos. Proof. apply grid52_accurate. intros x. pose proof (COS_bound x). lra. Qed.
Lemma sin52_accurate : accurate (grid52 sin) sin. Proof. apply grid52_accurate. intros x. pose proof (SIN_bound x). lra. Qed.
(** small integers are moderate *)
Lemma moderate_int n : (Z.abs n <= 2 ^ 53)%Z -> moderate (@nZ F64 n).
Proof.
  intros L. destruct (ofZ_correct n L) as [F V]. split; [exact F|]. change (val (@nZ F64 n)) with (val (F64_ofZ n)). rewrite V, <- abs_IZR.
  apply Rle_trans with (bpow radix2 53); [change (bpow radix2 53) with (IZR (2 ^ 53)); apply IZR_le; exact L|apply bpow_le; lia].
Qed.
