(** Proofs: sign and Pair on doubles. *)
From Coq Require Import Reals Lra Lia ZArith SpecFloat.
From Flocq Require Import Core BinarySingleNaN.
From Verif Require Import Base Spec MUtil MMore BridgeNum PFloat PMore.
Local Open Scope R_scope.

Lemma nz0 : fin (@nZ F64 0) /\ val (@nZ F64 0) = 0.
Proof. apply (ofZ_correct 0). cbn; lia. Qed.

Lemma sign_num_F64 (x : f64) :
  (fin x -> IZR (sign_num (N := F64) x) * Rabs (val x) = val x /\ (sign_num (N := F64) x = 0%Z <-> val x = 0)) /\
  (x = S754_nan -> sign_num (N := F64) x = 0%Z) /\
  (forall s, x = S754_infinity s -> sign_num (N := F64) x = if s then (-1)%Z else 1%Z).
Proof.
  split; [|split].
  - intros Hx. destruct nz0 as [Hz Vz].
    assert (sign_num (N := F64) x = sign_num (N := RNum) (val x)) as ->; [|apply sign_num_R].
    unfold sign_num. rewrite !ltb_correct by assumption. rewrite Vz. reflexivity.
  - intros ->. reflexivity.
  - intros [] ->; reflexivity.
Qed.

Lemma pairn_ltb_iff a b : fin2 a -> fin2 b ->
  (pairn_ltb (N := F64) a b = true <-> val (fst a) < val (fst b) \/ (val (fst a) = val (fst b) /\ val (snd a) < val (snd b))).
Proof.
  destruct a as [a1 a2], b as [b1 b2]. intros [A1 A2] [B1 B2]. cbn [fst snd] in *. unfold pairn_ltb. cbn [fst snd]. rewrite eqb_correct, !ltb_correct by assumption.
  unfold Reqb, Rltb. destruct (Req_EM_T (val a1) (val b1)).
  - destruct (Rlt_dec (val a2) (val b2)); (split; [intros H|intros H]); try discriminate; try reflexivity; try tauto; lra.
  - destruct (Rlt_dec (val a1) (val b1)); (split; [intros H|intros H]); try discriminate; try reflexivity; try tauto; lra.
Qed.
Lemma pairn_eqb_iff a b : fin2 a -> fin2 b ->
  (pairn_eqb (N := F64) a b = true <-> val (fst a) = val (fst b) /\ val (snd a) = val (snd b)).
Proof.
  destruct a as [a1 a2], b as [b1 b2]. intros [A1 A2] [B1 B2]. cbn [fst snd] in *. unfold pairn_eqb. cbn [fst snd]. rewrite andb_true_iff, !eqb_correct by assumption.
  unfold Reqb. destruct (Req_EM_T (val a1) (val b1)), (Req_EM_T (val a2) (val b2)); intuition discriminate.
Qed.

Lemma pair_order :
  strict_weak_order_on fin2 (pairn_ltb (N := F64)) /\
  forall a b, fin2 a -> fin2 b ->
    (pairn_ltb (N := F64) a b = true <-> val (fst a) < val (fst b) \/ (val (fst a) = val (fst b) /\ val (snd a) < val (snd b))) /\
    (pairn_eqb (N := F64) a b = true <-> val (fst a) = val (fst b) /\ val (snd a) = val (snd b)) /\
    pairn_eqb (N := F64) a b = equivb (pairn_ltb (N := F64)) a b.
Proof.
  assert (F : forall a b, fin2 a -> fin2 b -> (pairn_ltb (N := F64) a b = false <->
    ~ (val (fst a) < val (fst b) \/ (val (fst a) = val (fst b) /\ val (snd a) < val (snd b))))).
  { intros a b Ha Hb. rewrite <- (pairn_ltb_iff a b Ha Hb). destruct (pairn_ltb (N := F64) a b); intuition discriminate. }
  split.
  - split.
    + intros a Ha. apply F; auto. intros [H|[_ H]]; apply Rlt_irrefl in H; assumption.
    + intros [a1 a2] [b1 b2] [c1 c2] Ha Hb Hc H1 H2. apply pairn_ltb_iff in H1, H2; auto. apply pairn_ltb_iff; auto. cbn [fst snd] in *.
      destruct H1 as [|[]], H2 as [|[]]; lra.
    + intros [a1 a2] [b1 b2] [c1 c2] Ha Hb Hc [H1 H2] [H3 H4]. apply F in H1, H2, H3, H4; auto. cbn [fst snd] in *. split; apply F; auto; cbn [fst snd]; lra.
  - intros a b Ha Hb. split; [apply pairn_ltb_iff; assumption|]. split; [apply pairn_eqb_iff; assumption|].
    apply eq_true_iff_eq. rewrite pairn_eqb_iff by assumption. unfold equivb. rewrite andb_true_iff, !negb_true_iff.
    pose proof (F a b Ha Hb) as F1. pose proof (F b a Hb Ha) as F2. rewrite F1, F2. destruct a, b; cbn [fst snd]. lra.
Qed.

Lemma pair_integers (a b c d k : Z) : (Z.abs a <= 2 ^ 25 -> Z.abs b <= 2 ^ 25 -> Z.abs c <= 2 ^ 25 -> Z.abs d <= 2 ^ 25 -> Z.abs k <= 2 ^ 25 ->
  let f := F64_ofZ in
  val (pair_dot (N := F64) (f a, f b) (f c, f d)) = IZR (a * c + b * d) /\
  (val (fst (pair_mul (N := F64) (f a, f b) (f k))) = IZR (a * k) /\ val (snd (pair_mul (N := F64) (f a, f b) (f k))) = IZR (b * k)) /\
  (val (fst (pair_add (N := F64) (f a, f b) (f c, f d))) = IZR (a + c) /\ val (snd (pair_add (N := F64) (f a, f b) (f c, f d))) = IZR (b + d)))%Z.
Proof.
  intros Ha Hb Hc Hd Hk f.
  assert (S25 : forall x, (Z.abs x <= 2 ^ 25 -> Z.abs x <= 2 ^ 53)%Z) by (intros x; lia).
  assert (MUL : forall x y, (Z.abs x <= 2 ^ 25 -> Z.abs y <= 2 ^ 25 -> fin (@nmul F64 (f x) (f y)) /\ val (@nmul F64 (f x) (f y)) = IZR (x * y) /\ Z.abs (x * y) <= 2 ^ 50)%Z).
  { intros x y Hx Hy. destruct (ofZ_correct x (S25 _ Hx)) as [Fx Vx]. destruct (ofZ_correct y (S25 _ Hy)) as [Fy Vy].
    assert (L : (Z.abs (x * y) <= 2 ^ 50)%Z).
    { rewrite Z.abs_mul. change (2 ^ 50)%Z with (2 ^ 25 * 2 ^ 25)%Z. apply Z.mul_le_mono_nonneg; lia. }
    assert (L' : (Z.abs (x * y) <= 2 ^ 53)%Z) by (eapply Z.le_trans; [exact L|lia]).
    destruct (mul_correct (f x) (f y) Fx Fy) as [F V]; unfold f in *; rewrite Vx, Vy, <- mult_IZR, rnd_int in * by exact L'; [apply int_small, L'|].
    rewrite V. auto. }
  assert (ADD : forall u v m n, (fin u -> val u = IZR m -> fin v -> val v = IZR n -> Z.abs (m + n) <= 2 ^ 53 -> val (@nadd F64 u v) = IZR (m + n))%Z).
  { intros u v m n Fu Vu Fv Vv L. destruct (add_correct u v Fu Fv) as [F V]; rewrite Vu, Vv, <- plus_IZR, rnd_int in * by exact L; [apply int_small, L|]. exact V. }
  destruct (MUL a c Ha Hc) as (F1 & V1 & L1). destruct (MUL b d Hb Hd) as (F2 & V2 & L2).
  destruct (MUL a k Ha Hk) as (F3 & V3 & L3). destruct (MUL b k Hb Hk) as (F4 & V4 & L4).
  destruct (ofZ_correct a (S25 _ Ha)) as [Fa Va]. destruct (ofZ_correct b (S25 _ Hb)) as [Fb Vb].
  destruct (ofZ_correct c (S25 _ Hc)) as [Fc Vc]. destruct (ofZ_correct d (S25 _ Hd)) as [Fd Vd].
  unfold pair_dot, pair_mul, pair_add. cbn [fst snd].
  split; [apply ADD; auto; lia|]. split; [auto|]. split; apply ADD; auto; lia.
Qed.
