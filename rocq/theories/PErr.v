(** Rounding errors of sums and products of doubles of bounded size. *)
From Coq Require Import Reals Lra Psatz Lia ZArith SpecFloat List Bool.
From Flocq Require Import Core.
From Verif Require Import Base Spec MUtil MGeom MHull MPolygon MMaps MTriangle Bridge BridgeNum BridgeErr.
From Verif Require Import PPoint PFloat PPoly PPoly2 PGrid PGrid2 PGrid3 PGen64.
Import ListNotations.
Local Open Scope R_scope.

Local Notation E := (bpow radix2 (-53)).
Local Notation H := (bpow radix2 (-1075)).

Lemma err_rel x : Rabs (rnd x - x) <= E * Rabs x + H.
Proof.
  destruct (rnd_split x) as (eps & eta & H1 & H2 & ->). replace (x * (1 + eps) + eta - x) with (eps * x + eta) by ring.
  eapply Rle_trans; [apply Rabs_triang|]. rewrite Rabs_mult. apply Rplus_le_compat; [|exact H2]. apply Rmult_le_compat_r; [apply Rabs_pos|exact H1].
Qed.
Lemma err_big x : Rabs x <= bpow radix2 1000 -> Rabs (rnd x) < big.
Proof. intros B. destruct (rnd_error x 1000) as [_ R]; [lia|exact B|]. eapply Rle_lt_trans; [exact R|]. apply bpow_lt. lia. Qed.
Lemma Ep : 0 < E. Proof. apply bpow_gt_0. Qed.
Lemma Hp : 0 < H. Proof. apply bpow_gt_0. Qed.
(** 2^50 and 2^20 *)
Definition K50 : R := 1125899906842624.
Definition K20 : R := 1048576.
Lemma E50 : 8 * (K50 * E) = 1.
Proof. unfold K50. replace E with (/ 9007199254740992); [lra|]. cbn. lra. Qed.

(** sizes *)
Definition sized (W : R) : Prop := bpow radix2 (-1000) <= W <= bpow radix2 900.
Lemma sized_pos W : sized W -> 0 < W.
Proof. intros [A _]. eapply Rlt_le_trans; [apply bpow_gt_0|exact A]. Qed.
Lemma sized_H W : sized W -> H <= E * W / 4.
Proof.
  intros [A _]. apply Rle_trans with (E * bpow radix2 (-1000) / 4).
  - replace (E * bpow radix2 (-1000) / 4) with (bpow radix2 (-1055)); [apply bpow_le; lia|].
    replace (/ 4) with (bpow radix2 (-2)) by (cbn; lra). unfold Rdiv. replace (/ 4) with (bpow radix2 (-2)) by (cbn; lra). rewrite <- !bpow_plus. reflexivity.
  - pose proof Ep. unfold Rdiv. apply Rmult_le_compat_r; [lra|]. apply Rmult_le_compat_l; lra.
Qed.

(** [x] is [r] up to [k] units; [r] is at most [b] sizes *)
Definition app (W b k : R) (x : f64) (r : R) : Prop := fin x /\ Rabs r <= b * W /\ Rabs (val x - r) <= k * E * W.

Lemma app_mono W b k b' k' x r : sized W -> app W b k x r -> b <= b' -> k <= k' -> app W b' k' x r.
Proof.
  intros S (F & B & D) Hb Hk. pose proof (sized_pos W S). pose proof Ep. split; [exact F|]. split.
  - eapply Rle_trans; [exact B|]. apply Rmult_le_compat_r; lra.
  - eapply Rle_trans; [exact D|]. apply Rmult_le_compat_r; [lra|]. apply Rmult_le_compat_r; lra.
Qed.

Lemma app_size W b k x r : sized W -> app W b k x r -> 0 <= k <= 4 * K50 -> Rabs (val x) <= (b + 1) * W.
Proof.
  intros S (F & B & D) Hk. pose proof (sized_pos W S) as P. pose proof Ep as PE. pose proof E50 as Q.
  replace (val x) with (r + (val x - r)) by ring. eapply Rle_trans; [apply Rabs_triang|].
  assert (k * E <= 1) by (apply Rle_trans with (4 * K50 * E); [apply Rmult_le_compat_r; lra|lra]).
  assert (k * E * W <= 1 * W) by (apply Rmult_le_compat_r; lra). lra.
Qed.

(** rounding *)
Lemma app_round W b k v r y : sized W -> Rabs r <= b * W -> Rabs (v - r) <= k * E * W -> 0 <= b <= K50 -> 0 <= k <= 4 * K50 ->
  (Rabs (rnd v) < big -> fin y /\ val y = rnd v) -> app W b (k + b + 1) y r.
Proof.
  intros S B D Hb Hk Y. pose proof (sized_pos W S) as P. pose proof Ep as PE. pose proof E50 as Q. pose proof (sized_H W S) as HH.
  assert (KE : k * E <= / 2) by (apply Rle_trans with (4 * K50 * E); [apply Rmult_le_compat_r; lra|lra]).
  assert (V : Rabs v <= b * W + k * E * W). { replace v with (r + (v - r)) by ring. eapply Rle_trans; [apply Rabs_triang|]. lra. }
  assert (KW : k * E * W <= / 2 * W) by (apply Rmult_le_compat_r; lra).
  destruct Y as [F VY].
  { apply err_big. eapply Rle_trans; [exact V|]. apply Rle_trans with (bpow radix2 51 * bpow radix2 900); [|rewrite <- bpow_plus; apply bpow_le; lia].
    apply Rle_trans with (bpow radix2 51 * W); [|apply Rmult_le_compat_l; [apply bpow_ge_0|apply S]].
    replace (bpow radix2 51) with (2 * K50) by (unfold K50; cbn; lra). apply Rle_trans with ((b + 1) * W); [rewrite Rmult_plus_distr_r; lra|]. apply Rmult_le_compat_r; [lra|]. unfold K50 in *. lra. }
  split; [exact F|]. split; [exact B|]. rewrite VY. replace (rnd v - r) with ((rnd v - v) + (v - r)) by ring.
  eapply Rle_trans; [apply Rabs_triang|]. pose proof (err_rel v) as R1.
  assert (EV : E * Rabs v <= E * (b * W + / 2 * W)) by (apply Rmult_le_compat_l; lra).
  replace ((k + b + 1) * E * W) with (k * E * W + (E * (b * W + / 2 * W) + E * W / 2)) by field.
  assert (0 < E * W) by (apply Rmult_lt_0_compat; lra). lra.
Qed.

Lemma app_add W b1 k1 b2 k2 x y r s : sized W -> app W b1 k1 x r -> app W b2 k2 y s -> 0 <= b1 + b2 <= K50 -> 0 <= k1 + k2 <= 4 * K50 ->
  app W (b1 + b2) (k1 + k2 + (b1 + b2) + 1) (@nadd F64 x y) (r + s).
Proof.
  intros S (F1 & B1 & D1) (F2 & B2 & D2) Hb Hk. apply app_round with (v := val x + val y); try assumption.
  - eapply Rle_trans; [apply Rabs_triang|]. lra.
  - replace (val x + val y - (r + s)) with ((val x - r) + (val y - s)) by ring. eapply Rle_trans; [apply Rabs_triang|]. lra.
  - intros L. apply add_correct; assumption.
Qed.
Lemma app_sub W b1 k1 b2 k2 x y r s : sized W -> app W b1 k1 x r -> app W b2 k2 y s -> 0 <= b1 + b2 <= K50 -> 0 <= k1 + k2 <= 4 * K50 ->
  app W (b1 + b2) (k1 + k2 + (b1 + b2) + 1) (@nsub F64 x y) (r - s).
Proof.
  intros S (F1 & B1 & D1) (F2 & B2 & D2) Hb Hk. apply app_round with (v := val x - val y); try assumption.
  - unfold Rminus. eapply Rle_trans; [apply Rabs_triang|]. rewrite Rabs_Ropp. lra.
  - replace (val x - val y - (r - s)) with ((val x - r) + - (val y - s)) by ring. eapply Rle_trans; [apply Rabs_triang|]. rewrite Rabs_Ropp. lra.
  - intros L. apply sub_correct; assumption.
Qed.
(** one more unit pays for the product of the errors *)
Lemma app_mul W1 W2 b1 k1 b2 k2 x y r s : sized W1 -> sized W2 -> sized (W1 * W2) -> app W1 b1 k1 x r -> app W2 b2 k2 y s ->
  0 <= b1 <= K20 -> 0 <= b2 <= K20 -> 0 <= k1 <= K20 -> 0 <= k2 <= K20 ->
  app (W1 * W2) (b1 * b2) (k1 * b2 + k2 * b1 + 1 + b1 * b2 + 1) (@nmul F64 x y) (r * s).
Proof.
  intros S1 S2 S (F1 & B1 & D1) (F2 & B2 & D2) Hb1 Hb2 Hk1 Hk2. pose proof (sized_pos _ S1) as P1. pose proof (sized_pos _ S2) as P2. pose proof (sized_pos _ S) as P.
  pose proof Ep as PE. pose proof E50 as Q. pose proof (Rabs_pos r). pose proof (Rabs_pos s).
  assert (Q20 : K20 * K20 <= K50) by (unfold K20, K50; lra).
  assert (Pb : 0 <= b1 * b2 <= K50). { split; [apply Rmult_le_pos; lra|]. eapply Rle_trans; [|exact Q20]. apply Rmult_le_compat; lra. }
  assert (Pa : 0 <= k1 * b2 <= K50). { split; [apply Rmult_le_pos; lra|]. eapply Rle_trans; [|exact Q20]. apply Rmult_le_compat; lra. }
  assert (Pc : 0 <= k2 * b1 <= K50). { split; [apply Rmult_le_pos; lra|]. eapply Rle_trans; [|exact Q20]. apply Rmult_le_compat; lra. }
  assert (Pk : 0 <= k1 * k2 <= K50). { split; [apply Rmult_le_pos; lra|]. eapply Rle_trans; [|exact Q20]. apply Rmult_le_compat; lra. }
  apply app_round with (v := val x * val y); try assumption.
  - rewrite Rabs_mult. replace (b1 * b2 * (W1 * W2)) with (b1 * W1 * (b2 * W2)) by ring. apply Rmult_le_compat; lra.
  - replace (val x * val y - r * s) with ((val x - r) * s + (val y - s) * r + (val x - r) * (val y - s)) by ring.
    eapply Rle_trans; [apply Rabs_triang|]. eapply Rle_trans; [apply Rplus_le_compat_r, Rabs_triang|]. rewrite !Rabs_mult.
    assert (T1 : Rabs (val x - r) * Rabs s <= k1 * E * W1 * (b2 * W2)) by (apply Rmult_le_compat; auto using Rabs_pos).
    assert (T2 : Rabs (val y - s) * Rabs r <= k2 * E * W2 * (b1 * W1)) by (apply Rmult_le_compat; auto using Rabs_pos).
    assert (T3 : Rabs (val x - r) * Rabs (val y - s) <= k1 * E * W1 * (k2 * E * W2)) by (apply Rmult_le_compat; auto using Rabs_pos).
    assert (T4 : k1 * E * W1 * (k2 * E * W2) <= 1 * E * (W1 * W2)).
    { replace (k1 * E * W1 * (k2 * E * W2)) with (k1 * k2 * E * (E * (W1 * W2))) by ring. rewrite (Rmult_assoc 1 E). apply Rmult_le_compat_r; [apply Rmult_le_pos; lra|].
      apply Rle_trans with (K50 * E); [apply Rmult_le_compat_r; lra|lra]. }
    replace ((k1 * b2 + k2 * b1 + 1) * E * (W1 * W2)) with (k1 * E * W1 * (b2 * W2) + k2 * E * W2 * (b1 * W1) + 1 * E * (W1 * W2)) by ring. lra.
  - unfold K50 in *. lra.
  - intros L. apply mul_correct; assumption.
Qed.
Lemma app_exact W b x : sized W -> fin x -> Rabs (val x) <= b * W -> app W b 0 x (val x).
Proof. intros S F B. split; [exact F|]. split; [exact B|]. rewrite Rminus_diag_eq by reflexivity. rewrite Rabs_R0. lra. Qed.
Lemma app_half W b k x r : sized W -> app W b k x r -> 0 <= b <= K50 -> 0 <= k <= 4 * K50 -> app W b (k + b + 1) (@ndiv F64 x (@nZ F64 2)) (r / 2).
Proof.
  intros S (F & B & D) Hb Hk. destruct (ofZ_correct 2) as [F2 V2]; [lia|]. change (@nZ F64 2) with (F64_ofZ 2).
  assert (P2 : Rabs (/ 2) = / 2) by (apply Rabs_pos_eq; lra).
  apply app_round with (v := val x / val (F64_ofZ 2)); try assumption.
  - unfold Rdiv. rewrite Rabs_mult, P2. pose proof (Rabs_pos r). lra.
  - rewrite V2. replace (val x / 2 - r / 2) with ((val x - r) * / 2) by field. rewrite Rabs_mult, P2. pose proof (Rabs_pos (val x - r)). lra.
  - intros L. apply div_correct; try assumption. rewrite V2. lra.
Qed.
Lemma app_zero W : sized W -> app W 0 0 (@nZ F64 0) 0.
Proof. intros S. destruct (ofZ_correct 0) as [F V]; [lia|]. change (@nZ F64 0) with (F64_ofZ 0). split; [exact F|]. rewrite V, Rminus_0_r, Rabs_R0. lra. Qed.
