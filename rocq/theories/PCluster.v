(** The tolerance order on doubles whose coordinates are clearly close or clearly apart. *)
From Coq Require Import Reals Lra Lia ZArith SpecFloat List Bool.
From Flocq Require Import Core Mult_error BinarySingleNaN.
From Verif Require Import Base Spec MUtil MGeom MHull MPolygon MMaps MTriangle MGen MRegion MDelaunay Bridge BridgeNum.
From Verif Require Import PUtil PPoint PMaps PFloat PGrid PGrid3 PGrid6 PContains PDelaunay.
Import ListNotations.
Local Open Scope Z_scope.

Lemma rnd_abs x : Rabs (rnd x) = rnd (Rabs x).
Proof. unfold rnd. symmetry. apply (@round_NE_abs radix2 fexp64 (fexp_correct 53 1024 prec64)). Qed.

Section Cluster.
  Variable tol : f64.
  Hypothesis Ht : tolerance64 tol.
  Notation PF := (Point F64).

  Lemma Tpos : (0 < val tol)%R.
  Proof. destruct Ht as [_ H]. pose proof (bpow_gt_0 radix2 (-1000)). lra. Qed.
  Lemma Thalf : rnd (val tol / 2) = (val tol / 2)%R.
  Proof.
    destruct Ht as [F H]. unfold rnd. apply round_generic; [apply valid_rnd_N|].
    replace (val tol / 2)%R with (val tol * bpow radix2 (-1))%R by (cbn [bpow]; change (Z.pow_pos radix2 1) with 2; lra).
    change fexp64 with (FLT_exp (-1074) 53). apply mult_bpow_exact_FLT.
    - destruct (fin_as_B tol F) as (b & E & _ & V). rewrite V. apply generic_format_B2R.
    - assert (-999 <= mag radix2 (val tol)).
      { apply mag_ge_bpow. cbn -[bpow]. rewrite Rabs_pos_eq; [exact H|]. pose proof Tpos. lra. }
      lia.
  Qed.
  Lemma near_clear x y : fin x -> fin y -> (Rabs (val x) <= bpow radix2 1000)%R -> (Rabs (val y) <= bpow radix2 1000)%R ->
    clear_of (val tol) (val x - val y) -> @nltb F64 (@nabs F64 (@nsub F64 x y)) tol = Rltb (Rabs (val x - val y)) (val tol).
  Proof.
    intros Fx Fy Bx By C. pose proof Tpos as T. destruct Ht as [Ft _].
    assert (B : (Rabs (rnd (val x - val y)) < PFloat.big)%R).
    { assert (Rabs (val x - val y) <= bpow radix2 1001)%R.
      { change (bpow radix2 1001) with (bpow radix2 (1 + 1000)). rewrite bpow_plus. change (bpow radix2 1) with 2%R.
        pose proof (Rabs_triang (val x) (- val y)) as A. rewrite Rabs_Ropp in A. unfold Rminus. lra. }
      rewrite rnd_abs.
      apply Rle_lt_trans with (bpow radix2 1001).
      - unfold rnd. apply round_le_generic; [exact fexp64_valid|apply valid_rnd_N| |exact H]. apply generic_format_bpow. vm_compute. discriminate.
      - apply bpow_lt. lia. }
    destruct (sub_correct x y Fx Fy B) as [F1 V1]. destruct (abs_correct _ F1) as [F2 V2].
    rewrite (ltb_correct _ _ F2 Ft), V2, V1.
    rewrite rnd_abs. destruct C as [C|C].
    - assert (rnd (Rabs (val x - val y)) <= val tol / 2)%R by (rewrite <- Thalf; apply rnd_mono; lra).
      destruct (Rltb_spec (rnd (Rabs (val x - val y))) (val tol)), (Rltb_spec (Rabs (val x - val y)) (val tol)); try reflexivity; exfalso; lra.
    - assert (val tol <= rnd (Rabs (val x - val y)))%R by (rewrite <- (rnd_val tol Ft); apply rnd_mono; exact C).
      destruct (Rltb_spec (rnd (Rabs (val x - val y))) (val tol)), (Rltb_spec (Rabs (val x - val y)) (val tol)); try reflexivity; exfalso; lra.
  Qed.

  Variable P : PF -> Prop.
  Hypothesis CP : clustered tol P.

  Lemma near_px a b : P a -> P b -> @nltb F64 (@nabs F64 (@nsub F64 (px a) (px b))) tol = Rltb (Rabs (val (px a) - val (px b))) (val tol).
  Proof. intros Pa Pb. destruct CP as [C1 C2]. destruct (C1 a Pa) as (? & ? & ? & ?), (C1 b Pb) as (? & ? & ? & ?), (C2 a b Pa Pb). apply near_clear; assumption. Qed.
  Lemma near_py a b : P a -> P b -> @nltb F64 (@nabs F64 (@nsub F64 (py a) (py b))) tol = Rltb (Rabs (val (py a) - val (py b))) (val tol).
  Proof. intros Pa Pb. destruct CP as [C1 C2]. destruct (C1 a Pa) as (? & ? & ? & ?), (C1 b Pb) as (? & ? & ? & ?), (C2 a b Pa Pb). apply near_clear; assumption. Qed.
  Lemma pt_eqb_clear a b : P a -> P b -> pt_eqb (N := F64) tol a b = pt_eqb (N := RNum) (val tol) (real_point a) (real_point b).
  Proof. intros Pa Pb. unfold pt_eqb. rewrite (near_px a b Pa Pb), (near_py a b Pa Pb). reflexivity. Qed.
  Lemma pt_ltb_clear a b : P a -> P b -> pt_ltb (N := F64) tol a b = pt_ltb (N := RNum) (val tol) (real_point a) (real_point b).
  Proof.
    intros Pa Pb. unfold pt_ltb. rewrite (near_px a b Pa Pb), (near_py a b Pa Pb). destruct CP as [C1 _].
    destruct (C1 a Pa) as (Fx & Fy & _), (C1 b Pb) as (Gx & Gy & _).
    rewrite (ltb_correct (px a) (px b) Fx Gx), (ltb_correct (py a) (py b) Fy Gy). reflexivity.
  Qed.
  Lemma clustered_separated : separated (val tol) (fun q => exists a, P a /\ q = real_point a).
  Proof.
    intros a b c (a' & Pa & ->) (b' & Pb & ->) (c' & Pc & ->). destruct CP as [_ C]. unfold real_point; cbn [px py].
    destruct (C a' b' Pa Pb) as [X1 Y1], (C b' c' Pb Pc) as [X2 Y2]. unfold clear_of in *. split.
    - clear Y1 Y2. intros K1 K2. pose proof (Rabs_triang (val (px a') - val (px b')) (val (px b') - val (px c'))) as T.
      replace (val (px a') - val (px b') + (val (px b') - val (px c')))%R with (val (px a') - val (px c'))%R in T by ring. lra.
    - clear X1 X2. intros K1 K2. pose proof (Rabs_triang (val (py a') - val (py b')) (val (py b') - val (py c'))) as T.
      replace (val (py a') - val (py b') + (val (py b') - val (py c')))%R with (val (py a') - val (py c'))%R in T by ring. lra.
  Qed.
  Lemma clustered_swo : strict_weak_order_on P (pt_ltb (N := F64) tol).
  Proof.
    pose proof (pt_swo (val tol) Tpos _ clustered_separated) as W.
    assert (M : forall a, P a -> exists b, P b /\ real_point a = real_point b) by eauto. constructor.
    - intros a Pa. rewrite pt_ltb_clear by assumption. apply (swo_irrefl _ _ W). auto.
    - intros a b c Pa Pb Pc. rewrite !pt_ltb_clear by assumption. apply (swo_trans _ _ W); auto.
    - intros a b c Pa Pb Pc. unfold incomparable. rewrite !pt_ltb_clear by assumption. apply (swo_incomp _ _ W); auto.
  Qed.
  Lemma EQ_64 a b : P a -> P b -> (pt_eqb (N := F64) tol a b = true <-> near64 tol a b).
  Proof. intros Pa Pb. rewrite pt_eqb_clear by assumption. apply coincide_iff. Qed.
  Lemma INC_64 a b : P a -> P b -> (incomparable (pt_ltb (N := F64) tol) a b <-> near64 tol a b).
  Proof. intros Pa Pb. unfold incomparable. rewrite !pt_ltb_clear by assumption. apply (incomparable_coincide (val tol) Tpos). Qed.
End Cluster.
