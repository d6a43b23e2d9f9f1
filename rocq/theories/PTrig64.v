(** Circles, arcs and waves on doubles. *)
From Coq Require Import Reals Lra Psatz Lia ZArith SpecFloat List Bool.
From Flocq Require Import Core.
From Verif Require Import Base Spec MUtil MGeom MHull MPolygon MMaps MTriangle MGen MRegion MTrig MTrig64 Bridge BridgeNum BridgeTrig64.
From Verif Require Import PUtil PPoint PFloat PGrid PGrid2 PGrid3 PGrid6 PGrid8 PGen64 PPi PRegion.
Import ListNotations.
Local Open Scope R_scope.

Local Notation E := (bpow radix2 (-53)).
Local Notation H := (bpow radix2 (-1075)).

Lemma rnd_rel x : Rabs (rnd x - x) <= E * Rabs x + H.
Proof.
  destruct (rnd_split x) as (eps & eta & H1 & H2 & ->). replace (x * (1 + eps) + eta - x) with (eps * x + eta) by ring.
  eapply Rle_trans; [apply Rabs_triang|]. rewrite Rabs_mult. apply Rplus_le_compat; [|exact H2]. apply Rmult_le_compat_r; [apply Rabs_pos|exact H1].
Qed.
Lemma rnd_big x : Rabs x <= bpow radix2 1000 -> Rabs (rnd x) < big.
Proof. intros B. destruct (rnd_error x 1000) as [_ R]; [lia|exact B|]. eapply Rle_lt_trans; [exact R|]. apply bpow_lt. lia. Qed.
Lemma E_pos : 0 < E. Proof. apply bpow_gt_0. Qed.
Lemma H_pos : 0 < H. Proof. apply bpow_gt_0. Qed.
Lemma E_small : E <= / 1048576.
Proof. change (/ 1048576) with (bpow radix2 (-20)). apply bpow_le. lia. Qed.
Lemma H_small : H <= E * / 1048576 * / 1073741824.
Proof. change (/ 1048576) with (bpow radix2 (-20)). change (/ 1073741824) with (bpow radix2 (-30)). rewrite <- !bpow_plus. apply bpow_le. lia. Qed.
Lemma big30 : 1073741824 = bpow radix2 30. Proof. reflexivity. Qed.

(** ** Sine and cosine change slowly *)
Lemma sin_abs_le x : Rabs (sin x) <= Rabs x.
Proof.
  assert (P : forall y, 0 < y -> Rabs (sin y) <= y).
  { intros y Y. pose proof (sin_lt_x y Y). apply Rabs_le. split; [|lra].
    destruct (Rle_lt_dec y PI) as [L|L]; [pose proof (sin_ge_0 y (Rlt_le _ _ Y) L); lra|]. pose proof (SIN_bound y). pose proof PI_RGT_0. pose proof PI2_1. lra. }
  destruct (Rtotal_order x 0) as [L|[->|L]].
  - rewrite <- Rabs_Ropp, <- sin_neg, (Rabs_left x) by exact L. apply P. lra.
  - rewrite sin_0, Rabs_R0. lra.
  - rewrite (Rabs_pos_eq x) by lra. apply P. exact L.
Qed.
Lemma cos_lip a b : Rabs (cos a - cos b) <= Rabs (a - b).
Proof.
  rewrite form2. rewrite !Rabs_mult. replace (Rabs (-2)) with 2 by (rewrite Rabs_left; lra).
  pose proof (sin_abs_le ((a - b) / 2)) as S. assert (S2 : Rabs (sin ((a + b) / 2)) <= 1) by (apply Rabs_le; pose proof (SIN_bound ((a + b) / 2)); lra).
  unfold Rdiv in S at 2. rewrite Rabs_mult, (Rabs_pos_eq (/ 2)) in S by lra. pose proof (Rabs_pos (sin ((a - b) / 2))). pose proof (Rabs_pos (sin ((a + b) / 2))). nra.
Qed.
Lemma sin_lip a b : Rabs (sin a - sin b) <= Rabs (a - b).
Proof.
  rewrite form4. rewrite !Rabs_mult. replace (Rabs 2) with 2 by (rewrite Rabs_pos_eq; lra).
  pose proof (sin_abs_le ((a - b) / 2)) as S. assert (S2 : Rabs (cos ((a + b) / 2)) <= 1) by (apply Rabs_le; pose proof (COS_bound ((a + b) / 2)); lra).
  unfold Rdiv in S at 2. rewrite Rabs_mult, (Rabs_pos_eq (/ 2)) in S by lra. pose proof (Rabs_pos (sin ((a - b) / 2))). pose proof (Rabs_pos (cos ((a + b) / 2))). nra.
Qed.

(** ** The angle *)
Lemma pi64_fin : fin M_PI64. Proof. split; reflexivity. Qed.
Lemma pi64_val : Rabs (val M_PI64 - PI) <= 2 * E.
Proof.
  replace (2 * E) with (bpow radix2 (-52)) by (change 2 with (bpow radix2 1); rewrite <- bpow_plus; reflexivity).
  replace (val M_PI64) with (7074237752028440 * bpow radix2 (-51)); [exact pi_bounds|]. reflexivity.
Qed.
Lemma pi_range : 3 <= PI <= 315 / 100 /\ 3 <= val M_PI64 <= 315 / 100.
Proof.
  assert (V : val M_PI64 = 7074237752028440 * bpow radix2 (-51)) by reflexivity.
  assert (B : 3001 / 1000 <= val M_PI64 <= 3149 / 1000) by (rewrite V; cbn; lra). pose proof pi64_val as P. pose proof E_small. apply Rabs_le_inv in P. lra.
Qed.

Lemma radian64 (x : f64) (th A d : R) : fin x -> Rabs (val x - th) <= d -> Rabs th <= A -> 1 <= A <= 1073741824 -> d <= A / 1048576 ->
  fin (radianN (N := F64) M_PI64 x) /\ Rabs (val (radianN (N := F64) M_PI64 x) - th * PI / 180) <= d / 50 + A * E / 20.
Proof.
  intros F D T HA Hd. unfold radianN. destruct (ofZ_correct 180) as [Fn Vn]; [lia|]. change F64_ofZ with (@nZ F64) in *.
  pose proof pi_range as [[P1 P2] [P3 P4]]. pose proof pi64_val as PV. pose proof E_pos as PE. pose proof E_small as SE. pose proof H_pos as PH. pose proof H_small as SH.
  assert (D0 : 0 <= d) by (eapply Rle_trans; [apply Rabs_pos|exact D]).
  assert (V : Rabs (val x) <= A + d). { replace (val x) with (th + (val x - th)) by ring. eapply Rle_trans; [apply Rabs_triang|]. lra. }
  assert (VP : Rabs (val x * val M_PI64) <= 316 / 100 * A).
  { rewrite Rabs_mult, (Rabs_pos_eq (val M_PI64)) by lra. pose proof (Rabs_pos (val x)). apply Rle_trans with ((A + d) * (315 / 100)); [apply Rmult_le_compat; lra|]. lra. }
  assert (EA : E * A <= A / 1048576) by (unfold Rdiv; rewrite (Rmult_comm A); apply Rmult_le_compat_r; lra). assert (EA0 : 0 < E * A) by (apply Rmult_lt_0_compat; lra).
  assert (HA' : H <= E * A / 1048576) by (unfold Rdiv; nra).
  destruct (mul_correct x M_PI64 F pi64_fin) as [F1 V1].
  { apply rnd_big. eapply Rle_trans; [exact VP|]. apply Rle_trans with (bpow radix2 32); [cbn; lra|apply bpow_le; lia]. }
  set (t1 := @nmul F64 x M_PI64) in *. pose proof (rnd_rel (val x * val M_PI64)) as R1. rewrite <- V1 in R1.
  assert (R1' : Rabs (val t1 - val x * val M_PI64) <= E * (316 / 100 * A) + H). { eapply Rle_trans; [exact R1|]. apply Rplus_le_compat_r, Rmult_le_compat_l; lra. }
  assert (T1 : Rabs (val t1) <= 317 / 100 * A).
  { replace (val t1) with (val x * val M_PI64 + (val t1 - val x * val M_PI64)) by ring. eapply Rle_trans; [apply Rabs_triang|]. lra. }
  assert (T2 : Rabs (val t1 / 180) <= 2 / 100 * A). { unfold Rdiv. rewrite Rabs_mult, (Rabs_pos_eq (/ 180)) by lra. lra. }
  assert (Vn' : val (@nZ F64 180) = 180) by exact Vn.
  destruct (div_correct t1 (@nZ F64 180) F1 Fn) as [F2 V2]; [lra|rewrite Vn'; apply rnd_big; eapply Rle_trans; [exact T2|]; apply Rle_trans with (bpow radix2 30); [cbn; lra|apply bpow_le; lia]|].
  rewrite Vn' in V2. split; [exact F2|]. set (t2 := @ndiv F64 t1 (@nZ F64 180)) in *. pose proof (rnd_rel (val t1 / 180)) as R2. rewrite <- V2 in R2.
  assert (R2' : Rabs (val t2 - val t1 / 180) <= E * (317 / 100 * A) / 180 + H).
  { eapply Rle_trans; [exact R2|]. apply Rplus_le_compat_r. unfold Rdiv. rewrite Rmult_assoc. apply Rmult_le_compat_l; [lra|]. rewrite Rabs_mult, (Rabs_pos_eq (/ 180)) by lra. lra. }
  assert (R3 : Rabs (val x * (val M_PI64 - PI)) <= (A + d) * (2 * E)) by (rewrite Rabs_mult; apply Rmult_le_compat; try apply Rabs_pos; assumption).
  assert (R4 : Rabs ((val x - th) * PI) <= d * (315 / 100)) by (rewrite Rabs_mult, (Rabs_pos_eq PI) by lra; apply Rmult_le_compat; try apply Rabs_pos; lra).
  assert (dE : d * E <= A * E / 1048576) by (replace (A * E / 1048576) with (A / 1048576 * E) by field; apply Rmult_le_compat_r; lra).
  apply Rabs_le_inv in R1'. apply Rabs_le_inv in R2'. apply Rabs_le_inv in R3. apply Rabs_le_inv in R4. apply Rabs_le.
  assert (X : val t2 - th * PI / 180 = (val t2 - val t1 / 180) + (val t1 - val x * val M_PI64) / 180 + (val x * (val M_PI64 - PI)) / 180 + ((val x - th) * PI) / 180) by field.
  rewrite X. lra.
Qed.

(** ** One coordinate *)
Lemma coordinate64 (c r k : f64) (K D : R) : moderate c -> moderate r -> fin k -> Rabs (val k) <= 1 -> Rabs (val k - K) <= D ->
  let s := @nadd F64 c (@nmul F64 r k) in
  fin s /\ Rabs (val s - (val c + val r * K)) <= E * Rabs (val c) + 2 * (E * Rabs (val r)) + Rabs (val r) * D + 2 * H.
Proof.
  intros [Fc Bc] [Fr Br] Fk Bk HD s.
  pose proof E_pos as PE. pose proof E_small as SE. pose proof H_pos as PH. pose proof (Rabs_pos (val r)) as R0. pose proof (Rabs_pos (val c)) as C0. pose proof (Rabs_pos (val k)) as K0.
  assert (M : Rabs (val r * val k) <= Rabs (val r)) by (rewrite Rabs_mult; nra).
  assert (L900 : bpow radix2 900 + bpow radix2 900 <= bpow radix2 1000).
  { apply Rle_trans with (bpow radix2 901); [|apply bpow_le; lia]. change 901%Z with (1 + 900)%Z. rewrite bpow_plus. change (bpow radix2 1) with 2. lra. }
  assert (P9 : 0 < bpow radix2 900) by apply bpow_gt_0.
  destruct (mul_correct r k Fr Fk) as [F1 V1]; [apply rnd_big; lra|]. set (m := @nmul F64 r k) in *.
  assert (Bm : Rabs (val m) <= Rabs (val r)).
  { rewrite V1. pose proof (rnd_val r Fr) as Rv. pose proof (rnd_opp (val r)) as Rn. rewrite Rv in Rn. apply Rabs_le_inv in M.
    assert (RA : rnd (Rabs (val r)) = Rabs (val r) /\ rnd (- Rabs (val r)) = - Rabs (val r)).
    { unfold Rabs. destruct (Rcase_abs (val r)); [rewrite Ropp_involutive|]; split; assumption. }
    destruct RA as [RA RB]. apply Rabs_le. split; [rewrite <- RB|rewrite <- RA]; apply rnd_mono; lra. }
  assert (S : Rabs (val c + val m) <= Rabs (val c) + Rabs (val r)) by (eapply Rle_trans; [apply Rabs_triang|lra]).
  destruct (add_correct c m Fc F1) as [F2 V2]; [apply rnd_big; lra|]. fold s in F2, V2. split; [exact F2|].
  pose proof (rnd_rel (val r * val k)) as R1. rewrite <- V1 in R1. pose proof (rnd_rel (val c + val m)) as R2. rewrite <- V2 in R2.
  assert (R1' : E * Rabs (val r * val k) <= E * Rabs (val r)) by (apply Rmult_le_compat_l; lra).
  assert (R2' : E * Rabs (val c + val m) <= E * Rabs (val c) + E * Rabs (val r)) by (rewrite <- Rmult_plus_distr_l; apply Rmult_le_compat_l; lra).
  assert (R3 : Rabs (val r * (val k - K)) <= Rabs (val r) * D) by (rewrite Rabs_mult; apply Rmult_le_compat_l; assumption).
  replace (val s - (val c + val r * K)) with ((val s - (val c + val m)) + ((val m - val r * val k) + val r * (val k - K))) by ring.
  eapply Rle_trans; [apply Rabs_triang|]. eapply Rle_trans; [apply Rplus_le_compat_l, Rabs_triang|]. lra.
Qed.

Section Points.
  Variables (cos64 sin64 : f64 -> f64).
  Hypothesis (HC : accurate cos64 cos) (HS : accurate sin64 sin).
  Notation cpoint := (circle_pointN (N := F64) M_PI64 cos64 sin64).

  Lemma point64 (c : Point F64) (r x : f64) (th A d k : R) : moderate (px c) -> moderate (py c) -> moderate r -> fin x -> Rabs (val x - th) <= d -> Rabs th <= A ->
    1 <= A <= 1073741824 -> d <= A / 1048576 -> 4 * E + d / 50 + A * E / 20 <= k * E ->
    close_point (slack (xyv c) (val r) k) (cpoint c r x) (at_angle (xyv c) (val r) th).
  Proof.
    intros Mx My Mr F D T HA Hd Hk. destruct (radian64 x th A d F D T HA Hd) as [Ft Bt]. unfold circle_pointN. set (t := radianN (N := F64) M_PI64 x) in *.
    destruct (HC t Ft) as (Fc & B1 & E1). destruct (HS t Ft) as (Fs & B2 & E2). set (ang := th * PI / 180) in *.
    assert (W : bpow radix2 (-52) = 2 * E) by (change 2 with (bpow radix2 1); rewrite <- bpow_plus; reflexivity).
    assert (W2 : bpow radix2 (-1073) = 4 * H) by (change 4 with (bpow radix2 2); rewrite <- bpow_plus; reflexivity).
    assert (D1 : Rabs (val (cos64 t) - cos ang) <= 2 * E + (d / 50 + A * E / 20)).
    { replace (val (cos64 t) - cos ang) with ((val (cos64 t) - cos (val t)) + (cos (val t) - cos ang)) by ring. eapply Rle_trans; [apply Rabs_triang|]. pose proof (cos_lip (val t) ang). lra. }
    assert (D2 : Rabs (val (sin64 t) - sin ang) <= 2 * E + (d / 50 + A * E / 20)).
    { replace (val (sin64 t) - sin ang) with ((val (sin64 t) - sin (val t)) + (sin (val t) - sin ang)) by ring. eapply Rle_trans; [apply Rabs_triang|]. pose proof (sin_lip (val t) ang). lra. }
    destruct (coordinate64 (px c) r (cos64 t) _ _ Mx Mr Fc B1 D1) as [F1 G1]. destruct (coordinate64 (py c) r (sin64 t) _ _ My Mr Fs B2 D2) as [F2 G2]. cbv zeta in *.
    pose proof E_pos as PE. pose proof H_pos as PH. pose proof (Rabs_pos (val r)) as R0.
    assert (K : 2 * (E * Rabs (val r)) + Rabs (val r) * (2 * E + (d / 50 + A * E / 20)) <= k * Rabs (val r) * E).
    { replace (k * Rabs (val r) * E) with (Rabs (val r) * (k * E)) by ring. replace (2 * (E * Rabs (val r)) + Rabs (val r) * (2 * E + (d / 50 + A * E / 20))) with (Rabs (val r) * (4 * E + d / 50 + A * E / 20)) by field.
      apply Rmult_le_compat_l; assumption. }
    unfold close_point, mkP, at_angle, slack, xyv. cbn [px py fst snd]. fold ang. rewrite W2.
    pose proof (Rmax_l (Rabs (val (px c))) (Rabs (val (py c)))) as X1. pose proof (Rmax_r (Rabs (val (px c))) (Rabs (val (py c)))) as X2.
    assert (Y1 : E * Rabs (val (px c)) <= E * Rmax (Rabs (val (px c))) (Rabs (val (py c)))) by (apply Rmult_le_compat_l; lra).
    assert (Y2 : E * Rabs (val (py c)) <= E * Rmax (Rabs (val (px c))) (Rabs (val (py c)))) by (apply Rmult_le_compat_l; lra).
    split; [exact F1|]. split; [exact F2|]. split; [eapply Rle_trans; [exact G1|]|eapply Rle_trans; [exact G2|]]; lra.
  Qed.

  (** ** Circles *)
  Lemma circle_loop64 (c : Point F64) (r dl : f64) (d : Z) : fin dl -> val dl = IZR d -> (1 <= d <= 360)%Z -> forall fuel (x : f64) (a : Z), fin x -> val x = IZR a -> (0 <= a <= 1000)%Z ->
    (0 < Z.of_nat fuel)%Z -> (360 - a < Z.of_nat fuel)%Z ->
    exists ps, circle_loop (N := F64) M_PI64 cos64 sin64 fuel c r dl x = Ok ps /\
      (zlen ps = if (a <? 360)%Z then (360 - a + d - 1) / d else 0)%Z /\
      (forall i q, nth_error ps i = Some q -> exists y, fin y /\ val y = IZR (a + d * Z.of_nat i) /\ (0 <= a + d * Z.of_nat i < 360)%Z /\ q = cpoint c r y).
  Proof.
    intros Fd Vd Hd. induction fuel as [|fuel IH]; intros x a Fx Vx Ha Hp Hf; [lia|].
    - cbn [circle_loop]. destruct (ofZ_correct 360) as [F360 V360]; [lia|]. rewrite (ltb_correct x (@nZ F64 360) Fx F360).
      change (val (@nZ F64 360)) with (val (F64_ofZ 360)). rewrite Vx, V360. unfold Rltb. destruct (Rlt_dec (IZR a) 360) as [L|L].
      + apply (lt_IZR a 360) in L. assert (Ex : val x + val dl = IZR (a + d)) by (rewrite Vx, Vd, plus_IZR; reflexivity).
        destruct (add_correct x dl Fx Fd) as [Fn Vn]; [rewrite Ex; rewrite rnd_int by lia; apply int_small; lia|]. rewrite Ex, rnd_int in Vn by lia.
        destruct (IH (@nadd F64 x dl) (a + d)%Z Fn Vn) as (ps & P1 & P2 & P3); [lia|lia|lia|]. rewrite P1. cbn [bind]. eexists. split; [reflexivity|]. split.
        * destruct (Z.ltb_spec a 360); [|lia]. unfold zlen in *. cbn [length]. rewrite Nat2Z.inj_succ, P2. destruct (Z.ltb_spec (a + d) 360) as [L2|L2].
          -- replace (360 - a + d - 1)%Z with ((360 - (a + d) + d - 1) + 1 * d)%Z by lia. rewrite Z.div_add by lia. lia.
          -- change (Z.succ 0) with 1%Z. apply (Z.div_unique _ _ 1 (360 - a - 1)); lia.
        * intros [|i] q Hq.
          -- injection Hq as <-. exists x. split; [exact Fx|]. split; [rewrite Vx; f_equal; lia|]. split; [lia|reflexivity].
          -- destruct (P3 i q Hq) as (y & Y1 & Y2 & Y3 & Y4). exists y. split; [exact Y1|]. split; [rewrite Y2; f_equal; lia|]. split; [lia|exact Y4].
      + assert (360 <= a)%Z by (apply le_IZR; lra). exists []. split; [reflexivity|]. split; [destruct (Z.ltb_spec a 360); [lia|reflexivity]|]. intros [|i] q Hq; discriminate.
  Qed.

  Lemma circle64 (cf : config F64) (c : Point F64) (r : f64) : (1 <= cf_grade cf <= 360)%Z -> moderate (px c) -> moderate (py c) -> moderate r ->
    exists ps, (forall fuel, (361 <= fuel)%nat -> discretizeCircleN (N := F64) M_PI64 cos64 sin64 fuel cf c r = Ok ps) /\
      (zlen ps = (360 + 360 / cf_grade cf - 1) / (360 / cf_grade cf))%Z /\
      (forall i q, nth_error ps i = Some q -> close_point (slack (xyv c) (val r) 32) q (at_angle (xyv c) (val r) (IZR (360 / cf_grade cf * Z.of_nat i)))).
  Proof.
    intros G Mx My Mr. unfold discretizeCircleN. destruct (Z.eqb_spec (cf_grade cf) 0) as [Z0|_]; [lia|]. rewrite Z.quot_div_nonneg by lia. set (d := (360 / cf_grade cf)%Z).
    assert (D : (1 <= d <= 360)%Z). { unfold d. split; [apply Z.div_le_lower_bound; lia|apply Z.div_le_upper_bound; lia]. }
    destruct (ofZ_correct d) as [Fd Vd]; [lia|]. destruct (ofZ_correct 0) as [F0 V0]; [lia|].
    destruct (circle_loop64 c r (@nZ F64 d) d Fd Vd D 361 (@nZ F64 0) 0 F0 V0) as (ps & P1 & P2 & P3); [lia|lia|lia|]. exists ps. split; [|split].
    - intros fuel Hf. destruct (circle_loop64 c r (@nZ F64 d) d Fd Vd D fuel (@nZ F64 0) 0 F0 V0) as (ps' & P1' & _); [lia|lia|lia|]. rewrite P1'. f_equal.
      assert (MONO : forall f1 f2 x l1 l2, circle_loop (N := F64) M_PI64 cos64 sin64 f1 c r (@nZ F64 d) x = Ok l1 -> circle_loop (N := F64) M_PI64 cos64 sin64 f2 c r (@nZ F64 d) x = Ok l2 -> l1 = l2).
      { clear. induction f1 as [|f1 IH]; intros [|f2] x l1 l2 H1 H2; try discriminate. cbn [circle_loop] in H1, H2. destruct (@nltb F64 x (@nZ F64 360)); [|congruence].
        destruct (circle_loop (N := F64) M_PI64 cos64 sin64 f1 c r (@nZ F64 d) _) eqn:E1 in H1; [|discriminate]. cbn [bind] in H1.
        destruct (circle_loop (N := F64) M_PI64 cos64 sin64 f2 c r (@nZ F64 d) _) eqn:E2 in H2; [|discriminate]. cbn [bind] in H2. injection H1 as <-. injection H2 as <-. f_equal. exact (IH _ _ _ _ E1 E2). }
      exact (MONO _ _ _ _ _ P1' P1).
    - rewrite P2. destruct (Z.ltb_spec 0 360); [|lia]. reflexivity.
    - intros i q Hq. destruct (P3 i q Hq) as (y & Fy & Vy & B & ->). pose proof E_pos as PE. rewrite Z.add_0_l in *.
      apply (point64 c r y _ 360 0 32 Mx My Mr Fy); try lra.
      + rewrite Vy, Rminus_diag_eq by reflexivity. rewrite Rabs_R0. lra.
      + rewrite Rabs_pos_eq by (apply (IZR_le 0); lia). apply (IZR_le _ 360). lia.
  Qed.

  (** a grade above 360, or a negative one: the loop never ends *)
  Lemma circle_forever (c : Point F64) (r dl : f64) (d : Z) : fin dl -> val dl = IZR d -> (-360 <= d <= 0)%Z -> forall fuel (x : f64), fin x -> - bpow radix2 62 <= val x <= 0 ->
    circle_loop (N := F64) M_PI64 cos64 sin64 fuel c r dl x = Err Fuel.
  Proof.
    intros Fd Vd Hd. assert (D : -360 <= val dl <= 0) by (rewrite Vd; split; apply IZR_le; lia).
    assert (LOW : rnd (- bpow radix2 62 - 360) = - bpow radix2 62).
    { set (lo := S754_finite true 4503599627370496 10).
      assert (Vb : val lo = - bpow radix2 62).
      { replace (val lo) with (- 4503599627370496 * bpow radix2 10) by reflexivity. change (- 4503599627370496) with (Ropp 4503599627370496). rewrite Ropp_mult_distr_l_reverse. f_equal. change 4503599627370496 with (bpow radix2 52). rewrite <- bpow_plus. reflexivity. }
      assert (Fb : fin lo) by (split; reflexivity). destruct (ofZ_correct 360) as [F3 V3]; [lia|].
      assert (X : val (@nsub F64 lo (@nZ F64 360)) = - bpow radix2 62).
      { replace (@nsub F64 lo (@nZ F64 360)) with lo by (vm_compute; reflexivity). exact Vb. }
      assert (P62 : 0 < bpow radix2 62) by apply bpow_gt_0.
      destruct (sub_correct _ _ Fb F3) as [_ V].
      { rewrite Vb. apply rnd_big. rewrite V3. assert (L : 360 <= bpow radix2 62) by (change 360 with (IZR 360); apply Rle_trans with (bpow radix2 9); [cbn; lra|apply bpow_le; lia]).
        rewrite Rabs_left by lra. apply Rle_trans with (bpow radix2 63); [change 63%Z with (1 + 62)%Z; rewrite bpow_plus; change (bpow radix2 1) with 2; lra|apply bpow_le; lia]. }
      rewrite Vb, V3 in V. rewrite <- V. exact X. }
    induction fuel as [|fuel IH]; intros x Fx B; [reflexivity|]. cbn [circle_loop]. destruct (ofZ_correct 360) as [F3 V3]; [lia|]. rewrite (ltb_correct x (@nZ F64 360) Fx F3).
    change (val (@nZ F64 360)) with (val (F64_ofZ 360)). rewrite V3. unfold Rltb. destruct (Rlt_dec (val x) 360); [|lra].
    assert (P62 : 0 < bpow radix2 62) by apply bpow_gt_0.
    assert (S : - bpow radix2 62 <= rnd (val x + val dl) <= 0) by (split; [rewrite <- LOW; apply rnd_mono; lra|rewrite <- rnd_0; apply rnd_mono; lra]).
    destruct (add_correct x dl Fx Fd) as [Fn Vn].
    { eapply Rle_lt_trans; [apply Rabs_le; split; [exact (proj1 S)|lra]|]. apply bpow_lt. lia. }
    rewrite (IH (@nadd F64 x dl) Fn) by (rewrite Vn; exact S). reflexivity.
  Qed.

  Lemma circle_never64 (cf : config F64) (c : Point F64) (r : f64) : (cf_grade cf < 0 \/ 360 < cf_grade cf)%Z -> forall fuel, discretizeCircleN (N := F64) M_PI64 cos64 sin64 fuel cf c r = Err Fuel.
  Proof.
    intros G fuel. unfold discretizeCircleN. destruct (Z.eqb_spec (cf_grade cf) 0) as [Z0|_]; [lia|].
    assert (Q : (-360 <= Z.quot 360 (cf_grade cf) <= 0)%Z).
    { destruct G as [G|G]; [|rewrite Z.quot_small by lia; lia]. pose proof (Z.quot_opp_r 360 (cf_grade cf) ltac:(lia)) as O.
      assert (0 <= Z.quot 360 (- cf_grade cf) <= 360)%Z by (rewrite Z.quot_div_nonneg by lia; split; [apply Z.div_pos; lia|apply Z.div_le_upper_bound; nia]). lia. }
    destruct (ofZ_correct (Z.quot 360 (cf_grade cf))) as [Fd Vd]; [lia|]. destruct (ofZ_correct 0) as [F0 V0]; [lia|].
    apply (circle_forever c r _ _ Fd Vd Q fuel (@nZ F64 0) F0). change (val (@nZ F64 0)) with (val (F64_ofZ 0)). rewrite V0. pose proof (bpow_gt_0 radix2 62). split; [|apply Rle_refl]. change (IZR 0) with 0. lra.
  Qed.

  (** ** The hole *)
  Lemma circular_hole64 (cf : config F64) (c : Point F64) (r : f64) : (1 <= cf_grade cf <= 360)%Z -> moderate (px c) -> moderate (py c) -> moderate r ->
    exists h, (forall fuel, (361 <= fuel)%nat -> circularHole_at (N := F64) M_PI64 cos64 sin64 fuel cf c r = Ok h) /\ hole_built h /\ h_center h = c /\
      (zlen (h_points h) = (360 + 360 / cf_grade cf - 1) / (360 / cf_grade cf))%Z /\
      (forall i q, nth_error (h_points h) i = Some q -> close_point (slack (xyv c) (val r) 32) q (at_angle (xyv c) (val r) (IZR (360 / cf_grade cf * Z.of_nat i)))).
  Proof.
    intros G Mx My Mr. destruct (circle64 cf c r G Mx My Mr) as (ps & P1 & P2 & P3).
    assert (K : exists h, circularHole (N := F64) (cf_tol cf) ps c = Ok h /\ h_center h = c /\ h_points h = ps).
    { eexists. split; [apply circularHole_ok|]. split; reflexivity. }
    destruct K as (h & K1 & K2 & K3). exists h. split; [intros fuel Hf; unfold circularHole_at; rewrite (P1 fuel Hf); exact K1|].
    split; [exact (built_circular _ _ _ _ K1)|]. split; [exact K2|]. rewrite K3. split; assumption.
  Qed.

  (** ** Arcs *)
  Lemma arc_angle (a0 a1 : f64) (A : R) (n i : Z) : fin a0 -> fin a1 -> Rabs (val a0) <= A -> Rabs (val a1) <= A -> 1 <= A <= 1073741824 -> (1 <= n <= 2 ^ 30)%Z -> (0 <= i <= n)%Z ->
    let x := @nadd F64 a0 (@nmul F64 (@ndiv F64 (@nsub F64 a1 a0) (@nZ F64 n)) (@nZ F64 i)) in
    fin x /\ Rabs (val x - (val a0 + IZR i * (val a1 - val a0) / IZR n)) <= 10 * (A * E).
  Proof.
    intros F0 F1 B0 B1 HA Hn Hi x. pose proof E_pos as PE. pose proof E_small as SE. pose proof H_pos as PH. pose proof H_small as SH.
    destruct (ofZ_correct n) as [Fn Vn]; [lia|]. destruct (ofZ_correct i) as [Fi Vi]; [lia|]. change F64_ofZ with (@nZ F64) in *.
    assert (N1 : 1 <= IZR n <= 1073741824) by (split; [apply (IZR_le 1)|apply (IZR_le _ 1073741824)]; lia). assert (I1 : 0 <= IZR i <= IZR n) by (split; [apply (IZR_le 0)|apply IZR_le]; lia).
    assert (EA : E * A <= A / 1048576) by (unfold Rdiv; rewrite (Rmult_comm A); apply Rmult_le_compat_r; lra). assert (EA0 : 0 < E * A) by (apply Rmult_lt_0_compat; lra).
    assert (EA1 : E <= E * A) by (rewrite <- (Rmult_1_r E) at 1; apply Rmult_le_compat_l; lra).
    assert (LIM : forall y, y <= 4 * A -> y <= bpow radix2 1000). { intros y Hy. apply Rle_trans with (bpow radix2 32); [cbn; lra|apply bpow_le; lia]. }
    assert (W0 : Rabs (val a1 - val a0) <= 2 * A) by (unfold Rminus; eapply Rle_trans; [apply Rabs_triang|]; rewrite Rabs_Ropp; lra).
    destruct (sub_correct a1 a0 F1 F0) as [Fw Vw]; [apply rnd_big, LIM; lra|]. set (w := @nsub F64 a1 a0) in *. pose proof (rnd_rel (val a1 - val a0)) as Rw. rewrite <- Vw in Rw.
    assert (Rw' : Rabs (val w - (val a1 - val a0)) <= 2 * (E * A) + H) by (pose proof (Rmult_le_compat_l E _ _ (Rlt_le _ _ PE) W0); lra).
    assert (HnE : IZR n * H <= E * A / 1048576).
    { apply Rle_trans with (1073741824 * (E * / 1048576 * / 1073741824)); [apply Rmult_le_compat; lra|]. replace (1073741824 * (E * / 1048576 * / 1073741824)) with (E / 1048576) by field. lra. }
    assert (HH : H <= E * A / 1048576) by (eapply Rle_trans; [|exact HnE]; rewrite <- (Rmult_1_l H) at 1; apply Rmult_le_compat_r; lra).
    assert (W1 : Rabs (val w) <= 2001 / 1000 * A).
    { replace (val w) with ((val a1 - val a0) + (val w - (val a1 - val a0))) by ring. eapply Rle_trans; [apply Rabs_triang|]. lra. }
    assert (IN : 0 < / IZR n <= 1) by (split; [apply Rinv_0_lt_compat; lra|rewrite <- Rinv_1; apply Rinv_le; lra]).
    assert (D0 : Rabs (val w / IZR n) <= 2001 / 1000 * A). { unfold Rdiv. rewrite Rabs_mult, (Rabs_pos_eq (/ IZR n)) by lra. pose proof (Rabs_pos (val w)). nra. }
    destruct (div_correct w (@nZ F64 n) Fw Fn) as [Fd Vd]; [rewrite Vn; lra|rewrite Vn; apply rnd_big, LIM; lra|]. rewrite Vn in Vd. set (dl := @ndiv F64 w (@nZ F64 n)) in *.
    pose proof (rnd_rel (val w / IZR n)) as Rd. rewrite <- Vd in Rd.
    (* i times the step *)
    assert (ID : Rabs (IZR i * (val w / IZR n)) <= Rabs (val w)).
    { replace (IZR i * (val w / IZR n)) with (val w * (IZR i / IZR n)) by (field; lra). rewrite Rabs_mult. assert (Q : 0 <= IZR i / IZR n <= 1) by (split; [apply Rmult_le_pos; lra|apply Rmult_le_reg_r with (IZR n); [lra|]; unfold Rdiv; rewrite Rmult_assoc, Rinv_l by lra; lra]).
      rewrite (Rabs_pos_eq (IZR i / IZR n)) by lra. pose proof (Rabs_pos (val w)). nra. }
    assert (RI : Rabs (IZR i * val dl - IZR i * (val w / IZR n)) <= E * (2001 / 1000 * A) + IZR n * H).
    { replace (IZR i * val dl - IZR i * (val w / IZR n)) with (IZR i * (val dl - val w / IZR n)) by ring. rewrite Rabs_mult, (Rabs_pos_eq (IZR i)) by lra.
      apply Rle_trans with (IZR i * (E * Rabs (val w / IZR n) + H)); [apply Rmult_le_compat_l; lra|]. rewrite Rmult_plus_distr_l. apply Rplus_le_compat; [|apply Rmult_le_compat_r; lra].
      replace (IZR i * (E * Rabs (val w / IZR n))) with (E * (IZR i * Rabs (val w / IZR n))) by ring. apply Rmult_le_compat_l; [lra|].
      rewrite Rabs_mult, (Rabs_pos_eq (IZR i)) in ID by lra. lra. }
    assert (D1 : Rabs (val dl * IZR i) <= 2002 / 1000 * A).
    { rewrite Rmult_comm. replace (IZR i * val dl) with (IZR i * (val w / IZR n) + (IZR i * val dl - IZR i * (val w / IZR n))) by ring. eapply Rle_trans; [apply Rabs_triang|]. lra. }
    destruct (mul_correct dl (@nZ F64 i) Fd Fi) as [Fq Vq]; [rewrite Vi; apply rnd_big, LIM; lra|]. rewrite Vi in Vq. set (q := @nmul F64 dl (@nZ F64 i)) in *.
    pose proof (rnd_rel (val dl * IZR i)) as Rq. rewrite <- Vq in Rq.
    assert (Rq' : Rabs (val q - val dl * IZR i) <= E * (2002 / 1000 * A) + H) by (pose proof (Rmult_le_compat_l E _ _ (Rlt_le _ _ PE) D1); lra).
    assert (Q1 : Rabs (val q) <= 2003 / 1000 * A). { replace (val q) with (val dl * IZR i + (val q - val dl * IZR i)) by ring. eapply Rle_trans; [apply Rabs_triang|]. lra. }
    assert (S0 : Rabs (val a0 + val q) <= 3003 / 1000 * A) by (eapply Rle_trans; [apply Rabs_triang|]; lra).
    destruct (add_correct a0 q F0 Fq) as [Fx Vx]; [apply rnd_big, LIM; lra|]. fold x in Fx, Vx. split; [exact Fx|]. pose proof (rnd_rel (val a0 + val q)) as Rx. rewrite <- Vx in Rx.
    assert (Rx' : Rabs (val x - (val a0 + val q)) <= E * (3003 / 1000 * A) + H) by (pose proof (Rmult_le_compat_l E _ _ (Rlt_le _ _ PE) S0); lra).
    assert (RW : Rabs (IZR i * (val w - (val a1 - val a0)) / IZR n) <= 2 * (E * A) + H).
    { replace (IZR i * (val w - (val a1 - val a0)) / IZR n) with ((val w - (val a1 - val a0)) * (IZR i / IZR n)) by (field; lra). rewrite Rabs_mult.
      assert (Q : 0 <= IZR i / IZR n <= 1) by (split; [apply Rmult_le_pos; lra|apply Rmult_le_reg_r with (IZR n); [lra|]; unfold Rdiv; rewrite Rmult_assoc, Rinv_l by lra; lra]).
      rewrite (Rabs_pos_eq (IZR i / IZR n)) by lra. pose proof (Rabs_pos (val w - (val a1 - val a0))). nra. }
    apply Rabs_le_inv in Rx'. apply Rabs_le_inv in Rq'. apply Rabs_le_inv in RI. apply Rabs_le_inv in RW. apply Rabs_le.
    assert (X : val x - (val a0 + IZR i * (val a1 - val a0) / IZR n) = (val x - (val a0 + val q)) + (val q - val dl * IZR i) + (IZR i * val dl - IZR i * (val w / IZR n)) + IZR i * (val w - (val a1 - val a0)) / IZR n) by (field; lra).
    rewrite X. lra.
  Qed.

  Lemma arc64 (cf : config F64) (c : Point F64) (r a0 a1 : f64) (A : R) : (1 <= cf_grade cf <= 2 ^ 30)%Z -> moderate (px c) -> moderate (py c) -> moderate r ->
    fin a0 -> fin a1 -> Rabs (val a0) <= A -> Rabs (val a1) <= A -> 1 <= A <= 1073741824 / 2 ->
    exists ps, generateArcPointsN (N := F64) M_PI64 cos64 sin64 cf c r a0 a1 = Ok ps /\ (zlen ps = cf_grade cf + 1)%Z /\
      (forall i q, nth_error ps i = Some q -> close_point (slack (xyv c) (val r) (A / 2 + 8)) q (at_angle (xyv c) (val r) (val a0 + INR i * (val a1 - val a0) / IZR (cf_grade cf)))).
  Proof.
    intros G Mx My Mr F0 F1 B0 B1 HA. unfold generateArcPointsN. destruct (Z.ltb_spec (cf_grade cf) 0); [lia|]. set (n := cf_grade cf) in *.
    destruct (ofZ_correct n) as [Fn Vn]; [lia|]. destruct (ofZ_correct 0) as [F00 V00]; [lia|]. unfold divr. rewrite (eqb_correct (@nZ F64 n) (@nZ F64 0) Fn F00).
    change (val (@nZ F64 n)) with (val (F64_ofZ n)). change (val (@nZ F64 0)) with (val (F64_ofZ 0)). rewrite Vn, V00. unfold Reqb. destruct (Req_EM_T (IZR n) 0) as [Z0|_]; [apply (eq_IZR n 0) in Z0; lia|]. cbn [bind].
    eexists. split; [reflexivity|]. split; [unfold zlen; rewrite map_length, seq_length; lia|]. intros i q Hq. rewrite nth_error_map in Hq.
    destruct (nth_error (seq 0 (S (Z.to_nat n))) i) as [j|] eqn:J; [|discriminate]. cbn [option_map] in Hq. injection Hq as <-.
    assert (L : (i < S (Z.to_nat n))%nat) by (assert (nth_error (seq 0 (S (Z.to_nat n))) i <> None) as K by congruence; apply nth_error_Some in K; rewrite seq_length in K; exact K).
    assert (j = i). { pose proof (nth_error_nth _ _ 0%nat J) as K. rewrite seq_nth in K by exact L. lia. } subst j.
    destruct (arc_angle a0 a1 A n (Z.of_nat i) F0 F1 B0 B1) as [Fx Bx]; [lra|lia|lia|]. cbv zeta in *. rewrite <- INR_IZR_INZ in Bx.
    pose proof E_pos as PE. pose proof E_small as SE.
    assert (SEs : E * 1048576 * 1024 <= 1). { replace (E * 1048576 * 1024) with (bpow radix2 (-23)) by (change 1048576 with (bpow radix2 20); change 1024 with (bpow radix2 10); rewrite <- !bpow_plus; reflexivity). change 1 with (bpow radix2 0). apply bpow_le. lia. }
    assert (N1 : 1 <= IZR n) by (apply (IZR_le 1); lia). assert (I1 : 0 <= INR i <= IZR n) by (split; [apply pos_INR|rewrite INR_IZR_INZ; apply IZR_le; lia]).
    apply (point64 c r _ _ (2 * A) (10 * (A * E)) _ Mx My Mr Fx Bx); try nra.
    set (u := INR i / IZR n). assert (U : 0 <= u <= 1). { unfold u. split; [apply Rmult_le_pos; [lra|apply Rlt_le, Rinv_0_lt_compat; lra]|apply Rmult_le_reg_r with (IZR n); [lra|]; unfold Rdiv; rewrite Rmult_assoc, Rinv_l by lra; lra]. }
    replace (val a0 + INR i * (val a1 - val a0) / IZR n) with (val a0 + u * (val a1 - val a0)) by (unfold u; field; lra). apply Rabs_le_inv in B0. apply Rabs_le_inv in B1. apply Rabs_le. nra.
  Qed.
End Points.

(** ** Waves *)
Lemma wave_angle (f p x : f64) (A : R) : fin f -> fin p -> fin x -> Rabs (180 * (val f * val x)) <= A -> Rabs (val p) <= A -> 1 <= A <= 1073741824 ->
  let t := @nadd F64 (radianN (N := F64) M_PI64 (@nmul F64 (@nmul F64 f x) (@nZ F64 180))) (radianN (N := F64) M_PI64 p) in
  fin t /\ Rabs (val t - (PI * val f * val x + val p * PI / 180)) <= A * E / 4.
Proof.
  intros Ff Fp Fx BA Bp HA t. pose proof E_pos as PE. pose proof E_small as SE. pose proof H_pos as PH. pose proof H_small as SH. pose proof pi_range as [[P1 P2] _].
  destruct (ofZ_correct 180) as [F8 V8]; [lia|]. change F64_ofZ with (@nZ F64) in *.
  assert (EA : E * A <= A / 1048576) by (unfold Rdiv; rewrite (Rmult_comm A); apply Rmult_le_compat_r; lra). assert (EA0 : 0 < E * A) by (apply Rmult_lt_0_compat; lra).
  assert (EA1 : E <= E * A) by (rewrite <- (Rmult_1_r E) at 1; apply Rmult_le_compat_l; lra).
  assert (HH : H <= E * A / 1048576 / 1048576). { eapply Rle_trans; [exact SH|]. assert (0 < E) by lra. nra. }
  assert (LIM : forall y, y <= 4 * A -> y <= bpow radix2 1000). { intros y Hy. apply Rle_trans with (bpow radix2 32); [cbn; lra|apply bpow_le; lia]. }
  assert (B0 : Rabs (val f * val x) <= A / 180) by (rewrite Rabs_mult, (Rabs_pos_eq 180) in BA by lra; lra).
  destruct (mul_correct f x Ff Fx) as [F1 V1]; [apply rnd_big, LIM; lra|]. set (u := @nmul F64 f x) in *. pose proof (rnd_rel (val f * val x)) as R1. rewrite <- V1 in R1.
  assert (R1' : Rabs (val u - val f * val x) <= E * A / 180 + H) by (pose proof (Rmult_le_compat_l E _ _ (Rlt_le _ _ PE) B0); lra).
  assert (U1 : Rabs (val u * 180) <= 1001 / 1000 * A).
  { replace (val u * 180) with (180 * (val f * val x) + 180 * (val u - val f * val x)) by ring. eapply Rle_trans; [apply Rabs_triang|]. rewrite (Rabs_mult 180 (val u - _)), (Rabs_pos_eq 180) by lra. lra. }
  destruct (mul_correct u (@nZ F64 180) F1 F8) as [F2 V2]; [rewrite V8; apply rnd_big, LIM; lra|]. rewrite V8 in V2. set (v := @nmul F64 u (@nZ F64 180)) in *. pose proof (rnd_rel (val u * 180)) as R2. rewrite <- V2 in R2.
  assert (R2' : Rabs (val v - val u * 180) <= E * (1001 / 1000 * A) + H) by (pose proof (Rmult_le_compat_l E _ _ (Rlt_le _ _ PE) U1); lra).
  assert (DV : Rabs (val v - 180 * (val f * val x)) <= 21 / 10 * (E * A)).
  { replace (val v - 180 * (val f * val x)) with ((val v - val u * 180) + 180 * (val u - val f * val x)) by ring. eapply Rle_trans; [apply Rabs_triang|]. rewrite (Rabs_mult 180 (val u - _)), (Rabs_pos_eq 180) by lra. lra. }
  destruct (radian64 v (180 * (val f * val x)) A (21 / 10 * (E * A)) F2 DV BA HA) as [G1 W1]; [|].
  { assert (E * 2199023255552 <= 1) by (change 2199023255552 with (bpow radix2 41); rewrite <- bpow_plus; change 1 with (bpow radix2 0); apply bpow_le; lia). nra. }
  destruct (radian64 p (val p) A 0 Fp) as [G2 W2]; [rewrite Rminus_diag_eq, Rabs_R0 by reflexivity; lra|exact Bp|exact HA|lra|].
  set (t1 := radianN (N := F64) M_PI64 v) in *. set (t2 := radianN (N := F64) M_PI64 p) in *.
  assert (T1 : Rabs (val t1) <= 18 / 1000 * A).
  { replace (val t1) with (180 * (val f * val x) * PI / 180 + (val t1 - 180 * (val f * val x) * PI / 180)) by ring. eapply Rle_trans; [apply Rabs_triang|].
    unfold Rdiv at 1. rewrite !(Rabs_mult _ (/ 180)), !(Rabs_mult _ PI), (Rabs_pos_eq PI), (Rabs_pos_eq (/ 180)) by lra. pose proof (Rabs_pos (180 * (val f * val x))). nra. }
  assert (T2 : Rabs (val t2) <= 18 / 1000 * A).
  { replace (val t2) with (val p * PI / 180 + (val t2 - val p * PI / 180)) by ring. eapply Rle_trans; [apply Rabs_triang|].
    unfold Rdiv at 1. rewrite !(Rabs_mult _ (/ 180)), !(Rabs_mult _ PI), (Rabs_pos_eq PI), (Rabs_pos_eq (/ 180)) by lra. pose proof (Rabs_pos (val p)). nra. }
  assert (S : Rabs (val t1 + val t2) <= 36 / 1000 * A) by (eapply Rle_trans; [apply Rabs_triang|]; lra).
  destruct (add_correct t1 t2 G1 G2) as [Ft Vt]; [apply rnd_big, LIM; lra|]. fold t in Ft, Vt. split; [exact Ft|].
  pose proof (rnd_rel (val t1 + val t2)) as Rt. rewrite <- Vt in Rt.
  assert (Rt' : Rabs (val t - (val t1 + val t2)) <= E * (36 / 1000 * A) + H) by (pose proof (Rmult_le_compat_l E _ _ (Rlt_le _ _ PE) S); lra).
  apply Rabs_le_inv in Rt'. apply Rabs_le_inv in W1. apply Rabs_le_inv in W2. apply Rabs_le.
  replace (val t - (PI * val f * val x + val p * PI / 180)) with ((val t - (val t1 + val t2)) + (val t1 - 180 * (val f * val x) * PI / 180) + (val t2 - val p * PI / 180)) by field. lra.
Qed.

Lemma wave64 (g64 : f64 -> f64) (g : R -> R) (a t : f64) (th D : R) : accurate g64 g -> (forall u v, Rabs (g u - g v) <= Rabs (u - v)) -> moderate a -> fin t -> Rabs (val t - th) <= D ->
  fin (@nmul F64 a (g64 t)) /\ Rabs (val (@nmul F64 a (g64 t))) <= Rabs (val a) /\
  Rabs (val (@nmul F64 a (g64 t)) - val a * g th) <= Rabs (val a) * (3 * E + D) + H.
Proof.
  intros HG LIP [Fa Ba] Ft HD. destruct (HG t Ft) as (Fg & Bg & Eg). pose proof E_pos as PE. pose proof H_pos as PH. pose proof (Rabs_pos (val a)) as A0. pose proof (Rabs_pos (val (g64 t))) as G0.
  assert (M : Rabs (val a * val (g64 t)) <= Rabs (val a)) by (rewrite Rabs_mult; nra).
  assert (L : bpow radix2 900 <= bpow radix2 1000) by (apply bpow_le; lia).
  destruct (mul_correct a (g64 t) Fa Fg) as [F V]; [apply rnd_big; lra|]. split; [exact F|]. split.
  - rewrite V. pose proof (rnd_val a Fa) as Rv. pose proof (rnd_opp (val a)) as Rn. rewrite Rv in Rn. apply Rabs_le_inv in M.
    assert (RA : rnd (Rabs (val a)) = Rabs (val a) /\ rnd (- Rabs (val a)) = - Rabs (val a)).
    { unfold Rabs. destruct (Rcase_abs (val a)); [rewrite Ropp_involutive|]; split; assumption. }
    destruct RA as [RA RB]. apply Rabs_le. split; [rewrite <- RB|rewrite <- RA]; apply rnd_mono; lra.
  - pose proof (rnd_rel (val a * val (g64 t))) as R1. rewrite <- V in R1. assert (E * Rabs (val a * val (g64 t)) <= E * Rabs (val a)) by (apply Rmult_le_compat_l; lra).
    assert (W : bpow radix2 (-52) = 2 * E) by (change 2 with (bpow radix2 1); rewrite <- bpow_plus; reflexivity).
    assert (D2 : Rabs (val (g64 t) - g th) <= 2 * E + D).
    { replace (val (g64 t) - g th) with ((val (g64 t) - g (val t)) + (g (val t) - g th)) by ring. eapply Rle_trans; [apply Rabs_triang|]. pose proof (LIP (val t) th). lra. }
    set (z := @nmul F64 a (g64 t)) in *. replace (val z - val a * g th) with ((val z - val a * val (g64 t)) + val a * (val (g64 t) - g th)) by ring.
    eapply Rle_trans; [apply Rabs_triang|]. rewrite (Rabs_mult (val a) (val (g64 t) - _)). pose proof (Rmult_le_compat_l _ _ _ A0 D2). lra.
Qed.

Lemma waves64 (cos64 sin64 : f64 -> f64) : accurate cos64 cos -> accurate sin64 sin -> forall (a f p x : f64) (A : R), moderate a -> fin f -> fin p -> fin x ->
  Rabs (180 * (val f * val x)) <= A -> Rabs (val p) <= A -> 1 <= A <= 1073741824 ->
  let s := sineN (N := F64) M_PI64 sin64 a f p x in let c := cosineN (N := F64) M_PI64 cos64 a f p x in
  (fin s /\ Rabs (val s) <= Rabs (val a) /\ Rabs (val s - val a * sin (PI * val f * val x + val p * PI / 180)) <= Rabs (val a) * (3 + A / 4) * E + H) /\
  (fin c /\ Rabs (val c) <= Rabs (val a) /\ Rabs (val c - val a * cos (PI * val f * val x + val p * PI / 180)) <= Rabs (val a) * (3 + A / 4) * E + H).
Proof.
  intros HC HS a f p x A Ma Ff Fp Fx BA Bp HA s c. destruct (wave_angle f p x A Ff Fp Fx BA Bp HA) as [Ft Bt]. cbv zeta in Bt.
  destruct (wave64 sin64 sin a _ _ _ HS sin_lip Ma Ft Bt) as (S1 & S2 & S3). destruct (wave64 cos64 cos a _ _ _ HC cos_lip Ma Ft Bt) as (C1 & C2 & C3).
  replace (Rabs (val a) * (3 + A / 4) * E) with (Rabs (val a) * (3 * E + A * E / 4)) by field.
  split; (split; [assumption|split; assumption]).
Qed.

(** ** On the reals these are the definitions of the exact model *)
Lemma exact_instance (cf : config RNum) (c : Point RNum) (r a0 a1 : R) : generateArcPointsN (N := RNum) PI cos sin cf c r a0 a1 = generateArcPoints cf c r a0 a1 /\
  (forall fuel, discretizeCircleN (N := RNum) PI cos sin fuel cf c r = discretizeCircle fuel cf c r).
Proof.
  split.
  - unfold generateArcPointsN, generateArcPoints. destruct (Z.ltb (cf_grade cf) 0); [reflexivity|].
    destruct (divr (N := RNum) (@nsub RNum a1 a0) (@nZ RNum (cf_grade cf))) as [d|] eqn:D.
    + change (divr (N := RNum) (a1 - a0) (IZR (cf_grade cf)) = Ok d) in D. rewrite D. cbn [bind]. f_equal. apply map_ext. intros i. rewrite INR_IZR_INZ. reflexivity.
    + change (divr (N := RNum) (a1 - a0) (IZR (cf_grade cf)) = Err e) in D. rewrite D. reflexivity.
  - intros fuel. unfold discretizeCircleN, discretizeCircle. destruct (Z.eqb (cf_grade cf) 0); [reflexivity|]. set (d := Z.quot 360 (cf_grade cf)). change (@nZ RNum d) with (IZR d). change (@nZ RNum 0) with (IZR 0).
    generalize 0%Z. induction fuel as [|fuel IH]; intros a; [reflexivity|]. cbn [circle_loop circle_angles]. change (@nltb RNum (IZR a) (@nZ RNum 360)) with (Rltb (IZR a) (IZR 360)).
    unfold Rltb. destruct (Rlt_dec (IZR a) (IZR 360)) as [L|L]; destruct (Z.ltb_spec a 360) as [L'|L']; [|apply lt_IZR in L; lia|exfalso; apply L, IZR_lt; exact L'|reflexivity].
    replace (@nadd RNum (IZR a) (IZR d)) with (IZR (a + d)) by apply plus_IZR. rewrite IH. destruct (circle_angles fuel d (a + d)); reflexivity.
Qed.

Lemma bad_grades64 (cos64 sin64 : f64 -> f64) (cf : config F64) (c : Point F64) (r : f64) :
  ((cf_grade cf < 0 \/ 360 < cf_grade cf)%Z -> forall fuel, discretizeCircleN (N := F64) M_PI64 cos64 sin64 fuel cf c r = Err Fuel) /\
  (cf_grade cf = 0%Z -> forall fuel, exists m, discretizeCircleN (N := F64) M_PI64 cos64 sin64 fuel cf c r = Err (UB m)).
Proof. split; [intros G; apply circle_never64; exact G|]. intros G fuel. unfold discretizeCircleN. rewrite G. eexists. reflexivity. Qed.
