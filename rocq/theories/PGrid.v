(** On coordinates that are small multiples of a power of two, the computations on doubles
    agree with the computations on reals. *)
From Coq Require Import Reals Lra Lia Psatz ZArith SpecFloat List Bool.
From Flocq Require Import Core BinarySingleNaN.
From Verif Require Import Base Spec MUtil MGeom MHull MPolygon Bridge BridgeNum PPoint PFloat.
Import ListNotations.
Local Open Scope Z_scope.

(** The point with the real coordinates the doubles denote. *)
Definition real_point (q : Point F64) : Point RNum := mkPoint (N := RNum) (val (px q)) (val (py q)) (pbd q) (pempty q).

(** * Exact operations *)
Definition okexp (e : Z) : Prop := -1074 <= e <= 970.

Lemma rnd_scaled k e : Z.abs k <= 2 ^ 53 -> okexp e -> rnd (IZR k * bpow radix2 e) = (IZR k * bpow radix2 e)%R.
Proof.
  intros Hk He. apply round_generic; [apply valid_rnd_N|].
  change (IZR k * bpow radix2 e)%R with (F2R (Float radix2 k e)).
  destruct (Z.eq_dec (Z.abs k) (2 ^ 53)) as [E|E].
  - assert (G : generic_format radix2 fexp64 (bpow radix2 (53 + e))).
    { apply generic_format_bpow. unfold fexp64, SpecFloat.fexp, SpecFloat.emin, okexp in *. lia. }
    replace (F2R (Float radix2 k e)) with (if 0 <=? k then bpow radix2 (53 + e) else - bpow radix2 (53 + e))%R.
    + destruct (0 <=? k); [exact G|now apply generic_format_opp].
    + unfold F2R. cbn [Fnum Fexp]. rewrite bpow_plus. change (bpow radix2 53) with (IZR (2 ^ 53)).
      destruct (0 <=? k) eqn:Z0; [apply Z.leb_le in Z0|apply Z.leb_gt in Z0; rewrite Ropp_mult_distr_l, <- opp_IZR]; f_equal; f_equal; lia.
  - apply generic_format_F2R. intros Hz. unfold cexp.
    assert (mag radix2 (F2R (Float radix2 k e)) <= 53 + e).
    { apply mag_le_bpow; [now apply F2R_neq_0|]. unfold F2R. cbn [Fnum Fexp]. rewrite Rabs_mult, (Rabs_pos_eq (bpow radix2 e)) by apply bpow_ge_0.
      rewrite bpow_plus, <- abs_IZR. apply Rmult_lt_compat_r; [apply bpow_gt_0|].
      change (bpow radix2 53) with (IZR (2 ^ 53)). apply IZR_lt. lia. }
    unfold fexp64, SpecFloat.fexp, SpecFloat.emin, okexp in *. lia.
Qed.
Lemma scaled_small k e : Z.abs k <= 2 ^ 53 -> okexp e -> (Rabs (IZR k * bpow radix2 e) < big)%R.
Proof.
  intros Hk He. rewrite Rabs_mult, (Rabs_pos_eq (bpow radix2 e)) by apply bpow_ge_0. rewrite <- abs_IZR.
  apply Rle_lt_trans with (IZR (2 ^ 53) * bpow radix2 e)%R.
  - apply Rmult_le_compat_r; [apply bpow_ge_0|]. apply IZR_le. assumption.
  - change (IZR (2 ^ 53)) with (bpow radix2 53). rewrite <- bpow_plus. apply bpow_lt. unfold okexp in He. lia.
Qed.

Lemma grid_fin e n x : grid e n x -> fin x.
Proof. intros [H _]; exact H. Qed.
Lemma grid_mono e n m x : n <= m -> grid e n x -> grid e m x.
Proof. intros H [F (k & Hk & V)]. split; [assumption|]. exists k. split; [lia|assumption]. Qed.
Lemma grid_exact e n x : grid e n x -> n <= 2 ^ 53 -> okexp e -> rnd (val x) = val x /\ (Rabs (val x) < big)%R.
Proof. intros [F (k & Hk & V)] Hn He. rewrite V, rnd_scaled by (assumption || lia). split; [reflexivity|apply scaled_small; (assumption || lia)]. Qed.

Lemma grid_add e m n x y : grid e m x -> grid e n y -> m + n <= 2 ^ 53 -> okexp e ->
  grid e (m + n) (@nadd F64 x y) /\ val (@nadd F64 x y) = (val x + val y)%R.
Proof.
  intros [Fx (k & Hk & Vx)] [Fy (l & Hl & Vy)] H He.
  assert (E : (val x + val y = IZR (k + l) * bpow radix2 e)%R) by (rewrite Vx, Vy, plus_IZR; ring).
  destruct (add_correct x y Fx Fy) as [F V]; [rewrite E, rnd_scaled by (assumption || lia); apply scaled_small; (assumption || lia)|].
  rewrite E, rnd_scaled in V by (assumption || lia). split; [|congruence]. split; [exact F|]. exists (k + l). split; [lia|exact V].
Qed.
Lemma grid_sub e m n x y : grid e m x -> grid e n y -> m + n <= 2 ^ 53 -> okexp e ->
  grid e (m + n) (@nsub F64 x y) /\ val (@nsub F64 x y) = (val x - val y)%R.
Proof.
  intros [Fx (k & Hk & Vx)] [Fy (l & Hl & Vy)] H He.
  assert (E : (val x - val y = IZR (k - l) * bpow radix2 e)%R) by (rewrite Vx, Vy, minus_IZR; ring).
  destruct (sub_correct x y Fx Fy) as [F V]; [rewrite E, rnd_scaled by (assumption || lia); apply scaled_small; (assumption || lia)|].
  rewrite E, rnd_scaled in V by (assumption || lia). split; [|congruence]. split; [exact F|]. exists (k - l). split; [lia|exact V].
Qed.
Lemma grid_mul e f m n x y : grid e m x -> grid f n y -> m * n <= 2 ^ 53 -> okexp (e + f) ->
  grid (e + f) (m * n) (@nmul F64 x y) /\ val (@nmul F64 x y) = (val x * val y)%R.
Proof.
  intros [Fx (k & Hk & Vx)] [Fy (l & Hl & Vy)] H He.
  assert (E : (val x * val y = IZR (k * l) * bpow radix2 (e + f))%R) by (rewrite Vx, Vy, mult_IZR, bpow_plus; ring).
  assert (B : Z.abs (k * l) <= m * n) by (rewrite Z.abs_mul; apply Z.mul_le_mono_nonneg; lia).
  destruct (mul_correct x y Fx Fy) as [F V]; [rewrite E, rnd_scaled by (assumption || lia); apply scaled_small; (assumption || lia)|].
  rewrite E, rnd_scaled in V by (assumption || lia). split; [|congruence]. split; [exact F|]. exists (k * l). split; [lia|exact V].
Qed.
Lemma grid_opp e n x : grid e n x -> grid e n (@nopp F64 x) /\ val (@nopp F64 x) = (- val x)%R.
Proof.
  intros [Fx (k & Hk & Vx)]. destruct (opp_correct x Fx) as [F V]. split; [|exact V]. split; [exact F|]. exists (- k).
  split; [lia|]. rewrite V, Vx, opp_IZR. ring.
Qed.
Lemma grid_abs e n x : grid e n x -> grid e n (@nabs F64 x) /\ val (@nabs F64 x) = Rabs (val x).
Proof.
  intros [Fx (k & Hk & Vx)]. destruct (abs_correct x Fx) as [F V]. split; [|exact V]. split; [exact F|]. exists (Z.abs k).
  split; [lia|]. rewrite V, Vx, Rabs_mult, (Rabs_pos_eq (bpow radix2 e)), abs_IZR by apply bpow_ge_0. reflexivity.
Qed.
Lemma grid_int k : Z.abs k <= 2 ^ 53 -> grid 0 (Z.abs k) (@nZ F64 k) /\ val (@nZ F64 k) = IZR k.
Proof.
  intros H. destruct (ofZ_correct k H) as [F V]. split; [|exact V]. split; [exact F|]. exists k. split; [lia|].
  change (@nZ F64 k) with (F64_ofZ k). rewrite V. cbn. ring.
Qed.
Lemma grid_zero e : grid e 0 (@nZ F64 0) /\ val (@nZ F64 0) = 0%R.
Proof.
  destruct (ofZ_correct 0) as [F V]; [cbn; lia|]. split; [|exact V]. split; [exact F|]. exists 0. split; [lia|].
  change (@nZ F64 0) with (F64_ofZ 0). rewrite V. ring.
Qed.
Lemma grid_half e n x : grid e n x -> n <= 2 ^ 53 -> okexp (e - 1) ->
  grid (e - 1) n (@ndiv F64 x (@nZ F64 2)) /\ val (@ndiv F64 x (@nZ F64 2)) = (val x / 2)%R.
Proof.
  intros [Fx (k & Hk & Vx)] Hn He. destruct (grid_int 2) as [[F2 _] V2]; [cbn; lia|].
  assert (E : (val x / val (@nZ F64 2) = IZR k * bpow radix2 (e - 1))%R).
  { rewrite V2, Vx. unfold Zminus. rewrite bpow_plus. change (bpow radix2 (- (1))) with (/ 2)%R. unfold Rdiv. ring. }
  destruct (div_correct x _ Fx F2) as [F V]; [rewrite V2; lra|rewrite E, rnd_scaled by (assumption || lia); apply scaled_small; (assumption || lia)|].
  rewrite V2 in E. rewrite V2, E, rnd_scaled in V by (assumption || lia). split; [|congruence]. split; [exact F|]. exists k. split; [lia|exact V].
Qed.

(** * The geometric primitives *)
Section Grid.
  Variable e : Z.
  Hypothesis He : -200 <= e <= 200.
  Notation gp := (grid_point e).
  Notation PF := (Point F64).
  Ltac ex := unfold okexp in *; lia.

  Lemma sub_coord x y : grid e (2 ^ 20) x -> grid e (2 ^ 20) y -> grid e (2 ^ 21) (@nsub F64 x y) /\ val (@nsub F64 x y) = (val x - val y)%R.
  Proof. intros Hx Hy. change (2 ^ 21) with (2 ^ 20 + 2 ^ 20). apply grid_sub; auto; [lia|ex]. Qed.
  Lemma add_coord x y : grid e (2 ^ 20) x -> grid e (2 ^ 20) y -> grid e (2 ^ 21) (@nadd F64 x y) /\ val (@nadd F64 x y) = (val x + val y)%R.
  Proof. intros Hx Hy. change (2 ^ 21) with (2 ^ 20 + 2 ^ 20). apply grid_add; auto; [lia|ex]. Qed.
  Lemma mul_diff x y : grid e (2 ^ 21) x -> grid e (2 ^ 21) y -> grid (2 * e) (2 ^ 42) (@nmul F64 x y) /\ val (@nmul F64 x y) = (val x * val y)%R.
  Proof.
    intros Hx Hy. change (2 ^ 42) with (2 ^ 21 * 2 ^ 21). replace (2 * e) with (e + e) by lia. apply grid_mul; auto; [lia|ex].
  Qed.
  Lemma mul_coord x y : grid e (2 ^ 20) x -> grid e (2 ^ 21) y -> grid (2 * e) (2 ^ 41) (@nmul F64 x y) /\ val (@nmul F64 x y) = (val x * val y)%R.
  Proof.
    intros Hx Hy. change (2 ^ 41) with (2 ^ 20 * 2 ^ 21). replace (2 * e) with (e + e) by lia. apply grid_mul; auto; [lia|ex].
  Qed.
  Lemma cross_diff x y z w : grid e (2 ^ 21) x -> grid e (2 ^ 21) y -> grid e (2 ^ 21) z -> grid e (2 ^ 21) w ->
    grid (2 * e) (2 ^ 43) (@nsub F64 (@nmul F64 x y) (@nmul F64 z w)) /\ val (@nsub F64 (@nmul F64 x y) (@nmul F64 z w)) = (val x * val y - val z * val w)%R.
  Proof.
    intros Hx Hy Hz Hw. destruct (mul_diff x y Hx Hy) as [G1 V1]. destruct (mul_diff z w Hz Hw) as [G2 V2].
    destruct (grid_sub (2 * e) (2 ^ 42) (2 ^ 42) _ _ G1 G2) as [G V]; [lia|ex|]. split; [exact G|]. rewrite V, V1, V2. reflexivity.
  Qed.

  Lemma orientation_grid (a b c : PF) : gp a -> gp b -> gp c ->
    grid (2 * e) (2 ^ 43) (orientation (N := F64) a b c) /\
    val (orientation (N := F64) a b c) = orientation (N := RNum) (real_point a) (real_point b) (real_point c).
  Proof.
    intros [Ax Ay] [Bx By] [Cx Cy]. unfold orientation, crossProduct, pt_sub, mkP. cbn [px py].
    destruct (sub_coord _ _ Bx Ax) as [G1 V1]. destruct (sub_coord _ _ Cy Ay) as [G2 V2].
    destruct (sub_coord _ _ By Ay) as [G3 V3]. destruct (sub_coord _ _ Cx Ax) as [G4 V4].
    destruct (cross_diff _ _ _ _ G1 G2 G3 G4) as [G V]. split; [exact G|]. rewrite V, V1, V2, V3, V4.
    unfold real_point; cbn [px py]. rnum. reflexivity.
  Qed.
  Lemma area2_grid (a b c : PF) : gp a -> gp b -> gp c ->
    grid (2 * e) (2 ^ 43) (area2 (N := F64) a b c) /\ val (area2 (N := F64) a b c) = area2 (N := RNum) (real_point a) (real_point b) (real_point c).
  Proof. exact (orientation_grid a b c). Qed.
  Lemma triangleArea_grid (a b c : PF) : gp a -> gp b -> gp c ->
    grid (2 * e - 1) (2 ^ 43) (triangleArea (N := F64) a b c) /\ val (triangleArea (N := F64) a b c) = triangleArea (N := RNum) (real_point a) (real_point b) (real_point c).
  Proof.
    intros A B C. destruct (area2_grid a b c A B C) as [G V]. unfold triangleArea. destruct (grid_half _ _ _ G) as [G' V']; [lia|ex|].
    split; [exact G'|]. rewrite V', V. reflexivity.
  Qed.

  Lemma ltb_grid f g m n x y : grid f m x -> grid g n y -> @nltb F64 x y = Rltb (val x) (val y).
  Proof. intros Hx Hy. apply ltb_correct; eapply grid_fin; eassumption. Qed.

  Section Tol.
    Variable tol : f64.
    Hypothesis Ft : fin tol.

    Lemma near_grid x y : grid e (2 ^ 20) x -> grid e (2 ^ 20) y -> near (N := F64) tol x y = near (N := RNum) (val tol) (val x) (val y).
    Proof.
      intros Hx Hy. unfold near. destruct (sub_coord x y Hx Hy) as [G V]. destruct (grid_abs _ _ _ G) as [G' V'].
      rewrite ltb_correct by (assumption || eapply grid_fin; eassumption). rewrite V', V. reflexivity.
    Qed.
    Lemma pt_eqb_grid (a b : PF) : gp a -> gp b -> pt_eqb (N := F64) tol a b = pt_eqb (N := RNum) (val tol) (real_point a) (real_point b).
    Proof.
      intros [Ax Ay] [Bx By]. pose proof (near_grid _ _ Ax Bx) as H1. pose proof (near_grid _ _ Ay By) as H2. unfold near in H1, H2.
      unfold pt_eqb. rewrite H1, H2. reflexivity.
    Qed.
    Lemma pt_ltb_grid (a b : PF) : gp a -> gp b -> pt_ltb (N := F64) tol a b = pt_ltb (N := RNum) (val tol) (real_point a) (real_point b).
    Proof.
      intros [Ax Ay] [Bx By]. pose proof (near_grid _ _ Ax Bx) as H1. pose proof (near_grid _ _ Ay By) as H2. unfold near in H1, H2.
      unfold pt_ltb. rewrite H1, H2, !(ltb_grid e e (2 ^ 20) (2 ^ 20)) by assumption. reflexivity.
    Qed.
    Lemma collinear_grid (a b c : PF) : gp a -> gp b -> gp c ->
      collinear (N := F64) tol a b c = collinear (N := RNum) (val tol) (real_point a) (real_point b) (real_point c).
    Proof.
      intros A B C. unfold collinear. destruct (area2_grid a b c A B C) as [G V]. destruct (grid_abs _ _ _ G) as [G' V'].
      rewrite ltb_correct by (assumption || eapply grid_fin; eassumption). rewrite V', V. reflexivity.
    Qed.
    Lemma leb_coord x y : grid e (2 ^ 20) x -> grid e (2 ^ 20) y -> @nleb F64 x y = Rleb (val x) (val y).
    Proof. intros Hx Hy. apply leb_correct; eapply grid_fin; eassumption. Qed.
    Lemma between_grid v a b : grid e (2 ^ 20) v -> grid e (2 ^ 20) a -> grid e (2 ^ 20) b ->
      between (N := F64) tol v a b = between (N := RNum) (val tol) (val v) (val a) (val b).
    Proof. intros V A B. unfold between. rewrite !leb_coord, !near_grid by assumption. reflexivity. Qed.
    Lemma seg_contains_grid (q a b : PF) : gp q -> gp a -> gp b ->
      seg_contains (N := F64) tol q a b = seg_contains (N := RNum) (val tol) (real_point q) (real_point a) (real_point b).
    Proof.
      intros [Qx Qy] [Ax Ay] [Bx By]. unfold seg_contains. rewrite !between_grid by assumption.
      destruct (sub_coord _ _ By Qy) as [G1 V1]. destruct (sub_coord _ _ Qy Ay) as [G2 V2]. destruct (sub_coord _ _ Ay By) as [G3 V3].
      destruct (mul_coord _ _ Ax G1) as [H1 W1]. destruct (mul_coord _ _ Bx G2) as [H2 W2]. destruct (mul_coord _ _ Qx G3) as [H3 W3].
      destruct (grid_add (2 * e) (2 ^ 41) (2 ^ 41) _ _ H1 H2) as [K1 X1]; [lia|ex|].
      destruct (grid_add (2 * e) (2 ^ 41 + 2 ^ 41) (2 ^ 41) _ _ K1 H3) as [K2 X2]; [lia|ex|].
      destruct (grid_abs _ _ _ K2) as [K3 X3]. rewrite ltb_correct by (assumption || eapply grid_fin; eassumption).
      rewrite X3, X2, X1, W1, W2, W3, V1, V2, V3. unfold real_point; cbn [px py]. rnum. reflexivity.
    Qed.
  End Tol.
End Grid.
