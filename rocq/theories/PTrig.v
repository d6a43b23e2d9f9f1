(** Proofs: angles, arcs and circles (C43, C58, C59). *)
From Coq Require Import Reals Lra Psatz Ratan.
From Verif Require Import Base Spec MUtil MGeom MTrig Bridge PSegment.
Local Open Scope R_scope.
Notation Pt := (Point RNum).

(** * Truncation *)
Lemma Int_part_between x k : IZR k <= x < IZR k + 1 -> Int_part x = k.
Proof.
  intros H. destruct (base_Int_part x) as [H1 H2].
  assert (A1 : IZR (Int_part x) < IZR (k + 1)) by (rewrite plus_IZR; lra).
  assert (A2 : IZR k < IZR (Int_part x + 1)) by (rewrite plus_IZR; lra).
  apply lt_IZR in A1. apply lt_IZR in A2. lia.
Qed.
Lemma Rtrunc_pos x : 0 <= x -> IZR (Rtrunc x) <= x < IZR (Rtrunc x) + 1 /\ (0 <= Rtrunc x)%Z.
Proof.
  intros H. unfold Rtrunc. rewrite Rltb_false by exact H. destruct (base_Int_part x) as [H1 H2]. split; [lra|].
  assert (A : IZR (-1) < IZR (Int_part x)) by lra. apply lt_IZR in A. lia.
Qed.
Lemma Rtrunc_neg x : x <= 0 -> IZR (Rtrunc x) - 1 < x <= IZR (Rtrunc x) /\ (Rtrunc x <= 0)%Z.
Proof.
  intros H. unfold Rtrunc. destruct (Rltb_spec x 0) as [Hx|Hx].
  - rewrite opp_IZR. destruct (base_Int_part (- x)) as [H1 H2]. split; [lra|].
    assert (A : IZR (-1) < IZR (Int_part (- x))) by lra. apply lt_IZR in A. lia.
  - assert (x = 0) by lra. subst x. rewrite (Int_part_between 0 0) by lra. split; [lra|lia].
Qed.
Lemma Rtrunc_IZR k : Rtrunc (IZR k) = k.
Proof.
  unfold Rtrunc. destruct (Rltb_spec (IZR k) 0).
  - rewrite <- opp_IZR. rewrite (Int_part_between _ (- k)); [lia|lra].
  - apply Int_part_between. lra.
Qed.

(** * Angles *)
Lemma atan2_polar x y : (x, y) <> (0, 0) ->
  - PI < atan2 y x <= PI /\ sqrt (x * x + y * y) * cos (atan2 y x) = x /\ sqrt (x * x + y * y) * sin (atan2 y x) = y.
Proof.
  intros Hne. pose proof PI_RGT_0 as HPI.
  assert (K : forall u s, 0 < u * u -> s = Rabs x -> u * u = x * x -> True) by auto. clear K.
  assert (HS : x <> 0 -> sqrt (x * x + y * y) = Rabs x * sqrt (1 + (y / x)²)).
  { intros Hx. rewrite <- sqrt_Rsqr_abs. rewrite <- sqrt_mult.
    - f_equal. unfold Rsqr. field. exact Hx.
    - apply Rle_0_sqr.
    - pose proof (Rle_0_sqr (y / x)). lra. }
  assert (HQ : 0 < sqrt (1 + (y / x)²)) by (apply sqrt_lt_R0; pose proof (Rle_0_sqr (y / x)); lra).
  pose proof (atan_bound (y / x)) as HB.
  unfold atan2. destruct (Rltb_spec 0 x) as [H1|H1].
  - split; [lra|]. rewrite HS, cos_atan, sin_atan by lra. rewrite Rabs_right by lra. split; field; repeat split; lra.
  - destruct (Rltb_spec x 0) as [H2|H2].
    + rewrite HS by lra. rewrite Rabs_left by lra.
      assert (HA : y >= 0 -> atan (y / x) <= 0).
      { intros Hy. destruct (Req_dec y 0) as [->|Hy0].
        - unfold Rdiv. rewrite Rmult_0_l, atan_0. lra.
        - left. rewrite <- atan_0. apply atan_increasing. apply Ropp_lt_cancel. rewrite Ropp_0.
          replace (- (y / x)) with (y / - x) by (field; lra). apply Rdiv_lt_0_compat; lra. }
      assert (HA' : y < 0 -> 0 < atan (y / x)).
      { intros Hy. rewrite <- atan_0. apply atan_increasing. replace (y / x) with (- y / - x) by (field; lra). apply Rdiv_lt_0_compat; lra. }
      destruct (Rleb_spec 0 y) as [H3|H3].
      * split; [specialize (HA ltac:(lra)); lra|].
        rewrite neg_cos, neg_sin, cos_atan, sin_atan. split; field; repeat split; lra.
      * split; [specialize (HA' ltac:(lra)); lra|].
        assert (C : cos (atan (y / x) - PI) = - cos (atan (y / x))).
        { rewrite cos_minus, cos_PI, sin_PI. ring. }
        assert (S : sin (atan (y / x) - PI) = - sin (atan (y / x))).
        { rewrite sin_minus, cos_PI, sin_PI. ring. }
        rewrite C, S, cos_atan, sin_atan. split; field; repeat split; lra.
    + assert (x = 0) by lra. subst x. rewrite Rmult_0_l, Rplus_0_l.
      destruct (Rltb_spec 0 y) as [H3|H3].
      * split; [lra|]. rewrite cos_PI2, sin_PI2. rewrite sqrt_square by lra. lra.
      * destruct (Rltb_spec y 0) as [H4|H4].
        -- split; [lra|]. replace (- PI / 2) with (- (PI / 2)) by field. rewrite cos_neg, sin_neg, cos_PI2, sin_PI2.
           replace (y * y) with (- y * - y) by ring. rewrite sqrt_square by lra. lra.
        -- exfalso. apply Hne. f_equal; lra.
Qed.

Lemma radian_degrees_inverse : forall a,
  (0 < a -> degrees (radian a) = a /\ radian (degrees a) = a) /\
  (a <= 0 -> degrees (radian a) = a + 360 /\ radian (degrees a) = a + 2 * PI) /\
  cos (radian (degrees a)) = cos a /\ sin (radian (degrees a)) = sin a.
Proof.
  intros a. pose proof PI_RGT_0.
  assert (P1 : 0 < a -> degrees (radian a) = a /\ radian (degrees a) = a).
  { intros Ha. unfold radian, degrees. rewrite !Rltb_true.
    - split; field; lra.
    - exact Ha.
    - apply Rdiv_lt_0_compat; [apply Rmult_lt_0_compat; lra|lra]. }
  assert (P2 : a <= 0 -> degrees (radian a) = a + 360 /\ radian (degrees a) = a + 2 * PI).
  { intros Ha. unfold radian, degrees. rewrite !Rltb_false.
    - split; field; lra.
    - exact Ha.
    - assert (0 <= - a * PI / 180). { apply Rmult_le_pos; [apply Rmult_le_pos; lra|lra]. } lra. }
  split; [exact P1|]. split; [exact P2|].
  destruct (Rlt_le_dec 0 a) as [Ha|Ha].
  - destruct (P1 Ha) as [_ ->]. split; reflexivity.
  - destruct (P2 Ha) as [_ ->]. split; [rewrite <- (cos_period a 1)|rewrite <- (sin_period a 1)]; f_equal; cbn; ring.
Qed.

Lemma cartesianAngle_correct : forall p1 p2 : Pt, xy p1 <> xy p2 ->
  let a := cartesianAngle p1 p2 in
  0 < a <= 360 /\
  dist (xy p1) (xy p2) * cos (radian a) = px p2 - px p1 /\
  dist (xy p1) (xy p2) * sin (radian a) = py p2 - py p1 /\
  (a = 360 <-> py p2 = py p1 /\ px p1 < px p2).
Proof.
  intros p1 p2 Hne a. set (x := px p2 - px p1). set (y := py p2 - py p1).
  assert (Hxy : (x, y) <> (0, 0)).
  { intros E. injection E as E1 E2. apply Hne. unfold xy, x, y in *. f_equal; lra. }
  destruct (atan2_polar x y Hxy) as (HB & HC & HS).
  assert (HD : dist (xy p1) (xy p2) = sqrt (x * x + y * y)).
  { unfold dist, xy, x, y; cbn [fst snd]. f_equal. ring. }
  assert (Ha : a = degrees (atan2 y x)) by reflexivity.
  destruct (radian_degrees_inverse (atan2 y x)) as (_ & _ & E1 & E2). rewrite Ha, HD, E1, E2.
  pose proof PI_RGT_0 as HPI. split; [|split; [exact HC|split; [exact HS|]]].
  - unfold degrees. assert (G : forall t, 0 < t <= 2 * PI -> 0 < t * 180 / PI <= 360).
    { intros t Ht. split; [apply Rdiv_lt_0_compat; lra|]. apply Rmult_le_reg_r with PI; [exact HPI|].
      unfold Rdiv. rewrite Rmult_assoc, Rinv_l by lra. lra. }
    destruct (Rltb_spec 0 (atan2 y x)); apply G; lra.
  - assert (T0 : degrees (atan2 y x) = 360 <-> atan2 y x = 0).
    { unfold degrees. destruct (Rltb_spec 0 (atan2 y x)) as [Ht|Ht].
      - split; intros E; [|lra]. exfalso. assert (atan2 y x * 180 = 360 * PI) by (rewrite <- E; field; lra). lra.
      - split; intros E; [|rewrite E; field; lra]. assert ((2 * PI + atan2 y x) * 180 = 360 * PI) by (rewrite <- E; field; lra). lra. }
    rewrite T0. split.
    + intros E. rewrite E, cos_0 in HC. rewrite E, sin_0 in HS. unfold x, y in *.
      assert (0 < sqrt (x * x + y * y)).
      { apply sqrt_lt_R0. unfold x, y. destruct (Req_dec x 0) as [Hx|Hx].
        - exfalso. apply Hxy. unfold x, y in *. f_equal; lra.
        - unfold x in Hx. assert (0 < (px p2 - px p1) * (px p2 - px p1)) by nra. nra. }
      unfold x, y in *. split; lra.
    + intros [Ey Ex]. unfold atan2. rewrite Rltb_true by (unfold x; lra). replace (y / x) with 0; [apply atan_0|].
      unfold y. rewrite Ey. unfold Rdiv. rewrite Rminus_diag_eq by reflexivity. ring.
Qed.

Lemma angle_ctor_correct : forall a : R, Rabs a < 360 * 2147483648 ->
  exists b, angle_ctor a = Ok b /\ (exists k : Z, a = b + 180 * IZR k) /\
    (0 <= a -> 0 <= b < 180) /\
    (a < 0 -> (forall k : Z, a <> 360 * IZR k) -> -540 < b < -180) /\
    (forall k : Z, a = 360 * IZR k -> b = 0).
Proof.
  intros a HR. unfold angle_ctor, to_int. cbn [ntrunc RNum].
  set (k := Rtrunc (a / 360)).
  assert (Hk : (a >= 0 -> 0 <= a - 360 * IZR k < 360) /\ (a <= 0 -> -360 < a - 360 * IZR k <= 0) /\ in_int k = true).
  { unfold in_int, int_min, int_max. destruct (Rle_lt_dec 0 a) as [Ha|Ha].
    - destruct (Rtrunc_pos (a / 360)) as [[K1 K2] K3]; [apply Rmult_le_pos; lra|]. fold k in K1, K2, K3.
      split; [intros; lra|]. split; [intros; assert (a = 0) by lra; subst a|].
      + assert (EK : k = 0%Z).
        { unfold k. replace (0 / 360) with (IZR 0) by field. apply Rtrunc_IZR. }
        rewrite EK. lra.
      + rewrite Rabs_right in HR by lra. assert (A : IZR k < IZR 2147483648) by lra. apply lt_IZR in A.
        apply andb_true_iff; split; apply Z.leb_le; lia.
    - destruct (Rtrunc_neg (a / 360)) as [[K1 K2] K3]; [lra|]. fold k in K1, K2, K3.
      split; [intros; lra|]. split; [intros; lra|].
      rewrite Rabs_left in HR by lra. assert (A : IZR (-2147483649) < IZR k) by lra. apply lt_IZR in A.
      apply andb_true_iff; split; apply Z.leb_le; lia. }
  destruct Hk as (Hp & Hn & ->). cbn [bind]. set (a' := a - 360 * IZR k) in *.
  eexists. split; [reflexivity|].
  assert (HM : forall j : Z, a = 360 * IZR j -> a' = 0).
  { intros j Ej. assert (EK : k = j). { unfold k. rewrite Ej. replace (360 * IZR j / 360) with (IZR j) by field. apply Rtrunc_IZR. }
    unfold a'. rewrite EK, Ej. ring. }
  split; [|split; [|split]].
  - destruct (Rleb 0 a' && Rltb a' 180)%bool; [exists (2 * k)%Z|exists (2 * k + 1)%Z]; unfold a'; rewrite ?plus_IZR, !mult_IZR; ring.
  - intros Ha. specialize (Hp ltac:(lra)). destruct (Rleb_spec 0 a'), (Rltb_spec a' 180); cbn; lra.
  - intros Ha Hm. specialize (Hn ltac:(lra)).
    assert (a' <> 0). { intros E. apply (Hm k). unfold a' in E. lra. }
    destruct (Rleb_spec 0 a'); cbn; lra.
  - intros j Ej. rewrite (HM j Ej). rewrite Rleb_true, Rltb_true by lra. reflexivity.
Qed.

Lemma angle_ctor_overflow : forall a : R, 360 * 2147483649 <= Rabs a -> exists m, angle_ctor a = Err (UB m).
Proof.
  intros a HR. unfold angle_ctor, to_int. cbn [ntrunc RNum]. set (k := Rtrunc (a / 360)).
  assert (E : in_int k = false).
  { unfold in_int, int_min, int_max. apply andb_false_iff. destruct (Rle_lt_dec 0 a) as [Ha|Ha].
    - right. apply Z.leb_gt. rewrite Rabs_right in HR by lra. destruct (Rtrunc_pos (a / 360)) as [[K1 K2] _]; [lra|]. fold k in K1, K2.
      assert (A : IZR 2147483648 < IZR k) by lra. apply lt_IZR in A. lia.
    - left. apply Z.leb_gt. rewrite Rabs_left in HR by lra. destruct (Rtrunc_neg (a / 360)) as [[K1 K2] _]; [lra|]. fold k in K1, K2.
      assert (A : IZR k < IZR (-2147483648)) by lra. apply lt_IZR in A. lia. }
  rewrite E. cbn. eauto.
Qed.

(** * C59 *)
Lemma circle_point_dist c r a : dist (xy c) (xy (circle_point c r a)) = Rabs r.
Proof.
  unfold dist, xy, circle_point; cbn [fst snd px py mkP].
  rewrite <- sqrt_Rsqr_abs. f_equal. unfold Rsqr.
  replace ((px c - (px c + r * cos (radian a))) * (px c - (px c + r * cos (radian a))) + (py c - (py c + r * sin (radian a))) * (py c - (py c + r * sin (radian a))))
    with (r * r * ((sin (radian a))² + (cos (radian a))²)) by (unfold Rsqr; ring).
  rewrite sin2_cos2. ring.
Qed.

Lemma arc_points_correct : forall (cf : config RNum) (c : Pt) r a0 a1, (0 < cf_grade cf)%Z ->
  exists ps, generateArcPoints cf c r a0 a1 = Ok ps /\ zlen ps = (cf_grade cf + 1)%Z /\
    (forall q, In q ps -> dist (xy c) (xy q) = Rabs r) /\
    (forall i q, nth_error ps i = Some q -> xy q = at_angle (xy c) r (a0 + INR i * (a1 - a0) / IZR (cf_grade cf))) /\
    (exists q, nth_error ps 0 = Some q /\ xy q = at_angle (xy c) r a0) /\
    (exists q, nth_error ps (Z.to_nat (cf_grade cf)) = Some q /\ xy q = at_angle (xy c) r a1).
Proof.
  intros cf c r a0 a1 Hg. unfold generateArcPoints. set (g := cf_grade cf) in *.
  replace (g <? 0)%Z with false by (symmetry; apply Z.ltb_ge; lia). unfold divr. rnum.
  assert (Hg0 : IZR g <> 0) by (apply not_0_IZR; lia). rewrite Reqb_false by exact Hg0. cbn [bind].
  set (f := fun i => circle_point c r (a0 + (a1 - a0) / IZR g * INR i)).
  assert (HN : forall i q, nth_error (map f (seq 0 (S (Z.to_nat g)))) i = Some q -> xy q = at_angle (xy c) r (a0 + INR i * (a1 - a0) / IZR g)).
  { intros i q Hi. apply nth_error_nth with (d := f 0%nat) in Hi as Hq. assert (Hlt : (i < S (Z.to_nat g))%nat).
    { rewrite <- (seq_length (S (Z.to_nat g)) 0), <- (map_length f). apply nth_error_Some. congruence. }
    rewrite map_nth, seq_nth in Hq by exact Hlt. subst q. unfold f, xy, circle_point, at_angle, radian; cbn [fst snd px py mkP plus].
    f_equal; f_equal; f_equal; f_equal; field; exact Hg0. }
  assert (HX : forall i, (i < S (Z.to_nat g))%nat -> nth_error (map f (seq 0 (S (Z.to_nat g)))) i = Some (f i)).
  { intros i Hi. rewrite (nth_error_nth' _ (f 0%nat)) by (rewrite map_length, seq_length; exact Hi).
    rewrite map_nth, seq_nth by exact Hi. reflexivity. }
  eexists. split; [reflexivity|]. split; [unfold zlen; rewrite map_length, seq_length; lia|].
  split; [|split; [exact HN|split]].
  - intros q Hq. apply in_map_iff in Hq as (i & <- & _). apply circle_point_dist.
  - exists (f 0%nat). split; [apply HX; lia|]. rewrite (HN _ _ (HX 0%nat ltac:(lia))). f_equal. cbn. field. exact Hg0.
  - exists (f (Z.to_nat g)). split; [apply HX; lia|]. rewrite (HN _ _ (HX (Z.to_nat g) ltac:(lia))). f_equal.
    rewrite INR_IZR_INZ, Z2Nat.id by lia. field. exact Hg0.
Qed.

(** * C43 *)
Lemma circle_angles_pos d : (0 < d)%Z -> forall n a, (a + d * (Z.of_nat n - 1) < 360)%Z -> (360 <= a + d * Z.of_nat n)%Z ->
  forall fuel, (n < fuel)%nat -> circle_angles fuel d a = Ok (map (fun i => (a + d * Z.of_nat i)%Z) (seq 0 n)).
Proof.
  intros Hd. induction n as [|n IH]; intros a H1 H2 fuel Hf; (destruct fuel as [|fuel]; [lia|]); cbn [circle_angles].
  - replace (a <? 360)%Z with false by (symmetry; apply Z.ltb_ge; lia). reflexivity.
  - replace (a <? 360)%Z with true by (symmetry; apply Z.ltb_lt; nia).
    rewrite (IH (a + d)%Z) by (lia || nia). cbn [bind seq map]. f_equal. f_equal; [lia|].
    rewrite <- seq_shift, map_map. apply map_ext. intros i. lia.
Qed.
Lemma circle_angles_hang d : (d <= 0)%Z -> forall fuel a, (a < 360)%Z -> circle_angles fuel d a = Err Fuel.
Proof.
  intros Hd. induction fuel as [|fuel IH]; intros a Ha; [reflexivity|]. cbn [circle_angles].
  replace (a <? 360)%Z with true by (symmetry; apply Z.ltb_lt; lia). rewrite IH by lia. reflexivity.
Qed.

Lemma discretizeCircle_correct : forall (cf : config RNum) (c : Pt) r,
  let g := cf_grade cf in let d := (360 / g)%Z in
  (1 <= g <= 360 -> exists ps, (forall fuel, (361 <= fuel)%nat -> discretizeCircle fuel cf c r = Ok ps) /\
     zlen ps = ((360 + d - 1) / d)%Z /\ (zlen ps = g <-> (g | 360)) /\ (g <= zlen ps) /\
     (forall q, In q ps -> dist (xy c) (xy q) = Rabs r) /\
     (forall i q, nth_error ps i = Some q -> xy q = at_angle (xy c) r (IZR (d * Z.of_nat i))))%Z /\
  ((g < 0 \/ 360 < g)%Z -> forall fuel, discretizeCircle fuel cf c r = Err Fuel) /\
  ((g = 0)%Z -> forall fuel, discretizeCircle fuel cf c r = Err (UB "integer division by zero")).
Proof.
  intros cf c r g d. split; [|split].
  - intros Hg. assert (Hd : (1 <= d <= 360)%Z).
    { unfold d. split; [apply Z.div_le_lower_bound; lia|]. apply Z.div_le_upper_bound; nia. }
    set (n := ((360 + d - 1) / d)%Z).
    assert (Hn : (d * (n - 1) < 360 /\ 360 <= d * n)%Z).
    { unfold n. pose proof (Z.div_mod (360 + d - 1) d ltac:(lia)). pose proof (Z.mod_pos_bound (360 + d - 1) d ltac:(lia)). nia. }
    assert (Hn1 : (1 <= n <= 360)%Z) by nia.
    assert (HA : forall fuel, (361 <= fuel)%nat -> circle_angles fuel d 0 = Ok (map (fun i => (0 + d * Z.of_nat i)%Z) (seq 0 (Z.to_nat n)))).
    { intros fuel Hf. apply circle_angles_pos; lia. }
    exists (map (fun a => circle_point c r (IZR a)) (map (fun i => (0 + d * Z.of_nat i)%Z) (seq 0 (Z.to_nat n)))).
    split; [|split; [|split; [|split; [|split]]]].
    + intros fuel Hf. unfold discretizeCircle. fold g. replace (g =? 0)%Z with false by (symmetry; apply Z.eqb_neq; lia).
      rewrite Z.quot_div_nonneg by lia. fold d. rewrite HA by exact Hf. reflexivity.
    + unfold zlen. rewrite !map_length, seq_length. lia.
    + unfold zlen. rewrite !map_length, seq_length, Z2Nat.id by lia.
      pose proof (Z.div_mod 360 g ltac:(lia)) as DM. fold d in DM. pose proof (Z.mod_pos_bound 360 g ltac:(lia)) as MB.
      rewrite <- Z.mod_divide by lia. split; intros E; nia.
    + unfold zlen. rewrite !map_length, seq_length, Z2Nat.id by lia.
      pose proof (Z.div_mod 360 g ltac:(lia)) as DM. fold d in DM. pose proof (Z.mod_pos_bound 360 g ltac:(lia)) as MB. nia.
    + intros q Hq. apply in_map_iff in Hq as (a & <- & _). apply circle_point_dist.
    + intros i q Hi. rewrite map_map in Hi. set (f := fun i => circle_point c r (IZR (0 + d * Z.of_nat i))) in Hi.
      apply nth_error_nth with (d := f 0%nat) in Hi as Hq. assert (Hlt : (i < Z.to_nat n)%nat).
      { rewrite <- (seq_length (Z.to_nat n) 0), <- (map_length f). apply nth_error_Some. congruence. }
      rewrite map_nth, seq_nth in Hq by exact Hlt. subst q. reflexivity.
  - intros Hg fuel. unfold discretizeCircle. fold g. replace (g =? 0)%Z with false by (symmetry; apply Z.eqb_neq; lia).
    rewrite circle_angles_hang; [reflexivity| |lia].
    destruct Hg as [Hg|Hg].
    + pose proof (Z.quot_opp_r 360 (- g) ltac:(lia)) as Q. rewrite Z.opp_involutive in Q. rewrite Q.
      pose proof (Z.quot_pos 360 (- g) ltac:(lia) ltac:(lia)). lia.
    + rewrite Z.quot_small by lia. lia.
  - intros Hg fuel. unfold discretizeCircle. fold g. rewrite Hg. reflexivity.
Qed.

(** the order of angles *)
Lemma angle_ltb_iff (tol a b : R) : 0 < tol -> angle_ltb tol a b = true <-> tol <= b - a.
Proof.
  intros H. unfold angle_ltb. destruct (Rltb (Rabs (a - b)) tol) eqn:E.
  - apply Rltb_iff in E. apply Rabs_def2 in E. split; [discriminate|lra].
  - rewrite Rltb_iff. assert (K : tol <= Rabs (a - b)) by (apply Rnot_lt_le; intros L; apply Rltb_iff in L; congruence).
    unfold Rabs in K. destruct Rcase_abs in K; lra.
Qed.
Lemma angle_incomparable : exists tol a b c : R, 0 < tol /\
  angle_ltb tol a b = false /\ angle_ltb tol b a = false /\ angle_ltb tol b c = false /\ angle_ltb tol c b = false /\ angle_ltb tol a c = true.
Proof.
  exists 1, 0, (3 / 4), (3 / 2).
  assert (F : forall x y : R, ~ 1 <= y - x -> angle_ltb 1 x y = false).
  { intros x y K. destruct (angle_ltb 1 x y) eqn:E; [|reflexivity]. apply angle_ltb_iff in E; [contradiction|lra]. }
  split; [lra|]. repeat (split; [apply F; lra|]). apply angle_ltb_iff; lra.
Qed.
