(** Boxes, lengths, middle points, segment tests and regions on doubles. *)
From Coq Require Import Reals Lra Psatz ZArith SpecFloat List Bool.
From Flocq Require Import Core.
From Flocq Require BinarySingleNaN.
From Verif Require Import Base Spec MUtil MGeom MHull MPolygon MMaps MTriangle MGen MRegion MMore Bridge BridgeNum Bridge64.
From Verif Require Import PUtil PPoint PSegment PPoly PPoly2 PContains PRegion PBorder PMore PFloat PGrid PGrid2 PGrid3 PGrid4 PGrid5 PGrid6.
Import ListNotations.
Local Open Scope Z_scope.
Notation PF := (Point F64).
Notation rp := real_point.

(** * Boxes *)
Lemma big64 : fin (@nZ F64 9223372036854775808) /\ val (@nZ F64 9223372036854775808) = 9223372036854775808%R /\
  fin (@nZ F64 (-9223372036854775808)) /\ val (@nZ F64 (-9223372036854775808)) = (-9223372036854775808)%R.
Proof.
  assert (E : @nZ F64 9223372036854775808 = S754_finite false 4503599627370496 11) by (vm_compute; reflexivity).
  assert (E' : @nZ F64 (-9223372036854775808) = S754_finite true 4503599627370496 11) by (vm_compute; reflexivity).
  rewrite E, E'. repeat split; unfold val, BinarySingleNaN.SF2R, F2R, bpow; cbn -[IZR Rmult]; lra.
Qed.

Definition rbox (b : bbox F64) : bbox RNum := mkBox (N := RNum) (rp (bb1 b)) (rp (bb2 b)).
Definition bfin (b : bbox F64) : Prop := finite_point (bb1 b) /\ finite_point (bb2 b).
Lemma nmin_val x y : fin x -> fin y -> fin (nmin (N := F64) x y) /\ val (nmin (N := F64) x y) = Rmin (val x) (val y).
Proof.
  intros X Y. unfold nmin. rewrite ltb_correct by assumption. unfold Rmin.
  destruct (Rltb_spec (val y) (val x)); destruct (Rle_dec (val x) (val y)); split; try assumption; lra.
Qed.
Lemma nmax_val x y : fin x -> fin y -> fin (nmax (N := F64) x y) /\ val (nmax (N := F64) x y) = Rmax (val x) (val y).
Proof.
  intros X Y. unfold nmax. rewrite ltb_correct by assumption. unfold Rmax.
  destruct (Rltb_spec (val x) (val y)); destruct (Rle_dec (val x) (val y)); split; try assumption; lra.
Qed.
Lemma rnd_opp x : rnd (- x) = (- rnd x)%R.
Proof. apply round_NE_opp. Qed.
Lemma diff_val x y : fin x -> fin y -> (Rabs (val x) <= bpow radix2 1000)%R -> (Rabs (val y) <= bpow radix2 1000)%R ->
  fin (@nabs F64 (@nsub F64 x y)) /\ val (@nabs F64 (@nsub F64 x y)) = nearest (Rmax (val x) (val y) - Rmin (val x) (val y)).
Proof.
  intros X Y BX BY. destruct (sub_correct x y X Y) as [F V].
  - apply Rle_lt_trans with (bpow radix2 1001); [|apply bpow_lt; lia].
    assert (K : (Rabs (val x - val y) <= bpow radix2 1001)%R).
    { apply Rabs_le_inv in BX, BY. replace 1001 with (1 + 1000) by lia. rewrite bpow_plus. change (bpow radix2 1) with 2%R. apply Rabs_le. lra. }
    apply Rabs_le_inv in K. apply Rabs_le.
    assert (P : rnd (bpow radix2 1001) = bpow radix2 1001).
    { assert (E : bpow radix2 1001 = (IZR 2147483648 * bpow radix2 970)%R) by (change (IZR 2147483648) with (bpow radix2 31); rewrite <- bpow_plus; reflexivity).
      rewrite E. apply rnd_scaled; [cbn; lia|unfold okexp; lia]. }
    destruct K as [K1 K2]. apply rnd_le in K1, K2. rewrite rnd_opp, P in K1. rewrite P in K2. split; assumption.
  - destruct (abs_correct _ F) as [F' V']. split; [exact F'|]. rewrite V', V; change nearest with rnd.
    unfold Rmax, Rmin. destruct (Rle_dec (val x) (val y)) as [L|L].
    + replace (val x - val y)%R with (- (val y - val x))%R by ring. rewrite rnd_opp, Rabs_Ropp. apply Rabs_pos_eq. rewrite <- rnd_0. apply rnd_le. lra.
    + apply Rabs_pos_eq. rewrite <- rnd_0. apply rnd_le. lra.
Qed.
Lemma bbox_doubles (b : bbox F64) : bounded_point (bb1 b) -> bounded_point (bb2 b) ->
  let x0 := Rmin (val (px (bb1 b))) (val (px (bb2 b))) in let x1 := Rmax (val (px (bb1 b))) (val (px (bb2 b))) in
  let y0 := Rmin (val (py (bb1 b))) (val (py (bb2 b))) in let y1 := Rmax (val (py (bb1 b))) (val (py (bb2 b))) in
  (val (bb_xMin b) = x0 /\ val (bb_xMax b) = x1 /\ val (bb_yMin b) = y0 /\ val (bb_yMax b) = y1) /\
  (fin (bb_width b) /\ val (bb_width b) = nearest (x1 - x0) /\ fin (bb_height b) /\ val (bb_height b) = nearest (y1 - y0)) /\
  (forall q, finite_point q -> bb_contains b q = true <-> (x0 <= val (px q) <= x1 /\ y0 <= val (py q) <= y1)%R).
Proof.
  intros ((X1 & Y1) & BX1 & BY1) ((X2 & Y2) & BX2 & BY2). cbn zeta.
  destruct (nmin_val _ _ X1 X2) as [F1 V1]. destruct (nmax_val _ _ X1 X2) as [F2 V2].
  destruct (nmin_val _ _ Y1 Y2) as [F3 V3]. destruct (nmax_val _ _ Y1 Y2) as [F4 V4].
  split; [auto|]. split.
  - destruct (diff_val _ _ X1 X2 BX1 BX2) as [A1 A2]. destruct (diff_val _ _ Y1 Y2 BY1 BY2) as [B1 B2]. auto.
  - intros q [Qx Qy]. unfold bb_contains, bb_xMin, bb_xMax, bb_yMin, bb_yMax. rewrite !andb_true_iff.
    rewrite !leb_correct by assumption. rewrite V1, V2, V3, V4. unfold Rleb.
    repeat match goal with |- context [Rle_dec ?a ?b] => destruct (Rle_dec a b) end; split; intros; try (repeat split; (reflexivity || assumption)); try tauto; destruct H as [[[? ?] ?] ?]; discriminate.
Qed.
Lemma box_fold_rel (l : list PF) x0 x1 y0 y1 : Forall finite_point l -> fin x0 -> fin x1 -> fin y0 -> fin y1 ->
  let '(a, b, c, d) := fold_left (fun '(x0, x1, y0, y1) (v : PF) =>
        (if nltb (n := F64) (px v) x0 then px v else x0, if nltb (n := F64) x1 (px v) then px v else x1,
         if nltb (n := F64) (py v) y0 then py v else y0, if nltb (n := F64) y1 (py v) then py v else y1)) l (x0, x1, y0, y1) in
  (fin a /\ fin b /\ fin c /\ fin d) /\
  fold_left (fun '(x0, x1, y0, y1) (v : Point RNum) =>
        (if Rltb (px v) x0 then px v else x0, if Rltb x1 (px v) then px v else x1,
         if Rltb (py v) y0 then py v else y0, if Rltb y1 (py v) then py v else y1)) (map rp l) (val x0, val x1, val y0, val y1) = (val a, val b, val c, val d).
Proof.
  intros G. revert x0 x1 y0 y1. induction G as [|v l [Vx Vy] G IH]; intros x0 x1 y0 y1 A B C D; [cbn; auto|].
  cbn [fold_left map]. rewrite !ltb_correct by assumption. cbn [real_point px py].
  specialize (IH (if Rltb (val (px v)) (val x0) then px v else x0) (if Rltb (val x1) (val (px v)) then px v else x1)
    (if Rltb (val (py v)) (val y0) then py v else y0) (if Rltb (val y1) (val (py v)) then py v else y1)).
  destruct (fold_left _ l _) as [[[a b] c] d]. destruct IH as [IH1 IH2]; try (destruct (Rltb _ _); assumption). split; [exact IH1|].
  etransitivity; [|exact IH2]. repeat match goal with |- context [Rltb (val ?u) (val ?w)] => destruct (Rltb (val u) (val w)) end; reflexivity.
Qed.

Definition flat_region (l : list (Point RNum)) : region RNum := mkRegion (N := RNum) (mkPoly (N := RNum) [] (nZ (-1)) (nZ (-1)) point0 0) l [] [].
Lemma getBox_rel (r : region F64) : Forall finite_point (rg_p r) ->
  bfin (getBox (N := F64) r) /\ rbox (getBox (N := F64) r) = getBox (N := RNum) (flat_region (map rp (rg_p r))).
Proof.
  intros G. destruct big64 as (F1 & V1 & F2 & V2). pose proof (box_fold_rel (rg_p r) _ _ _ _ G F1 F2 F1 F2) as K. rewrite V1, V2 in K.
  unfold getBox. cbn [rg_p flat_region]. destruct (fold_left _ (rg_p r) _) as [[[a b] c] d] eqn:E.
  match type of K with context [fold_left ?f (map rp (rg_p r)) ?i] => destruct K as [(A & B & C & D) K] end.
  split; [unfold bfin, finite_point; cbn [bb1 bb2 mkP px py]; auto|]. unfold rbox, real_point, mkP; cbn [bb1 bb2 px py pbd pempty].
  match type of K with ?L = _ => transitivity (let '(x0, x1, y0, y1) := L in mkBox (N := RNum) (mkP (N := RNum) x0 y0) (mkP (N := RNum) x1 y1)); [rewrite K; reflexivity|reflexivity] end.
Qed.
Lemma rbox_ends (b : bbox F64) : bfin b ->
  val (bb_xMin b) = bb_xMin (rbox b) /\ val (bb_xMax b) = bb_xMax (rbox b) /\ val (bb_yMin b) = bb_yMin (rbox b) /\ val (bb_yMax b) = bb_yMax (rbox b) /\
  fin (bb_xMin b) /\ fin (bb_xMax b) /\ fin (bb_yMin b) /\ fin (bb_yMax b).
Proof.
  intros [[A B] [C D]]. unfold bb_xMin, bb_xMax, bb_yMin, bb_yMax, nmin, nmax, rbox; cbn [bb1 bb2 real_point px py].
  rewrite !ltb_correct by assumption. change (@nltb RNum) with Rltb.
  repeat match goal with |- context [Rltb (val ?u) (val ?w)] => destruct (Rltb (val u) (val w)) end; auto 10.
Qed.
Lemma getBox_doubles (r : region F64) : Forall finite_point (rg_p r) ->
  let b := getBox (N := F64) r in
  (fin (bb_xMin b) /\ fin (bb_xMax b) /\ fin (bb_yMin b) /\ fin (bb_yMax b)) /\
  (forall v, In v (rg_p r) -> val (bb_xMin b) <= val (px v) <= val (bb_xMax b) /\ val (bb_yMin b) <= val (py v) <= val (bb_yMax b))%R /\
  (rg_p r <> [] -> (forall v, In v (rg_p r) -> - Bridge.big <= val (px v) <= Bridge.big /\ - Bridge.big <= val (py v) <= Bridge.big)%R ->
   (exists v, In v (rg_p r) /\ val (px v) = val (bb_xMin b)) /\ (exists v, In v (rg_p r) /\ val (px v) = val (bb_xMax b)) /\
   (exists v, In v (rg_p r) /\ val (py v) = val (bb_yMin b)) /\ (exists v, In v (rg_p r) /\ val (py v) = val (bb_yMax b))) /\
  (rg_p r <> [] -> (forall v, In v (rg_p r) -> (Bridge.big < val (px v))%R) -> val (bb_xMin b) = Bridge.big).
Proof.
  intros G b. destruct (getBox_rel r G) as [F E]. fold b in F, E. destruct (rbox_ends b F) as (E1 & E2 & E3 & E4 & F'). rewrite E1, E2, E3, E4, E.
  split; [exact F'|]. pose proof (getBox_correct (flat_region (map rp (rg_p r)))) as (H1 & H2 & H3). cbn [rg_p flat_region] in H1, H2, H3.
  set (B := getBox (N := RNum) _) in *. clearbody B. clear E E1 E2 E3 E4 F F' b G.
  assert (NE : rg_p r <> [] -> map rp (rg_p r) <> []) by (destruct (rg_p r); [congruence|discriminate]).
  split; [|split].
  - intros v Hv. exact (H1 (rp v) (in_map rp _ _ Hv)).
  - intros N K. destruct (H2 (NE N)) as (K1 & K2 & K3 & K4).
    + intros v Hv. apply in_map_iff in Hv as (w & <- & Hw). exact (K w Hw).
    + repeat split.
      * destruct K1 as (v & Hv & K1). apply in_map_iff in Hv as (w & <- & Hw). exists w. auto.
      * destruct K2 as (v & Hv & K1'). apply in_map_iff in Hv as (w & <- & Hw). exists w. auto.
      * destruct K3 as (v & Hv & K1'). apply in_map_iff in Hv as (w & <- & Hw). exists w. auto.
      * destruct K4 as (v & Hv & K1'). apply in_map_iff in Hv as (w & <- & Hw). exists w. auto.
  - intros N K. apply H3; [exact (NE N)|]. intros v Hv. apply in_map_iff in Hv as (w & <- & Hw). exact (K w Hw).
Qed.

Lemma pt_dec (a b : PF) : xyv a = xyv b \/ xyv a <> xyv b.
Proof.
  unfold xyv. destruct (Req_dec (val (px a)) (val (px b))) as [E|E]; [|right; congruence]. destruct (Req_dec (val (py a)) (val (py b))) as [E'|E']; [left; congruence|right; congruence].
Qed.

Section Grid.
  Variable e : Z.
  Hypothesis He : -200 <= e <= 200.
  Notation gp := (grid_point e).
  Ltac ex := unfold okexp in *; lia.

  (** * Lengths and middle points *)
  Lemma length_grid (a b : PF) : gp a -> gp b -> fin (seg_length (N := F64) a b) /\ val (seg_length (N := F64) a b) = rnd (dist (xyv a) (xyv b)).
  Proof. intros A B. destruct (norm_grid e He a b A B) as [F V]. exact (conj F V). Qed.
  Lemma coord_apart x y : grid e (2 ^ 20) x -> grid e (2 ^ 20) y -> val x <> val y -> (bpow radix2 e <= Rabs (val x - val y))%R.
  Proof.
    intros [_ (k & _ & V)] [_ (l & _ & W)] N. rewrite V, W in *. replace (IZR k * bpow radix2 e - IZR l * bpow radix2 e)%R with (IZR (k - l) * bpow radix2 e)%R by (rewrite minus_IZR; ring).
    rewrite Rabs_mult, (Rabs_pos_eq (bpow radix2 e)), <- abs_IZR by apply bpow_ge_0.
    rewrite <- (Rmult_1_l (bpow radix2 e)) at 1. apply Rmult_le_compat_r; [apply bpow_ge_0|]. apply IZR_le.
    destruct (Z.eq_dec k l) as [->|]; [congruence|lia].
  Qed.
  Lemma dist_apart (a b : PF) : gp a -> gp b -> xyv a <> xyv b -> (bpow radix2 e <= dist (xyv a) (xyv b))%R.
  Proof.
    intros [Ax Ay] [Bx By] N. unfold dist, xyv in *; cbn [fst snd] in *.
    destruct (Req_dec (val (px a)) (val (px b))) as [E|E].
    - assert (E' : val (py a) <> val (py b)) by (intros E'; apply N; rewrite E, E'; reflexivity).
      pose proof (coord_apart _ _ Ay By E') as K. apply Rle_trans with (1 := K). rewrite <- sqrt_Rsqr_abs. apply sqrt_le_1_alt. unfold Rsqr. pose proof (Rle_0_sqr (val (px a) - val (px b))) as Q1. pose proof (Rle_0_sqr (val (py a) - val (py b))) as Q2. unfold Rsqr in Q1, Q2. lra.
    - pose proof (coord_apart _ _ Ax Bx E) as K. apply Rle_trans with (1 := K). rewrite <- sqrt_Rsqr_abs. apply sqrt_le_1_alt. unfold Rsqr. pose proof (Rle_0_sqr (val (px a) - val (px b))) as Q1. pose proof (Rle_0_sqr (val (py a) - val (py b))) as Q2. unfold Rsqr in Q1, Q2. lra.
  Qed.
  Lemma length_doubles (a b c d : PF) : gp a -> gp b -> gp c -> gp d ->
    fin (seg_length (N := F64) a b) /\ val (seg_length (N := F64) a b) = nearest (dist (xyv a) (xyv b)) /\
    val (seg_length (N := F64) a b) = val (seg_length (N := F64) b a) /\ (val (seg_length (N := F64) a b) = 0%R <-> xyv a = xyv b) /\
    ((dist (xyv a) (xyv b) <= dist (xyv c) (xyv d))%R -> nltb (n := F64) (seg_length (N := F64) c d) (seg_length (N := F64) a b) = false).
  Proof.
    intros A B C D. destruct (length_grid a b A B) as [F V]. destruct (length_grid b a B A) as [F' V']. destruct (length_grid c d C D) as [F2 V2].
    split; [exact F|]. split; [rewrite nearest_rnd; exact V|].
    split; [rewrite V, V'; f_equal; unfold dist; f_equal; ring|]. split.
    - rewrite V. split.
      + intros K. destruct (pt_dec a b) as [|N]; [assumption|exfalso]. pose proof (dist_apart a b A B N) as L. apply rnd_le in L.
        rewrite <- (Rmult_1_l (bpow radix2 e)) in L. rewrite rnd_scaled in L by (cbn; lia || ex). rewrite Rmult_1_l, K in L. pose proof (bpow_gt_0 radix2 e). lra.
      + intros ->. replace (dist (xyv b) (xyv b)) with 0%R; [apply rnd_0|]. unfold dist. rewrite <- sqrt_0. f_equal. ring.
    - intros L. rewrite ltb_correct by assumption. rewrite V, V2. destruct (Rltb_spec (rnd (dist (xyv c) (xyv d))) (rnd (dist (xyv a) (xyv b)))) as [H|]; [|reflexivity].
      apply rnd_le in L. lra.
  Qed.
  Lemma middle_doubles (p : list PF) (s : iseg) a b : vget p (fst s) = Ok a -> vget p (snd s) = Ok b -> gp a -> gp b ->
    exists m, iseg_middle (N := F64) p s = Ok m /\ finite_point m /\ is_middle (xyv a) (xyv b) (xyv m) /\
      exists d, iseg_length (N := F64) p s = Ok d /\ fin d /\ val d = nearest (dist (xyv a) (xyv b)).
  Proof.
    intros E1 E2 A B. unfold iseg_middle, iseg_length. rewrite E1, E2. cbn [bind]. eexists. split; [reflexivity|].
    destruct A as [Ax Ay], B as [Bx By]. destruct (add_coord e He _ _ Ax Bx) as [G1 V1]. destruct (add_coord e He _ _ Ay By) as [G2 V2].
    destruct (grid_half _ _ _ G1) as [H1 W1]; [lia|ex|]. destruct (grid_half _ _ _ G2) as [H2 W2]; [lia|ex|].
    split; [split; eapply grid_fin; eassumption|]. split.
    - unfold is_middle, xyv, mkP; cbn [px py fst snd]. rewrite W1, W2, V1, V2. split; field.
    - eexists. split; [reflexivity|]. rewrite nearest_rnd. apply length_grid; split; assumption.
  Qed.
  (** * The longest edge *)
  Lemma maxDistance_doubles (p : list PF) idx vs : vertices_are p idx vs -> Forall gp vs -> idx <> [] ->
    exists m M, getMaxDistance (N := F64) idx p = Ok m /\ fin m /\ val m = nearest M /\
      (forall a b, In (a, b) (edges_of (map xyv vs)) -> (dist a b <= M)%R) /\ (exists a b, In (a, b) (edges_of (map xyv vs)) /\ M = dist a b).
  Proof.
    intros V G N. pose proof (on_grid_vertices e p idx vs V G) as OG. pose proof (vertices_real _ _ _ V) as V'.
    destruct (getMaxDistance_correct _ _ _ V' N) as (M & E & H1 & (a & b & H2 & H3) & _).
    assert (K : rel (fun m r => fin m /\ val m = rnd r) (getMaxDistance (N := F64) idx p) (getMaxDistance (N := RNum) idx (map rp p))).
    { unfold getMaxDistance. apply rel_foldM.
      - intros i m r _ [Fm Vm]. unfold vgetn at 1 3. destruct (nth_error idx i) as [k|] eqn:E1; [|reflexivity]. cbn [bind].
        unfold vgetn. destruct (nth_error idx ((i + 1) mod length idx)) as [l|] eqn:E2; [|reflexivity]. cbn [bind].
        apply nth_error_In in E1, E2. unfold iseg_length. cbn [fst snd].
        eapply (rel_bind (fun d D => fin d /\ val d = rnd D)).
        + eapply rel_bind; [eapply vget_rel; eassumption|]. intros x ? [X ->]. eapply rel_bind; [eapply vget_rel; eassumption|]. intros y ? [Y ->].
          cbn [rel]. exact (length_grid x y X Y).
        + intros d D [Fd Vd]. cbn [rel]. rewrite ltb_correct by assumption. change (@nltb RNum) with Rltb. rewrite Vd, Vm.
          destruct (Rltb_spec (rnd r) (rnd D)) as [H|H].
          * split; [exact Fd|]. destruct (Rltb_spec r D) as [K|K]; [exact Vd|]. exfalso. apply Rnot_lt_le in K. apply rnd_le in K. lra.
          * split; [exact Fm|]. destruct (Rltb_spec r D) as [K|K]; [|exact Vm]. rewrite Vm. apply Rle_antisym; [apply rnd_le; left; exact K|]. apply Rnot_lt_le. exact H.
      - destruct big64 as (_ & _ & F2 & V2). split; [exact F2|]. change (@nZ RNum (-9223372036854775808)) with (-9223372036854775808)%R. rewrite <- V2. symmetry. apply rnd_val, F2. }
    rewrite E in K. destruct (getMaxDistance (N := F64) idx p) as [m|] eqn:Em; [|destruct K]. destruct K as [Fm Vm].
    exists m, M. split; [reflexivity|]. split; [exact Fm|]. split; [rewrite nearest_rnd; exact Vm|]. rewrite map_xyv, edges_of_map. split.
    - intros x y Hxy. apply in_map_iff in Hxy as ([x' y'] & [= <- <-] & Hxy). exact (H1 x' y' Hxy).
    - exists (xy a), (xy b). split; [apply in_map_iff; exists (a, b); auto|exact H3].
  Qed.

  (** * Side of a segment *)
  Lemma isCCW_doubles (p : list PF) (s : iseg) a b c : vget p (fst s) = Ok a -> vget p (snd s) = Ok b -> gp a -> gp b -> gp c ->
    (exists r, iseg_isCCW (N := F64) p s c = Ok r /\ (r = true <-> (0 < orient (xyv a) (xyv b) (xyv c))%R)) /\
    exists s', iseg_orderCCW (N := F64) p s c = Ok s' /\ (s' = s \/ s' = (snd s, fst s)) /\
      (orient (xyv a) (xyv b) (xyv c) <> 0%R -> iseg_isCCW (N := F64) p s' c = Ok true).
  Proof.
    intros E1 E2 A B C.
    assert (K : forall x y, gp x -> gp y -> @nltb F64 (@nZ F64 0) (orientation (N := F64) x y c) = Rltb 0 (orient (xyv x) (xyv y) (xyv c))).
    { intros x y X Y. destruct (orientation_grid e He x y c X Y C) as [G V]. destruct (grid_zero 0) as [Z0 V0].
      rewrite ltb_correct by (eapply grid_fin; eassumption). rewrite V0, V. reflexivity. }
    unfold iseg_orderCCW, iseg_isCCW. rewrite E1, E2. cbn [bind]. rewrite (K a b A B). split.
    - eexists. split; [reflexivity|]. destruct (Rltb_spec 0 (orient (xyv a) (xyv b) (xyv c))); split; auto; discriminate || tauto.
    - destruct (Rltb_spec 0 (orient (xyv a) (xyv b) (xyv c))) as [H|H].
      + exists s. split; [reflexivity|]. split; [auto|]. intros _. rewrite E1, E2. cbn [bind]. rewrite (K a b A B). f_equal. apply Rltb_iff. exact H.
      + exists (snd s, fst s). split; [reflexivity|]. split; [auto|]. intros N. cbn [fst snd]. rewrite E1, E2. cbn [bind]. rewrite (K b a B A). f_equal. apply Rltb_iff.
        assert (S : orient (xyv b) (xyv a) (xyv c) = (- orient (xyv a) (xyv b) (xyv c))%R) by (unfold orient, vcross, vsub; cbn [fst snd]; ring). rewrite S. lra.
  Qed.

  Section Tol.
    Variable tol : f64.
    Hypothesis Ft : fin tol.
    Hypothesis Tpos : (0 < val tol)%R.

    Lemma seg_contains_doubles (q a b : PF) : gp q -> gp a -> gp b ->
      seg_contains (N := F64) tol q a b = true <-> near_segment (val tol) (xyv a) (xyv b) (xyv q).
    Proof. intros Q A B. rewrite (seg_contains_grid e He tol Ft) by assumption. exact (near_segment_iff (val tol) (rp a) (rp b) (rp q) Tpos). Qed.
    Lemma isContained_doubles (p : list PF) (s : Z * Z) (a b : PF) (ps : pseg F64) : vertices_are p [fst s; snd s] [a; b] ->
      Forall gp [a; b; fst ps; snd ps] ->
      exists r, iseg_isContained (N := F64) tol p s ps = Ok r /\
        (r = true <-> forall t, (0 <= t <= 1)%R -> near_segment (val tol) (xyv (fst ps)) (xyv (snd ps)) (lerp (xyv a) (xyv b) t)).
    Proof.
      intros V G. inversion G as [|? ? Ga G1]; subst. inversion G1 as [|? ? Gb G2]; subst. inversion G2 as [|? ? Gc G3]; subst. inversion G3 as [|? ? Gd _]; subst.
      destruct (isContained_iff (val tol) (map rp p) s (rp a) (rp b) (rp (fst ps), rp (snd ps)) Tpos (vertices_real _ _ _ V)) as (r & E & H).
      exists r. split; [|exact H]. rewrite <- E. unfold iseg_isContained. rewrite !vget_map. cbn [fst snd].
      inversion V as [|? ? ? ? Va V1]; subst. inversion V1 as [|? ? ? ? Vb _]; subst. apply vget_ok in Va, Vb. rewrite Va, Vb. cbn [bind].
      rewrite !(seg_contains_grid e He tol Ft) by assumption. reflexivity.
    Qed.
    Lemma contains_seg_doubles (p : list PF) (s o : Z * Z) (a b c d : PF) : vertices_are p [fst s; snd s; fst o; snd o] [a; b; c; d] ->
      Forall gp [a; b; c; d] ->
      exists r, iseg_contains_seg (N := F64) tol p s o = Ok r /\
        (r = true <-> forall t, (0 <= t <= 1)%R -> near_segment (val tol) (xyv a) (xyv b) (lerp (xyv c) (xyv d) t)).
    Proof.
      intros V G. inversion G as [|? ? Ga G1]; subst. inversion G1 as [|? ? Gb G2]; subst. inversion G2 as [|? ? Gc G3]; subst. inversion G3 as [|? ? Gd _]; subst.
      destruct (contains_seg_iff (val tol) (map rp p) s o (rp a) (rp b) (rp c) (rp d) Tpos (vertices_real _ _ _ V)) as (r & E & H).
      exists r. split; [|exact H]. rewrite <- E. unfold iseg_contains_seg, iseg_contains. rewrite !vget_map.
      inversion V as [|? ? ? ? Va V1]; subst. inversion V1 as [|? ? ? ? Vb V2]; subst. inversion V2 as [|? ? ? ? Vc V3]; subst. inversion V3 as [|? ? ? ? Vd _]; subst.
      apply vget_ok in Va, Vb, Vc, Vd. rewrite Va, Vb, Vc, Vd. cbn [bind]. rewrite !(seg_contains_grid e He tol Ft) by assumption. reflexivity.
    Qed.
    Lemma collinear_segs_doubles (s1 s2 : pseg F64) : Forall gp [fst s1; snd s1; fst s2; snd s2] ->
      collinear_segs (N := F64) tol s1 s2 = true <->
      forall t, (0 <= t <= 1)%R -> (Rabs (orient (xyv (fst s1)) (xyv (snd s1)) (lerp (xyv (fst s2)) (xyv (snd s2)) t)) < val tol)%R.
    Proof.
      intros G. inversion G as [|? ? Ga G1]; subst. inversion G1 as [|? ? Gb G2]; subst. inversion G2 as [|? ? Gc G3]; subst. inversion G3 as [|? ? Gd _]; subst.
      rewrite <- (collinear_segs_iff (val tol) (rp (fst s1), rp (snd s1)) (rp (fst s2), rp (snd s2))).
      unfold collinear_segs. rewrite !(collinear_grid e He tol Ft) by assumption. reflexivity.
    Qed.
    Lemma pseg_eqb_doubles (s1 s2 : pseg F64) : Forall gp [fst s1; snd s1; fst s2; snd s2] ->
      pseg_eqb (N := F64) tol s1 s2 = true <->
      (near64 tol (fst s1) (fst s2) /\ near64 tol (snd s1) (snd s2)) \/ (near64 tol (fst s1) (snd s2) /\ near64 tol (snd s1) (fst s2)).
    Proof.
      intros G. inversion G as [|? ? Ga G1]; subst. inversion G1 as [|? ? Gb G2]; subst. inversion G2 as [|? ? Gc G3]; subst. inversion G3 as [|? ? Gd _]; subst.
      destruct (pseg_eqb_iff (val tol) (rp (fst s1), rp (snd s1)) (rp (fst s2), rp (snd s2))) as [H _]. unfold near64. etransitivity; [|exact H].
      unfold pseg_eqb. rewrite !(pt_eqb_grid e He tol Ft) by assumption. reflexivity.
    Qed.
    (** * Edges and regions *)
    Lemma container_doubles (idx : list Z) (p : list PF) (q : PF) vs : vertices_are p idx vs -> Forall gp vs -> gp q ->
      exists s b, containerEdge (N := F64) tol idx p q = Ok s /\ inEdges (N := F64) tol idx p q = Ok b /\
        (b = true <-> near_border (val tol) (xyv q) (map xyv vs)) /\
        (b = false -> s = (-1, -1)%Z) /\
        (b = true -> exists k A B, nth_error (edges_of idx) k = Some s /\ nth_error (edges_of (map xyv vs)) k = Some (A, B) /\ near_segment (val tol) A B (xyv q) /\
           forall j A' B', (j < k)%nat -> nth_error (edges_of (map xyv vs)) j = Some (A', B') -> ~ near_segment (val tol) A' B' (xyv q)).
    Proof.
      intros V G Q. destruct (container_plane (val tol) idx (map rp p) (rp q) (map rp vs) Tpos (vertices_real _ _ _ V)) as (s & b & E1 & E2 & H).
      exists s, b. rewrite map_xyv. split; [|split; [|exact H]].
      - rewrite <- E1. unfold containerEdge. rewrite !getSegments_edges. cbn [bind app].
        assert (OG : forall s, In s (edges_of idx) -> In (fst s) idx /\ In (snd s) idx) by (intros [x y]; apply edge_in).
        pose proof (on_grid_vertices e p idx vs V G) as O. revert OG. generalize (edges_of idx). intros l OG.
        induction l as [|s0 l IH]; [reflexivity|]. destruct (OG s0 (or_introl eq_refl)) as [I1 I2]. unfold iseg_contains. rewrite !vget_map.
        destruct (vget p (fst s0)) as [x|] eqn:X; [|reflexivity]. cbn [bind]. destruct (vget p (snd s0)) as [y|] eqn:Y; [|reflexivity]. cbn [bind].
        rewrite (seg_contains_grid e He tol Ft q x y Q (O _ _ I1 X) (O _ _ I2 Y)). destruct (seg_contains _ _ _ _); [reflexivity|].
        apply IH. intros s' Hs. apply OG. now right.
      - rewrite (inEdges_iff (N := F64) tol idx p q vs V). rewrite <- E2, (inEdges_iff (N := RNum) (val tol) idx _ (rp q) _ (vertices_real _ _ _ V)).
        f_equal. apply (existsb_border e He tol Ft); assumption.
    Qed.
    Lemma contains_doubles (p : list PF) idx (q : PF) vs : vertices_are p idx vs -> Forall gp vs -> gp q -> no_short_edge (val tol) (map xyv vs) ->
      exists b, containsPoint (N := F64) tol idx p q = Ok b /\ (b = true <-> inside_or_near (val tol) (xyv q) (map xyv vs)).
    Proof.
      intros V G Q NS. rewrite map_xyv in *. rewrite (contains_grid e He tol Ft Tpos p idx q vs V G Q NS).
      exact (contains_char (val tol) _ _ (rp q) _ Tpos (vertices_real _ _ _ V) NS).
    Qed.
    Lemma region_contains_doubles (r : region F64) (q : PF) : region_made r -> grid_region e r -> gp q -> no_short_edge (val tol) (map xyv (rg_p r)) ->
      (exists b, region_containsPoint (N := F64) tol r q = Ok b /\ (b = true <-> inside_or_near (val tol) (xyv q) (map xyv (rg_p r)))) /\
      exists b, region_inEdges (N := F64) tol r q = Ok b /\ (b = true <-> near_border (val tol) (xyv q) (map xyv (rg_p r))).
    Proof.
      intros H [G _] Q NS. unfold region_containsPoint, region_inEdges. destruct (made_outline r H) as (vs & C & HV).
      assert (G' : Forall gp vs) by (destruct C as [-> | ->]; [exact G|apply Forall_rev; exact G]).
      destruct (container_doubles _ _ q _ HV G' Q) as (s & b & _ & E & B & _).
      split.
      - destruct C as [-> | ->].
        + exact (contains_doubles _ _ q _ HV G' Q NS).
        + assert (NS' : no_short_edge (val tol) (map xyv (rev (rg_p r)))) by (rewrite map_rev; apply no_short_edge_rev; exact NS).
          destruct (contains_doubles _ _ q _ HV G' Q NS') as (b' & E' & Hb). exists b'. split; [exact E'|]. rewrite Hb, map_rev. apply inside_or_near_rev.
      - exists b. split; [exact E|]. destruct C as [-> | ->]; [exact B|]. rewrite B, map_rev. apply near_border_rev.
    Qed.
    Lemma hole_contains_doubles (h : hole F64) (q : PF) : hole_built h -> Forall gp (h_points h) -> gp q -> no_short_edge (val tol) (map xyv (h_points h)) ->
      exists b, hole_containsPoint (N := F64) tol h q = Ok b /\ (b = true <-> inside_or_near (val tol) (xyv q) (map xyv (h_points h))).
    Proof. intros H G Q NS. rewrite hole_contains_polygon by exact H. exact (contains_doubles _ _ q _ (vertices_trivial _) G Q NS). Qed.
    Lemma domain_doubles (r : region F64) (q : PF) : region_made r -> grid_region e r -> gp q -> long_edges tol r ->
      in_domain (N := F64) tol r q <-> inside_domain tol r q.
    Proof.
      intros H [G GH] Q [NS NH]. destruct (region_contains_doubles r q H (conj G GH) Q NS) as [(b & E & Hb) _]. unfold in_domain, inside_domain. rewrite E.
      destruct (made_inv r H) as [_ HB].
      assert (F : Forall (fun h => hole_containsPoint (N := F64) tol h q = Ok false) (rg_holes r) <-> Forall (fun h => ~ inside_or_near (val tol) (xyv q) (map xyv (h_points h))) (rg_holes r)).
      { rewrite !Forall_forall in *. split; intros K h Hh; specialize (K h Hh); destruct (hole_contains_doubles h q (HB h Hh) (GH h Hh) Q (NH h Hh)) as (c & Ec & Hc).
        - rewrite Ec in K. injection K as ->. rewrite <- Hc. discriminate.
        - rewrite Ec. destruct c; [|reflexivity]. exfalso. apply K, Hc. reflexivity. }
      rewrite F. split; intros [G1 G2]; (split; [|exact G2]).
      - injection G1 as ->. apply Hb. reflexivity.
      - f_equal. apply Hb. exact G1.
    Qed.
    (** every seed right after a seeding call is inside the domain, and every offered point inside the domain is kept *)
    Lemma seeding_doubles (r : region F64) (s : list PF) : region_made r -> grid_region e r -> long_edges tol r -> Forall gp s ->
      exists kept, addSeedPoints (N := F64) tol r s = Ok (with_seeds r kept) /\
        (forall q, In q kept <-> In q s /\ inside_domain tol r q) /\
        (Forall gp (rg_seeds r) -> exists kept', addSeedsRead (N := F64) tol r s = Ok (with_seeds r kept') /\
           forall q, In q kept' <-> In q (rg_seeds r ++ s) /\ inside_domain tol r q).
    Proof.
      intros H G L S. exists (filter (keeps (N := F64) tol r) s). split; [exact (clean_char (N := F64) tol r s H)|]. rewrite Forall_forall in S. split.
      - intros q. rewrite filter_In, (keeps_iff (N := F64) tol r q H). split; intros [K1 K2]; (split; [exact K1|]); apply domain_doubles; auto.
      - intros S'. rewrite Forall_forall in S'. exists (filter (keeps (N := F64) tol r) (rg_seeds r ++ s)). split; [exact (clean_char (N := F64) tol r _ H)|].
        intros q. rewrite filter_In, (keeps_iff (N := F64) tol r q H).
        split; intros [K1 K2]; (split; [exact K1|]); (assert (Q : gp q) by (apply in_app_iff in K1 as [K1|K1]; auto)); apply domain_doubles; auto.
    Qed.
  End Tol.
End Grid.
