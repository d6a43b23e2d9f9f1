(** A constant grid over a rectangle of doubles: every point is kept as a seed. *)
From Coq Require Import Reals Lra Psatz Lia ZArith SpecFloat List Bool.
From Flocq Require Import Core.
From Verif Require Import Base Spec MUtil MGeom MHull MPolygon MMaps MTriangle MGen MRegion MDelaunay Bridge BridgeNum Bridge64 BridgeErr.
From Verif Require Import PUtil PPoly PContains PRegion PFloat PGen64 PGrid8 PErr PErr5.
Import ListNotations.
Local Open Scope R_scope.

Definition rect (x0 x1 y0 y1 : R) : list (R * R) := [(x0, y0); (x1, y0); (x1, y1); (x0, y1)].
Lemma rect_convex x0 x1 y0 y1 : x0 < x1 -> y0 < y1 -> strictly_convex (rect x0 x1 y0 y1).
Proof.
  intros Lx Ly. split; [cbn; lia|]. split.
  - unfold rect. repeat first [apply NoDup_cons|apply NoDup_nil]; cbn [In]; intros K; repeat destruct K as [K|K]; try exact K; injection K; intros; lra.
  - intros a b v Hab Hv Na Nb. assert (0 < (x1 - x0) * (y1 - y0)) by (apply Rmult_lt_0_compat; lra). cbn in Hab, Hv.
    destruct Hab as [X|[X|[X|[X|[]]]]]; injection X as <- <-; destruct Hv as [<-|[<-|[<-|[<-|[]]]]]; try congruence; unfold orient, vcross, vsub; cbn [fst snd]; lra.
Qed.
Lemma rect_cover x0 x1 y0 y1 q e d : x0 < x1 -> y0 < y1 -> x0 - e <= fst q <= x1 + e -> y0 - e <= snd q <= y1 + e ->
  0 <= e < d -> e * (x1 - x0) < d -> e * (y1 - y0) < d -> inside_or_near d q (rect x0 x1 y0 y1).
Proof.
  destruct q as [qx qy]. cbn [fst snd]. intros Lx Ly Hx Hy He Dx Dy.
  assert (Near : forall a b, In (a, b) (edges_of (rect x0 x1 y0 y1)) -> near_segment d a b (qx, qy) -> inside_or_near d (qx, qy) (rect x0 x1 y0 y1)) by (intros a b K1 K2; right; exists a, b; auto).
  assert (SM : forall w z, 0 <= w -> Rabs z <= e -> e * w < d -> Rabs (w * z) < d).
  { intros w z Hw Hz K. rewrite Rabs_mult, (Rabs_pos_eq w Hw). eapply Rle_lt_trans; [|exact K]. rewrite Rmult_comm. apply Rmult_le_compat_r; assumption. }
  destruct (Rle_or_lt qx x0) as [C1|C1].
  { apply (Near (x0, y1) (x0, y0)); [cbn; tauto|]. unfold near_segment; cbn [fst snd]. rewrite (Rmin_left x0 x0), (Rmax_left x0 x0), (Rmin_right y1 y0), (Rmax_left y1 y0) by lra.
    split; [lra|]. split; [lra|]. replace (orient (x0, y1) (x0, y0) (qx, qy)) with ((y1 - y0) * (qx - x0)) by (unfold orient, vcross, vsub; cbn [fst snd]; ring). apply SM; [lra| |exact Dy]. rewrite Rabs_left1; lra. }
  destruct (Rle_or_lt x1 qx) as [C2|C2].
  { apply (Near (x1, y0) (x1, y1)); [cbn; tauto|]. unfold near_segment; cbn [fst snd]. rewrite (Rmin_left x1 x1), (Rmax_left x1 x1), (Rmin_left y0 y1), (Rmax_right y0 y1) by lra.
    split; [lra|]. split; [lra|]. replace (orient (x1, y0) (x1, y1) (qx, qy)) with ((y1 - y0) * (x1 - qx)) by (unfold orient, vcross, vsub; cbn [fst snd]; ring). apply SM; [lra| |exact Dy]. rewrite Rabs_left1; lra. }
  destruct (Rle_or_lt qy y0) as [C3|C3].
  { apply (Near (x0, y0) (x1, y0)); [cbn; tauto|]. unfold near_segment; cbn [fst snd]. rewrite (Rmin_left y0 y0), (Rmax_left y0 y0), (Rmin_left x0 x1), (Rmax_right x0 x1) by lra.
    split; [lra|]. split; [lra|]. replace (orient (x0, y0) (x1, y0) (qx, qy)) with ((x1 - x0) * (qy - y0)) by (unfold orient, vcross, vsub; cbn [fst snd]; ring). apply SM; [lra| |exact Dx]. rewrite Rabs_left1; lra. }
  destruct (Rle_or_lt y1 qy) as [C4|C4].
  { apply (Near (x1, y1) (x0, y1)); [cbn; tauto|]. unfold near_segment; cbn [fst snd]. rewrite (Rmin_left y1 y1), (Rmax_left y1 y1), (Rmin_right x1 x0), (Rmax_left x1 x0) by lra.
    split; [lra|]. split; [lra|]. replace (orient (x1, y1) (x0, y1) (qx, qy)) with ((x1 - x0) * (y1 - qy)) by (unfold orient, vcross, vsub; cbn [fst snd]; ring). apply SM; [lra| |exact Dx]. rewrite Rabs_left1; lra. }
  left. apply convex_interior; [apply rect_convex; assumption|]. intros a b Hab. cbn in Hab.
  destruct Hab as [X|[X|[X|[X|[]]]]]; injection X as <- <-; unfold orient, vcross, vsub; cbn [fst snd]; nra.
Qed.
Lemma rect_long t x0 x1 y0 y1 : t <= x1 - x0 -> t <= y1 - y0 -> no_short_edge t (rect x0 x1 y0 y1).
Proof.
  intros Lx Ly a b Hab [C1 C2]. cbn in Hab. destruct Hab as [X|[X|[X|[X|[]]]]]; injection X as <- <-; cbn [fst snd] in C1, C2; revert C1 C2; unfold Rabs; repeat destruct (Rcase_abs _); lra.
Qed.

Section Rect.
  Variables (k : Z) (tol x0 x1 y0 y1 : f64) (r : region F64) (nX nY : Z).
  Hypothesis Hk : (-100 <= k <= 60)%Z.
  Hypothesis Ft : fin tol.
  Hypothesis F : forall c, In c [x0; x1; y0; y1] -> fin c /\ Rabs (val c) <= bpow radix2 k.
  Hypothesis Lx : val x0 < val x1.
  Hypothesis Ly : val y0 < val y1.
  Hypothesis TS : 2 * contain_slack (bpow radix2 (k + 1)) < val tol.
  Hypothesis Tx : val tol <= val x1 - val x0.
  Hypothesis Ty : val tol <= val y1 - val y0.
  Hypothesis C : region_ctor (N := F64) tol (rectangle64 x0 x1 y0 y1) = Ok r.
  Hypothesis HX : (2 <= nX <= 2 ^ 31)%Z.
  Hypothesis HY : (2 <= nY <= 2 ^ 31)%Z.
  Let M := bpow radix2 (k + 1).

  Lemma ctor_parts : rg_p r = rectangle64 x0 x1 y0 y1 /\ rg_holes r = [] /\ rg_seeds r = [].
  Proof. unfold region_ctor in C. destruct (polygon_ctor_pts _ _) as [g|]; [|discriminate]. cbn [bind] in C. injection C as <-. auto. Qed.
  Lemma rect_xyv : map xyv (rg_p r) = rect (val x0) (val x1) (val y0) (val y1).
  Proof. rewrite (proj1 ctor_parts). reflexivity. Qed.
  Lemma rect_scale : scale M.
  Proof. unfold scale, M. split; apply bpow_le; lia. Qed.
  Lemma M_two : M = 2 * bpow radix2 k.
  Proof. unfold M. rewrite bpow_plus. change (bpow radix2 1) with 2. ring. Qed.
  Lemma near_M x : fin x -> Rabs (val x) <= M -> forall y, fin y -> Rabs (val y) <= M -> within M (mkP (N := F64) x y).
  Proof. intros F1 B1 y F2 B2. split; [exact F1|]. split; [exact F2|]. split; assumption. Qed.
  Lemma rect_within : region_within M r.
  Proof.
    destruct ctor_parts as (E1 & E2 & _). unfold region_within. rewrite E1, E2. split; [|constructor]. pose proof (bpow_gt_0 radix2 k) as P. pose proof M_two as M2.
    assert (B : forall c, In c [x0; x1; y0; y1] -> fin c /\ Rabs (val c) <= M) by (intros c Hc; destruct (F c Hc) as [F1 F2]; split; [exact F1|lra]).
    destruct (B x0) as [X1 X2]; [cbn; tauto|]. destruct (B x1) as [X3 X4]; [cbn; tauto|]. destruct (B y0) as [Y1 Y2]; [cbn; tauto|]. destruct (B y1) as [Y3 Y4]; [cbn; tauto|].
    unfold rectangle64. repeat first [apply Forall_cons|apply Forall_nil]; apply near_M; assumption.
  Qed.
  Lemma rect_box : let b := getBox (N := F64) r in
    (forall c, In c [px (bb1 b); py (bb1 b); px (bb2 b); py (bb2 b)] -> fin c /\ Rabs (val c) <= bpow radix2 k) /\
    val (bb_xMin b) = val x0 /\ val (bb_xMax b) = val x1 /\ val (bb_yMin b) = val y0 /\ val (bb_yMax b) = val y1.
  Proof.
    intros b. destruct ctor_parts as (E1 & _ & _).
    destruct (F x0) as [X1 X2]; [cbn; tauto|]. destruct (F x1) as [X3 X4]; [cbn; tauto|]. destruct (F y0) as [Y1 Y2]; [cbn; tauto|]. destruct (F y1) as [Y3 Y4]; [cbn; tauto|].
    assert (FP : Forall finite_point (rg_p r)) by (rewrite E1; unfold rectangle64; repeat first [apply Forall_cons|apply Forall_nil]; split; assumption).
    destruct (getBox_doubles r FP) as (_ & B1 & B2 & _). fold b in B1, B2. rewrite E1 in B1, B2.
    assert (BG : bpow radix2 k <= Bridge.big) by (unfold Bridge.big; apply Rle_trans with (bpow radix2 63); [apply bpow_le; lia|]; rewrite <- (IZR_Zpower radix2) by lia; apply IZR_le; cbn; lia).
    assert (RG : forall x, Rabs x <= bpow radix2 k -> - Bridge.big <= x <= Bridge.big) by (intros x Hx; apply Rabs_le_inv in Hx; lra).
    destruct B2 as (K1 & K2 & K3 & K4); [discriminate| |].
    { intros v Hv. cbn in Hv. destruct Hv as [<-|[<-|[<-|[<-|[]]]]]; cbn [px py mkP]; split; apply RG; assumption. }
    assert (IN : forall v, In v (rectangle64 x0 x1 y0 y1) -> (px v = x0 \/ px v = x1) /\ (py v = y0 \/ py v = y1)) by (intros v Hv; cbn in Hv; destruct Hv as [<-|[<-|[<-|[<-|[]]]]]; cbn; auto).
    assert (V0 := B1 (mkP (N := F64) x0 y0) ltac:(cbn; tauto)). assert (V1 := B1 (mkP (N := F64) x1 y1) ltac:(cbn; tauto)). cbn [px py mkP] in V0, V1.
    assert (EX : val (bb_xMin b) = val x0) by (destruct K1 as (v & Hv & K); destruct (IN v Hv) as [[P|P] _]; rewrite P in K; [symmetry; exact K|exfalso; lra]).
    assert (EX1 : val (bb_xMax b) = val x1) by (destruct K2 as (v & Hv & K); destruct (IN v Hv) as [[P|P] _]; rewrite P in K; [exfalso; lra|symmetry; exact K]).
    assert (EY : val (bb_yMin b) = val y0) by (destruct K3 as (v & Hv & K); destruct (IN v Hv) as [_ [P|P]]; rewrite P in K; [symmetry; exact K|exfalso; lra]).
    assert (EY1 : val (bb_yMax b) = val y1) by (destruct K4 as (v & Hv & K); destruct (IN v Hv) as [_ [P|P]]; rewrite P in K; [exfalso; lra|symmetry; exact K]).
    split; [|auto]. destruct (getBox_rel r FP) as [FB _]. fold b in FB. destruct FB as [[P1 P2] [P3 P4]].
    revert EX EX1 EY EY1. unfold bb_xMin, bb_xMax, bb_yMin, bb_yMax, nmin, nmax. rewrite !ltb_correct by assumption. intros EX EX1 EY EY1.
    assert (BB : forall lo hi v w, fin v -> fin w -> Rabs lo <= bpow radix2 k -> Rabs hi <= bpow radix2 k ->
      val (if Rltb (val w) (val v) then w else v) = lo -> val (if Rltb (val v) (val w) then w else v) = hi -> (fin v /\ Rabs (val v) <= bpow radix2 k) /\ (fin w /\ Rabs (val w) <= bpow radix2 k)).
    { intros lo hi v w Fv Fw L1 L2. unfold Rltb. destruct (Rlt_dec (val w) (val v)), (Rlt_dec (val v) (val w)); intros K5 K6; rewrite <- K5 in L1; rewrite <- K6 in L2; auto; try lra.
      assert (Q : val v = val w) by lra. rewrite Q in *. auto. }
    destruct (BB _ _ _ _ P1 P3 X2 X4 EX EX1) as [Q1 Q2]. destruct (BB _ _ _ _ P2 P4 Y2 Y4 EY EY1) as [Q3 Q4].
    intros c Hc. cbn [In] in Hc. destruct Hc as [<-|[<-|[<-|[<-|[]]]]]; assumption.
  Qed.
  Lemma rect_made : region_made r.
  Proof. exact (rm_ctor _ _ _ C). Qed.
  Lemma tol_pos : 0 < val tol.
  Proof. pose proof (slack_parts M rect_scale) as (S1 & _). unfold M in S1. lra. Qed.

  (** every node is kept *)
  Lemma node_kept q i j : (0 <= i <= IZR (nY - 1)) -> (0 <= j <= IZR (nX - 1)) ->
    close_point (bpow radix2 (k - 48)) q (val x0 + j * ((val x1 - val x0) / IZR (nX - 1)), val y0 + i * ((val y1 - val y0) / IZR (nY - 1))) ->
    in_domain (N := F64) tol r q.
  Proof.
    intros Hi Hj (Fx & Fy & Dx & Dy). cbn [fst snd] in Dx, Dy. destruct ctor_parts as (E1 & E2 & _).
    destruct (F x0) as [X1 X2]; [cbn; tauto|]. destruct (F x1) as [X3 X4]; [cbn; tauto|]. destruct (F y0) as [Y1 Y2]; [cbn; tauto|]. destruct (F y1) as [Y3 Y4]; [cbn; tauto|].
    assert (TT : forall n a b t, (2 <= n)%Z -> a < b -> 0 <= t <= IZR (n - 1) -> a <= a + t * ((b - a) / IZR (n - 1)) <= b).
    { intros n a b t Hn Lab Ht. assert (PN : 1 <= IZR (n - 1)) by (apply (IZR_le 1); lia). set (m := IZR (n - 1)) in *.
      assert (Q : 0 <= t * ((b - a) / m) <= b - a).
      { replace (t * ((b - a) / m)) with (t / m * (b - a)) by (field; lra). assert (0 <= t / m <= 1).
        { split; [apply Rmult_le_pos; [lra|]; apply Rlt_le, Rinv_0_lt_compat; lra|]. apply Rmult_le_reg_r with m; [lra|]. unfold Rdiv. rewrite Rmult_assoc, Rinv_l by lra. lra. }
        nra. }
      lra. }
    pose proof (TT nX _ _ j ltac:(lia) Lx Hj) as TX. pose proof (TT nY _ _ i ltac:(lia) Ly Hi) as TY.
    set (nx := val x0 + _) in *. set (ny := val y0 + _) in *. set (e := bpow radix2 (k - 48)) in *. pose proof (bpow_gt_0 radix2 (k - 48)) as PE. fold e in PE.
    apply Rabs_le_inv in Dx, Dy, X2, X4, Y2, Y4. pose proof (bpow_gt_0 radix2 k) as PK. set (m := bpow radix2 k) in *.
    assert (EK : e = 32 * u53 * m). { unfold e, u53, m. change 32 with (bpow radix2 5). rewrite <- !bpow_plus. f_equal. lia. }
    assert (U : 0 < u53 < / 1024) by (unfold u53; split; [apply bpow_gt_0|change (/ 1024) with (bpow radix2 (-10)); apply bpow_lt; lia]).
    assert (EM : e <= m) by (rewrite EK; nra).
    assert (P1 : 0 < u53 * m) by (apply Rmult_lt_0_compat; lra). assert (P2 : 0 < u53 * (m * m)) by (apply Rmult_lt_0_compat; [lra|]; apply Rmult_lt_0_compat; lra).
    assert (SL : contain_slack M = 512 * (u53 * (m * m)) + 256 * (u53 * m)) by (unfold contain_slack; rewrite M_two; fold m; ring).
    assert (TS' : 2 * contain_slack M < val tol) by exact TS.
    apply (domain_any M rect_scale tol Ft tol_pos ltac:(pose proof (slack_parts M rect_scale) as (S1 & _); lra) r q rect_made rect_within).
    - split; [exact Fx|]. split; [exact Fy|]. rewrite M_two. fold m. split; apply Rabs_le; lra.
    - unfold long_edges. rewrite E2, rect_xyv. split; [|constructor]. apply rect_long; assumption.
    - unfold domain_between. rewrite E2, rect_xyv. split; [|constructor]. apply (rect_cover _ _ _ _ _ e); unfold xyv; cbn [fst snd]; try lra.
      + apply Rle_lt_trans with (e * (2 * m)); [apply Rmult_le_compat_l; lra|]. rewrite EK. lra.
      + apply Rle_lt_trans with (e * (2 * m)); [apply Rmult_le_compat_l; lra|]. rewrite EK. lra.
  Qed.
  Lemma rect_seeding : let g := GBoth (N := F64) f_constant f_constant in
    exists qs, generateSeedPoints (N := F64) tol r g nX nY = Ok (with_seeds r qs, g) /\ length qs = (Z.to_nat nX * Z.to_nat nY)%nat /\
    forall i j, (i < Z.to_nat nY)%nat -> (j < Z.to_nat nX)%nat -> exists q, nth_error qs (i * Z.to_nat nX + j) = Some q /\
      close_point (bpow radix2 (k - 48)) q (val x0 + INR j * ((val x1 - val x0) / IZR (nX - 1)), val y0 + INR i * ((val y1 - val y0) / IZR (nY - 1))).
  Proof.
    intros g. destruct rect_box as [B (E1 & E2 & E3 & E4)].
    destruct (generate_near k [] (getBox (N := F64) r) nX nY ltac:(lia) B HX HY) as (qs & G & L & K). fold g in G. rewrite E1, E2, E3, E4 in K. cbn [app] in G.
    exists qs. destruct ctor_parts as (_ & _ & E5). unfold generateSeedPoints. rewrite E5, G. cbn [bind].
    change ([] ++ qs) with qs. rewrite (clean_char (N := F64) tol r qs rect_made). cbn [bind].
    assert (FL : filter (keeps (N := F64) tol r) qs = qs).
    { assert (A : forall q, In q qs -> keeps (N := F64) tol r q = true).
      { intros q Hq. apply (keeps_iff (N := F64) tol r q rect_made). apply In_nth_error in Hq as [n Hn].
        assert (LN : (n < Z.to_nat nX * Z.to_nat nY)%nat) by (rewrite <- L; apply nth_error_Some; congruence).
        assert (X0 : (0 < Z.to_nat nX)%nat) by lia.
        destruct (K (n / Z.to_nat nX)%nat (n mod Z.to_nat nX)%nat) as (q' & H1 & H2); [apply Nat.div_lt_upper_bound; lia|apply Nat.mod_upper_bound; lia|].
        rewrite Nat.mul_comm, <- Nat.div_mod in H1 by lia. rewrite Hn in H1. injection H1 as <-.
        refine (node_kept q _ _ _ _ H2).
        - split; [apply pos_INR|]. rewrite INR_IZR_INZ. apply IZR_le. assert ((n / Z.to_nat nX < Z.to_nat nY)%nat) by (apply Nat.div_lt_upper_bound; lia). lia.
        - split; [apply pos_INR|]. rewrite INR_IZR_INZ. apply IZR_le. assert ((n mod Z.to_nat nX < Z.to_nat nX)%nat) by (apply Nat.mod_upper_bound; lia). lia. }
      clear -A. induction qs as [|q qs IH]; [reflexivity|]. cbn [filter]. rewrite (A q) by now left. f_equal. apply IH. intros x Hx. apply A. now right. }
    rewrite FL. split; [reflexivity|]. split; [exact L|exact K].
  Qed.
End Rect.
