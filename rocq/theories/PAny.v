(** The chain of a Voronoi cell at a corner of the border of any shape. *)
From Coq Require Import Reals Lra Lia ZArith List Bool Permutation.
From Verif Require Import Base Spec MUtil Bridge BridgeTile BridgeAny PUtil PContains PVoronoi PFan PVorGeo PVorCell PConvex PVorConvex PWedge PBorderCell PVorLocate PTile PFill.
Import ListNotations.

Section Plane.
  Local Open Scope R_scope.
  (** with [B] between [W] and [Q], and [Q] nearer to 0 than to [B], [W] is inside the circle around 0 B *)
  Lemma between w1 w2 b1 b2 q1 q2 : 0 < w1 * w1 + w2 * w2 ->
    2 * (w1 * q1 + w2 * q2) = w1 * w1 + w2 * w2 -> 2 * (b1 * q1 + b2 * q2) <= b1 * b1 + b2 * b2 ->
    w1 * b1 + w2 * b2 <= w1 * w1 + w2 * w2 -> 0 < b1 * q2 - b2 * q1 -> 0 <= w1 * b2 - w2 * b1 -> 0 <= w1 * q2 - w2 * q1 -> w1 = b1 /\ w2 = b2.
  Proof.
    intros PW EW LB GB Be Om Ka. set (be := b1 * q2 - b2 * q1) in *. set (om := w1 * b2 - w2 * b1) in *. set (ka := w1 * q2 - w2 * q1) in *.
    set (t := w1 * b1 + w2 * b2) in *. set (W := w1 * w1 + w2 * w2) in *. set (B := b1 * b1 + b2 * b2) in *.
    assert (PB : 0 < B). { unfold B. destruct (Req_dec b1 0) as [Z1|Z1], (Req_dec b2 0) as [Z2|Z2]; [unfold be in Be; rewrite Z1, Z2 in Be; lra|nra|nra|nra]. }
    assert (I1 : t * ka = W * be + (w1 * q1 + w2 * q2) * om) by (unfold t, ka, W, be, om; ring).
    assert (I2 : B * ka = t * be + (b1 * q1 + b2 * q2) * om) by (unfold t, ka, B, be, om; ring).
    assert (I3 : t * t + om * om = W * B) by (unfold t, om, W, B; ring).
    replace (w1 * q1 + w2 * q2) with (W / 2) in I1 by lra.
    assert (P1 : 0 < t * ka) by (rewrite I1; assert (0 < W * be) by (apply Rmult_lt_0_compat; assumption); assert (0 <= W / 2 * om) by (apply Rmult_le_pos; lra); lra).
    assert (PT : 0 < t) by (destruct (Rle_lt_dec t 0) as [L|L]; [exfalso; nra|exact L]).
    assert (L2 : B * ka <= t * be + B / 2 * om) by (rewrite I2; apply Rplus_le_compat_l, Rmult_le_compat_r; lra).
    assert (L3 : t * (B * ka) <= t * (t * be + B / 2 * om)) by (apply Rmult_le_compat_l; lra).
    replace (t * (B * ka)) with (B * (t * ka)) in L3 by ring. rewrite I1 in L3.
    assert (L4 : B * (W * be + W / 2 * om) = (t * t + om * om) * be + B * W / 2 * om) by (rewrite I3; field). rewrite L4 in L3.
    assert (L5 : om * (om * be + B * (W - t) / 2) <= 0) by lra.
    assert (L6 : 0 <= B * (W - t) / 2) by (apply Rmult_le_pos; [apply Rmult_le_pos; lra|lra]).
    assert (OZ : om = 0). { destruct (Rle_lt_or_eq_dec _ _ Om) as [L|L]; [|congruence]. exfalso. assert (0 < om * be) by (apply Rmult_lt_0_compat; assumption). assert (0 < om * (om * be + B * (W - t) / 2)) by (apply Rmult_lt_0_compat; lra). lra. }
    rewrite OZ in *. assert (E1 : t * ka = W * be) by lra. assert (E2 : B * ka = t * be) by lra. assert (E3 : t * t = W * B) by lra.
    (* (W - t)^2-like: |w - b|^2 = W - 2 t + B *)
    assert (KA : 0 < ka) by nra.
    assert (TW : t <= W) by exact GB. assert (BT : B <= t). { apply (Rmult_le_reg_l t); [exact PT|]. rewrite E3. apply Rmult_le_compat_r; lra. }
    (* b . q = t ... from be, ka *)
    assert (E4 : B * (w1 * q1 + w2 * q2) = t * (b1 * q1 + b2 * q2)). { assert (X : B * (w1 * q1 + w2 * q2) - t * (b1 * q1 + b2 * q2) = - om * be) by (unfold B, t, om, be; ring). rewrite OZ in X. lra. }
    replace (w1 * q1 + w2 * q2) with (W / 2) in E4 by lra.
    assert (E5 : t * (b1 * q1 + b2 * q2) <= t * (B / 2)) by (apply Rmult_le_compat_l; lra).
    assert (WT : W <= t). { apply (Rmult_le_reg_l B); [exact PB|]. lra. }
    assert (ET : W = t) by lra. assert (EB : B = t). { apply (Rmult_eq_reg_l t); [|lra]. rewrite E3, ET. ring. }
    assert (Z : (w1 - b1) * (w1 - b1) + (w2 - b2) * (w2 - b2) = 0) by (replace ((w1 - b1) * (w1 - b1) + (w2 - b2) * (w2 - b2)) with (W - 2 * t + B) by (unfold W, t, B; ring); lra).
    apply (Rplus_sqr_eq_0 (w1 - b1) (w2 - b2)) in Z as [Z1 Z2]. lra.
  Qed.

  Variable sites : list pt.
  Variables p a b : pt.
  Hypothesis Sa : In a sites.
  Hypothesis Sb : In b sites.
  Hypothesis Na : a <> p.
  Hypothesis Nb : b <> p.
  Hypothesis Nab : a <> b.
  Hypothesis GA : gabriel_edge sites p a.
  Hypothesis GB : gabriel_edge sites p b.

  (** a direction that leaves the domain at the corner *)
  Definition leaving : pt :=
    if Rlt_dec 0 (orient p a b) then vscale (-1) (vadd (vsub a p) (vsub b p))
    else if Rlt_dec (orient p a b) 0 then vadd (vsub a p) (vsub b p) else right_of (vsub a p).
  Lemma square_pos x : x <> p -> 0 < vdot (vsub x p) (vsub x p).
  Proof. intros N. destruct x as [x1 x2], p as [p1 p2]. unfold vdot, vsub. cbn [fst snd]. destruct (Req_dec x1 p1) as [E1|E1], (Req_dec x2 p2) as [E2|E2]; [subst; contradiction|nra|nra|nra]. Qed.
  Lemma opposite : orient p a b = 0 -> exists k, 0 < k /\ vsub b p = vscale (- k) (vsub a p).
  Proof.
    intros O. destruct (gabriel_corner sites p a b GA GB Sa Sb Na Nb Nab) as [H|[_ D]]; [lra|lra|].
    pose proof (square_pos a Na) as PA. exists (- (vdot (vsub a p) (vsub b p) / vdot (vsub a p) (vsub a p))). split.
    - assert (0 < (- vdot (vsub a p) (vsub b p)) / vdot (vsub a p) (vsub a p)) by (apply Rdiv_lt_0_compat; lra). lra.
    - unfold orient in O. set (A := vsub a p) in *. set (B := vsub b p) in *. clearbody A B. destruct A as [x1 x2], B as [y1 y2]. unfold vcross, vdot, vscale in *. cbn [fst snd] in *.
      set (n := x1 * x1 + x2 * x2) in *. set (d := x1 * y1 + x2 * y2) in *. assert (E : d / n * n = d) by (field; lra).
      f_equal; apply (Rmult_eq_reg_r n); try lra.
      + replace (- - (d / n) * x1 * n) with (d / n * n * x1) by ring. rewrite E. unfold n, d. replace ((x1 * y1 + x2 * y2) * x1) with (x1 * x1 * y1 + x2 * (x1 * y2 - x2 * y1) + x2 * x2 * y1) by ring. rewrite O. ring.
      + replace (- - (d / n) * x2 * n) with (d / n * n * x2) by ring. rewrite E. unfold n, d. replace ((x1 * y1 + x2 * y2) * x2) with (x2 * x2 * y2 - x1 * (x1 * y2 - x2 * y1) + x1 * x1 * y2) by ring. rewrite O. ring.
  Qed.
  Lemma leaving_a : vcross (vsub a p) leaving < 0.
  Proof.
    unfold leaving. destruct (Rlt_dec 0 (orient p a b)) as [H|H]; [unfold orient, vcross, vsub, vscale, vadd in *; cbn [fst snd] in *; lra|].
    destruct (Rlt_dec (orient p a b) 0) as [H'|H']; [unfold orient, vcross, vsub, vscale, vadd in *; cbn [fst snd] in *; lra|].
    pose proof (square_pos a Na) as P. unfold vcross, vdot, vsub, right_of in *. cbn [fst snd] in *. lra.
  Qed.
  Lemma leaving_b : 0 < vcross (vsub b p) leaving.
  Proof.
    unfold leaving. destruct (Rlt_dec 0 (orient p a b)) as [H|H]; [unfold orient, vcross, vsub, vscale, vadd in *; cbn [fst snd] in *; lra|].
    destruct (Rlt_dec (orient p a b) 0) as [H'|H']; [unfold orient, vcross, vsub, vscale, vadd in *; cbn [fst snd] in *; lra|].
    destruct opposite as (k & K & E); [lra|]. pose proof (square_pos a Na) as P. rewrite E. unfold vcross, vdot, vsub, vscale, right_of in *. cbn [fst snd] in *. nra.
  Qed.
  (** a neighbour whose bisector is met in the leaving direction is one of the two ends *)
  Lemma no_way_out w s : In w sites -> w <> p -> inner_side p a b w -> 0 < s -> let q := vadd p (vscale s leaving) in
    dist q p = dist q w -> voronoi_region sites p q -> w = a \/ w = b.
  Proof.
    intros Iw Nw IN S q D R. pose proof (R a Sa) as Ra. pose proof (R b Sb) as Rb. apply dist_le in Ra, Rb. apply dist_eq in D.
    pose proof (gabriel_dot sites p a w GA Iw) as Ga. pose proof (gabriel_dot sites p b w GB Iw) as Gb. pose proof (square_pos w Nw) as PW.
    pose proof leaving_a as LA. pose proof leaving_b as LB.
    assert (Q : vsub q p = vscale s leaving) by (unfold q, vsub, vadd, vscale; cbn [fst snd]; f_equal; lra).
    set (Q0 := vsub q p) in *. set (W := vsub w p) in *. set (A := vsub a p) in *. set (B := vsub b p) in *.
    assert (EW : 2 * vdot W Q0 = vdot W W) by (unfold W, Q0, vdot, vsub in *; cbn [fst snd] in *; lra).
    assert (EA : 2 * vdot A Q0 <= vdot A A) by (unfold A, Q0, vdot, vsub in *; cbn [fst snd] in *; lra).
    assert (EB : 2 * vdot B Q0 <= vdot B B) by (unfold B, Q0, vdot, vsub in *; cbn [fst snd] in *; lra).
    assert (HA : vdot W A <= vdot W W) by (unfold W, A, vdot, vsub in *; cbn [fst snd] in *; lra).
    assert (HB : vdot W B <= vdot W W) by (unfold W, B, vdot, vsub in *; cbn [fst snd] in *; lra).
    assert (CA : 0 < vcross Q0 A) by (rewrite Q; unfold vcross, vscale in *; cbn [fst snd] in *; nra).
    assert (CB : 0 < vcross B Q0) by (rewrite Q; unfold vcross, vscale in *; cbn [fst snd] in *; nra).
    (* which end lies between *)
    assert (SD : (0 <= vcross W Q0 -> 0 <= vcross W B) /\ (vcross W Q0 <= 0 -> 0 <= vcross A W)).
    { unfold inner_side, wedge in IN. unfold orient in IN. fold A B W in IN. unfold leaving in Q. unfold orient in Q. fold A B in Q. pose proof opposite as OP. unfold orient in OP. fold A B in OP.
      destruct (Rlt_dec (vcross A B) 0) as [L|L].
      - destruct (Rlt_dec 0 (vcross A B)) as [L'|L']; [lra|]. rewrite Q. unfold vcross, vscale, vadd in *. cbn [fst snd] in *.
        split; intros H.
        + assert (H' : 0 <= fst W * (snd A + snd B) - snd W * (fst A + fst B)) by nra. apply Rnot_lt_le. intros K. apply IN. split; lra.
        + assert (H' : fst W * (snd A + snd B) - snd W * (fst A + fst B) <= 0) by nra. apply Rnot_lt_le. intros K. apply IN. split; lra.
      - destruct IN as [I1 I2]. unfold vcross in *. split; intros _; lra. }
    clear Q D Ra Rb Ga Gb IN.
    destruct (Rle_lt_dec 0 (vcross W Q0)) as [K|K].
    - right. destruct (between (fst W) (snd W) (fst B) (snd B) (fst Q0) (snd Q0)) as [E1 E2]; try assumption; [apply SD, K|].
      unfold W, B, vsub in E1, E2. cbn [fst snd] in E1, E2. destruct w, b. cbn [fst snd] in *. f_equal; lra.
    - left. apply Rlt_le in K. destruct (between (snd W) (fst W) (snd A) (fst A) (snd Q0) (fst Q0)) as [E1 E2]; try (unfold vdot, vcross in *; lra).
      + unfold W, A, vsub in E1, E2. cbn [fst snd] in E1, E2. destruct w, a. cbn [fst snd] in *. f_equal; lra.
  Qed.
End Plane.
