(** The corners of a Voronoi cell at the border of a convex domain. *)
From Coq Require Import Reals Lra Lia List Psatz.
From Verif Require Import Base Spec PVorGeo PVorConvex.
Import ListNotations.
Local Open Scope R_scope.

(** In the frame of [a]: [Y1], [N1] are products with [a] and [Y2], [N2] crosses with [a]. *)
Lemma frame_side A Y1 Y2 N1 N2 : 0 < A -> 2 * Y1 <= A -> A * N1 <= N1 * N1 + N2 * N2 -> 2 * (Y1 * N1 + Y2 * N2) = N1 * N1 + N2 * N2 ->
  Y2 < 0 -> 0 < N2 -> N1 < 0.
Proof. intros HA HY G E Y N. apply Rnot_le_lt. intros L. assert (2 * Y1 * N1 <= A * N1) by (apply Rmult_le_compat_r; lra). assert (Y2 * N2 < 0) by nra. lra. Qed.
Lemma frame_same A Y1 Y2 N1 M1 M2 : 0 < A -> 2 * Y1 <= A -> A * N1 <= N1 * N1 -> 2 * (Y1 * N1) = N1 * N1 -> 0 < N1 ->
  A * M1 <= M1 * M1 + M2 * M2 -> 2 * (Y1 * M1 + Y2 * M2) = M1 * M1 + M2 * M2 -> Y2 < 0 -> 0 < M2 -> False.
Proof.
  intros HA HY G E P GM EM Y M. assert (N1 = 2 * Y1) by (apply (Rmult_eq_reg_l N1); lra). assert (A <= N1) by (apply (Rmult_le_reg_r N1); lra).
  assert (2 * Y1 = A) by lra. assert (Y2 * M2 < 0) by nra. nra.
Qed.

Definition perp_le (a n : R * R) : Prop := vdot a n <= vdot n n.
(** a center [y] of the triangle 0 n1 n2 does not lie beyond the first ray *)
Lemma center_side (a b n1 n2 y : pt) : a <> (0, 0) -> b <> (0, 0) ->
  0 < vcross a b \/ vcross a b = 0 /\ vdot a b < 0 ->
  0 < vcross n1 n2 -> 0 <= vcross a n1 -> 0 <= vcross a n2 -> 0 <= vcross n1 b -> 0 <= vcross n2 b ->
  perp_le a n1 -> perp_le a n2 -> perp_le b n1 -> perp_le b n2 -> 2 * vdot a y <= vdot a a -> 2 * vdot b y <= vdot b b ->
  2 * vdot n1 y = vdot n1 n1 -> 2 * vdot n2 y = vdot n2 n2 -> 0 <= vcross a y.
Proof.
  intros Na Nb CV O A1 A2 B1 B2 G1 G2 H1 H2 YA YB E1 E2. apply Rnot_lt_le. intros Y.
  assert (SQ : forall v : pt, v <> (0, 0) -> 0 < vdot v v).
  { intros [v1 v2] N. unfold vdot. cbn [fst snd]. destruct (Req_dec v1 0) as [Z1|Z1], (Req_dec v2 0) as [Z2|Z2]; [subst; contradiction|nra|nra|nra]. }
  pose proof (SQ a Na) as PA. pose proof (SQ b Nb) as PB.
  (* products in the frame of a vector *)
  assert (FR : forall v p q : pt, vdot v v * vdot p q = vdot v p * vdot v q + vcross v p * vcross v q) by (intros [? ?] [? ?] [? ?]; unfold vdot, vcross; cbn; ring).
  assert (FC : forall v p q : pt, vdot v v * vcross p q = vdot v p * vcross v q - vcross v p * vdot v q) by (intros [? ?] [? ?] [? ?]; unfold vdot, vcross; cbn; ring).
  assert (SY : forall p q : pt, vdot p q = vdot q p) by (intros [? ?] [? ?]; unfold vdot; cbn; ring).
  assert (AS : forall p q : pt, vcross p q = - vcross q p) by (intros [? ?] [? ?]; unfold vcross; cbn; ring).
  set (A := vdot a a) in *.
  assert (S : forall n, 0 < vcross a n -> perp_le a n -> 2 * vdot n y = vdot n n -> vdot a n < 0).
  { intros n N G E. apply (frame_side A (vdot a y) (vcross a y) (vdot a n) (vcross a n)); auto.
    - rewrite <- FR. fold A. apply Rmult_le_compat_l; [lra|exact G].
    - rewrite <- !FR. fold A. rewrite (SY y n). replace (2 * (A * vdot n y)) with (A * (2 * vdot n y)) by ring. rewrite E. reflexivity. }
  assert (Z : forall n, n <> (0, 0) -> vcross a n = 0 -> vdot a n <> 0).
  { intros n N C D. pose proof (SQ n N) as P. pose proof (FR a n n) as F. rewrite C, D in F. fold A in F. assert (0 < A * vdot n n) by (apply Rmult_lt_0_compat; lra). lra. }
  assert (N1z : n1 <> (0, 0)) by (intros ->; unfold vcross in O; cbn in O; lra).
  assert (N2z : n2 <> (0, 0)) by (intros ->; unfold vcross in O; cbn in O; lra).
  assert (L2 : vdot a n2 < 0).
  { destruct (Rle_lt_or_eq_dec _ _ A2) as [C|C]; [apply S; auto|]. symmetry in C.
    destruct (Rtotal_order (vdot a n2) 0) as [D|[D|D]]; [exact D|exfalso; exact (Z n2 N2z C D)|]. exfalso.
    pose proof (FC a n1 n2) as F. rewrite C in F. fold A in F. assert (0 < A * vcross n1 n2) by (apply Rmult_lt_0_compat; lra). assert (0 <= vcross a n1 * vdot a n2) by (apply Rmult_le_pos; lra). lra. }
  assert (L1 : vdot a n1 < 0).
  { destruct (Rle_lt_or_eq_dec _ _ A1) as [C|C]; [apply S; auto|]. symmetry in C.
    destruct (Rtotal_order (vdot a n1) 0) as [D|[D|D]]; [exact D|exfalso; exact (Z n1 N1z C D)|]. exfalso.
    assert (C2 : 0 < vcross a n2).
    { pose proof (FC a n1 n2) as F. rewrite C in F. fold A in F. assert (P : 0 < A * vcross n1 n2) by (apply Rmult_lt_0_compat; lra). destruct (Rle_lt_or_eq_dec _ _ A2) as [K|K]; [exact K|]. rewrite <- K in F. lra. }
    apply (frame_same A (vdot a y) (vcross a y) (vdot a n1) (vdot a n2) (vcross a n2)); auto.
    - pose proof (FR a n1 n1) as F. rewrite C in F. fold A in F. replace (vdot a n1 * vdot a n1) with (A * vdot n1 n1) by lra. apply Rmult_le_compat_l; [lra|exact G1].
    - pose proof (FR a n1 n1) as F. rewrite C in F. fold A in F. pose proof (FR a y n1) as F'. rewrite C in F'. fold A in F'. rewrite (SY y n1) in F'.
      replace (vdot a n1 * vdot a n1) with (A * vdot n1 n1) by lra. replace (vdot a y * vdot a n1) with (A * vdot n1 y) by lra. rewrite <- E1. ring.
    - rewrite <- FR. fold A. apply Rmult_le_compat_l; [lra|exact G2].
    - rewrite <- !FR. fold A. rewrite (SY y n2). replace (2 * (A * vdot n2 y)) with (A * (2 * vdot n2 y)) by ring. rewrite E2. reflexivity. }
  assert (C1 : 0 < vcross a n1).
  { pose proof (FC a n1 n2) as F. fold A in F. assert (P : 0 < A * vcross n1 n2) by (apply Rmult_lt_0_compat; lra).
    destruct (Rle_lt_or_eq_dec _ _ A1) as [K|K]; [exact K|]. rewrite <- K in F. assert (vdot a n1 * vcross a n2 <= 0) by nra. lra. }
  assert (CB : 0 <= vcross a b) by (destruct CV as [|[K _]]; lra).
  assert (AB : vdot a b <= 0).
  { pose proof (FC a n1 b) as F. fold A in F. assert (0 <= A * vcross n1 b) by (apply Rmult_le_pos; lra). assert (vdot a n1 * vcross a b <= 0) by nra. nra. }
  assert (BN : 0 <= vdot b n1).
  { pose proof (FR a b n1) as F. fold A in F. assert (0 <= vdot a b * vdot a n1) by nra. assert (0 <= vcross a b * vcross a n1) by (apply Rmult_le_pos; lra). apply (Rmult_le_reg_l A); [exact PA|]. lra. }
  (* not beyond the second ray either *)
  assert (YB2 : 0 <= vcross y b).
  { apply Rnot_lt_le. intros K.
    assert (CN : 0 < vcross n1 b).
    { destruct (Rle_lt_or_eq_dec _ _ B1) as [Q|Q]; [exact Q|]. exfalso. pose proof (FC b n1 n2) as F. rewrite (AS b n1), <- Q in F.
      assert (P : 0 < vdot b b * vcross n1 n2) by (apply Rmult_lt_0_compat; lra). rewrite (AS b n2) in F. assert (0 <= vdot b n1 * vcross n2 b) by (apply Rmult_le_pos; lra). lra. }
    assert (D : vdot b n1 < 0); [|lra].
    apply (frame_side (vdot b b) (vdot b y) (vcross y b) (vdot b n1) (vcross n1 b)); auto.
    - pose proof (FR b n1 n1) as F. rewrite (AS b n1) in F. replace (vdot b n1 * vdot b n1 + vcross n1 b * vcross n1 b) with (vdot b b * vdot n1 n1) by lra. apply Rmult_le_compat_l; [lra|exact H1].
    - pose proof (FR b n1 n1) as F. rewrite (AS b n1) in F. pose proof (FR b y n1) as F'. rewrite (AS b n1), (AS b y), (SY y n1) in F'.
      replace (vdot b n1 * vdot b n1 + vcross n1 b * vcross n1 b) with (vdot b b * vdot n1 n1) by lra.
      replace (vdot b y * vdot b n1 + vcross y b * vcross n1 b) with (vdot b b * vdot n1 y) by lra. rewrite <- E1. ring. }
  pose proof (FC a y b) as F. fold A in F. assert (P : 0 <= A * vcross y b) by (apply Rmult_le_pos; lra).
  pose proof (FR a y n1) as F'. fold A in F'. rewrite (SY y n1) in F'. pose proof (SQ n1 N1z) as PN. assert (P' : 0 < A * vdot n1 y) by (apply Rmult_lt_0_compat; lra).
  destruct (Rle_lt_or_eq_dec _ _ CB) as [K|K].
  - assert (0 <= vcross a y * vdot a b) by nra. assert (0 <= vdot a y * vcross a b) by lra. assert (0 <= vdot a y) by (apply (Rmult_le_reg_r (vcross a b)); lra). nra.
  - destruct CV as [Q|[_ Q]]; [lra|]. rewrite <- K in F. assert (0 < vcross a y * vdot a b) by nra. lra.
Qed.
Definition flip (v : pt) : pt := (fst v, - snd v).
Lemma center_side' (a b n1 n2 y : pt) : a <> (0, 0) -> b <> (0, 0) ->
  0 < vcross a b \/ vcross a b = 0 /\ vdot a b < 0 ->
  0 < vcross n1 n2 -> 0 <= vcross a n1 -> 0 <= vcross a n2 -> 0 <= vcross n1 b -> 0 <= vcross n2 b ->
  perp_le a n1 -> perp_le a n2 -> perp_le b n1 -> perp_le b n2 -> 2 * vdot a y <= vdot a a -> 2 * vdot b y <= vdot b b ->
  2 * vdot n1 y = vdot n1 n1 -> 2 * vdot n2 y = vdot n2 n2 -> 0 <= vcross y b.
Proof.
  intros Na Nb CV O A1 A2 B1 B2 G1 G2 H1 H2 YA YB E1 E2.
  assert (FD : forall p q, vdot (flip p) (flip q) = vdot p q) by (intros [? ?] [? ?]; unfold vdot, flip; cbn; ring).
  assert (FC : forall p q, vcross (flip p) (flip q) = vcross q p) by (intros [? ?] [? ?]; unfold vcross, flip; cbn; ring).
  assert (FZ : forall p, p <> (0, 0) -> flip p <> (0, 0)) by (intros [p1 p2] N E; apply N; unfold flip in E; cbn in E; injection E as X1 X2; f_equal; lra).
  rewrite <- FC. apply (center_side (flip b) (flip a) (flip n2) (flip n1) (flip y)); unfold perp_le in *; rewrite ?FD, ?FC; auto.
  destruct CV as [K|[K1 K2]]; [left; exact K|right; split; [exact K1|]]. unfold vdot in *. lra.
Qed.

Section Border.
  Variable sites : list pt.
  Variable p : pt.
  Notation region := (voronoi_region sites p).
  Variables a b : pt.
  Hypothesis Sa : In a sites.
  Hypothesis Sb : In b sites.
  Hypothesis Na : a <> p.
  Hypothesis Nb : b <> p.
  Hypothesis CV : convex_corner p a b.
  Hypothesis GA : gabriel_edge sites p a.
  Hypothesis GB : gabriel_edge sites p b.
  Lemma vsub_nz c : c <> p -> vsub c p <> (0, 0).
  Proof. intros N E. apply N. clear - E. destruct c, p. unfold vsub in E. cbn in *. injection E as E1 E2. f_equal; lra. Qed.
  Lemma mid_dist c : dist (midpoint p c) p = dist (midpoint p c) c.
  Proof. unfold dist, midpoint. cbn [fst snd]. f_equal. field. Qed.
  Lemma gabriel_perp c q : gabriel_edge sites p c -> In q sites -> perp_le (vsub c p) (vsub q p).
  Proof. intros G Hq. pose proof (proj1 (dist_le _ _ _) (G q Hq)) as L. unfold perp_le, vdot, vsub, midpoint in *. cbn [fst snd] in *. lra. Qed.
  Lemma mid_region c : gabriel_edge sites p c -> region (midpoint p c).
  Proof. intros G q Hq. exact (G q Hq). Qed.
  Lemma p_region : region p.
  Proof.
    intros q _. apply dist_le. unfold vdot, vsub; cbn [fst snd]. pose proof (Rle_0_sqr (fst q - fst p)). pose proof (Rle_0_sqr (snd q - snd p)). unfold Rsqr in *. lra.
  Qed.
  (** centers stay in the wedge *)
  Lemma center_wedge n1 n2 c : In n1 sites -> In n2 sites -> wedge p a b n1 -> wedge p a b n2 -> 0 < orient p n1 n2 ->
    dist c p = dist c n1 -> dist c p = dist c n2 -> region c -> wedge p a b c.
  Proof.
    intros I1 I2 [W1 W1'] [W2 W2'] O D1 D2 R. apply dist_eq in D1, D2. pose proof (proj1 (dist_le _ _ _) (R a Sa)) as LA. pose proof (proj1 (dist_le _ _ _) (R b Sb)) as LB.
    assert (AS : forall q, orient p b q = - vcross (vsub q p) (vsub b p)) by (intros q; unfold orient, vcross, vsub; cbn; ring).
    rewrite AS in W1', W2'. unfold wedge. rewrite AS. change (orient p a ?q) with (vcross (vsub a p) (vsub q p)) in *.
    pose proof (gabriel_perp a n1 GA I1) as P1. pose proof (gabriel_perp a n2 GA I2) as P2. pose proof (gabriel_perp b n1 GB I1) as P3. pose proof (gabriel_perp b n2 GB I2) as P4.
    pose proof (vsub_nz a Na) as Za. pose proof (vsub_nz b Nb) as Zb.
    split; [apply (center_side (vsub a p) (vsub b p) (vsub n1 p) (vsub n2 p))|apply Rge_le, Ropp_0_le_ge_contravar, (center_side' (vsub a p) (vsub b p) (vsub n1 p) (vsub n2 p))]; auto; lra.
  Qed.
  Lemma wedge_p : wedge p a b p.
  Proof. unfold wedge, orient, vcross, vsub. cbn [fst snd]. lra. Qed.
  Lemma wedge_mid c : wedge p a b c -> wedge p a b (midpoint p c).
  Proof. unfold wedge, orient, vcross, vsub, midpoint. cbn [fst snd]. lra. Qed.
  Lemma wedge_a : wedge p a b a.
  Proof. destruct CV as [K|[K _]]; unfold wedge, orient, vcross, vsub in *; cbn [fst snd] in *; lra. Qed.
  Lemma wedge_b : wedge p a b b.
  Proof. destruct CV as [K|[K _]]; unfold wedge, orient, vcross, vsub in *; cbn [fst snd] in *; lra. Qed.
  (** the steps along the cell *)
  Lemma step_first n c x : In n sites -> 0 < orient p a n -> dist c p = dist c a -> dist c p = dist c n -> region c -> region x -> 0 <= orient (midpoint p a) c x.
  Proof.
    intros In_ O D1 D2 RC RX. apply dist_eq in D1, D2. pose proof (proj1 (dist_le _ _ _) (mid_region a GA n In_)) as L. pose proof (proj1 (dist_le _ _ _) (RX a Sa)) as LX.
    clear - O D1 D2 L LX. unfold orient, vcross, vdot, vsub, midpoint in *. destruct p as [p1 p2], a as [a1 a2], n as [n1 n2], c as [c1 c2], x as [x1 x2]. cbn [fst snd] in *.
    set (A1 := a1 - p1) in *. set (A2 := a2 - p2) in *. set (B1 := n1 - p1) in *. set (B2 := n2 - p2) in *.
    set (E1 := c1 - (p1 + a1) / 2). set (E2 := c2 - (p2 + a2) / 2).
    assert (H1 : A1 * E1 + A2 * E2 = 0) by (unfold E1, E2, A1, A2 in *; lra). assert (H2 : 0 <= B1 * E1 + B2 * E2) by (unfold E1, E2, A1, A2, B1, B2 in *; lra).
    assert (BB : 0 < A1 * A1 + A2 * A2) by (destruct (Req_dec A1 0) as [Z1|Z1], (Req_dec A2 0) as [Z2|Z2]; [rewrite Z1, Z2 in O; lra|nra|nra|nra]).
    set (k := A1 * E2 - A2 * E1).
    assert (K1 : (A1 * A1 + A2 * A2) * E1 = - k * A2) by (unfold k; replace (- (A1 * E2 - A2 * E1) * A2) with ((A1 * A1 + A2 * A2) * E1 - A1 * (A1 * E1 + A2 * E2)) by ring; rewrite H1; ring).
    assert (K2 : (A1 * A1 + A2 * A2) * E2 = k * A1) by (unfold k; replace ((A1 * E2 - A2 * E1) * A1) with ((A1 * A1 + A2 * A2) * E2 - A2 * (A1 * E1 + A2 * E2)) by ring; rewrite H1; ring).
    assert (K3 : (A1 * A1 + A2 * A2) * (B1 * E1 + B2 * E2) = k * (A1 * B2 - A2 * B1)) by (replace ((A1 * A1 + A2 * A2) * (B1 * E1 + B2 * E2)) with (B1 * ((A1 * A1 + A2 * A2) * E1) + B2 * ((A1 * A1 + A2 * A2) * E2)) by ring; rewrite K1, K2; ring).
    assert (K0 : 0 <= k) by nra.
    set (X1 := x1 - (p1 + a1) / 2). set (X2 := x2 - (p2 + a2) / 2).
    assert (G : (A1 * A1 + A2 * A2) * (E1 * X2 - E2 * X1) = - k * (A1 * X1 + A2 * X2)).
    { replace ((A1 * A1 + A2 * A2) * (E1 * X2 - E2 * X1)) with ((A1 * A1 + A2 * A2) * E1 * X2 - (A1 * A1 + A2 * A2) * E2 * X1) by ring. rewrite K1, K2. ring. }
    assert (LL : A1 * X1 + A2 * X2 <= 0) by (unfold X1, X2, A1, A2 in *; lra). nra.
  Qed.
  Lemma step_last n c x : In n sites -> 0 < orient p n b -> dist c p = dist c n -> dist c p = dist c b -> region x -> 0 <= orient c (midpoint p b) x.
  Proof. intros I O D1 D2 RX. pose proof (mid_dist b) as D. pose proof (mid_region b GB) as R. apply (step_left sites p n b); auto. Qed.
  Lemma step_back x : wedge p a b x -> 0 <= orient (midpoint p b) p x.
  Proof. unfold wedge, orient, vcross, vsub, midpoint. cbn [fst snd]. lra. Qed.
  Lemma step_out x : wedge p a b x -> 0 <= orient p (midpoint p a) x.
  Proof. unfold wedge, orient, vcross, vsub, midpoint. cbn [fst snd]. lra. Qed.
  Lemma step_flat x : orient p a b = 0 -> wedge p a b x -> 0 <= orient (midpoint p b) (midpoint p a) x.
  Proof.
    intros O [W _]. destruct CV as [K|[_ K]]; [lra|]. clear - O W K Na. unfold orient, vcross, vdot, vsub, midpoint in *. destruct p as [p1 p2], a as [a1 a2], b as [b1 b2], x as [x1 x2]. cbn [fst snd] in *.
    set (A1 := a1 - p1) in *. set (A2 := a2 - p2) in *. set (B1 := b1 - p1) in *. set (B2 := b2 - p2) in *. set (X1 := x1 - p1) in *. set (X2 := x2 - p2) in *.
    replace (((p1 + a1) / 2 - (p1 + b1) / 2) * (x2 - (p2 + b2) / 2) - ((p2 + a2) / 2 - (p2 + b2) / 2) * (x1 - (p1 + b1) / 2))
      with ((A1 * X2 - A2 * X1) / 2 - (B1 * X2 - B2 * X1) / 2 - (A1 * B2 - A2 * B1) / 4) by (unfold A1, A2, B1, B2, X1, X2; field).
    rewrite O.
    assert (P : 0 < A1 * A1 + A2 * A2) by (destruct (Req_dec A1 0) as [Z1|Z1], (Req_dec A2 0) as [Z2|Z2]; [rewrite Z1, Z2 in K; lra|nra|nra|nra]).
    assert (E : (A1 * A1 + A2 * A2) * (B1 * X2 - B2 * X1) = (A1 * B1 + A2 * B2) * (A1 * X2 - A2 * X1)).
    { replace ((A1 * A1 + A2 * A2) * (B1 * X2 - B2 * X1)) with ((A1 * B1 + A2 * B2) * (A1 * X2 - A2 * X1) - (A1 * B2 - A2 * B1) * (A1 * X1 + A2 * X2)) by ring. rewrite O. ring. }
    assert (B1 * X2 - B2 * X1 <= 0) by (apply Rnot_lt_le; intros L; assert (0 < (A1 * A1 + A2 * A2) * (B1 * X2 - B2 * X1)) by (apply Rmult_lt_0_compat; lra); nra). lra.
  Qed.
  (** the corners *)
  Lemma mid_a_exposed x : region x -> wedge p a b x -> x <> midpoint p a -> vdot (vadd (vsub a p) (right_of (vsub a p))) x < vdot (vadd (vsub a p) (right_of (vsub a p))) (midpoint p a).
  Proof.
    intros RX [W _] N. pose proof (mid_normal sites p a x RX Sa) as L. pose proof (vsub_nz a Na) as Z.
    clear - W N L Z. unfold orient, vcross, vdot, vsub, vadd, midpoint, right_of in *. destruct p as [p1 p2], a as [a1 a2], x as [x1 x2]. cbn [fst snd] in *.
    apply Rnot_le_lt. intros K. set (A1 := a1 - p1) in *. set (A2 := a2 - p2) in *.
    assert (P : 0 < A1 * A1 + A2 * A2) by (destruct (Req_dec A1 0) as [Z1|Z1], (Req_dec A2 0) as [Z2|Z2]; [rewrite Z1, Z2 in Z; contradiction|nra|nra|nra]).
    set (X1 := x1 - (p1 + a1) / 2). set (X2 := x2 - (p2 + a2) / 2).
    assert (L1 : A1 * X1 + A2 * X2 = 0) by (unfold X1, X2, A1, A2 in *; lra). assert (L2 : A1 * X2 - A2 * X1 = 0) by (unfold X1, X2, A1, A2 in *; lra).
    assert (E1 : (A1 * A1 + A2 * A2) * X1 = 0) by (replace ((A1 * A1 + A2 * A2) * X1) with (A1 * (A1 * X1 + A2 * X2) - A2 * (A1 * X2 - A2 * X1)) by ring; rewrite L1, L2; ring).
    assert (E2 : (A1 * A1 + A2 * A2) * X2 = 0) by (replace ((A1 * A1 + A2 * A2) * X2) with (A2 * (A1 * X1 + A2 * X2) + A1 * (A1 * X2 - A2 * X1)) by ring; rewrite L1, L2; ring).
    apply Rmult_integral in E1 as [E1|E1]; [lra|]. apply Rmult_integral in E2 as [E2|E2]; [lra|]. apply N. unfold X1, X2 in *. f_equal; lra.
  Qed.
  Lemma mid_b_exposed x : region x -> wedge p a b x -> x <> midpoint p b -> vdot (vadd (vsub b p) (left_of (vsub b p))) x < vdot (vadd (vsub b p) (left_of (vsub b p))) (midpoint p b).
  Proof.
    intros RX [_ W] N. pose proof (mid_normal sites p b x RX Sb) as L. pose proof (vsub_nz b Nb) as Z.
    clear - W N L Z. unfold orient, vcross, vdot, vsub, vadd, midpoint, left_of in *. destruct p as [p1 p2], b as [a1 a2], x as [x1 x2]. cbn [fst snd] in *.
    apply Rnot_le_lt. intros K. set (A1 := a1 - p1) in *. set (A2 := a2 - p2) in *.
    assert (P : 0 < A1 * A1 + A2 * A2) by (destruct (Req_dec A1 0) as [Z1|Z1], (Req_dec A2 0) as [Z2|Z2]; [rewrite Z1, Z2 in Z; contradiction|nra|nra|nra]).
    set (X1 := x1 - (p1 + a1) / 2). set (X2 := x2 - (p2 + a2) / 2).
    assert (L1 : A1 * X1 + A2 * X2 = 0) by (unfold X1, X2, A1, A2 in *; lra). assert (L2 : A1 * X2 - A2 * X1 = 0) by (unfold X1, X2, A1, A2 in *; lra).
    assert (E1 : (A1 * A1 + A2 * A2) * X1 = 0) by (replace ((A1 * A1 + A2 * A2) * X1) with (A1 * (A1 * X1 + A2 * X2) - A2 * (A1 * X2 - A2 * X1)) by ring; rewrite L1, L2; ring).
    assert (E2 : (A1 * A1 + A2 * A2) * X2 = 0) by (replace ((A1 * A1 + A2 * A2) * X2) with (A2 * (A1 * X1 + A2 * X2) + A1 * (A1 * X2 - A2 * X1)) by ring; rewrite L1, L2; ring).
    apply Rmult_integral in E1 as [E1|E1]; [lra|]. apply Rmult_integral in E2 as [E2|E2]; [lra|]. apply N. unfold X1, X2 in *. f_equal; lra.
  Qed.
  Lemma p_exposed x : 0 < orient p a b -> wedge p a b x -> x <> p -> vdot (vadd (right_of (vsub a p)) (left_of (vsub b p))) x < vdot (vadd (right_of (vsub a p)) (left_of (vsub b p))) p.
  Proof.
    intros O [W1 W2] N. clear - O W1 W2 N. unfold orient, vcross, vdot, vsub, vadd, right_of, left_of in *. destruct p as [p1 p2], a as [a1 a2], b as [b1 b2], x as [x1 x2]. cbn [fst snd] in *.
    apply Rnot_le_lt. intros K. set (A1 := a1 - p1) in *. set (A2 := a2 - p2) in *. set (B1 := b1 - p1) in *. set (B2 := b2 - p2) in *. set (X1 := x1 - p1) in *. set (X2 := x2 - p2) in *.
    assert (L1 : A1 * X2 - A2 * X1 = 0) by (unfold X1, X2, A1, A2, B1, B2 in *; lra). assert (L2 : B1 * X2 - B2 * X1 = 0) by (unfold X1, X2, A1, A2, B1, B2 in *; lra).
    assert (E1 : (A1 * B2 - A2 * B1) * X1 = 0) by (replace ((A1 * B2 - A2 * B1) * X1) with (B1 * (A1 * X2 - A2 * X1) - A1 * (B1 * X2 - B2 * X1)) by ring; rewrite L1, L2; ring).
    assert (E2 : (A1 * B2 - A2 * B1) * X2 = 0) by (replace ((A1 * B2 - A2 * B1) * X2) with (B2 * (A1 * X2 - A2 * X1) - A2 * (B1 * X2 - B2 * X1)) by ring; rewrite L1, L2; ring).
    apply Rmult_integral in E1 as [E1|E1]; [lra|]. apply Rmult_integral in E2 as [E2|E2]; [lra|]. apply N. unfold X1, X2 in *. f_equal; lra.
  Qed.
End Border.
