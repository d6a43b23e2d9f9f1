(** Self-intersection, point order and unique lists on doubles with grid coordinates. *)
From Coq Require Import Reals Lra Lia Psatz ZArith SpecFloat List Bool.
From Flocq Require Import Core BinarySingleNaN.
From Verif Require Import Base Spec MUtil MGeom MPolygon MMaps MRegion Bridge BridgeNum PPoint PSegment PFloat PUtil PPoly2 PRegion PGrid PGrid2 PGrid3 PGrid6.
Import ListNotations.
Local Open Scope Z_scope.

(** a quotient of integers with a bounded denominator is 0 or away from 0 *)
Lemma quot_away a b m x : b <> 0 -> Z.abs b <= 2 ^ m -> 0 <= m -> (x = IZR a / IZR b)%R -> (- bpow radix2 (- m) < x)%R -> (0 <= x)%R.
Proof.
  intros Hb Bb Hm E Hx. apply Rnot_lt_le. intros N.
  assert (Bn : IZR b <> 0%R) by (apply IZR_neq; exact Hb).
  assert (A : a <> 0) by (intros ->; rewrite E in N; unfold Rdiv in N; lra).
  assert (X : Rabs x = (IZR (Z.abs a) / IZR (Z.abs b))%R) by (rewrite E; unfold Rdiv; rewrite Rabs_mult, Rabs_inv, !abs_IZR; reflexivity).
  rewrite (Rabs_left x) in X by exact N.
  assert (A1 : (1 <= IZR (Z.abs a))%R) by (apply IZR_le; lia). assert (B1 : (1 <= IZR (Z.abs b))%R) by (apply IZR_le; lia).
  assert (B2 : (IZR (Z.abs b) <= bpow radix2 m)%R) by (rewrite <- IZR_Zpower by exact Hm; apply IZR_le; exact Bb).
  assert (I : (bpow radix2 (- m) <= / IZR (Z.abs b))%R) by (rewrite bpow_opp; apply Rinv_le; lra).
  assert (J : (/ IZR (Z.abs b) <= IZR (Z.abs a) / IZR (Z.abs b))%R).
  { unfold Rdiv. assert (0 < / IZR (Z.abs b))%R by (apply Rinv_0_lt_compat; lra). nra. }
  lra.
Qed.

Section Grid.
  Variable e : Z.
  Hypothesis He : -200 <= e <= 200.
  Notation gp := (grid_point e).
  Notation PF := (Point F64).

  Notation gpm := (gpm e).
  Lemma gpm_gp m q : 0 <= m <= 20 -> gpm m q -> gp q.
  Proof. intros Hm [H1 H2]. assert (2 ^ m <= 2 ^ 20) by (apply Z.pow_le_mono_r; lia). split; eapply grid_mono; eassumption. Qed.

  Lemma params_integers m (a b c d : PF) : 0 <= m <= 20 -> gpm m a -> gpm m b -> gpm m c -> gpm m d ->
    exists D S T, Z.abs D <= 2 ^ (2 * m + 3) /\
      inter_den (N := RNum) (real_point a) (real_point b) (real_point c) (real_point d) = (IZR D * bpow radix2 (2 * e))%R /\
      inter_snum (N := RNum) (real_point a) (real_point b) (real_point c) (real_point d) = (IZR S * bpow radix2 (2 * e))%R /\
      inter_tnum (N := RNum) (real_point a) (real_point b) (real_point c) (real_point d) = (IZR T * bpow radix2 (2 * e))%R.
  Proof.
    intros Hm [[_ (ax & Bax & Vax)] [_ (ay & Bay & Vay)]] [[_ (bx & Bbx & Vbx)] [_ (by_ & Bby & Vby)]]
      [[_ (cx & Bcx & Vcx)] [_ (cy & Bcy & Vcy)]] [[_ (dx & Bdx & Vdx)] [_ (dy & Bdy & Vdy)]].
    exists (- (dx - cx) * (by_ - ay) + (bx - ax) * (dy - cy)), (- (by_ - ay) * (ax - cx) + (bx - ax) * (ay - cy)), ((dx - cx) * (ay - cy) - (dy - cy) * (ax - cx)).
    split.
    - replace (2 * m + 3) with (m + m + 3) by lia. rewrite !Z.pow_add_r by lia. change (2 ^ 3) with 8. set (M := 2 ^ m) in *. nia.
    - unfold inter_den, inter_snum, inter_tnum, real_point; cbn [px py]; rnum. replace (2 * e) with (e + e) by lia.
      rewrite Vax, Vay, Vbx, Vby, Vcx, Vcy, Vdx, Vdy, bpow_plus. rewrite ?plus_IZR, ?minus_IZR, ?mult_IZR, ?opp_IZR, ?minus_IZR. repeat split; ring.
  Qed.

  Lemma within_exact m (a b c d : PF) t s x : 0 <= m <= 20 -> gpm m a -> gpm m b -> gpm m c -> gpm m d -> ~ parallel (xyv a) (xyv b) (xyv c) (xyv d) ->
    (x < bpow radix2 (- (2 * m + 3)))%R -> (- x <= t <= 1 + x)%R -> (- x <= s <= 1 + x)%R ->
    lerp (xyv a) (xyv b) t = lerp (xyv c) (xyv d) s -> (0 <= t <= 1 /\ 0 <= s <= 1)%R.
  Proof.
    intros Hm Ga Gb Gc Gd NP Hx Ht Hs E. destruct (params_integers m a b c d Hm Ga Gb Gc Gd) as (D & S & T & BD & ED & ES & ET).
    assert (NZ : inter_den (N := RNum) (real_point a) (real_point b) (real_point c) (real_point d) <> 0%R).
    { rewrite den_cross. exact NP. }
    destruct (lerp_unique_t (real_point a) (real_point b) (real_point c) (real_point d) t s NZ E) as [Et Es].
    rewrite ED in NZ. assert (D0 : D <> 0) by (intros ->; apply NZ; apply Rmult_0_l). assert (D0' : IZR D <> 0%R) by (apply IZR_neq; exact D0).
    pose proof (bpow_gt_0 radix2 (2 * e)) as P.
    rewrite ED, ET in Et. rewrite ED, ES in Es.
    assert (Qt : t = (IZR T / IZR D)%R) by (rewrite <- Et; field; split; lra).
    assert (Qs : s = (IZR S / IZR D)%R) by (rewrite <- Es; field; split; lra).
    assert (Qt' : (1 - t)%R = (IZR (D - T) / IZR D)%R) by (rewrite Qt, minus_IZR; field; exact D0').
    assert (Qs' : (1 - s)%R = (IZR (D - S) / IZR D)%R) by (rewrite Qs, minus_IZR; field; exact D0').
    pose proof (quot_away _ _ _ _ D0 BD ltac:(lia) Qt) as K1. pose proof (quot_away _ _ _ _ D0 BD ltac:(lia) Qs) as K2.
    pose proof (quot_away _ _ _ _ D0 BD ltac:(lia) Qt') as K3. pose proof (quot_away _ _ _ _ D0 BD ltac:(lia) Qs') as K4. lra.
  Qed.

  Lemma nth_error_xyv vs i a : nth_error vs i = Some a -> nth_error (map xyv vs) i = Some (xyv a).
  Proof. intros H. exact (map_nth_error xyv i vs H). Qed.
  Lemma nth_error_xyv_inv vs i z : nth_error (map xyv vs) i = Some z -> exists a, nth_error vs i = Some a /\ z = xyv a.
  Proof.
    intros H. destruct (nth_error vs i) as [a|] eqn:E; [|apply nth_error_None in E; apply nth_error_Some_lt in H || idtac].
    - exists a. split; [reflexivity|]. rewrite (nth_error_xyv _ _ _ E) in H. congruence.
    - exfalso. assert (i < length (map xyv vs))%nat by (apply nth_error_Some; congruence). rewrite map_length in *. lia.
  Qed.

  Section Tol.
    Variable tol : f64.
    Hypothesis Ft : fin tol.
    Hypothesis Tlo : (bpow radix2 (-50) <= val tol)%R.
    Hypothesis Thi : (val tol <= / 4)%R.

    Lemma crossing_doubles (vs : list PF) : Forall gp vs ->
      (crossing_within 0 (map xyv vs) -> exists i j, non_adjacent (length vs) i j /\ crossing_pair (N := F64) tol vs i j) /\
      ((exists i j, non_adjacent (length vs) i j /\ crossing_pair (N := F64) tol vs i j) -> crossing_within (2 * val tol) (map xyv vs)).
    Proof.
      intros G. rewrite Forall_forall in G. split.
      - intros (i & j & a & b & c & d & NA & Ha & Hb & Hc & Hd & NP & t & s & Ht & Hs & E). rewrite map_length in *.
        apply nth_error_xyv_inv in Ha as (a' & Ha & ->). apply nth_error_xyv_inv in Hb as (b' & Hb & ->).
        apply nth_error_xyv_inv in Hc as (c' & Hc & ->). apply nth_error_xyv_inv in Hd as (d' & Hd & ->).
        exists i, j. split; [exact NA|]. exists a', b', c', d'. repeat (split; [assumption|]).
        destruct (intersects_doubles e He a' b' c' d' (G _ (nth_error_In _ _ Ha)) (G _ (nth_error_In _ _ Hb)) (G _ (nth_error_In _ _ Hc)) (G _ (nth_error_In _ _ Hd)) tol Ft Tlo Thi point0) as (_ & _ & K & _).
        destruct (K NP (lerp (xyv a') (xyv b') t)) as (q & Eq & _); [exists t; split; [lra|reflexivity]|exists s; split; [lra|exact E]|].
        rewrite Eq. reflexivity.
      - intros (i & j & NA & a & b & c & d & Ha & Hb & Hc & Hd & X).
        destruct (intersects_doubles e He a b c d (G _ (nth_error_In _ _ Ha)) (G _ (nth_error_In _ _ Hb)) (G _ (nth_error_In _ _ Hc)) (G _ (nth_error_In _ _ Hd)) tol Ft Tlo Thi point0) as (_ & _ & _ & K).
        destruct (intersects (N := F64) tol a b c d point0) as [r q] eqn:E. cbn [fst] in X. subst r.
        destruct (K q eq_refl) as (NP & _ & _ & t & s & z & Ht & Hs & Z1 & Z2 & _).
        exists i, j, (xyv a), (xyv b), (xyv c), (xyv d). rewrite map_length. split; [exact NA|].
        repeat (split; [apply nth_error_xyv; assumption|]). split; [exact NP|]. exists t, s. split; [lra|]. split; [lra|congruence].
    Qed.
    Lemma crossing_sharp m (vs : list PF) : 0 <= m <= 20 -> Forall (gpm m) vs -> (2 * val tol < bpow radix2 (- (2 * m + 3)))%R ->
      ((exists i j, non_adjacent (length vs) i j /\ crossing_pair (N := F64) tol vs i j) <-> crossing_within 0 (map xyv vs)).
    Proof.
      intros Hm G Hs. assert (G' : Forall gp vs) by (eapply Forall_impl; [|exact G]; intros q; apply gpm_gp; exact Hm).
      destruct (crossing_doubles vs G') as [K1 K2]. split; [|exact K1]. intros K. destruct (K2 K) as (i & j & a & b & c & d & NA & Ha & Hb & Hc & Hd & NP & t & s & Bt & Bs & E).
      exists i, j, a, b, c, d. repeat (split; [assumption|]). exists t, s. rewrite Forall_forall in G.
      apply nth_error_xyv_inv in Ha as (a' & Ha & ->). apply nth_error_xyv_inv in Hb as (b' & Hb & ->).
      apply nth_error_xyv_inv in Hc as (c' & Hc & ->). apply nth_error_xyv_inv in Hd as (d' & Hd & ->).
      destruct (within_exact m a' b' c' d' t s (2 * val tol)%R Hm (G _ (nth_error_In _ _ Ha)) (G _ (nth_error_In _ _ Hb)) (G _ (nth_error_In _ _ Hc)) (G _ (nth_error_In _ _ Hd)) NP Hs) as [X Y];
        [lra|lra|exact E|]. split; [lra|]. split; [lra|exact E].
    Qed.

    Lemma selfintersecting_doubles (p : list PF) idx vs : vertices_are p idx vs -> Forall gp vs ->
      exists b, isSelfIntersecting (N := F64) tol idx p = Ok b /\
        (crossing_within 0 (map xyv vs) -> b = true) /\ (b = true -> crossing_within (2 * val tol) (map xyv vs)) /\
        (forall m, 0 <= m <= 20 -> Forall (gpm m) vs -> (2 * val tol < bpow radix2 (- (2 * m + 3)))%R -> (b = true <-> crossing_within 0 (map xyv vs))).
    Proof.
      intros V G. destruct (isSelfIntersecting_iff (N := F64) tol p idx vs V) as (b & E & Hb). destruct (crossing_doubles vs G) as [K1 K2].
      exists b. split; [exact E|]. split; [intros H; apply Hb, K1, H|]. split; [intros H; apply K2, Hb, H|].
      intros m Hm Gm Hs. rewrite Hb. apply crossing_sharp with m; assumption.
    Qed.
    Lemma mutate_doubles (r : region F64) (pts : list PF) : Forall gp pts ->
      let r' := fst (region_mutate (N := F64) tol r pts) in let o := snd (region_mutate (N := F64) tol r pts) in
      rg_p r' = pts /\ pg_points (rg_poly r') = trivialIndex (length pts) /\ rg_holes r' = rg_holes r /\ rg_seeds r' = rg_seeds r /\
      (crossing_within 0 (map xyv pts) -> o = Err (Throw "Self intersecting polygons are not supported")) /\
      (~ crossing_within (2 * val tol) (map xyv pts) -> o = Ok tt) /\
      (forall m, 0 <= m <= 20 -> Forall (gpm m) pts -> (2 * val tol < bpow radix2 (- (2 * m + 3)))%R ->
        ~ crossing_within 0 (map xyv pts) -> o = Ok tt).
    Proof.
      intros G. cbv zeta. destruct (mutate_char (N := F64) tol r pts) as (M1 & M2 & M3 & M4 & M5 & M6). cbv zeta in *. destruct (crossing_doubles pts G) as [K1 K2].
      repeat (split; [assumption|]). split; [intros H; exact (proj1 (M5 (K1 H)))|]. split; [intros H; apply M6; intros X; apply H, K2, X|].
      intros m Hm Gm Hs H. apply M6. intros X. apply H, (crossing_sharp m pts Hm Gm Hs), X.
    Qed.
  End Tol.

  Section Order.
    Variable tol : f64.
    Hypothesis Ft : fin tol.
    Hypothesis Tpos : (0 < val tol)%R.
    Hypothesis Tle : (val tol <= bpow radix2 e)%R.

    Lemma near_coord x y : grid e (2 ^ 20) x -> grid e (2 ^ 20) y -> near (N := F64) tol x y = true <-> val x = val y.
    Proof.
      intros Gx Gy. rewrite (near_grid e He tol Ft x y Gx Gy). unfold near; rnum. destruct Gx as [_ (k & _ & Vk)], Gy as [_ (l & _ & Vl)].
      destruct (Rltb_spec (Rabs (val x - val y)) (val tol)) as [H|H].
      - split; [|reflexivity]. intros _. destruct (Z.eq_dec k l) as [->|N]; [congruence|]. exfalso.
        replace (val x - val y)%R with (IZR (k - l) * bpow radix2 e)%R in H by (rewrite Vk, Vl, minus_IZR; ring).
        rewrite Rabs_mult, (Rabs_pos_eq (bpow radix2 e)), <- abs_IZR in H by apply bpow_ge_0.
        assert (1 <= IZR (Z.abs (k - l)))%R by (apply IZR_le; lia). pose proof (bpow_gt_0 radix2 e). nra.
      - split; [discriminate|]. intros E. rewrite E, Rminus_diag_eq, Rabs_R0 in H by reflexivity. lra.
    Qed.
    Lemma pt_eqb_doubles (a b : PF) : gp a -> gp b -> pt_eqb (N := F64) tol a b = true <-> xyv a = xyv b.
    Proof.
      intros [Ax Ay] [Bx By]. pose proof (near_coord _ _ Ax Bx) as K1. pose proof (near_coord _ _ Ay By) as K2. unfold near in K1, K2.
      unfold pt_eqb, xyv. rewrite andb_true_iff, K1, K2. split; [intros [-> ->]; reflexivity|intros H; injection H; auto].
    Qed.
    Lemma pt_ltb_doubles (a b : PF) : gp a -> gp b -> pt_ltb (N := F64) tol a b = true <-> lex (xyv a) (xyv b).
    Proof.
      intros [Ax Ay] [Bx By]. pose proof (near_coord _ _ Ax Bx) as K1. pose proof (near_coord _ _ Ay By) as K2. unfold near in K1, K2.
      unfold pt_ltb, lex, xyv; cbn [fst snd]. pose proof (ltb_grid e e (2 ^ 20) (2 ^ 20) _ _ Ax Bx) as LX. pose proof (ltb_grid e e (2 ^ 20) (2 ^ 20) _ _ Ay By) as LY. rewrite LX, LY.
      destruct (@nltb F64 (@nabs F64 (@nsub F64 (px a) (px b))) tol) eqn:E1.
      - pose proof (proj1 K1 eq_refl) as X. destruct (@nltb F64 (@nabs F64 (@nsub F64 (py a) (py b))) tol) eqn:E2.
        + pose proof (proj1 K2 eq_refl) as Y. split; [discriminate|]. lra.
        + destruct (Rltb_spec (val (py a)) (val (py b))); split; intros; try discriminate; try reflexivity; lra.
      - assert (X : val (px a) <> val (px b)) by (intros X; apply K1 in X; discriminate).
        destruct (Rltb_spec (val (px a)) (val (px b))); split; intros; try discriminate; try reflexivity; lra.
    Qed.
    Lemma grid_order : strict_weak_order_on gp (pt_ltb (N := F64) tol) /\
      (forall a b, gp a -> gp b -> equivb (pt_ltb (N := F64) tol) a b = true <-> xyv a = xyv b).
    Proof.
      assert (L : forall a b, gp a -> gp b -> pt_ltb (N := F64) tol a b = false <-> ~ lex (xyv a) (xyv b)).
      { intros a b Ga Gb. rewrite <- (pt_ltb_doubles a b Ga Gb). destruct (pt_ltb (N := F64) tol a b); split; congruence. }
      assert (Q : forall a b, gp a -> gp b -> (pt_ltb (N := F64) tol a b = false /\ pt_ltb (N := F64) tol b a = false) <-> xyv a = xyv b).
      { intros a b Ga Gb. rewrite !L by assumption. unfold lex. destruct (xyv a) as [x y], (xyv b) as [x' y']. cbn [fst snd].
        split; [|intros H; injection H as -> ->; lra]. intros [N1 N2].
        destruct (Rtotal_order x x') as [H|[H|H]]; [exfalso; lra| |exfalso; lra]. destruct (Rtotal_order y y') as [K|[K|K]]; [exfalso; lra| |exfalso; lra]. congruence. }
      split; [split|].
      - intros a Ga. apply L; auto. unfold lex. lra.
      - intros a b c Ga Gb Gc. rewrite !pt_ltb_doubles by assumption. unfold lex. lra.
      - intros a b c Ga Gb Gc H1 H2. apply (Q a c Ga Gc). apply (Q a b Ga Gb) in H1. apply (Q b c Gb Gc) in H2. congruence.
      - intros a b Ga Gb. rewrite <- (Q a b Ga Gb). unfold equivb. rewrite andb_true_iff, !negb_true_iff. reflexivity.
    Qed.
  End Order.
End Grid.

Lemma uniquelist_doubles e (He : -200 <= e <= 200) (tol : f64) (Ft : fin tol) : (0 < val tol <= bpow radix2 e)%R ->
  forall h : list (set_op (Point F64)), (forall o, In o h -> forall x, In x (set_op_elems o) -> grid_point e x) ->
  exists u, ul_run (pt_ltb (N := F64) tol) h = Ok u /\
    (forall q, In q (ul_list u) -> grid_point e q) /\
    NoDup (map xyv (ul_list u)) /\
    (forall x, grid_point e x -> (ul_contains (pt_ltb (N := F64) tol) u x = true <-> In (xyv x) (map xyv (ul_list u)))) /\
    (forall x u' i, grid_point e x -> ul_push_back (pt_ltb (N := F64) tol) u x = (u', i) ->
       (In (xyv x) (map xyv (ul_list u)) /\ ul_list u' = ul_list u \/ ~ In (xyv x) (map xyv (ul_list u)) /\ ul_list u' = ul_list u ++ [x]) /\
       exists y, vget (ul_list u') i = Ok y /\ xyv y = xyv x).
Proof.
  intros [T1 T2] h Hh. destruct (grid_order e He tol Ft T1 T2) as [W EQ].
  destruct (uniquelist_refines_set (Point F64) (grid_point e) (pt_ltb (N := F64) tol) W h Hh) as (u & Eu & L & U & C & PB).
  assert (G : forall q, In q (ul_list u) -> grid_point e q).
  { assert (K : forall h l, (forall q, In q l -> grid_point e q) -> (forall o, In o h -> forall x, In x (set_op_elems o) -> grid_point e x) ->
      forall q, In q (fold_left (set_step (equivb (pt_ltb (N := F64) tol))) h l) -> grid_point e q); [|rewrite L; apply K; [intros q []|exact Hh]].
    clear. assert (SA : forall l x, (forall q, In q l -> grid_point e q) -> grid_point e x -> forall q, In q (set_add (equivb (pt_ltb (N := F64) tol)) l x) -> grid_point e q).
    { intros l x Hl Hx q. unfold set_add. destruct (set_mem _ _ _); [apply Hl|]. intros K. apply in_app_or in K as [K|[<-|[]]]; auto. }
    induction h as [|o h IH]; intros l Hl Hh q; [apply Hl|]. cbn [fold_left]. apply IH; [|intros o' Ho'; apply Hh; now right].
    assert (Ho := Hh o (or_introl eq_refl)). clear - Hl Ho SA. destruct o as [x|xs| |x]; cbn [set_step set_op_elems] in *.
    - apply SA; [exact Hl|apply Ho; now left].
    - revert l Hl. induction xs as [|x xs IH]; intros l Hl; [exact Hl|]. cbn [fold_left]. apply IH; [intros y Hy; apply Ho; now right|]. apply SA; [exact Hl|apply Ho; now left].
    - intros q [].
    - intros q K. apply filter_In in K as [K _]. apply Hl, K. }
  assert (M : forall x, grid_point e x -> set_mem (equivb (pt_ltb (N := F64) tol)) x (ul_list u) = true <-> In (xyv x) (map xyv (ul_list u))).
  { intros x Gx. unfold set_mem. rewrite existsb_exists, in_map_iff. split.
    - intros (y & Hy & K). exists y. split; [|exact Hy]. apply EQ in K; auto.
    - intros (y & K & Hy). exists y. split; [exact Hy|]. apply EQ; auto. }
  exists u. split; [exact Eu|]. split; [exact G|]. split; [|split].
  - apply NoDup_nth_error. intros i j Hi E. rewrite map_length in Hi.
    destruct (nth_error (ul_list u) i) as [a|] eqn:Ea; [|apply nth_error_None in Ea; lia].
    rewrite (map_nth_error xyv i _ Ea) in E. symmetry in E. apply nth_error_xyv_inv in E as (b & Eb & E).
    apply (U i j a b Ea Eb). apply EQ; [eapply G, nth_error_In, Ea|eapply G, nth_error_In, Eb|exact E].
  - intros x Gx. rewrite (C x Gx). apply M, Gx.
  - intros x u' i Gx E. destruct (PB x u' i Gx E) as (L' & y & Ey & Eq). split.
    + rewrite L'. unfold set_add. destruct (set_mem _ x (ul_list u)) eqn:Em.
      * left. split; [apply M; assumption|reflexivity].
      * right. split; [intros K; apply M in K; [congruence|exact Gx]|reflexivity].
    + exists y. split; [exact Ey|]. apply EQ; [|exact Gx|exact Eq].
      assert (In y (ul_list u')) as Hy by (unfold vget in Ey; destruct (i <? 0); [discriminate|]; apply vgetn_ok in Ey; eapply nth_error_In; exact Ey).
      rewrite L' in Hy. unfold set_add in Hy. destruct (set_mem _ x _); [apply G, Hy|]. apply in_app_or in Hy as [Hy|[<-|[]]]; [apply G, Hy|exact Gx].
Qed.
