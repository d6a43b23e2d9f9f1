(** Point containment for doubles on no particular grid. *)
From Coq Require Import Reals Lra Psatz Lia ZArith SpecFloat List Bool Permutation.
From Flocq Require Import Core BinarySingleNaN Relative Plus_error.
From Verif Require Import Base Spec MUtil MGeom MHull MPolygon MMaps MTriangle MRegion MDelaunay Bridge BridgeNum Bridge64 BridgeErr.
From Verif Require Import PUtil PPoint PSegment PFloat PPoly PPoly2 PContains PGrid PGrid2 PGrid3 PGrid5 PErr PErr2 PErr3.
From Verif Require Import PRegion PGrid8.
Import ListNotations.
Local Open Scope R_scope.

Local Notation E := (bpow radix2 (-53)).
Local Notation H := (bpow radix2 (-1075)).

(** differences are rounded without underflow *)
Lemma err_sub x y : fin x -> fin y -> Rabs (rnd (val x - val y) - (val x - val y)) <= E * Rabs (val x - val y).
Proof.
  intros Fx Fy. destruct (fin_as_B _ Fx) as (a & _ & _ & Va), (fin_as_B _ Fy) as (b & _ & _ & Vb). rewrite Va, Vb.
  destruct (FLT_plus_error_N_ex radix2 (-1074) 53 (fun n => negb (Z.even n)) (B2R a) (- B2R b)) as (eps & He & R0).
  - exact (generic_format_B2R 53 1024 a).
  - apply generic_format_opp. exact (generic_format_B2R 53 1024 b).
  - change (rnd (B2R a - B2R b)) with (round radix2 (FLT_exp (-1074) 53) ZnearestE (B2R a + - B2R b)). rewrite R0.
    replace ((B2R a + - B2R b) * (1 + eps) - (B2R a - B2R b)) with (eps * (B2R a - B2R b)) by ring. rewrite Rabs_mult.
    apply Rmult_le_compat_r; [apply Rabs_pos|]. eapply Rle_trans; [exact He|].
    assert (U : u_ro radix2 53 = E) by (unfold u_ro; replace (/ 2) with (bpow radix2 (-1)) by reflexivity; rewrite <- bpow_plus; reflexivity).
    rewrite U. pose proof Ep. apply Rmult_le_reg_r with (1 + E); [lra|]. unfold Rdiv. rewrite Rmult_assoc, Rinv_l by lra. nra.
Qed.
Lemma rnd_id x : fin x -> rnd (val x) = val x.
Proof. intros F. destruct (fin_as_B _ F) as (b & _ & _ & ->). apply round_generic; [auto with typeclass_instances|apply generic_format_B2R]. Qed.
Lemma rnd_mono x y : x <= y -> rnd x <= rnd y.
Proof. intros L. apply round_le; auto with typeclass_instances. Qed.
Lemma rnd_abs x : Rabs (rnd x) = rnd (Rabs x).
Proof. symmetry. apply round_NE_abs; auto with typeclass_instances. Qed.

Section Size.
  Variable M : R.
  Hypothesis SM : scale M.
  Ltac num := unfold K20, K50; lra.

  Lemma M_big : 2 * M <= bpow radix2 1000.
  Proof. destruct SM as [_ S2]. apply Rle_trans with (bpow radix2 1 * bpow radix2 200); [change (bpow radix2 1) with 2; lra|]. rewrite <- bpow_plus. apply bpow_le. lia. Qed.
  Lemma sub_fin x y : fin x -> fin y -> Rabs (val x) <= M -> Rabs (val y) <= M -> fin (@nsub F64 x y) /\ val (@nsub F64 x y) = rnd (val x - val y).
  Proof.
    intros Fx Fy Bx By. apply sub_correct; [exact Fx|exact Fy|]. apply err_big. eapply Rle_trans; [|exact M_big].
    replace (val x - val y) with (val x + - val y) by ring. eapply Rle_trans; [apply Rabs_triang|]. rewrite Rabs_Ropp. lra.
  Qed.

  Lemma app_ratio (x y z : f64) : fin x -> fin y -> fin z -> Rabs (val x) <= M -> Rabs (val y) <= M -> Rabs (val z) <= M ->
    val z - val y <> 0 -> 0 <= (val x - val y) / (val z - val y) <= 1 ->
    app 1 1 5 (@ndiv F64 (@nsub F64 x y) (@nsub F64 z y)) ((val x - val y) / (val z - val y)).
  Proof.
    intros Fx Fy Fz Bx By Bz Nb Ht. destruct (sub_fin x y Fx Fy Bx By) as [Fa Va]. destruct (sub_fin z y Fz Fy Bz By) as [Fb Vb].
    pose proof (err_sub x y Fx Fy) as Ea. pose proof (err_sub z y Fz Fy) as Eb. rewrite <- Va in Ea. rewrite <- Vb in Eb.
    set (fa := @nsub F64 x y) in *. set (fb := @nsub F64 z y) in *. set (a := val x - val y) in *. set (b := val z - val y) in *. clear Va Vb.
    pose proof Ep as PE. assert (E1 : E <= / 1024) by (change (/ 1024) with (bpow radix2 (-10)); apply bpow_le; lia).
    assert (B0 : 0 < Rabs b) by (apply Rabs_pos_lt; exact Nb).
    assert (FB : (1 - E) * Rabs b <= Rabs (val fb)).
    { pose proof (Rabs_triang_inv b (b - val fb)) as T. replace (b - (b - val fb)) with (val fb) in T by ring. rewrite (Rabs_minus_sym b) in T. lra. }
    assert (FB' : 1023 / 1024 * Rabs b <= Rabs (val fb)) by (eapply Rle_trans; [|exact FB]; apply Rmult_le_compat_r; lra).
    assert (N0 : val fb <> 0) by (intros X; rewrite X, Rabs_R0 in FB'; lra).
    set (t := a / b) in *. assert (AT : a = t * b) by (unfold t; field; exact Nb).
    assert (Q : Rabs (val fa / val fb - t) <= 9 / 4 * E).
    { replace (val fa / val fb - t) with (((val fa - a) - t * (val fb - b)) / val fb) by (rewrite AT; field; exact N0).
      unfold Rdiv. rewrite Rabs_mult, Rabs_inv. apply Rmult_le_reg_r with (Rabs (val fb)); [lra|]. rewrite Rmult_assoc, Rinv_l, Rmult_1_r by lra.
      apply Rle_trans with (2 * E * Rabs b).
      - eapply Rle_trans; [apply Rabs_triang|]. rewrite Rabs_Ropp, Rabs_mult, (Rabs_pos_eq t) by lra.
        rewrite AT, Rabs_mult, (Rabs_pos_eq t) in Ea by lra. rewrite AT. 
        assert (0 <= E * Rabs b) by (apply Rmult_le_pos; lra).
        assert (t * Rabs (val fb - b) <= 1 * (E * Rabs b)) by (apply Rmult_le_compat; [lra|apply Rabs_pos|lra|exact Eb]).
        assert (E * (t * Rabs b) <= E * Rabs b) by (apply Rmult_le_compat_l; [lra|]; rewrite <- (Rmult_1_l (Rabs b)) at 2; apply Rmult_le_compat_r; lra). lra.
      - assert (E * (1023 / 1024 * Rabs b) <= E * Rabs (val fb)) by (apply Rmult_le_compat_l; lra). assert (0 < E * Rabs b) by (apply Rmult_lt_0_compat; lra). lra. }
    assert (B2 : Rabs (val fa / val fb) <= 2). { replace (val fa / val fb) with (t + (val fa / val fb - t)) by ring. eapply Rle_trans; [apply Rabs_triang|]. rewrite (Rabs_pos_eq t) by lra. lra. }
    destruct (div_correct fa fb Fa Fb N0) as [Fq Vq]. { apply err_big. eapply Rle_trans; [exact B2|]. change 2 with (bpow radix2 1). apply bpow_le. lia. }
    split; [exact Fq|]. split; [rewrite Rabs_pos_eq; lra|]. rewrite Vq, Rmult_1_r.
    replace (rnd (val fa / val fb) - t) with ((rnd (val fa / val fb) - val fa / val fb) + (val fa / val fb - t)) by ring. eapply Rle_trans; [apply Rabs_triang|].
    pose proof (err_rel (val fa / val fb)) as R1. pose proof (sized_H 1 sized1) as H1.
    assert (E * Rabs (val fa / val fb) <= E * 2) by (apply Rmult_le_compat_l; lra). lra.
  Qed.

  (** the crossing test for an edge, unless it passes the height of [q] close to [q] *)
  Lemma crosses_any (q I J : Point F64) : within M q -> within M I -> within M J ->
    crosses (N := F64) q I J = crosses (N := RNum) (real_point q) (real_point I) (real_point J) \/
    exists t, 0 <= t <= 1 /\ snd (lerp (xyv I) (xyv J) t) = snd (xyv q) /\ Rabs (fst (lerp (xyv I) (xyv J) t) - fst (xyv q)) <= 21 * u53 * M.
  Proof.
    intros Q WI WJ. pose proof (app_x M SM I WI) as AI. pose proof (app_x M SM J WJ) as AJ.
    destruct Q as (Qx & Qy & Q1 & Q2), WI as (Ix & Iy & I1 & I2), WJ as (Jx & Jy & J1 & J2).
    unfold crosses. rewrite !leb_correct, !(ltb_correct (py q)) by assumption.
    cbn [real_point px py]. change (@nleb RNum) with Rleb. change (@nltb RNum) with Rltb.
    match goal with |- (?h && _ = ?h && _) \/ _ => destruct h eqn:HH end; [|now left]. cbn [andb].
    assert (Hab : let a := val (py q) - val (py I) in let b := val (py J) - val (py I) in b <> 0 /\ 0 <= a / b <= 1).
    { cbv zeta. apply orb_true_iff in HH. rewrite !andb_true_iff, !Rleb_iff, !Rltb_iff in HH.
      set (a := val (py q) - val (py I)). set (b := val (py J) - val (py I)). destruct HH as [[H1 H2]|[H1 H2]].
      - assert (0 < b) by (unfold b; lra). split; [lra|]. split.
        + apply Rmult_le_reg_r with b; [assumption|]. unfold Rdiv. rewrite Rmult_assoc, Rinv_l by lra. unfold a. lra.
        + apply Rmult_le_reg_r with b; [assumption|]. unfold Rdiv. rewrite Rmult_assoc, Rinv_l by lra. unfold a, b. lra.
      - assert (0 < -b) by (unfold b; lra). split; [lra|].
        assert (Eq : a / b = (- a) / (- b)) by (field; lra). rewrite Eq. split.
        + apply Rmult_le_reg_r with (- b); [assumption|]. unfold Rdiv. rewrite Rmult_assoc, Rinv_l by lra. unfold a, b in *. lra.
        + apply Rmult_le_reg_r with (- b); [assumption|]. unfold Rdiv. rewrite Rmult_assoc, Rinv_l by lra. unfold a, b in *. lra. }
    cbv zeta in Hab. destruct Hab as [Hb Ht].
    pose proof (app_ratio (py q) (py I) (py J) Qy Iy Jy Q2 I2 J2 Hb Ht) as AT.
    set (t := (val (py q) - val (py I)) / (val (py J) - val (py I))) in *.
    assert (S1 : sized (1 * M)) by (rewrite Rmult_1_l; exact (sizedM M SM)).
    pose proof (app_mul 1 M 1 5 2 3 _ _ _ _ sized1 (sizedM M SM) S1 AT (app_diff M SM _ _ _ _ AJ AI) ltac:(num) ltac:(num) ltac:(num) ltac:(num)) as AP.
    rewrite Rmult_1_l in AP.
    assert (AS : app M 3 21 (@nadd F64 (px I) (@nmul F64 (@ndiv F64 (@nsub F64 (py q) (py I)) (@nsub F64 (py J) (py I))) (@nsub F64 (px J) (px I)))) (val (px I) + t * (val (px J) - val (px I)))).
    { eapply app_mono; [exact (sizedM M SM)|apply app_add; [exact (sizedM M SM)|exact AI|exact AP|num|num]|lra|lra]. }
    destruct AS as (Fs & _ & Ds). rewrite (ltb_correct _ (px q)) by assumption.
    change (@nadd RNum) with Rplus. change (@nmul RNum) with Rmult. change (@nsub RNum) with Rminus. change (@ndiv RNum) with Rdiv. fold t.
    set (v := val (px I) + t * (val (px J) - val (px I))) in *. match goal with |- Rltb ?s _ = _ \/ _ => set (s0 := s) in * end.
    destruct (Rle_or_lt (Rabs (v - val (px q))) (21 * u53 * M)) as [C|C].
    - right. exists t. split; [exact Ht|]. unfold lerp, xyv. cbn [fst snd]. split; [unfold t; field; exact Hb|]. exact C.
    - left. unfold u53 in C. unfold Rltb. destruct (Rlt_dec s0 (val (px q))) as [H1|H1], (Rlt_dec v (val (px q))) as [H2|H2]; try reflexivity; exfalso; revert Ds C; unfold Rabs;
        repeat destruct (Rcase_abs _); lra.
  Qed.

  Section Tol.
    Variable tol : f64.
    Hypothesis Ft : fin tol.
    Hypothesis Tpos : 0 < val tol.

    Lemma near_true x y : fin x -> fin y -> Rabs (val x) <= M -> Rabs (val y) <= M -> @nltb F64 (@nabs F64 (@nsub F64 x y)) tol = true -> Rabs (val x - val y) < val tol.
    Proof.
      intros Fx Fy Bx By. destruct (sub_fin x y Fx Fy Bx By) as [Fa Va]. destruct (abs_correct _ Fa) as [Fb Vb]. rewrite ltb_correct, Rltb_iff, Vb, Va, rnd_abs by assumption.
      intros L. destruct (Rlt_or_le (Rabs (val x - val y)) (val tol)) as [K|K]; [exact K|]. apply rnd_mono in K. rewrite (rnd_id tol Ft) in K. lra.
    Qed.
    Lemma eqb_false a b : within M a -> within M b -> ~ coincide (val tol) (xyv a) (xyv b) -> pt_eqb (N := F64) tol a b = false.
    Proof.
      intros (A1 & A2 & A3 & A4) (B1 & B2 & B3 & B4) C. unfold pt_eqb. apply not_true_is_false. intros K. apply andb_prop in K as [K1 K2]. apply C.
      split; [exact (near_true _ _ A1 B1 A3 B3 K1)|exact (near_true _ _ A2 B2 A4 B4 K2)].
    Qed.
    Lemma between_box v a b : fin v -> fin a -> fin b -> Rabs (val v) <= M -> Rabs (val a) <= M -> Rabs (val b) <= M -> between (N := F64) tol v a b = true ->
      Rmin (val a) (val b) - val tol < val v < Rmax (val a) (val b) + val tol.
    Proof.
      intros Fv Fa Fb Bv Ba Bb. unfold between, near. rewrite !leb_correct by assumption.
      assert (LO : forall x, fin x -> Rabs (val x) <= M -> Rleb (val x) (val v) || @nltb F64 (@nabs F64 (@nsub F64 v x)) tol = true -> val x - val tol < val v).
      { intros x Fx Bx K. apply orb_prop in K as [K|K]; [apply Rleb_iff in K; lra|]. apply near_true in K; try assumption. apply Rabs_def2 in K. lra. }
      assert (HI : forall x, fin x -> Rabs (val x) <= M -> Rleb (val v) (val x) || @nltb F64 (@nabs F64 (@nsub F64 v x)) tol = true -> val v < val x + val tol).
      { intros x Fx Bx K. apply orb_prop in K as [K|K]; [apply Rleb_iff in K; lra|]. apply near_true in K; try assumption. apply Rabs_def2 in K. lra. }
      pose proof (Rmin_l (val a) (val b)). pose proof (Rmin_r (val a) (val b)). pose proof (Rmax_l (val a) (val b)). pose proof (Rmax_r (val a) (val b)).
      intros K. apply orb_prop in K as [K|K]; apply andb_prop in K as [K1 K2]; [apply LO in K1; try assumption; apply HI in K2; try assumption|apply LO in K1; try assumption; apply HI in K2; try assumption]; lra.
    Qed.
    Lemma app_border q a b : within M q -> within M a -> within M b ->
      app (M * M) 6 33 (@nadd F64 (@nadd F64 (@nmul F64 (px a) (@nsub F64 (py b) (py q))) (@nmul F64 (px b) (@nsub F64 (py q) (py a)))) (@nmul F64 (px q) (@nsub F64 (py a) (py b)))) (orient (xyv a) (xyv b) (xyv q)).
    Proof.
      intros Q A B. pose proof (app_x M SM _ Q) as XQ. pose proof (app_x M SM _ A) as XA. pose proof (app_x M SM _ B) as XB.
      pose proof (app_y M SM _ Q) as YQ. pose proof (app_y M SM _ A) as YA. pose proof (app_y M SM _ B) as YB.
      assert (T : forall n x y rn r s, app M 1 0 n rn -> app M 1 0 x r -> app M 1 0 y s -> app (M * M) 2 7 (@nmul F64 n (@nsub F64 x y)) (rn * (r - s))).
      { intros n x y rn r s An X Y. eapply app_mono; [exact (sizedM2 M SM)|apply (app_mul M M 1 0 2 3); [exact (sizedM M SM)|exact (sizedM M SM)|exact (sizedM2 M SM)|exact An|exact (app_diff M SM _ _ _ _ X Y)|num|num|num|num]|lra|lra]. }
      replace (orient (xyv a) (xyv b) (xyv q)) with (val (px a) * (val (py b) - val (py q)) + val (px b) * (val (py q) - val (py a)) + val (px q) * (val (py a) - val (py b)))
        by (unfold orient, vcross, vsub, xyv; cbn [fst snd]; ring).
      eapply app_mono; [exact (sizedM2 M SM)|apply (app_three (M * M) 2 7); [exact (sizedM2 M SM)|num|num|apply T; assumption..]|lra|lra].
    Qed.
    Lemma border_any_sound q a b : within M q -> within M a -> within M b -> seg_contains (N := F64) tol q a b = true ->
      near_segment (val tol + 33 * u53 * (M * M)) (xyv a) (xyv b) (xyv q).
    Proof.
      intros Q A B K. unfold seg_contains in K. apply andb_prop in K as [K K3]. apply andb_prop in K as [K1 K2].
      destruct (app_border q a b Q A B) as (Fo & _ & Do). destruct (abs_correct _ Fo) as [Fb Vb]. rewrite ltb_correct, Rltb_iff, Vb in K3 by assumption.
      pose proof Ep as PE. pose proof (M_pos M SM) as MP. assert (0 < E * (M * M)) by (apply Rmult_lt_0_compat; [lra|]; apply Rmult_lt_0_compat; lra).
      destruct Q as (Q1 & Q2 & Q3 & Q4), A as (A1 & A2 & A3 & A4), B as (B1 & B2 & B3 & B4).
      apply between_box in K1; try assumption. apply between_box in K2; try assumption. unfold near_segment, u53, xyv. cbn [fst snd].
      split; [lra|]. split; [lra|]. unfold xyv in Do. match type of K3 with Rabs ?s < _ => set (s0 := s) in * end. 
      match goal with |- Rabs ?o < _ => set (o0 := o) in * end. pose proof (Rabs_triang s0 (o0 - s0)) as T. replace (s0 + (o0 - s0)) with o0 in T by ring. rewrite (Rabs_minus_sym o0) in T. lra.
    Qed.
    Lemma near_complete x y d : fin x -> fin y -> Rabs (val x) <= M -> Rabs (val y) <= M -> Rabs (val x - val y) < d -> d + 2 * E * M <= val tol -> @nltb F64 (@nabs F64 (@nsub F64 x y)) tol = true.
    Proof.
      intros Fx Fy Bx By L D. destruct (sub_fin x y Fx Fy Bx By) as [Fa Va]. destruct (abs_correct _ Fa) as [Fb Vb]. rewrite ltb_correct, Rltb_iff, Vb, Va by assumption.
      pose proof (err_sub x y Fx Fy) as Er. pose proof Ep as PE.
      assert (S2 : Rabs (val x - val y) <= 2 * M) by (replace (val x - val y) with (val x + - val y) by ring; eapply Rle_trans; [apply Rabs_triang|]; rewrite Rabs_Ropp; lra).
      assert (E * Rabs (val x - val y) <= E * (2 * M)) by (apply Rmult_le_compat_l; lra).
      pose proof (Rabs_triang (val x - val y) (rnd (val x - val y) - (val x - val y))) as T. replace (val x - val y + (rnd (val x - val y) - (val x - val y))) with (rnd (val x - val y)) in T by ring. lra.
    Qed.
    Lemma between_complete v a b d : fin v -> fin a -> fin b -> Rabs (val v) <= M -> Rabs (val a) <= M -> Rabs (val b) <= M -> d + 2 * E * M <= val tol ->
      Rmin (val a) (val b) - d < val v < Rmax (val a) (val b) + d -> between (N := F64) tol v a b = true.
    Proof.
      intros Fv Fa Fb Bv Ba Bb D K. unfold between, near. rewrite !leb_correct by assumption.
      assert (LO : forall x, fin x -> Rabs (val x) <= M -> val x - d < val v -> Rleb (val x) (val v) || @nltb F64 (@nabs F64 (@nsub F64 v x)) tol = true).
      { intros x Fx Bx L. destruct (Rle_or_lt (val x) (val v)) as [Q|Q]; [rewrite (proj2 (Rleb_iff _ _) Q); reflexivity|].
        rewrite (near_complete v x d); try assumption; [apply orb_true_r|]. rewrite Rabs_left; lra. }
      assert (HI : forall x, fin x -> Rabs (val x) <= M -> val v < val x + d -> Rleb (val v) (val x) || @nltb F64 (@nabs F64 (@nsub F64 v x)) tol = true).
      { intros x Fx Bx L. destruct (Rle_or_lt (val v) (val x)) as [Q|Q]; [rewrite (proj2 (Rleb_iff _ _) Q); reflexivity|].
        rewrite (near_complete v x d); try assumption; [apply orb_true_r|]. rewrite Rabs_pos_eq; lra. }
      destruct (Rle_or_lt (val a) (val b)) as [L|L].
      - rewrite Rmin_left, Rmax_right in K by lra. rewrite (LO a), (HI b) by (try assumption; lra). reflexivity.
      - rewrite Rmin_right, Rmax_left in K by lra. rewrite (LO b), (HI a) by (try assumption; lra). cbn [andb]. apply orb_true_r.
    Qed.
    Lemma EM_pos : 0 < E * M /\ 0 < E * (M * M).
    Proof. pose proof Ep as PE. pose proof (M_pos M SM) as MP. split; apply Rmult_lt_0_compat; try lra. apply Rmult_lt_0_compat; lra. Qed.
    Lemma border_any_complete q a b d : within M q -> within M a -> within M b -> d + 33 * u53 * (M * M) + 2 * u53 * M <= val tol ->
      near_segment d (xyv a) (xyv b) (xyv q) -> seg_contains (N := F64) tol q a b = true.
    Proof.
      intros Q A B S0 (N1 & N2 & N3). destruct (app_border q a b Q A B) as (Fo & _ & Do). destruct (abs_correct _ Fo) as [Fb Vb]. pose proof EM_pos as [P1 P2]. unfold u53 in S0.
      destruct Q as (Q1 & Q2 & Q3 & Q4), A as (A1 & A2 & A3 & A4), B as (B1 & B2 & B3 & B4). unfold xyv in N1, N2. cbn [fst snd] in N1, N2.
      unfold seg_contains. rewrite (between_complete (px q) (px a) (px b) d), (between_complete (py q) (py a) (py b) d) by (assumption || lra). cbn [andb].
      rewrite ltb_correct, Rltb_iff, Vb by assumption.
      match type of Do with Rabs (?s - ?o) <= _ => set (s0 := s) in *; set (o0 := o) in * end. pose proof (Rabs_triang o0 (s0 - o0)) as T. replace (o0 + (s0 - o0)) with s0 in T by ring. lra.
    Qed.
    (** an edge that passes the height of [q] close to [q] is near [q] *)
    Lemma passing_near q a b t : within M q -> within M a -> within M b -> 0 <= t <= 1 -> snd (lerp (xyv a) (xyv b) t) = snd (xyv q) ->
      Rabs (fst (lerp (xyv a) (xyv b) t) - fst (xyv q)) <= 21 * u53 * M -> near_segment (43 * u53 * (M * M + M)) (xyv a) (xyv b) (xyv q).
    Proof.
      intros (Q1 & Q2 & Q3 & Q4) (A1 & A2 & A3 & A4) (B1 & B2 & B3 & B4) Ht Hy Hx. pose proof EM_pos as [P1 P2]. unfold u53 in *. unfold near_segment.
      assert (O : orient (xyv a) (xyv b) (xyv q) = (snd (xyv b) - snd (xyv a)) * (fst (lerp (xyv a) (xyv b) t) - fst (xyv q))).
      { unfold orient, vcross, vsub. cbn [fst snd]. rewrite <- Hy. unfold lerp. cbn [fst snd]. ring. }
      assert (LR : forall x y, Rmin x y <= x + t * (y - x) <= Rmax x y) by (intros x y; unfold Rmin, Rmax; destruct (Rle_dec x y); nra).
      split; [|split].
      - pose proof (LR (fst (xyv a)) (fst (xyv b))) as L. change (fst (xyv a) + t * (fst (xyv b) - fst (xyv a))) with (fst (lerp (xyv a) (xyv b) t)) in L.
        revert Hx. unfold Rabs. destruct (Rcase_abs _); lra.
      - pose proof (LR (snd (xyv a)) (snd (xyv b))) as L. change (snd (xyv a) + t * (snd (xyv b) - snd (xyv a))) with (snd (lerp (xyv a) (xyv b) t)) in L. lra.
      - rewrite O, Rabs_mult. apply Rle_lt_trans with (2 * M * (21 * E * M)); [|lra]. apply Rmult_le_compat; try apply Rabs_pos; [|exact Hx].
        unfold xyv. cbn [fst snd]. replace (val (py b) - val (py a)) with (val (py b) + - val (py a)) by ring. eapply Rle_trans; [apply Rabs_triang|]. rewrite Rabs_Ropp. lra.
    Qed.

    Lemma walk_any (q : Point F64) : within M q -> forall l prev b, Forall (within M) (prev :: l) ->
      (forall x, In x (pairs (prev :: l)) -> ~ coincide (val tol) (xyv (snd x)) (xyv (fst x)) /\
         crosses (N := F64) q (snd x) (fst x) = crosses (N := RNum) (real_point q) (real_point (snd x)) (real_point (fst x))) ->
      walk (N := F64) tol q prev b l = walk (N := RNum) (val tol) (real_point q) (real_point prev) b (map real_point l).
    Proof.
      intros Q. induction l as [|v l IH]; intros prev b G K; [reflexivity|]. inversion G as [|? ? Gp G']; subst. inversion G' as [|? ? Gv G'']; subst.
      cbn [walk map]. destruct (K (prev, v)) as [E1 E2]; [rewrite pairs_cons2; now left|]. cbn [fst snd] in E1, E2.
      rewrite (eqb_false v prev Gv Gp E1).
      assert (E3 : pt_eqb (N := RNum) (val tol) (real_point v) (real_point prev) = false).
      { apply not_true_is_false. intros X. apply E1. unfold pt_eqb in X; rnum. apply andb_prop in X as [X1 X2]. apply Rltb_iff in X1, X2. split; assumption. }
      rewrite E3, E2. apply IH; [exact G'|]. intros x Hx. apply K. rewrite pairs_cons2. now right.
    Qed.

    Lemma existsb_dec_near q vs : Forall (within M) vs -> within M q ->
      (exists a b, In (a, b) (edges_of vs) /\ near_segment (43 * u53 * (M * M + M)) (xyv a) (xyv b) (xyv q)) \/
      (forall a b, In (a, b) (edges_of vs) -> crosses (N := F64) q b a = crosses (N := RNum) (real_point q) (real_point b) (real_point a)).
    Proof.
      intros G Q. rewrite Forall_forall in G.
      assert (GE : forall e, In e (edges_of vs) -> within M (fst e) /\ within M (snd e)) by (intros [a b] Hin; destruct (edge_in _ _ _ Hin) as [Ia Ib]; auto).
      revert GE. generalize (edges_of vs) as l. induction l as [|[a b] l IH]; intros GE; [right; intros a b []|].
      destruct IH as [(a' & b' & Hi & N)|N]; [intros e He; apply GE; now right|left; exists a', b'; split; [now right|exact N]|].
      destruct (GE (a, b) (or_introl eq_refl)) as [Wa Wb]. cbn [fst snd] in Wa, Wb. destruct (crosses_any q b a Q Wb Wa) as [K|(t & Ht & K1 & K2)].
      - right. intros a' b' [X|X]; [injection X as <- <-; exact K|exact (N _ _ X)].
      - left. exists a, b. split; [now left|]. apply (passing_near q a b (1 - t)); auto; [lra|rewrite <- K1; unfold lerp; cbn [snd]; ring|].
        unfold lerp in *. cbn [fst] in *. replace (fst (xyv a) + (1 - t) * (fst (xyv b) - fst (xyv a))) with (fst (xyv b) + t * (fst (xyv a) - fst (xyv b))) by ring. exact K2.
    Qed.
    Lemma walk_or_near (q : Point F64) vs : Forall (within M) vs -> within M q -> no_short_edge (val tol) (map xyv vs) ->
      walk (N := F64) tol q (last vs q) false vs = even_odd (xyv q) (map xyv vs) \/
      exists a b, In (a, b) (edges_of vs) /\ near_segment (43 * u53 * (M * M + M)) (xyv a) (xyv b) (xyv q).
    Proof.
      intros G Q NS.
      destruct (existsb_dec_near q vs G Q) as [N|N]; [right; exact N|left].
      destruct vs as [|v vs]; [reflexivity|].
      assert (PE : Permutation (pairs (last (v :: vs) q :: v :: vs)) (edges_of (v :: vs))) by (apply pairs_last_edges; discriminate).
      rewrite (walk_any q Q (v :: vs) (last (v :: vs) q) false).
      - rewrite <- last_map, map_xyv. change (xyv q) with (xy (real_point q)).
        assert (PR : Permutation (pairs (last (map real_point (v :: vs)) (real_point q) :: map real_point (v :: vs))) (edges_of (map real_point (v :: vs)))) by (apply pairs_last_edges; discriminate).
        rewrite walk_parity.
        + rewrite xorb_false_l, even_odd_map. apply parity_perm, Permutation_map. exact PR.
        + rewrite map_xyv in NS. intros e He. apply (no_short_near _ _ NS). apply (Permutation_in _ PR). exact He.
      - constructor; [|exact G]. rewrite Forall_forall in G. apply G. apply last_in. discriminate.
      - intros [a b] Hin. cbn [fst snd]. apply (Permutation_in _ PE) in Hin. split.
        + intros [C1 C2]. apply (NS (xyv a) (xyv b)); [rewrite edges_of_map; apply in_map_iff; exists (a, b); auto|]. rewrite Rabs_minus_sym in C1, C2. split; assumption.
        + apply N. exact Hin.
    Qed.
    Lemma slack_parts : 0 < contain_slack M /\ 43 * u53 * (M * M + M) + (33 * u53 * (M * M) + 2 * u53 * M) < contain_slack M /\ 33 * u53 * (M * M) + 2 * u53 * M < contain_slack M.
    Proof. pose proof EM_pos as [P1 P2]. unfold contain_slack, u53. lra. Qed.
    Lemma near_segment_mono d d' a b q : d <= d' -> near_segment d a b q -> near_segment d' a b q.
    Proof. intros L (N1 & N2 & N3). unfold near_segment. lra. Qed.
    Lemma near_border_mono d d' q vs : d <= d' -> near_border d q vs -> near_border d' q vs.
    Proof. intros L (a & b & H1 & H2). exists a, b. split; [exact H1|exact (near_segment_mono _ _ _ _ _ L H2)]. Qed.
    Lemma segment_any q a b : within M q -> within M a -> within M b ->
      (near_segment (val tol - contain_slack M) (xyv a) (xyv b) (xyv q) -> seg_contains (N := F64) tol q a b = true) /\
      (seg_contains (N := F64) tol q a b = true -> near_segment (val tol + contain_slack M) (xyv a) (xyv b) (xyv q)).
    Proof.
      intros Q A B. pose proof slack_parts as (S1 & S2 & S3). pose proof EM_pos as [P1 P2]. split; intros K.
      - apply (border_any_complete _ _ _ _ Q A B) in K; [exact K|]. lra.
      - apply (border_any_sound _ _ _ Q A B) in K. refine (near_segment_mono _ _ _ _ _ _ K). unfold u53 in *. lra.
    Qed.
    Lemma border_any idx p (q : Point F64) vs : vertices_are p idx vs -> Forall (within M) vs -> within M q ->
      exists b, inEdges (N := F64) tol idx p q = Ok b /\
        (near_border (val tol - contain_slack M) (xyv q) (map xyv vs) -> b = true) /\ (b = true -> near_border (val tol + contain_slack M) (xyv q) (map xyv vs)).
    Proof.
      intros V G Q. rewrite (inEdges_iff (N := F64) tol idx p q vs V). eexists. split; [reflexivity|]. rewrite Forall_forall in G. split.
      - intros (a & b & Hab & N). apply existsb_exists. rewrite edges_of_map in Hab. apply in_map_iff in Hab as ([a' b'] & X & Hab). injection X as <- <-.
        exists (a', b'). split; [exact Hab|]. destruct (edge_in _ _ _ Hab) as [Ia Ib]. apply segment_any; auto.
      - intros K. apply existsb_exists in K as ([a b] & Hin & K). cbn [fst snd] in K. destruct (edge_in _ _ _ Hin) as [Ia Ib].
        exists (xyv a), (xyv b). split; [rewrite edges_of_map; apply in_map_iff; exists (a, b); auto|]. apply segment_any; auto.
    Qed.
    Hypothesis TS : contain_slack M < val tol.
    Lemma contains_any idx p (q : Point F64) vs : vertices_are p idx vs -> Forall (within M) vs -> within M q -> no_short_edge (val tol) (map xyv vs) ->
      exists b, containsPoint (N := F64) tol idx p q = Ok b /\ (inside_or_near (val tol - contain_slack M) (xyv q) (map xyv vs) -> b = true) /\
        (b = true -> inside_or_near (val tol + contain_slack M) (xyv q) (map xyv vs)).
    Proof.
      intros V G Q NS. destruct (border_any idx p q vs V G Q) as (eb & E1 & K1 & K2). rewrite (inEdges_iff (N := F64) tol idx p q vs V) in E1. injection E1 as E1.
      rewrite (containsPoint_walk (N := F64) tol idx p q vs q V), E1. eexists. split; [reflexivity|]. pose proof slack_parts as (S1 & S2 & S3).
      destruct (walk_or_near q vs G Q NS) as [W|(a & b & Hab & N)].
      - rewrite W. split.
        + intros [K|K]; [rewrite K; reflexivity|]. rewrite (K1 K). apply orb_true_r.
        + intros K. apply orb_prop in K as [K|K]; [left; exact K|right; exact (K2 K)].
      - assert (B : eb = true).
        { rewrite <- E1. apply existsb_exists. exists (a, b). split; [exact Hab|]. destruct (edge_in _ _ _ Hab) as [Ia Ib]. rewrite Forall_forall in G.
          apply (border_any_complete q a b (43 * u53 * (M * M + M))); auto. lra. }
        rewrite B, orb_true_r. split; [reflexivity|]. intros _. right. exact (K2 B).
    Qed.
    Lemma contains_border_any idx p (q : Point F64) vs : vertices_are p idx vs -> Forall (within M) vs -> within M q -> on_border (xyv q) (map xyv vs) ->
      containsPoint (N := F64) tol idx p q = Ok true.
    Proof.
      intros V G Q (a & b & Hab & S). rewrite (containsPoint_walk (N := F64) tol idx p q vs q V). f_equal. apply orb_true_iff. right. apply existsb_exists.
      rewrite edges_of_map in Hab. apply in_map_iff in Hab as ([a' b'] & X & Hab). injection X as <- <-. exists (a', b'). split; [exact Hab|].
      destruct (edge_in _ _ _ Hab) as [Ia Ib]. rewrite Forall_forall in G. destruct S as (t & Ht & S). pose proof slack_parts as (S1 & S2 & S3). pose proof EM_pos as [P1 P2].
      apply (border_any_complete q a' b' (43 * u53 * (M * M + M))); auto; [lra|]. apply (passing_near q a' b' t); auto; rewrite S; [reflexivity|].
      rewrite Rminus_diag_eq, Rabs_R0 by reflexivity. unfold u53. lra.
    Qed.
    Lemma contains_convex_any idx p (q : Point F64) vs : vertices_are p idx vs -> Forall (within M) vs -> within M q -> no_short_edge (val tol) (map xyv vs) ->
      strictly_convex (map xyv vs) ->
      ((forall a b, In (a, b) (edges_of (map xyv vs)) -> 0 < orient a b (xyv q)) -> containsPoint (N := F64) tol idx p q = Ok true) /\
      ((exists a b, In (a, b) (edges_of (map xyv vs)) /\ orient a b (xyv q) < 0) ->
       exists b, containsPoint (N := F64) tol idx p q = Ok b /\ (b = true -> near_border (val tol + contain_slack M) (xyv q) (map xyv vs))).
    Proof.
      intros V G Q NS HC. destruct (contains_any idx p q vs V G Q NS) as (b & E1 & H1 & H2). rewrite E1. split.
      - intros Hi. f_equal. apply H1. left. apply convex_interior; assumption.
      - intros Ho. exists b. split; [reflexivity|]. intros K. destruct (H2 K) as [X|X]; [|exact X]. rewrite convex_exterior in X by assumption. discriminate.
    Qed.
    Lemma region_contains_any (r : region F64) (q : Point F64) : region_made r -> region_within M r -> within M q -> no_short_edge (val tol) (map xyv (rg_p r)) ->
      exists b, region_containsPoint (N := F64) tol r q = Ok b /\ (inside_or_near (val tol - contain_slack M) (xyv q) (map xyv (rg_p r)) -> b = true) /\
        (b = true -> inside_or_near (val tol + contain_slack M) (xyv q) (map xyv (rg_p r))).
    Proof.
      intros Hm [G _] Q NS. unfold region_containsPoint. destruct (made_outline r Hm) as (vs & C & HV).
      assert (G' : Forall (within M) vs) by (destruct C as [-> | ->]; [exact G|apply Forall_rev; exact G]). destruct C as [-> | ->].
      - exact (contains_any _ _ q _ HV G' Q NS).
      - assert (NS' : no_short_edge (val tol) (map xyv (rev (rg_p r)))) by (rewrite map_rev; apply no_short_edge_rev; exact NS).
        destruct (contains_any _ _ q _ HV G' Q NS') as (b' & E' & H1 & H2). exists b'. split; [exact E'|]. rewrite map_rev in H1, H2. split.
        + intros K. apply H1. apply inside_or_near_rev. exact K.
        + intros K. apply inside_or_near_rev. exact (H2 K).
    Qed.
    Lemma hole_contains_any (h : hole F64) (q : Point F64) : hole_built h -> Forall (within M) (h_points h) -> within M q -> no_short_edge (val tol) (map xyv (h_points h)) ->
      exists b, hole_containsPoint (N := F64) tol h q = Ok b /\ (inside_or_near (val tol - contain_slack M) (xyv q) (map xyv (h_points h)) -> b = true) /\
        (b = true -> inside_or_near (val tol + contain_slack M) (xyv q) (map xyv (h_points h))).
    Proof. intros Hb G Q NS. rewrite hole_contains_polygon by exact Hb. exact (contains_any _ _ q _ (vertices_trivial _) G Q NS). Qed.
    Lemma domain_any (r : region F64) (q : Point F64) : region_made r -> region_within M r -> within M q -> long_edges tol r ->
      (domain_between (val tol - contain_slack M) (val tol + contain_slack M) r q -> in_domain (N := F64) tol r q) /\
      (in_domain (N := F64) tol r q -> domain_between (val tol + contain_slack M) (val tol - contain_slack M) r q).
    Proof.
      intros Hm [G GH] Q [NS NH]. destruct (region_contains_any r q Hm (conj G GH) Q NS) as (b & E1 & H1 & H2). unfold in_domain, domain_between. rewrite E1.
      destruct (made_inv r Hm) as [_ HB]. rewrite !Forall_forall in *. split; intros [K1 K2].
      - split; [f_equal; exact (H1 K1)|]. intros h Hh. destruct (hole_contains_any h q (HB h Hh) (GH h Hh) Q (NH h Hh)) as (c & Ec & C1 & C2).
        rewrite Ec. destruct c; [|reflexivity]. exfalso. apply (K2 h Hh). exact (C2 eq_refl).
      - injection K1 as ->. split; [exact (H2 eq_refl)|]. intros h Hh X. destruct (hole_contains_any h q (HB h Hh) (GH h Hh) Q (NH h Hh)) as (c & Ec & C1 & C2).
        rewrite (K2 h Hh) in Ec. injection Ec as <-. specialize (C1 X). discriminate.
    Qed.
    Lemma seeding_any (r : region F64) (s : list (Point F64)) : region_made r -> region_within M r -> long_edges tol r -> Forall (within M) s ->
      exists kept, addSeedPoints (N := F64) tol r s = Ok (with_seeds r kept) /\
        (forall q, In q kept -> In q s /\ domain_between (val tol + contain_slack M) (val tol - contain_slack M) r q) /\
        (forall q, In q s -> domain_between (val tol - contain_slack M) (val tol + contain_slack M) r q -> In q kept).
    Proof.
      intros Hm G L S. exists (filter (keeps (N := F64) tol r) s). split; [exact (clean_char (N := F64) tol r s Hm)|]. rewrite Forall_forall in S.
      split; intros q; rewrite filter_In, (keeps_iff (N := F64) tol r q Hm).
      - intros [K1 K2]. split; [exact K1|]. apply domain_any; auto.
      - intros K1 K2. split; [exact K1|]. apply domain_any; auto.
    Qed.
  End Tol.
End Size.
