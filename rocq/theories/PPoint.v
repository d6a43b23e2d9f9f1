(** Proofs about points, segments, boxes and the configuration. *)
From Coq Require Import Reals Lra Psatz Floats.SpecFloat.
From Verif Require Import Base Spec MUtil MGeom Bridge.

(** * C04/C05 *)
Section PointOrder.
  Variable tol : R.
  Hypothesis tol_pos : (0 < tol)%R.
  Local Open Scope R_scope.

  Lemma Rabs_sym a b : Rabs (a - b) = Rabs (b - a).
  Proof. apply Rabs_minus_sym. Qed.

  Lemma near_false_dec a b : tol <= Rabs (a - b) -> a < b \/ b < a.
  Proof. unfold Rabs. destruct (Rcase_abs (a - b)); lra. Qed.

  Lemma pt_trichotomy (a b : Point RNum) :
    (pt_ltb (N := RNum) tol a b = true /\ pt_ltb (N := RNum) tol b a = false /\ pt_eqb (N := RNum) tol a b = false) \/
    (pt_ltb (N := RNum) tol a b = false /\ pt_ltb (N := RNum) tol b a = true /\ pt_eqb (N := RNum) tol a b = false) \/
    (pt_ltb (N := RNum) tol a b = false /\ pt_ltb (N := RNum) tol b a = false /\ pt_eqb (N := RNum) tol a b = true).
  Proof.
    unfold pt_ltb, pt_eqb; rnum. rewrite (Rabs_sym (px b)), (Rabs_sym (py b)).
    destruct (Rltb_spec (Rabs (px a - px b)) tol) as [H1|H1]; cbn [andb].
    - destruct (Rltb_spec (Rabs (py a - py b)) tol) as [H2|H2]; [auto|].
      destruct (near_false_dec (py a) (py b)) as [H|H]; [lra| |].
      + left. rewrite (Rltb_true _ _ H), (Rltb_false (py b)) by lra. auto.
      + right; left. rewrite (Rltb_true _ _ H), (Rltb_false (py a)) by lra. auto.
    - destruct (near_false_dec (px a) (px b)) as [H|H]; [lra| |].
      + left. rewrite (Rltb_true _ _ H), (Rltb_false (px b)) by lra. auto.
      + right; left. rewrite (Rltb_true _ _ H), (Rltb_false (px a)) by lra. auto.
  Qed.

  Lemma pt_ltb_irrefl (a : Point RNum) : pt_ltb (N := RNum) tol a a = false.
  Proof. destruct (pt_trichotomy a a) as [(H1 & H2 & _)|[(H1 & H2 & _)|(H1 & H2 & _)]]; congruence. Qed.
  Lemma pt_eqb_refl (a : Point RNum) : pt_eqb (N := RNum) tol a a = true.
  Proof.
    unfold pt_eqb; rnum. rewrite !Rminus_eq_0, Rabs_R0, Rltb_true by lra. reflexivity.
  Qed.
  Lemma pt_eqb_sym (a b : Point RNum) : pt_eqb (N := RNum) tol a b = pt_eqb (N := RNum) tol b a.
  Proof. unfold pt_eqb; rnum. rewrite (Rabs_sym (px b)), (Rabs_sym (py b)). reflexivity. Qed.

  Lemma pt_eqb_equivb (a b : Point RNum) : pt_eqb (N := RNum) tol a b = equivb (pt_ltb (N := RNum) tol) a b.
  Proof.
    unfold equivb. destruct (pt_trichotomy a b) as [(-> & -> & ->)|[(-> & -> & ->)|(-> & -> & ->)]]; reflexivity.
  Qed.

  Lemma far_lt a b : tol <= Rabs (a - b) -> a < b -> a + tol <= b.
  Proof. unfold Rabs. destruct (Rcase_abs (a - b)); lra. Qed.
  Lemma far_intro a b : a + tol <= b -> tol <= Rabs (a - b).
  Proof. unfold Rabs. destruct (Rcase_abs (a - b)); lra. Qed.

  (** the coordinate order "less and not close" is a strict weak order when closeness is transitive *)
  Definition clt (a b : R) : Prop := tol <= Rabs (a - b) /\ a < b.

  Lemma clt_iff a b : clt a b <-> a + tol <= b.
  Proof.
    unfold clt. split; [intros [H1 H2]; apply far_lt; assumption|].
    intros H; split; [apply far_intro; assumption|lra].
  Qed.

  Lemma pt_ltb_iff (a b : Point RNum) :
    pt_ltb (N := RNum) tol a b = true <->
    px a + tol <= px b \/ (Rabs (px a - px b) < tol /\ py a + tol <= py b).
  Proof.
    unfold pt_ltb; rnum. destruct (Rltb_spec (Rabs (px a - px b)) tol) as [H1|H1].
    - destruct (Rltb_spec (Rabs (py a - py b)) tol) as [H2|H2].
      + split; [discriminate|]. intros [H|[_ H]]; apply far_intro in H; lra.
      + rewrite Rltb_iff. split.
        * intros H. right. split; [assumption|]. apply far_lt; lra.
        * intros [H|[_ H]]; [apply far_intro in H; lra|lra].
    - rewrite Rltb_iff. split.
      + intros H. left. apply far_lt; lra.
      + intros [H|[H _]]; lra.
  Qed.

  Lemma pt_incomp_iff (a b : Point RNum) :
    incomparable (pt_ltb (N := RNum) tol) a b <-> (Rabs (px a - px b) < tol /\ Rabs (py a - py b) < tol).
  Proof.
    assert (incomparable (pt_ltb (N := RNum) tol) a b <-> pt_eqb (N := RNum) tol a b = true) as ->.
    { rewrite pt_eqb_equivb. unfold equivb, incomparable. rewrite andb_true_iff, !negb_true_iff. reflexivity. }
    unfold pt_eqb; rnum. rewrite andb_true_iff, !Rltb_iff. reflexivity.
  Qed.

  Lemma pt_swo (P : Point RNum -> Prop) : separated tol P -> strict_weak_order_on P (pt_ltb (N := RNum) tol).
  Proof.
    intros S. constructor.
    - intros a _. apply pt_ltb_irrefl.
    - intros a b c Pa Pb Pc. rewrite !pt_ltb_iff.
      destruct (S a b c Pa Pb Pc) as [Sx Sy].
      intros [H1|[H1 H1']] [H2|[H2 H2']].
      + left; lra.
      + left. destruct (S c b a Pc Pb Pa) as [Sx' _].
        rewrite (Rabs_sym c.(px)), (Rabs_sym b.(px)), (Rabs_sym c.(px)) in Sx'.
        (* a + tol <= b, b ~ c : then not a ~ c *)
        assert (tol <= Rabs (px a - px c)) as Hf.
        { destruct (Rle_lt_dec tol (Rabs (px a - px c))) as [?|Hc]; [assumption|].
          destruct (S a c b Pa Pc Pb) as [S' _]. rewrite (Rabs_sym (px c)) in S'.
          specialize (S' Hc H2). apply far_intro in H1. lra. }
        destruct (near_false_dec _ _ Hf) as [H|H]; [apply far_lt; lra|].
        exfalso. rewrite Rabs_sym in Hf. pose proof (far_lt _ _ Hf H). unfold Rabs in H2. destruct (Rcase_abs (px b - px c)); lra.
      + left.
        assert (tol <= Rabs (px a - px c)) as Hf.
        { destruct (Rle_lt_dec tol (Rabs (px a - px c))) as [?|Hc]; [assumption|].
          destruct (S b a c Pb Pa Pc) as [S' _]. rewrite (Rabs_sym (px b) (px a)) in S'.
          specialize (S' H1 Hc). apply far_intro in H2. lra. }
        destruct (near_false_dec _ _ Hf) as [H|H]; [apply far_lt; lra|].
        exfalso. rewrite Rabs_sym in Hf. pose proof (far_lt _ _ Hf H). unfold Rabs in H1. destruct (Rcase_abs (px a - px b)); lra.
      + right. split; [auto|lra].
    - intros a b c Pa Pb Pc. rewrite !pt_incomp_iff. destruct (S a b c Pa Pb Pc) as [Sx Sy]. intuition.
  Qed.
End PointOrder.

(** coordinates that are equal or at least a tolerance apart *)
Lemma separated_grid tol (P : Point RNum -> Prop) :
  (forall a b, P a -> P b -> (px a = px b \/ tol <= Rabs (px a - px b))%R /\ (py a = py b \/ tol <= Rabs (py a - py b))%R) ->
  separated tol P.
Proof.
  intros H a b c Pa Pb Pc. destruct (H a b Pa Pb) as [H1 H2], (H b c Pb Pc) as [H3 H4]. split; intros.
  - destruct H1 as [->|H1]; [assumption|lra].
  - destruct H2 as [->|H2]; [assumption|lra].
Qed.

(** ** finite doubles *)
Section F64Order.
  Variable tol : f64.
  Hypothesis tol_pos : SFltb (S754_zero false) tol = true.

  Lemma SFcompare_antisym x y : finite64 x -> finite64 y ->
    exists c, SFcompare x y = Some c /\ SFcompare y x = Some (CompOpp c).
  Proof.
    destruct x as [s|s| |s m e], y as [s'|s'| |s' m' e']; cbn; intros Hx Hy; try contradiction.
    - exists Eq. auto.
    - destruct s'; eexists; split; reflexivity.
    - destruct s; eexists; split; reflexivity.
    - destruct s, s'; cbn; try (eexists; split; reflexivity).
      + rewrite (Z.compare_antisym e e'). destruct (e ?= e')%Z; cbn;
          try (eexists; split; reflexivity).
        eexists; split; [reflexivity|]. rewrite (Pos.compare_cont_antisym m m' Eq).
        reflexivity.
      + rewrite (Z.compare_antisym e e'). destruct (e ?= e')%Z; cbn;
          try (eexists; split; reflexivity).
        eexists; split; [reflexivity|]. rewrite (Pos.compare_cont_antisym m m' Eq). reflexivity.
  Qed.

  Lemma SFabs_round s1 s2 m e l :
    SFabs (binary_round_aux f64_prec f64_emax s1 m e l) = SFabs (binary_round_aux f64_prec f64_emax s2 m e l).
  Proof.
    unfold binary_round_aux. destruct (shr_fexp _ _ m e l) as [r e1].
    destruct (shr_fexp _ _ _ e1 loc_Exact) as [r2 e2]. destruct (shr_m r2); try reflexivity.
    destruct (e2 <=? f64_emax - f64_prec)%Z; reflexivity.
  Qed.

  Lemma SFabs_normalize m e s :
    SFabs (binary_normalize f64_prec f64_emax m e s) = SFabs (binary_normalize f64_prec f64_emax (- m) e s).
  Proof.
    destruct m; [reflexivity| |]; cbn [Z.opp binary_normalize]; unfold binary_round;
      destruct (shl_align _ _ _); apply SFabs_round.
  Qed.

  Lemma SFabs_sub_sym x y : finite64 x -> finite64 y ->
    SFabs (SFsub f64_prec f64_emax x y) = SFabs (SFsub f64_prec f64_emax y x).
  Proof.
    destruct x as [s|s| |s m e], y as [s'|s'| |s' m' e']; cbn; intros Hx Hy; try contradiction; try reflexivity.
    - destruct s, s'; reflexivity.
    - rewrite (Z.min_comm e' e). rewrite SFabs_normalize. f_equal. f_equal. lia.
  Qed.

  Lemma SFsub_eq x y : finite64 x -> finite64 y -> SFcompare x y = Some Eq ->
    SFltb (SFabs (SFsub f64_prec f64_emax x y)) tol = true.
  Proof.
    destruct x as [s|s| |s m e], y as [s'|s'| |s' m' e']; cbn; intros Hx Hy; try contradiction.
    - intros _. destruct s, s'; exact tol_pos.
    - destruct s'; discriminate.
    - destruct s; discriminate.
    - intros H.
      assert (s = s' /\ e = e' /\ m = m') as (-> & -> & ->).
      { destruct s, s'; try discriminate; destruct (Z.compare_spec e e'); try discriminate; subst; split; auto; split; auto.
        - destruct (Pos.compare_cont Eq m m') eqn:E; try discriminate.
          apply Pos.compare_eq. exact E.
        - destruct (Pos.compare_cont Eq m m') eqn:E; try discriminate.
          apply Pos.compare_eq. exact E. }
      rewrite Z.sub_diag. cbn. exact tol_pos.
  Qed.

  Lemma coord_tri x y : finite64 x -> finite64 y ->
    SFltb (SFabs (SFsub f64_prec f64_emax x y)) tol = false ->
    (SFltb x y = true /\ SFltb y x = false) \/ (SFltb x y = false /\ SFltb y x = true).
  Proof.
    intros Hx Hy H. destruct (SFcompare_antisym x y Hx Hy) as [c [H1 H2]].
    unfold SFltb. rewrite H1, H2. destruct c; cbn; auto.
    rewrite (SFsub_eq x y Hx Hy H1) in H. discriminate.
  Qed.

  Lemma pt64_trichotomy (a b : Point F64) : finite_point a -> finite_point b ->
    (pt_ltb (N := F64) tol a b = true /\ pt_ltb (N := F64) tol b a = false /\ pt_eqb (N := F64) tol a b = false) \/
    (pt_ltb (N := F64) tol a b = false /\ pt_ltb (N := F64) tol b a = true /\ pt_eqb (N := F64) tol a b = false) \/
    (pt_ltb (N := F64) tol a b = false /\ pt_ltb (N := F64) tol b a = false /\ pt_eqb (N := F64) tol a b = true).
  Proof.
    intros [Hax Hay] [Hbx Hby]. unfold pt_ltb, pt_eqb.
    cbn [nsub nabs nltb F64].
    rewrite (SFabs_sub_sym (px b) (px a)), (SFabs_sub_sym (py b) (py a)) by assumption.
    destruct (SFltb (SFabs (SFsub f64_prec f64_emax (px a) (px b))) tol) eqn:E1; cbn [andb].
    - destruct (SFltb (SFabs (SFsub f64_prec f64_emax (py a) (py b))) tol) eqn:E2; [auto|].
      destruct (coord_tri (py a) (py b) Hay Hby E2) as [[-> ->]|[-> ->]]; auto.
    - destruct (coord_tri (px a) (px b) Hax Hbx E1) as [[-> ->]|[-> ->]]; auto.
  Qed.
  Lemma pt64_eqb_refl (a : Point F64) : finite_point a -> pt_eqb (N := F64) tol a a = true.
  Proof.
    intros H. destruct (pt64_trichotomy a a H H) as [(H1 & H2 & _)|[(H1 & H2 & _)|(_ & _ & H3)]]; congruence.
  Qed.
  Lemma pt64_eqb_sym (a b : Point F64) : finite_point a -> finite_point b ->
    pt_eqb (N := F64) tol a b = pt_eqb (N := F64) tol b a.
  Proof.
    intros [Hax Hay] [Hbx Hby]. unfold pt_eqb. cbn [nsub nabs nltb F64].
    rewrite (SFabs_sub_sym (px b) (px a)), (SFabs_sub_sym (py b) (py a)) by assumption. reflexivity.
  Qed.
End F64Order.
