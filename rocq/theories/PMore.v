(** Proofs about UniqueList queries, segment containment and equality, sign and Pair. *)
From Coq Require Import Reals Lra Psatz.
From Verif Require Import Base Spec MUtil MGeom MTrig MHull MPolygon MMaps MTriangle MGen MRegion MDelaunay MMore Bridge PUtil PPoint PSegment PContains.

(** * UniqueList queries *)
Section Queries.
  Context {A : Type}.
  Variable P : A -> Prop.
  Variables ltb eqb : A -> A -> bool.
  Hypothesis W : strict_weak_order_on P ltb.
  Hypothesis E : forall x y, P x -> P y -> eqb x y = equivb ltb x y.
  Local Open Scope Z_scope.

  Lemma index_from_spec l x i : P x -> (forall y, In y l -> P y) -> 0 <= i ->
    (index_from eqb l x i = -1 /\ forall y, In y l -> equivb ltb y x = false) \/
    (exists n y, index_from eqb l x i = i + Z.of_nat n /\ nth_error l n = Some y /\ equivb ltb y x = true).
  Proof.
    intros Px. revert i; induction l as [|y l IH]; intros i Hl Hi; cbn [index_from].
    - left. split; [reflexivity|intros ? []].
    - rewrite E by (try assumption; apply Hl; left; reflexivity).
      destruct (equivb ltb y x) eqn:Ey.
      + right. exists 0%nat, y. split; [lia|]. split; [reflexivity|assumption].
      + destruct (IH (i + 1)) as [[H1 H2]|(n & z & H1 & H2 & H3)].
        * intros z Hz. apply Hl. right. assumption.
        * lia.
        * left. split; [assumption|]. intros z [<-|Hz]; auto.
        * right. exists (S n), z. split; [lia|]. auto.
  Qed.

  Lemma vec_eqb_spec l1 l2 : (forall y, In y l1 -> P y) -> (forall y, In y l2 -> P y) ->
    (vec_eqb eqb l1 l2 = true <-> Forall2 (fun a b => equivb ltb a b = true) l1 l2).
  Proof.
    revert l2; induction l1 as [|a l1 IH]; intros [|b l2] H1 H2; cbn [vec_eqb].
    - split; constructor.
    - split; [discriminate|inversion 1].
    - split; [discriminate|inversion 1].
    - rewrite andb_true_iff, IH by (intros y Hy; (apply H1 + apply H2); right; assumption).
      rewrite E by ((apply H1 + apply H2); left; reflexivity).
      split; [intros [X Y]; constructor; assumption|inversion 1; subst; split; assumption].
  Qed.

  Lemma queries h1 h2 u1 u2 :
    (forall o, In o h1 -> forall x, In x (set_op_elems o) -> P x) ->
    (forall o, In o h2 -> forall x, In x (set_op_elems o) -> P x) ->
    ul_run ltb h1 = Ok u1 -> ul_run ltb h2 = Ok u2 ->
    let l1 := set_run (equivb ltb) h1 in let l2 := set_run (equivb ltb) h2 in
    (ul_hasCommon ltb u1 u2 = true <-> exists x y, In x l1 /\ In y l2 /\ equivb ltb x y = true) /\
    (forall x, P x -> ul_indexOf eqb u1 x = -1 <-> set_mem (equivb ltb) x l1 = false) /\
    (forall x, P x -> set_mem (equivb ltb) x l1 = true ->
       ul_push_back ltb u1 x = (u1, ul_indexOf eqb u1 x) /\
       exists y, vget l1 (ul_indexOf eqb u1 x) = Ok y /\ equivb ltb y x = true) /\
    (ul_eqb eqb u1 u2 = true <-> Forall2 (fun a b => equivb ltb a b = true) l1 l2) /\
    ul_size u1 = zlen l1 /\
    (forall i, ul_get u1 i = vget l1 i).
  Proof.
    intros H1 H2 R1 R2 l1 l2.
    destruct (ul_run_inv P ltb W h1 ul_empty [] (ul_inv_empty P ltb) eq_refl H1) as (v1 & E1 & I1 & L1).
    destruct (ul_run_inv P ltb W h2 ul_empty [] (ul_inv_empty P ltb) eq_refl H2) as (v2 & E2 & I2 & L2).
    unfold ul_run in *. rewrite R1 in E1. injection E1 as <-. rewrite R2 in E2. injection E2 as <-.
    change (ul_list u1 = l1) in L1. change (ul_list u2 = l2) in L2.
    assert (P1 : forall y, In y l1 -> P y) by (rewrite <- L1; apply (ui_P P ltb u1 I1)).
    assert (P2 : forall y, In y l2 -> P y) by (rewrite <- L2; apply (ui_P P ltb u2 I2)).
    assert (M : forall x l, set_mem (equivb ltb) x l = true <-> exists y, In y l /\ equivb ltb y x = true).
    { intros x l. rewrite set_mem_iff. split; intros (y & Hy & He); exists y; (split; [assumption|]); apply eqv_iff; assumption. }
    split; [|split; [|split; [|split; [|split]]]].
    - unfold ul_hasCommon. rewrite existsb_exists, L2. split.
      + intros (y & Hy & C). apply (ul_contains_iff P ltb W u1 y I1 (P2 y Hy)) in C as (x & Hx & C).
        exists x, y. rewrite <- L1. split; [assumption|]. split; [assumption|]. apply eqv_iff. assumption.
      + intros (x & y & Hx & Hy & C). exists y. split; [assumption|]. apply (ul_contains_iff P ltb W u1 y I1 (P2 y Hy)).
        exists x. rewrite L1. split; [assumption|]. apply eqv_iff. assumption.
    - intros x Px. unfold ul_indexOf, indexOf. rewrite L1.
      destruct (index_from_spec l1 x 0 Px P1) as [[Hi Hn]|(n & y & Hi & Hn & He)]; [lia| |].
      + split; [intros _|intros _; assumption]. destruct (set_mem (equivb ltb) x l1) eqn:Em; [|reflexivity].
        apply M in Em as (y & Hy & He). rewrite (Hn y Hy) in He. discriminate.
      + split; [lia|]. intros Em. exfalso.
        assert (set_mem (equivb ltb) x l1 = true) by (apply M; exists y; split; [eapply nth_error_In; eassumption|assumption]). congruence.
    - intros x Px Em. unfold ul_indexOf, indexOf. rewrite L1.
      destruct (index_from_spec l1 x 0 Px P1) as [[Hi Hn]|(n & y & Hi & Hn & He)]; [lia| |].
      + exfalso. apply M in Em as (y & Hy & He). rewrite (Hn y Hy) in He. discriminate.
      + rewrite Hi, Z.add_0_l.
        destruct (ul_push_back ltb u1 x) as [u' i] eqn:Ep.
        destruct (ul_push_back_spec P ltb W u1 x u' i I1 Px Ep) as [_ Hs]. rewrite L1, Em in Hs.
        destruct Hs as [-> (z & Hz0 & Hz & Hzx)]. split.
        * f_equal. assert (Z.to_nat i = n); [|lia].
          apply (ul_inv_distinct P ltb u1 (Z.to_nat i) n z y I1); try (rewrite L1; assumption).
          assert (Py : P y) by (apply P1; eapply nth_error_In; eassumption).
          assert (Pz : P z) by (apply P1; eapply nth_error_In; eassumption).
          apply eqv_iff in He. destruct He as [Y1 Y2], Hzx as [Z1 Z2].
          split; [apply (swo_neg P ltb W z x y)|apply (swo_neg P ltb W y x z)]; assumption.
        * exists y. split; [apply vget_ok; split; [lia|rewrite Nat2Z.id; assumption]|assumption].
    - unfold ul_eqb. rewrite L1, L2. apply vec_eqb_spec; assumption.
    - unfold ul_size. rewrite L1. reflexivity.
    - intros i. unfold ul_get. rewrite L1. reflexivity.
  Qed.
End Queries.

(** * Segments *)
Section Segs.
  Local Open Scope R_scope.
  Notation Pt := (Point RNum).

  Lemma orient_lerp a b c d t : orient a b (lerp c d t) = (1 - t) * orient a b c + t * orient a b d.
  Proof. unfold orient, vcross, vsub, lerp; cbn [fst snd]. ring. Qed.

  Lemma conv_open lo hi x y t : 0 <= t <= 1 -> lo < x < hi -> lo < y < hi -> lo < x + t * (y - x) < hi.
  Proof.
    intros [T0 T1] [X0 X1] [Y0 Y1].
    destruct (Rle_dec x y); split; nra.
  Qed.

  Lemma near_segment_convex tol a b c d t : 0 <= t <= 1 -> near_segment tol a b c -> near_segment tol a b d ->
    near_segment tol a b (lerp c d t).
  Proof.
    intros Ht (X1 & Y1 & O1) (X2 & Y2 & O2). split; [|split].
    - unfold lerp; cbn [fst]. apply conv_open; assumption.
    - unfold lerp; cbn [snd]. apply conv_open; assumption.
    - rewrite orient_lerp. apply Rabs_def2 in O1 as [? ?]. apply Rabs_def2 in O2 as [? ?].
      replace ((1 - t) * orient a b c + t * orient a b d) with (orient a b c + t * (orient a b d - orient a b c)) by ring.
      apply Rabs_def1; apply (conv_open (- tol) tol); auto; split; assumption.
  Qed.

  Lemma lerp0 a b : lerp a b 0 = a.
  Proof. destruct a, b. unfold lerp; cbn [fst snd]. f_equal; ring. Qed.
  Lemma lerp1 a b : lerp a b 1 = b.
  Proof. destruct a, b. unfold lerp; cbn [fst snd]. f_equal; ring. Qed.

  Lemma near_segment_both tol a b c d : near_segment tol a b c /\ near_segment tol a b d <->
    forall t, 0 <= t <= 1 -> near_segment tol a b (lerp c d t).
  Proof.
    split.
    - intros [H1 H2] t Ht. apply near_segment_convex; assumption.
    - intros H. split; [rewrite <- (lerp0 c d)|rewrite <- (lerp1 c d)]; apply H; lra.
  Qed.

  Lemma vget_vertex (p : list Pt) k v : (0 <= k)%Z /\ nth_error p (Z.to_nat k) = Some v -> vget p k = Ok v.
  Proof. intros H. apply vget_ok. assumption. Qed.

  Lemma isContained_iff tol (p : list Pt) (s : Z * Z) (a b : Pt) (ps : pseg RNum) : 0 < tol -> vertices_are p [fst s; snd s] [a; b] ->
    exists r, iseg_isContained (N := RNum) tol p s ps = Ok r /\
      (r = true <-> forall t, 0 <= t <= 1 -> near_segment tol (xy (fst ps)) (xy (snd ps)) (lerp (xy a) (xy b) t)).
  Proof.
    intros Ht H. inversion H as [|? ? ? ? Ha H']. subst. inversion H' as [|? ? ? ? Hb _]. subst. clear H H'.
    unfold iseg_isContained. rewrite (vget_vertex _ _ _ Ha). cbn [bind].
    destruct (seg_contains (N := RNum) tol a (fst ps) (snd ps)) eqn:E1.
    - rewrite (vget_vertex _ _ _ Hb). cbn [bind]. eexists. split; [reflexivity|].
      rewrite <- near_segment_both, <- !near_segment_iff by assumption. tauto.
    - exists false. split; [reflexivity|].
      rewrite <- near_segment_both, <- !near_segment_iff by assumption. intuition congruence.
  Qed.

  Lemma contains_seg_iff tol (p : list Pt) (s o : Z * Z) (a b c d : Pt) : 0 < tol -> vertices_are p [fst s; snd s; fst o; snd o] [a; b; c; d] ->
    exists r, iseg_contains_seg (N := RNum) tol p s o = Ok r /\
      (r = true <-> forall t, 0 <= t <= 1 -> near_segment tol (xy a) (xy b) (lerp (xy c) (xy d) t)).
  Proof.
    intros Ht H. inversion H as [|? ? ? ? Ha H1]. subst. inversion H1 as [|? ? ? ? Hb H2]. subst.
    inversion H2 as [|? ? ? ? Hc H3]. subst. inversion H3 as [|? ? ? ? Hd _]. subst. clear H H1 H2 H3.
    unfold iseg_contains_seg, iseg_contains. rewrite (vget_vertex _ _ _ Ha), (vget_vertex _ _ _ Hb), (vget_vertex _ _ _ Hc). cbn [bind].
    destruct (seg_contains (N := RNum) tol c a b) eqn:E1.
    - rewrite (vget_vertex _ _ _ Hd). cbn [bind]. eexists. split; [reflexivity|].
      rewrite <- near_segment_both, <- !near_segment_iff by assumption. tauto.
    - exists false. split; [reflexivity|].
      rewrite <- near_segment_both, <- !near_segment_iff by assumption. intuition congruence.
  Qed.

  Lemma collinear_orient tol (a b c : Pt) : collinear (N := RNum) tol a b c = true <-> Rabs (orient (xy a) (xy b) (xy c)) < tol.
  Proof.
    unfold collinear. rnum. rewrite Rltb_iff.
    replace (area2 (N := RNum) a b c) with (orient (xy a) (xy b) (xy c)); [reflexivity|].
    unfold area2, crossProduct, pt_sub, mkP, orient, vcross, vsub, xy; rnum. cbn [px py fst snd]. ring.
  Qed.

  Lemma collinear_segs_iff tol (s1 s2 : pseg RNum) : collinear_segs (N := RNum) tol s1 s2 = true <->
    forall t, 0 <= t <= 1 -> Rabs (orient (xy (fst s1)) (xy (snd s1)) (lerp (xy (fst s2)) (xy (snd s2)) t)) < tol.
  Proof.
    unfold collinear_segs. rewrite andb_true_iff, !collinear_orient. split.
    - intros [H1 H2] t Ht. rewrite orient_lerp. revert H1 H2. generalize (orient (xy (fst s1)) (xy (snd s1)) (xy (fst s2))) (orient (xy (fst s1)) (xy (snd s1)) (xy (snd s2))). intros u v H1 H2.
      replace ((1 - t) * u + t * v) with (u + t * (v - u)) by ring.
      apply Rabs_def2 in H1 as [? ?]. apply Rabs_def2 in H2 as [? ?]. apply Rabs_def1; apply (conv_open (- tol) tol); auto; split; assumption.
    - intros H. split; [rewrite <- (lerp0 (xy (fst s2)) (xy (snd s2)))|rewrite <- (lerp1 (xy (fst s2)) (xy (snd s2)))]; apply H; lra.
  Qed.

  Lemma collinear_segs_asym tol : 0 < tol -> exists s1 s2 : pseg RNum,
    collinear_segs (N := RNum) tol s1 s2 = true /\ collinear_segs (N := RNum) tol s2 s1 = false.
  Proof.
    intros Ht. exists (mkP (N := RNum) 0 0, mkP (N := RNum) 0 0), (mkP (N := RNum) 0 1, mkP (N := RNum) (2 * tol) 1). split.
    - unfold collinear_segs. rewrite andb_true_iff, !collinear_orient.
      unfold orient, vcross, vsub, xy; cbn. split; apply Rabs_def1; lra.
    - apply not_true_is_false. unfold collinear_segs. rewrite andb_true_iff, !collinear_orient. intros [H _]. revert H.
      unfold orient, vcross, vsub, xy; cbn. intros H. apply Rabs_def2 in H. lra.
  Qed.

  Lemma pseg_eqb_iff tol (s1 s2 : pseg RNum) :
    (pseg_eqb (N := RNum) tol s1 s2 = true <->
      (coincide tol (xy (fst s1)) (xy (fst s2)) /\ coincide tol (xy (snd s1)) (xy (snd s2))) \/
      (coincide tol (xy (fst s1)) (xy (snd s2)) /\ coincide tol (xy (snd s1)) (xy (fst s2)))) /\
    pseg_eqb (N := RNum) tol s1 s2 = pseg_eqb (N := RNum) tol s2 s1 /\
    pseg_eqb (N := RNum) tol s1 s2 = pseg_eqb (N := RNum) tol (snd s1, fst s1) s2 /\
    (0 < tol -> pseg_eqb (N := RNum) tol s1 s1 = true).
  Proof.
    assert (G : forall a b, pseg_eqb (N := RNum) tol a b = true <->
      (coincide tol (xy (fst a)) (xy (fst b)) /\ coincide tol (xy (snd a)) (xy (snd b))) \/
      (coincide tol (xy (fst a)) (xy (snd b)) /\ coincide tol (xy (snd a)) (xy (fst b)))).
    { intros a b. unfold pseg_eqb. rewrite orb_true_iff, !andb_true_iff, !coincide_iff. reflexivity. }
    assert (S : forall a b : pt, coincide tol a b <-> coincide tol b a).
    { intros a b. unfold coincide. rewrite (Rabs_minus_sym (fst a)), (Rabs_minus_sym (snd a)). reflexivity. }
    split; [apply G|]. split; [|split].
    - apply eq_true_iff_eq. rewrite !G, (S (xy (fst s2))), (S (xy (snd s2))), (S (xy (fst s2)) (xy (snd s1))), (S (xy (snd s2)) (xy (fst s1))). tauto.
    - apply eq_true_iff_eq. rewrite !G. cbn [fst snd]. tauto.
    - intros Ht. apply G. left. unfold coincide. rewrite !Rminus_diag_eq, Rabs_R0 by reflexivity. auto.
  Qed.
End Segs.

(** * sign and Pair *)
Section SignPair.
  Lemma sign_int_sgn x : sign_int x = Z.sgn x.
  Proof.
    unfold sign_int. destruct (x >? 0)%Z eqn:E1, (x <? 0)%Z eqn:E2; try lia.
  Qed.
  Local Open Scope R_scope.
  Lemma sign_num_R x : IZR (sign_num (N := RNum) x) * Rabs x = x /\ (sign_num (N := RNum) x = 0%Z <-> x = 0).
  Proof.
    unfold sign_num. rnum. unfold Rltb. change (nT RNum) with R in *.
    destruct (Rlt_dec 0 x), (Rlt_dec x 0); cbn; try lra.
    - rewrite Rabs_right by lra. split; [lra|]. split; [discriminate|lra].
    - rewrite Rabs_left by lra. split; [lra|]. split; [discriminate|lra].
    - assert (x = 0) by lra. subst. rewrite Rabs_R0. split; [lra|tauto].
  Qed.
End SignPair.
