(** Proofs about the walk around a vertex. *)
From Coq Require Import Reals Lra Permutation Sorted.
From Verif Require Import Base Spec MUtil MGeom MHull MPolygon MMaps MTriangle MGen MRegion MDelaunay MVoronoi Bridge.
From Verif Require Import PUtil PPoint PSegment PMaps PPoly PPoly2 PTri PDelaunay PVoronoi.
Local Open Scope Z_scope.
Local Arguments zlen : simpl never.

(** * Fans *)
Lemma nth_get {B} (l : list B) i : (i < length l)%nat -> exists x, nth_error l i = Some x.
Proof. intros H. destruct (nth_error l i) eqn:E; [eauto|]. apply nth_error_None in E. lia. Qed.
Section Fans.
  Variable tris : list (Z * Z * Z).
  Variable v : Z.
  Hypothesis C : forall t, In t tris -> NoDup (corners t).
  Notation fan := (sector tris v).

  Lemma fan_len W ts : fan W ts -> length W = S (length ts).
  Proof. induction 1; cbn in *; congruence. Qed.
  Lemma fan_nth W ts : fan W ts -> forall i k, nth_error ts i = Some k ->
    exists a b t, nth_error W i = Some a /\ nth_error W (S i) = Some b /\ nth_error tris k = Some t /\
      has_side (v, a) t = true /\ has_side (v, b) t = true /\ a <> b.
  Proof.
    induction 1 as [w|w w' ws k ts t H1 H2 H3 H4 F IH]; intros [|i] j H; try discriminate; cbn [nth_error] in *.
    - injection H as <-. exists w, w', t. auto 10.
    - destruct (IH _ _ H) as (a & b & t' & Q). exists a, b, t'. exact Q.
  Qed.
  Lemma fan_app A x B ta tb : fan (A ++ [x]) ta -> fan (x :: B) tb -> fan (A ++ x :: B) (ta ++ tb).
  Proof.
    revert ta. induction A as [|a A IH]; intros ta H1 H2; cbn [app] in *.
    - inversion H1; subst. exact H2.
    - destruct A as [|a' A]; cbn [app] in *.
      + inversion H1 as [|? ? ? k ts t P1 P2 P3 P4 P5]; subst. inversion P5; subst. cbn [app]. econstructor; eassumption.
      + inversion H1 as [|? ? ? k ts t P1 P2 P3 P4 P5]; subst. cbn [app]. econstructor; eauto.
  Qed.
  Lemma fan_split A x B ts : fan (A ++ x :: B) ts -> exists ta tb, ts = ta ++ tb /\ fan (A ++ [x]) ta /\ fan (x :: B) tb.
  Proof.
    revert ts. induction A as [|a A IH]; intros ts H; cbn [app] in *.
    - exists [], ts. split; [reflexivity|]. split; [constructor|assumption].
    - destruct A as [|a' A]; cbn [app] in *; inversion H as [|? ? ? k ts' t P1 P2 P3 P4 P5]; subst.
      + exists [k], ts'. split; [reflexivity|]. split; [|assumption]. econstructor; eauto. constructor.
      + destruct (IH _ P5) as (ta & tb & -> & F1 & F2). exists (k :: ta), tb. split; [reflexivity|]. split; [|assumption]. econstructor; eauto.
  Qed.
  Lemma fan_rev W ts : fan W ts -> fan (rev W) (rev ts).
  Proof.
    induction 1 as [w|w w' ws k ts t H1 H2 H3 H4 F IH]; [constructor|]. cbn [rev] in *. rewrite <- app_assoc. cbn [app].
    apply fan_app; [exact IH|]. econstructor; eauto. constructor.
  Qed.
  Lemma two_sides t a b c : NoDup (corners t) -> has_side (v, a) t = true -> has_side (v, b) t = true -> a <> b -> has_side (v, c) t = true -> c = a \/ c = b.
  Proof.
    destruct t as [[p q] r]. rewrite !has_side_iff. cbn [corners]. intros ND. inversion_clear ND as [|? ? N1 N2]. inversion_clear N2 as [|? ? N3 _].
    cbn [In] in *. intros. assert (p <> q /\ p <> r /\ q <> r) as (? & ? & ?) by intuition congruence. clear N1 N3.
    repeat match goal with H : _ \/ _ |- _ => destruct H | H : _ /\ _ |- _ => destruct H end; subst; try congruence; auto.
  Qed.
  Lemma in_tris k t : nth_error tris k = Some t -> In t tris.
  Proof. apply nth_error_In. Qed.

  (** paths whose points differ, except that both ends may be the same *)
  Definition simple (W : list Z) : Prop := forall i j w, (i < j)%nat -> nth_error W i = Some w -> nth_error W j = Some w ->
    i = 0%nat /\ S j = length W /\ (4 <= length W)%nat.
  Lemma NoDup_simple W : NoDup W -> simple W.
  Proof.
    intros ND i j w L Hi Hj. exfalso. apply NoDup_nth_error with (i := i) (j := j) in ND; [lia| |congruence].
    apply nth_error_Some. congruence.
  Qed.
  Lemma closed_simple w ws : NoDup (w :: ws) -> (3 <= length (w :: ws))%nat -> simple (w :: ws ++ [w]).
  Proof.
    intros ND L i j x H Hi Hj. pose proof (proj1 (NoDup_nth_error _) ND) as U. rewrite app_comm_cons in Hi, Hj.
    assert (Lj : (j < length ((w :: ws) ++ [w]))%nat) by (apply nth_error_Some; congruence). rewrite app_length in Lj. cbn [length] in *.
    rewrite nth_error_app1 in Hi by (cbn [length]; lia).
    destruct (Nat.lt_ge_cases j (S (length ws))) as [A|A].
    - rewrite nth_error_app1 in Hj by (cbn [length]; lia). exfalso. assert (i = j) by (apply U; [cbn [length]; lia|congruence]). lia.
    - assert (j = S (length ws)) as -> by lia. rewrite nth_error_app2 in Hj by (cbn [length]; lia). cbn [length] in Hj. rewrite Nat.sub_diag in Hj.
      injection Hj as <-. specialize (U i 0%nat). cbn [length nth_error] in *. split; [apply U; [lia|congruence]|]. rewrite app_length. cbn [length]. lia.
  Qed.

  Section Path.
    Variables (W : list Z) (ts : list nat).
    Hypothesis F : fan W ts.
    Hypothesis S : simple W.
    Hypothesis A : forall k t, nth_error tris k = Some t -> In v (corners t) -> In k ts.

    Lemma side_in w k t : nth_error tris k = Some t -> has_side (v, w) t = true -> exists i, nth_error ts i = Some k /\
      (nth_error W i = Some w \/ nth_error W (Datatypes.S i) = Some w).
    Proof.
      intros H1 H2. assert (In k ts) as H. { eapply A; [eassumption|]. eapply side_corners; [eassumption|]. apply touches_iff. auto. }
      apply In_nth_error in H as [i Hi]. exists i. split; [assumption|].
      destruct (fan_nth _ _ F _ _ Hi) as (a & b & t' & P1 & P2 & P3 & P4 & P5 & P6). assert (t' = t) as -> by congruence.
      destruct (two_sides t a b w) as [->| ->]; auto. apply C. eapply in_tris; eassumption.
    Qed.
    Lemma incident_path w j : In (Z.of_nat j) (incident tris (v, w)) <->
      exists i, nth_error ts i = Some j /\ (nth_error W i = Some w \/ nth_error W (Datatypes.S i) = Some w).
    Proof.
      rewrite in_incident. split.
      - intros (n & t & H1 & H2 & H3). apply Nat2Z.inj in H3 as <-. apply side_in with (t := t); assumption.
      - intros (i & Hi & Hw). destruct (fan_nth _ _ F _ _ Hi) as (a & b & t & P1 & P2 & P3 & P4 & P5 & P6). exists j, t.
        split; [assumption|]. split; [|reflexivity]. destruct Hw; [assert (a = w) as <- by congruence|assert (b = w) as <- by congruence]; assumption.
    Qed.
    Lemma incident_nat w z : In z (incident tris (v, w)) -> exists j, z = Z.of_nat j.
    Proof. intros H. apply in_incident in H as (n & t & _ & _ & ->). eauto. Qed.

    Lemma ts_inj i j k : nth_error ts i = Some k -> nth_error ts j = Some k -> i = j.
    Proof using C F S.
      clear A. assert (G : forall i j, (i < j)%nat -> nth_error ts i = Some k -> nth_error ts j = Some k -> False).
      { clear i j. intros i j L Hi Hj. destruct (fan_nth _ _ F _ _ Hi) as (a & b & t & P1 & P2 & P3 & P4 & P5 & P6).
        destruct (fan_nth _ _ F _ _ Hj) as (a' & b' & t' & Q1 & Q2 & Q3 & Q4 & Q5 & Q6). assert (t' = t) as -> by congruence.
        assert (ND : NoDup (corners t)) by (apply C; eapply in_tris; eassumption).
        pose proof (two_sides t a b a' ND P4 P5 P6 Q4) as E1. pose proof (two_sides t a b b' ND P4 P5 P6 Q5) as E2.
        assert (Lj : (j < length ts)%nat) by (apply nth_error_Some; congruence). pose proof (fan_len _ _ F) as LW.
        assert (E3 : (b' = b /\ a' = a) \/ (b' = a /\ a' = b)) by (destruct E1, E2; subst; auto; contradiction).
        destruct E3 as [[-> ->]|[-> ->]].
        - destruct (S i j a) as (? & ? & ?); auto; lia.
        - assert (Lij : (i < Datatypes.S j)%nat) by lia. destruct (S i (Datatypes.S j) a Lij P1 Q2) as (-> & ? & ?). clear Lij.
          destruct (Nat.eq_dec j 1) as [->|D]; [cbn in *; lia|]. destruct (S 1%nat j b) as (? & ? & ?); auto; lia. }
      intros Hi Hj. destruct (Nat.lt_trichotomy i j) as [L|[L|L]]; [|assumption|]; exfalso; eauto.
    Qed.

    Lemma sorted_two (l : list Z) a b : StronglySorted Z.lt l -> (forall x, In x l <-> x = a \/ x = b) -> a <> b -> l = [a; b] \/ l = [b; a].
    Proof.
      intros SS H D. assert (E : exists p q, l = p :: q :: []).
      { destruct l as [|p [|q [|r l]]]; [| |eauto|].
        - exfalso. apply (H a). auto.
        - exfalso. assert (In a [p]) as [<-|[]] by (apply H; auto). assert (In b [p]) as [<-|[]] by (apply H; auto). contradiction.
        - exfalso. inversion_clear SS as [|? ? S1 F1]. inversion_clear S1 as [|? ? S2 F2]. rewrite Forall_forall in F1, F2.
          assert (p < q) by (apply F1; cbn; auto). assert (p < r) by (apply F1; cbn; auto). assert (q < r) by (apply F2; cbn; auto).
          assert (p = a \/ p = b) by (apply H; cbn; auto). assert (q = a \/ q = b) by (apply H; cbn; auto). assert (r = a \/ r = b) by (apply H; cbn; auto). lia. }
      destruct E as (p & q & ->). inversion_clear SS as [|? ? _ F1]. inversion_clear F1 as [|? ? L _].
      assert (p = a \/ p = b) by (apply H; cbn; auto). assert (q = a \/ q = b) by (apply H; cbn; auto).
      destruct H0 as [->| ->], H1 as [->| ->]; auto; lia.
    Qed.
    Lemma sorted_one (l : list Z) a : StronglySorted Z.lt l -> (forall x, In x l <-> x = a) -> l = [a].
    Proof.
      intros SS H. destruct l as [|p [|q l]].
      - exfalso. apply (H a). auto.
      - f_equal. apply H. left. reflexivity.
      - exfalso. inversion_clear SS as [|? ? _ F1]. rewrite Forall_forall in F1. assert (p < q) by (apply F1; cbn; auto).
        assert (p = a) by (apply H; cbn; auto). assert (q = a) by (apply H; cbn; auto). lia.
    Qed.

    (** an edge inside the path *)
    Lemma inner_edge i w k k' : nth_error W (Datatypes.S i) = Some w -> nth_error ts i = Some k -> nth_error ts (Datatypes.S i) = Some k' ->
      k <> k' /\ (incident tris (v, w) = [Z.of_nat k; Z.of_nat k'] \/ incident tris (v, w) = [Z.of_nat k'; Z.of_nat k]).
    Proof.
      intros Hw Hk Hk'. assert (D : k <> k') by (intros ->; pose proof (ts_inj _ _ _ Hk Hk'); lia). split; [assumption|].
      pose proof (fan_len _ _ F) as LW. assert (Lj : (Datatypes.S i < length ts)%nat) by (apply nth_error_Some; congruence).
      apply sorted_two; [apply positions_sorted| |lia]. intros x. split.
      - intros H. destruct (incident_nat _ _ H) as [j ->]. apply incident_path in H as (i' & H1 & H2).
        assert (i' = i \/ i' = Datatypes.S i) as [->| ->]; [|left; congruence|right; congruence].
        destruct H2 as [H2|H2].
        + destruct (Nat.lt_trichotomy i' (Datatypes.S i)) as [L|[L|L]]; [|auto|].
          * destruct (S i' (Datatypes.S i) w) as (? & ? & ?); auto; lia.
          * destruct (S (Datatypes.S i) i' w) as (? & ? & ?); auto; lia.
        + destruct (Nat.lt_trichotomy i' i) as [L|[L|L]]; [|auto|].
          * destruct (S (Datatypes.S i') (Datatypes.S i) w) as (? & ? & ?); auto; lia.
          * destruct (S (Datatypes.S i) (Datatypes.S i') w) as (? & ? & ?); auto; lia.
      - intros [->| ->]; apply incident_path; [exists i|exists (Datatypes.S i)]; auto.
    Qed.
    Lemma inner_not_start i w : (i < length ts)%nat -> (0 < i)%nat -> nth_error W i = Some w -> nth_error W 0 <> Some w.
    Proof. intros L P H E. pose proof (fan_len _ _ F). destruct (S 0%nat i w) as (? & ? & ?); auto; lia. Qed.
    (** the outer edges of an open path *)
    Lemma start_open w k : NoDup W -> nth_error W 0 = Some w -> nth_error ts 0 = Some k -> incident tris (v, w) = [Z.of_nat k].
    Proof.
      intros ND Hw Hk. apply sorted_one; [apply positions_sorted|]. intros x. split.
      - intros H. destruct (incident_nat _ _ H) as [j ->]. apply incident_path in H as (i & H1 & H2).
        assert (Li : (i < length ts)%nat) by (apply nth_error_Some; congruence). pose proof (fan_len _ _ F) as LW.
        assert (i = 0%nat) as ->; [|congruence]. pose proof (proj1 (NoDup_nth_error _) ND) as U.
        destruct H2 as [H2|H2]; [apply U; [lia|congruence]|]. assert (Datatypes.S i = 0%nat); [apply U; [lia|congruence]|lia].
      - intros ->. apply incident_path. exists 0%nat. auto.
    Qed.
    Lemma end_open i w k : NoDup W -> Datatypes.S i = length ts -> nth_error W (Datatypes.S i) = Some w -> nth_error ts i = Some k -> incident tris (v, w) = [Z.of_nat k].
    Proof.
      intros ND L Hw Hk. apply sorted_one; [apply positions_sorted|]. intros x. split.
      - intros H. destruct (incident_nat _ _ H) as [j ->]. apply incident_path in H as (i' & H1 & H2).
        assert (Li : (i' < length ts)%nat) by (apply nth_error_Some; congruence). pose proof (fan_len _ _ F) as LW.
        assert (i' = i) as ->; [|congruence]. pose proof (proj1 (NoDup_nth_error _) ND) as U.
        destruct H2 as [H2|H2].
        + assert (i' = Datatypes.S i); [apply U; [lia|congruence]|lia].
        + assert (Datatypes.S i' = Datatypes.S i); [apply U; [lia|congruence]|lia].
      - intros ->. apply incident_path. exists i. auto.
    Qed.
    (** the edge where a closed path starts and ends *)
    Lemma start_closed i w k k' : nth_error W 0 = Some w -> nth_error W (Datatypes.S i) = Some w -> Datatypes.S i = length ts ->
      nth_error ts 0 = Some k -> nth_error ts i = Some k' -> k <> k' /\
      (incident tris (v, w) = [Z.of_nat k; Z.of_nat k'] \/ incident tris (v, w) = [Z.of_nat k'; Z.of_nat k]).
    Proof.
      intros Hw Hw' L Hk Hk'. pose proof (fan_len _ _ F) as LW. assert (Li0 : (0 < Datatypes.S i)%nat) by lia. destruct (S 0%nat (Datatypes.S i) w Li0 Hw Hw') as (_ & L1 & L2).
      assert (D : k <> k') by (intros ->; pose proof (ts_inj _ _ _ Hk Hk'); lia). split; [assumption|].
      apply sorted_two; [apply positions_sorted| |lia]. intros x. split.
      - intros H. destruct (incident_nat _ _ H) as [j ->]. apply incident_path in H as (i' & H1 & H2).
        assert (Li : (i' < length ts)%nat) by (apply nth_error_Some; congruence).
        assert (i' = 0%nat \/ i' = i) as [->| ->]; [|left; congruence|right; congruence].
        destruct H2 as [H2|H2].
        + destruct (Nat.eq_dec i' 0) as [->|D']; [auto|]. destruct (S 0%nat i' w) as (? & ? & ?); auto; lia.
        + destruct (S 0%nat (Datatypes.S i') w) as (? & ? & ?); auto; lia.
      - intros [->| ->]; apply incident_path; [exists 0%nat|exists i]; auto.
    Qed.
  End Path.
End Fans.

(** * What a step registers *)
Definition links (l : list Z) : list (Z * Z) := different (pairs l).
Lemma pairs_snoc2 {A} (l : list A) a b : pairs (l ++ [a; b]) = pairs (l ++ [a]) ++ [(a, b)].
Proof.
  induction l as [|x l IH]; [reflexivity|]. destruct l as [|y l]; [reflexivity|]. cbn [app] in *.
  change (pairs (x :: y :: l ++ [a; b])) with ((x, y) :: pairs (y :: l ++ [a; b])). rewrite IH. reflexivity.
Qed.
Lemma links_snoc l a b : links (l ++ [a; b]) = links (l ++ [a]) ++ (if negb (b =? a) then [(a, b)] else []).
Proof. unfold links, different. rewrite pairs_snoc2, filter_app. cbn [filter fst snd]. rewrite Z.eqb_sym. reflexivity. Qed.
Lemma set_mem_in x l : set_mem Z.eqb x l = true <-> In x l.
Proof.
  unfold set_mem. rewrite existsb_exists. split.
  - intros (y & H & E). apply Z.eqb_eq in E as ->. assumption.
  - intros H. exists x. split; [assumption|apply Z.eqb_refl].
Qed.
Lemma set_add_old l x : In x l -> set_add Z.eqb l x = l.
Proof. intros H. unfold set_add. apply set_mem_in in H as ->. reflexivity. Qed.
Lemma dedup_snoc l x : dedup (l ++ [x]) = set_add Z.eqb (dedup l) x.
Proof. unfold dedup. rewrite fold_left_app. reflexivity. Qed.
Lemma fold_add_in l : forall acc x, In x (fold_left (set_add Z.eqb) l acc) <-> In x acc \/ In x l.
Proof.
  induction l as [|y l IH]; intros acc x; cbn [fold_left In]; [tauto|]. rewrite IH. unfold set_add.
  destruct (set_mem Z.eqb y acc) eqn:E; [apply set_mem_in in E|rewrite in_app_iff; cbn [In]]; intuition (subst; auto).
Qed.
Lemma dedup_in l x : In x (dedup l) <-> In x l.
Proof. unfold dedup. rewrite fold_add_in. cbn. tauto. Qed.
Lemma dedup_old l x : In x l -> dedup (l ++ [x]) = dedup l.
Proof. intros H. rewrite dedup_snoc. apply set_add_old, dedup_in. assumption. Qed.
Lemma dedup_nil l : dedup l = [] -> l = [].
Proof. destruct l as [|x l]; [reflexivity|]. intros H. assert (In x (dedup (x :: l))) as Q by (apply dedup_in; left; reflexivity). rewrite H in Q. destruct Q. Qed.

Section Trace.
  Context {N : Num}.
  Notation Point := (Point N).
  Variable tol : nT N.
  Definition register (c : Z) (m : segmap) (es : list (Z * Z)) : segmap := fold_left (fun m e => sm_insert iseg_eqb m e c) es m.
  Lemma register_app c m a b : register c m (a ++ b) = register c (register c m a) b.
  Proof. apply fold_left_app. Qed.
  Record traced (c : Z) (m0 : segmap) (s : vstate (N := N)) (I : list Z) : Prop := {
    tc_inv : ul_inv (fun _ => True) zltb (v_cell s);
    tc_cell : ul_list (v_cell s) = dedup I;
    tc_edges : v_edges s = register c m0 (links I);
    tc_this : v_this s = links I
  }.
  Lemma traced_with c m0 (s : vstate (N := N)) I cc : traced c m0 s I -> traced c m0 (with_cc s cc) I.
  Proof. intros [A B C D]. constructor; assumption. Qed.
  Lemma add_step_eq c i1 i2 (s : vstate (N := N)) q1 q2 : ul_get (v_cc s) i1 = Ok q1 -> ul_get (v_cc s) i2 = Ok q2 -> ul_inv (fun _ => True) zltb (v_cell s) ->
    exists s', add_step tol c i1 i2 s = Ok s' /\ v_cc s' = v_cc s /\ ul_inv (fun _ => True) zltb (v_cell s') /\
      ul_list (v_cell s') = set_add Z.eqb (set_add Z.eqb (ul_list (v_cell s)) i2) i1 /\
      v_edges s' = (if negb (i1 =? i2) then sm_insert iseg_eqb (v_edges s) (i2, i1) c else v_edges s) /\
      v_this s' = v_this s ++ (if negb (i1 =? i2) then [(i2, i1)] else []).
  Proof.
    intros H1 H2 I. unfold add_step. destruct (Z.eqb_spec i1 i2) as [->|D]; cbn [negb bind].
    - rewrite H2. cbn [bind]. eexists. split; [reflexivity|]. cbn [v_cc v_cell v_edges v_this].
      destruct (push_zset (v_cell s) i2 I) as [I1 L1]. rewrite app_nil_r. split; [reflexivity|]. split; [assumption|]. split; [|auto].
      rewrite L1. symmetry. apply set_add_old, set_add_in.
    - rewrite H2. cbn [bind v_cc v_cell v_edges v_this v_pm]. rewrite H1. cbn [bind]. eexists. split; [reflexivity|]. cbn [v_cc v_cell v_edges v_this].
      destruct (push_zset (v_cell s) i2 I) as [I1 L1]. destruct (push_zset _ i1 I1) as [I2 L2]. rewrite L2, L1. auto.
  Qed.
  Lemma traced_step c m0 s I i1 i2 q1 q2 : traced c m0 s (I ++ [i2]) -> ul_get (v_cc s) i1 = Ok q1 -> ul_get (v_cc s) i2 = Ok q2 ->
    exists s', add_step tol c i1 i2 s = Ok s' /\ v_cc s' = v_cc s /\ traced c m0 s' (I ++ [i2; i1]).
  Proof.
    intros [T1 T2 T3 T4] H1 H2. destruct (add_step_eq c i1 i2 s q1 q2 H1 H2 T1) as (s' & E & E1 & E2 & E3 & E4 & E5).
    exists s'. split; [assumption|]. split; [assumption|]. constructor; [assumption| | |].
    - rewrite E3, T2, (set_add_old (dedup (I ++ [i2])) i2) by (apply dedup_in, in_or_app; right; left; reflexivity).
      change [i2; i1] with ([i2] ++ [i1]). rewrite app_assoc, (dedup_snoc (I ++ [i2])). reflexivity.
    - rewrite E4, T3, links_snoc, register_app. destruct (negb (i1 =? i2)); reflexivity.
    - rewrite E5, T4, links_snoc. reflexivity.
  Qed.
  Lemma traced_first c m0 (cc : ulist Point) pm i1 i2 q1 q2 : ul_get cc i1 = Ok q1 -> ul_get cc i2 = Ok q2 ->
    exists s', add_step tol c i1 i2 (mkV cc m0 pm [] ul_empty) = Ok s' /\ v_cc s' = cc /\ traced c m0 s' [i2; i1].
  Proof.
    intros H1 H2. destruct (add_step_eq c i1 i2 (mkV cc m0 pm [] ul_empty) q1 q2 H1 H2 (ul_inv_empty _ _)) as (s' & E & E1 & E2 & E3 & E4 & E5).
    exists s'. split; [assumption|]. split; [assumption|]. constructor; [assumption| | |].
    - rewrite E3. reflexivity.
    - rewrite E4. cbn [v_edges]. pose proof (links_snoc [] i2 i1) as L. cbn [app] in L. rewrite L. cbn [links pairs filter app].
      destruct (negb (i1 =? i2)); reflexivity.
    - rewrite E5. cbn [v_this app]. pose proof (links_snoc [] i2 i1) as L. cbn [app] in L. rewrite L. reflexivity.
  Qed.
End Trace.

(** * The walk *)
Lemma firstn_snoc {A} (l : list A) i x : nth_error l i = Some x -> firstn (S i) l = firstn i l ++ [x].
Proof. revert l; induction i as [|i IH]; intros [|a l] H; try discriminate; cbn in *; [congruence|]. rewrite IH by assumption. reflexivity. Qed.
Lemma incident_cong tris s s' : same_side s s' = true -> incident tris s = incident tris s'.
Proof. intros H. unfold incident. apply positions_ext. intros t _. apply has_side_cong. assumption. Qed.

Section Walk.
  Context {N : Num}.
  Notation Point := (Point N).
  Variable tol : nT N.
  Variable o : trout N.
  Variable d : delaunay N.
  Hypothesis T : triangulation (zlen (o_points o)) (map fst (o_edges o)) (o_tris o).
  Hypothesis O : output_ok tol o d.
  Notation mp := (map read_point (o_points o)).
  Notation tris := (o_tris o).
  Notation ext := (@ext N).

  (** the circumcenter index stored in the [k]-th triangle *)
  Definition cci (k : nat) : Z := match nth_error (dl_triangles d) k with Some t => match tr_cci t with Some i => i | None => -1 end | None => -1 end.
  (** the point list has a representative of [x] at [i] *)
  Definition located (cc : ulist Point) (i : Z) (x : Point) : Prop := exists y, ul_get cc i = Ok y /\ stands_for (pt_ltb tol) y x.
  Lemma located_ext cc cc' i x : ext cc cc' -> located cc i x -> located cc' i x.
  Proof.
    intros X (y & H & S). exists y. split; [|assumption]. unfold ul_get in *. apply vget_ok in H as [H1 H2]. apply vget_ok. split; [assumption|]. eapply ext_nth; eassumption.
  Qed.
  Lemma cci_located k t : nth_error tris k = Some t -> exists A B C c, vertices_are mp (corners t) [A; B; C] /\ circumcenter A B C = Ok c /\
    located (dl_circumcenters d) (cci k) c /\
    forall cc e, getCircumcenter tol d cc (Z.of_nat k) e = Ok (cc, cci k).
  Proof.
    intros H. destruct (tri_at tol o d O _ _ H) as (tr & H3 & H4 & A & B & C & c & i & H5 & H6 & H7 & H8 & H9 & y & H10 & H11).
    assert (E : cci k = i) by (unfold cci; rewrite H3, H8; reflexivity).
    exists A, B, C, c. rewrite (oo_points _ _ _ O) in H5. split; [assumption|]. split; [assumption|]. split.
    - exists y. split; [|assumption]. unfold ul_get. apply vget_ok. rewrite E. auto.
    - intros cc e. unfold getCircumcenter. destruct (Z.eqb_spec (Z.of_nat k) (-1)); [lia|]. cbn [negb].
      assert (V : vget (dl_triangles d) (Z.of_nat k) = Ok tr) by (apply vget_ok; rewrite Nat2Z.id; split; [lia|assumption]).
      rewrite V. cbn [bind]. rewrite H8, E. reflexivity.
  Qed.
  Lemma cci_get k t cc : nth_error tris k = Some t -> ext (dl_circumcenters d) cc -> exists q, ul_get cc (cci k) = Ok q.
  Proof. intros H X. destruct (cci_located _ _ H) as (A & B & C & c & _ & _ & L & _). apply (located_ext _ _ _ _ X) in L as (q & L & _). eauto. Qed.
  (** pushing the middle of an edge, or a point *)
  Lemma push_located cc x cc' i : ul_ranged cc -> ul_push_back (pt_ltb tol) cc x = (cc', i) -> ul_ranged cc' /\ ext cc cc' /\ located cc' i x.
  Proof.
    intros R E. pose proof (push_ext tol _ _ _ _ R E) as X. destruct (ul_push_ranged _ _ _ _ _ R E) as (R' & (H1 & y & H2 & H3) & _).
    split; [assumption|]. split; [assumption|]. exists y. split; [|assumption]. unfold ul_get. apply vget_ok. auto.
  Qed.
  Lemma middle_located kE oe cc : nth_error (o_edges o) kE = Some oe -> ul_ranged cc ->
    exists m cc' i, iseg_middle mp (fst oe) = Ok m /\ getCircumcenter tol d cc (-1) (Z.of_nat kE) = Ok (cc', i) /\
      ul_push_back (pt_ltb tol) cc (setBoundary m) = (cc', i) /\
      ul_ranged cc' /\ ext cc cc' /\ located cc' i (setBoundary m).
  Proof.
    intros He R. destruct oe as [[a b] mk]. assert (Hab : In (a, b) (map fst (o_edges o))) by (apply (in_map fst) with (x := (a, b, mk)); eapply nth_error_In; eassumption).
    apply (tg_ends _ _ _ T) in Hab as [Ha Hb].
    assert (G : forall i, 0 <= i < zlen (o_points o) -> exists q, vget mp i = Ok q).
    { intros i Hi. destruct (nth_error mp (Z.to_nat i)) as [q|] eqn:E.
      - exists q. apply vget_ok. split; [lia|assumption].
      - apply nth_error_None in E. rewrite map_length in E. unfold zlen in Hi. lia. }
    destruct (G a Ha) as [qa Ea], (G b Hb) as [qb Eb].
    unfold getCircumcenter. cbn [Z.eqb negb]. rewrite (edge_at tol o d O _ _ He). cbn [bind edge_after e_p1 e_p2 fst snd]. rewrite (oo_points _ _ _ O).
    unfold iseg_middle. cbn [fst snd]. rewrite Ea, Eb. cbn [bind].
    destruct (ul_push_back _ cc _) as [cc' i] eqn:Ep. destruct (push_located _ _ _ _ R Ep) as (R' & X & L).
    eexists _, cc', i. split; [reflexivity|]. split; [reflexivity|]. auto.
  Qed.

  Section Path.
    Variables (v : Z) (W : list Z) (ts : list nat).
    Hypothesis F : sector tris v W ts.
    Hypothesis S : simple W.
    Hypothesis A : forall k t, nth_error tris k = Some t -> In v (corners t) -> In k ts.
    Variable c : Z.
    Variable m0 : segmap.
    Variable oe0 : Z * Z * Z.
    Variable w0 : Z.
    Hypothesis W0 : nth_error W 0 = Some w0.
    Hypothesis S0 : same_side (v, w0) (fst oe0) = true.
    Let init := edge_after tris oe0.

    Definition at_edge (w : Z) (kE : nat) (oe : Z * Z * Z) : Prop := nth_error (o_edges o) kE = Some oe /\ same_side (v, w) (fst oe) = true.
    Lemma at_touches w kE oe : at_edge w kE oe -> touches v (fst oe) = true.
    Proof. intros [_ H]. rewrite <- (touches_cong _ _ _ H). apply touches_iff. auto. Qed.
    Lemma side_not_self w kE oe k t : nth_error tris k = Some t -> has_side (v, w) t = true -> at_edge w kE oe -> other v (fst oe) = w.
    Proof.
      intros Ht Hs [_ E]. pose proof (tg_corners _ _ _ T t (nth_error_In _ _ Ht)) as ND.
      destruct oe as [[x y] mk]. cbn [fst] in *. apply same_side_iff in E as [[<- <-]|[<- <-]]; unfold other; cbn [fst snd].
      - rewrite Z.eqb_refl. reflexivity.
      - destruct (Z.eqb_spec w v) as [->|]; [|reflexivity]. reflexivity.
    Qed.
    Lemma step_next i w w' k t kE oe : nth_error W i = Some w -> nth_error W (Datatypes.S i) = Some w' -> nth_error ts i = Some k -> nth_error tris k = Some t ->
      at_edge w kE oe -> exists k2 oe2, at_edge w' k2 oe2 /\ nextEdge (corners t) v (edge_after tris oe) (dl_edgeMap d) = Ok (Z.of_nat k2).
    Proof.
      intros Hw Hw' Hk Ht HE. destruct (fan_nth _ _ _ _ F _ _ Hk) as (a & b & t' & P1 & P2 & P3 & P4 & P5 & P6).
      assert (a = w) as -> by congruence. assert (b = w') as -> by congruence. assert (t' = t) as -> by congruence.
      assert (Hs : has_side (fst oe) t = true) by (rewrite <- (has_side_cong _ _ t (proj2 HE)); assumption).
      destruct (next_ok tol o d T O v k t oe Ht Hs (at_touches _ _ _ HE)) as (z & k2 & oe2 & Q1 & Q2 & Q3 & Q4 & Q5 & Q6).
      rewrite (side_not_self w kE oe k t Ht P4 HE) in Q1.
      assert (z = w') as ->. 2:{ exists k2, oe2. split; [split; assumption|assumption]. }
      pose proof (tg_corners _ _ _ T t (nth_error_In _ _ Ht)) as ND.
      assert (In w' [v; w; z]) as H by (eapply Permutation_in; [exact Q1|]; eapply side_corners; [exact P5|]; apply touches_iff; auto).
      assert (v <> w') as D.
      { intros <-. destruct t as [[p q] r]. apply has_side_iff in P5. cbn [corners] in ND. inversion_clear ND as [|? ? N1 N2]. inversion_clear N2 as [|? ? N3 _]. cbn [In] in *. intuition congruence. }
      cbn [In] in H. intuition congruence.
    Qed.
    Lemma eqb_init w kE oe : at_edge w kE oe -> edge_eqb (edge_after tris oe) init = true <-> w = w0.
    Proof.
      intros [_ E]. assert (edge_eqb (edge_after tris oe) init = same_side (v, w) (v, w0)) as ->.
      { transitivity (same_side (fst oe) (fst oe0)).
        - unfold edge_eqb, same_side, init. cbn [edge_after e_p1 e_p2]. f_equal. apply andb_comm.
        - rewrite (same_side_cong _ _ (fst oe0) (eq_trans (same_side_sym _ _) E)). rewrite (same_side_sym (v, w) (fst oe0)).
          rewrite (same_side_cong (fst oe0) (v, w0) (v, w)) by (rewrite same_side_sym; assumption). apply same_side_sym. }
      rewrite same_side_iff. intuition congruence.
    Qed.
    Lemma tri_nth k t : nth_error tris k = Some t -> exists tr, vget (dl_triangles d) (Z.of_nat k) = Ok tr /\ pg_points (tr_poly tr) = corners t.
    Proof.
      intros H. destruct (tri_at tol o d O _ _ H) as (tr & H3 & H4 & _). exists tr. split; [|assumption]. apply vget_ok. rewrite Nat2Z.id. split; [lia|assumption].
    Qed.

    Lemma walk_path j : forall i w k kE oe s i0 fuel, (i + j = length ts)%nat -> (0 < i)%nat -> (j <= fuel)%nat -> nth_error W i = Some w -> nth_error ts (i - 1) = Some k -> at_edge w kE oe ->
      ext (dl_circumcenters d) (v_cc s) -> traced c m0 s (i0 :: map cci (firstn i ts)) ->
      exists w' k' kE' oe' s', nth_error W (length ts) = Some w' /\ nth_error ts (length ts - 1) = Some k' /\ at_edge w' kE' oe' /\
        v_cc s' = v_cc s /\ traced c m0 s' (i0 :: map cci ts) /\
        walk tol fuel d c v init (Z.of_nat k) (edge_after tris oe) s = walk tol (fuel - j) d c v init (Z.of_nat k') (edge_after tris oe') s'.
    Proof.
      induction j as [|j IH]; intros i w k kE oe s i0 fuel L P Lf Hw Hk HE X TR.
      - rewrite Nat.add_0_r in L. subst i. exists w, k, kE, oe, s. rewrite firstn_all in TR. rewrite Nat.sub_0_r. auto 10.
      - destruct fuel as [|fuel]; [lia|]. destruct i as [|i]; [lia|]. cbn [Nat.sub] in Hk. rewrite Nat.sub_0_r in Hk.
        assert (exists k', nth_error ts (Datatypes.S i) = Some k') as [k' Hk'].
        { destruct (nth_error ts (Datatypes.S i)) eqn:E; [eauto|]. apply nth_error_None in E. lia. }
        destruct (inner_edge tris v (tg_corners _ _ _ T) W ts F S A i w k k' Hw Hk Hk') as [D INC].
        destruct (fan_nth _ _ _ _ F _ _ Hk') as (a & w' & t & P1 & P2 & P3 & P4 & P5 & P6). assert (a = w) as -> by congruence. clear P1.
        destruct (fan_nth _ _ _ _ F _ _ Hk) as (a & b & t1 & Q1 & Q2 & Q3 & _).
        destruct (step_next _ _ _ _ _ _ _ Hw P2 Hk' P3 HE) as (k2 & oe2 & HE2 & NX).
        cbn [walk Nat.sub].
        destruct (edge_eqb (edge_after tris oe) init) eqn:EQ.
        { exfalso. apply (eqb_init _ _ _ HE) in EQ. subst w0. refine (inner_not_start tris v W ts F S A (Datatypes.S i) w _ _ Hw W0); lia. }
        rewrite (edge_key tol o d T O kE oe (proj1 HE)).
        assert (E1 : (if negb (e_t1 (edge_after tris oe) =? Z.of_nat k) then e_t1 (edge_after tris oe) else e_t2 (edge_after tris oe)) = Z.of_nat k').
        { cbn [edge_after e_t1 e_t2]. rewrite <- (incident_cong tris _ _ (proj2 HE)). destruct INC as [->| ->]; cbn [first_or tl last_or rev app].
          - rewrite Z.eqb_refl. reflexivity.
          - destruct (Z.eqb_spec (Z.of_nat k') (Z.of_nat k)); [lia|reflexivity]. }
        rewrite E1.
        destruct (cci_located _ _ P3) as (_ & _ & _ & _ & _ & _ & _ & G1). destruct (cci_located _ _ Q3) as (_ & _ & _ & _ & _ & _ & _ & G2).
        rewrite G1. cbn [bind]. rewrite G2. cbn [bind].
        destruct (cci_get _ _ _ P3 X) as [q1 V1]. destruct (cci_get _ _ _ Q3 X) as [q2 V2].
        rewrite (firstn_snoc _ _ _ Hk), map_app in TR. cbn [map] in TR. rewrite app_comm_cons in TR.
        destruct (traced_step tol c m0 (with_cc s (v_cc s)) (i0 :: map cci (firstn i ts)) (cci k') (cci k) q1 q2 (traced_with _ _ _ _ _ TR) V1 V2) as (s1 & AS & CC & TR1).
        rewrite AS. cbn [bind]. destruct (Z.eqb_spec (Z.of_nat k') (-1)); [lia|]. cbn [negb].
        destruct (tri_nth _ _ P3) as (tr & V3 & E3). rewrite V3. cbn [bind]. rewrite E3, NX. cbn [bind].
        rewrite (edge_at tol o d O _ _ (proj1 HE2)). cbn [bind].
        cbn [with_cc v_cc] in CC.
        destruct (IH (Datatypes.S (Datatypes.S i)) w' k' k2 oe2 s1 i0 fuel) as (w'' & k'' & kE'' & oe'' & s'' & R1 & R2 & R3 & R4 & R5 & R6); auto; try lia.
        { rewrite CC. assumption. }
        { rewrite (firstn_snoc _ _ _ Hk'), (firstn_snoc _ _ _ Hk), <- app_assoc, map_app. exact TR1. }
        exists w'', k'', kE'', oe'', s''. repeat (split; [assumption|]). split; [rewrite R4; assumption|]. split; assumption.
    Qed.


    Variable kE0 : nat.
    Hypothesis E0 : nth_error (o_edges o) kE0 = Some oe0.
    Variable center : Point.
    Hypothesis V0 : vertices_are mp [v] [center].
    Hypothesis ST : start_edge (o_edges o) v = Z.of_nat kE0.
    Lemma begin_ok : exists pd, vget (dl_meshPoints d) v = Ok center /\ vget (dl_points d) v = Ok pd /\ pd_edge pd = Z.of_nat kE0 /\ vget (dl_edges d) (pd_edge pd) = Ok init.
    Proof.
      inversion_clear V0 as [|? ? ? ? [P1 P2] _]. eexists. split; [rewrite (oo_points _ _ _ O); apply vget_ok; auto|].
      assert (L : (Z.to_nat v < length (o_points o))%nat) by (rewrite <- (map_length read_point); apply nth_error_Some; congruence).
      split; [|split; [|]].
      - rewrite (oo_data _ _ _ O). apply vget_ok. split; [assumption|]. rewrite nth_error_map, (nth_error_nth' _ 0%nat), seq_nth by (rewrite ?seq_length; lia). reflexivity.
      - cbn [pd_edge]. rewrite Nat.add_0_l, Z2Nat.id by assumption. exact ST.
      - cbn [pd_edge]. rewrite Nat.add_0_l, Z2Nat.id by assumption. rewrite ST. apply (edge_at tol o d O). exact E0.
    Qed.
    Lemma fixCCW_total (g : polygon N) p : pg_points g <> [] -> Forall (fun i => exists q, vget p i = Ok q) (pg_points g) ->
      exists g', fixCCW g p = Ok g'.
    Proof.
      intros NE FA. unfold fixCCW, isClockwise.
      assert (G : forall i, (i < length (pg_points g))%nat -> exists q, vpt p (pg_points g) i = Ok q).
      { intros i Hi. destruct (nth_get _ _ Hi) as [x Hx]. rewrite Forall_forall in FA. destruct (FA x (nth_error_In _ _ Hx)) as [q Hq].
        exists q. unfold vpt, vgetn. rewrite Hx. exact Hq. }
      assert (L : (0 < length (pg_points g))%nat) by (destruct (pg_points g); [contradiction|cbn; lia]).
      destruct (G 0%nat L) as [q0 ->]. destruct (G (length (pg_points g) - 1)%nat) as [q1 ->]; [lia|]. cbn [bind].
      set (n := length (pg_points g)) in *. set (acc := _ : nT N) at 1.
      assert (FO : forall l acc, Forall (fun i => (i < n)%nat) l -> exists z, foldM (fun acc i => b <- vpt p (pg_points g) ((i + 1) mod n) ;; a <- vpt p (pg_points g) i ;;
         Ok (nadd acc (nmul (nsub (px b) (px a)) (nadd (py b) (py a))))) l acc = Ok z).
      { clear acc. induction l as [|i l IH]; intros acc H; cbn [foldM]; [eauto|]. inversion_clear H as [|? ? H1 H2].
        destruct (G ((i + 1) mod n)%nat) as [q ->]; [apply Nat.mod_upper_bound; lia|]. destruct (G i H1) as [q' ->]. cbn [bind]. apply IH. assumption. }
      edestruct FO as [z Ez]; [|rewrite Ez; cbn [bind]; eauto]. apply Forall_forall. intros i Hi. apply in_seq in Hi. lia.
    Qed.

    Lemma closed_cell n fuel (cc : ulist Point) pm k0 kn : length ts = Datatypes.S n -> nth_error ts 0 = Some k0 -> nth_error ts n = Some kn ->
      nth_error W (Datatypes.S n) = Some w0 -> incident tris (v, w0) = [Z.of_nat k0; Z.of_nat kn] -> (n <= fuel)%nat ->
      ext (dl_circumcenters d) cc ->
      exists g s, build_cell tol fuel d c v cc m0 pm = Ok (g, s) /\ v_cc s = cc /\ traced c m0 s (cci kn :: map cci ts) /\
        (pg_points g = dedup (cci kn :: map cci ts) \/ pg_points g = rev (dedup (cci kn :: map cci ts))).
    Proof.
      intros Ln H0 Hn Wn INC Lf X. unfold build_cell. destruct begin_ok as (pd & B1 & B2 & B3 & B4). rewrite B1. cbn [bind]. rewrite B2. cbn [bind]. rewrite B4. cbn [bind].
      rewrite B3.
      assert (Ei : e_t1 init = Z.of_nat k0 /\ e_t2 init = Z.of_nat kn).
      { unfold init. cbn [edge_after e_t1 e_t2]. rewrite <- (incident_cong tris _ _ S0), INC. split; reflexivity. }
      destruct Ei as [-> ->].
      destruct (fan_nth _ _ _ _ F _ _ H0) as (a & w1 & t & P1 & P2 & P3 & P4 & P5 & P6). assert (a = w0) as -> by congruence.
      destruct (fan_nth _ _ _ _ F _ _ Hn) as (a & b & tn & Q1 & Q2 & Q3 & _).
      destruct (cci_located _ _ P3) as (_ & _ & _ & _ & _ & _ & _ & G1). destruct (cci_located _ _ Q3) as (_ & _ & _ & _ & _ & _ & _ & G2).
      rewrite G1. cbn [bind]. rewrite G2. cbn [bind].
      destruct (cci_get _ _ _ P3 X) as [q1 V1]. destruct (cci_get _ _ _ Q3 X) as [q2 V2].
      destruct (traced_first tol c m0 cc pm (cci k0) (cci kn) q1 q2 V1 V2) as (s0 & AS & CC & TR). rewrite AS. cbn [bind].
      destruct (tri_nth _ _ P3) as (tr & V3 & E3). rewrite V3. cbn [bind]. rewrite E3.
      destruct (step_next 0 _ _ _ _ kE0 oe0 W0 P2 H0 P3 (conj E0 S0)) as (k2 & oe2 & HE2 & NX). fold init in NX. rewrite NX. cbn [bind].
      rewrite (edge_at tol o d O _ _ (proj1 HE2)). cbn [bind].
      destruct (walk_path n 1 w1 k0 k2 oe2 s0 (cci kn) fuel) as (w' & k' & kE' & oe' & s' & R1 & R2 & R3 & R4 & R5 & R6); auto; try lia.
      { rewrite CC. assumption. }
      { rewrite (firstn_snoc _ _ _ H0). exact TR. }
      rewrite R6. rewrite Ln in R1. assert (w' = w0) as -> by congruence.
      assert (EW : walk tol (fuel - n) d c v init (Z.of_nat k') (edge_after tris oe') s' = Ok (edge_after tris oe', s')).
      { pose proof (proj2 (eqb_init _ _ _ R3) eq_refl) as EQ. destruct (fuel - n)%nat; cbn [walk]; rewrite EQ; reflexivity. }
      rewrite EW. cbn [bind]. unfold close_cell.
      assert (e_t2 (edge_after tris oe') = Z.of_nat kn) as -> by (cbn [edge_after e_t2]; rewrite <- (incident_cong tris _ _ (proj2 R3)), INC; reflexivity).
      destruct (Z.eqb_spec (Z.of_nat kn) (-1)); [lia|]. cbn [bind]. rewrite ctor_idx_ok. cbn [bind].
      destruct (fixCCW_total (mkPoly (ul_list (v_cell s')) (nZ (-1)) (nZ (-1)) point0 (calculateHash (ul_list (v_cell s')))) (ul_list (v_cc s'))) as [g Eg].
      { cbn [pg_points]. rewrite (tc_cell _ _ _ _ R5). intros E. apply dedup_nil in E. discriminate. }
      { cbn [pg_points]. rewrite (tc_cell _ _ _ _ R5), R4, CC. apply Forall_forall. intros x Hx. apply dedup_in in Hx as [<-|Hx]; [eauto|].
        apply in_map_iff in Hx as (k & <- & Hk). apply In_nth_error in Hk as [i Hi]. destruct (fan_nth _ _ _ _ F _ _ Hi) as (_ & _ & tk & _ & _ & Htk & _).
        exact (cci_get _ _ _ Htk X). }
      rewrite Eg. cbn [bind]. exists g, s'. split; [reflexivity|]. split; [congruence|]. split; [assumption|].
      apply fixCCW_points in Eg. cbn [pg_points] in Eg. rewrite (tc_cell _ _ _ _ R5) in Eg. exact Eg.
    Qed.

    (** what closing a boundary cell does *)
    Lemma close_eq e s J : traced c m0 s J -> J <> [] -> e_t2 e = -1 -> ul_ranged (v_cc s) -> Forall (fun i => exists q, ul_get (v_cc s) i = Ok q) J ->
      exists s' f l qf ql, close_cell tol c center e s = Ok s' /\ hd_error (dedup J) = Some f /\ hd_error (rev (dedup J)) = Some l /\
        ul_get (v_cc s) f = Ok qf /\ ul_get (v_cc s) l = Ok ql /\ ul_ranged (v_cc s') /\ ext (v_cc s) (v_cc s') /\
        v_edges s' = register c m0 (v_this s') /\
        ((collinear tol qf center ql = true /\ v_cc s' = v_cc s /\ ul_list (v_cell s') = dedup J /\ v_this s' = links J ++ [(l, f)]) \/
         (collinear tol qf center ql = false /\ exists r, located (v_cc s') r (setBoundary center) /\ ul_list (v_cell s') = dedup (J ++ [r]) /\
            v_this s' = links J ++ [(l, r); (r, f)])).
    Proof.
      intros [T1 T2 T3 T4] NE E2 R FA. unfold close_cell. rewrite E2. cbn [Z.eqb].
      assert (NE' : dedup J <> []) by (intros E; apply dedup_nil in E; contradiction).
      assert (exists f, hd_error (dedup J) = Some f) as [f Hf] by (destruct (dedup J); [contradiction|eexists; reflexivity]).
      assert (exists l, hd_error (rev (dedup J)) = Some l) as [l Hl].
      { destruct (rev (dedup J)) eqn:E; [|eexists; reflexivity]. apply (f_equal (@rev Z)) in E. rewrite rev_involutive in E. contradiction. }
      assert (If : In f J). { apply dedup_in. destruct (dedup J); [discriminate|]. injection Hf as ->. left. reflexivity. }
      assert (Il : In l J). { apply dedup_in, in_rev. destruct (rev (dedup J)); [discriminate|]. injection Hl as ->. left. reflexivity. }
      rewrite Forall_forall in FA. destruct (FA f If) as [qf Vf]. destruct (FA l Il) as [ql Vl].
      assert (G1 : ul_get (v_cell s) 0 = Ok f).
      { unfold ul_get. rewrite T2. apply vget_ok. split; [lia|]. cbn. destruct (dedup J); [discriminate|exact Hf]. }
      assert (G2 : ul_get (v_cell s) (ul_size (v_cell s) - 1) = Ok l).
      { unfold ul_get, ul_size. rewrite T2. apply vget_ok. clear - Hl. rewrite <- (rev_involutive (dedup J)).
        destruct (rev (dedup J)) as [|x r]; [discriminate|]. injection Hl as ->. cbn [rev]. rewrite zlen_app. pose proof (zlen_nonneg (rev r)).
        replace (zlen [l]) with 1 by reflexivity. split; [lia|]. rewrite nth_error_app2 by (unfold zlen; lia).
        replace (Z.to_nat (zlen (rev r) + 1 - 1) - length (rev r))%nat with 0%nat by (unfold zlen; lia). reflexivity. }
      rewrite G1. cbn [bind]. rewrite G2. cbn [bind]. rewrite Vf. cbn [bind]. rewrite Vl. cbn [bind].
      destruct (collinear tol qf center ql) eqn:EC.
      - eexists _, f, l, qf, ql. split; [reflexivity|]. cbn [v_cc v_cell v_edges v_this]. repeat (split; [assumption|]). split; [apply ext_refl|].
        split; [|left]; [rewrite T3, T4, register_app; reflexivity|]. rewrite T4. auto.
      - destruct (ul_push_back (pt_ltb tol) (v_cc s) (setBoundary center)) as [cc' r] eqn:Ep. destruct (push_located _ _ _ _ R Ep) as (R' & X & L).
        destruct L as (q & Lq & Sq). rewrite Lq. cbn [bind]. eexists _, f, l, qf, ql. split; [reflexivity|]. cbn [v_cc v_cell v_edges v_this]. repeat (split; [assumption|]).
        split; [|right]; [rewrite T3, T4, register_app; reflexivity|]. split; [assumption|]. exists r. split; [exists q; auto|].
        destruct (push_zset (v_cell s) r T1) as [_ ->]. rewrite T2, dedup_snoc, T4. auto.
    Qed.

    Lemma open_cell n fuel (cc : ulist Point) pm : length ts = Datatypes.S n -> NoDup W -> (n < fuel)%nat -> ul_ranged cc ->
      ext (dl_circumcenters d) cc ->
      exists g s wn oen ma mb a b J f l qf ql, build_cell tol fuel d c v cc m0 pm = Ok (g, s) /\ ul_ranged (v_cc s) /\ ext cc (v_cc s) /\
        nth_error W (Datatypes.S n) = Some wn /\ In oen (o_edges o) /\ same_side (v, wn) (fst oen) = true /\
        iseg_middle mp (fst oe0) = Ok ma /\ iseg_middle mp (fst oen) = Ok mb /\
        located (v_cc s) a (setBoundary ma) /\ located (v_cc s) b (setBoundary mb) /\ J = a :: map cci ts ++ [b] /\
        hd_error (dedup J) = Some f /\ hd_error (rev (dedup J)) = Some l /\ ul_get (v_cc s) f = Ok qf /\ ul_get (v_cc s) l = Ok ql /\
        v_edges s = register c m0 (v_this s) /\
        (pg_points g = ul_list (v_cell s) \/ pg_points g = rev (ul_list (v_cell s))) /\
        ((collinear tol qf center ql = true /\ ul_list (v_cell s) = dedup J /\ v_this s = links J ++ [(l, f)]) \/
         (collinear tol qf center ql = false /\ exists r, located (v_cc s) r (setBoundary center) /\ ul_list (v_cell s) = dedup (J ++ [r]) /\
            v_this s = links J ++ [(l, r); (r, f)])).
    Proof.
      intros Ln ND Lf R X. unfold build_cell. destruct begin_ok as (pd & B1 & B2 & B3 & B4). rewrite B1. cbn [bind]. rewrite B2. cbn [bind]. rewrite B4. cbn [bind].
      rewrite B3. destruct (nth_get ts 0) as [k0 H0]; [lia|].
      assert (INC : incident tris (v, w0) = [Z.of_nat k0]) by (apply (start_open tris v (tg_corners _ _ _ T) W ts F A); assumption).
      assert (Ei : e_t1 init = Z.of_nat k0 /\ e_t2 init = -1).
      { unfold init. cbn [edge_after e_t1 e_t2]. rewrite <- (incident_cong tris _ _ S0), INC. split; reflexivity. }
      destruct Ei as [-> ->].
      destruct (fan_nth _ _ _ _ F _ _ H0) as (a0 & w1 & t & P1 & P2 & P3 & P4 & P5 & P6). assert (a0 = w0) as -> by congruence.
      destruct (cci_located _ _ P3) as (_ & _ & _ & _ & _ & _ & _ & G1). rewrite G1. cbn [bind].
      destruct (middle_located kE0 oe0 cc E0 R) as (ma & cc1 & a & MA & G2 & _ & R1 & X1 & LA). rewrite G2. cbn [bind].
      pose proof (ext_trans _ _ _ X X1) as X01. destruct (cci_get _ _ _ P3 X01) as [q1 V1]. destruct LA as (q2 & V2 & SA).
      destruct (traced_first tol c m0 cc1 pm (cci k0) a q1 q2 V1 V2) as (s0 & AS & CC & TR). rewrite AS. cbn [bind].
      destruct (tri_nth _ _ P3) as (tr & V3 & E3). rewrite V3. cbn [bind]. rewrite E3.
      destruct (step_next 0 _ _ _ _ kE0 oe0 W0 P2 H0 P3 (conj E0 S0)) as (k2 & oe2 & HE2 & NX). fold init in NX. rewrite NX. cbn [bind].
      rewrite (edge_at tol o d O _ _ (proj1 HE2)). cbn [bind].
      destruct (walk_path n 1 w1 k0 k2 oe2 s0 a fuel) as (wn & kn & kE' & oen & s1 & Q1 & Q2 & Q3 & Q4 & Q5 & Q6); auto; try lia.
      { rewrite CC. assumption. }
      { rewrite (firstn_snoc _ _ _ H0). exact TR. }
      rewrite Q6. rewrite Ln in Q1, Q2. cbn [Nat.sub] in Q2. rewrite Nat.sub_0_r in Q2.
      assert (INC' : incident tris (v, wn) = [Z.of_nat kn]) by (apply (end_open tris v (tg_corners _ _ _ T) W ts F A n); auto).
      assert (Dw : wn <> w0).
      { intros ->. pose proof (proj1 (NoDup_nth_error _) ND) as U. assert (0%nat = Datatypes.S n); [apply U|lia].
        - pose proof (fan_len _ _ _ _ F). lia.
        - congruence. }
      destruct (fuel - n)%nat as [|fuel'] eqn:Ef; [lia|]. cbn [walk].
      destruct (edge_eqb (edge_after tris oen) init) eqn:EQ; [apply (eqb_init _ _ _ Q3) in EQ; contradiction|].
      rewrite (edge_key tol o d T O kE' oen (proj1 Q3)).
      assert (Et : e_t1 (edge_after tris oen) = Z.of_nat kn /\ e_t2 (edge_after tris oen) = -1).
      { cbn [edge_after e_t1 e_t2]. rewrite <- (incident_cong tris _ _ (proj2 Q3)), INC'. split; reflexivity. }
      destruct Et as [-> Et2]. rewrite Et2, Z.eqb_refl. cbn [negb].
      assert (RS : ul_ranged (v_cc s1)) by (rewrite Q4, CC; assumption).
      destruct (middle_located kE' oen (v_cc s1) (proj1 Q3) RS) as (mb & cc2 & b & MB & G3 & _ & R2 & X2 & LB). rewrite G3. cbn [bind].
      destruct (fan_nth _ _ _ _ F _ _ Q2) as (a0 & b0 & tn & _ & _ & Htn & _).
      destruct (cci_located _ _ Htn) as (_ & _ & _ & _ & _ & _ & _ & G4). rewrite G4. cbn [bind].
      rewrite Q4, CC in X2. pose proof (ext_trans _ _ _ X01 X2) as X02. destruct (cci_get _ _ _ Htn X02) as [q3 V4]. destruct LB as (q4 & V5 & SB).
      assert (Lts : a :: map cci ts = (a :: map cci (firstn n ts)) ++ [cci kn]).
      { rewrite <- (firstn_all ts), Ln, (firstn_snoc _ _ _ Q2), map_app. cbn [app map]. f_equal. rewrite firstn_app, firstn_firstn, Nat.min_id, firstn_length, Ln.
        replace (n - Nat.min n (Datatypes.S n))%nat with 0%nat by lia. cbn [firstn]. rewrite app_nil_r. reflexivity. }
      rewrite Lts in Q5. destruct (traced_step tol c m0 (with_cc s1 cc2) _ b (cci kn) q4 q3 (traced_with _ _ _ _ cc2 Q5) V5 V4) as (s2 & AS2 & CC2 & TR2).
      rewrite AS2. cbn [bind]. change (-1 =? -1) with true. cbn [negb bind]. cbn [with_cc v_cc] in CC2.
      set (J := a :: map cci ts ++ [b]).
      assert (EJ : (a :: map cci (firstn n ts)) ++ [cci kn; b] = J).
      { unfold J. rewrite (app_comm_cons (map cci ts)), Lts, <- app_assoc. reflexivity. }
      rewrite EJ in TR2.
      assert (FJ : forall cc', ext cc2 cc' -> Forall (fun i => exists q, ul_get cc' i = Ok q) J).
      { intros cc' X'. unfold J. constructor.
        - destruct (located_ext cc1 cc' a (setBoundary ma)) as (q & Hq & _); [eapply ext_trans; eassumption|exists q2; auto|eauto].
        - apply Forall_app. split.
          + apply Forall_forall. intros x Hx. apply in_map_iff in Hx as (k & <- & Hk). apply In_nth_error in Hk as [i Hi].
            destruct (fan_nth _ _ _ _ F _ _ Hi) as (_ & _ & tk & _ & _ & Htk & _). exact (cci_get _ _ _ Htk (ext_trans _ _ _ X02 X')).
          + constructor; [|constructor]. destruct (located_ext cc2 cc' b (setBoundary mb) X') as (q & Hq & _); [exists q4; auto|eauto]. }
      destruct (close_eq (edge_after tris oen) s2 J TR2) as (s3 & f & l & qf & ql & CL & C1 & C2 & C3 & C4 & C5 & C6 & C7 & C8); auto.
      { discriminate. }
      { rewrite CC2. assumption. }
      { rewrite CC2. apply FJ, ext_refl. }
      rewrite CL. cbn [bind]. rewrite ctor_idx_ok. cbn [bind]. rewrite CC2 in C6.
      assert (NEc : ul_list (v_cell s3) <> [] /\ Forall (fun i => exists q, ul_get (v_cc s3) i = Ok q) (ul_list (v_cell s3))).
      { destruct C8 as [(_ & _ & -> & _)|(_ & r & (q & Hr & _) & -> & _)]; split.
        - intros E. apply dedup_nil in E. discriminate.
        - apply Forall_forall. intros x Hx. apply (proj1 (dedup_in _ _)) in Hx. pose proof (FJ _ C6) as FF. rewrite Forall_forall in FF. exact (FF x Hx).
        - intros E. apply dedup_nil in E. discriminate.
        - apply Forall_forall. intros x Hx. apply (proj1 (dedup_in _ _)), in_app_or in Hx as [Hx|[<-|[]]]; [|eauto]. pose proof (FJ _ C6) as FF. rewrite Forall_forall in FF. exact (FF x Hx). }
      destruct (fixCCW_total (mkPoly (ul_list (v_cell s3)) (nZ (-1)) (nZ (-1)) point0 (calculateHash (ul_list (v_cell s3)))) (ul_list (v_cc s3))) as [g Eg]; [apply NEc|apply NEc|].
      rewrite Eg. cbn [bind]. apply fixCCW_points in Eg. cbn [pg_points] in Eg.
      assert (GX : forall i q, ul_get (v_cc s2) i = Ok q -> ul_get (v_cc s3) i = Ok q).
      { intros i q Hq. rewrite CC2 in Hq. unfold ul_get in *. apply vget_ok in Hq as [? ?]. apply vget_ok. split; [assumption|]. eapply ext_nth; eassumption. }
      exists g, s3, wn, oen, ma, mb, a, b, J, f, l, qf, ql.
      split; [reflexivity|]. split; [assumption|]. split; [eapply ext_trans; [exact X1|]; eapply ext_trans; eassumption|].
      split; [assumption|]. split; [eapply nth_error_In; exact (proj1 Q3)|]. split; [exact (proj2 Q3)|]. split; [assumption|]. split; [assumption|].
      split; [eapply (located_ext cc1); [eapply ext_trans; eassumption|exists q2; auto]|]. split; [eapply (located_ext cc2); [eassumption|exists q4; auto]|].
      split; [reflexivity|]. split; [assumption|]. split; [assumption|]. split; [auto|]. split; [auto|]. split; [assumption|]. split; [assumption|].
      destruct C8 as [(D1 & _ & D3 & D4)|D]; [left; auto|right; assumption].
    Qed.
  End Path.
End Walk.

(** * All cells *)
Lemma start_at (edges : list (Z * Z * Z)) v e : In e edges -> touches v (fst e) = true ->
  exists k oe, start_edge edges v = Z.of_nat k /\ nth_error edges k = Some oe /\ touches v (fst oe) = true /\
    ((exists e', In e' edges /\ touches v (fst e') = true /\ snd e' = 1) -> snd oe = 1).
Proof.
  intros He Hv. unfold start_edge, last_or.
  destruct (rev (positions (fun e : Z * Z * Z => touches v (fst e) && (snd e =? 1)) edges 0)) as [|k l] eqn:Er; cbn [first_or].
  - apply (f_equal (@rev Z)) in Er. rewrite rev_involutive in Er. cbn [rev] in Er.
    destruct (positions (fun e : Z * Z * Z => touches v (fst e)) edges 0) as [|k l] eqn:E2; cbn [first_or].
    + exfalso. apply In_nth_error in He as [n Hn].
      assert (In (Z.of_nat n) (positions (fun e : Z * Z * Z => touches v (fst e)) edges 0)) as Q by (apply positions_in; exists n, e; auto).
      rewrite E2 in Q. destruct Q.
    + assert (In k (positions (fun e : Z * Z * Z => touches v (fst e)) edges 0)) as Q by (rewrite E2; left; reflexivity).
      apply positions_in in Q as (n & a & Q1 & Q2 & ->). exists n, a. rewrite Z.add_0_l. repeat (split; auto).
      intros (e' & P1 & P2 & P3). exfalso. apply In_nth_error in P1 as [j Hj].
      assert (In (Z.of_nat j) (positions (fun e : Z * Z * Z => touches v (fst e) && (snd e =? 1)) edges 0)) as Q.
      { apply positions_in. exists j, e'. split; [assumption|]. split; [|reflexivity]. rewrite P2, P3. reflexivity. }
      rewrite Er in Q. destruct Q.
  - assert (In k (positions (fun e : Z * Z * Z => touches v (fst e) && (snd e =? 1)) edges 0)) as Q by (apply in_rev; rewrite Er; left; reflexivity).
    apply positions_in in Q as (n & a & Q1 & Q2 & ->). apply andb_prop in Q2 as [Q2 Q3]. exists n, a. rewrite Z.add_0_l. repeat (split; auto). intros _. lia.
Qed.
Lemma rev_case {A} (l : list A) : l = [] \/ exists l' x, l = l' ++ [x].
Proof. destruct l as [|a l]; [auto|]. right. destruct (@exists_last _ (a :: l)) as (l' & x & E); [discriminate|]. eauto. Qed.
Lemma turned_rot {A} (ts l : list A) k : turned ts (l ++ [k]) -> turned ts (k :: l).
Proof.
  intros (a & b & -> & [H|H]).
  - destruct (rev_case a) as [->|(a1 & x & ->)].
    + rewrite app_nil_r in H. subst b. exists l, [k]. split; [reflexivity|left; reflexivity].
    + rewrite app_assoc in H. apply app_inj_tail in H as [-> ->]. exists a1, ([x] ++ b). rewrite <- app_assoc. split; [reflexivity|left; reflexivity].
  - apply (f_equal (@rev A)) in H. rewrite rev_involutive, rev_app_distr in H. cbn [rev app] in H. destruct b as [|x b]; cbn [app] in H.
    + subst a. exists [k], (rev l). rewrite app_nil_r. split; [reflexivity|right]. rewrite rev_app_distr, rev_involutive. reflexivity.
    + injection H as <- H. exists (a ++ [k]), b. split; [rewrite <- app_assoc; reflexivity|]. right. rewrite app_assoc, <- H, rev_app_distr, rev_involutive. reflexivity.
Qed.
Lemma turned_length {A} (ts l : list A) : turned ts l -> length l = length ts.
Proof. intros (a & b & -> & [->| ->]); rewrite ?rev_length, !app_length; lia. Qed.

Section Total.
  Context {N : Num}.
  Notation Point := (Point N).
  Variable tol : nT N.
  Variable o : trout N.
  Variable d : delaunay N.
  Hypothesis T : triangulation (zlen (o_points o)) (map fst (o_edges o)) (o_tris o).
  Hypothesis O : output_ok tol o d.
  Notation mp := (map read_point (o_points o)).
  Notation tris := (o_tris o).
  Notation ext := (@ext N).

  Lemma located_at cc i x : located tol cc i x <-> stands_at tol (ul_list cc) i x.
  Proof.
    split; intros (y & H & S); exists y; split; auto.
    - constructor; [apply vget_ok in H; exact H|constructor].
    - inversion_clear H as [|? ? ? ? H1 _]. apply vget_ok. exact H1.
  Qed.
  Lemma stands_at_ext cc cc' i x : ext cc cc' -> stands_at tol (ul_list cc) i x -> stands_at tol (ul_list cc') i x.
  Proof. rewrite <- !located_at. apply located_ext. Qed.
  Lemma vertices_ext cc cc' (is : list Z) (vs : list Point) : ext cc cc' -> vertices_are (ul_list cc) is vs -> vertices_are (ul_list cc') is vs.
  Proof. intros X H. induction H as [|a b is vs [H1 H2] _ IH]; constructor; [|exact IH]. split; [assumption|]. eapply ext_nth; eassumption. Qed.
  Lemma border_cell_ext cc cc' ci v w w' ts pts segs : ext cc cc' -> border_cell tol o (ul_list cc) ci v w w' ts pts segs -> border_cell tol o (ul_list cc') ci v w w' ts pts segs.
  Proof.
    intros X (u & u' & l & a & b & q & f & z & qf & qz & cell & H1 & H2 & H3 & H4 & H5 & H6 & H7 & H8 & H9).
    exists u, u', l, a, b, q, f, z, qf, qz, cell. split; [assumption|].
    assert (M : forall u a, middle_at tol o (ul_list cc) v u a -> middle_at tol o (ul_list cc') v u a).
    { intros u0 a0 (e & m & P1 & P2 & P3 & P4). exists e, m. repeat (split; [assumption|]). eapply stands_at_ext; eassumption. }
    split; [auto|]. split; [auto|]. split; [assumption|]. split; [assumption|]. split; [assumption|]. split; [eapply vertices_ext; eassumption|]. split; [assumption|].
    destruct H9 as [H9|(P1 & r & P2 & P3 & P4)]; [left; assumption|right]. split; [assumption|]. exists r. split; [eapply stands_at_ext; eassumption|auto].
  Qed.

  Definition cell_as (v : Z) (cc : ulist Point) (pts : list Z) (segs : list (Z * Z)) : Prop :=
    (forall ws ts, closed_fan (map fst (o_edges o)) tris v ws ts -> inner_cell (cci d) ts pts segs) /\
    (forall w ws w' ts, open_fan (o_edges o) tris v w ws w' ts -> border_cell tol o (ul_list cc) (cci d) v w w' ts pts segs).
  Definition has_fan (v : Z) : Prop :=
    (exists ws ts, closed_fan (map fst (o_edges o)) tris v ws ts) \/ (exists w ws w' ts, open_fan (o_edges o) tris v w ws w' ts).

  Lemma at_point v e : In e (o_edges o) -> touches v (fst e) = true -> exists q, vertices_are mp [v] [q].
  Proof.
    intros He Hv. assert (Hr : 0 <= v < zlen (o_points o)).
    { destruct e as [[x y] mk]. apply (in_map fst) in He. cbn [fst] in *. apply (tg_ends _ _ _ T) in He. apply touches_iff in Hv. cbn [fst snd] in Hv. lia. }
    destruct (nth_error mp (Z.to_nat v)) as [q|] eqn:E.
    - exists q. constructor; [split; [lia|assumption]|constructor].
    - apply nth_error_None in E. rewrite map_length in E. unfold zlen in Hr. lia.
  Qed.
  Lemma sector_edge v W ts i w : sector tris v W ts -> (0 < length ts)%nat -> nth_error W i = Some w -> exists e, In e (o_edges o) /\ same_side (v, w) (fst e) = true.
  Proof.
    intros F L Hw. assert (exists k t, nth_error tris k = Some t /\ has_side (v, w) t = true) as (k & t & Ht & Hs).
    { pose proof (fan_len _ _ _ _ F) as LW. assert (Li : (i < length W)%nat) by (apply nth_error_Some; congruence).
      destruct (Nat.lt_ge_cases i (length ts)) as [A|A].
      - destruct (nth_get ts i A) as [k Hk]. destruct (fan_nth _ _ _ _ F _ _ Hk) as (a & b & t & P1 & P2 & P3 & P4 & P5 & P6). exists k, t. split; [assumption|]. congruence.
      - destruct (nth_get ts (i - 1)) as [k Hk]; [lia|]. destruct (fan_nth _ _ _ _ F _ _ Hk) as (a & b & t & P1 & P2 & P3 & P4 & P5 & P6). exists k, t. split; [assumption|].
        replace (S (i - 1)) with i in P2 by lia. congruence. }
    unfold has_side in Hs. apply existsb_exists in Hs as (s & S1 & S2).
    destruct (tg_sides _ _ _ T t s (nth_error_In _ _ Ht) S1) as (s' & S3 & S4). apply in_map_iff in S3 as (e & <- & He). exists e. split; [assumption|].
    eapply same_side_trans; eassumption.
  Qed.
  Lemma sector_short v W ts : sector tris v W ts -> simple W -> (length ts <= length tris)%nat.
  Proof.
    intros F S. rewrite <- (seq_length (length tris) 0). apply NoDup_incl_length.
    - apply NoDup_nth_error. intros i j Hi E. destruct (nth_get ts i Hi) as [k Hk]. rewrite Hk in E. symmetry in E.
      exact (ts_inj tris v (tg_corners _ _ _ T) W ts F S i j k Hk E).
    - intros k Hk. apply In_nth_error in Hk as [i Hi]. destruct (fan_nth _ _ _ _ F _ _ Hi) as (_ & _ & t & _ & _ & Ht & _).
      apply in_seq. split; [lia|]. cbn. apply nth_error_Some. congruence.
  Qed.

  Lemma closed_total v ws ts fuel c cc m0 pm : closed_fan (map fst (o_edges o)) tris v ws ts -> (length ts <= S fuel)%nat -> ext (dl_circumcenters d) cc ->
    exists g s, build_cell tol fuel d c v cc m0 pm = Ok (g, s) /\ v_cc s = cc /\ v_edges s = register c m0 (v_this s) /\
      inner_cell (cci d) ts (pg_points g) (v_this s).
  Proof.
    intros (w1 & ws1 & -> & F & ND & L3 & A1 & A2) Lf X.
    assert (Hts : (0 < length ts)%nat) by (pose proof (fan_len _ _ _ _ F) as L; rewrite app_length in L; cbn [length] in *; lia).
    destruct (sector_edge v _ ts 0 w1 F Hts eq_refl) as (e1 & He1 & Hs1).
    assert (Hv1 : touches v (fst e1) = true) by (rewrite <- (touches_cong _ _ _ Hs1); apply touches_iff; auto).
    destruct (at_point v e1 He1 Hv1) as [q Vq].
    destruct (start_at _ _ _ He1 Hv1) as (kE & oe & ST & Hk & Hv & _).
    destruct (A2 (fst oe)) as (w & Hw & Hs); [apply in_map; eapply nth_error_In; eassumption|assumption|].
    assert (R : exists ws' ts', sector tris v (w :: ws' ++ [w]) ts' /\ NoDup (w :: ws') /\ (3 <= length (w :: ws'))%nat /\ turned ts ts' /\ (forall k, In k ts -> In k ts')).
    { apply in_split in Hw as (a & b & E). destruct a as [|x a]; cbn [app] in E; injection E as -> ->.
      - exists b, ts. split; [exact F|]. split; [assumption|]. split; [assumption|]. split; [|auto]. exists [], ts. split; [reflexivity|]. left. rewrite app_nil_r. reflexivity.
      - rewrite <- app_comm_cons, <- app_assoc, <- app_comm_cons in F. rewrite app_comm_cons in F. apply fan_split in F as (ta & tb & -> & F1 & F2).
        exists (b ++ x :: a), (tb ++ ta).
        assert (PM : Permutation (x :: a ++ w :: b) (w :: b ++ x :: a)).
        { change (x :: a ++ w :: b) with ((x :: a) ++ (w :: b)). change (w :: b ++ x :: a) with ((w :: b) ++ (x :: a)). apply Permutation_app_comm. }
        split; [|split; [|split; [|split]]].
        + rewrite <- app_assoc. rewrite app_comm_cons. rewrite app_comm_cons in F2. apply fan_app; assumption.
        + eapply Permutation_NoDup; eassumption.
        + rewrite <- (Permutation_length PM). assumption.
        + exists ta, tb. split; [reflexivity|left; reflexivity].
        + intros k Hin. apply in_app_iff in Hin. apply in_app_iff. tauto. }
    destruct R as (ws' & ts' & F' & ND' & L3' & TU & IN).
    assert (R : exists ws'' ts'' n k0 kn, sector tris v (w :: ws'' ++ [w]) ts'' /\ NoDup (w :: ws'') /\ (3 <= length (w :: ws''))%nat /\ turned ts ts'' /\ (forall k, In k ts -> In k ts'') /\
        length ts'' = S n /\ nth_error ts'' 0 = Some k0 /\ nth_error ts'' n = Some kn /\ incident tris (v, w) = [Z.of_nat k0; Z.of_nat kn]).
    { pose proof (fan_len _ _ _ _ F') as LW. cbn [length] in LW. rewrite app_length in LW. cbn [length] in LW, L3'.
      destruct (length ts') as [|n] eqn:Ln; [lia|]. destruct (nth_get ts' 0) as [k0 H0]; [lia|]. destruct (nth_get ts' n) as [kn Hn]; [lia|].
      assert (Wn : nth_error (w :: ws' ++ [w]) (S n) = Some w).
      { cbn [nth_error]. rewrite nth_error_app2 by lia. replace (n - length ws')%nat with 0%nat by lia. reflexivity. }
      destruct (start_closed tris v (tg_corners _ _ _ T) _ ts' F' (closed_simple w ws' ND' L3') (fun k t H1 H2 => IN k (A1 k t H1 H2)) n w k0 kn) as [D [INC|INC]]; auto.
      - exists ws', ts', n, k0, kn. auto 15.
      - exists (rev ws'), (rev ts'), n, kn, k0.
        pose proof (fan_rev _ _ _ _ F') as FR. cbn [rev] in FR. rewrite rev_app_distr in FR. cbn [rev app] in FR.
        split; [exact FR|]. split; [inversion_clear ND' as [|? ? N1 N2]; constructor; [rewrite <- in_rev; assumption|apply NoDup_rev; assumption]|].
        split; [cbn [length]; rewrite rev_length; exact L3'|]. split.
        { destruct TU as (a & b & -> & [->| ->]); exists a, b; (split; [reflexivity|]); [right; reflexivity|left; apply rev_involutive]. }
        split; [intros k Hk'; rewrite <- in_rev; auto|]. split; [rewrite rev_length; assumption|].
        assert (RV : forall i, (i <= n)%nat -> nth_error (rev ts') i = nth_error ts' (n - i)).
        { intros i Hi. rewrite !(nth_error_nth' _ 0%nat) by (rewrite ?rev_length; lia). f_equal. rewrite rev_nth by lia. f_equal. lia. }
        rewrite !RV by lia. rewrite Nat.sub_0_r, Nat.sub_diag. auto. }
    destruct R as (W & l & n & k0 & kn & F2 & ND2 & L2 & TU2 & IN2 & Ln & H0 & Hn & INC). clear F' ND' L3' TU IN ws' ts'.
    assert (Ss : simple (w :: W ++ [w])) by (apply closed_simple; assumption).
    assert (Wn : nth_error (w :: W ++ [w]) (S n) = Some w).
    { pose proof (fan_len _ _ _ _ F2) as LW. cbn [length] in LW. rewrite app_length in LW. cbn [length] in LW.
      cbn [nth_error]. rewrite nth_error_app2 by lia. replace (n - length W)%nat with 0%nat by lia. reflexivity. }
    assert (Ls : (n <= fuel)%nat) by (apply turned_length in TU2; lia).
    destruct (closed_cell tol o d T O v (w :: W ++ [w]) l F2 Ss (fun k t Q1 Q2 => IN2 k (A1 k t Q1 Q2)) c m0 oe w eq_refl Hs kE Hk q Vq ST n fuel cc pm k0 kn) as (g & s & B & C1 & TR & P); auto.
    exists g, s. split; [assumption|]. split; [assumption|]. split; [rewrite (tc_this _ _ _ _ TR); apply (tc_edges _ _ _ _ TR)|].
    assert (El : l = firstn n l ++ [kn]) by (rewrite <- (firstn_snoc _ _ _ Hn), <- Ln; symmetry; apply firstn_all).
    exists (kn :: firstn n l). split; [apply turned_rot; rewrite <- El; assumption|].
    assert (E1 : cci d kn :: map (cci d) l = map (cci d) (kn :: firstn n l) ++ [cci d kn]).
    { rewrite El at 1. rewrite map_app. reflexivity. }
    rewrite E1 in P, TR. rewrite dedup_old in P by (left; reflexivity). split; [assumption|].
    rewrite (tc_this _ _ _ _ TR). reflexivity.
  Qed.

  Lemma open_total v w ws w' ts fuel c cc m0 pm : open_fan (o_edges o) tris v w ws w' ts -> (length tris < fuel)%nat -> ul_ranged cc -> ext (dl_circumcenters d) cc ->
    exists g s, build_cell tol fuel d c v cc m0 pm = Ok (g, s) /\ ul_ranged (v_cc s) /\ ext cc (v_cc s) /\ v_edges s = register c m0 (v_this s) /\
      border_cell tol o (ul_list (v_cc s)) (cci d) v w w' ts (pg_points g) (v_this s).
  Proof.
    intros (F & ND & (A1 & A2) & MK) Lf R X.
    assert (Hts : (0 < length ts)%nat) by (pose proof (fan_len _ _ _ _ F) as L; cbn [length] in L; rewrite app_length in L; cbn [length] in *; lia).
    destruct (sector_edge v _ ts 0 w F Hts eq_refl) as (e1 & He1 & Hs1).
    assert (Hv1 : touches v (fst e1) = true) by (rewrite <- (touches_cong _ _ _ Hs1); apply touches_iff; auto).
    destruct (at_point v e1 He1 Hv1) as [q Vq].
    destruct (start_at _ _ _ He1 Hv1) as (kE & oe & ST & Hk & Hv & M1).
    assert (M : same_side (v, w) (fst oe) = true \/ same_side (v, w') (fst oe) = true).
    { apply (MK oe); [eapply nth_error_In; eassumption|assumption|]. apply M1. exists e1. split; [assumption|]. split; [assumption|]. apply MK; auto. }
    assert (R0 : exists u u' us l, sector tris v (u :: us ++ [u']) l /\ NoDup (u :: us ++ [u']) /\ (forall k, In k ts -> In k l) /\ same_side (v, u) (fst oe) = true /\
       ((u = w /\ u' = w' /\ l = ts) \/ (u = w' /\ u' = w /\ l = rev ts))).
    { destruct M as [M|M].
      - exists w, w', ws, ts. auto 10.
      - exists w', w, (rev ws), (rev ts). pose proof (fan_rev _ _ _ _ F) as FR. cbn [rev] in FR. rewrite rev_app_distr in FR. cbn [rev app] in FR.
        split; [exact FR|]. split.
        { apply NoDup_rev in ND. cbn [rev] in ND. rewrite rev_app_distr in ND. exact ND. }
        split; [intros k; rewrite <- in_rev; auto|]. auto 10. }
    destruct R0 as (u & u' & us & l & F2 & ND2 & IN & Hs & CASES).
    assert (Ss : simple (u :: us ++ [u'])) by (apply NoDup_simple; assumption).
    pose proof (fan_len _ _ _ _ F2) as LW. cbn [length] in LW. rewrite app_length in LW. cbn [length] in LW.
    destruct (length l) as [|n] eqn:Ln; [lia|].
    assert (Ls : (n < fuel)%nat) by (pose proof (sector_short _ _ _ F2 Ss); lia).
    destruct (open_cell tol o d T O v _ l F2 Ss (fun k t Q1 Q2 => IN k (A1 k t Q1 Q2)) c m0 oe u eq_refl Hs kE Hk q Vq ST n fuel cc pm Ln ND2 Ls R X)
      as (g & s & wn & oen & ma & mb & a & b & J & f & z & qf & qz & B & R' & X' & Wn & Ie & Se & Ma & Mb & La & Lb & -> & Hf & Hz & Gf & Gz & Ed & P & K).
    assert (wn = u') as ->.
    { cbn [nth_error] in Wn. rewrite nth_error_app2 in Wn by lia. replace (n - length us)%nat with 0%nat in Wn by lia. injection Wn as ->. reflexivity. }
    exists g, s. split; [assumption|]. split; [assumption|]. split; [assumption|]. split; [assumption|].
    exists u, u', l, a, b, q, f, z, qf, qz, (ul_list (v_cell s)). split; [assumption|].
    split; [exists oe, ma; repeat (split; [first [assumption|eapply nth_error_In; eassumption]|]); apply located_at; assumption|].
    split; [exists oen, mb; repeat (split; [assumption|]); apply located_at; assumption|].
    split; [assumption|]. split; [assumption|]. split; [assumption|].
    split; [apply vget_ok in Gf; apply vget_ok in Gz; constructor; [exact Gf|constructor; [exact Gz|constructor]]|].
    split; [assumption|]. destruct K as [K|(K1 & r & K2 & K3 & K4)]; [left; exact K|right]. split; [assumption|]. exists r. split; [apply located_at; assumption|]. auto.
  Qed.

  Lemma closed_short v ws ts fuel : closed_fan (map fst (o_edges o)) tris v ws ts -> (length tris < fuel)%nat -> (length ts <= S fuel)%nat.
  Proof.
    intros (w & ws' & -> & F & ND & L3 & _) L. pose proof (sector_short _ _ _ F (closed_simple w ws' ND L3)). lia.
  Qed.
  Lemma cell_total v fuel c cc m0 pm : has_fan v -> (length tris < fuel)%nat -> ul_ranged cc -> ext (dl_circumcenters d) cc ->
    exists g s, build_cell tol fuel d c v cc m0 pm = Ok (g, s) /\ ul_ranged (v_cc s) /\ ext cc (v_cc s) /\ v_edges s = register c m0 (v_this s) /\
      cell_as v (v_cc s) (pg_points g) (v_this s).
  Proof.
    intros HF Lf R X.
    assert (E : exists g s, build_cell tol fuel d c v cc m0 pm = Ok (g, s) /\ ul_ranged (v_cc s) /\ ext cc (v_cc s) /\ v_edges s = register c m0 (v_this s)).
    { destruct HF as [(ws & ts & HF)|(w & ws & w' & ts & HF)].
      - destruct (closed_total v ws ts fuel c cc m0 pm HF (closed_short _ _ _ _ HF Lf) X) as (g & s & B & C1 & C2 & _). exists g, s. rewrite C1. split; [assumption|]. split; [assumption|]. split; [apply ext_refl|assumption].
      - destruct (open_total v w ws w' ts fuel c cc m0 pm HF Lf R X) as (g & s & B & C1 & C2 & C3 & _). exists g, s. auto. }
    destruct E as (g & s & B & C1 & C2 & C3). exists g, s. repeat (split; [assumption|]). split.
    - intros ws ts HF'. destruct (closed_total v ws ts fuel c cc m0 pm HF' (closed_short _ _ _ _ HF' Lf) X) as (g' & s' & B' & _ & _ & Q). rewrite B in B'. injection B' as <- <-. assumption.
    - intros w ws w' ts HF'. destruct (open_total v w ws w' ts fuel c cc m0 pm HF' Lf R X) as (g' & s' & B' & _ & _ & _ & Q). rewrite B in B'. injection B' as <- <-. assumption.
  Qed.

  Fixpoint register_all (c : Z) (segs : list (list (Z * Z))) (m : segmap) : segmap :=
    match segs with [] => m | l :: rest => register_all (c + 1) rest (register c m l) end.
  Lemma cells_total fuel vs : (length tris < fuel)%nat -> Forall has_fan vs -> forall c cc m pm, ul_ranged cc -> ext (dl_circumcenters d) cc ->
    exists gs cc' pm', build_cells tol fuel d c vs cc m pm = Ok (gs, cc', register_all c (map snd gs) m, pm') /\ ext cc cc' /\
      Forall2 (fun v gs => cell_as v cc' (pg_points (fst gs)) (snd gs)) vs gs.
  Proof.
    intros Lf. induction 1 as [|v vs Hv _ IH]; intros c cc m pm R X; cbn [build_cells].
    - exists [], cc, pm. split; [reflexivity|]. split; [apply ext_refl|constructor].
    - destruct (cell_total v fuel c cc m pm Hv Lf R X) as (g & s & B & R1 & X1 & E1 & C1 & C2). rewrite B. cbn [bind].
      destruct (IH (c + 1) (v_cc s) (v_edges s) (v_pm s) R1 (ext_trans _ _ _ X X1)) as (gs & cc' & pm' & B2 & X2 & F2). rewrite B2. cbn [bind].
      exists ((g, v_this s) :: gs), cc', pm'. cbn [map fst snd register_all]. split; [rewrite E1; reflexivity|]. split; [eapply ext_trans; eassumption|].
      constructor; [|assumption]. cbn [fst snd]. split; [assumption|]. intros w ws w' ts HF. apply (border_cell_ext (v_cc s) cc'); eauto.
  Qed.
End Total.

Lemma register_all_run segs : forall c h, register_all c segs (sm_run h) = sm_run (h ++ map (fun p => (0, p)) (cell_inserts c segs)).
Proof.
  assert (G : forall c l h, register c (sm_run h) l = sm_run (h ++ map (fun p => (0, p)) (map (fun s => SmInsert s c) l))).
  { intros c l. induction l as [|s l IH]; intros h; cbn [map]; [rewrite app_nil_r; reflexivity|].
    unfold register. cbn [fold_left]. change (fold_left (fun m e => sm_insert iseg_eqb m e c) l ?m) with (register c m l).
    replace (sm_insert iseg_eqb (sm_run h) s c) with (sm_run (h ++ [(0, SmInsert s c)])).
    - rewrite IH, <- app_assoc. reflexivity.
    - unfold sm_run. rewrite fold_left_app. cbn [fold_left sm_step fst snd]. unfold sm_insert. rewrite sm_find_eqb, sm_update_eqb. reflexivity. }
  induction segs as [|l segs IH]; intros c h; cbn [register_all cell_inserts map]; [rewrite app_nil_r; reflexivity|].
  rewrite G, IH, map_app, <- app_assoc. reflexivity.
Qed.

Lemma voronoi_built {N : Num} (tol : nT N) fuel (o : trout N) d :
  triangulation (zlen (o_points o)) (map fst (o_edges o)) (o_tris o) -> read_output tol o = Ok d ->
  (forall v, In v (flat_map corners (o_tris o)) -> (exists ws ts, closed_fan (map fst (o_edges o)) (o_tris o) v ws ts) \/
     (exists w ws w' ts, open_fan (o_edges o) (o_tris o) v w ws w' ts)) ->
  (length (o_tris o) < fuel)%nat ->
  exists m ci gs, voronoi tol fuel d = Ok m /\
    (forall k t, nth_error (o_tris o) k = Some t -> exists A B C c, vertices_are (map read_point (o_points o)) (corners t) [A; B; C] /\
       circumcenter A B C = Ok c /\ stands_at tol (ul_list (dl_circumcenters d)) (ci k) c) /\
    ext (dl_circumcenters d) (ms_points m) /\
    map fst gs = ms_polygons m /\
    (forall nb s, um_find (iseg_match nb) s (ms_edges m) = spec_sm_run (cell_inserts 0 (map snd gs)) (canon s)) /\
    Forall2 (fun v gs =>
      (forall ws ts, closed_fan (map fst (o_edges o)) (o_tris o) v ws ts -> inner_cell ci ts (pg_points (fst gs)) (snd gs)) /\
      (forall w ws w' ts, open_fan (o_edges o) (o_tris o) v w ws w' ts ->
         border_cell tol o (ul_list (ms_points m)) ci v w w' ts (pg_points (fst gs)) (snd gs)))
      (dedup (flat_map corners (o_tris o))) gs.
Proof.
  intros T H HF Lf. pose proof (read_output_ok tol o d T H) as O.
  destruct (cells_total tol o d T O fuel (dedup (flat_map corners (o_tris o))) Lf) with (c := 0) (cc := dl_circumcenters d) (m := @nil (iseg * nbseg)) (pm := @nil (Point N * list Z))
    as (gs & cc & pm & B & X & F).
  - apply Forall_forall. intros v Hv. apply HF. apply (proj1 (dedup_in _ _)). assumption.
  - apply (oo_cc _ _ _ O).
  - apply ext_refl.
  - unfold voronoi. rewrite (oo_real _ _ _ O). fold (dedup (flat_map corners (o_tris o))). rewrite B. cbn [bind].
    eexists _, (cci d), gs. split; [reflexivity|]. cbn [ms_points ms_polygons ms_edges]. split; [|split; [exact X|split; [reflexivity|split; [|exact F]]]].
    + intros k t Ht. destruct (cci_located tol o d O k t Ht) as (A & B0 & C & c & H1 & H2 & H3 & _). exists A, B0, C, c. split; [assumption|]. split; [assumption|].
      apply located_at. assumption.
    + intros nb s. change (@nil (iseg * nbseg)) with (sm_run []). rewrite (register_all_run (map snd gs) 0 []). cbn [app].
      rewrite (proj1 (segmap_refines _)). rewrite map_map. cbn [snd]. rewrite map_id. reflexivity.
Qed.

Lemma voronoi_total {N : Num} (tol : nT N) fuel (o : trout N) d :
  triangulation (zlen (o_points o)) (map fst (o_edges o)) (o_tris o) -> read_output tol o = Ok d ->
  (forall v, In v (flat_map corners (o_tris o)) -> (exists ws ts, closed_fan (map fst (o_edges o)) (o_tris o) v ws ts) \/
     (exists w ws w' ts, open_fan (o_edges o) (o_tris o) v w ws w' ts)) ->
  (length (o_tris o) < fuel)%nat ->
  exists m ci gs, voronoi tol fuel d = Ok m /\
    (forall k t, nth_error (o_tris o) k = Some t -> exists A B C c, vertices_are (map read_point (o_points o)) (corners t) [A; B; C] /\
       circumcenter A B C = Ok c /\ stands_at tol (ul_list (ms_points m)) (ci k) c) /\
    map fst gs = ms_polygons m /\
    (forall nb s, um_find (iseg_match nb) s (ms_edges m) = spec_sm_run (cell_inserts 0 (map snd gs)) (canon s)) /\
    Forall2 (fun v gs =>
      (forall ws ts, closed_fan (map fst (o_edges o)) (o_tris o) v ws ts -> inner_cell ci ts (pg_points (fst gs)) (snd gs)) /\
      (forall w ws w' ts, open_fan (o_edges o) (o_tris o) v w ws w' ts ->
         border_cell tol o (ul_list (ms_points m)) ci v w w' ts (pg_points (fst gs)) (snd gs)))
      (dedup (flat_map corners (o_tris o))) gs.
Proof.
  intros T H HF Lf. destruct (voronoi_built tol fuel o d T H HF Lf) as (m & ci & gs & V & C & X & R). exists m, ci, gs. split; [exact V|]. split; [|exact R].
  intros k t Ht. destruct (C k t Ht) as (A & B & C0 & c & H1 & H2 & H3). exists A, B, C0, c. split; [exact H1|]. split; [exact H2|].
  exact (stands_at_ext tol _ _ _ _ X H3).
Qed.

Lemma closed_walk {N : Num} (tol : nT N) fuel (o : trout N) d v ws ts :
  triangulation (zlen (o_points o)) (map fst (o_edges o)) (o_tris o) -> read_output tol o = Ok d ->
  closed_fan (map fst (o_edges o)) (o_tris o) v ws ts -> (length ts <= S fuel)%nat ->
  exists ci, (forall k t, nth_error (o_tris o) k = Some t -> exists A B C c, vertices_are (map read_point (o_points o)) (corners t) [A; B; C] /\
       circumcenter A B C = Ok c /\ stands_at tol (ul_list (dl_circumcenters d)) (ci k) c) /\
    forall cell cc m pm, (exists l, ul_list cc = ul_list (dl_circumcenters d) ++ l) ->
      exists g s, build_cell tol fuel d cell v cc m pm = Ok (g, s) /\ v_cc s = cc /\ inner_cell ci ts (pg_points g) (v_this s).
Proof.
  intros T H HF Lf. pose proof (read_output_ok tol o d T H) as O. exists (cci d). split.
  - intros k t Ht. destruct (cci_located tol o d O k t Ht) as (A & B0 & C & c & H1 & H2 & H3 & _). exists A, B0, C, c. split; [assumption|]. split; [assumption|].
    apply located_at. assumption.
  - intros cell cc m pm X. destruct (closed_total tol o d T O v ws ts fuel cell cc m pm HF Lf X) as (g & s & B & C1 & _ & C3). exists g, s. auto.
Qed.
