(** Proofs about ordered maps, UniqueList, hash32 and splitBySpaces. *)
From Verif Require Import Base Spec MUtil.
From Coq Require Import Sorting.Sorted ZifyBool ZifyNat.

Section OMapProofs.
  Context {K V : Type}.
  Variable P : K -> Prop.
  Variable ltb : K -> K -> bool.
  Hypothesis W : strict_weak_order_on P ltb.

  Lemma swo_asym a b : P a -> P b -> ltb a b = true -> ltb b a = false.
  Proof.
    intros Pa Pb H. destruct (ltb b a) eqn:E; [|reflexivity].
    pose proof (swo_trans _ _ W a b a Pa Pb Pa H E). rewrite (swo_irrefl _ _ W a Pa) in H0. discriminate.
  Qed.

  (** negative transitivity *)
  Lemma swo_neg a b c : P a -> P b -> P c -> ltb a b = false -> ltb b c = false -> ltb a c = false.
  Proof.
    intros Pa Pb Pc H1 H2. destruct (ltb a c) eqn:E; [|reflexivity]. exfalso.
    destruct (ltb b a) eqn:E1.
    - rewrite (swo_trans _ _ W b a c Pb Pa Pc E1 E) in H2. discriminate.
    - destruct (ltb c b) eqn:E2.
      + rewrite (swo_trans _ _ W a c b Pa Pc Pb E E2) in H1. discriminate.
      + destruct (swo_incomp _ _ W a b c Pa Pb Pc (conj H1 E1) (conj H2 E2)) as [H _]. congruence.
  Qed.

  Lemma swo_lt_eqv a b c : P a -> P b -> P c -> ltb a b = true -> ltb c b = false -> ltb a c = true.
  Proof.
    intros Pa Pb Pc H1 H2. destruct (ltb a c) eqn:E; [reflexivity|].
    rewrite (swo_neg a c b Pa Pc Pb E H2) in H1. discriminate.
  Qed.

  Lemma swo_eqv_lt a b c : P a -> P b -> P c -> ltb b a = false -> ltb b c = true -> ltb a c = true.
  Proof.
    intros Pa Pb Pc H1 H2. destruct (ltb a c) eqn:E; [reflexivity|].
    rewrite (swo_neg b a c Pb Pa Pc H1 E) in H2. discriminate.
  Qed.

  Definition om_sorted (m : omap K V) : Prop :=
    StronglySorted (fun a b => ltb (fst a) (fst b) = true) m.
  Definition om_keys (m : omap K V) : Prop := forall k v, In (k, v) m -> P k.

  Lemma om_keys_cons k v m : om_keys ((k, v) :: m) <-> P k /\ om_keys m.
  Proof.
    unfold om_keys; split.
    - intros H; split; [eapply H; left; reflexivity | intros; eapply H; right; eauto].
    - intros [H1 H2] k' v' [E|E]; [injection E as <- <-; auto | eauto].
  Qed.

  Lemma om_sorted_cons k v m :
    om_sorted ((k, v) :: m) <-> om_sorted m /\ (forall k' v', In (k', v') m -> ltb k k' = true).
  Proof.
    unfold om_sorted; split.
    - intros H. inversion_clear H. split; [assumption|]. intros k' v' Hin.
      rewrite Forall_forall in H1. apply (H1 (k', v') Hin).
    - intros [H1 H2]. constructor; [assumption|]. rewrite Forall_forall. intros [k' v'] Hin. cbn. eauto.
  Qed.

  Lemma om_upper_spec x m before after :
    om_keys m -> om_sorted m -> P x -> om_upper ltb x m = (before, after) ->
    m = before ++ after /\ (forall k v, In (k, v) before -> ltb x k = false) /\
    (forall k v, In (k, v) after -> ltb x k = true).
  Proof.
    revert before after; induction m as [|[k v] m IH]; cbn; intros before after Pm Sm Px H.
    - injection H as <- <-. repeat split; cbn; intros; contradiction.
    - apply om_keys_cons in Pm as [Pk Pm]. apply om_sorted_cons in Sm as [Sm Hk].
      destruct (ltb x k) eqn:E.
      + injection H as <- <-. split; [reflexivity|]. split; [cbn; contradiction|].
        intros k' v' [E'|E']; [injection E' as <- <-; assumption|].
        apply (swo_trans _ _ W x k k'); auto; [eapply Pm|eapply Hk]; eassumption.
      + destruct (om_upper ltb x m) as [a b] eqn:Eu. injection H as <- <-.
        destruct (IH a b Pm Sm Px eq_refl) as (H1 & H2 & H3).
        split; [cbn; congruence|]. split; [|assumption].
        intros k' v' [E'|E']; [injection E' as <- <-; assumption | eauto].
  Qed.

  Lemma om_find_some x m v :
    om_keys m -> om_sorted m -> P x ->
    (om_find ltb x m = Some v <-> exists k, In (k, v) m /\ incomparable ltb k x).
  Proof.
    intros Pm Sm Px; induction m as [|[k w] m IH]; cbn.
    - split; [discriminate | intros [k [[] _]]].
    - apply om_keys_cons in Pm as [Pk Pm]. apply om_sorted_cons in Sm as [Sm Hk].
      specialize (IH Pm Sm).
      destruct (ltb k x) eqn:E1.
      + rewrite IH. split.
        * intros [k' [H1 H2]]. exists k'. auto.
        * intros [k' [[H1|H1] H2]]; [injection H1 as <- <-; destruct H2; congruence | eauto].
      + destruct (ltb x k) eqn:E2.
        * split; [discriminate|]. intros [k' [[H1|H1] [H2 H3]]].
          -- injection H1 as <- <-. congruence.
          -- rewrite (swo_trans _ _ W x k k' Px Pk (Pm _ _ H1) E2 (Hk _ _ H1)) in H3. discriminate.
        * split.
          -- intros H; injection H as <-. exists k. split; [auto|split; assumption].
          -- intros [k' [[H1|H1] [H2 H3]]]; [injection H1 as <- <-; reflexivity|].
             exfalso. pose proof (Hk _ _ H1) as H4.
             pose proof (swo_eqv_lt x k k' Px Pk (Pm _ _ H1) E1 H4). congruence.
  Qed.

  Lemma om_find_none x m :
    om_keys m -> om_sorted m -> P x ->
    (om_find ltb x m = None <-> forall k v, In (k, v) m -> ~ incomparable ltb k x).
  Proof.
    intros Pm Sm Px. split.
    - intros H k v Hin Hinc.
      assert (om_find ltb x m = Some v) by (apply om_find_some; eauto). congruence.
    - intros H. destruct (om_find ltb x m) eqn:E; [|reflexivity].
      apply om_find_some in E; auto. destruct E as [k [H1 H2]]. exfalso. eapply H; eauto.
  Qed.

  (** In a sorted map two incomparable keys are the same entry. *)
  Lemma om_sorted_unique m k v k' v' :
    om_keys m -> om_sorted m -> In (k, v) m -> In (k', v') m -> incomparable ltb k k' -> (k, v) = (k', v').
  Proof.
    intros Pm Sm. induction m as [|[a w] m IH]; cbn; [contradiction|].
    apply om_keys_cons in Pm as [Pa Pm]. apply om_sorted_cons in Sm as [Sm Ha].
    intros [E1|E1] [E2|E2] [H1 H2].
    - congruence.
    - injection E1 as <- <-. rewrite (Ha _ _ E2) in H1. discriminate.
    - injection E2 as <- <-. rewrite (Ha _ _ E1) in H2. discriminate.
    - apply IH; auto. split; assumption.
  Qed.

  Lemma om_sorted_app m1 m2 :
    om_sorted (m1 ++ m2) <-> om_sorted m1 /\ om_sorted m2 /\
      (forall k v k' v', In (k, v) m1 -> In (k', v') m2 -> ltb k k' = true).
  Proof.
    induction m1 as [|[a w] m1 IH]; cbn [app].
    - split; [intros H; split; [constructor|split; [exact H|intros; contradiction]]|tauto].
    - rewrite !om_sorted_cons, IH. split.
      + intros ((H1 & H2 & H3) & H4). repeat split; auto.
        * intros. eapply H4. apply in_or_app; eauto.
        * intros k v k' v' [E|E] Hin; [injection E as <- <-; eapply H4; apply in_or_app; eauto | eauto].
      + intros ((H1 & H2) & H3 & H4). repeat split; auto.
        * intros; eapply H4; eauto; right; eauto.
        * intros k' v' Hin. apply in_app_or in Hin as [Hin|Hin]; [eauto|]. eapply H4; eauto; left; reflexivity.
  Qed.

  Lemma om_insert_in x v m k w :
    om_keys m -> om_sorted m -> P x -> om_find ltb x m = None ->
    (In (k, w) (om_insert ltb x v m) <-> (k, w) = (x, v) \/ In (k, w) m).
  Proof.
    intros Pm Sm Px. induction m as [|[a u] m IH]; cbn.
    - intros _. split; intros [H|H]; auto.
    - apply om_keys_cons in Pm as [Pa Pm]. apply om_sorted_cons in Sm as [Sm Ha].
      destruct (ltb a x) eqn:E1.
      + intros H. cbn. rewrite IH by assumption. intuition.
      + destruct (ltb x a) eqn:E2; [|discriminate]. intros _. cbn. intuition.
  Qed.

  Lemma om_insert_in_or x (v : V) m k w : In (k, w) (om_insert ltb x v m) -> (k, w) = (x, v) \/ In (k, w) m.
  Proof.
    induction m as [|[a u] m IH]; cbn; [intuition|].
    destruct (ltb a x); cbn; [intuition|]. destruct (ltb x a); cbn; intuition.
  Qed.

  Lemma om_insert_sorted x v m :
    om_keys m -> om_sorted m -> P x -> om_sorted (om_insert ltb x v m).
  Proof.
    intros Pm Sm Px. induction m as [|[a u] m IH]; cbn.
    - apply om_sorted_cons. split; [constructor | intros; contradiction].
    - apply om_keys_cons in Pm as [Pa Pm]. pose proof Sm as Sm0. apply om_sorted_cons in Sm as [Sm Ha].
      destruct (ltb a x) eqn:E1.
      + apply om_sorted_cons. split; [auto|]. intros k' v' Hin.
        apply om_insert_in_or in Hin. destruct Hin as [Hin|Hin]; [injection Hin as -> ->; auto|eauto].
      + destruct (ltb x a) eqn:E2; [|assumption].
        apply om_sorted_cons. split; [assumption|]. intros k' v' [E|E]; [injection E as <- <-; auto|].
        apply (swo_trans _ _ W x a k'); auto; [eapply Pm|eapply Ha]; eassumption.
  Qed.

  Lemma om_insert_keys x v m : om_keys m -> P x -> om_keys (om_insert ltb x v m).
  Proof.
    intros Pm Px. induction m as [|[a u] m IH]; cbn.
    - intros k w [E|[]]. injection E as <- <-. assumption.
    - apply om_keys_cons in Pm as [Pa Pm].
      destruct (ltb a x); [apply om_keys_cons; auto|].
      destruct (ltb x a); apply om_keys_cons; auto. split; auto. apply om_keys_cons; auto.
  Qed.

  Lemma om_erase_in x m k w :
    om_keys m -> om_sorted m -> P x ->
    (In (k, w) (om_erase ltb x m) <-> In (k, w) m /\ ~ incomparable ltb k x).
  Proof.
    intros Pm Sm Px. induction m as [|[a u] m IH]; cbn.
    - intuition.
    - apply om_keys_cons in Pm as [Pa Pm]. apply om_sorted_cons in Sm as [Sm Ha].
      specialize (IH Pm Sm).
      destruct (ltb a x) eqn:E1.
      + cbn. rewrite IH. split.
        * intros [E|[H1 H2]]; [injection E as <- <-|]; split; auto. intros [H _]; congruence.
        * intros [[E|H1] H2]; auto.
      + destruct (ltb x a) eqn:E2.
        * cbn. split.
          -- intros [E|H]; [injection E as <- <-; split; auto; intros [_ H]; congruence|].
             split; auto. intros [_ H']. rewrite (swo_trans _ _ W x a k Px Pa (Pm _ _ H) E2 (Ha _ _ H)) in H'. discriminate.
          -- tauto.
        * rewrite IH. split.
          -- tauto.
          -- intros [[E|H1] H2]; [injection E as <- <-; exfalso; apply H2; split; assumption | auto].
  Qed.

  Lemma om_update_in x f m k w :
    om_keys m -> om_sorted m -> P x ->
    (In (k, w) (om_update ltb x f m) <->
       (In (k, w) m /\ ~ incomparable ltb k x) \/ (exists w', In (k, w') m /\ incomparable ltb k x /\ w = f w')).
  Proof.
    intros Pm Sm Px. induction m as [|[a u] m IH]; cbn.
    - firstorder.
    - apply om_keys_cons in Pm as [Pa Pm]. apply om_sorted_cons in Sm as [Sm Ha].
      specialize (IH Pm Sm).
      destruct (ltb a x) eqn:E1.
      + cbn. rewrite IH. split.
        * intros [E|[[H1 H2]|[w' (H1 & H2 & H3)]]].
          -- injection E as <- <-. left. split; auto. intros [H _]; congruence.
          -- left; auto.
          -- right. exists w'. auto.
        * intros [[[E|H1] H2]|[w' ([E|H1] & H2 & H3)]]; auto.
          -- injection E as <- <-. destruct H2; congruence.
          -- right. right. exists w'. auto.
      + assert (Hrest : forall k' w', ltb x a = true \/ ltb x a = false -> In (k', w') m -> ~ incomparable ltb k' x).
        { intros k' w' _ Hin [_ H'].
          assert (ltb x k' = true) by (apply (swo_eqv_lt x a k'); auto; [eapply Pm|eapply Ha]; eassumption). congruence. }
        destruct (ltb x a) eqn:E2.
        * cbn. split.
          -- intros [E|H]; [injection E as <- <-|]; left; split; auto.
             ++ intros [_ H]; congruence.
             ++ eapply Hrest; eauto.
          -- intros [[H _]|[w' ([E|H1] & H2 & H3)]]; auto.
             ++ injection E as <- <-. destruct H2; congruence.
             ++ exfalso; eapply Hrest; eauto.
        * cbn. split.
          -- intros [E|H]; [injection E as <- <-; right; exists u; repeat split; auto|].
             left. split; auto. eapply Hrest; eauto.
          -- intros [[[E|H1] H2]|[w' ([E|H1] & H2 & H3)]]; auto.
             ++ injection E as <- <-. exfalso; apply H2; split; assumption.
             ++ injection E as <- <-. subst. auto.
             ++ exfalso; eapply Hrest; eauto.
  Qed.

  Lemma om_update_keylist x (f : V -> V) m : map fst (om_update ltb x f m) = map fst m.
  Proof.
    induction m as [|[a u] m IH]; cbn; [reflexivity|].
    destruct (ltb a x); cbn; [congruence|]. destruct (ltb x a); reflexivity.
  Qed.

  Lemma om_sorted_keylist (m : omap K V) : om_sorted m <-> StronglySorted (fun a b => ltb a b = true) (map fst m).
  Proof.
    induction m as [|[a u] m IH]; cbn; [split; constructor|].
    rewrite om_sorted_cons, IH. split.
    - intros [H1 H2]. constructor; auto. rewrite Forall_forall. intros k Hk.
      apply in_map_iff in Hk as [[k' v'] [<- Hin]]. cbn. eauto.
    - intros H. inversion_clear H. split; auto. intros k' v' Hin. rewrite Forall_forall in H1.
      apply H1. apply in_map_iff. exists (k', v'). auto.
  Qed.
End OMapProofs.

(** * UniqueList *)
Section UniqueListProofs.
  Context {A : Type}.
  Variable P : A -> Prop.
  Variable ltb : A -> A -> bool.
  Hypothesis W : strict_weak_order_on P ltb.
  Let eqv := equivb ltb.

  Lemma eqv_iff a b : eqv a b = true <-> incomparable ltb a b.
  Proof.
    unfold eqv, equivb, incomparable. rewrite andb_true_iff, !negb_true_iff. reflexivity.
  Qed.
  Lemma incomparable_sym a b : incomparable ltb a b -> incomparable ltb b a.
  Proof. intros [H1 H2]; split; assumption. Qed.

  Record ul_inv (u : ulist A) : Prop := {
    ui_P : forall x, In x (ul_list u) -> P x;
    ui_sorted : om_sorted ltb (ul_map u);
    ui_map : forall k v, In (k, v) (ul_map u) <-> (0 <= v /\ nth_error (ul_list u) (Z.to_nat v) = Some k)
  }.

  Lemma ui_keys u : ul_inv u -> om_keys P (ul_map u).
  Proof.
    intros I k v Hin. apply (ui_map u I) in Hin as [_ H]. apply (ui_P u I). eapply nth_error_In; eauto.
  Qed.

  Lemma ul_inv_empty : ul_inv ul_empty.
  Proof.
    constructor; cbn.
    - contradiction.
    - constructor.
    - intros k v. split; [contradiction|]. intros [_ H]. destruct (Z.to_nat v); discriminate.
  Qed.

  (** elements of the list are pairwise inequivalent *)
  Lemma ul_inv_distinct u i j a b :
    ul_inv u -> nth_error (ul_list u) i = Some a -> nth_error (ul_list u) j = Some b ->
    incomparable ltb a b -> i = j.
  Proof.
    intros I Ha Hb Hinc.
    assert (In (a, Z.of_nat i) (ul_map u)) as H1 by (apply (ui_map u I); rewrite Nat2Z.id; split; [lia|auto]).
    assert (In (b, Z.of_nat j) (ul_map u)) as H2 by (apply (ui_map u I); rewrite Nat2Z.id; split; [lia|auto]).
    pose proof (om_sorted_unique P ltb (ul_map u) _ _ _ _ (ui_keys u I) (ui_sorted u I) H1 H2 Hinc) as E.
    injection E as _ E. lia.
  Qed.

  Lemma ul_contains_iff u x :
    ul_inv u -> P x -> (ul_contains ltb u x = true <-> exists y, In y (ul_list u) /\ incomparable ltb y x).
  Proof.
    intros I Px. unfold ul_contains. destruct (om_find ltb x (ul_map u)) as [v|] eqn:E.
    - split; [|reflexivity]. intros _.
      apply (om_find_some P ltb W) in E; [|apply ui_keys; auto|apply ui_sorted; auto|auto].
      destruct E as [k [H1 H2]]. exists k. split; auto.
      apply (ui_map u I) in H1 as [_ H1]. eapply nth_error_In; eauto.
    - split; [discriminate|]. intros [y [H1 H2]].
      apply In_nth_error in H1 as [n Hn].
      pose proof (proj1 (om_find_none P ltb W x (ul_map u) (ui_keys u I) (ui_sorted u I) Px) E y (Z.of_nat n)) as H.
      exfalso. apply H; auto. apply (ui_map u I). rewrite Nat2Z.id. split; [lia|auto].
  Qed.

  Lemma set_mem_iff x l : set_mem eqv x l = true <-> exists y, In y l /\ incomparable ltb y x.
  Proof.
    unfold set_mem. rewrite existsb_exists. split; intros [y [H1 H2]]; exists y; split; auto.
    - apply eqv_iff in H2. apply incomparable_sym. assumption.
    - apply eqv_iff. apply incomparable_sym. assumption.
  Qed.

  (** push_back on a well-formed list *)
  Lemma ul_push_back_spec u x u' i :
    ul_inv u -> P x -> ul_push_back ltb u x = (u', i) ->
    ul_inv u' /\
    (if set_mem eqv x (ul_list u)
     then u' = u /\ exists y, 0 <= i /\ nth_error (ul_list u) (Z.to_nat i) = Some y /\ incomparable ltb y x
     else ul_list u' = ul_list u ++ [x] /\ i = zlen (ul_list u)).
  Proof.
    intros I Px H. unfold ul_push_back in H.
    destruct (om_upper ltb x (ul_map u)) as [before after] eqn:Eu.
    pose proof (om_upper_spec P ltb W x (ul_map u) before after (ui_keys u I) (ui_sorted u I) Px Eu) as (Hm & Hb & Ha).
    pose proof (ui_keys u I) as Pm. pose proof (ui_sorted u I) as Sm. rewrite Hm in Sm.
    apply om_sorted_app in Sm as (Sb & Sa & Sab).
    (* the fresh case *)
    assert (Fresh : (forall k v, In (k, v) before -> ltb k x = true) ->
      ul_inv (mkUL (ul_list u ++ [x]) (before ++ (x, zlen (ul_list u)) :: after)) /\
      set_mem eqv x (ul_list u) = false).
    { intros Hlt. split.
      - constructor; cbn.
        + intros y Hy. apply in_app_or in Hy as [Hy|[<-|[]]]; auto. apply (ui_P u I); auto.
        + apply om_sorted_app. split; [assumption|]. split.
          * apply om_sorted_cons. split; assumption.
          * intros k v k' v' H1 [E|H2]; [injection E as <- <-; eauto | eauto].
        + intros k v. rewrite in_app_iff. cbn.
          assert (Hold : In (k, v) before \/ In (k, v) after <-> In (k, v) (ul_map u)) by (rewrite Hm, in_app_iff; reflexivity).
          split.
          * intros [H1|[E|H1]].
            -- apply or_introl with (B := In (k, v) after) in H1. apply Hold in H1. apply (ui_map u I) in H1 as [H1 H2].
               split; [assumption|]. rewrite nth_error_app1; [assumption|]. apply nth_error_Some. congruence.
            -- injection E as <- <-. split; [unfold zlen; lia|].
               rewrite nth_error_app2 by (unfold zlen; lia). unfold zlen. rewrite Nat2Z.id, Nat.sub_diag. reflexivity.
            -- apply or_intror with (A := In (k, v) before) in H1. apply Hold in H1. apply (ui_map u I) in H1 as [H1 H2].
               split; [assumption|]. rewrite nth_error_app1; [assumption|]. apply nth_error_Some. congruence.
          * intros [H1 H2]. destruct (Nat.lt_ge_cases (Z.to_nat v) (length (ul_list u))) as [L|L].
            -- rewrite nth_error_app1 in H2 by assumption.
               assert (In (k, v) (ul_map u)) as H3 by (apply (ui_map u I); auto).
               apply Hold in H3. tauto.
            -- rewrite nth_error_app2 in H2 by assumption.
               destruct (Z.to_nat v - length (ul_list u))%nat as [|n] eqn:En; cbn in H2.
               ++ injection H2 as <-. right. left. f_equal. unfold zlen. lia.
               ++ destruct n; discriminate.
      - destruct (set_mem eqv x (ul_list u)) eqn:Em; [|reflexivity].
        apply set_mem_iff in Em as [y [H1 [H2 H3]]].
        apply In_nth_error in H1 as [n Hn].
        assert (In (y, Z.of_nat n) (ul_map u)) as H4 by (apply (ui_map u I); rewrite Nat2Z.id; split; [lia|auto]).
        rewrite Hm in H4. apply in_app_or in H4 as [H4|H4].
        + rewrite (Hlt _ _ H4) in H2. discriminate.
        + rewrite (Ha _ _ H4) in H3. discriminate. }
    destruct (rev before) as [|[k v] rb] eqn:Er.
    - assert (before = []) as -> by (rewrite <- (rev_involutive before), Er; reflexivity).
      destruct Fresh as [F1 F2]; [cbn; contradiction|].
      rewrite F2. injection H as <- <-. split; [exact F1|]. split; reflexivity.
    - assert (before = rev rb ++ [(k, v)]) as Eb by (rewrite <- (rev_involutive before), Er; reflexivity).
      destruct (ltb k x) eqn:Ek.
      + assert (Hlt : forall k' v', In (k', v') before -> ltb k' x = true).
        { intros k' v' Hin. rewrite Eb in Hin, Sb. apply in_app_or in Hin as [Hin|[E|[]]].
          - apply om_sorted_app in Sb as (_ & _ & S3).
            assert (ltb k' k = true) by (eapply S3; [exact Hin|left; reflexivity]).
            apply (swo_trans _ _ W k' k x); auto; eapply Pm; rewrite Hm, Eb; apply in_or_app; left; apply in_or_app; [left; eassumption|right; left; reflexivity].
          - injection E as <- <-. assumption. }
        destruct (Fresh Hlt) as [F1 F2]. rewrite F2. injection H as <- <-. split; [exact F1|]. split; reflexivity.
      + injection H as <- <-. split; [assumption|].
        assert (In (k, v) (ul_map u)) as Hin by (rewrite Hm, Eb; apply in_or_app; left; apply in_or_app; right; left; reflexivity).
        assert (ltb x k = false) as Hxk by (eapply Hb; rewrite Eb; apply in_or_app; right; left; reflexivity).
        apply (ui_map u I) in Hin as [H1 H2].
        assert (set_mem eqv x (ul_list u) = true) as ->.
        { apply set_mem_iff. exists k. split; [eapply nth_error_In; eauto|split; assumption]. }
        split; [reflexivity|]. exists k. repeat split; assumption.
  Qed.

  Lemma ul_push_back_set u x :
    ul_inv u -> P x -> ul_inv (fst (ul_push_back ltb u x)) /\
      ul_list (fst (ul_push_back ltb u x)) = set_add eqv (ul_list u) x.
  Proof.
    intros I Px. destruct (ul_push_back ltb u x) as [u' i] eqn:E.
    destruct (ul_push_back_spec u x u' i I Px E) as [H1 H2]. cbn. split; [assumption|].
    unfold set_add. destruct (set_mem eqv x (ul_list u)); destruct H2 as [-> H2]; reflexivity.
  Qed.

  (** every returned index locates an equivalent element *)
  Lemma ul_push_back_index u x u' i :
    ul_inv u -> P x -> ul_push_back ltb u x = (u', i) ->
    exists y, 0 <= i /\ nth_error (ul_list u') (Z.to_nat i) = Some y /\ incomparable ltb y x.
  Proof.
    intros I Px E. destruct (ul_push_back_spec u x u' i I Px E) as [H1 H2].
    destruct (set_mem eqv x (ul_list u)).
    - destruct H2 as [-> H2]. exact H2.
    - destruct H2 as [H2 ->]. exists x. split; [unfold zlen; lia|]. split.
      + rewrite H2. unfold zlen. rewrite Nat2Z.id, nth_error_app2, Nat.sub_diag by lia. reflexivity.
      + split; apply (swo_irrefl _ _ W); assumption.
  Qed.

  Lemma ul_push_back_prefix u x u' i :
    ul_inv u -> P x -> ul_push_back ltb u x = (u', i) -> exists l, ul_list u' = ul_list u ++ l.
  Proof.
    intros I Px E. destruct (ul_push_back_spec u x u' i I Px E) as [_ H2].
    destruct (set_mem eqv x (ul_list u)).
    - destruct H2 as [-> _]. exists []. rewrite app_nil_r. reflexivity.
    - destruct H2 as [-> _]. exists [x]. reflexivity.
  Qed.

  Lemma ul_push_list_spec u xs u' is :
    ul_inv u -> (forall x, In x xs -> P x) -> ul_push_list ltb u xs = (u', is) ->
    ul_inv u' /\ ul_list u' = fold_left (set_add eqv) xs (ul_list u) /\
    (exists l, ul_list u' = ul_list u ++ l) /\
    Forall2 (fun x i => exists y, 0 <= i /\ nth_error (ul_list u') (Z.to_nat i) = Some y /\ incomparable ltb y x) xs is.
  Proof.
    revert u u' is; induction xs as [|x xs IH]; cbn; intros u u' is I Pxs H.
    - injection H as <- <-. split; [assumption|]. split; [reflexivity|]. split; [exists []; symmetry; apply app_nil_r|constructor].
    - destruct (ul_push_back ltb u x) as [u1 i] eqn:E1.
      destruct (ul_push_list ltb u1 xs) as [u2 is2] eqn:E2. injection H as <- <-.
      assert (P x) as Px by auto.
      pose proof (ul_push_back_set u x I Px) as [I1 L1]. rewrite E1 in I1, L1. cbn in I1, L1.
      destruct (IH u1 u2 is2 I1 (fun y Hy => Pxs y (or_intror Hy)) E2) as (I2 & L2 & [l Hl] & F2).
      split; [assumption|]. split; [congruence|].
      destruct (ul_push_back_prefix u x u1 i I Px E1) as [l1 Hl1].
      split; [exists (l1 ++ l); rewrite Hl, Hl1, app_assoc; reflexivity|].
      constructor; [|assumption].
      destruct (ul_push_back_index u x u1 i I Px E1) as (y & H1 & H2 & H3).
      exists y. repeat split; try apply H3; auto.
      rewrite Hl. rewrite nth_error_app1; [assumption|]. apply nth_error_Some. congruence.
  Qed.

  (** rebuilding the map in delete_element *)
  Lemma ul_rebuild_inv pre l m :
    (forall x, In x (pre ++ l) -> P x) ->
    (forall i j a b, nth_error (pre ++ l) i = Some a -> nth_error (pre ++ l) j = Some b ->
        incomparable ltb a b -> i = j) ->
    ul_inv (mkUL pre m) -> ul_inv (mkUL (pre ++ l) (ul_rebuild ltb l (zlen pre) m)).
  Proof.
    revert pre m; induction l as [|x l IH]; intros pre m HP HD I.
    - cbn. rewrite app_nil_r. assumption.
    - cbn [ul_rebuild].
      replace (zlen pre + 1) with (zlen (pre ++ [x])) by (unfold zlen; rewrite app_length; cbn; lia).
      replace (pre ++ x :: l) with ((pre ++ [x]) ++ l) by (rewrite <- app_assoc; reflexivity).
      assert (Px : P x) by (apply HP; apply in_or_app; right; left; reflexivity).
      assert (Habs : om_find ltb x m = None).
      { apply (om_find_none P ltb W); auto.
        - apply (ui_keys _ I).
        - apply (ui_sorted _ I).
        - intros k v Hin Hinc. apply (ui_map _ I) in Hin as [H1 H2]. cbn in H2.
          assert (Z.to_nat v < length pre)%nat by (apply nth_error_Some; congruence).
          assert (Z.to_nat v = length pre).
          { eapply HD; [| |exact Hinc].
            - rewrite nth_error_app1 by assumption. exact H2.
            - rewrite nth_error_app2, Nat.sub_diag by lia. reflexivity. }
          lia. }
      apply IH.
      + intros y Hy. apply HP. rewrite <- app_assoc in Hy. exact Hy.
      + intros i j a b. rewrite <- app_assoc. cbn [app]. apply HD.
      + constructor; cbn.
        * intros y Hy. apply in_app_or in Hy as [Hy|[<-|[]]]; auto. apply (ui_P _ I). exact Hy.
        * apply (om_insert_sorted P); auto; [apply (ui_keys _ I)|apply (ui_sorted _ I)].
        * intros k v. rewrite (om_insert_in P); auto; [|apply (ui_keys _ I)|apply (ui_sorted _ I)].
          pose proof (ui_map _ I k v) as Hm. cbn in Hm. split.
          -- intros [E|H].
             ++ injection E as -> ->. split; [unfold zlen; lia|].
                unfold zlen. rewrite Nat2Z.id, nth_error_app2, Nat.sub_diag by lia. reflexivity.
             ++ apply Hm in H as [H1 H2]. split; auto. rewrite nth_error_app1; auto. apply nth_error_Some. congruence.
          -- intros [H1 H2]. destruct (Nat.lt_ge_cases (Z.to_nat v) (length pre)) as [L|L].
             ++ rewrite nth_error_app1 in H2 by assumption. right. apply Hm. auto.
             ++ rewrite nth_error_app2 in H2 by assumption.
                destruct (Z.to_nat v - length pre)%nat as [|n] eqn:En; cbn in H2.
                ** injection H2 as <-. left. f_equal. unfold zlen. lia.
                ** destruct n; discriminate.
  Qed.

  Lemma nth_error_remove {B} (l : list B) n i :
    nth_error (remove_nth n l) i = if Nat.ltb i n then nth_error l i else nth_error l (S i).
  Proof.
    revert n i; induction l as [|a l IH]; intros n i.
    - replace (remove_nth n []) with (@nil B) by (destruct n; reflexivity).
      destruct (Nat.ltb i n), i; reflexivity.
    - destruct n as [|n], i as [|i]; cbn [remove_nth nth_error]; try reflexivity.
      rewrite IH. destruct (Nat.ltb_spec i n), (Nat.ltb_spec (S i) (S n)); try lia; reflexivity.
  Qed.

  Lemma remove_nth_In {B} (l : list B) n y : In y (remove_nth n l) -> In y l.
  Proof.
    revert n; induction l as [|a l IH]; intros [|n]; cbn; auto. intros [H|H]; eauto.
  Qed.

  (** removing the unique equivalent element is filtering *)
  Lemma remove_nth_filter l n x y :
    (forall a, In a l -> P a) -> P x ->
    (forall i j a b, nth_error l i = Some a -> nth_error l j = Some b -> incomparable ltb a b -> i = j) ->
    nth_error l n = Some y -> incomparable ltb y x ->
    remove_nth n l = set_remove eqv l x.
  Proof.
    intros HP Px. revert n. induction l as [|a l IH]; intros n HD Hn Hy.
    - destruct n; discriminate.
    - assert (Hdl : forall i j b c, nth_error l i = Some b -> nth_error l j = Some c -> incomparable ltb b c -> i = j).
      { intros i j b c Hi Hj Hinc. assert (S i = S j) by (eapply (HD (S i) (S j)); eauto). lia. }
      destruct n as [|n]; cbn in Hn |- *.
      + injection Hn as ->.
        assert (eqv x y = true) as -> by (apply eqv_iff; apply incomparable_sym; assumption). cbn.
        symmetry. clear IH.
        assert (forall b, In b l -> eqv x b = false) as Hall.
        { intros b Hb. destruct (eqv x b) eqn:E; [|reflexivity]. apply eqv_iff in E. exfalso.
          apply In_nth_error in Hb as [j Hj].
          assert (0%nat = S j) as Habs; [|discriminate Habs].
          apply (HD 0%nat (S j) y b eq_refl Hj). eapply (swo_incomp _ _ W y x b); auto.
          - apply HP; left; reflexivity.
          - apply HP. right. eapply nth_error_In; eauto. }
        clear HD Hdl Hy. induction l as [|b l IHl]; cbn; [reflexivity|].
        rewrite Hall by (left; reflexivity). cbn. f_equal. apply IHl.
        * intros c [Hc|Hc]; apply HP; [left; exact Hc|right; right; exact Hc].
        * intros c Hc. apply Hall. right. exact Hc.
      + assert (eqv x a = false) as ->.
        { destruct (eqv x a) eqn:E; [|reflexivity]. apply eqv_iff in E. exfalso.
          assert (S n = 0%nat) as Habs; [|discriminate Habs].
          apply (HD (S n) 0%nat y a Hn eq_refl). eapply (swo_incomp _ _ W y x a); auto.
          - apply HP. right. eapply nth_error_In; eauto.
          - apply HP; left; reflexivity. }
        cbn. f_equal. apply IH; auto. intros b Hb. apply HP. right. exact Hb.
  Qed.

  Lemma ul_delete_spec u x :
    ul_inv u -> P x -> exists u', ul_delete ltb u x = Ok u' /\ ul_inv u' /\ ul_list u' = set_remove eqv (ul_list u) x.
  Proof.
    intros I Px. unfold ul_delete. destruct (om_find ltb x (ul_map u)) as [i|] eqn:E.
    - apply (om_find_some P ltb W) in E; auto; [|apply (ui_keys _ I)|apply (ui_sorted _ I)].
      destruct E as [k [H1 H2]]. apply (ui_map _ I) in H1 as [H1 H3].
      assert (vget (ul_list u) i = Ok k) as -> by (apply vget_ok; auto). cbn.
      eexists. split; [reflexivity|]. cbn.
      assert (HD : forall i j a b, nth_error (ul_list u) i = Some a -> nth_error (ul_list u) j = Some b ->
        incomparable ltb a b -> i = j) by (intros; eapply ul_inv_distinct; eauto).
      split; [|apply remove_nth_filter with (y := k); auto; apply (ui_P _ I)].
      set (l := remove_nth (Z.to_nat i) (ul_list u)).
      apply (ul_rebuild_inv [] l []).
      + cbn. intros y Hy. apply (ui_P _ I). eapply remove_nth_In; exact Hy.
      + cbn. intros a b p q Ha Hb Hinc. unfold l in Ha, Hb. rewrite nth_error_remove in Ha, Hb.
        destruct (Nat.ltb_spec a (Z.to_nat i)), (Nat.ltb_spec b (Z.to_nat i));
          pose proof (HD _ _ _ _ Ha Hb Hinc); lia.
      + apply ul_inv_empty.
    - eexists. split; [reflexivity|]. split; [assumption|].
      pose proof (proj1 (om_find_none P ltb W x (ul_map u) (ui_keys _ I) (ui_sorted _ I) Px) E) as Hn.
      assert (forall y, In y (ul_list u) -> eqv x y = false) as Hall.
      { intros y Hy. destruct (eqv x y) eqn:Ey; [|reflexivity]. apply eqv_iff in Ey. exfalso.
        apply In_nth_error in Hy as [n Hy]. eapply (Hn y (Z.of_nat n)); [|apply incomparable_sym; exact Ey].
        apply (ui_map _ I). rewrite Nat2Z.id. split; [lia|assumption]. }
      unfold set_remove. clear -Hall. induction (ul_list u) as [|a l IH]; cbn; [reflexivity|].
      rewrite (Hall a) by (left; reflexivity). cbn. f_equal. apply IH. intros; apply Hall; right; assumption.
  Qed.

  (** every history refines the abstract set *)
  Lemma ul_run_inv h u0 l0 :
    ul_inv u0 -> ul_list u0 = l0 -> (forall o, In o h -> forall x, In x (set_op_elems o) -> P x) ->
    exists u, foldM (ul_step ltb) h u0 = Ok u /\ ul_inv u /\ ul_list u = fold_left (set_step eqv) h l0.
  Proof.
    revert u0 l0; induction h as [|o h IH]; intros u0 l0 I El HP; cbn [foldM fold_left].
    - exists u0. auto.
    - assert (exists u1, ul_step ltb u0 o = Ok u1 /\ ul_inv u1 /\ ul_list u1 = set_step eqv l0 o) as (u1 & E1 & I1 & L1).
      { assert (Hx : forall x, In x (set_op_elems o) -> P x) by (apply HP; left; reflexivity).
        destruct o as [x|xs| |x]; cbn [ul_step set_step set_op_elems] in *; subst l0.
        - eexists; split; [reflexivity|]. apply ul_push_back_set; auto. apply Hx; left; reflexivity.
        - destruct (ul_push_list ltb u0 xs) as [u1 is] eqn:E.
          destruct (ul_push_list_spec u0 xs u1 is I Hx E) as (I1 & L1 & _).
          eexists; split; [reflexivity|]. auto.
        - eexists; split; [reflexivity|]. split; [apply ul_inv_empty|reflexivity].
        - apply ul_delete_spec; auto. apply Hx; left; reflexivity. }
      rewrite E1. cbn. apply IH; auto. intros o' Ho'. apply HP. right. exact Ho'.
  Qed.

  (** ** C02: pop_front *)
  Lemma ul_pop_front_stale u x u1 :
    ul_inv u -> nth_error (ul_list u) 0 = Some x -> ul_pop_front ltb u = Ok u1 ->
    ul_list u1 = tl (ul_list u) /\
    forall y n, nth_error (ul_list u1) n = Some y -> ul_push_back ltb u1 y = (u1, Z.of_nat n + 1).
  Proof.
    intros I Hx H. unfold ul_pop_front in H.
    assert (vget (ul_list u) 0 = Ok x) as Hv by (apply vget_ok; split; [lia|exact Hx]).
    rewrite Hv in H. cbn in H. injection H as <-. cbn.
    assert (ul_list u = x :: tl (ul_list u)) as El by (destruct (ul_list u); [discriminate|injection Hx as ->; reflexivity]).
    split; [rewrite El; reflexivity|].
    intros y n Hn.
    assert (Hn' : nth_error (ul_list u) (S n) = Some y) by (rewrite El in Hn |- *; exact Hn).
    assert (Py : P y) by (apply (ui_P _ I); eapply nth_error_In; eauto).
    assert (Px : P x) by (apply (ui_P _ I); eapply nth_error_In; eauto).
    set (m := om_erase ltb x (ul_map u)).
    assert (Hin : forall k v, In (k, v) m <-> In (k, v) (ul_map u) /\ ~ incomparable ltb k x).
    { intros. apply (om_erase_in P ltb W); auto; [apply (ui_keys _ I)|apply (ui_sorted _ I)]. }
    assert (Km : om_keys P m) by (intros k v Hk; apply Hin in Hk as [Hk _]; eapply (ui_keys _ I); eauto).
    assert (Sm : om_sorted ltb m).
    { unfold m. clear -I W Px.
      assert (Pm := ui_keys _ I). assert (Sm := ui_sorted _ I). revert Pm Sm.
      generalize (ul_map u) as mm. induction mm as [|[a w] mm IH]; cbn; intros Pm Sm; [constructor|].
      apply om_keys_cons in Pm as [Pa Pm]. pose proof Sm as Sm0. apply om_sorted_cons in Sm as [Sm Ha].
      destruct (ltb a x) eqn:E1.
      - apply om_sorted_cons. split; [auto|]. intros k v Hk. apply (om_erase_in P ltb W) in Hk; auto.
        destruct Hk as [Hk _]. eauto.
      - destruct (ltb x a); auto. }
    assert (Hy : In (y, Z.of_nat (S n)) m).
    { apply Hin. split.
      - apply (ui_map _ I). rewrite Nat2Z.id. split; [lia|assumption].
      - intros Hinc. assert (S n = 0%nat) as Habs; [|discriminate Habs]. eapply ul_inv_distinct; eauto. }
    unfold ul_push_back. cbn [ul_map ul_list].
    destruct (om_upper ltb y m) as [before after] eqn:Eu.
    destruct (om_upper_spec P ltb W y m before after Km Sm Py Eu) as (Hm & Hb & Ha).
    assert (Hyb : In (y, Z.of_nat (S n)) before).
    { rewrite Hm in Hy. apply in_app_or in Hy as [Hy|Hy]; auto. exfalso.
      pose proof (Ha _ _ Hy) as Hc. rewrite (swo_irrefl _ _ W y Py) in Hc. discriminate. }
    destruct (rev before) as [|[k v] rb] eqn:Er.
    { assert (before = []) as -> by (rewrite <- (rev_involutive before), Er; reflexivity). contradiction. }
    assert (before = rev rb ++ [(k, v)]) as Eb by (rewrite <- (rev_involutive before), Er; reflexivity).
    assert (Hyk : (k, v) = (y, Z.of_nat (S n))).
    { rewrite Eb in Hyb. apply in_app_or in Hyb as [Hyb|[Hyb|[]]]; [|congruence]. exfalso.
      rewrite Hm, Eb in Sm. apply om_sorted_app in Sm as (Sb & _ & _). apply om_sorted_app in Sb as (_ & _ & S3).
      assert (ltb y k = true) by (eapply S3; [exact Hyb|left; reflexivity]).
      assert (ltb y k = false) by (eapply Hb; rewrite Eb; apply in_or_app; right; left; reflexivity). congruence. }
    injection Hyk as -> ->. rewrite (swo_irrefl _ _ W y Py). unfold m. do 2 f_equal. lia.
  Qed.

  (** ** C03: force_push_back *)
  Lemma ul_force_push_back_spec u x :
    ul_inv u -> P x -> set_mem eqv x (ul_list u) = false ->
    let u1 := fst (ul_force_push_back u x) in
    In x (ul_list u1) /\ ul_contains ltb u1 x = false /\
    ul_list (fst (ul_push_back ltb u1 x)) = ul_list u ++ [x; x].
  Proof.
    intros I Px Hm. cbn. split; [apply in_or_app; right; left; reflexivity|].
    assert (Hc : ul_contains ltb u x = false).
    { destruct (ul_contains ltb u x) eqn:E; [|reflexivity]. apply ul_contains_iff in E; auto.
      apply set_mem_iff in E. congruence. }
    split; [exact Hc|].
    destruct (ul_push_back ltb u x) as [u' i] eqn:E.
    destruct (ul_push_back_spec u x u' i I Px E) as [_ H2]. rewrite Hm in H2. destruct H2 as [H2 H3].
    unfold ul_push_back in E |- *. cbn [ul_map ul_list].
    destruct (om_upper ltb x (ul_map u)) as [before after].
    destruct (rev before) as [|[k v] rb]; cbn.
    - rewrite <- app_assoc. reflexivity.
    - destruct (ltb k x); cbn.
      + rewrite <- app_assoc. reflexivity.
      + injection E as <- <-. exfalso. apply (f_equal (@length A)) in H2. rewrite app_length in H2. cbn in H2. lia.
  Qed.
End UniqueListProofs.

(** * hash32 *)
Local Open Scope Z_scope.
Ltac Zify.zify_post_hook ::= Z.div_mod_to_equations.

Lemma wrap32_range z : in_int (wrap32 z) = true.
Proof. unfold in_int, int_min, int_max, wrap32. lia. Qed.
Lemma wrap32_id z : in_int z = true -> wrap32 z = z.
Proof. unfold in_int, int_min, int_max, wrap32. lia. Qed.

Lemma in_int_shiftr z : in_int z = true <-> Z.shiftr z 31 = 0 \/ Z.shiftr z 31 = -1.
Proof. rewrite Z.shiftr_div_pow2 by lia. change (2 ^ 31) with 2147483648. unfold in_int, int_min, int_max. lia. Qed.

Lemma in_int_lxor a b : in_int a = true -> in_int b = true -> in_int (Z.lxor a b) = true.
Proof.
  rewrite !in_int_shiftr, Z.shiftr_lxor. intros [->| ->] [->| ->]; cbn; auto.
Qed.

Lemma in_int_shiftr_n z n : 0 <= n -> in_int z = true -> in_int (Z.shiftr z n) = true.
Proof.
  intros Hn. rewrite !in_int_shiftr, Z.shiftr_shiftr by lia.
  replace (n + 31) with (31 + n) by lia. rewrite <- Z.shiftr_shiftr by lia.
  intros [->| ->].
  - left. apply Z.shiftr_0_l.
  - right. rewrite Z.shiftr_div_pow2 by lia.
    assert (0 < 2 ^ n) by (apply Z.pow_pos_nonneg; lia). nia.
Qed.

Lemma hash32_int k : in_int (hash32 k) = true.
Proof.
  unfold hash32. cbv zeta. apply in_int_lxor; [|apply in_int_shiftr_n; [lia|]]; apply wrap32_range.
Qed.

Lemma lxor_lnot_both a b : Z.lxor (Z.lnot a) (Z.lnot b) = Z.lxor a b.
Proof. rewrite <- Z.lnot_lxor_l, <- Z.lnot_lxor_r, Z.lnot_involutive. reflexivity. Qed.

Lemma shiftr_lnot a n : 0 <= n -> Z.shiftr (Z.lnot a) n = Z.lnot (Z.shiftr a n).
Proof.
  intros Hn. apply Z.bits_inj'. intros m Hm.
  rewrite Z.shiftr_spec, !Z.lnot_spec, Z.shiftr_spec by lia. reflexivity.
Qed.

Lemma mix1_sym k : Z.lxor (Z.lxor (Z.lnot k) 61) (Z.shiftr (Z.lnot k) 16) =
                   Z.lxor (Z.lxor k 61) (Z.shiftr k 16).
Proof.
  rewrite shiftr_lnot by lia. rewrite <- (Z.lnot_lxor_l k 61). apply lxor_lnot_both.
Qed.

Lemma hash32_sym k : hash32 (-1 - k) = hash32 k.
Proof.
  replace (-1 - k) with (Z.lnot k) by (unfold Z.lnot; lia).
  unfold hash32. rewrite mix1_sym. reflexivity.
Qed.

Lemma hash32_strict_sym k : hash32_strict (-1 - k) = hash32_strict k.
Proof.
  replace (-1 - k) with (Z.lnot k) by (unfold Z.lnot; lia).
  unfold hash32_strict. rewrite mix1_sym. reflexivity.
Qed.

Lemma hash32_strict_wrap k v : hash32_strict k = Ok v -> hash32 k = v.
Proof.
  unfold hash32_strict, hash32, sint. cbv zeta.
  set (k1 := Z.lxor (Z.lxor k 61) (Z.shiftr k 16)).
  destruct (k1 <? 0) eqn:E0; [discriminate|].
  destruct (Z.shiftl k1 3 <? 4294967296) eqn:E1; [|discriminate]. cbn [bind].
  destruct (in_int (k1 + wrap32 (Z.shiftl k1 3))) eqn:E2; [|discriminate]. cbn [bind].
  rewrite (wrap32_id _ E2).
  set (k2 := k1 + wrap32 (Z.shiftl k1 3)) in *.
  destruct (in_int (Z.lxor k2 (Z.shiftr k2 4) * 668265261)) eqn:E3; [|discriminate].
  rewrite (wrap32_id _ E3). cbn [bind]. congruence.
Qed.

(** the xor-shift is injective near 0 *)
Lemma xorshift4_small a : 0 <= a -> Z.lxor a (Z.shiftr a 4) < 16 -> a < 16.
Proof.
  intros Ha H. destruct (Z.lt_ge_cases a 16) as [L|L]; [assumption|exfalso].
  set (t := Z.log2 a).
  assert (Ht : 4 <= t) by (change 4 with (Z.log2 16); apply Z.log2_le_mono; lia).
  assert (Hb : Z.testbit (Z.lxor a (Z.shiftr a 4)) t = true).
  { rewrite Z.lxor_spec, Z.shiftr_spec by lia. unfold t at 1. rewrite Z.bit_log2 by lia.
    rewrite Z.bits_above_log2; [reflexivity|lia|unfold t; lia]. }
  assert (Hx : 0 <= Z.lxor a (Z.shiftr a 4)) by (apply Z.lxor_nonneg; rewrite Z.shiftr_nonneg; tauto).
  assert (Z.lxor a (Z.shiftr a 4) < 2 ^ t).
  { apply Z.lt_le_trans with 16; [assumption|]. change 16 with (2 ^ 4). apply Z.pow_le_mono_r; lia. }
  rewrite Z.testbit_true in Hb by lia. rewrite Z.div_small in Hb by lia. discriminate.
Qed.

Lemma mix1_inv k : 0 <= k <= 2147483647 ->
  forall k1, Z.lxor (Z.lxor k 61) (Z.shiftr k 16) = k1 -> k = Z.lxor (Z.lxor k1 61) (Z.shiftr k1 16).
Proof.
  intros Hk k1 <-. rewrite !Z.shiftr_lxor, Z.shiftr_shiftr by lia.
  assert (Z.shiftr k (16 + 16) = 0) as -> by (rewrite Z.shiftr_div_pow2 by lia; apply Z.div_small; lia).
  change (Z.shiftr 61 16) with 0. rewrite !Z.lxor_0_r.
  set (s := Z.shiftr k 16).
  rewrite (Z.lxor_comm (Z.lxor k 61) s). rewrite !Z.lxor_assoc.
  rewrite (Z.lxor_comm 61 s), <- (Z.lxor_assoc 61 s 61) || idtac.
  apply Z.bits_inj'. intros n Hn. rewrite !Z.lxor_spec.
  destruct (Z.testbit s n), (Z.testbit k n), (Z.testbit 61 n); reflexivity.
Qed.

Lemma hash32_strict_pos k : 0 <= k <= 2147483647 ->
  ((exists v, hash32_strict k = Ok v) <-> k = 61 \/ k = 477223760).
Proof.
  intros Hk. split.
  - intros [v Hv]. unfold hash32_strict, sint in Hv. cbv zeta in Hv.
    destruct (Z.lxor (Z.lxor k 61) (Z.shiftr k 16)) eqn:Ek1; try discriminate.
    + apply mix1_inv in Ek1; [|assumption]. left. exact Ek1.
    + rename p into q. set (k1 := Z.pos q) in *.
      destruct (k1 <? 0) eqn:E0; [discriminate|].
      destruct (Z.shiftl k1 3 <? 4294967296) eqn:E1; [|discriminate]. cbn [bind] in Hv.
      destruct (in_int (k1 + wrap32 (Z.shiftl k1 3))) eqn:E2; [|discriminate]. cbn [bind] in Hv.
      set (k2 := k1 + wrap32 (Z.shiftl k1 3)) in *.
      destruct (in_int (Z.lxor k2 (Z.shiftr k2 4) * 668265261)) eqn:E3; [|discriminate]. clear Hv.
      rewrite Z.shiftl_mul_pow2 in E1 by lia. change (2 ^ 3) with 8 in E1.
      assert (H2 : k2 = 9 * k1 \/ k2 = 9 * k1 - 4294967296).
      { unfold k2, wrap32. rewrite Z.shiftl_mul_pow2 by lia. change (2 ^ 3) with 8. lia. }
      unfold in_int, int_min, int_max in E3.
      set (k3 := Z.lxor k2 (Z.shiftr k2 4)) in *.
      assert (H3 : k3 < 4) by lia.
      assert (Hk1 : 0 < k1) by (unfold k1; lia).
      assert (k1 = 477218588) as Ek.
      { destruct (Z.lt_ge_cases k2 0) as [L|L].
        - assert (Hn : Z.lnot k2 < 16).
          { apply xorshift4_small; [unfold Z.lnot; lia|]. rewrite shiftr_lnot, lxor_lnot_both by lia. fold k3. lia. }
          unfold Z.lnot in Hn. destruct H2 as [H2|H2]; [lia|].
          assert (k2 = -4 \/ k2 = -13) as [Hc|Hc] by lia; [lia|].
          exfalso. revert H3. unfold k3. rewrite Hc. vm_compute. discriminate.
        - assert (Hn : k2 < 16) by (apply xorshift4_small; [lia|fold k3; lia]).
          exfalso. destruct H2 as [H2|H2].
          + assert (k2 = 9) as Hc by lia. revert H3. unfold k3. rewrite Hc. vm_compute. discriminate.
          + assert (k2 = 5 \/ k2 = 14) as [Hc|Hc] by lia; revert H3; unfold k3; rewrite Hc; vm_compute; discriminate. }
      right. apply mix1_inv in Ek1; [|assumption]. rewrite Ek1, Ek. reflexivity.
  - intros [-> | ->]; eexists; vm_compute; reflexivity.
Qed.

Lemma hash32_strict_iff k : in_int k = true ->
  ((exists v, hash32_strict k = Ok v) <-> k = 61 \/ k = -62 \/ k = 477223760 \/ k = -477223761).
Proof.
  intros Hk. unfold in_int, int_min, int_max in Hk. destruct (Z.lt_ge_cases k 0) as [L|L].
  - rewrite <- hash32_strict_sym, hash32_strict_pos by lia. lia.
  - rewrite hash32_strict_pos by lia. lia.
Qed.

(** outside the four keys the outcome is undefined behaviour *)
Lemma hash32_strict_cases k : (exists v, hash32_strict k = Ok v) \/ (exists m, hash32_strict k = Err (UB m)).
Proof.
  unfold hash32_strict, sint. cbv zeta.
  destruct (_ <? 0); [eauto|]. destruct (_ <? 4294967296); [|cbn; eauto]. cbn [bind].
  destruct (in_int (_ + _)); [|cbn; eauto]. cbn [bind].
  destruct (in_int (_ * _)); cbn; eauto.
Qed.

(** * splitBySpaces *)
Lemma is_space_blank c : is_space c = true <-> blank c.
Proof. unfold is_space, blank. generalize (Ascii.nat_of_ascii c). intros n. cbn [In]. lia. Qed.
Lemma is_space_not_blank c : is_space c = false <-> ~ blank c.
Proof. rewrite <- is_space_blank. destruct (is_space c); intuition congruence. Qed.

Lemma split_go_blank ws rest : Forall blank ws -> split_go (ws ++ rest) [] = split_go rest [].
Proof.
  induction 1 as [|c ws Hc _ IH]; [reflexivity|]. cbn. apply is_space_blank in Hc. rewrite Hc. exact IH.
Qed.
Lemma split_go_field f rest cur :
  Forall (fun c => ~ blank c) f -> split_go (f ++ rest) cur = split_go rest (rev f ++ cur).
Proof.
  intros H. revert cur. induction H as [|c f Hc _ IH]; intros cur; [reflexivity|].
  cbn. apply is_space_not_blank in Hc. rewrite Hc, IH, <- app_assoc. reflexivity.
Qed.

Lemma rev_nonempty {A} (f : list A) : f <> [] -> exists c l, rev f = c :: l.
Proof.
  intros H. destruct (rev f) as [|c l] eqn:E; [|eauto]. apply (f_equal (@rev A)) in E.
  rewrite rev_involutive in E. contradiction.
Qed.

Lemma split_complete s fs : fields_of blank s fs -> splitBySpaces s = fs.
Proof.
  unfold splitBySpaces. induction 1 as [ws H|ws f H Hf Hn|ws f b rest fs H Hf Hn Hb _ IH].
  - rewrite <- (app_nil_r ws), split_go_blank by assumption. reflexivity.
  - rewrite split_go_blank by assumption. rewrite <- (app_nil_r f) at 1. rewrite split_go_field by assumption.
    rewrite app_nil_r. cbn. destruct (rev_nonempty f Hf) as (c & l & E). rewrite E, <- E, rev_involutive. reflexivity.
  - rewrite split_go_blank, split_go_field by assumption. rewrite app_nil_r. cbn.
    apply is_space_blank in Hb. rewrite Hb. destruct (rev_nonempty f Hf) as (c & l & E).
    rewrite E, <- E, rev_involutive, IH. reflexivity.
Qed.

Lemma fields_of_blank_cons c s fs : blank c -> fields_of blank s fs -> fields_of blank (c :: s) fs.
Proof.
  intros Hc. destruct 1.
  - apply fields_none. constructor; assumption.
  - apply (fields_last blank (c :: ws)); auto.
  - apply (fields_more blank (c :: ws)); auto.
Qed.

Lemma split_go_sound s cur :
  Forall (fun c => ~ blank c) cur ->
  match cur with
  | [] => fields_of blank s (split_go s [])
  | _ => fields_of blank (rev cur ++ s) (split_go s cur)
  end.
Proof.
  revert cur; induction s as [|c s IH]; intros cur H.
  - destruct cur as [|a cur]; cbn; [apply fields_none; constructor|].
    rewrite app_nil_r. apply (fields_last blank []); [constructor| |].
    + intros E. apply app_eq_nil in E as [_ E]. discriminate.
    + change (rev cur ++ [a]) with (rev (a :: cur)). rewrite Forall_forall in *. intros x Hx. apply H. apply in_rev. exact Hx.
  - destruct cur as [|a cur]; cbn [split_go].
    + destruct (is_space c) eqn:E.
      * apply fields_of_blank_cons; [apply is_space_blank; exact E|]. apply (IH []). constructor.
      * apply (IH [c]). constructor; [apply is_space_not_blank; exact E|constructor].
    + destruct (is_space c) eqn:E.
      * apply (fields_more blank []); [constructor| | | |].
        -- intros Hn. apply (f_equal (@length _)) in Hn. cbn in Hn. rewrite app_length in Hn. cbn in Hn. lia.
        -- rewrite Forall_forall in *. intros x Hx. apply H. apply in_rev. exact Hx.
        -- apply is_space_blank; exact E.
        -- apply (IH []). constructor.
      * specialize (IH (c :: a :: cur)). cbn [rev] in *. rewrite <- !app_assoc in *. cbn [app] in *.
        apply IH. constructor; [apply is_space_not_blank; exact E|exact H].
Qed.

Lemma split_iff s fs : splitBySpaces s = fs <-> fields_of blank s fs.
Proof.
  split; [|apply split_complete]. intros <-. apply (split_go_sound s []). constructor.
Qed.

(** * Statements in the form of the property list *)
Lemma uniquelist_refines_set :
  forall (A : Type) (P : A -> Prop) (ltb : A -> A -> bool), strict_weak_order_on P ltb ->
  forall h, (forall o, In o h -> forall x, In x (set_op_elems o) -> P x) ->
  exists u, ul_run ltb h = Ok u /\
    ul_list u = set_run (equivb ltb) h /\
    (forall i j a b, nth_error (ul_list u) i = Some a -> nth_error (ul_list u) j = Some b ->
       equivb ltb a b = true -> i = j) /\
    (forall x, P x -> ul_contains ltb u x = set_mem (equivb ltb) x (ul_list u)) /\
    (forall x u' i, P x -> ul_push_back ltb u x = (u', i) ->
       ul_list u' = set_add (equivb ltb) (ul_list u) x /\
       exists y, vget (ul_list u') i = Ok y /\ equivb ltb y x = true).
Proof.
  intros A P ltb W h Hh.
  destruct (ul_run_inv P ltb W h ul_empty [] (ul_inv_empty P ltb) eq_refl Hh) as (u & E & I & L).
  exists u. split; [exact E|]. split; [exact L|]. split.
  { intros i j a b Ha Hb Hab. eapply (ul_inv_distinct P ltb); eauto. apply eqv_iff. exact Hab. }
  split.
  { intros x Px. apply eq_true_iff_eq. rewrite (ul_contains_iff P ltb W), set_mem_iff by assumption. reflexivity. }
  intros x u' i Px H.
  pose proof (ul_push_back_set P ltb W u x I Px) as [_ Hs]. rewrite H in Hs. split; [exact Hs|].
  destruct (ul_push_back_index P ltb W u x u' i I Px H) as (y & H1 & H2 & H3).
  exists y. split; [apply vget_ok; auto|apply eqv_iff; exact H3].
Qed.

Lemma pop_front_stale :
  forall (A : Type) (P : A -> Prop) (ltb : A -> A -> bool), strict_weak_order_on P ltb ->
  forall h u, (forall o, In o h -> forall x, In x (set_op_elems o) -> P x) -> ul_run ltb h = Ok u ->
  forall x rest, ul_list u = x :: rest ->
  exists u1, ul_pop_front ltb u = Ok u1 /\ ul_list u1 = rest /\
    (forall n y, nth_error rest n = Some y -> ul_push_back ltb u1 y = (u1, Z.of_nat n + 1)) /\
    (forall y, nth_error rest (length rest - 1) = Some y ->
       exists i m, ul_push_back ltb u1 y = (u1, i) /\ vget (ul_list u1) i = Err (UB m)).
Proof.
  intros A P ltb W h u Hh Hu x rest El.
  destruct (ul_run_inv P ltb W h ul_empty [] (ul_inv_empty P ltb) eq_refl Hh) as (u' & E & I & _).
  unfold ul_run in Hu. rewrite Hu in E. injection E as <-.
  assert (Hx : nth_error (ul_list u) 0 = Some x) by (rewrite El; reflexivity).
  assert (exists u1, ul_pop_front ltb u = Ok u1) as [u1 Hp].
  { unfold ul_pop_front. rewrite El. cbn. eauto. }
  destruct (ul_pop_front_stale P ltb W u x u1 I Hx Hp) as [L1 H1].
  rewrite El in L1. cbn in L1. exists u1. split; [exact Hp|]. split; [exact L1|].
  assert (H2 : forall n y, nth_error rest n = Some y -> ul_push_back ltb u1 y = (u1, Z.of_nat n + 1)).
  { intros n y Hn. apply H1. rewrite L1. exact Hn. }
  split; [exact H2|]. intros y Hy. do 2 eexists. split; [apply H2; exact Hy|].
  assert (rest <> []) by (intros ->; discriminate Hy).
  assert (length rest <> 0%nat) by (destruct rest; [contradiction|discriminate]).
  rewrite L1. unfold vget, vgetn.
  replace (Z.of_nat (length rest - 1) + 1 <? 0) with false by lia.
  replace (Z.to_nat (Z.of_nat (length rest - 1) + 1)) with (length rest) by lia.
  destruct (nth_error rest (length rest)) eqn:En; [|reflexivity].
  assert (length rest < length rest)%nat by (apply nth_error_Some; congruence). lia.
Qed.

Lemma force_push_back_hidden :
  forall (A : Type) (P : A -> Prop) (ltb : A -> A -> bool), strict_weak_order_on P ltb ->
  forall h u x, (forall o, In o h -> forall x, In x (set_op_elems o) -> P x) -> ul_run ltb h = Ok u ->
  P x -> set_mem (equivb ltb) x (ul_list u) = false ->
  let u1 := fst (ul_force_push_back u x) in
  ul_list u1 = ul_list u ++ [x] /\ ul_contains ltb u1 x = false /\
  ul_list (fst (ul_push_back ltb u1 x)) = ul_list u ++ [x; x].
Proof.
  intros A P ltb W h u x Hh Hu Px Hm.
  destruct (ul_run_inv P ltb W h ul_empty [] (ul_inv_empty P ltb) eq_refl Hh) as (u' & E & I & _).
  unfold ul_run in Hu. rewrite Hu in E. injection E as <-.
  destruct (ul_force_push_back_spec P ltb W u x I Px Hm) as (_ & H2 & H3).
  split; [reflexivity|]. split; assumption.
Qed.

Lemma hash32_ub k : in_int k = true ->
  (k = 61 \/ k = -62 \/ k = 477223760 \/ k = -477223761 -> exists v, hash32_strict k = Ok v) /\
  (~ (k = 61 \/ k = -62 \/ k = 477223760 \/ k = -477223761) -> exists m, hash32_strict k = Err (UB m)).
Proof.
  intros Hk. rewrite <- (hash32_strict_iff k Hk). split; [auto|].
  intros H. destruct (hash32_strict_cases k) as [H'|H']; [contradiction|exact H'].
Qed.

Lemma zltb_swo : strict_weak_order_on (fun _ : Z => True) Z.ltb.
Proof. constructor; unfold incomparable; intros; lia. Qed.
