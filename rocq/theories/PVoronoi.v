(** Proofs about the construction of the Voronoi cells. *)
From Coq Require Import Reals Lra Permutation.
From Verif Require Import Base Spec MUtil MGeom MHull MPolygon MMaps MTriangle MGen MRegion MDelaunay MVoronoi Bridge.
From Verif Require Import PUtil PPoint PSegment PMaps PPoly PPoly2 PTri PDelaunay.
Local Open Scope Z_scope.
Local Arguments zlen : simpl never.

(** * Triangles around a point *)
Lemma touches_iff i s : touches i s = true <-> fst s = i \/ snd s = i.
Proof. unfold touches. rewrite orb_true_iff, !Z.eqb_eq. reflexivity. Qed.
Lemma touches_cong i s s' : same_side s s' = true -> touches i s = touches i s'.
Proof.
  intros H. apply eq_true_iff_eq. rewrite !touches_iff. unfold same_side in H.
  rewrite orb_true_iff, !andb_true_iff, !Z.eqb_eq in H. destruct H as [[-> ->]|[-> ->]]; tauto.
Qed.
Lemma side_corners t s i : has_side s t = true -> touches i s = true -> In i (corners t).
Proof.
  destruct t as [[a b] c], s as [x y]. rewrite touches_iff. cbn [fst snd]. unfold has_side, sides, corners. cbn [existsb In].
  rewrite !orb_true_iff. unfold same_side. cbn [fst snd]. rewrite !orb_true_iff, !andb_true_iff, !Z.eqb_eq.
  intuition (subst; auto; discriminate).
Qed.
(** the other end *)
Definition other (i : Z) (s : Z * Z) : Z := if fst s =? i then snd s else fst s.
Lemma other_side i s : touches i s = true -> same_side s (i, other i s) = true.
Proof. rewrite touches_iff. unfold same_side, other. destruct s as [x y]. cbn [fst snd]. destruct (Z.eqb_spec x i); cbn [fst snd]; lia. Qed.
Lemma same_side_iff x y a b : same_side (x, y) (a, b) = true <-> (x = a /\ y = b) \/ (x = b /\ y = a).
Proof. unfold same_side. cbn [fst snd]. rewrite orb_true_iff, !andb_true_iff, !Z.eqb_eq. reflexivity. Qed.
Lemma has_side_iff x y a b c : has_side (x, y) (a, b, c) = true <->
  ((x = a /\ y = b) \/ (x = b /\ y = a)) \/ ((x = b /\ y = c) \/ (x = c /\ y = b)) \/ ((x = c /\ y = a) \/ (x = a /\ y = c)).
Proof. unfold has_side, sides. cbn [existsb]. rewrite !orb_true_iff, !same_side_iff. intuition discriminate. Qed.
Lemma perm_bca {A} (a b c : A) : Permutation [a; b; c] [b; c; a].
Proof. change (Permutation ([a] ++ [b; c]) ([b; c] ++ [a])). apply Permutation_app_comm. Qed.
Lemma perm_cab {A} (a b c : A) : Permutation [a; b; c] [c; a; b].
Proof. change (Permutation ([a; b] ++ [c]) ([c] ++ [a; b])). apply Permutation_app_comm. Qed.
Lemma perm_cba {A} (a b c : A) : Permutation [a; b; c] [c; b; a].
Proof. apply (Permutation_rev [a; b; c]). Qed.
Lemma perm_bac {A} (a b c : A) : Permutation [a; b; c] [b; a; c].
Proof. constructor. Qed.
Lemma perm_acb {A} (a b c : A) : Permutation [a; b; c] [a; c; b].
Proof. constructor. constructor. Qed.
Lemma has_side_third t s i : NoDup (corners t) -> has_side s t = true -> touches i s = true ->
  exists z, Permutation (corners t) [i; other i s; z] /\ has_side (i, z) t = true.
Proof.
  intros ND H Hi. rewrite (has_side_cong _ _ t (other_side i s Hi)) in H. revert H. generalize (other i s). intros w H.
  destruct t as [[a b] c]. cbn [corners] in *. rewrite has_side_iff in H.
  destruct H as [[[-> ->]|[-> ->]]|[[[-> ->]|[-> ->]]|[[-> ->]|[-> ->]]]].
  - exists c. split; [reflexivity|]. apply has_side_iff. tauto.
  - exists c. split; [apply perm_bac|]. apply has_side_iff. tauto.
  - exists a. split; [apply perm_bca|]. apply has_side_iff. tauto.
  - exists a. split; [apply perm_cba|]. apply has_side_iff. tauto.
  - exists b. split; [apply perm_cab|]. apply has_side_iff. tauto.
  - exists b. split; [apply perm_acb|]. apply has_side_iff. tauto.
Qed.

(** * Links *)
Lemma joins_mono cells cells' c s : (forall k l, nth_error cells k = Some l -> exists l', nth_error cells' k = Some l' /\ incl l l') ->
  joins cells c s -> joins cells' c s.
Proof. intros H (l & H1 & H2 & H3 & H4). destruct (H _ _ H2) as (l' & H5 & H6). exists l'. auto. Qed.
Lemma linked_mono cells cells' m : (forall k l, nth_error cells k = Some l -> exists l', nth_error cells' k = Some l' /\ incl l l') ->
  edges_linked cells m -> edges_linked cells' m.
Proof.
  intros H. apply Forall_impl. intros e (c & H1 & H2 & H3). exists c. split; [assumption|]. split; [eapply joins_mono; eassumption|].
  destruct H3 as [H3|H3]; [auto|]. right. eapply joins_mono; eassumption.
Qed.
Lemma joins_side cells c s s' : iseg_eqb s s' = true -> joins cells c s' -> joins cells c s.
Proof.
  rewrite <- same_side_iseg. destruct s as [x y], s' as [a b]. rewrite same_side_iff. intros H (l & H1 & H2 & H3 & H4). exists l. cbn [fst snd] in *.
  destruct H as [[-> ->]|[-> ->]]; auto.
Qed.
Lemma linked_insert cells m s c : edges_linked cells m -> joins cells c s -> edges_linked cells (sm_insert iseg_eqb m s c).
Proof.
  intros H J. unfold sm_insert. destruct (um_find iseg_eqb s m).
  - clear n. induction H as [|[s' n] m (c' & H1 & H2 & H3) F IH]; cbn [um_update]; [constructor|].
    cbn [fst snd] in *. destruct (iseg_eqb s' s) eqn:E; constructor; auto; cbn [fst snd].
    + exists c'. cbn. split; [assumption|]. split; [assumption|]. right. eapply joins_side; eassumption.
    + exists c'. auto.
  - unfold um_add. apply Forall_app. split; [assumption|]. constructor; [|constructor]. exists c. cbn. auto.
Qed.
Lemma grow_last past l l' k x : incl l l' -> nth_error (past ++ [l]) k = Some x ->
  exists x' : list Z, nth_error (past ++ [l']) k = Some x' /\ incl x x'.
Proof.
  intros I H. destruct (Nat.lt_ge_cases k (length past)) as [L|L].
  - rewrite nth_error_app1 in * by assumption. exists x. split; [assumption|apply incl_refl].
  - rewrite nth_error_app2 in * by assumption. destruct (k - length past)%nat as [|[|?]]; cbn in *; try discriminate.
    injection H as <-. eauto.
Qed.
Lemma joins_last past l s : In (fst s) l -> In (snd s) l -> joins (past ++ [l]) (zlen past) s.
Proof.
  intros H1 H2. exists l. split; [apply zlen_nonneg|]. split; [|auto]. unfold zlen. rewrite Nat2Z.id, nth_error_app2, Nat.sub_diag by lia. reflexivity.
Qed.
Lemma set_add_in l x : In x (set_add Z.eqb l x).
Proof.
  unfold set_add. destruct (set_mem Z.eqb x l) eqn:E; [|apply in_or_app; right; left; reflexivity].
  apply existsb_exists in E as (y & H1 & H2). apply Z.eqb_eq in H2 as ->. assumption.
Qed.
Lemma set_add_incl l x : incl l (set_add Z.eqb l x).
Proof. unfold set_add. destruct (set_mem Z.eqb x l); [apply incl_refl|apply incl_appl, incl_refl]. Qed.
Lemma set_add_forall (P : Z -> Prop) l x : Forall P l -> P x -> Forall P (set_add Z.eqb l x).
Proof. intros H Hx. unfold set_add. destruct (set_mem Z.eqb x l); [assumption|]. apply Forall_app. auto. Qed.
Lemma zinv_NoDup u : ul_inv (fun _ => True) zltb u -> NoDup (ul_list u).
Proof.
  intros I. apply NoDup_nth_error. intros i j Hi E. destruct (nth_error (ul_list u) i) as [a|] eqn:Ea; [|apply nth_error_None in Ea; lia].
  apply (ul_inv_distinct _ zltb u i j a a I); auto. split; apply Z.ltb_irrefl.
Qed.

Lemma Forall2_nth_left {A B} (P : A -> B -> Prop) l l' k x : Forall2 P l l' -> nth_error l k = Some x -> exists y, nth_error l' k = Some y /\ P x y.
Proof.
  intros F. revert k. induction F as [|a b l l' H _ IH]; intros [|k] E; try discriminate; cbn in *.
  - injection E as <-. exists b. auto.
  - auto.
Qed.

Section Cells.
  Context {N : Num}.
  Notation Point := (Point N).
  Variable tol : nT N.
  Variable o : trout N.
  Variable d : delaunay N.
  Hypothesis T : triangulation (zlen (o_points o)) (map fst (o_edges o)) (o_tris o).
  Hypothesis O : output_ok tol o d.
  Notation mp := (map read_point (o_points o)).

  Definition ext (u u' : ulist Point) : Prop := exists l, ul_list u' = ul_list u ++ l.
  Lemma ext_refl u : ext u u.
  Proof. exists []. rewrite app_nil_r. reflexivity. Qed.
  Lemma ext_trans u v w : ext u v -> ext v w -> ext u w.
  Proof. intros [l H] [l' H']. exists (l ++ l'). rewrite H', H, app_assoc. reflexivity. Qed.
  Lemma ext_nth u v n y : ext u v -> nth_error (ul_list u) n = Some y -> nth_error (ul_list v) n = Some y.
  Proof. intros [l ->] H. rewrite nth_error_app1; [assumption|]. apply nth_error_Some. congruence. Qed.
  Lemma cell_vertex_ext u u' v i : ext u u' -> cell_vertex tol o v (ul_list u) i -> cell_vertex tol o v (ul_list u') i.
  Proof.
    intros X (y & x & H1 & H2 & H3). exists y, x. split; [|auto]. inversion_clear H1 as [|? ? ? ? [A B] _].
    constructor; [|constructor]. split; [assumption|]. eapply ext_nth; eassumption.
  Qed.
  Lemma cell_vertex_get u v i : cell_vertex tol o v (ul_list u) i -> exists q, ul_get u i = Ok q.
  Proof. intros (y & x & H1 & _). inversion_clear H1 as [|? ? ? ? H2 _]. exists y. apply vget_ok. assumption. Qed.
  Lemma push_ext u x u' i : ul_ranged u -> ul_push_back (pt_ltb tol) u x = (u', i) -> ext u u'.
  Proof. intros R E. destruct (ul_push_ranged _ _ _ _ _ R E) as (_ & _ & [->|[H _]]); [apply ext_refl|exists [x]; assumption]. Qed.
  (** the list keeps its points apart as long as the order tells all vertices apart *)
  Definition keeps (u u' : ulist Point) : Prop := forall S, strict_weak_order_on S (pt_ltb tol) -> (forall v x, cell_source o v x -> S x) ->
    ul_inv S (pt_ltb tol) u -> ul_inv S (pt_ltb tol) u'.
  Lemma keeps_refl u : keeps u u.
  Proof. intros S _ _ H. exact H. Qed.
  Lemma keeps_trans u v w : keeps u v -> keeps v w -> keeps u w.
  Proof. intros H H' S W I K. apply H'; auto. Qed.
  Lemma push_vertex v u x u' i : ul_ranged u -> ul_push_back (pt_ltb tol) u x = (u', i) -> cell_source o v x ->
    ul_ranged u' /\ ext u u' /\ cell_vertex tol o v (ul_list u') i /\ keeps u u'.
  Proof.
    intros R E S. pose proof (push_ext _ _ _ _ R E). destruct (ul_push_ranged _ _ _ _ _ R E) as (R' & (H1 & y & H2 & H3) & _).
    split; [assumption|]. split; [assumption|]. split; [|intros P W I K; exact (proj1 (ul_push_back_spec P _ W u x u' i K (I v x S) E))].
    exists y, x. split; [|auto]. constructor; [auto|constructor].
  Qed.

  Lemma tri_at k t : nth_error (o_tris o) k = Some t -> exists tr, nth_error (dl_triangles d) k = Some tr /\ tri_read tol (dl_meshPoints d) (dl_circumcenters d) t tr.
  Proof.
    apply Forall2_nth_left. exact (oo_tris _ _ _ O).
  Qed.
  Lemma incident_in t s : In t (incident (o_tris o) s) <-> exists k x, t = Z.of_nat k /\ nth_error (o_tris o) k = Some x /\ has_side s x = true.
  Proof.
    unfold incident. rewrite positions_in. split.
    - intros (n & a & H1 & H2 & ->). exists n, a. auto.
    - intros (n & a & -> & H1 & H2). exists n, a. auto.
  Qed.
  Lemma edge_at k e : nth_error (o_edges o) k = Some e -> vget (dl_edges d) (Z.of_nat k) = Ok (edge_after (o_tris o) e).
  Proof. intros H. apply vget_ok. rewrite Nat2Z.id. split; [lia|]. rewrite (oo_edges _ _ _ O), nth_error_map, H. reflexivity. Qed.

  Lemma getCC_ok v cc t k e cc' i : ul_ranged cc -> ext (dl_circumcenters d) cc ->
    nth_error (o_edges o) k = Some e -> touches v (fst e) = true ->
    (t = -1 /\ (length (incident (o_tris o) (fst e)) <= 1)%nat) \/ In t (incident (o_tris o) (fst e)) ->
    getCircumcenter tol d cc t (Z.of_nat k) = Ok (cc', i) ->
    ul_ranged cc' /\ ext cc cc' /\ cell_vertex tol o v (ul_list cc') i /\ keeps cc cc'.
  Proof.
    intros R X He Hv Ht H. unfold getCircumcenter in H. destruct (Z.eqb_spec t (-1)) as [->|D]; cbn [negb] in H.
    - destruct Ht as [[_ L]|Ht]; [|apply incident_in in Ht as (k' & x & E & _); lia].
      rewrite (edge_at _ _ He) in H. cbn [bind edge_after e_p1 e_p2] in H. rewrite <- surjective_pairing in H. inv_ok H.
      injection H as H. apply (push_vertex v _ _ _ _ R H).
      rewrite (oo_points _ _ _ O) in E. apply (src_edge o v _ e v0); auto. eapply nth_error_In; eassumption.
    - destruct Ht as [[? _]|Ht]; [contradiction|]. apply incident_in in Ht as (k' & x & -> & H1 & H2).
      destruct (tri_at _ _ H1) as (tr & H3 & H4 & A & B & C & c & i' & H5 & H6 & H7 & H8 & H9 & y & H10 & H11).
      assert (V : vget (dl_triangles d) (Z.of_nat k') = Ok tr) by (apply vget_ok; rewrite Nat2Z.id; split; [lia|assumption]).
      rewrite V in H. cbn [bind] in H. rewrite H8 in H. injection H as <- <-.
      split; [assumption|]. split; [apply ext_refl|]. split; [|apply keeps_refl]. exists y, c. split; [|split; [assumption|]].
      + constructor; [|constructor]. split; [assumption|]. eapply ext_nth; eassumption.
      + rewrite (oo_points _ _ _ O) in H5. apply (src_triangle o v c x A B C); auto; [eapply nth_error_In; eassumption|].
        eapply side_corners; eassumption.
  Qed.

  Record st_ok (v : Z) (cc0 : ulist Point) (past : list (list Z)) (s : vstate) : Prop := {
    so_ranged : ul_ranged (v_cc s);
    so_ext : ext cc0 (v_cc s);
    so_keeps : keeps cc0 (v_cc s);
    so_inv : ul_inv (fun _ => True) zltb (v_cell s);
    so_cell : Forall (cell_vertex tol o v (ul_list (v_cc s))) (ul_list (v_cell s));
    so_links : edges_linked (past ++ [ul_list (v_cell s)]) (v_edges s)
  }.
  Lemma st_with_cc v cc0 past s cc : st_ok v cc0 past s -> ul_ranged cc -> ext (v_cc s) cc -> keeps (v_cc s) cc -> st_ok v cc0 past (with_cc s cc).
  Proof.
    intros [S1 S2 SK S3 S4 S5] R X K. constructor; cbn [with_cc v_cc v_cell v_edges]; auto.
    - eapply ext_trans; eassumption.
    - eapply keeps_trans; eassumption.
    - eapply Forall_impl; [|exact S4]. intros i. apply cell_vertex_ext. assumption.
  Qed.
  Lemma st_push v cc0 past s i (e' : segmap) pm th : st_ok v cc0 past s -> cell_vertex tol o v (ul_list (v_cc s)) i ->
    e' = v_edges s -> st_ok v cc0 past (mkV (v_cc s) e' pm th (fst (ul_push_back zltb (v_cell s) i))) /\
    In i (ul_list (fst (ul_push_back zltb (v_cell s) i))) /\ incl (ul_list (v_cell s)) (ul_list (fst (ul_push_back zltb (v_cell s) i))).
  Proof.
    intros [S1 S2 SK S3 S4 S5] H ->. destruct (push_zset (v_cell s) i S3) as [I L].
    assert (G : incl (ul_list (v_cell s)) (ul_list (fst (ul_push_back zltb (v_cell s) i)))) by (rewrite L; apply set_add_incl).
    split; [|split; [rewrite L; apply set_add_in|assumption]]. constructor; cbn [v_cc v_cell v_edges]; auto.
    - rewrite L. apply set_add_forall; assumption.
    - eapply linked_mono; [|exact S5]. intros k l. apply grow_last. assumption.
  Qed.

  Lemma add_step_ok v cc0 past s i1 i2 s' : st_ok v cc0 past s ->
    cell_vertex tol o v (ul_list (v_cc s)) i1 -> cell_vertex tol o v (ul_list (v_cc s)) i2 ->
    add_step tol (zlen past) i1 i2 s = Ok s' -> st_ok v cc0 past s' /\ v_cc s' = v_cc s /\ In i1 (ul_list (v_cell s')).
  Proof.
    intros S H1 H2 H. unfold add_step in H. destruct (i1 =? i2); cbn [negb bind] in H.
    - inv_ok H. injection H as <-. cbn [v_cc]. destruct (st_push v cc0 past s i1 (v_edges s) (pm_insert tol (v_pm s) v0 (zlen past)) (v_this s) S H1 eq_refl) as (A & B & _). auto.
    - apply bind_ok in H as (sa & E & H). apply bind_ok in E as (q2 & _ & E). injection E as <-.
      apply bind_ok in H as (q1 & _ & H). injection H as <-. cbn [v_cc v_edges v_pm v_this v_cell] in *.
      destruct (st_push v cc0 past s i2 (v_edges s) (v_pm s) (v_this s) S H2 eq_refl) as (A & B & C).
      set (s2 := mkV _ _ _ _ _) in A.
      destruct (st_push v cc0 past s2 i1 (v_edges s) (v_pm s) (v_this s) A H1 eq_refl) as (A' & B' & C').
      destruct A' as [S1 S2 SK S3 S4 S5]. cbn [s2 v_cc v_cell v_edges] in *. split; [|split; [reflexivity|assumption]].
      constructor; cbn [v_cc v_cell v_edges]; auto. apply linked_insert; [assumption|]. apply joins_last; cbn [fst snd]; auto.
  Qed.

  Lemma next_ok v kt t oe : nth_error (o_tris o) kt = Some t -> has_side (fst oe) t = true -> touches v (fst oe) = true ->
    exists z k2 oe2, Permutation (corners t) [v; other v (fst oe); z] /\
      nextEdge (corners t) v (edge_after (o_tris o) oe) (dl_edgeMap d) = Ok (Z.of_nat k2) /\
      nth_error (o_edges o) k2 = Some oe2 /\ same_side (v, z) (fst oe2) = true /\ touches v (fst oe2) = true /\
      In (Z.of_nat kt) (incident (o_tris o) (fst oe2)).
  Proof.
    intros Ht Hs Hv. assert (Hin : In t (o_tris o)) by (eapply nth_error_In; eassumption).
    pose proof (tg_corners _ _ _ T t Hin) as ND.
    destruct (has_side_third t (fst oe) v ND Hs Hv) as (z & P & Hz).
    assert (L : exists s', In s' (map fst (o_edges o)) /\ same_side (v, z) s' = true).
    { unfold has_side in Hz. apply existsb_exists in Hz as (s1 & H1 & H2).
      destruct (tg_sides _ _ _ T t s1 Hin H1) as (s' & H3 & H4). exists s'. split; [assumption|]. eapply same_side_trans; eassumption. }
    destruct (find_edge (dl_edgeMap d) (o_edges o) (v, z) (oo_find _ _ _ O) _ _ T L) as (k & e & F1 & F2 & F3 & _). cbn [fst snd] in F1.
    exists z, k, e. split; [assumption|]. split; [|split; [assumption|]; split; [assumption|]; split].
    - unfold nextEdge. cbn [edge_after e_p1 e_p2].
      assert (TP : thirdPoint (corners t) (fst (fst oe)) (snd (fst oe)) = Ok z).
      { destruct t as [[a b] c]. cbn [corners] in *. apply thirdPoint_correct; [assumption|]. eapply perm_trans; [exact P|].
        destruct oe as [[x y] mk]. cbn [fst snd] in *. apply touches_iff in Hv. cbn [fst snd] in Hv. unfold other. cbn [fst snd].
        destruct (Z.eqb_spec x v) as [->|D]; [reflexivity|]. destruct Hv as [?| ->]; [contradiction|]. apply perm_bac. }
      rewrite TP. cbn [bind]. rewrite F1. reflexivity.
    - rewrite <- (touches_cong v _ _ F3). apply touches_iff. auto.
    - apply incident_in. exists kt, t. split; [reflexivity|]. split; [assumption|]. rewrite <- (has_side_cong _ _ t F3). assumption.
  Qed.
  Lemma edge_key k oe : nth_error (o_edges o) k = Some oe ->
    edgeMap_get (dl_edgeMap d) (e_p1 (edge_after (o_tris o) oe)) (e_p2 (edge_after (o_tris o) oe)) = Z.of_nat k.
  Proof.
    intros H. assert (L : exists s', In s' (map fst (o_edges o)) /\ same_side (fst oe) s' = true).
    { exists (fst oe). split; [apply in_map; eapply nth_error_In; eassumption|apply same_side_refl]. }
    destruct (find_edge (dl_edgeMap d) (o_edges o) (fst oe) (oo_find _ _ _ O) _ _ T L) as (k' & e & F1 & F2 & F3 & F4).
    cbn [edge_after e_p1 e_p2]. rewrite F1. f_equal. symmetry. apply (F4 k oe H). apply same_side_refl.
  Qed.

  Lemma other_triangle oe t : In t (incident (o_tris o) (fst oe)) ->
    let e := edge_after (o_tris o) oe in let t' := if negb (e_t1 e =? t) then e_t1 e else e_t2 e in
    (t' = -1 /\ (length (incident (o_tris o) (fst oe)) <= 1)%nat) \/ In t' (incident (o_tris o) (fst oe)).
  Proof.
    cbn [edge_after e_t1 e_t2]. intros H. destruct (incident (o_tris o) (fst oe)) as [|t1 l] eqn:E; [destruct H|].
    cbn [first_or tl]. destruct (Z.eqb_spec t1 t) as [->|D]; cbn [negb]; [|right; left; reflexivity].
    unfold last_or. destruct (rev l) as [|x l'] eqn:R; cbn [first_or].
    - left. split; [reflexivity|]. apply (f_equal (@length Z)) in R. rewrite rev_length in R. cbn in *. lia.
    - right. right. apply in_rev. rewrite R. left. reflexivity.
  Qed.

  Lemma walk_ok v cc0 past init : ext (dl_circumcenters d) cc0 -> forall fuel t1 k oe s e' s', st_ok v cc0 past s -> ul_list (v_cell s) <> [] ->
    nth_error (o_edges o) k = Some oe -> touches v (fst oe) = true -> In t1 (incident (o_tris o) (fst oe)) ->
    walk tol fuel d (zlen past) v init t1 (edge_after (o_tris o) oe) s = Ok (e', s') -> st_ok v cc0 past s' /\ ul_list (v_cell s') <> [].
  Proof.
    intros X0. induction fuel as [|fuel IH]; intros t1 k oe s e' s' S NE Hk Hv Ht H; cbn [walk] in H;
      destruct (edge_eqb (edge_after (o_tris o) oe) init); try (injection H as <- <-; auto; fail); try discriminate.
    rewrite (edge_key k oe Hk) in H.
    set (t1' := if negb (e_t1 (edge_after (o_tris o) oe) =? t1) then e_t1 (edge_after (o_tris o) oe) else e_t2 (edge_after (o_tris o) oe)) in *.
    pose proof (other_triangle oe t1 Ht) as Ht'. cbv zeta in Ht'. fold t1' in Ht'.
    apply bind_ok in H as ([cc1 i1] & G1 & H). apply bind_ok in H as ([cc2 i2] & G2 & H). apply bind_ok in H as (s1 & A & H).
    destruct (getCC_ok v _ _ k oe _ _ (so_ranged _ _ _ _ S) (ext_trans _ _ _ X0 (so_ext _ _ _ _ S)) Hk Hv Ht' G1) as (R1 & X1 & C1 & K1).
    destruct (getCC_ok v _ _ k oe _ _ R1 (ext_trans _ _ _ X0 (ext_trans _ _ _ (so_ext _ _ _ _ S) X1)) Hk Hv (or_intror Ht) G2) as (R2 & X2 & C2 & K2).
    pose proof (st_with_cc v cc0 past s cc2 S R2 (ext_trans _ _ _ X1 X2) (keeps_trans _ _ _ K1 K2)) as S1.
    destruct (add_step_ok v cc0 past (with_cc s cc2) i1 i2 s1 S1) as (S2 & E2 & IN); [eapply cell_vertex_ext; eassumption|assumption|assumption|].
    assert (NE1 : ul_list (v_cell s1) <> []) by (intros E; rewrite E in IN; destruct IN).
    destruct (Z.eqb_spec t1' (-1)) as [E|D]; cbn [negb] in H; [injection H as <- <-; auto|].
    destruct Ht' as [[? _]|Ht']; [contradiction|].
    pose proof Ht' as Ht''. apply incident_in in Ht'' as (kt & t & Et & Hnt & Hst).
    destruct (tri_at _ _ Hnt) as (tr & H3 & H4 & _).
    rewrite Et in H at 1. assert (V : vget (dl_triangles d) (Z.of_nat kt) = Ok tr) by (apply vget_ok; rewrite Nat2Z.id; split; [lia|assumption]).
    rewrite V in H. cbn [bind] in H. rewrite H4 in H.
    destruct (next_ok v kt t oe Hnt Hst Hv) as (z & k2 & oe2 & P & NX & Hk2 & _ & Hv2 & Hi2).
    rewrite NX in H. cbn [bind] in H. rewrite (edge_at _ _ Hk2) in H. cbn [bind] in H.
    apply (IH _ k2 oe2 s1 e' s' S2 NE1 Hk2 Hv2) in H; auto. rewrite Et. assumption.
  Qed.

  Lemma close_ok v cc0 past center e s s' : st_ok v cc0 past s -> vertices_are mp [v] [center] ->
    close_cell tol (zlen past) center e s = Ok s' -> st_ok v cc0 past s' /\ incl (ul_list (v_cell s)) (ul_list (v_cell s')).
  Proof.
    intros S Hc H. unfold close_cell in H. destruct (e_t2 e =? -1); [|injection H as <-; split; [assumption|apply incl_refl]].
    apply bind_ok in H as (f & Ef & H). apply bind_ok in H as (l & El & H). apply bind_ok in H as (qf & _ & H). apply bind_ok in H as (ql & _ & H).
    unfold ul_get in Ef, El. apply vget_ok in Ef as [_ Ef]. apply vget_ok in El as [_ El]. apply nth_error_In in Ef, El.
    destruct (collinear tol qf center ql).
    - injection H as <-. destruct S as [S1 S2 SK S3 S4 S5]. split; [|apply incl_refl]. constructor; cbn [v_cc v_cell v_edges]; auto.
      apply linked_insert; [assumption|]. apply joins_last; assumption.
    - destruct (ul_push_back (pt_ltb tol) (v_cc s) (setBoundary center)) as [cc' ri] eqn:Ep.
      apply bind_ok in H as (q & _ & H). injection H as <-.
      destruct (push_vertex v _ _ _ _ (so_ranged _ _ _ _ S) Ep) as (R & X & C & K); [eapply src_self; [exact Hc|reflexivity]|].
      pose proof (st_with_cc v cc0 past s cc' S R X K) as S1.
      destruct (st_push v cc0 past (with_cc s cc') ri (v_edges s) (v_pm s) (v_this s) S1 C eq_refl) as (A & B & I).
      cbn [with_cc v_cc v_cell] in *. split; [|exact I].
      destruct A as [A1 A2 AK A3 A4 A5]. constructor; cbn [v_cc v_cell v_edges] in *; auto.
      apply linked_insert; [apply linked_insert; [assumption|]|]; apply joins_last; cbn [fst snd]; auto.
  Qed.

  Lemma fixCCW_points (g g' : polygon N) p : fixCCW g p = Ok g' -> pg_points g' = pg_points g \/ pg_points g' = rev (pg_points g).
  Proof. intros H. unfold fixCCW in H. apply bind_ok in H as (b & _ & H). injection H as <-. destruct b; auto. Qed.

  Lemma build_cell_ok v cc past m pm fuel g s : ul_ranged cc -> ext (dl_circumcenters d) cc -> edges_linked past m ->
    0 <= v < zlen (o_points o) -> build_cell tol fuel d (zlen past) v cc m pm = Ok (g, s) ->
    st_ok v cc past s /\ ul_list (v_cell s) <> [] /\ (pg_points g = ul_list (v_cell s) \/ pg_points g = rev (ul_list (v_cell s))).
  Proof.
    intros R X L Hv H. unfold build_cell in H. apply bind_ok in H as (center & Ec & H). apply bind_ok in H as (pd & Ep & H).
    apply bind_ok in H as (init & Ei & H). cbn zeta in H.
    assert (Hc : vertices_are mp [v] [center]).
    { rewrite (oo_points _ _ _ O) in Ec. apply vget_ok in Ec. constructor; [assumption|constructor]. }
    assert (Hpd : pd_edge pd = start_edge (o_edges o) v).
    { rewrite (oo_data _ _ _ O) in Ep. apply vget_ok in Ep as [_ Ep]. rewrite nth_error_map in Ep.
      rewrite (nth_error_nth' _ 0%nat), seq_nth in Ep by (rewrite ?seq_length; unfold zlen in Hv; lia). cbn in Ep. injection Ep as <-. cbn.
      f_equal. lia. }
    assert (Hst : exists k oe, pd_edge pd = Z.of_nat k /\ nth_error (o_edges o) k = Some oe /\ init = edge_after (o_tris o) oe /\ touches v (fst oe) = true).
    { apply vget_ok in Ei as [P1 P2]. rewrite (oo_edges _ _ _ O), nth_error_map in P2.
      destruct (nth_error (o_edges o) (Z.to_nat (pd_edge pd))) as [oe|] eqn:Eo; [|discriminate]. injection P2 as <-.
      exists (Z.to_nat (pd_edge pd)), oe. split; [lia|]. split; [assumption|]. split; [reflexivity|].
      rewrite Hpd in *. unfold start_edge, last_or in *.
      assert (Q : forall f k, In k (positions (fun e : Z * Z * Z => touches v (fst e) && f e)%bool (o_edges o) 0) -> nth_error (o_edges o) (Z.to_nat k) = Some oe -> touches v (fst oe) = true).
      { intros f k Hin Hk. apply positions_in in Hin as (n & a & Q1 & Q2 & ->). rewrite Z.add_0_l, Nat2Z.id in Hk. rewrite Hk in Q1. injection Q1 as <-. apply andb_prop in Q2. tauto. }
      destruct (rev (positions (fun e : Z * Z * Z => touches v (fst e) && (snd e =? 1)) (o_edges o) 0)) as [|k l] eqn:Er; cbn [first_or] in *.
      - destruct (positions (fun e : Z * Z * Z => touches v (fst e)) (o_edges o) 0) as [|k l] eqn:E2; cbn [first_or] in *; [lia|].
        apply (Q (fun _ => true) k); [|assumption].
        rewrite (positions_ext _ (fun e : Z * Z * Z => touches v (fst e))) by (intros; apply andb_true_r). rewrite E2. left. reflexivity.
      - apply (Q (fun e => snd e =? 1) k); [|assumption]. apply in_rev. rewrite Er. left. reflexivity. }
    clear Ei. destruct Hst as (k & oe & Ek & Hk & -> & Ht). rewrite Ek in H.
    apply bind_ok in H as ([cc1 i1] & G1 & H). apply bind_ok in H as ([cc2 i2] & G2 & H). apply bind_ok in H as (s0 & A & H).
    apply bind_ok in H as (tr & Etr & H).
    assert (Inc : incident (o_tris o) (fst oe) <> []).
    { intros E. cbn [edge_after e_t1] in Etr. rewrite E in Etr. cbn in Etr. discriminate. }
    destruct (incident (o_tris o) (fst oe)) as [|t1 l] eqn:Ein; [contradiction|].
    assert (Et1 : e_t1 (edge_after (o_tris o) oe) = t1) by (cbn [edge_after e_t1]; rewrite Ein; reflexivity).
    rewrite Et1 in *.
    assert (I1 : In t1 (incident (o_tris o) (fst oe))) by (rewrite Ein; left; reflexivity).
    assert (I2 : (e_t2 (edge_after (o_tris o) oe) = -1 /\ (length (incident (o_tris o) (fst oe)) <= 1)%nat) \/ In (e_t2 (edge_after (o_tris o) oe)) (incident (o_tris o) (fst oe))).
    { pose proof (other_triangle oe t1 I1) as Q. cbv zeta in Q. rewrite Et1, Z.eqb_refl in Q. exact Q. }
    destruct (getCC_ok v _ _ k oe _ _ R X Hk Ht (or_intror I1) G1) as (R1 & X1 & C1 & K1).
    destruct (getCC_ok v _ _ k oe _ _ R1 (ext_trans _ _ _ X X1) Hk Ht I2 G2) as (R2 & X2 & C2 & K2).
    assert (S0 : st_ok v cc past (mkV cc2 m pm [] ul_empty)).
    { constructor; cbn [v_cc v_cell v_edges]; auto.
      - eapply ext_trans; eassumption.
      - eapply keeps_trans; eassumption.
      - apply ul_inv_empty.
      - constructor.
      - eapply linked_mono; [|exact L]. intros k0 l0 E0. exists l0. split; [|apply incl_refl]. rewrite nth_error_app1; [assumption|]. apply nth_error_Some. congruence. }
    destruct (add_step_ok v cc past _ i1 i2 s0 S0) as (S1 & E1 & IN1); [eapply cell_vertex_ext; eassumption|assumption|assumption|].
    pose proof I1 as I1'. apply incident_in in I1' as (kt & t & Et & Hnt & Hst).
    destruct (tri_at _ _ Hnt) as (tr' & H3 & H4 & _).
    assert (tr' = tr) as ->. { rewrite Et in Etr. apply vget_ok in Etr as [_ Etr]. rewrite Nat2Z.id in Etr. congruence. }
    rewrite H4 in H. destruct (next_ok v kt t oe Hnt Hst Ht) as (z & k2 & oe2 & P & NX & Hk2 & _ & Hv2 & Hi2).
    rewrite NX in H. cbn [bind] in H. rewrite (edge_at _ _ Hk2) in H. cbn [bind] in H.
    apply bind_ok in H as ([e' s1] & W & H). apply bind_ok in H as (s2 & Cl & H). rewrite ctor_idx_ok in H. cbn [bind] in H.
    apply bind_ok in H as (g' & F & H). injection H as <- <-.
    rewrite <- Et in Hi2.
    destruct (walk_ok v cc past (edge_after (o_tris o) oe) X fuel t1 k2 oe2 s0 e' s1 S1) as [S2 NE]; auto.
    { intros E. rewrite E in IN1. destruct IN1. }
    destruct (close_ok v cc past center e' s1 s2 S2 Hc Cl) as [S3 I3].
    split; [assumption|]. split.
    - destruct (ul_list (v_cell s1)) as [|x l1]; [contradiction|]. intros E. specialize (I3 x (or_introl eq_refl)). rewrite E in I3. destruct I3.
    - apply fixCCW_points in F. cbn [pg_points] in F. assumption.
  Qed.

  Definition cell_ok (cc : ulist Point) (v : Z) (g : polygon N) : Prop :=
    NoDup (pg_points g) /\ pg_points g <> [] /\ Forall (cell_vertex tol o v (ul_list cc)) (pg_points g).
  Lemma build_cells_ok fuel vs : Forall (fun v => 0 <= v < zlen (o_points o)) vs -> forall past cc m pm gs cc' m' pm',
    ul_ranged cc -> ext (dl_circumcenters d) cc -> edges_linked past m ->
    build_cells tol fuel d (zlen past) vs cc m pm = Ok (gs, cc', m', pm') ->
    ul_ranged cc' /\ ext cc cc' /\ edges_linked (past ++ map (fun g => pg_points (fst g)) gs) m' /\ Forall2 (cell_ok cc') vs (map fst gs) /\ keeps cc cc'.
  Proof.
    induction 1 as [|v vs Hv _ IH]; intros past cc m pm gs cc' m' pm' R X L H; cbn [build_cells] in H.
    - injection H as <- <- <- <-. cbn. rewrite app_nil_r. split; [assumption|]. split; [apply ext_refl|]. split; [assumption|]. split; [constructor|apply keeps_refl].
    - apply bind_ok in H as ([g s] & B & H). apply bind_ok in H as ([[[gs1 cc1] m1] pm1] & Q & H). injection H as <- <- <- <-.
      destruct (build_cell_ok v cc past m pm fuel g s R X L Hv B) as ([S1 S2 SK S3 S4 S5] & NE & P).
      assert (PI : forall x, In x (pg_points g) <-> In x (ul_list (v_cell s))).
      { intros x. destruct P as [->| ->]; [reflexivity|]. rewrite <- in_rev. reflexivity. }
      assert (L' : edges_linked (past ++ [pg_points g]) (v_edges s)).
      { eapply linked_mono; [|exact S5]. intros k l. apply grow_last. intros x Hx. apply PI. assumption. }
      rewrite <- (Z.add_0_r (zlen past)) in Q. replace (zlen past + 0 + 1) with (zlen (past ++ [pg_points g])) in Q by (rewrite zlen_app; unfold zlen; cbn [length]; lia).
      destruct (IH _ _ _ _ _ _ _ _ S1 (ext_trans _ _ _ X S2) L' Q) as (R' & X' & LL & F & K').
      split; [assumption|]. split; [eapply ext_trans; eassumption|]. split; [cbn [map fst]; rewrite <- app_assoc in LL; exact LL|].
      split; [|eapply keeps_trans; eassumption]. cbn [map fst]. constructor; [|assumption]. split; [|split].
      + destruct P as [->| ->]; [|apply NoDup_rev]; apply zinv_NoDup; assumption.
      + destruct P as [->| ->]; [assumption|]. intros E. apply NE. rewrite <- (rev_involutive (ul_list (v_cell s))), E. reflexivity.
      + apply Forall_forall. intros x Hx. apply PI in Hx. rewrite Forall_forall in S4. eapply cell_vertex_ext; [eassumption|auto].
  Qed.
End Cells.

Lemma fold_set_add_in l xs v : In v (fold_left (set_add Z.eqb) xs l) -> In v l \/ In v xs.
Proof.
  revert l; induction xs as [|x xs IH]; cbn; intros l H; [auto|]. apply IH in H as [H|H]; [|auto].
  unfold set_add in H. destruct (set_mem Z.eqb x l); [auto|]. apply in_app_or in H as [H|[<-|[]]]; auto.
Qed.
Lemma corner_range n edges tris v : triangulation n edges tris -> In v (flat_map corners tris) -> 0 <= v < n.
Proof.
  intros T H. apply in_flat_map in H as (t & Ht & Hv).
  assert (Hs : exists s, In s (sides t) /\ fst s = v).
  { destruct t as [[a b] c]. cbn in Hv |- *. destruct Hv as [<-|[<-|[<-|[]]]]; [exists (a, b)|exists (b, c)|exists (c, a)]; auto. }
  destruct Hs as (s & Hs & <-). destruct (tg_sides _ _ _ T t s Ht Hs) as ([x y] & Hin & E). apply (tg_ends _ _ _ T) in Hin.
  destruct s as [p q]. apply same_side_iff in E. cbn [fst]. lia.
Qed.

Lemma voronoi_cells {N : Num} (tol : nT N) fuel (o : trout N) d m :
  triangulation (zlen (o_points o)) (map fst (o_edges o)) (o_tris o) -> read_output tol o = Ok d -> voronoi tol fuel d = Ok m ->
  Forall2 (fun v g => NoDup (pg_points g) /\ pg_points g <> [] /\ Forall (cell_vertex tol o v (ul_list (ms_points m))) (pg_points g))
    (fold_left (set_add Z.eqb) (flat_map corners (o_tris o)) []) (ms_polygons m) /\
  (exists l, ul_list (ms_points m) = ul_list (dl_circumcenters d) ++ l) /\
  edges_linked (map (fun g => pg_points g) (ms_polygons m)) (ms_edges m).
Proof.
  intros T H V. pose proof (read_output_ok tol o d T H) as O. unfold voronoi in V.
  apply bind_ok in V as ([[[gs cc] em] pm] & B & V). injection V as <-. cbn [ms_points ms_polygons ms_edges].
  rewrite (oo_real _ _ _ O) in B.
  destruct (build_cells_ok tol o d T O fuel (fold_left (set_add Z.eqb) (flat_map corners (o_tris o)) [])) with (past := @nil (list Z)) (cc := dl_circumcenters d) (m := @nil (iseg * nbseg)) (pm := @nil (Point N * list Z)) (gs := gs) (cc' := cc) (m' := em) (pm' := pm) as (R & X & L & F & _).
  - apply Forall_forall. intros v Hv. apply fold_set_add_in in Hv as [[]|Hv]. eapply corner_range; eassumption.
  - apply (oo_cc _ _ _ O).
  - apply ext_refl.
  - constructor.
  - exact B.
  - split; [exact F|]. split; [exact X|]. cbn [app] in L. rewrite map_map. exact L.
Qed.
(** the points of the diagram are kept apart if the order tells all vertices apart *)
Lemma voronoi_keeps {N : Num} (tol : nT N) fuel (o : trout N) d m :
  triangulation (zlen (o_points o)) (map fst (o_edges o)) (o_tris o) -> read_output tol o = Ok d -> voronoi tol fuel d = Ok m -> keeps tol o (dl_circumcenters d) (ms_points m).
Proof.
  intros T H V. pose proof (read_output_ok tol o d T H) as O. unfold voronoi in V.
  apply bind_ok in V as ([[[gs cc] em] pm] & B & V). injection V as <-. cbn [ms_points].
  refine (proj2 (proj2 (proj2 (proj2 (build_cells_ok tol o d T O fuel (ul_list (dl_realPoints d)) _ [] _ _ _ gs cc em pm (oo_cc _ _ _ O) (ext_refl _) _ B))))).
  - apply Forall_forall. intros v Hv. rewrite (oo_real _ _ _ O) in Hv. apply (corner_range _ _ _ _ T). apply fold_set_add_in in Hv as [[]|Hv]. exact Hv.
  - constructor.
Qed.
