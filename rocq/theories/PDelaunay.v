(** Proofs about the input and output of the triangulator and the Delaunay generator. *)
From Coq Require Import Reals Lra Sorted Permutation.
From Verif Require Import Base Spec MUtil MGeom MHull MPolygon MMaps MTriangle MGen MRegion MDelaunay Bridge.
From Verif Require Import PUtil PPoint PMaps PPoly PPoly2 PTri PContains PRegion.
Open Scope Z_scope.
Local Arguments zlen : simpl never.

(** * positions *)
Section Positions.
  Context {A : Type}.
  Lemma zlen_app {B} (l1 l2 : list B) : zlen (l1 ++ l2) = zlen l1 + zlen l2.
  Proof. unfold zlen. rewrite app_length. lia. Qed.
  Lemma zlen_cons {B} (a : B) l : zlen (a :: l) = zlen l + 1.
  Proof. unfold zlen. cbn [length]. lia. Qed.
  Lemma zlen_nonneg {B} (l : list B) : 0 <= zlen l.
  Proof. unfold zlen. lia. Qed.
  Lemma zlen_map {B C} (f : B -> C) l : zlen (map f l) = zlen l.
  Proof. unfold zlen. rewrite map_length. reflexivity. Qed.

  Lemma positions_app (f : A -> bool) l1 l2 i :
    positions f (l1 ++ l2) i = positions f l1 i ++ positions f l2 (i + zlen l1).
  Proof.
    revert i; induction l1 as [|a l1 IH]; cbn; intros i.
    - f_equal. unfold zlen; cbn; lia.
    - rewrite !IH, zlen_cons. replace (i + 1 + zlen l1) with (i + (zlen l1 + 1)) by lia.
      destruct (f a); reflexivity.
  Qed.
  Lemma positions_snoc (f : A -> bool) l a i :
    positions f (l ++ [a]) i = positions f l i ++ (if f a then [i + zlen l] else []).
  Proof. rewrite positions_app. cbn. destruct (f a); reflexivity. Qed.
  Lemma positions_in (f : A -> bool) l i k : In k (positions f l i) <->
    exists n a, nth_error l n = Some a /\ f a = true /\ k = i + Z.of_nat n.
  Proof.
    revert i; induction l as [|a l IH]; intros i.
    - cbn. split; [contradiction|]. intros (n & x & H & _). destruct n; discriminate.
    - cbn [positions]. assert (S : In k (positions f l (i + 1)) <->
        exists n x, nth_error (a :: l) (S n) = Some x /\ f x = true /\ k = i + Z.of_nat (S n)).
      { rewrite IH. split; intros (n & x & H1 & H2 & H3); exists n, x; repeat split; auto; lia. }
      split.
      + intros H. assert (k = i /\ f a = true \/ In k (positions f l (i + 1))) as [[-> H1]|H1].
        { destruct (f a) eqn:E; [destruct H as [<-|H]|]; auto. }
        * exists 0%nat, a. repeat split; auto. lia.
        * apply S in H1 as (n & x & H1). exists (Datatypes.S n), x. exact H1.
      + intros (n & x & H1 & H2 & H3). destruct n as [|n].
        * injection H1 as <-. rewrite H2. left. lia.
        * assert (In k (positions f l (i + 1))) by (apply S; eauto). destruct (f a); [right|]; assumption.
  Qed.
  Lemma positions_nonneg (f : A -> bool) l i k : In k (positions f l i) -> i <= k < i + zlen l.
  Proof.
    intros H. apply positions_in in H as (n & a & H & _ & ->).
    assert (n < length l)%nat by (apply nth_error_Some; congruence). unfold zlen. lia.
  Qed.
  Lemma positions_sorted (f : A -> bool) l i : StronglySorted Z.lt (positions f l i).
  Proof.
    revert i; induction l as [|a l IH]; intros i; cbn; [constructor|].
    destruct (f a); [|apply IH]. constructor; [apply IH|]. apply Forall_forall. intros k H.
    apply positions_nonneg in H. lia.
  Qed.
  Lemma positions_ext (f g : A -> bool) l i : (forall a, In a l -> f a = g a) -> positions f l i = positions g l i.
  Proof.
    revert i; induction l as [|a l IH]; intros i H; cbn; [reflexivity|].
    rewrite (H a) by (left; reflexivity). rewrite IH by (intros; apply H; right; assumption). reflexivity.
  Qed.
  Lemma positions_map {B} (g : B -> A) (f : A -> bool) l i : positions f (map g l) i = positions (fun b => f (g b)) l i.
  Proof. revert i; induction l as [|a l IH]; intros i; cbn; [reflexivity|]. rewrite !IH. reflexivity. Qed.
End Positions.

Lemma first_or_app d l1 l2 : first_or d (l1 ++ l2) = first_or (first_or d l2) l1.
Proof. destruct l1; reflexivity. Qed.
Lemma last_or_snoc d l k : last_or d (l ++ [k]) = k.
Proof. unfold last_or. rewrite rev_app_distr. reflexivity. Qed.
Lemma last_or_nil d : last_or d [] = d.
Proof. reflexivity. Qed.

Lemma same_side_canon s s' : same_side s s' = true <-> canon s = canon s'.
Proof.
  rewrite canon_iff. unfold same_side. destruct s as [a b], s' as [c d]. cbn [fst snd].
  rewrite orb_true_iff, !andb_true_iff, !Z.eqb_eq. split.
  - intros [[-> ->]|[-> ->]]; auto.
  - intros [E|E]; injection E as -> ->; auto.
Qed.
Lemma same_side_key s s' : same_side s s' = key_eqb s s'.
Proof. reflexivity. Qed.
Lemma same_side_iseg s s' : same_side s s' = iseg_eqb s s'.
Proof. apply eq_true_iff_eq. rewrite same_side_canon, iseg_eqb_iff. reflexivity. Qed.
Lemma same_side_refl s : same_side s s = true.
Proof. apply same_side_canon. reflexivity. Qed.
Lemma same_side_sym s s' : same_side s s' = same_side s' s.
Proof. apply eq_true_iff_eq. rewrite !same_side_canon. split; congruence. Qed.
Lemma same_side_trans a b c : same_side a b = true -> same_side b c = true -> same_side a c = true.
Proof. rewrite !same_side_canon. congruence. Qed.
Lemma same_side_cong a b c : same_side a b = true -> same_side a c = same_side b c.
Proof. intros H. apply eq_true_iff_eq. apply same_side_canon in H. rewrite !same_side_canon. split; congruence. Qed.
Lemma has_side_cong a b t : same_side a b = true -> has_side a t = has_side b t.
Proof.
  intros H. unfold has_side. induction (sides t) as [|s l IH]; cbn; [reflexivity|].
  rewrite IH, (same_side_cong a b s H). reflexivity.
Qed.

Lemma Forall2_len {A B} (R : A -> B -> Prop) l l' : Forall2 R l l' -> length l = length l'.
Proof. induction 1; cbn; congruence. Qed.

(** * Updating one position *)
Lemma vupd_ok {A} (l l' : list A) i f : vupd l i f = Ok l' <->
  0 <= i < zlen l /\ l' = upd_nth (Z.to_nat i) f l.
Proof.
  unfold vupd. destruct (vget l i) as [a|e] eqn:E; cbn.
  - assert (0 <= i < zlen l) by (apply vget_range; eauto). split; [intros H1; injection H1 as <-; auto|].
    intros [_ ->]. reflexivity.
  - split; [discriminate|]. intros [H _]. apply vget_range in H as [a H]. congruence.
Qed.
Lemma upd_nth_error {A} n f (l : list A) k :
  nth_error (upd_nth n f l) k = if Nat.eqb n k then option_map f (nth_error l k) else nth_error l k.
Proof.
  destruct (Nat.eqb_spec n k) as [->|H]; [|apply upd_nth_other; assumption].
  destruct (nth_error l k) eqn:E; cbn; [apply upd_nth_same; assumption|].
  apply nth_error_None. rewrite upd_nth_length. apply nth_error_None. assumption.
Qed.

Section Reading.
  Context {N : Num}.
  Notation Point := (Point N).

  (** ** Edges *)
  Definition edges_ok (edges : list (Z * Z * Z)) (n : nat) (st : list edge * umap key Z * list pdata) : Prop :=
    let '(es, em, pd) := st in
    es = map (fun e => edge_new (fst (fst e)) (snd (fst e))) edges /\
    (forall s, um_find key_eqb s em = hd_error (positions (same_side s) (map fst edges) 0)) /\
    length pd = n /\ (forall i, (i < n)%nat -> nth_error pd i = Some (mkPD (Z.of_nat i) (start_edge edges (Z.of_nat i)))).

  Lemma start_edge_snoc edges e i :
    start_edge (edges ++ [e]) i =
    if touches i (fst e) then
      if ((start_edge edges i =? -1) || (snd e =? 1))%bool then zlen edges else start_edge edges i
    else start_edge edges i.
  Proof.
    unfold start_edge. rewrite !positions_snoc. rewrite !Z.add_0_l.
    destruct (touches i (fst e)) eqn:T; cbn [andb]; [|rewrite !app_nil_r; reflexivity].
    set (bs := positions (fun e => touches i (fst e) && (snd e =? 1)) edges 0).
    set (ps := positions (fun e => touches i (fst e)) edges 0).
    assert (Hb : forall k, In k bs -> 0 <= k) by (intros k H; apply positions_nonneg in H; lia).
    assert (Hp : forall k, In k ps -> 0 <= k) by (intros k H; apply positions_nonneg in H; lia).
    destruct (snd e =? 1) eqn:E1; [rewrite orb_true_r; apply last_or_snoc|].
    rewrite app_nil_r, orb_false_r, first_or_app.
    unfold last_or. destruct (rev bs) as [|k r] eqn:Er; cbn [first_or].
    - assert (bs = []) as -> by (rewrite <- (rev_involutive bs), Er; reflexivity).
      destruct ps as [|k ps']; cbn; [reflexivity|].
      specialize (Hp k (or_introl eq_refl)). destruct (Z.eqb_spec k (-1)); [lia|reflexivity].
    - assert (In k bs) as Hk by (rewrite <- (rev_involutive bs), Er, <- in_rev; left; reflexivity).
      specialize (Hb k Hk). destruct (Z.eqb_spec k (-1)); [lia|reflexivity].
  Qed.

  Lemma um_find_insert (k s : key) v (m : umap key Z) :
    um_find key_eqb s (um_insert key_eqb k v m) =
    match um_find key_eqb s m with Some x => Some x | None => if same_side s k then Some v else None end.
  Proof.
    unfold um_insert. assert (T : forall a b c, key_eqb a b = true -> key_eqb a c = key_eqb b c).
    { intros a b c. rewrite <- !same_side_key. apply same_side_cong. }
    destruct (um_find key_eqb k m) as [x|] eqn:E.
    - destruct (um_find key_eqb s m) as [y|] eqn:E2; [reflexivity|].
      destruct (same_side s k) eqn:S; [|reflexivity]. exfalso.
      rewrite (um_find_ext key_eqb key_eqb k s m) in E; [congruence|].
      intros k'. change (same_side k' k = same_side k' s). rewrite !(same_side_sym k'). symmetry. apply same_side_cong. assumption.
    - unfold um_add. clear E. induction m as [|[k' v'] m IH]; cbn.
      + rewrite <- same_side_key, same_side_sym. reflexivity.
      + destruct (key_eqb k' s); [reflexivity|]. apply IH.
  Qed.

  Lemma read_edge_ok edges n st e st' : edges_ok edges n st -> read_edge st e = Ok st' -> edges_ok (edges ++ [e]) n st'.
  Proof.
    destruct st as [[es em] pd], e as [[a b] m]. intros (He & Hm & Hl & Hp) H. cbn in H.
    inv_ok H. apply vupd_ok in E as [Ra ->]. apply vupd_ok in E0 as [Rb ->]. injection H as <-.
    cbn. subst es. rewrite !map_app. cbn [map fst snd]. repeat split.
    - intros s. rewrite um_find_insert, Hm. rewrite positions_snoc, zlen_map, Z.add_0_l.
      destruct (positions (same_side s) (map fst edges) 0) as [|k l] eqn:Ep; cbn [hd_error app]; [|reflexivity].
      destruct (same_side s (a, b)); [|reflexivity]. cbn. rewrite zlen_map. reflexivity.
    - rewrite !upd_nth_length. assumption.
    - intros i Hi. rewrite !upd_nth_error, (Hp i Hi), start_edge_snoc. cbn [fst snd].
      unfold zlen in Ra, Rb. rewrite upd_nth_length in Rb.
      unfold touches. cbn [fst snd].
      assert (Ea : Nat.eqb (Z.to_nat a) i = (a =? Z.of_nat i)).
      { destruct (Nat.eqb_spec (Z.to_nat a) i); destruct (Z.eqb_spec a (Z.of_nat i)); try reflexivity; lia. }
      assert (Eb : Nat.eqb (Z.to_nat b) i = (b =? Z.of_nat i)).
      { destruct (Nat.eqb_spec (Z.to_nat b) i); destruct (Z.eqb_spec b (Z.of_nat i)); try reflexivity; lia. }
      rewrite Ea, Eb. rewrite zlen_map.
      destruct (a =? Z.of_nat i); destruct (b =? Z.of_nat i); cbn [orb option_map]; unfold pdata_setEdge; cbn [pd_edge pd_point];
        try (destruct ((start_edge edges (Z.of_nat i) =? -1) || (m =? 1))%bool eqn:E; reflexivity); try reflexivity.
      destruct ((start_edge edges (Z.of_nat i) =? -1) || (m =? 1))%bool eqn:E; cbn [pd_edge pd_point].
      + destruct ((zlen edges =? -1) || (m =? 1))%bool; reflexivity.
      + rewrite E. reflexivity.
  Qed.

  Lemma foldM_snoc {A B} (f : B -> A -> res B) l a b b' : foldM f (l ++ [a]) b = Ok b' ->
    exists b1, foldM f l b = Ok b1 /\ f b1 a = Ok b'.
  Proof.
    rewrite foldM_app. intros H. inv_ok H. exists v. split; [assumption|]. cbn in H. inv_ok H.
    injection H as <-. assumption.
  Qed.

  (** induction over the processed prefix *)
  Lemma foldM_prefix {A B} (f : B -> A -> res B) (Inv : list A -> B -> Prop) l b b' :
    Inv [] b -> (forall pre a c c', incl (pre ++ [a]) l -> Inv pre c -> f c a = Ok c' -> Inv (pre ++ [a]) c') ->
    foldM f l b = Ok b' -> Inv l b'.
  Proof.
    intros H0 HS. revert b'. 
    assert (G : forall pre, incl pre l -> forall c, foldM f pre b = Ok c -> Inv pre c).
    { induction pre as [|a pre IH] using rev_ind; intros Hi c H.
      - cbn in H. injection H as <-. assumption.
      - apply foldM_snoc in H as (c1 & H1 & H2). eapply HS; eauto. apply IH; auto.
        intros x Hx. apply Hi, in_or_app. auto. }
    intros b' H. apply G; [apply incl_refl|assumption].
  Qed.

  Lemma foldM_prefix_total {A B} (f : B -> A -> res B) (Inv : list A -> B -> Prop) l b :
    Inv [] b -> (forall pre a c, incl (pre ++ [a]) l -> Inv pre c -> exists c', f c a = Ok c' /\ Inv (pre ++ [a]) c') ->
    exists b', foldM f l b = Ok b' /\ Inv l b'.
  Proof.
    intros H0 HS.
    assert (G : forall pre, incl pre l -> exists c, foldM f pre b = Ok c /\ Inv pre c).
    { induction pre as [|a pre IH] using rev_ind; intros Hi.
      - exists b. split; [reflexivity|assumption].
      - destruct IH as (c & H1 & H2); [intros x Hx; apply Hi, in_or_app; auto|].
        destruct (HS pre a c Hi H2) as (c' & H3 & H4). exists c'. split; [|assumption].
        rewrite foldM_app, H1. cbn. rewrite H3. reflexivity. }
    apply G. apply incl_refl.
  Qed.

  Definition pd0 (n : nat) : list pdata := map (fun i => pdata_new (Z.of_nat i)) (seq 0 n).
  Lemma edges_ok_init n : edges_ok [] n ([], [], pd0 n).
  Proof.
    cbn. repeat split; [unfold pd0; rewrite map_length, seq_length; reflexivity|].
    intros i Hi. unfold pd0. rewrite nth_error_map. rewrite (nth_error_nth' _ 0%nat) by (rewrite seq_length; assumption).
    rewrite seq_nth by assumption. reflexivity.
  Qed.

  Lemma read_edges_ok edges n st : foldM read_edge edges ([], [], pd0 n) = Ok st -> edges_ok edges n st.
  Proof.
    apply (foldM_prefix read_edge (fun pre st => edges_ok pre n st)); [apply edges_ok_init|].
    intros. eapply read_edge_ok; eauto.
  Qed.

  Lemma read_edges_total edges n : (forall a b m, In (a, b, m) edges -> 0 <= a < Z.of_nat n /\ 0 <= b < Z.of_nat n) ->
    exists st, foldM read_edge edges ([], [], pd0 n) = Ok st /\ edges_ok edges n st.
  Proof.
    intros HR. apply (foldM_prefix_total read_edge (fun pre st => edges_ok pre n st)); [apply edges_ok_init|].
    intros pre [[a b] m] [[es em] pd] Hi Hok. pose proof Hok as (_ & _ & Hl & _).
    destruct (HR a b m) as [Ra Rb]; [apply Hi, in_or_app; right; left; reflexivity|].
    cbn. assert (H1 : vupd pd a (pdata_setEdge (zlen es) m) = Ok (upd_nth (Z.to_nat a) (pdata_setEdge (zlen es) m) pd)).
    { apply vupd_ok. unfold zlen. rewrite Hl. auto. }
    assert (H2 : forall l, length l = n -> vupd l b (pdata_setEdge (zlen es) m) = Ok (upd_nth (Z.to_nat b) (pdata_setEdge (zlen es) m) l)).
    { intros l Hll. apply vupd_ok. unfold zlen. rewrite Hll. auto. }
    rewrite H1. cbn. rewrite H2 by (rewrite upd_nth_length; assumption). cbn.
    eexists. split; [reflexivity|]. eapply (read_edge_ok pre n (es, em, pd) (a, b, m)); [exact Hok|].
    cbn. rewrite H1. cbn. rewrite H2 by (rewrite upd_nth_length; assumption). reflexivity.
  Qed.

  (** ** Circumcenter list: indices stay in range whatever the order does *)
  (** every entry of the map locates its key in the list *)
  Definition ul_ranged {A} (u : ulist A) : Prop := Forall (fun kv => 0 <= snd kv /\ nth_error (ul_list u) (Z.to_nat (snd kv)) = Some (fst kv)) (ul_map u).
  Lemma nth_error_range {A} (l : list A) i x : 0 <= i -> nth_error l (Z.to_nat i) = Some x -> 0 <= i < zlen l.
  Proof. intros Hi H. assert (Z.to_nat i < length l)%nat by (apply nth_error_Some; congruence). unfold zlen. lia. Qed.
  Lemma om_upper_before {K V} (lt : K -> K -> bool) x (m a b : omap K V) : om_upper lt x m = (a, b) -> Forall (fun kv => lt x (fst kv) = false) a.
  Proof.
    revert a b; induction m as [|[k v] m IH]; cbn; intros a b H; [injection H as <- <-; constructor|].
    destruct (lt x k) eqn:E; [injection H as <- <-; constructor|].
    destruct (om_upper lt x m) as [a' b'] eqn:E2. injection H as <- <-. constructor; [assumption|]. eapply IH. reflexivity.
  Qed.
  Lemma om_upper_split {K V} (lt : K -> K -> bool) x (m a b : omap K V) : om_upper lt x m = (a, b) -> m = a ++ b.
  Proof.
    revert a b; induction m as [|[k v] m IH]; cbn; intros a b H; [injection H as <- <-; reflexivity|].
    destruct (lt x k); [injection H as <- <-; reflexivity|].
    destruct (om_upper lt x m) as [a' b'] eqn:E. injection H as <- <-. cbn. f_equal. apply IH. reflexivity.
  Qed.
  Lemma ul_push_ranged {A} (lt : A -> A -> bool) (u u' : ulist A) x i : ul_ranged u -> ul_push_back lt u x = (u', i) ->
    ul_ranged u' /\ (0 <= i /\ exists y, nth_error (ul_list u') (Z.to_nat i) = Some y /\ stands_for lt y x) /\
    (u' = u \/ (ul_list u' = ul_list u ++ [x] /\ i = zlen (ul_list u))).
  Proof.
    unfold ul_push_back. intros R H. destruct (om_upper lt x (ul_map u)) as [a b] eqn:E.
    pose proof (om_upper_before _ _ _ _ _ E) as EB. apply om_upper_split in E.
    pose proof (zlen_nonneg (ul_list u)) as NN.
    assert (F : ul_ranged (mkUL (ul_list u ++ [x]) (a ++ (x, zlen (ul_list u)) :: b)) /\
      (0 <= zlen (ul_list u) /\ exists y, nth_error (ul_list u ++ [x]) (Z.to_nat (zlen (ul_list u))) = Some y /\ stands_for lt y x)).
    { assert (L : nth_error (ul_list u ++ [x]) (Z.to_nat (zlen (ul_list u))) = Some x).
      { unfold zlen. rewrite Nat2Z.id, nth_error_app2, Nat.sub_diag by lia. reflexivity. }
      split; [|split; [assumption|exists x; split; [assumption|left; reflexivity]]].
      unfold ul_ranged in *. cbn [ul_list ul_map]. rewrite E in R. apply Forall_app in R as [R1 R2].
      assert (M : forall kv : A * Z, 0 <= snd kv /\ nth_error (ul_list u) (Z.to_nat (snd kv)) = Some (fst kv) ->
        0 <= snd kv /\ nth_error (ul_list u ++ [x]) (Z.to_nat (snd kv)) = Some (fst kv)).
      { intros kv [M1 M2]. split; [assumption|]. rewrite nth_error_app1; [assumption|]. apply nth_error_Some. congruence. }
      apply Forall_app. split; [exact (Forall_impl _ M R1)|]. constructor; [cbn; auto|]. exact (Forall_impl _ M R2). }
    destruct (rev a) as [|[k v] r] eqn:Er.
    - injection H as <- <-. destruct F. cbn. auto.
    - destruct (lt k x) eqn:El; injection H as <- <-.
      + destruct F. cbn. auto.
      + split; [assumption|]. split; [|auto]. unfold ul_ranged in R. rewrite E in R. apply Forall_app in R as [R _].
        assert (Hin : In (k, v) a) by (apply in_rev; rewrite Er; left; reflexivity).
        rewrite Forall_forall in R, EB. destruct (R _ Hin) as [R1 R2]. specialize (EB _ Hin). cbn in *.
        split; [assumption|]. exists k. split; [assumption|]. right. auto.
  Qed.

  (** ** Triangles *)
  (** what the k-th edge records after the triangles [tris] *)
  Definition edge_after (tris : list (Z * Z * Z)) (e : Z * Z * Z) : edge :=
    mkEdge (fst (fst e)) (snd (fst e)) (first_or (-1) (incident tris (fst e))) (last_or (-1) (tl (incident tris (fst e)))).

  Definition tri_read (tol : nT N) (mp : list Point) (cs : ulist Point) (t : Z * Z * Z) (tr : triangle N) : Prop :=
    pg_points (tr_poly tr) = corners t /\
    exists A B C c i, vertices_are mp (corners t) [A; B; C] /\ circumcenter A B C = Ok c /\
      tr_cc tr = Ok c /\ tr_cci tr = Some i /\ 0 <= i /\ exists y, nth_error (ul_list cs) (Z.to_nat i) = Some y /\ stands_for (pt_ltb tol) y c.

  Definition tris_ok (tol : nT N) (mp : list Point) (edges : list (Z * Z * Z)) (pre : list (Z * Z * Z))
      (st : list (triangle N) * ulist Z * ulist Point * list edge) : Prop :=
    let '(ts, rp, cs, es) := st in
    Forall2 (tri_read tol mp cs) pre ts /\
    ul_inv (fun _ => True) zltb rp /\ ul_list rp = fold_left (set_add Z.eqb) (flat_map corners pre) [] /\
    es = map (edge_after pre) edges /\ ul_ranged cs.

  Lemma zltb_equiv a b : equivb zltb a b = (a =? b).
  Proof. unfold equivb, zltb. destruct (Z.ltb_spec a b); destruct (Z.ltb_spec b a); destruct (Z.eqb_spec a b); cbn; lia || reflexivity. Qed.
  Lemma push_zset u x : ul_inv (fun _ => True) zltb u ->
    ul_inv (fun _ => True) zltb (fst (ul_push_back zltb u x)) /\
    ul_list (fst (ul_push_back zltb u x)) = set_add Z.eqb (ul_list u) x.
  Proof.
    intros I. destruct (ul_push_back_set (fun _ => True) zltb zltb_swo u x I Logic.I) as [H1 H2].
    split; [exact H1|]. rewrite H2. unfold set_add, set_mem.
    replace (existsb (equivb zltb x) (ul_list u)) with (existsb (Z.eqb x) (ul_list u)); [reflexivity|].
    clear H1 H2 I. induction (ul_list u) as [|y l IH]; cbn; [reflexivity|]. rewrite IH, zltb_equiv. reflexivity.
  Qed.

  Lemma in_incident tris s k : In k (incident tris s) <-> exists n t, nth_error tris n = Some t /\ has_side s t = true /\ k = Z.of_nat n.
  Proof. unfold incident. rewrite positions_in. split; intros (n & t & H); exists n, t; exact H. Qed.

  Lemma edge_after_snoc pre t e :
    edge_after (pre ++ [t]) e =
    (if has_side (fst e) t then edge_setTriangle (zlen pre) else fun x => x) (edge_after pre e).
  Proof.
    unfold edge_after, incident. rewrite positions_snoc, Z.add_0_l.
    destruct (has_side (fst e) t); [|rewrite app_nil_r; reflexivity].
    destruct (positions (has_side (fst e)) pre 0) as [|k l] eqn:E; cbn [app].
    - reflexivity.
    - assert (0 <= k) by (assert (In k (positions (has_side (fst e)) pre 0)) as H by (rewrite E; left; reflexivity); apply positions_nonneg in H; lia).
      unfold edge_setTriangle. cbn [e_t1 first_or]. destruct (Z.eqb_spec k (-1)); [lia|]. cbn [e_p1 e_p2 tl first_or].
      rewrite last_or_snoc. reflexivity.
  Qed.

  Lemma find_edge em (edges : list (Z * Z * Z)) s : (forall s, um_find key_eqb s em = hd_error (positions (same_side s) (map fst edges) 0)) ->
    forall n tris, triangulation n (map fst edges) tris ->
    (exists s', In s' (map fst edges) /\ same_side s s' = true) ->
    exists k e, edgeMap_get em (fst s) (snd s) = Z.of_nat k /\ nth_error edges k = Some e /\ same_side s (fst e) = true /\
      forall j e', nth_error edges j = Some e' -> (same_side s (fst e') = true <-> j = k).
  Proof.
    intros Hm n tris T (s' & H1 & H2). unfold edgeMap_get. rewrite <- surjective_pairing, Hm.
    destruct (positions (same_side s) (map fst edges) 0) as [|k l] eqn:E.
    - apply In_nth_error in H1 as [j Hj].
      assert (In (Z.of_nat j) (positions (same_side s) (map fst edges) 0)) as H by (apply positions_in; exists j, s'; auto).
      rewrite E in H. destruct H.
    - assert (In k (positions (same_side s) (map fst edges) 0)) as H by (rewrite E; left; reflexivity).
      apply positions_in in H as (j & s1 & Hj & Hs & ->). rewrite Z.add_0_l. cbn.
      rewrite nth_error_map in Hj. destruct (nth_error edges j) as [e|] eqn:Ee; [|discriminate]. injection Hj as <-.
      exists j, e. repeat split; auto.
      + intros H3. apply (tg_once _ _ _ T j0 j (fst e') (fst e)).
        * rewrite nth_error_map, H. reflexivity.
        * rewrite nth_error_map, Ee. reflexivity.
        * apply (same_side_trans _ s); [rewrite same_side_sym|]; assumption.
      + intros ->. rewrite Ee in H. injection H as <-. assumption.
  Qed.

  (** the three updates of the edges of a triangle *)
  Lemma three_updates (edges : list (Z * Z * Z)) tris n em pre t i1 i2 i3 :
    (forall s, um_find key_eqb s em = hd_error (positions (same_side s) (map fst edges) 0)) ->
    triangulation n (map fst edges) tris -> In t tris ->
    i1 = edgeMap_get em (fst (fst t)) (snd (fst t)) -> i2 = edgeMap_get em (snd (fst t)) (snd t) ->
    i3 = edgeMap_get em (snd t) (fst (fst t)) ->
    (e1 <- vupd (map (edge_after pre) edges) i1 (edge_setTriangle (zlen pre)) ;;
     e2 <- vupd e1 i2 (edge_setTriangle (zlen pre)) ;; vupd e2 i3 (edge_setTriangle (zlen pre))) =
    Ok (map (edge_after (pre ++ [t])) edges).
  Proof.
    intros Hm T Ht. destruct t as [[a b] c]. cbn [fst snd]. intros E1 E2 E3.
    pose proof (tg_corners _ _ _ T _ Ht) as ND. cbn in ND.
    pose proof (fun s Hs => find_edge em edges s Hm n tris T (tg_sides _ _ _ T (a, b, c) s Ht Hs)) as F.
    destruct (F (a, b)) as (k1 & x1 & F1 & N1 & S1 & U1); [cbn; auto|].
    destruct (F (b, c)) as (k2 & x2 & F2 & N2 & S2 & U2); [cbn; auto|].
    destruct (F (c, a)) as (k3 & x3 & F3 & N3 & S3 & U3); [cbn; auto|].
    cbn [fst snd] in *. rewrite F1 in E1. rewrite F2 in E2. rewrite F3 in E3. subst i1 i2 i3. clear F.
    assert (a <> b /\ b <> c /\ c <> a) as (D1 & D2 & D3).
    { inversion_clear ND as [|? ? H1 H2]. inversion_clear H2 as [|? ? H3 H4]. cbn in H1, H3. intuition. }
    assert (X : forall s s' k x, nth_error edges k = Some x -> same_side s (fst x) = true -> same_side s' (fst x) = true -> same_side s s' = true).
    { intros s s' k x _ H1 H2. apply (same_side_trans _ (fst x)); [|rewrite same_side_sym]; assumption. }
    assert (K12 : k1 <> k2).
    { intros ->. rewrite N1 in N2. injection N2 as <-. pose proof (X _ _ _ _ N1 S1 S2) as H.
      unfold same_side in H. cbn [fst snd] in H. lia. }
    assert (K23 : k2 <> k3).
    { intros ->. rewrite N2 in N3. injection N3 as <-. pose proof (X _ _ _ _ N2 S2 S3) as H.
      unfold same_side in H. cbn [fst snd] in H. lia. }
    assert (K13 : k1 <> k3).
    { intros ->. rewrite N1 in N3. injection N3 as <-. pose proof (X _ _ _ _ N1 S1 S3) as H.
      unfold same_side in H. cbn [fst snd] in H. lia. }
    assert (L : forall k x, nth_error edges k = Some x -> 0 <= Z.of_nat k < Z.of_nat (length edges)).
    { intros k x H. assert (k < length edges)%nat by (apply nth_error_Some; congruence). lia. }
    set (f := edge_setTriangle (zlen pre)).
    assert (V1 : vupd (map (edge_after pre) edges) (Z.of_nat k1) f = Ok (upd_nth k1 f (map (edge_after pre) edges))).
    { apply vupd_ok. rewrite Nat2Z.id. unfold zlen. rewrite map_length. split; [eapply L; eassumption|reflexivity]. }
    rewrite V1. cbn [bind].
    assert (V2 : vupd (upd_nth k1 f (map (edge_after pre) edges)) (Z.of_nat k2) f = Ok (upd_nth k2 f (upd_nth k1 f (map (edge_after pre) edges)))).
    { apply vupd_ok. rewrite Nat2Z.id. unfold zlen. rewrite upd_nth_length, map_length. split; [eapply L; eassumption|reflexivity]. }
    rewrite V2. cbn [bind]. apply vupd_ok. rewrite Nat2Z.id. unfold zlen. rewrite !upd_nth_length, map_length.
    split; [eapply L; eassumption|].
    apply nth_error_ext. intros k. rewrite !upd_nth_error, !nth_error_map.
    destruct (nth_error edges k) as [e|] eqn:Ee; [|cbn; destruct (Nat.eqb k3 k), (Nat.eqb k2 k), (Nat.eqb k1 k); reflexivity].
    cbn [option_map]. rewrite edge_after_snoc. fold f.
    assert (HS : has_side (fst e) (a, b, c) = (Nat.eqb k1 k || (Nat.eqb k2 k || Nat.eqb k3 k))%bool).
    { unfold has_side, sides. cbn [existsb]. rewrite orb_false_r.
      rewrite (same_side_sym _ (a, b)), (same_side_sym _ (b, c)), (same_side_sym _ (c, a)).
      specialize (U1 k e Ee). specialize (U2 k e Ee). specialize (U3 k e Ee).
      apply eq_true_iff_eq. rewrite !orb_true_iff, !Nat.eqb_eq, U1, U2, U3. intuition. }
    rewrite HS. destruct (Nat.eqb_spec k1 k), (Nat.eqb_spec k2 k), (Nat.eqb_spec k3 k); cbn [orb option_map]; try reflexivity; congruence.
  Qed.

  Lemma tri_vertices_are (mp : list Point) a b c A B C : tri_vertices [a; b; c] mp = Ok (A, B, C) <-> vertices_are mp [a; b; c] [A; B; C].
  Proof.
    unfold tri_vertices, vpt, vertices_are. cbn. split.
    - intros H. inv_ok H. injection H as <- <- <-. apply vget_ok in E, E0, E1. do 3 (constructor; [assumption|]). constructor.
    - intros H. inversion_clear H as [|? ? ? ? H1 H2]. inversion_clear H2 as [|? ? ? ? H3 H4]. inversion_clear H4 as [|? ? ? ? H5 H6].
      apply vget_ok in H1, H3, H5. rewrite H1, H3, H5. reflexivity.
  Qed.

  Lemma read_tri_char tol (mp : list Point) em (edges : list (Z * Z * Z)) tris n pre t st st' :
    (forall s, um_find key_eqb s em = hd_error (positions (same_side s) (map fst edges) 0)) ->
    triangulation n (map fst edges) tris -> In t tris ->
    tris_ok tol mp edges pre st -> read_tri tol mp em st t = Ok st' -> tris_ok tol mp edges (pre ++ [t]) st'.
  Proof.
    intros Hm T Ht. destruct st as [[[ts rp] cs] es], t as [[a b] c]. intros (HF & HI & HL & HE & HR) H.
    unfold read_tri in H. cbn zeta in H. inv_ok H. destruct v as [tr cs']. inv_ok H. injection H as <-.
    assert (Hz : zlen ts = zlen pre) by (unfold zlen; f_equal; symmetry; eapply Forall2_len; eassumption).
    assert (HU : v1 = map (edge_after (pre ++ [(a, b, c)])) edges).
    { pose proof (three_updates edges tris n em pre (a, b, c) _ _ _ Hm T Ht eq_refl eq_refl eq_refl) as U. cbn [fst snd] in U.
      subst es. rewrite Hz in E0, E1, E2. rewrite E0 in U. cbn [bind] in U. rewrite E1 in U. cbn [bind] in U. rewrite E2 in U. injection U as ->. reflexivity. }
    unfold triangle_ctor_ul in E. inv_ok E. destruct v3 as [[A B] C]. inv_ok E.
    destruct (ul_push_back (pt_ltb tol) cs v3) as [cs1 i] eqn:Ep. injection E as <- <-.
    destruct (ul_push_ranged _ _ _ _ _ HR Ep) as (R1 & R2 & R3).
    assert (Hlen : forall n y, nth_error (ul_list cs) n = Some y -> nth_error (ul_list cs1) n = Some y).
    { intros n0 y Hn. destruct R3 as [->|[-> _]]; [assumption|]. rewrite nth_error_app1; [assumption|]. apply nth_error_Some. congruence. }
    unfold tris_ok. split; [|split; [|split; [|split]]].
    - apply Forall2_app.
      + eapply Forall2_impl; [|exact HF]. intros t tr (P1 & A' & B' & C' & c' & i' & P2 & P3 & P4 & P5 & P6 & y & P7 & P8).
        split; [assumption|]. exists A', B', C', c', i'. repeat (split; [assumption|]). eauto.
      + constructor; [|constructor]. split; cbn [tr_poly].
        * rewrite ctor_idx_ok in E3. injection E3 as <-. reflexivity.
        * exists A, B, C, v3, i. cbn. split; [apply tri_vertices_are; assumption|]. auto.
    - apply push_zset, push_zset, push_zset. assumption.
    - destruct (push_zset rp a HI) as [I1 L1]. destruct (push_zset _ b I1) as [I2 L2]. destruct (push_zset _ c I2) as [I3 L3].
      rewrite L3, L2, L1, HL, flat_map_app, fold_left_app. reflexivity.
    - assumption.
    - assumption.
  Qed.
End Reading.

Section Output.
  Context {N : Num}.
  Notation Point := (Point N).

  Lemma tris_ok_init tol (mp : list Point) edges : tris_ok tol mp edges [] ([], ul_empty, ul_empty, map (fun e => edge_new (fst (fst e)) (snd (fst e))) edges).
  Proof. cbn. split; [constructor|]. split; [apply ul_inv_empty|]. split; [reflexivity|]. split; [reflexivity|constructor]. Qed.

  Record output_ok (tol : nT N) (o : trout N) (d : delaunay N) : Prop := {
    oo_tris : Forall2 (tri_read tol (dl_meshPoints d) (dl_circumcenters d)) (o_tris o) (dl_triangles d);
    oo_points : dl_meshPoints d = map read_point (o_points o);
    oo_edges : dl_edges d = map (edge_after (o_tris o)) (o_edges o);
    oo_data : dl_points d = map (fun i => mkPD (Z.of_nat i) (start_edge (o_edges o) (Z.of_nat i))) (seq 0 (length (o_points o)));
    oo_real : ul_list (dl_realPoints d) = fold_left (set_add Z.eqb) (flat_map corners (o_tris o)) [];
    oo_find : forall s, um_find key_eqb s (dl_edgeMap d) = hd_error (positions (same_side s) (map fst (o_edges o)) 0);
    oo_cc : ul_ranged (dl_circumcenters d);
    oo_map : dl_delaunayEdges d = delaunay_edges (dl_edges d)
  }.

  Lemma read_output_ok tol (o : trout N) d :
    triangulation (zlen (o_points o)) (map fst (o_edges o)) (o_tris o) -> read_output tol o = Ok d -> output_ok tol o d.
  Proof.
    intros T H. unfold read_output in H. cbn zeta in H. inv_ok H. destruct v as [[es em] pd]. inv_ok H.
    destruct v as [[[ts rp] cs] es']. injection H as <-.
    apply read_edges_ok in E as (H1 & H2 & H3 & H4). subst es.
    assert (K : tris_ok tol (map read_point (o_points o)) (o_edges o) (o_tris o) (ts, rp, cs, es')).
    { revert E0. apply (foldM_prefix (read_tri tol (map read_point (o_points o)) em) (tris_ok tol (map read_point (o_points o)) (o_edges o))); [apply tris_ok_init|].
      intros pre t c c' Hi HI HR. eapply read_tri_char; eauto. apply Hi, in_or_app. right. left. reflexivity. }
    destruct K as (K1 & K2 & K3 & K4 & K5).
    constructor; cbn; auto.
    apply nth_error_ext. intros i. destruct (Nat.lt_ge_cases i (length (o_points o))) as [L|L].
    - rewrite H4 by assumption. rewrite nth_error_map, (nth_error_nth' _ 0%nat) by (rewrite seq_length; assumption).
      rewrite seq_nth by assumption. reflexivity.
    - rewrite (proj2 (nth_error_None pd i)) by lia. symmetry. apply nth_error_None. rewrite map_length, seq_length. assumption.
  Qed.

  Lemma delaunay_edges_snoc es e s :
    um_find iseg_eqb s (delaunay_edges (es ++ [e])) =
    if iseg_eqb (e_p1 e, e_p2 e) s then Some (nb_two (e_t1 e) (e_t2 e)) else um_find iseg_eqb s (delaunay_edges es).
  Proof.
    unfold delaunay_edges. rewrite fold_left_app. cbn [fold_left].
    set (m := fold_left _ es _). unfold sm_put.
    assert (TR : forall a b c : iseg, iseg_eqb a b = true -> iseg_eqb a c = iseg_eqb b c) by apply iseg_eqb_trans.
    destruct (um_find iseg_eqb (e_p1 e, e_p2 e) m) as [n|] eqn:E.
    - rewrite um_find_update; [|apply iseg_eqb_trans|apply iseg_eqb_sym].
      destruct (iseg_eqb (e_p1 e, e_p2 e) s) eqn:Es; [|reflexivity].
      rewrite (um_find_ext iseg_eqb iseg_eqb s (e_p1 e, e_p2 e) m), E; [reflexivity|].
      intros k. rewrite !(iseg_eqb_sym k). symmetry. apply iseg_eqb_trans. assumption.
    - rewrite um_find_add. destruct (iseg_eqb (e_p1 e, e_p2 e) s) eqn:Es.
      + rewrite (um_find_ext iseg_eqb iseg_eqb s (e_p1 e, e_p2 e) m), E; [reflexivity|].
        intros k. rewrite !(iseg_eqb_sym k). symmetry. apply iseg_eqb_trans. assumption.
      + destruct (um_find iseg_eqb s m); reflexivity.
  Qed.

  Lemma delaunay_edges_find es s e :
    (forall i j a b, nth_error es i = Some a -> nth_error es j = Some b -> same_side (e_p1 a, e_p2 a) (e_p1 b, e_p2 b) = true -> i = j) ->
    In e es -> same_side s (e_p1 e, e_p2 e) = true -> um_find iseg_eqb s (delaunay_edges es) = Some (nb_two (e_t1 e) (e_t2 e)).
  Proof.
    induction es as [|x es IH] using rev_ind; intros U Hin Hs; [destruct Hin|].
    rewrite delaunay_edges_snoc. rewrite <- same_side_iseg. destruct (same_side (e_p1 x, e_p2 x) s) eqn:Ex.
    - pose proof (same_side_trans _ _ _ Ex Hs) as Hxe. apply In_nth_error in Hin as [k Hk].
      assert (nth_error (es ++ [x]) (length es) = Some x) as Hx by (rewrite nth_error_app2, Nat.sub_diag by lia; reflexivity).
      pose proof (U _ _ _ _ Hx Hk Hxe) as <-. congruence.
    - apply IH; auto.
      + intros i j a b Ha Hb. apply (U i j); [rewrite nth_error_app1|rewrite nth_error_app1]; try assumption; apply nth_error_Some; congruence.
      + apply in_app_or in Hin as [Hin|[->|[]]]; [assumption|]. rewrite same_side_sym in Ex. congruence.
  Qed.

  Lemma edges_record tol (o : trout N) d :
    triangulation (zlen (o_points o)) (map fst (o_edges o)) (o_tris o) -> read_output tol o = Ok d ->
    dl_edges d = map (fun e => mkEdge (fst (fst e)) (snd (fst e)) (first_or (-1) (incident (o_tris o) (fst e)))
                                      (last_or (-1) (tl (incident (o_tris o) (fst e))))) (o_edges o) /\
    (forall nb s e, In e (o_edges o) -> same_side s (fst e) = true ->
       sm_get (iseg_match nb) (dl_delaunayEdges d) s =
       (dl_delaunayEdges d, mkNb (Some (first_or (-1) (incident (o_tris o) (fst e)))) (last_or (-1) (tl (incident (o_tris o) (fst e)))))) /\
    map pd_edge (dl_points d) = map (fun i => start_edge (o_edges o) (Z.of_nat i)) (seq 0 (length (o_points o))).
  Proof.
    intros T H. pose proof (read_output_ok tol o d T H) as O. split; [apply (oo_edges _ _ _ O)|]. split.
    - intros nb s e Hin Hs. unfold sm_get. rewrite sm_find_eqb, (oo_map _ _ _ O).
      rewrite (delaunay_edges_find (dl_edges d) s (edge_after (o_tris o) e)); [reflexivity| | |].
      + rewrite (oo_edges _ _ _ O). intros i j a b Ha Hb. rewrite nth_error_map in Ha, Hb.
        destruct (nth_error (o_edges o) i) as [ei|] eqn:Ei; [|discriminate]. injection Ha as <-.
        destruct (nth_error (o_edges o) j) as [ej|] eqn:Ej; [|discriminate]. injection Hb as <-.
        cbn [e_p1 e_p2 edge_after]. rewrite <- !surjective_pairing. apply (tg_once _ _ _ T); rewrite nth_error_map; [rewrite Ei|rewrite Ej]; reflexivity.
      + rewrite (oo_edges _ _ _ O). apply in_map. assumption.
      + cbn [e_p1 e_p2 edge_after]. rewrite <- surjective_pairing. assumption.
    - rewrite (oo_data _ _ _ O), map_map. reflexivity.
  Qed.
End Output.

Section OutputR.
  Lemma read_output_total_on {N : Num} (tol : nT N) (o : trout N) :
    triangulation (zlen (o_points o)) (map fst (o_edges o)) (o_tris o) ->
    (forall t A B C, In t (o_tris o) -> vertices_are (map read_point (o_points o)) (corners t) [A; B; C] -> exists c, circumcenter A B C = Ok c) ->
    exists d, read_output tol o = Ok d.
  Proof.
    intros T D. unfold read_output. cbn zeta.
    destruct (read_edges_total (o_edges o) (length (o_points o))) as ([[es em] pd] & E & (H1 & H2 & H3 & H4)).
    { intros a b m Hin. apply (tg_ends _ _ _ T). apply in_map_iff. exists (a, b, m). auto. }
    unfold pd0 in E. rewrite E. cbn [bind]. subst es.
    destruct (foldM_prefix_total (read_tri tol (map read_point (o_points o)) em) (tris_ok tol (map read_point (o_points o)) (o_edges o)) (o_tris o)
      ([], ul_empty, ul_empty, map (fun e => edge_new (fst (fst e)) (snd (fst e))) (o_edges o))) as ([[[ts rp] cs] es'] & E2 & _).
    - apply tris_ok_init.
    - intros pre t st Hi HI.
      assert (Ht : In t (o_tris o)) by (apply Hi, in_or_app; right; left; reflexivity).
      assert (X : exists st', read_tri tol (map read_point (o_points o)) em st t = Ok st').
      { destruct st as [[[ts rp] cs] es], HI as (HF & _ & _ & HE & _), t as [[a b] c].
        assert (Hz : zlen ts = zlen pre) by (unfold zlen; f_equal; symmetry; eapply Forall2_len; eassumption).
        pose proof (three_updates (o_edges o) (o_tris o) _ em pre (a, b, c) _ _ _ H2 T Ht eq_refl eq_refl eq_refl) as U. cbn [fst snd] in U.
        assert (R : in_range (map read_point (o_points o)) [a; b; c]).
        { assert (Q : forall s, In s (sides (a, b, c)) -> 0 <= fst s < zlen (o_points o)).
          { intros s Hs. destruct (tg_sides _ _ _ T _ _ Ht Hs) as ([x y] & Hin & Hss).
            apply (tg_ends _ _ _ T) in Hin as [R1 R2]. unfold same_side in Hss. cbn [fst snd] in Hss. lia. }
          cbn in Q. pose proof (Q (a, b)). pose proof (Q (b, c)). pose proof (Q (c, a)). cbn [fst] in *.
          unfold in_range. rewrite zlen_map. repeat (constructor; [auto|]). constructor. }
        apply vertices_exist in R as (vs & R).
        destruct vs as [|A [|B [|C [|? ?]]]]; try (apply Forall2_len in R; discriminate).
        destruct (D (a, b, c) A B C Ht R) as (cc & Hc).
        unfold read_tri. cbn zeta. unfold triangle_ctor_ul. rewrite ctor_idx_ok. cbn [bind].
        rewrite (proj2 (tri_vertices_are _ a b c A B C) R). cbn [bind]. rewrite Hc. cbn [bind].
        destruct (ul_push_back (pt_ltb tol) cs cc) as [cs1 i]. cbn [bind]. subst es. rewrite Hz.
        destruct (vupd (map (edge_after pre) (o_edges o)) _ _) as [e1|] eqn:V1; [|discriminate]. cbn [bind] in *.
        destruct (vupd e1 _ _) as [e2|] eqn:V2; [|discriminate]. cbn [bind] in *. rewrite U. cbn. eauto. }
      destruct X as [st' X]. exists st'. split; [assumption|]. eapply read_tri_char; eauto.
    - rewrite E2. cbn. eauto.
  Qed.
  Lemma read_output_total tol (o : trout RNum) :
    triangulation (zlen (o_points o)) (map fst (o_edges o)) (o_tris o) ->
    (forall t A B C, In t (o_tris o) -> vertices_are (map read_point (o_points o)) (corners t) [A; B; C] -> orient (xy A) (xy B) (xy C) <> 0%R) ->
    exists d, read_output tol o = Ok d.
  Proof.
    intros T D. apply read_output_total_on; [exact T|]. intros t A B C Ht V. destruct (proj1 (circumcenter_correct A B C) (D t A B C Ht V)) as (c & Hc & _). eauto.
  Qed.
End OutputR.

(** * The planar straight line graph *)
Section Pslg.
  Context {N : Num}.
  Variable tol : nT N.
  Notation Pt := (Point N).
  Notation lt := (pt_ltb (N := N) tol).
  Notation eqp := (pt_eqb (N := N) tol).
  (** the points compared, and what coincidence means for them *)
  Variable Q : Pt -> Prop.
  Variable same : Pt -> Pt -> Prop.
  Hypothesis EQ : forall a b, Q a -> Q b -> (eqp a b = true <-> same a b).
  Hypothesis INC : forall a b, Q a -> Q b -> (incomparable lt a b <-> same a b).

  Lemma same_sym a b : Q a -> Q b -> same a b -> same b a.
  Proof. intros Qa Qb H. apply INC; auto. apply INC in H; auto. destruct H. split; assumption. Qed.
  Lemma equivb_eqp a b : Q a -> Q b -> equivb lt a b = eqp a b.
  Proof.
    intros Qa Qb. apply Bool.eq_iff_eq_true. rewrite EQ, <- INC by assumption. unfold equivb, incomparable. rewrite andb_true_iff, !negb_true_iff. reflexivity.
  Qed.
  Lemma set_add_equiv (l : list Pt) x : (forall q, In q l -> Q q) -> Q x -> set_add (equivb lt) l x = set_add eqp l x.
  Proof.
    intros Hl Hx. unfold set_add, set_mem. replace (existsb (equivb lt x) l) with (existsb (eqp x) l); [reflexivity|].
    induction l as [|y l IH]; cbn; [reflexivity|]. rewrite IH, equivb_eqp; [reflexivity|assumption|apply Hl; left; reflexivity|intros; apply Hl; right; assumption].
  Qed.
  Lemma fold_set_add_equiv (xs l : list Pt) : (forall q, In q (l ++ xs) -> Q q) -> fold_left (set_add (equivb lt)) xs l = fold_left (set_add eqp) xs l.
  Proof.
    revert l; induction xs as [|x xs IH]; cbn; intros l H; [reflexivity|].
    assert (Q x) by (apply H, in_or_app; right; left; reflexivity). assert (forall q, In q l -> Q q) by (intros; apply H, in_or_app; auto).
    rewrite set_add_equiv by assumption. apply IH. intros q Hq. apply in_app_or in Hq as [Hq|Hq]; [|apply H, in_or_app; right; right; assumption].
    unfold set_add in Hq. destruct (set_mem eqp x l); [auto|]. apply in_app_or in Hq as [Hq|[<-|[]]]; auto.
  Qed.
  Lemma fold_set_add_incl {A} (eqv : A -> A -> bool) xs l : incl (fold_left (set_add eqv) xs l) (l ++ xs).
  Proof.
    revert l; induction xs as [|x xs IH]; cbn; intros l; [rewrite app_nil_r; apply incl_refl|].
    intros y Hy. apply IH in Hy. apply in_app_or in Hy as [Hy|Hy]; [|apply in_or_app; right; right; assumption].
    unfold set_add in Hy. destruct (set_mem eqv x l); [apply in_or_app; left; assumption|].
    apply in_app_or in Hy as [Hy|[<-|[]]]; apply in_or_app; [left|right; left]; auto.
  Qed.

  Lemma indexOf_near (pl : list Pt) q : (forall y, In y pl -> Q y) -> Q q -> index_by same pl q (indexOf eqp pl q).
  Proof.
    intros Hpl Hq. unfold indexOf.
    assert (G : forall l i, (forall y, In y l -> Q y) -> 0 <= i ->
      (index_from eqp l q i = -1 /\ (forall y, In y l -> ~ same y q)) \/
      (exists k y, index_from eqp l q i = i + Z.of_nat k /\ nth_error l k = Some y /\ same y q /\
         forall j y, (j < k)%nat -> nth_error l j = Some y -> ~ same y q)).
    { induction l as [|y l IH]; intros i Hl Hi; cbn [index_from]; [left; split; [reflexivity|intros ? []]|].
      assert (Qy : Q y) by (apply Hl; left; reflexivity).
      destruct (eqp y q) eqn:E.
      - right. exists 0%nat, y. split; [lia|]. split; [reflexivity|]. split; [apply EQ; assumption|]. intros; lia.
      - assert (~ same y q) as Hy by (rewrite <- EQ by assumption; congruence).
        destruct (IH (i + 1)) as [[H1 H2]|(k & z & H1 & H2 & H3 & H4)]; [intros; apply Hl; right; assumption|lia| |].
        + left. split; [assumption|]. intros z [<-|Hz]; auto.
        + right. exists (S k), z. split; [lia|]. split; [assumption|]. split; [assumption|].
          intros [|j] w Hj Hw; [injection Hw as <-; assumption|]. apply (H4 j); [lia|assumption]. }
    destruct (G pl 0) as [H|(k & y & H1 & H2 & H3 & H4)]; [assumption|lia|left; assumption|].
    right. rewrite H1, Z.add_0_l, Nat2Z.id. split; [lia|]. split; eauto.
  Qed.

  Lemma build_pslg_on (r : region N) seeds (restricted : list (pseg N)) :
    region_made r -> strict_weak_order_on (fun q => In q (seeds ++ getRegionPoints r)) lt ->
    (forall q, In q (seeds ++ getRegionPoints r) -> Q q) -> (forall e, In e restricted -> Q (fst e) /\ Q (snd e)) ->
    exists pl ssegs rsegs vs,
      build_pslg (N := N) tol r seeds restricted =
        Ok (mkPslg (N := N) (map (fun q => (px q, py q)) pl) (ssegs ++ rsegs) (map (fun h : hole N => (px (h_center h), py (h_center h))) (rg_holes r))) /\
      pl = fold_left (set_add eqp) (seeds ++ getRegionPoints r) [] /\ apart_by same pl /\
      incl pl (seeds ++ getRegionPoints r) /\
      (forall q, In q (seeds ++ getRegionPoints r) -> exists y, In y pl /\ same y q) /\
      (vs = rg_p r \/ vs = rev (rg_p r)) /\
      Forall2 (denotes_by same pl) ssegs (edges_of vs ++ flat_map (fun h : hole N => edges_of (h_points h)) (rg_holes r)) /\
      Forall2 (fun s (e : pseg N) => index_by same pl (fst e) (fst s) /\ index_by same pl (snd e) (snd s)) rsegs restricted.
  Proof.
    intros HM W HQ HQr. set (P := fun q : Pt => In q (seeds ++ getRegionPoints r)) in *.
    unfold build_pslg.
    destruct (ul_push_list lt ul_empty seeds) as [u1 i1] eqn:E1.
    destruct (ul_push_list lt u1 (getRegionPoints r)) as [pl ri] eqn:E2.
    destruct (ul_push_list_spec P lt W ul_empty seeds u1 i1 (ul_inv_empty P lt)) as (I1 & L1 & _ & F1).
    { intros x Hx. apply in_or_app. auto. } { assumption. }
    destruct (ul_push_list_spec P lt W u1 (getRegionPoints r) pl ri I1) as (I2 & L2 & [l Hl] & F2).
    { intros x Hx. apply in_or_app. auto. } { assumption. }
    destruct (region_segments r [] HM) as (vs & segs & Hvs & Hseg & Hden). cbn [app] in Hseg.
    rewrite Hseg. cbn [bind].
    assert (HL : ul_list pl = fold_left (set_add eqp) (seeds ++ getRegionPoints r) []).
    { rewrite L2, L1, <- fold_left_app. apply fold_set_add_equiv. exact HQ. }
    assert (HI : incl (ul_list pl) (seeds ++ getRegionPoints r)) by (rewrite HL; exact (fold_set_add_incl eqp (seeds ++ getRegionPoints r) [])).
    assert (HQp : forall q, In q (ul_list pl) -> Q q) by (intros q Hq; apply HQ, HI, Hq).
    assert (HQg : forall q, In q (getRegionPoints r) -> Q q) by (intros q Hq; apply HQ, in_or_app; right; assumption).
    assert (HQs : forall q, In q seeds -> Q q) by (intros q Hq; apply HQ, in_or_app; left; assumption).
    assert (HX : exists ssegs, mapM (fun s : Z * Z => a <- vget ri (fst s);; b <- vget ri (snd s);; Ok (a, b)) segs = Ok ssegs /\
      Forall2 (denotes_by same (ul_list pl)) ssegs (edges_of vs ++ flat_map (fun h : hole N => edges_of (h_points h)) (rg_holes r))).
    { clear - Hden F2 HQp HQg INC. induction Hden as [|s e segs es (D1 & D2 & D3 & D4) _ IH].
      - exists []. split; [reflexivity|constructor].
      - destruct IH as (ss & IH1 & IH2). cbn [mapM].
        assert (G : forall k q, 0 <= k -> nth_error (getRegionPoints r) (Z.to_nat k) = Some q ->
          exists i y, vget ri k = Ok i /\ 0 <= i /\ nth_error (ul_list pl) (Z.to_nat i) = Some y /\ same y q).
        { intros k q Hk Hq. clear - Hk Hq F2 HQp HQg INC. rewrite <- (Z2Nat.id k) by assumption. set (n := Z.to_nat k) in *. clearbody n. clear k Hk.
          revert n Hq. induction F2 as [|x i xs is (y & H1 & H2 & H3) _ IH]; intros n Hq; [destruct n; discriminate|].
          destruct n as [|n].
          - injection Hq as <-. exists i, y. split; [reflexivity|]. split; [assumption|]. split; [assumption|].
            apply INC; [apply HQp; eapply nth_error_In; eassumption|apply HQg; left; reflexivity|assumption].
          - destruct (IH (fun q Hq => HQg q (or_intror Hq)) n Hq) as (i' & y' & G1 & G2). exists i', y'. split; [|assumption].
            apply vget_of_nat in G1. apply vget_of_nat. exact G1. }
        destruct (G _ _ D1 D2) as (ia & ya & A1 & A2 & A3 & A4). destruct (G _ _ D3 D4) as (ib & yb & B1 & B2 & B3 & B4).
        rewrite A1. cbn [bind]. rewrite B1. cbn [bind]. rewrite IH1. cbn [bind]. exists ((ia, ib) :: ss). split; [reflexivity|].
        constructor; [|assumption]. exists ya, yb. split; [|split; assumption]. repeat split; cbn; assumption. }
    destruct HX as (ssegs & Hm & HF). rewrite Hm. cbn [bind].
    set (rsegs := map (fun s : pseg N => (ul_indexOf eqp pl (fst s), ul_indexOf eqp pl (snd s))) restricted).
    exists (ul_list pl), ssegs, rsegs, vs. split; [reflexivity|]. split; [assumption|]. split.
    - intros i j a b Ha Hb Hij Hc. apply Hij. apply (ul_inv_distinct P lt pl i j a b I2 Ha Hb).
      apply INC; [apply HQp; eapply nth_error_In; eassumption|apply HQp; eapply nth_error_In; eassumption|assumption].
    - split; [exact HI|]. split; [|split; [assumption|split; [assumption|]]].
      + intros q Hq. apply in_app_or in Hq as [Hq|Hq].
        * assert (exists y, In y (ul_list u1) /\ same y q) as (y & Hy & Hc).
          { assert (HQ1 : forall q, In q (ul_list u1) -> Q q) by (intros z Hz; apply HQp; rewrite Hl; apply in_or_app; auto).
            clear - F1 Hq HQ1 HQs INC. induction F1 as [|x i xs is (y & H1 & H2 & H3) _ IH]; [destruct Hq|].
            destruct Hq as [<-|Hq]; [|apply IH; first [assumption|intros; apply HQs; right; assumption]]. exists y. split; [eapply nth_error_In; eassumption|].
            apply INC; [apply HQ1; eapply nth_error_In; eassumption|apply HQs; left; reflexivity|assumption]. }
          exists y. split; [rewrite Hl; apply in_or_app; auto|assumption].
        * clear - F2 Hq HQp HQg INC. induction F2 as [|x i xs is (y & H1 & H2 & H3) _ IH]; [destruct Hq|].
          destruct Hq as [<-|Hq]; [|apply IH; first [assumption|intros; apply HQg; right; assumption]]. exists y. split; [eapply nth_error_In; eassumption|].
          apply INC; [apply HQp; eapply nth_error_In; eassumption|apply HQg; left; reflexivity|assumption].
      + unfold rsegs. clear - HQr HQp EQ INC. induction restricted as [|s l IH]; cbn; constructor.
        * cbn. destruct (HQr s (or_introl eq_refl)). split; apply indexOf_near; assumption.
        * apply IH. intros; apply HQr; right; assumption.
  Qed.

  (** * The mesh *)
  Lemma fold_set_add_apart (l pre : list Pt) : (forall q, In q (pre ++ l) -> Q q) -> apart_by same (pre ++ l) -> fold_left (set_add eqp) l pre = pre ++ l.
  Proof.
    revert pre; induction l as [|x l IH]; intros pre HQ H; cbn; [rewrite app_nil_r; reflexivity|].
    assert (Qx : Q x) by (apply HQ, in_or_app; right; left; reflexivity).
    assert (E : set_add eqp pre x = pre ++ [x]).
    { unfold set_add. destruct (set_mem eqp x pre) eqn:E; [|reflexivity]. exfalso.
      apply existsb_exists in E as (y & Hy & E). assert (Qy : Q y) by (apply HQ, in_or_app; left; assumption). apply In_nth_error in Hy as [n Hn].
      assert (n < length pre)%nat by (apply nth_error_Some; congruence).
      apply (H n (length pre) y x).
      - rewrite nth_error_app1 by assumption. assumption.
      - rewrite nth_error_app2, Nat.sub_diag by lia. reflexivity.
      - lia.
      - apply same_sym; auto. apply EQ; assumption. }
    rewrite E, IH; rewrite <- app_assoc; [reflexivity|assumption|assumption].
  Qed.

  Lemma push_apart_on (l : list Pt) u is : strict_weak_order_on (fun q => In q l) lt -> (forall q, In q l -> Q q) -> apart_by same l ->
    ul_push_list lt ul_empty l = (u, is) -> ul_list u = l /\ is = trivialIndex (length l).
  Proof.
    intros W HQ HA E.
    destruct (ul_push_list_spec _ lt W ul_empty l u is (ul_inv_empty _ lt) (fun x H => H) E) as (I & L & _ & F).
    rewrite fold_set_add_equiv, fold_set_add_apart in L by assumption. cbn [app ul_list ul_empty] in L. split; [assumption|].
    unfold trivialIndex. apply nth_error_ext. intros n. rewrite nth_error_map.
    destruct (nth_error l n) as [x|] eqn:Ex.
    - assert (n < length l)%nat by (apply nth_error_Some; congruence).
      rewrite (nth_error_nth' _ 0%nat), seq_nth by (rewrite ?seq_length; assumption). cbn.
      assert (exists i y, nth_error is n = Some i /\ 0 <= i /\ nth_error (ul_list u) (Z.to_nat i) = Some y /\ incomparable lt y x) as (i & y & H1 & H2 & H3 & H4).
      { clear - F Ex. revert n Ex. induction F as [|a i xs is (y & G) _ IH]; intros n Ex; [destruct n; discriminate|].
        destruct n; [injection Ex as <-; exists i, y; split; [reflexivity|assumption]|]. apply (IH n Ex). }
      rewrite H1. f_equal. rewrite L in H3.
      assert (Z.to_nat i = n); [|lia].
      destruct (Nat.eq_dec (Z.to_nat i) n) as [->|D]; [reflexivity|]. exfalso.
      apply (HA _ _ _ _ H3 Ex D). apply INC; [apply HQ; eapply nth_error_In; eassumption|apply HQ; eapply nth_error_In; eassumption|assumption].
    - apply nth_error_None in Ex. rewrite (proj2 (nth_error_None is n)) by (rewrite <- (Forall2_len _ _ _ F); assumption).
      rewrite (proj2 (nth_error_None (seq 0 (length l)) n)) by (rewrite seq_length; assumption). reflexivity.
  Qed.

  (** the point insertions made for the triangles [ts] *)
  Fixpoint tri_ops (mp : list Pt) (ts : list (list Z)) (i : Z) : list (pm_op N) :=
    match ts with
    | [] => []
    | t :: ts' => map (fun k => PmInsert (N := N) (nth (Z.to_nat k) mp (point0 (N := N))) i) t ++ tri_ops mp ts' (i + 1)
    end.
  Lemma tri_ops_snoc mp ts t i : tri_ops mp (ts ++ [t]) i = tri_ops mp ts i ++ map (fun k => PmInsert (N := N) (nth (Z.to_nat k) mp (point0 (N := N))) (i + zlen ts)) t.
  Proof.
    revert i; induction ts as [|x ts IH]; intros i; cbn.
    - rewrite app_nil_r, Z.add_0_r. reflexivity.
    - rewrite IH, <- app_assoc. do 2 f_equal. rewrite zlen_cons. apply map_ext. intros k. f_equal. lia.
  Qed.

  Lemma foldM_inserts mp (t : list Z) i (pm : pmap N) h : in_range mp t -> pm = pm_run (N := N) tol h ->
    foldM (fun m k => q <- vget mp k ;; Ok (pm_insert (N := N) tol m q i)) t pm =
    Ok (pm_run (N := N) tol (h ++ map (fun k => PmInsert (N := N) (nth (Z.to_nat k) mp (point0 (N := N))) i) t)).
  Proof.
    revert pm h; induction t as [|k t IH]; intros pm h HR ->; cbn [foldM map].
    - rewrite app_nil_r. reflexivity.
    - inversion_clear HR. assert (vget mp k = Ok (nth (Z.to_nat k) mp (point0 (N := N)))) as ->.
      { apply vget_ok. split; [lia|]. apply nth_error_nth'. unfold zlen in *. lia. }
      cbn [bind]. rewrite (IH _ (h ++ [PmInsert (N := N) (nth (Z.to_nat k) mp (point0 (N := N))) i])); [|assumption|].
      + rewrite <- app_assoc. reflexivity.
      + unfold pm_run. rewrite fold_left_app. reflexivity.
  Qed.

  Lemma mapM_identity (mp : list Pt) t : in_range mp t -> mapM (vget (trivialIndex (length mp))) t = Ok t.
  Proof.
    intros H. induction H as [|k t Hk _ IH]; cbn [mapM]; [reflexivity|].
    assert (vget (trivialIndex (length mp)) k = Ok k) as ->.
    { apply vget_ok. split; [lia|]. unfold trivialIndex. rewrite nth_error_map, (nth_error_nth' _ 0%nat) by (rewrite seq_length; unfold zlen in *; lia).
      rewrite seq_nth by (unfold zlen in *; lia). cbn. f_equal. lia. }
    cbn [bind]. rewrite IH. reflexivity.
  Qed.

  Lemma integrity_ok t : three_distinct t -> checkTriangleIntegrity t = Ok tt.
  Proof.
    intros (a & b & c & -> & H). cbn. inversion_clear H as [|? ? H1 H2]. inversion_clear H2 as [|? ? H3 H4]. cbn in H1, H3.
    destruct (Z.eqb_spec a b), (Z.eqb_spec b c), (Z.eqb_spec c a); cbn; try reflexivity; subst; exfalso; intuition.
  Qed.
  Lemma integrity_bad t : ~ three_distinct t -> checkTriangleIntegrity t = Err (Throw integrity_msg).
  Proof.
    intros H. destruct t as [|a [|b [|c [|? ?]]]]; try reflexivity. cbn.
    destruct (Z.eqb_spec a b), (Z.eqb_spec b c), (Z.eqb_spec c a); cbn; try reflexivity. exfalso. apply H.
    exists a, b, c. split; [reflexivity|]. repeat constructor; cbn; intuition.
  Qed.
  Lemma three_distinct_dec t : three_distinct t \/ ~ three_distinct t.
  Proof.
    destruct (checkTriangleIntegrity t) eqn:E.
    - left. destruct t as [|a' [|b [|c [|? ?]]]]; try discriminate. cbn in E.
      destruct (Z.eqb_spec a' b), (Z.eqb_spec b c), (Z.eqb_spec c a'); cbn in E; try discriminate.
      exists a', b, c. split; [reflexivity|]. repeat constructor; cbn; intuition.
    - right. intros H. rewrite integrity_ok in E by assumption. discriminate.
  Qed.

  Section Init.
    Context {T : Type}.
    Variable ctor : list Z -> list Pt -> res T.
    Variable idx : T -> list Z.
    Variable d : delaunay N.
    Hypothesis ctor_ok : forall t, in_range (dl_meshPoints d) t -> three_distinct t -> exists g, ctor t (dl_meshPoints d) = Ok g /\ idx g = t.
    Hypothesis W : strict_weak_order_on (fun q => In q (dl_meshPoints d)) lt.
    Hypothesis HQ : forall q, In q (dl_meshPoints d) -> Q q.
    Hypothesis HA : apart_by same (dl_meshPoints d).
    Hypothesis HR : Forall (fun t : triangle N => in_range (dl_meshPoints d) (pg_points (tr_poly t))) (dl_triangles d).

    Let body (st : list T * pmap N) (t : triangle N) : res (list T * pmap N) :=
      let '(polys, pm) := st in
      let i := zlen polys in
      newPoints <- mapM (vget (trivialIndex (length (dl_meshPoints d)))) (pg_points (tr_poly t)) ;;
      pm' <- foldM (fun m k => q <- vget (dl_meshPoints d) k ;; Ok (pm_insert (N := N) tol m q i)) newPoints pm ;;
      _ <- checkTriangleIntegrity newPoints ;;
      g <- ctor newPoints (dl_meshPoints d) ;;
      Ok (polys ++ [g], pm').
    Let Inv (pre : list (triangle N)) (st : list T * pmap N) : Prop :=
      map idx (fst st) = map (fun t => pg_points (tr_poly t)) pre /\
      snd st = pm_run (N := N) tol (tri_ops (dl_meshPoints d) (map (fun t : triangle N => pg_points (tr_poly t)) pre) 0).

    Lemma init_step pre t st : Inv pre st -> in_range (dl_meshPoints d) (pg_points (tr_poly t)) ->
      (three_distinct (pg_points (tr_poly t)) -> exists st', body st t = Ok st' /\ Inv (pre ++ [t]) st') /\
      (~ three_distinct (pg_points (tr_poly t)) -> body st t = Err (Throw integrity_msg)).
    Proof.
      clear W HQ HA HR. destruct st as [polys pm]. intros [I1 I2] R. cbn [fst snd] in *. unfold body.
      rewrite mapM_identity by assumption. cbn [bind].
      rewrite (foldM_inserts (dl_meshPoints d) (pg_points (tr_poly t)) (zlen polys) pm _ R I2). cbn [bind].
      split; intros H.
      - rewrite integrity_ok by assumption. cbn [bind]. destruct (ctor_ok _ R H) as (g & Hg & Hi). rewrite Hg. cbn [bind].
        eexists. split; [reflexivity|]. split; cbn [fst snd].
        + rewrite !map_app, I1. cbn. congruence.
        + rewrite map_app. cbn [map]. rewrite tri_ops_snoc. rewrite Z.add_0_l. do 2 f_equal.
          rewrite <- I1. rewrite zlen_map. reflexivity.
      - rewrite integrity_bad by assumption. reflexivity.
    Qed.

    Lemma init_unfold : initializeMesh (N := N) tol ctor d =
      (st <- foldM body (dl_triangles d) ([], []) ;;
       Ok (mkMesh (N := N) (fst (ul_push_list lt ul_empty (dl_meshPoints d))) (fst st) (dl_delaunayEdges d) (snd st))).
    Proof.
      clear ctor_ok HR. unfold initializeMesh. destruct (ul_push_list lt ul_empty (dl_meshPoints d)) as [u is] eqn:E.
      destruct (push_apart_on _ u is W HQ HA E) as [E1 ->]. fold body. destruct (foldM body (dl_triangles d) ([], [])) as [[polys pm]|e]; reflexivity.
    Qed.

    Lemma collected_positions k q ts : nth_error (dl_meshPoints d) k = Some q ->
      Forall (in_range (dl_meshPoints d)) ts -> Forall three_distinct ts -> forall i,
      pm_collected eqp q (tri_ops (dl_meshPoints d) ts i) = positions (existsb (Z.eqb (Z.of_nat k))) ts i.
    Proof.
      clear ctor_ok HR. intros Hk R3 D3. induction ts as [|t ts IH]; intros i; [reflexivity|].
      inversion_clear R3 as [|? ? Rt Rts]. inversion_clear D3 as [|? ? Dt Dts]. cbn [tri_ops positions].
      unfold pm_collected in *. rewrite flat_map_app, IH by assumption.
      assert (X : flat_map (fun o : pm_op N => if eqp (pm_op_point o) q then pm_op_indices o else [])
        (map (fun k => PmInsert (N := N) (nth (Z.to_nat k) (dl_meshPoints d) (point0 (N := N))) i) t) =
        if existsb (Z.eqb (Z.of_nat k)) t then [i] else []).
      { assert (Y : forall j, 0 <= j < zlen (dl_meshPoints d) -> eqp (nth (Z.to_nat j) (dl_meshPoints d) (point0 (N := N))) q = (Z.of_nat k =? j)).
        { intros j Hj. assert (Hn : nth_error (dl_meshPoints d) (Z.to_nat j) = Some (nth (Z.to_nat j) (dl_meshPoints d) (point0 (N := N)))) by (apply nth_error_nth'; unfold zlen in *; lia).
          destruct (Z.eqb_spec (Z.of_nat k) j) as [<-|Hkj].
          - rewrite Nat2Z.id in *. rewrite Hk in Hn. injection Hn as <-. apply (EQ q q); [apply HQ; eapply nth_error_In; eassumption|apply HQ; eapply nth_error_In; eassumption|]. apply INC; [apply HQ; eapply nth_error_In; eassumption|apply HQ; eapply nth_error_In; eassumption|]. split; apply (swo_irrefl _ _ W); eapply nth_error_In; eassumption.
          - destruct (eqp _ q) eqn:E; [|reflexivity]. exfalso. apply EQ in E; [|apply HQ; eapply nth_error_In; eassumption|apply HQ; eapply nth_error_In; eassumption].
            apply (HA _ _ _ _ Hn Hk); [lia|assumption]. }
        destruct Dt as (a & b & c & -> & ND). inversion_clear Rt as [|? ? Ra R2]. inversion_clear R2 as [|? ? Rb R4]. inversion_clear R4 as [|? ? Rc _].
        cbn [map flat_map pm_op_point pm_op_indices existsb]. rewrite !Y by assumption.
        inversion_clear ND as [|? ? N1 N2]. inversion_clear N2 as [|? ? N3 N4]. cbn in N1, N3.
        destruct (Z.eqb_spec (Z.of_nat k) a), (Z.eqb_spec (Z.of_nat k) b), (Z.eqb_spec (Z.of_nat k) c); cbn; try reflexivity; exfalso; intuition congruence. }
      rewrite X. destruct (existsb (Z.eqb (Z.of_nat k)) t); reflexivity.
    Qed.

    Lemma initializeMesh_good_on : Forall (fun t : triangle N => three_distinct (pg_points (tr_poly t))) (dl_triangles d) ->
      exists m, initializeMesh (N := N) tol ctor d = Ok m /\ ul_list (ms_points m) = dl_meshPoints d /\
        map idx (ms_polygons m) = map (fun t : triangle N => pg_points (tr_poly t)) (dl_triangles d) /\
        ms_edges m = dl_delaunayEdges d /\
        (forall k q, nth_error (dl_meshPoints d) k = Some q ->
           snd (pm_get (N := N) tol (ms_pointMap m) q) =
           positions (existsb (Z.eqb (Z.of_nat k))) (map (fun t : triangle N => pg_points (tr_poly t)) (dl_triangles d)) 0).
    Proof.
      intros D. rewrite init_unfold.
      destruct (foldM_prefix_total body Inv (dl_triangles d) ([], [])) as (st & E & I1 & I2).
      - split; reflexivity.
      - intros pre t st Hi HI. assert (Ht : In t (dl_triangles d)) by (apply Hi, in_or_app; right; left; reflexivity).
        rewrite Forall_forall in HR, D. apply (init_step pre t st HI (HR t Ht)). apply D. assumption.
      - rewrite E. cbn [bind]. eexists. split; [reflexivity|]. cbn [ms_points ms_polygons ms_edges ms_pointMap].
        destruct (ul_push_list lt ul_empty (dl_meshPoints d)) as [u is] eqn:Eu. destruct (push_apart_on _ u is W HQ HA Eu) as [E1 _].
        split; [assumption|]. split; [assumption|]. split; [reflexivity|].
        intros k q Hk. rewrite I2.
        assert (HO : forall o, In o (tri_ops (dl_meshPoints d) (map (fun t : triangle N => pg_points (tr_poly t)) (dl_triangles d)) 0) -> In (pm_op_point o) (dl_meshPoints d)).
        { assert (R2 : Forall (in_range (dl_meshPoints d)) (map (fun t : triangle N => pg_points (tr_poly t)) (dl_triangles d))).
          { rewrite Forall_forall in *. intros t Ht. apply in_map_iff in Ht as (x & <- & Hx). apply HR. assumption. }
          clear - R2. revert R2. generalize (map (fun t : triangle N => pg_points (tr_poly t)) (dl_triangles d)) 0.
          induction l as [|t l IH]; intros i R2 o Ho; [destruct Ho|]. inversion_clear R2.
          cbn [tri_ops] in Ho. apply in_app_or in Ho as [Ho|Ho]; [|eapply IH; eassumption].
          apply in_map_iff in Ho as (k & <- & Hk). cbn. apply nth_In. unfold in_range in H. rewrite Forall_forall in H. apply H in Hk. unfold zlen in Hk. lia. }
        rewrite (proj1 (pointmap_history_on (N := N) tol _ W (fun a b Ha Hb => equivb_eqp a b (HQ a Ha) (HQ b Hb)) _ HO)).
        + apply collected_positions; [assumption| |].
          * rewrite Forall_forall in *. intros t Ht. apply in_map_iff in Ht as (x & <- & Hx). apply HR. assumption.
          * rewrite Forall_forall in *. intros t Ht. apply in_map_iff in Ht as (x & <- & Hx). apply D. assumption.
        + eapply nth_error_In. eassumption.
    Qed.

    Lemma initializeMesh_bad_on : Exists (fun t : triangle N => ~ three_distinct (pg_points (tr_poly t))) (dl_triangles d) ->
      initializeMesh (N := N) tol ctor d = Err (Throw integrity_msg).
    Proof.
      intros D. rewrite init_unfold.
      assert (G : forall l pre st, Forall (fun t : triangle N => in_range (dl_meshPoints d) (pg_points (tr_poly t))) l ->
        Exists (fun t : triangle N => ~ three_distinct (pg_points (tr_poly t))) l -> Inv pre st -> foldM body l st = Err (Throw integrity_msg)).
      { induction l as [|t l IH]; intros pre st R2 D2 HI; [inversion D2|]. inversion_clear R2 as [|? ? Rt Rl].
        destruct (init_step pre t st HI Rt) as [S1 S2]. cbn [foldM].
        destruct (three_distinct_dec (pg_points (tr_poly t))) as [H|H].
        - destruct (S1 H) as (st' & E & I'). rewrite E. cbn [bind]. apply (IH (pre ++ [t])); auto.
          inversion_clear D2; [contradiction|assumption].
        - rewrite (S2 H). reflexivity. }
      rewrite (G (dl_triangles d) [] ([], [])); [reflexivity|assumption|assumption|split; reflexivity].
    Qed.
  End Init.

  Lemma same_trans P (a b c : Pt) : strict_weak_order_on P lt -> (forall q, P q -> Q q) -> P a -> P b -> P c ->
    same a b -> same b c -> same a c.
  Proof.
    intros W HQ Pa Pb Pc A B. apply INC in A; auto. apply INC in B; auto. apply INC; auto. apply (swo_incomp _ _ W a b c); assumption.
  Qed.
  Lemma fold_set_add_len {A} (eqv : A -> A -> bool) xs l : (length (fold_left (set_add eqv) xs l) <= length l + length xs)%nat.
  Proof.
    clear. revert l; induction xs as [|x xs IH]; cbn; intros l; [lia|]. specialize (IH (set_add eqv l x)).
    unfold set_add in *. destruct (set_mem eqv x l); rewrite ?app_length in IH; cbn in IH; lia.
  Qed.
  Lemma vertices_are_fun (p : list Pt) t vs vs' : vertices_are p t vs -> vertices_are p t vs' -> vs = vs'.
  Proof.
    clear. intros H. revert vs'. induction H as [|k x t vs [_ H] _ IH]; intros vs' H'; inversion_clear H' as [|? ? ? ? [_ E] F]; [reflexivity|].
    f_equal; [congruence|auto].
  Qed.
  Lemma list3_inj {A} (a b c a' b' c' : A) : [a; b; c] = [a'; b'; c'] -> a = a' /\ b = b' /\ c = c'.
  Proof. clear. intros [= -> -> ->]. auto. Qed.
  Section InitAny.
    Context {T : Type}.
    Variable ctor : list Z -> list Pt -> res T.
    Variable idx : T -> list Z.
    Variable d : delaunay N.
    Notation mp := (dl_meshPoints d).
    Hypothesis ctor_ok : forall t, in_range mp t -> three_distinct t -> exists g, ctor t mp = Ok g /\ idx g = t.
    Hypothesis W : strict_weak_order_on (fun q => In q mp) lt.
    Hypothesis HQ : forall q, In q mp -> Q q.
    Hypothesis HR : Forall (fun t : triangle N => in_range mp (pg_points (tr_poly t)) /\ length (pg_points (tr_poly t)) = 3%nat) (dl_triangles d).
    Variable u : ulist Pt.
    Variable is : list Z.
    Hypothesis Eu : ul_push_list lt ul_empty mp = (u, is).

    Let body (st : list T * pmap N) (t : triangle N) : res (list T * pmap N) :=
      let '(polys, pm) := st in
      let i := zlen polys in
      newPoints <- mapM (vget is) (pg_points (tr_poly t)) ;;
      pm' <- foldM (fun m k => q <- vget mp k ;; Ok (pm_insert (N := N) tol m q i)) newPoints pm ;;
      _ <- checkTriangleIntegrity newPoints ;;
      g <- ctor newPoints mp ;;
      Ok (polys ++ [g], pm').
    Let at_index (k i : Z) : Prop := exists q, nth_error mp (Z.to_nat k) = Some q /\ index_by same (ul_list u) q i /\ 0 <= i.
    Let Inv (pre : list (triangle N)) (st : list T * pmap N) : Prop :=
      Forall2 (fun (t : triangle N) g => Forall2 at_index (pg_points (tr_poly t)) (idx g)) pre (fst st) /\ exists h, snd st = pm_run (N := N) tol h.

    Lemma ul_facts : apart_by same (ul_list u) /\ incl (ul_list u) mp /\ zlen (ul_list u) <= zlen mp /\
      ul_list u = fold_left (set_add eqp) mp [] /\
      forall k, 0 <= k < zlen mp -> exists i q y, vget is k = Ok i /\ 0 <= i < zlen (ul_list u) /\ nth_error mp (Z.to_nat k) = Some q /\
        nth_error (ul_list u) (Z.to_nat i) = Some y /\ same y q.
    Proof.
      clear ctor_ok HR.
      destruct (ul_push_list_spec _ lt W ul_empty mp u is (ul_inv_empty _ lt) (fun x H => H) Eu) as (I & L & _ & F).
      rewrite fold_set_add_equiv in L by assumption. cbn [ul_list ul_empty] in L.
      assert (HI : incl (ul_list u) mp) by (rewrite L; exact (fold_set_add_incl eqp mp [])).
      assert (HQu : forall q, In q (ul_list u) -> Q q) by (intros q Hq; apply HQ, HI, Hq). split; [|split; [|split; [|split]]].
      - intros i j a b Ha Hb Hij Hc. apply Hij. apply (ul_inv_distinct _ lt u i j a b I Ha Hb). apply INC; [apply HQu; eapply nth_error_In; eassumption|apply HQu; eapply nth_error_In; eassumption|assumption].
      - exact HI.
      - rewrite L. pose proof (fold_set_add_len eqp mp []). cbn in H. unfold zlen. lia.
      - assumption.
      - intros k Hk. rewrite <- (Z2Nat.id k) by lia. assert (Hn : (Z.to_nat k < length mp)%nat) by (unfold zlen in Hk; lia).
        rewrite Nat2Z.id. revert Hn. generalize (Z.to_nat k). clear k Hk. clear L Eu W I Inv at_index body HI. generalize dependent is. revert HQ. generalize mp.
        induction l as [|x l IH]; intros HQ js F n Hn; [cbn in Hn; lia|]. inversion F as [|? i ? is' (y & H1 & H2 & H3) F']; subst.
        destruct n as [|n].
        + exists i, x, y. split; [reflexivity|]. split; [|split; [reflexivity|split; [assumption|apply INC; [apply HQu; eapply nth_error_In; eassumption|apply HQ; left; reflexivity|assumption]]]].
          split; [assumption|]. unfold zlen. assert (Z.to_nat i < length (ul_list u))%nat by (apply nth_error_Some; congruence). lia.
        + destruct (IH (fun q Hq => HQ q (or_intror Hq)) is' F' n) as (i' & q & y' & G1 & G2 & G3); [cbn in Hn; lia|]. exists i', q, y'. split; [|split; assumption].
          apply vget_of_nat in G1. apply vget_of_nat. exact G1.
    Qed.
    Lemma near_first q i y : 0 <= i -> In q mp -> nth_error (ul_list u) (Z.to_nat i) = Some y -> same y q -> index_by same (ul_list u) q i.
    Proof.
      clear ctor_ok HR. intros Hi Hq Hy Hc. destruct ul_facts as (A & I & _). right. split; [assumption|]. split; [eauto|].
      intros j z Hj Hz C. apply (A j (Z.to_nat i) z y Hz Hy); [lia|].
      apply (same_trans (fun q => In q mp) z q y W HQ); try assumption; try (apply I; eapply nth_error_In; eassumption). apply same_sym; try assumption; apply HQ; try assumption; apply I; eapply nth_error_In; eassumption.
    Qed.
    Lemma same_index k l i j q1 q2 y1 y2 : 0 <= i -> 0 <= j -> nth_error mp k = Some q1 -> nth_error mp l = Some q2 ->
      nth_error (ul_list u) (Z.to_nat i) = Some y1 -> nth_error (ul_list u) (Z.to_nat j) = Some y2 ->
      same y1 q1 -> same y2 q2 -> (i = j <-> same q1 q2).
    Proof.
      clear ctor_ok HR. intros Hi Hj Hk Hl H1 H2 C1 C2. destruct ul_facts as (A & I & _).
      assert (M1 : In q1 mp) by (eapply nth_error_In; eassumption). assert (M2 : In q2 mp) by (eapply nth_error_In; eassumption).
      assert (M3 : In y1 mp) by (apply I; eapply nth_error_In; eassumption). assert (M4 : In y2 mp) by (apply I; eapply nth_error_In; eassumption).
      split.
      - intros <-. rewrite H1 in H2. injection H2 as <-. apply (same_trans (fun q => In q mp) q1 y1 q2 W HQ); try assumption. apply same_sym; auto.
      - intros C. destruct (Z.eq_dec i j) as [E|E]; [assumption|]. exfalso. apply (A (Z.to_nat i) (Z.to_nat j) y1 y2 H1 H2); [lia|].
        apply (same_trans (fun q => In q mp) y1 q1 y2 W HQ); try assumption. apply (same_trans (fun q => In q mp) q1 q2 y2 W HQ); try assumption. apply same_sym; auto.
    Qed.

    Lemma any_step pre t st : Inv pre st -> in_range mp (pg_points (tr_poly t)) -> length (pg_points (tr_poly t)) = 3%nat ->
      (spread_by same mp (pg_points (tr_poly t)) -> exists st', body st t = Ok st' /\ Inv (pre ++ [t]) st') /\
      (~ spread_by same mp (pg_points (tr_poly t)) -> body st t = Err (Throw integrity_msg)).
    Proof.
      clear HR. destruct st as [polys pm]. intros [I1 [h I2]] R L3. cbn [fst snd] in *. unfold body.
      destruct (pg_points (tr_poly t)) as [|a [|b [|c [|? ?]]]] eqn:Ept; try discriminate. clear L3.
      inversion_clear R as [|? ? Ra R1]. inversion_clear R1 as [|? ? Rb R2]. inversion_clear R2 as [|? ? Rc _].
      destruct ul_facts as (A & I & LL & _ & G).
      destruct (G a Ra) as (ia & qa & ya & A1 & A2 & A3 & A4 & A5). destruct (G b Rb) as (ib & qb & yb & B1 & B2 & B3 & B4 & B5).
      destruct (G c Rc) as (ic & qc & yc & C1 & C2 & C3 & C4 & C5).
      assert (EM : mapM (vget is) [a; b; c] = Ok [ia; ib; ic]) by (cbn; rewrite A1; cbn; rewrite B1; cbn; rewrite C1; reflexivity).
      rewrite EM. cbn [bind].
      assert (RN : in_range mp [ia; ib; ic]) by (do 3 (constructor; [lia|]); constructor).
      rewrite (foldM_inserts mp [ia; ib; ic] (zlen polys) pm _ RN I2). cbn [bind].
      assert (S1 := same_index (Z.to_nat a) (Z.to_nat b) ia ib qa qb ya yb (proj1 A2) (proj1 B2) A3 B3 A4 B4 A5 B5).
      assert (S2 := same_index (Z.to_nat b) (Z.to_nat c) ib ic qb qc yb yc (proj1 B2) (proj1 C2) B3 C3 B4 C4 B5 C5).
      assert (S3 := same_index (Z.to_nat c) (Z.to_nat a) ic ia qc qa yc ya (proj1 C2) (proj1 A2) C3 A3 C4 A4 C5 A5).
      assert (VV : vertices_are mp [a; b; c] [qa; qb; qc]).
      { constructor; [split; [lia|assumption]|]. constructor; [split; [lia|assumption]|]. constructor; [split; [lia|assumption]|constructor]. }
      assert (SD : spread_by same mp [a; b; c] <-> three_distinct [ia; ib; ic]).
      { split.
        - intros (A' & B' & C' & HV & N1 & N2 & N3). destruct (list3_inj _ _ _ _ _ _ (vertices_are_fun _ _ _ _ HV VV)) as (-> & -> & ->).
          exists ia, ib, ic. split; [reflexivity|]. rewrite <- S1 in N1. rewrite <- S2 in N2. rewrite <- S3 in N3. clear - N1 N2 N3. constructor; [intros [E|[E|[]]]; congruence|]. constructor; [intros [E|[]]; congruence|]. constructor; [intros []|constructor].
        - intros (x & y & z & [= <- <- <-] & ND). exists qa, qb, qc. split; [assumption|].
          inversion_clear ND as [|? ? N1 N2]. inversion_clear N2 as [|? ? N3 _]. cbn in N1, N3.
          rewrite <- S1, <- S2, <- S3. intuition. }
      split; intros H.
      - apply SD in H. rewrite integrity_ok by assumption. cbn [bind]. destruct (ctor_ok _ RN H) as (g & Hg & Hi). rewrite Hg. cbn [bind].
        eexists. split; [reflexivity|]. split; cbn [fst snd]; [|eauto].
        apply Forall2_app; [assumption|]. constructor; [|constructor]. rewrite Ept, Hi.
        assert (NN : forall k i q y, 0 <= i < zlen (ul_list u) -> nth_error mp (Z.to_nat k) = Some q -> nth_error (ul_list u) (Z.to_nat i) = Some y -> same y q -> at_index k i).
        { intros k i q y Hi2 Hq Hy Hc. exists q. split; [assumption|]. split; [|lia]. eapply near_first; try eassumption; [lia|eapply nth_error_In; eassumption]. }
        constructor; [eauto|]. constructor; [eauto|]. constructor; [eauto|constructor].
      - rewrite integrity_bad by (rewrite <- SD; assumption). reflexivity.
    Qed.
    Lemma spread_dec t : in_range mp t -> length t = 3%nat -> spread_by same mp t \/ ~ spread_by same mp t.
    Proof. intros _ _. apply Classical_Prop.classic. Qed.

    Lemma initializeMesh_any_on :
      (Forall (fun t : triangle N => spread_by same mp (pg_points (tr_poly t))) (dl_triangles d) ->
       exists m, initializeMesh (N := N) tol ctor d = Ok m /\ ul_list (ms_points m) = fold_left (set_add eqp) mp [] /\
         ms_edges m = dl_delaunayEdges d /\
         Forall2 (fun (t : triangle N) g => Forall2 (fun k i => exists q, nth_error mp (Z.to_nat k) = Some q /\ index_by same (ul_list (ms_points m)) q i /\ 0 <= i)
           (pg_points (tr_poly t)) (idx g)) (dl_triangles d) (ms_polygons m)) /\
      (Exists (fun t : triangle N => ~ spread_by same mp (pg_points (tr_poly t))) (dl_triangles d) ->
       initializeMesh (N := N) tol ctor d = Err (Throw integrity_msg)).
    Proof.
      assert (EI : initializeMesh (N := N) tol ctor d = (st <- foldM body (dl_triangles d) ([], []) ;; Ok (mkMesh (N := N) u (fst st) (dl_delaunayEdges d) (snd st)))).
      { unfold initializeMesh. rewrite Eu. fold body. destruct (foldM body (dl_triangles d) ([], [])) as [[polys pm]|e]; reflexivity. }
      rewrite EI. clear EI. assert (I0 : Inv [] ([], [])) by (split; [constructor|exists []; reflexivity]). split; intros D.
      - destruct (foldM_prefix_total body Inv (dl_triangles d) ([], [])) as (st & E & J1 & _).
        + exact I0.
        + intros pre t st Hi HI. assert (Ht : In t (dl_triangles d)) by (apply Hi, in_or_app; right; left; reflexivity).
          rewrite Forall_forall in HR, D. destruct (HR t Ht) as [R1 R2]. apply (any_step pre t st HI R1 R2). apply D. assumption.
        + rewrite E. cbn [bind]. eexists. split; [reflexivity|]. cbn [ms_points ms_polygons ms_edges].
          split; [apply ul_facts|]. split; [reflexivity|]. exact J1.
      - assert (G : forall l pre st, Forall (fun t : triangle N => in_range mp (pg_points (tr_poly t)) /\ length (pg_points (tr_poly t)) = 3%nat) l ->
          Exists (fun t : triangle N => ~ spread_by same mp (pg_points (tr_poly t))) l -> Inv pre st -> foldM body l st = Err (Throw integrity_msg)).
        { induction l as [|t l IH]; intros pre st R2 D2 HI; [inversion D2|]. inversion_clear R2 as [|? ? [Rt L3] Rl].
          destruct (any_step pre t st HI Rt L3) as [S1 S2]. cbn [foldM].
          destruct (spread_dec _ Rt L3) as [H|H].
          - destruct (S1 H) as (st' & E & I'). rewrite E. cbn [bind]. apply (IH (pre ++ [t])); auto.
            inversion_clear D2; [contradiction|assumption].
          - rewrite (S2 H). reflexivity. }
        rewrite (G (dl_triangles d) [] ([], [])); [reflexivity|assumption|assumption|assumption].
    Qed.
  End InitAny.
End Pslg.

(** * The same in exact arithmetic *)
Section PslgR.
  Variable tol : R.
  Hypothesis tol_pos : (0 < tol)%R.
  Notation Pt := (Point RNum).
  Notation lt := (pt_ltb (N := RNum) tol).
  Notation eqp := (pt_eqb (N := RNum) tol).
  Notation sameR := (fun a b : Pt => coincide tol (xy a) (xy b)).
  Notation allR := (fun _ : Pt => True).
  Lemma incomparable_coincide (a b : Pt) : incomparable lt a b <-> coincide tol (xy a) (xy b).
  Proof.
    rewrite <- coincide_iff, (pt_eqb_equivb tol tol_pos). unfold incomparable, equivb. rewrite andb_true_iff, !negb_true_iff. reflexivity.
  Qed.
  Lemma EQ_R (a b : Pt) : allR a -> allR b -> (eqp a b = true <-> sameR a b).
  Proof. intros _ _. apply coincide_iff. Qed.
  Lemma INC_R (a b : Pt) : allR a -> allR b -> (incomparable lt a b <-> sameR a b).
  Proof. intros _ _. apply incomparable_coincide. Qed.
  Lemma build_pslg_correct (r : region RNum) seeds (restricted : list (pseg RNum)) :
    region_made r -> separated tol (fun q => In q (seeds ++ getRegionPoints r)) ->
    exists pl ssegs rsegs vs,
      build_pslg (N := RNum) tol r seeds restricted =
        Ok (mkPslg (N := RNum) (map xy pl) (ssegs ++ rsegs) (map (fun h : hole RNum => xy (h_center h)) (rg_holes r))) /\
      pl = fold_left (set_add eqp) (seeds ++ getRegionPoints r) [] /\ all_apart tol pl /\
      incl pl (seeds ++ getRegionPoints r) /\
      (forall q, In q (seeds ++ getRegionPoints r) -> exists y, In y pl /\ coincide tol (xy y) (xy q)) /\
      (vs = rg_p r \/ vs = rev (rg_p r)) /\
      Forall2 (near_denotes tol pl) ssegs (edges_of vs ++ flat_map (fun h : hole RNum => edges_of (h_points h)) (rg_holes r)) /\
      Forall2 (fun s (e : pseg RNum) => index_near tol pl (fst e) (fst s) /\ index_near tol pl (snd e) (snd s)) rsegs restricted.
  Proof.
    intros HM HS. exact (build_pslg_on (N := RNum) tol allR sameR EQ_R INC_R r seeds restricted HM (pt_swo tol tol_pos _ HS) (fun _ _ => Logic.I) (fun _ _ => conj Logic.I Logic.I)).
  Qed.
  Lemma fold_set_add_equiv_R (xs l : list Pt) : fold_left (set_add (equivb lt)) xs l = fold_left (set_add eqp) xs l.
  Proof. exact (fold_set_add_equiv (N := RNum) tol allR sameR EQ_R INC_R xs l (fun _ _ => Logic.I)). Qed.
  Lemma push_apart (l : list Pt) u is : separated tol (fun q => In q l) -> all_apart tol l ->
    ul_push_list lt ul_empty l = (u, is) -> ul_list u = l /\ is = trivialIndex (length l).
  Proof. intros HS. exact (push_apart_on (N := RNum) tol allR sameR EQ_R INC_R l u is (pt_swo tol tol_pos _ HS) (fun _ _ => Logic.I)). Qed.
End PslgR.

(** * Histories of calls *)
Section Histories.
  Context {N : Num}.
  Variable triangulate : switches -> pslg N -> trout N.
  Variable tol : nT N.

  Lemma do_after g c rd : gn_data g = Some rd -> exists o, gen_do triangulate tol g c = (g, o) /\ answers tol rd c o.
  Proof.
    intros H. unfold gen_do, ensure. rewrite H. eexists. split; [reflexivity|].
    unfold answers. destruct rd as [x|e]; cbn; [|destruct c; reflexivity].
    destruct c; cbn; try reflexivity; destruct (initializeMesh tol (triangle_ctor tol) x); reflexivity.
  Qed.
  Lemma run_after g cs rd : gn_data g = Some rd -> exists os, gen_run triangulate tol g cs = (g, os) /\ Forall2 (answers tol rd) cs os.
  Proof.
    intros H. induction cs as [|c cs IH]; cbn; [eauto using Forall2_nil|].
    destruct (do_after g c rd H) as (o & E & A). rewrite E. destruct IH as (os & E2 & F). rewrite E2. eauto using Forall2_cons.
  Qed.

  Lemma histories seeds r c cs :
    exists g os, gen_run triangulate tol (gen_ctor seeds r) (c :: cs) = (g, os) /\ (length (gn_log g) <= 1)%nat /\
    (forall inp, build_pslg tol (region_copy r) seeds (call_restricted c) = Ok inp ->
       gn_log g = [(call_switches c, inp)] /\
       Forall2 (answers tol (read_output tol (triangulate (call_switches c) inp))) (c :: cs) os).
  Proof.
    set (bp := build_pslg tol (region_copy r) seeds (call_restricted c)).
    set (g1 := fst (callTriangle triangulate tol (gen_ctor seeds r) (call_switches c) (call_restricted c))).
    set (rd := snd (callTriangle triangulate tol (gen_ctor seeds r) (call_switches c) (call_restricted c))).
    assert (H : gn_data g1 = Some rd).
    { unfold g1, rd, callTriangle. cbn. destruct (build_pslg _ _ _ _); reflexivity. }
    assert (E0 : gen_run triangulate tol (gen_ctor seeds r) (c :: cs) = gen_run triangulate tol g1 (c :: cs)).
    { cbn. unfold gen_do at 1 2, ensure. rewrite H. cbn [gen_ctor gn_data].
      unfold g1, rd. cbn [gn_data gen_ctor]. destruct (callTriangle triangulate tol (gen_ctor seeds r) (call_switches c) (call_restricted c)) as [g' r'] eqn:E. reflexivity. }
    destruct (run_after g1 (c :: cs) rd H) as (os & E & F). exists g1, os. rewrite E0, E. split; [reflexivity|].
    unfold g1, rd, callTriangle in *. cbn [gen_ctor gn_region gn_seeds gn_log] in *. fold bp in F |- *. destruct bp as [inp|e]; cbn in *.
    - split; [lia|]. intros inp' Hi. injection Hi as <-. split; [reflexivity|assumption].
    - split; [lia|]. intros inp' Hi. discriminate.
  Qed.

  Lemma dangling g c g' h : gen_do triangulate tol g c = (g', Ok (OutMesh h)) ->
    match c with
    | CallConforming => use h = Err (UB "dangling reference")
    | CallConformingInfo => False
    | _ => exists m, use h = Ok m /\ held (Ok (OutMesh h)) = Ok (Some m)
    end.
  Proof.
    unfold gen_do. destruct (ensure triangulate tol g (call_switches c) (call_restricted c)) as [g1 rd]. intros H.
    assert (H1 : snd (g', Ok (OutMesh h)) = Ok (OutMesh h)) by reflexivity. rewrite <- H in H1. cbn [snd] in H1.
    destruct rd as [x|e]; cbn [bind] in H1; [|discriminate].
    destruct c; try (destruct (initializeMesh tol (triangle_ctor tol) x) as [m|]; cbn [bind] in H1; [|discriminate]);
      try discriminate; injection H1 as <-; cbn; eauto.
  Qed.
End Histories.

(** * Packaged *)
Section Packaged.
  Context {N : Num}.
  Variable tol : nT N.
  Variable Q : Point N -> Prop.
  Variable same : Point N -> Point N -> Prop.
  Hypothesis EQ : forall a b, Q a -> Q b -> (pt_eqb tol a b = true <-> same a b).
  Hypothesis INC : forall a b, Q a -> Q b -> (incomparable (pt_ltb tol) a b <-> same a b).
  Lemma tri_ctor_in_range (p : list (Point N)) t : in_range p t -> three_distinct t ->
    exists g, triangle_ctor (N := N) tol t p = Ok g /\ pg_points (tr_poly g) = t.
  Proof.
    intros H (a & b & c & -> & _). apply vertices_exist in H as (vs & R).
    destruct vs as [|A [|B [|C [|? ?]]]]; try (apply Forall2_len in R; discriminate).
    unfold triangle_ctor. rewrite ctor_idx_ok. cbn [bind]. rewrite (proj2 (tri_vertices_are _ a b c A B C) R). cbn [bind]. eauto.
  Qed.
  Lemma tri_ranges {M : Num} tol0 (o : trout M) d : triangulation (zlen (o_points o)) (map fst (o_edges o)) (o_tris o) -> output_ok tol0 o d ->
    map (fun t : triangle M => pg_points (tr_poly t)) (dl_triangles d) = map corners (o_tris o) /\
    Forall (fun t : triangle M => in_range (dl_meshPoints d) (pg_points (tr_poly t))) (dl_triangles d) /\
    Forall (fun t : triangle M => three_distinct (pg_points (tr_poly t))) (dl_triangles d).
  Proof.
    clear. intros T O. pose proof (oo_tris _ _ _ O) as F. pose proof (tg_corners _ _ _ T) as C. clear T O.
    induction F as [|t tr ts trs (H1 & A & B & C' & c & i & H2 & _) _ IH]; cbn; [auto|].
    destruct IH as (I1 & I2 & I3); [intros; apply C; right; assumption|].
    split; [congruence|]. split; constructor; auto; rewrite H1.
    - apply vertices_exist. eauto.
    - specialize (C t (or_introl eq_refl)). destruct t as [[a b] e]. exists a, b, e. auto.
  Qed.

  Lemma delaunay_mesh_on (o : trout N) d :
    triangulation (zlen (o_points o)) (map fst (o_edges o)) (o_tris o) -> read_output (N := N) tol o = Ok d ->
    strict_weak_order_on (fun q => In q (map read_point (o_points o))) (pt_ltb tol) -> (forall q, In q (map read_point (o_points o)) -> Q q) ->
    apart_by same (map read_point (o_points o)) ->
    exists m mt, initializeMesh (N := N) tol (polygon_ctor_idx (N := N) tol) d = Ok m /\ initializeMesh (N := N) tol (triangle_ctor (N := N) tol) d = Ok mt /\
      ul_list (ms_points m) = map read_point (o_points o) /\ ul_list (ms_points mt) = map read_point (o_points o) /\
      map (fun g : polygon N => pg_points g) (ms_polygons m) = map corners (o_tris o) /\
      map (fun g : triangle N => pg_points (tr_poly g)) (ms_polygons mt) = map corners (o_tris o) /\
      ms_edges m = dl_delaunayEdges d /\ ms_edges mt = dl_delaunayEdges d /\
      forall k q, nth_error (map read_point (o_points o)) k = Some q ->
        snd (pm_get (N := N) tol (ms_pointMap m) q) = positions (fun t => existsb (Z.eqb (Z.of_nat k)) (corners t)) (o_tris o) 0 /\
        snd (pm_get (N := N) tol (ms_pointMap mt) q) = positions (fun t => existsb (Z.eqb (Z.of_nat k)) (corners t)) (o_tris o) 0.
  Proof.
    intros T H W HQ HA. pose proof (read_output_ok (N := N) tol o d T H) as O. destruct (tri_ranges tol o d T O) as (C & R & D).
    pose proof (oo_points _ _ _ O) as EP. rewrite <- EP in *.
    destruct (initializeMesh_good_on tol Q same EQ INC (polygon_ctor_idx (N := N) tol) (fun g : polygon N => pg_points g) d) as (m & M1 & M2 & M3 & M4 & M5); auto.
    { intros t _ _. rewrite ctor_idx_ok. eauto. }
    destruct (initializeMesh_good_on tol Q same EQ INC (triangle_ctor (N := N) tol) (fun g : triangle N => pg_points (tr_poly g)) d) as (mt & N1 & N2 & N3 & N4 & N5); auto.
    { intros t Ht H3. apply tri_ctor_in_range; assumption. }
    exists m, mt. repeat (split; [solve [assumption | congruence]|]).
    intros k q Hk. rewrite (M5 k q Hk), (N5 k q Hk), C, positions_map. auto.
  Qed.

  (** without assuming the points apart *)
  Lemma delaunay_mesh_any_on (o : trout N) d :
    triangulation (zlen (o_points o)) (map fst (o_edges o)) (o_tris o) -> read_output (N := N) tol o = Ok d ->
    strict_weak_order_on (fun q => In q (map read_point (o_points o))) (pt_ltb tol) -> (forall q, In q (map read_point (o_points o)) -> Q q) ->
    (Forall (fun t => spread_by same (map read_point (o_points o)) (corners t)) (o_tris o) ->
     exists m, initializeMesh (N := N) tol (triangle_ctor (N := N) tol) d = Ok m /\
       ul_list (ms_points m) = fold_left (set_add (pt_eqb (N := N) tol)) (map read_point (o_points o)) [] /\
       ms_edges m = dl_delaunayEdges d /\
       Forall2 (fun t (g : triangle N) => Forall2 (fun k i => exists q, nth_error (map read_point (o_points o)) (Z.to_nat k) = Some q /\
           index_by same (ul_list (ms_points m)) q i /\ 0 <= i) (corners t) (pg_points (tr_poly g))) (o_tris o) (ms_polygons m)) /\
    (Exists (fun t => ~ spread_by same (map read_point (o_points o)) (corners t)) (o_tris o) ->
     initializeMesh (N := N) tol (triangle_ctor (N := N) tol) d = Err (Throw integrity_msg)).
  Proof.
    intros T H W HQ. pose proof (read_output_ok (N := N) tol o d T H) as O. destruct (tri_ranges tol o d T O) as (C & R & D).
    pose proof (oo_points _ _ _ O) as EP. rewrite <- EP in *.
    destruct (ul_push_list (pt_ltb (N := N) tol) ul_empty (dl_meshPoints d)) as [u is] eqn:Eu.
    destruct (initializeMesh_any_on tol Q same EQ INC (triangle_ctor (N := N) tol) (fun g : triangle N => pg_points (tr_poly g)) d) with (u := u) (is := is) as [G1 G2]; auto.
    { intros t Ht H3. apply tri_ctor_in_range; assumption. }
    { rewrite Forall_forall in *. intros t Ht. split; [auto|]. destruct (D t Ht) as (a & b & c & -> & _). reflexivity. }
    clear Eu EP W HQ T H O R D. split; intros X.
    - destruct G1 as (m & M1 & M2 & M3 & M4).
      { rewrite <- Forall_map, C, Forall_map. assumption. }
      exists m. split; [assumption|]. split; [assumption|]. split; [assumption|].
      clear - C M4. revert C M4. generalize (o_tris o) (ms_polygons m).
      induction (dl_triangles d) as [|t ts IH]; intros [|t' ts'] gs C M4; try discriminate; inversion M4; subst; constructor.
      + injection C as C1 C2. rewrite <- C1. assumption.
      + injection C as C1 C2. apply IH; assumption.
    - apply G2. apply (proj1 (Exists_map (fun t : triangle N => pg_points (tr_poly t)) (fun t => ~ spread_by same (dl_meshPoints d) t) (dl_triangles d))).
      rewrite C. apply Exists_map. assumption.
  Qed.
End Packaged.

Lemma delaunay_mesh (tol : R) : (0 < tol)%R -> forall (o : trout RNum) d,
  triangulation (zlen (o_points o)) (map fst (o_edges o)) (o_tris o) -> read_output (N := RNum) tol o = Ok d ->
  separated tol (fun q => In q (map read_point (o_points o))) -> all_apart tol (map read_point (o_points o)) ->
  exists m mt, initializeMesh (N := RNum) tol (polygon_ctor_idx (N := RNum) tol) d = Ok m /\ initializeMesh (N := RNum) tol (triangle_ctor (N := RNum) tol) d = Ok mt /\
    ul_list (ms_points m) = map read_point (o_points o) /\ ul_list (ms_points mt) = map read_point (o_points o) /\
    map (fun g : polygon RNum => pg_points g) (ms_polygons m) = map corners (o_tris o) /\
    map (fun g : triangle RNum => pg_points (tr_poly g)) (ms_polygons mt) = map corners (o_tris o) /\
    ms_edges m = dl_delaunayEdges d /\ ms_edges mt = dl_delaunayEdges d /\
    forall k q, nth_error (map read_point (o_points o)) k = Some q ->
      snd (pm_get (N := RNum) tol (ms_pointMap m) q) = positions (fun t => existsb (Z.eqb (Z.of_nat k)) (corners t)) (o_tris o) 0 /\
      snd (pm_get (N := RNum) tol (ms_pointMap mt) q) = positions (fun t => existsb (Z.eqb (Z.of_nat k)) (corners t)) (o_tris o) 0.
Proof.
  intros tol_pos o d T H HS. exact (delaunay_mesh_on (N := RNum) tol _ _ (EQ_R tol) (INC_R tol tol_pos) o d T H (pt_swo tol tol_pos _ HS) (fun _ _ => Logic.I)).
Qed.
Lemma delaunay_mesh_any (tol : R) : (0 < tol)%R -> forall (o : trout RNum) d,
  triangulation (zlen (o_points o)) (map fst (o_edges o)) (o_tris o) -> read_output (N := RNum) tol o = Ok d ->
  separated tol (fun q => In q (map read_point (o_points o))) ->
  (Forall (fun t => spread tol (map read_point (o_points o)) (corners t)) (o_tris o) ->
   exists m, initializeMesh (N := RNum) tol (triangle_ctor (N := RNum) tol) d = Ok m /\
     ul_list (ms_points m) = fold_left (set_add (pt_eqb (N := RNum) tol)) (map read_point (o_points o)) [] /\
     ms_edges m = dl_delaunayEdges d /\
     Forall2 (fun t (g : triangle RNum) => Forall2 (fun k i => exists q, nth_error (map read_point (o_points o)) (Z.to_nat k) = Some q /\
         index_near tol (ul_list (ms_points m)) q i /\ 0 <= i) (corners t) (pg_points (tr_poly g))) (o_tris o) (ms_polygons m)) /\
  (Exists (fun t => ~ spread tol (map read_point (o_points o)) (corners t)) (o_tris o) ->
   initializeMesh (N := RNum) tol (triangle_ctor (N := RNum) tol) d = Err (Throw integrity_msg)).
Proof.
  intros tol_pos o d T H HS. exact (delaunay_mesh_any_on (N := RNum) tol _ _ (EQ_R tol) (INC_R tol tol_pos) o d T H (pt_swo tol tol_pos _ HS) (fun _ _ => Logic.I)).
Qed.
