(** Proofs about the hash and point maps. *)
From Coq Require Import Reals Lra ZifyBool.
From Verif Require Import Base Spec MUtil MGeom MMaps Bridge PUtil PPoint.

Lemma pair_eqb_iff a b : pair_eqb a b = true <-> a = b.
Proof. destruct a, b; unfold pair_eqb; cbn. rewrite andb_true_iff, !Z.eqb_eq. split; [intros [-> ->]; reflexivity|intros E; injection E; auto]. Qed.

Lemma canon_iff a b : canon a = canon b <-> (a = b \/ a = (snd b, fst b)).
Proof.
  destruct a as [a1 a2], b as [b1 b2]; unfold canon; cbn. split.
  - intros E. injection E as E1 E2.
    assert ((a1 = b1 /\ a2 = b2) \/ (a1 = b2 /\ a2 = b1)) as [[-> ->]|[-> ->]] by lia; auto.
  - intros [E|E]; injection E as -> ->; [reflexivity|]. f_equal; lia.
Qed.

Lemma canon_swap s : canon (snd s, fst s) = canon s.
Proof. apply canon_iff. destruct s; cbn; auto. Qed.

Lemma iseg_eqb_iff a b : iseg_eqb a b = true <-> canon a = canon b.
Proof. unfold iseg_eqb, canon. destruct a, b; cbn. split; [intros; f_equal; lia|intros E; injection E; lia]. Qed.
Lemma key_eqb_iff a b : key_eqb a b = true <-> canon a = canon b.
Proof. exact (iseg_eqb_iff a b). Qed.
Lemma nb_eqb_iff a b : nb_eqb a b = true <-> canon a = canon b.
Proof. exact (iseg_eqb_iff a b). Qed.
Lemma edge_eqb_iff a b : edge_eqb a b = true <-> canon (e_p1 a, e_p2 a) = canon (e_p1 b, e_p2 b).
Proof. unfold edge_eqb, canon; cbn. split; [intros; f_equal; lia|intros E; injection E; lia]. Qed.

Lemma iseg_eqb_canon a b : iseg_eqb a b = pair_eqb (canon a) (canon b).
Proof. apply eq_true_iff_eq. rewrite iseg_eqb_iff, pair_eqb_iff. reflexivity. Qed.

Lemma pair_hash_canon a b : canon a = canon b -> pair_hash (fst a) (snd a) = pair_hash (fst b) (snd b).
Proof.
  rewrite canon_iff. intros [->| ->]; [reflexivity|]. cbn. unfold pair_hash. rewrite Z.add_comm. reflexivity.
Qed.

(** equality implies the same bucket, whatever the number of buckets *)
Lemma match_in_eqb nb a b : match_in iseg_hash iseg_eqb nb a b = iseg_eqb a b.
Proof.
  unfold match_in. destruct (iseg_eqb a b) eqn:E; [|apply andb_false_r].
  apply iseg_eqb_iff in E. apply pair_hash_canon in E. unfold iseg_hash. rewrite E, Z.eqb_refl. reflexivity.
Qed.
Lemma match_in_key nb a b : match_in key_hash key_eqb nb a b = key_eqb a b.
Proof. exact (match_in_eqb nb a b). Qed.

Section UMapProofs.
  Context {K V : Type}.
  Lemma um_find_ext (m1 m2 : K -> K -> bool) k1 k2 (m : umap K V) :
    (forall k', m1 k' k1 = m2 k' k2) -> um_find m1 k1 m = um_find m2 k2 m.
  Proof. intros H. induction m as [|[k' v] m IH]; cbn; [reflexivity|]. rewrite H, IH. reflexivity. Qed.
  Lemma um_update_ext (m1 m2 : K -> K -> bool) k1 k2 f (m : umap K V) :
    (forall k', m1 k' k1 = m2 k' k2) -> um_update m1 k1 f m = um_update m2 k2 f m.
  Proof. intros H. induction m as [|[k' v] m IH]; cbn; [reflexivity|]. rewrite H, IH. reflexivity. Qed.

  Lemma um_add_length k v (m : umap K V) : length (um_add k v m) = S (length m).
  Proof. unfold um_add. rewrite app_length. cbn. lia. Qed.

  Variable mt : K -> K -> bool.
  Hypothesis mt_trans : forall a b c, mt a b = true -> mt a c = mt b c.
  Hypothesis mt_sym : forall a b, mt a b = mt b a.

  Lemma um_find_add k k' v (m : umap K V) :
    um_find mt k (um_add k' v m) =
    match um_find mt k m with Some w => Some w | None => if mt k' k then Some v else None end.
  Proof.
    unfold um_add. induction m as [|[a w] m IH]; cbn; [reflexivity|].
    destruct (mt a k); [reflexivity|exact IH].
  Qed.
  Lemma um_find_update k k' f (m : umap K V) :
    um_find mt k (um_update mt k' f m) =
    if mt k' k then option_map f (um_find mt k m) else um_find mt k m.
  Proof.
    induction m as [|[a w] m IH]; cbn; [destruct (mt k' k); reflexivity|].
    destruct (mt a k') eqn:E1; cbn.
    - rewrite (mt_trans _ _ k E1). destruct (mt k' k); reflexivity.
    - destruct (mt a k) eqn:E2; [|exact IH].
      destruct (mt k' k) eqn:E3; [|reflexivity].
      rewrite mt_sym in E3. rewrite (mt_trans _ _ k' E2), E3 in E1. discriminate.
  Qed.
  Lemma um_update_length k f (m : umap K V) : length (um_update mt k f m) = length m.
  Proof. induction m as [|[a w] m IH]; cbn; [reflexivity|]. destruct (mt a k); cbn; auto. Qed.
End UMapProofs.

Lemma iseg_eqb_sym a b : iseg_eqb a b = iseg_eqb b a.
Proof. apply eq_true_iff_eq. rewrite !iseg_eqb_iff. split; auto. Qed.
Lemma iseg_eqb_trans a b c : iseg_eqb a b = true -> iseg_eqb a c = iseg_eqb b c.
Proof. intros H. apply iseg_eqb_iff in H. apply eq_true_iff_eq. rewrite !iseg_eqb_iff, H. reflexivity. Qed.
Lemma iseg_eqb_refl a : iseg_eqb a a = true.
Proof. apply iseg_eqb_iff. reflexivity. Qed.

Lemma um_find_match {V} nb nb' s s' (m : umap iseg V) :
  canon s = canon s' -> um_find (iseg_match nb) s m = um_find (iseg_match nb') s' m.
Proof.
  intros H. apply um_find_ext. intros k. unfold iseg_match. rewrite !match_in_eqb.
  rewrite (iseg_eqb_sym k s), (iseg_eqb_sym k s'). apply iseg_eqb_trans. apply iseg_eqb_iff. exact H.
Qed.

Lemma um_find_key {V} nb nb' s s' (m : umap key V) :
  canon s = canon s' -> um_find (match_in key_hash key_eqb nb) s m = um_find (match_in key_hash key_eqb nb') s' m.
Proof. exact (um_find_match nb nb' s s' m). Qed.

(** * C08 *)
Lemma sm_find_eqb {V} nb s (m : umap iseg V) : um_find (iseg_match nb) s m = um_find iseg_eqb s m.
Proof. apply um_find_ext. intros k. apply match_in_eqb. Qed.
Lemma sm_update_eqb {V} nb s f (m : umap iseg V) : um_update (iseg_match nb) s f m = um_update iseg_eqb s f m.
Proof. apply um_update_ext. intros k. apply match_in_eqb. Qed.

Lemma sm_step_find m c s :
  um_find iseg_eqb s (sm_step m c) =
  if iseg_eqb (sm_op_segment (snd c)) s then
    match snd c, um_find iseg_eqb s m with
    | SmInsert _ i, None => Some (mkNb (Some i) (-1))
    | SmInsert _ i, Some n => Some (mkNb (nb1 n) i)
    | SmPut _ n, _ => Some n
    | SmGet _, None => Some (mkNb None (-1))
    | SmGet _, Some n => Some n
    end else um_find iseg_eqb s m.
Proof.
  assert (Hsame : forall s', iseg_eqb s' s = true -> um_find iseg_eqb s' m = um_find iseg_eqb s m).
  { intros s' H. apply um_find_ext. intros k. rewrite !(iseg_eqb_sym k). apply iseg_eqb_trans. exact H. }
  destruct c as [nb [s' i|s' n|s']]; cbn [snd sm_op_segment]; unfold sm_step, sm_insert, sm_put, sm_get; cbn [fst snd];
    rewrite sm_find_eqb.
  - destruct (um_find iseg_eqb s' m) as [n0|] eqn:E1.
    + rewrite sm_update_eqb, um_find_update by (apply iseg_eqb_trans || apply iseg_eqb_sym).
      destruct (iseg_eqb s' s) eqn:E2; [|reflexivity]. rewrite <- (Hsame s' E2), E1. reflexivity.
    + rewrite um_find_add. destruct (iseg_eqb s' s) eqn:E2.
      * rewrite <- (Hsame s' E2), E1. reflexivity.
      * destruct (um_find iseg_eqb s m); reflexivity.
  - destruct (um_find iseg_eqb s' m) as [n0|] eqn:E1.
    + rewrite sm_update_eqb, um_find_update by (apply iseg_eqb_trans || apply iseg_eqb_sym).
      destruct (iseg_eqb s' s) eqn:E2; [|reflexivity]. rewrite <- (Hsame s' E2), E1. reflexivity.
    + rewrite um_find_add. destruct (iseg_eqb s' s) eqn:E2.
      * rewrite <- (Hsame s' E2), E1. reflexivity.
      * destruct (um_find iseg_eqb s m); reflexivity.
  - destruct (um_find iseg_eqb s' m) as [n0|] eqn:E1; cbn [fst].
    + destruct (iseg_eqb s' s) eqn:E2; [|reflexivity]. rewrite <- (Hsame s' E2), E1. reflexivity.
    + rewrite um_find_add. destruct (iseg_eqb s' s) eqn:E2.
      * rewrite <- (Hsame s' E2), E1. reflexivity.
      * destruct (um_find iseg_eqb s m); reflexivity.
Qed.

Lemma sm_run_find_from h m f s :
  (forall s, um_find iseg_eqb s m = f (canon s)) ->
  um_find iseg_eqb s (fold_left sm_step h m) = fold_left spec_sm_step (map snd h) f (canon s).
Proof.
  revert m f; induction h as [|c h IH]; intros m f H; cbn [fold_left map]; [apply H|].
  apply IH. intros s'. rewrite sm_step_find. unfold spec_sm_step.
  rewrite iseg_eqb_canon.
  replace (pair_eqb (canon s') (canon (sm_op_segment (snd c)))) with (pair_eqb (canon (sm_op_segment (snd c))) (canon s')).
  - rewrite H. reflexivity.
  - apply eq_true_iff_eq. rewrite !pair_eqb_iff. split; auto.
Qed.

(** the abstract map has a value exactly for the touched segments *)
Lemma spec_sm_touched h f k :
  (fold_left spec_sm_step h f k <> None) <-> (f k <> None \/ exists o, In o h /\ canon (sm_op_segment o) = k).
Proof.
  revert f; induction h as [|o h IH]; intros f; cbn [fold_left].
  - split; [auto|]. intros [H|[o [[] _]]]. exact H.
  - rewrite IH. unfold spec_sm_step at 1. destruct (pair_eqb k (canon (sm_op_segment o))) eqn:E.
    + apply pair_eqb_iff in E. split.
      * intros _. right. exists o. split; [left; reflexivity|auto].
      * intros _. left. destruct o, (f k); discriminate.
    + split.
      * intros [H|[o' [H1 H2]]]; [auto|right; exists o'; split; [right; exact H1|exact H2]].
      * intros [H|[o' [[<-|H1] H2]]]; [auto| |right; eauto].
        exfalso. rewrite H2 in E. assert (pair_eqb k k = true) by (apply pair_eqb_iff; reflexivity). congruence.
Qed.

(** size *)
Lemma sm_size_from h m seen :
  (forall s, um_find iseg_eqb s m <> None <-> set_mem iseg_eqb s seen = true) -> length m = length seen ->
  length (fold_left sm_step h m) = length (fold_left (set_add iseg_eqb) (map (fun c => sm_op_segment (snd c)) h) seen).
Proof.
  revert m seen; induction h as [|c h IH]; intros m seen Hs Hl; cbn [fold_left map]; [exact Hl|].
  apply IH.
  - intros s. rewrite sm_step_find. unfold set_add. specialize (Hs s) as Hs'.
    destruct (iseg_eqb (sm_op_segment (snd c)) s) eqn:E.
    + assert (Hm : set_mem iseg_eqb s (if set_mem iseg_eqb (sm_op_segment (snd c)) seen then seen else seen ++ [sm_op_segment (snd c)]) = true).
      { destruct (set_mem iseg_eqb (sm_op_segment (snd c)) seen) eqn:E1.
        - unfold set_mem in *. rewrite existsb_exists in *. destruct E1 as [x [H1 H2]]. exists x. split; [exact H1|].
          rewrite <- (iseg_eqb_trans _ _ x E). exact H2.
        - unfold set_mem. rewrite existsb_app. cbn. rewrite iseg_eqb_sym, E. rewrite orb_true_r. reflexivity. }
      rewrite Hm. split; [reflexivity|]. intros _. destruct (snd c), (um_find iseg_eqb s m); discriminate.
    + rewrite Hs'. destruct (set_mem iseg_eqb (sm_op_segment (snd c)) seen); [reflexivity|].
      unfold set_mem. rewrite existsb_app. cbn. rewrite (iseg_eqb_sym s), E, orb_false_r. reflexivity.
  - unfold set_add. specialize (Hs (sm_op_segment (snd c))).
    assert (Hlen : length (sm_step m c) =
      match um_find iseg_eqb (sm_op_segment (snd c)) m with Some _ => length m | None => S (length m) end).
    { destruct c as [nb [s i|s n|s]]; cbn [snd sm_op_segment]; unfold sm_step, sm_insert, sm_put, sm_get; cbn [fst snd];
        rewrite sm_find_eqb; destruct (um_find iseg_eqb s m); cbn [fst]; rewrite ?um_update_length, ?um_add_length; reflexivity. }
    rewrite Hlen. clear Hlen. destruct (set_mem iseg_eqb (sm_op_segment (snd c)) seen) eqn:E2.
    + destruct (um_find iseg_eqb (sm_op_segment (snd c)) m); [exact Hl|]. exfalso. apply (proj2 Hs); reflexivity.
    + rewrite app_length. cbn. destruct (um_find iseg_eqb (sm_op_segment (snd c)) m); [|lia].
      exfalso. assert (false = true) by (apply Hs; discriminate). discriminate.
Qed.

Lemma segmap_refines : forall h : list (Z * sm_op),
  let m := sm_run h in
  (forall nb s, um_find (iseg_match nb) s m = spec_sm_run (map snd h) (canon s)) /\
  (forall nb s, sm_contains (iseg_match nb) m s = true <-> exists o, In o (map snd h) /\ canon (sm_op_segment o) = canon s) /\
  (forall nb s n, spec_sm_run (map snd h) (canon s) = Some n -> sm_get (iseg_match nb) m s = (m, n)) /\
  sm_size m = zlen (fold_left (set_add (fun a b => pair_eqb (canon a) (canon b))) (map sm_op_segment (map snd h)) []).
Proof.
  intros h m.
  assert (F : forall nb s, um_find (iseg_match nb) s m = spec_sm_run (map snd h) (canon s)).
  { intros nb s. rewrite sm_find_eqb. apply sm_run_find_from. reflexivity. }
  split; [exact F|]. split; [|split].
  - intros nb s. unfold sm_contains. rewrite F.
    pose proof (spec_sm_touched (map snd h) (fun _ => None) (canon s)) as T. fold (spec_sm_run (map snd h)) in T.
    destruct (spec_sm_run (map snd h) (canon s)).
    + split; [intros _|reflexivity]. assert (Some n <> None) as H by discriminate. apply T in H as [H|H]; [congruence|exact H].
    + split; [discriminate|]. intros H. exfalso. assert (@None nbseg <> None) by (apply T; right; exact H). congruence.
  - intros nb s n H. unfold sm_get. rewrite F, H. reflexivity.
  - unfold sm_size, zlen. f_equal. unfold m, sm_run. rewrite (sm_size_from h [] []).
    + rewrite map_map. f_equal.
      assert (G : forall l acc, fold_left (set_add iseg_eqb) l acc =
                  fold_left (set_add (fun a b => pair_eqb (canon a) (canon b))) l acc); [|apply G].
      induction l as [|x l IH]; intros acc; cbn [fold_left]; [reflexivity|].
      rewrite IH. f_equal. unfold set_add, set_mem. cbn.
      assert (existsb (iseg_eqb x) acc = existsb (fun b => pair_eqb (canon x) (canon b)) acc) as ->; [|reflexivity].
      clear. induction acc as [|a acc IH]; cbn; [reflexivity|]. rewrite IH, iseg_eqb_canon. reflexivity.
    + intros s. cbn. split; [congruence|discriminate].
    + reflexivity.
Qed.

(** insertions only: first and last *)
Lemma spec_sm_inserts h s :
  forallb is_insert h = true ->
  spec_sm_run h (canon s) =
  match inserted_at s h with
  | [] => None
  | i :: rest => Some (mkNb (Some i) (last rest (-1)))
  end.
Proof.
  unfold spec_sm_run. induction h as [|o h IH] using rev_ind; [reflexivity|].
  rewrite forallb_app, fold_left_app. cbn [forallb fold_left]. rewrite andb_true_r, andb_true_iff. intros [H1 H2].
  specialize (IH H1). unfold inserted_at in *. rewrite flat_map_app. cbn [flat_map]. rewrite app_nil_r.
  destruct o as [s' i| |]; try discriminate. unfold spec_sm_step at 1. cbn [sm_op_segment].
  rewrite IH.
  replace (pair_eqb (canon s) (canon s')) with (pair_eqb (canon s') (canon s))
    by (apply eq_true_iff_eq; rewrite !pair_eqb_iff; split; auto).
  destruct (pair_eqb (canon s') (canon s)); [|rewrite app_nil_r; reflexivity].
  destruct (flat_map _ h) as [|j rest]; cbn [app]; [reflexivity|]. cbn [nb1].
  rewrite last_last. reflexivity.
Qed.

Lemma segmap_inserts : forall (h : list (Z * sm_op)) nb s i rest,
  forallb is_insert (map snd h) = true -> inserted_at s (map snd h) = i :: rest ->
  sm_get (iseg_match nb) (sm_run h) s = (sm_run h, mkNb (Some i) (last rest (-1))).
Proof.
  intros h nb s i rest H1 H2. destruct (segmap_refines h) as (_ & _ & H & _). apply H.
  rewrite spec_sm_inserts by assumption. rewrite H2. reflexivity.
Qed.

(** * C09 *)
Lemma segmap_get_impure : forall (m : segmap) nb s,
  sm_contains (iseg_match nb) m s = false ->
  exists m', sm_get (iseg_match nb) m s = (m', mkNb None (-1)) /\
    sm_size m' = (sm_size m + 1)%Z /\ sm_contains (iseg_match nb) m' s = true /\
    forall i, sm_get (iseg_match nb) (sm_insert (iseg_match nb) m' s i) s =
              (sm_insert (iseg_match nb) m' s i, mkNb None i).
Proof.
  intros m nb s H. unfold sm_contains in H. destruct (um_find (iseg_match nb) s m) eqn:E; [discriminate|].
  exists (um_add s nb_default m).
  assert (F : um_find (iseg_match nb) s (um_add s nb_default m) = Some nb_default).
  { rewrite um_find_add, E. unfold iseg_match. rewrite match_in_eqb, iseg_eqb_refl. reflexivity. }
  split; [unfold sm_get; rewrite E; reflexivity|].
  split; [unfold sm_size, zlen; rewrite um_add_length; lia|].
  split; [unfold sm_contains; rewrite F; reflexivity|].
  intros i. unfold sm_get at 1. unfold sm_insert at 1 2. rewrite F.
  rewrite sm_find_eqb, sm_update_eqb, um_find_update by (apply iseg_eqb_trans || apply iseg_eqb_sym).
  rewrite sm_find_eqb in F. rewrite F, iseg_eqb_refl. cbn. unfold sm_insert. rewrite sm_find_eqb, F, sm_update_eqb. reflexivity.
Qed.

(** * C06 *)
Lemma iseg_ltb_total : forall a b c : iseg,
  iseg_ltb a a = false /\ (iseg_ltb a b = true -> iseg_ltb b c = true -> iseg_ltb a c = true) /\
  (a <> b -> iseg_ltb a b = true \/ iseg_ltb b a = true) /\
  (iseg_ltb a b = true -> iseg_ltb b a = false).
Proof.
  assert (L : forall a b, iseg_ltb a b = true <-> (fst a < fst b \/ (fst a = fst b /\ snd a < snd b))%Z).
  { intros [a1 a2] [b1 b2]. unfold iseg_ltb; cbn [fst snd]. destruct (Z.eqb_spec a1 b1); lia. }
  intros a b c. split; [|split; [|split]].
  - destruct (iseg_ltb a a) eqn:E; [|reflexivity]. apply L in E. lia.
  - rewrite !L. lia.
  - intros H. rewrite !L. destruct a as [a1 a2], b as [b1 b2]; cbn [fst snd].
    assert (a1 <> b1 \/ a2 <> b2) by (destruct (Z.eq_dec a1 b1), (Z.eq_dec a2 b2); subst; auto; congruence). lia.
  - intros H. destruct (iseg_ltb b a) eqn:E; [|reflexivity]. apply L in E. apply L in H. lia.
Qed.

(** * C10 *)
Section PointMapProofs.
  Context {N : Num}.
  Variable tol : nT N.
  Variable P : Point N -> Prop.
  Let lt := pt_ltb (N := N) tol.
  Hypothesis W : strict_weak_order_on P lt.

  Lemma pm_find_equiv (m : pmap N) p q : om_keys P m -> om_sorted lt m -> P p -> P q ->
    equivb lt p q = true -> om_find lt p m = om_find lt q m.
  Proof.
    intros Pm Sm Pp Pq H.
    assert (Hi : incomparable lt p q) by (apply eqv_iff; exact H).
    destruct (om_find lt q m) as [l|] eqn:E.
    - apply (om_find_some P lt W) in E; auto. destruct E as [k [H1 H2]].
      apply (om_find_some P lt W); auto. exists k. split; auto.
      eapply (swo_incomp _ _ W k q p); auto; [eapply Pm; eauto|]. destruct Hi; split; auto.
    - destruct (om_find lt p m) as [l|] eqn:E'; [|reflexivity].
      apply (om_find_some P lt W) in E'; auto. destruct E' as [k [H1 H2]].
      exfalso. eapply (proj1 (om_find_none P lt W q m Pm Sm Pq) E k l); auto.
      eapply (swo_incomp _ _ W k p q); auto; eapply Pm; eauto.
  Qed.

  Lemma om_find_unique_in (m : pmap N) p k l : om_keys P m -> om_sorted lt m -> P p ->
    In (k, l) m -> incomparable lt k p -> om_find lt p m = Some l.
  Proof. intros. apply (om_find_some P lt W); auto. exists k. auto. Qed.

  Lemma om_find_insert (m : pmap N) p v q : om_keys P m -> om_sorted lt m -> P p -> P q ->
    om_find lt p m = None ->
    om_find lt q (om_insert lt p v m) = if equivb lt p q then Some v else om_find lt q m.
  Proof.
    intros Pm Sm Pp Pq Hn.
    assert (Pm' : om_keys P (om_insert lt p v m)) by (apply om_insert_keys; auto).
    assert (Sm' : om_sorted lt (om_insert lt p v m)) by (apply (om_insert_sorted P); auto).
    destruct (equivb lt p q) eqn:E.
    - apply (om_find_some P lt W); auto. exists p. split; [|apply eqv_iff; exact E].
      apply (om_insert_in P); auto.
    - destruct (om_find lt q m) as [l|] eqn:F.
      + apply (om_find_some P lt W) in F; auto. destruct F as [k [H1 H2]].
        apply (om_find_some P lt W); auto. exists k. split; auto. apply (om_insert_in P); auto.
      + apply (om_find_none P lt W); auto. intros k l Hin Hinc. apply (om_insert_in P) in Hin; auto.
        destruct Hin as [Hin|Hin].
        * injection Hin as -> ->. apply eqv_iff in Hinc. fold lt in Hinc. congruence.
        * eapply (proj1 (om_find_none P lt W q m Pm Sm Pq) F); eauto.
  Qed.

  Lemma om_update_keys' (m : pmap N) p f : om_keys P m -> om_keys P (om_update lt p f m).
  Proof.
    intros Pm k v Hin. apply (in_map fst) in Hin. rewrite om_update_keylist in Hin. cbn in Hin.
    apply in_map_iff in Hin as [[k' v'] [<- Hin]]. eapply Pm; eauto.
  Qed.
  Lemma om_update_sorted' (m : pmap N) p f : om_sorted lt m -> om_sorted lt (om_update lt p f m).
  Proof. intros Sm. apply om_sorted_keylist. rewrite om_update_keylist. apply om_sorted_keylist. exact Sm. Qed.

  Lemma om_find_update (m : pmap N) p f q : om_keys P m -> om_sorted lt m -> P p -> P q ->
    om_find lt q (om_update lt p f m) = if equivb lt p q then option_map f (om_find lt q m) else om_find lt q m.
  Proof.
    intros Pm Sm Pp Pq.
    assert (Pm' := om_update_keys' m p f Pm). assert (Sm' := om_update_sorted' m p f Sm).
    destruct (equivb lt p q) eqn:E.
    - assert (Hi : incomparable lt p q) by (apply eqv_iff; exact E).
      destruct (om_find lt q m) as [l|] eqn:F; cbn.
      + apply (om_find_some P lt W) in F; auto. destruct F as [k [H1 H2]].
        apply (om_find_some P lt W); auto. exists k. split; auto.
        apply (om_update_in P lt W); auto. right. exists l. split; auto. split; auto.
        eapply (swo_incomp _ _ W k q p); auto; [eapply Pm; eauto|destruct Hi; split; auto].
      + apply (om_find_none P lt W); auto. intros k l Hin Hinc. apply (om_update_in P lt W) in Hin; auto.
        destruct Hin as [[Hin _]|[l' [Hin _]]]; eapply (proj1 (om_find_none P lt W q m Pm Sm Pq) F); eauto.
    - assert (Hne : forall k, P k -> incomparable lt k q -> ~ incomparable lt k p).
      { intros k Pk H1 H2. assert (incomparable lt p q) as H3.
        { eapply (swo_incomp _ _ W p k q); auto. destruct H2; split; auto. }
        apply eqv_iff in H3. fold lt in H3. congruence. }
      destruct (om_find lt q m) as [l|] eqn:F.
      + apply (om_find_some P lt W) in F; auto. destruct F as [k [H1 H2]].
        apply (om_find_some P lt W); auto. exists k. split; auto.
        apply (om_update_in P lt W); auto. left. split; auto. apply Hne; auto. eapply Pm; eauto.
      + apply (om_find_none P lt W); auto. intros k l Hin Hinc. apply (om_update_in P lt W) in Hin; auto.
        destruct Hin as [[Hin _]|[l' [Hin _]]]; eapply (proj1 (om_find_none P lt W q m Pm Sm Pq) F); eauto.
  Qed.

  Lemma om_insert_length (m : pmap N) p v : om_find lt p m = None -> length (om_insert lt p v m) = S (length m).
  Proof.
    induction m as [|[k w] m IH]; cbn; [reflexivity|].
    destruct (lt k p) eqn:E1; [intros H; cbn; rewrite IH; auto|].
    destruct (lt p k); [reflexivity|discriminate].
  Qed.

  Definition pm_ok (m : pmap N) (h : list (pm_op N)) : Prop :=
    om_keys P m /\ om_sorted lt m /\
    (forall q, P q -> om_find lt q m =
       if existsb (fun o => equivb lt (pm_op_point o) q) h then Some (pm_collected (equivb lt) q h) else None) /\
    length m = length (fold_left (set_add (equivb lt)) (map pm_op_point h) []).

  Lemma pm_step_generic m h p l o :
    (forall x, In x (map pm_op_point h) -> P x) -> pm_ok m h -> P p -> pm_op_point o = p -> pm_op_indices o = l ->
    pm_ok (match om_find lt p m with
           | None => om_insert lt p l m
           | Some _ => om_update lt p (fun l0 => l0 ++ l) m end) (h ++ [o]).
  Proof.
    intros HP (Pm & Sm & F & L) Pp Eo El.
    assert (Hc : forall q, pm_collected (equivb lt) q (h ++ [o]) =
      pm_collected (equivb lt) q h ++ (if equivb lt p q then l else [])).
    { intros q. unfold pm_collected. rewrite flat_map_app. cbn [flat_map]. rewrite Eo, El, app_nil_r. reflexivity. }
    assert (He : forall q, existsb (fun o => equivb lt (pm_op_point o) q) (h ++ [o]) =
      existsb (fun o => equivb lt (pm_op_point o) q) h || equivb lt p q).
    { intros q. rewrite existsb_app. cbn. rewrite Eo, orb_false_r. reflexivity. }
    assert (Hsz : length (fold_left (set_add (equivb lt)) (map pm_op_point (h ++ [o])) []) =
      (length (fold_left (set_add (equivb lt)) (map pm_op_point h) []) +
       if set_mem (equivb lt) p (fold_left (set_add (equivb lt)) (map pm_op_point h) []) then 0 else 1)%nat).
    { rewrite map_app, fold_left_app. cbn. rewrite Eo. unfold set_add at 1.
      destruct (set_mem _ _ _); [lia|rewrite app_length; cbn; lia]. }
    (* membership in the accumulated distinct points *)
    assert (Hmem : forall pts acc, (forall x, In x pts -> P x) -> (forall x, In x acc -> P x) ->
       set_mem (equivb lt) p (fold_left (set_add (equivb lt)) pts acc) =
       set_mem (equivb lt) p acc || existsb (fun x => equivb lt x p) pts).
    { induction pts as [|x pts IH]; intros acc H1 H2; cbn [fold_left existsb]; [rewrite orb_false_r; reflexivity|].
      rewrite IH.
      - unfold set_add. destruct (set_mem (equivb lt) x acc) eqn:E.
        + destruct (equivb lt x p) eqn:E2; cbn; [|rewrite ?orb_assoc; reflexivity].
          assert (set_mem (equivb lt) p acc = true) as ->; [|reflexivity].
          unfold set_mem in *. rewrite existsb_exists in *. destruct E as [y [Hy1 Hy2]]. exists y. split; auto.
          apply eqv_iff. apply eqv_iff in Hy2. apply eqv_iff in E2.
          eapply (swo_incomp _ _ W p x y); auto. { apply H1; left; reflexivity. } destruct E2; split; auto.
        + unfold set_mem. rewrite existsb_app. cbn. rewrite orb_false_r.
          assert (equivb lt p x = equivb lt x p) as -> by (unfold equivb; apply andb_comm).
          rewrite orb_assoc. reflexivity.
      - intros y Hy. apply H1. right. exact Hy.
      - intros y. unfold set_add. destruct (set_mem (equivb lt) x acc); [apply H2|].
        intros Hy. apply in_app_or in Hy as [Hy|[<-|[]]]; [apply H2; auto|apply H1; left; reflexivity]. }
    assert (Hq : forall q, P q -> equivb lt p q = true ->
       existsb (fun o => equivb lt (pm_op_point o) q) h = match om_find lt p m with Some _ => true | None => false end).
    { intros q Pq E2. rewrite (pm_find_equiv m p q Pm Sm Pp Pq E2), (F q Pq). destruct (existsb _ h); reflexivity. }
    assert (Hpp : equivb lt p p = true).
    { unfold equivb. rewrite (swo_irrefl _ _ W p Pp). reflexivity. }
    assert (Hm : set_mem (equivb lt) p (fold_left (set_add (equivb lt)) (map pm_op_point h) []) =
                 match om_find lt p m with Some _ => true | None => false end).
    { rewrite Hmem; [|exact HP|intros x []]. cbn [set_mem existsb orb]. rewrite <- (Hq p Pp Hpp). clear.
      induction h as [|a h' IH]; cbn; [reflexivity|]. rewrite IH. reflexivity. }
    rewrite Hm in Hsz.
    destruct (om_find lt p m) as [l0|] eqn:E.
    - split; [apply om_update_keys'; auto|]. split; [apply om_update_sorted'; auto|]. split.
      + intros q Pq. rewrite om_find_update by auto. rewrite He, Hc, (F q Pq).
        destruct (equivb lt p q) eqn:E2.
        * rewrite orb_true_r, (Hq q Pq E2). reflexivity.
        * rewrite orb_false_r, app_nil_r. reflexivity.
      + rewrite Hsz, <- L, <- (map_length fst), om_update_keylist, map_length. lia.
    - split; [apply om_insert_keys; auto|]. split; [apply (om_insert_sorted P); auto|]. split.
      + intros q Pq. rewrite om_find_insert by auto. rewrite He, Hc, (F q Pq).
        destruct (equivb lt p q) eqn:E2.
        * rewrite orb_true_r. f_equal.
          assert (pm_collected (equivb lt) q h = []) as ->; [|reflexivity].
          pose proof (Hq q Pq E2) as Hx. clear - Hx. unfold pm_collected.
          induction h as [|a h' IH]; cbn in *; [reflexivity|]. apply orb_false_iff in Hx as [H1 H2].
          rewrite H1, IH; auto.
        * rewrite orb_false_r, app_nil_r. reflexivity.
      + rewrite Hsz, <- L. rewrite (om_insert_length m p l); auto. lia.
  Qed.

  Lemma pm_run_ok h : (forall o, In o h -> P (pm_op_point o)) -> pm_ok (pm_run (N := N) tol h) h.
  Proof.
    unfold pm_run. induction h as [|o h IH] using rev_ind; intros HP.
    - split; [intros k v []|]. split; [constructor|]. split; reflexivity.
    - rewrite fold_left_app. cbn [fold_left].
      assert (HP' : forall o, In o h -> P (pm_op_point o)) by (intros; apply HP, in_or_app; auto).
      assert (Po : P (pm_op_point o)) by (apply HP, in_or_app; right; left; reflexivity).
      specialize (IH HP').
      assert (HPm : forall x, In x (map pm_op_point h) -> P x).
      { intros x Hx. apply in_map_iff in Hx as [y [<- Hy]]. auto. }
      destruct o as [p i|p is|p].
      + exact (pm_step_generic _ h p [i] (PmInsert p i) HPm IH Po eq_refl eq_refl).
      + exact (pm_step_generic _ h p is (PmInsertList p is) HPm IH Po eq_refl eq_refl).
      + pose proof (pm_step_generic _ h p [] (PmGet p) HPm IH Po eq_refl eq_refl) as G.
        cbn [pm_step]. unfold pm_get. fold lt. destruct (om_find lt p (fold_left (pm_step (N := N) tol) h [])) eqn:E; [|exact G].
        cbn [fst]. replace (fold_left (pm_step (N := N) tol) h []) with
          (om_update lt p (fun l0 => l0 ++ []) (fold_left (pm_step (N := N) tol) h [])); [exact G|].
        generalize (fold_left (pm_step (N := N) tol) h []). clear. intros m.
        induction m as [|[k v] m IH]; cbn; [reflexivity|]. rewrite IH, app_nil_r.
        destruct (lt k p); [reflexivity|]. destruct (lt p k); reflexivity.
  Qed.

  Lemma pointmap_history_on (Eq : forall a b, P a -> P b -> equivb lt a b = pt_eqb (N := N) tol a b) h : (forall o, In o h -> P (pm_op_point o)) ->
    (forall p, P p -> snd (pm_get (N := N) tol (pm_run (N := N) tol h) p) = pm_collected (pt_eqb (N := N) tol) p h) /\
    pm_size (pm_run (N := N) tol h) = zlen (fold_left (set_add (pt_eqb (N := N) tol)) (map pm_op_point h) []).
  Proof.
    intros HP. destruct (pm_run_ok h HP) as (Pm & Sm & F & L).
    assert (Ec : forall p, P p -> pm_collected (equivb lt) p h = pm_collected (pt_eqb (N := N) tol) p h).
    { intros p Pp. unfold pm_collected. clear - HP Eq Pp. induction h as [|o h' IH]; cbn; [reflexivity|].
      rewrite Eq, IH; auto. { intros; apply HP; right; auto. } apply HP; left; reflexivity. }
    split.
    - intros p Pp. unfold pm_get. fold lt. rewrite (F p Pp).
      destruct (existsb _ h) eqn:E; cbn; [apply Ec; auto|]. rewrite <- Ec by auto.
      unfold pm_collected. clear - E. induction h as [|o h' IH]; cbn in *; [reflexivity|].
      apply orb_false_iff in E as [E1 E2]. rewrite E1, <- IH; auto.
    - unfold pm_size, zlen. rewrite L. f_equal. f_equal. 
      assert (HP2 : forall x, In x (map pm_op_point h) -> P x).
      { intros x Hx. apply in_map_iff in Hx as [y [<- Hy]]. auto. }
      assert (G : forall pts acc, (forall x, In x pts -> P x) -> (forall x, In x acc -> P x) ->
        fold_left (set_add (equivb lt)) pts acc = fold_left (set_add (pt_eqb (N := N) tol)) pts acc).
      { induction pts as [|x pts IH]; intros acc H1 H2; cbn [fold_left]; [reflexivity|].
        assert (Hset : set_mem (equivb lt) x acc = set_mem (pt_eqb (N := N) tol) x acc).
        { unfold set_mem. assert (Px : P x) by (apply H1; left; reflexivity). clear - H2 Eq Px.
          induction acc as [|a acc IH]; cbn; [reflexivity|]. rewrite Eq, IH; auto. { intros; apply H2; right; auto. } apply H2; left; auto. }
        assert (Hadd : set_add (equivb lt) acc x = set_add (pt_eqb (N := N) tol) acc x) by (unfold set_add; rewrite Hset; reflexivity).
        rewrite Hadd. apply IH.
        - intros; apply H1; right; auto.
        - intros y. unfold set_add. destruct (set_mem (pt_eqb (N := N) tol) x acc); [apply H2|].
          intros Hy. apply in_app_or in Hy as [Hy|[<-|[]]]; [apply H2; auto|apply H1; left; reflexivity]. }
      apply G; [exact HP2|intros x []].
  Qed.
End PointMapProofs.
Lemma pointmap_history (tol : R) : (0 < tol)%R -> forall P, separated tol P -> forall h : list (pm_op RNum), (forall o, In o h -> P (pm_op_point o)) ->
  (forall p, P p -> snd (pm_get (N := RNum) tol (pm_run (N := RNum) tol h) p) = pm_collected (pt_eqb (N := RNum) tol) p h) /\
  pm_size (pm_run (N := RNum) tol h) = zlen (fold_left (set_add (pt_eqb (N := RNum) tol)) (map pm_op_point h) []).
Proof.
  intros tol_pos P sep. apply (pointmap_history_on (N := RNum) tol P (pt_swo tol tol_pos P sep)).
  intros a b _ _. symmetry. apply pt_eqb_equivb. exact tol_pos.
Qed.

Lemma equality_unordered :
  (forall a b : iseg, iseg_eqb a b = true <-> (a = b \/ a = (snd b, fst b))) /\
  (forall a b : key, key_eqb a b = true <-> (a = b \/ a = (snd b, fst b))) /\
  (forall a b : Z * Z, nb_eqb a b = true <-> (a = b \/ a = (snd b, fst b))) /\
  (forall a b : edge, edge_eqb a b = true <->
     ((e_p1 a, e_p2 a) = (e_p1 b, e_p2 b) \/ (e_p1 a, e_p2 a) = (e_p2 b, e_p1 b))).
Proof.
  split; [|split; [|split]]; intros a b.
  - rewrite <- canon_iff. apply iseg_eqb_iff.
  - rewrite <- canon_iff. apply key_eqb_iff.
  - rewrite <- canon_iff. apply nb_eqb_iff.
  - rewrite edge_eqb_iff, canon_iff. reflexivity.
Qed.

Lemma lookup_independent :
  (forall a b : iseg, iseg_eqb a b = true -> iseg_hash a = iseg_hash b) /\
  (forall a b : key, key_eqb a b = true -> key_hash a = key_hash b) /\
  (forall a b : Z * Z, nb_eqb a b = true -> nb_hash a = nb_hash b) /\
  (forall V (m : umap iseg V) nb nb' a b,
     um_find (match_in iseg_hash iseg_eqb nb) (a, b) m = um_find (match_in iseg_hash iseg_eqb nb') (a, b) m /\
     um_find (match_in iseg_hash iseg_eqb nb) (a, b) m = um_find (match_in iseg_hash iseg_eqb nb') (b, a) m) /\
  (forall V (m : umap key V) nb nb' a b,
     um_find (match_in key_hash key_eqb nb) (a, b) m = um_find (match_in key_hash key_eqb nb') (a, b) m /\
     um_find (match_in key_hash key_eqb nb) (a, b) m = um_find (match_in key_hash key_eqb nb') (b, a) m).
Proof.
  split; [|split; [|split; [|split]]].
  - intros a b H. apply pair_hash_canon. apply iseg_eqb_iff. exact H.
  - intros a b H. apply pair_hash_canon. apply key_eqb_iff. exact H.
  - intros a b H. apply pair_hash_canon. apply nb_eqb_iff. exact H.
  - intros V m nb nb' a b. split; apply (um_find_match nb nb'); [reflexivity|symmetry; exact (canon_swap (a, b))].
  - intros V m nb nb' a b. split; apply (um_find_key nb nb'); [reflexivity|symmetry; exact (canon_swap (a, b))].
Qed.

Lemma segment_order :
  (forall a b c : iseg,
     iseg_ltb a a = false /\ (iseg_ltb a b = true -> iseg_ltb b c = true -> iseg_ltb a c = true) /\
     (a <> b -> iseg_ltb a b = true \/ iseg_ltb b a = true) /\
     (iseg_ltb a b = true -> iseg_ltb b a = false)) /\
  (forall i j, (i < j)%Z -> iseg_ltb (i, j) (j, i) = true /\ iseg_eqb (i, j) (j, i) = true).
Proof.
  split; [exact iseg_ltb_total|]. intros i j H. split.
  - unfold iseg_ltb; cbn [fst snd]. destruct (Z.eqb_spec i j); lia.
  - apply iseg_eqb_iff, canon_iff. right. reflexivity.
Qed.
