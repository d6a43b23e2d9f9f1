(** Proofs about the life of a polygon. *)
From Coq Require Import Lia ZArith List Bool Permutation.
From Verif Require Import Base MUtil MGeom MHull MPolygon PPoly2 MPolyLife BridgePolyLife.
Import ListNotations.
Open Scope Z_scope.

Section Proofs.
  Context {N : Num}.
  Implicit Types (cs : list (pcall N)) (ss : list (pseen N)) (o : pobj N) (b : birth N).

  Lemma pcalls_acc tol cs : forall o ss0,
    foldM (fun st c => '(o', s) <- pcall_do tol (fst st) c ;; Ok (o', snd st ++ [s])) cs (o, ss0)
    = ('(o', ss) <- pcalls tol cs o ;; Ok (o', ss0 ++ ss)).
  Proof.
    unfold pcalls. induction cs as [|c cs IH]; intros o ss0; cbn [foldM].
    - cbn. rewrite app_nil_r. reflexivity.
    - cbn [fst snd]. destruct (pcall_do tol o c) as [[o1 s]|e]; cbn [bind]; [|reflexivity].
      rewrite (IH o1 (ss0 ++ [s])), (IH o1 ([] ++ [s])).
      destruct (foldM _ cs (o1, [])) as [[o2 s2]|e]; cbn [bind]; [|reflexivity].
      rewrite <- app_assoc. reflexivity.
  Qed.

  Lemma pcalls_cons tol c cs o o' ss : pcalls tol (c :: cs) o = Ok (o', ss) ->
    exists o1 s s', pcall_do tol o c = Ok (o1, s) /\ pcalls tol cs o1 = Ok (o', s') /\ ss = s :: s'.
  Proof.
    unfold pcalls at 1. cbn [foldM fst snd]. destruct (pcall_do tol o c) as [[o1 s]|e] eqn:E; cbn [bind]; [|discriminate].
    rewrite pcalls_acc. destruct (pcalls tol cs o1) as [[o2 s2]|e] eqn:E2; cbn [bind]; [|discriminate].
    intros H. injection H as -> <-. exists o1, s, s2. auto.
  Qed.

  Lemma pcalls_nil tol o : pcalls tol [] o = Ok (o, []).
  Proof. reflexivity. Qed.

  (** splitting a life at an answer *)
  Lemma pcalls_split tol s1 : forall s2 cs o o', pcalls tol cs o = Ok (o', s1 ++ s2) ->
    exists cs1 cs2 o1, cs = cs1 ++ cs2 /\ length cs1 = length s1 /\ pcalls tol cs1 o = Ok (o1, s1) /\ pcalls tol cs2 o1 = Ok (o', s2).
  Proof.
    induction s1 as [|s s1 IH]; intros s2 cs o o' H.
    - exists [], cs, o. repeat split; auto.
    - destruct cs as [|c cs]; [discriminate H|]. apply pcalls_cons in H. destruct H as (o1 & s' & s'' & H1 & H2 & E).
      injection E as <- <-. destruct (IH _ _ _ _ H2) as (cs1 & cs2 & o2 & -> & L & A & B).
      exists (c :: cs1), cs2, o2. repeat split; auto.
      + cbn. congruence.
      + unfold pcalls. cbn [foldM fst snd]. rewrite H1. cbn [bind]. rewrite pcalls_acc, A. reflexivity.
  Qed.

  (** an invariant kept by every call whose answer is not of kind [J] *)
  Lemma pcalls_keep tol (I : pobj N -> Prop) (J : pseen N -> Prop) :
    (forall o c o' s, I o -> pcall_do tol o c = Ok (o', s) -> ~ J s -> I o') ->
    forall cs o o' ss, I o -> pcalls tol cs o = Ok (o', ss) -> Forall (fun s => ~ J s) ss -> I o'.
  Proof.
    intros K cs. induction cs as [|c cs IH]; intros o o' ss Io H F.
    - rewrite pcalls_nil in H. injection H as <- _. exact Io.
    - apply pcalls_cons in H. destruct H as (o1 & s & s' & H1 & H2 & ->). apply Forall_cons_iff in F. destruct F as [F1 F2].
      exact (IH _ _ _ (K _ _ _ _ Io H1 F1) H2 F2).
  Qed.

  Ltac one_call c H :=
    destruct c; cbn [pcall_do] in H;
    repeat match type of H with
    | context [rd ?x] => let E := fresh "Erd" in destruct x eqn:E; cbn [rd bind] in H; [|discriminate H]
    | (bind ?m _) = _ => let E := fresh "Em" in destruct m eqn:E; cbn [bind] in H; [|discriminate H]
    | (if ?t then _ else _) = _ => let E := fresh "Et" in destruct t eqn:E
    end; try discriminate H; injection H as <- <-.

  Lemma keep_area tol a (Ha : neqb a (nZ (-1)) = false) o c o' s :
    o_area o = Some a -> pcall_do tol o c = Ok (o', s) -> ~ drops_area s -> o_area o' = Some a.
  Proof.
    intros I H D. one_call c H; cbn [o_area]; try assumption; try congruence.
    all: try (exfalso; apply D; unfold drops_area; auto; fail).
  Qed.

  Lemma keep_unasked tol o c o' s : o_area o = Some (nZ (-1)) -> pcall_do tol o c = Ok (o', s) -> ~ is_area s -> o_area o' = Some (nZ (-1)).
  Proof.
    intros I H D. one_call c H; cbn [o_area]; try assumption; try congruence.
    all: try (exfalso; apply D; eexists; reflexivity).
  Qed.

  Lemma keep_diam tol d (Hd : nltb d (nZ 0) = false) o c o' s :
    o_diam o = Some d -> pcall_do tol o c = Ok (o', s) -> ~ drops_all s -> o_diam o' = Some d.
  Proof.
    intros I H D. one_call c H; cbn [o_diam]; try assumption; try congruence.
    all: try (exfalso; apply D; reflexivity).
  Qed.

  Lemma keep_undiam tol o c o' s : o_diam o = Some (nZ (-1)) -> pcall_do tol o c = Ok (o', s) -> ~ is_diam s -> o_diam o' = Some (nZ (-1)).
  Proof.
    intros I H D. one_call c H; cbn [o_diam]; try assumption; try congruence.
    all: try (exfalso; apply D; eexists; reflexivity).
  Qed.

  Lemma life_inv tol b cs o ss : life tol b cs = Ok (o, ss) -> exists o0, born tol b = Ok o0 /\ pcalls tol cs o0 = Ok (o, ss).
  Proof. unfold life. destruct (born tol b) as [o0|e]; cbn [bind]; [|discriminate]. intros H. eauto. Qed.

  Lemma area_kept : forall tol b cs o s1 a s2 a' s3,
    life tol b cs = Ok (o, s1 ++ Area a :: s2 ++ Area a' :: s3) -> neqb a (nZ (-1)) = false -> Forall (fun s => ~ drops_area s) s2 -> a' = a.
  Proof.
    intros tol b cs o s1 a s2 a' s3 H Ha F. apply life_inv in H. destruct H as (o0 & _ & H).
    apply pcalls_split in H. destruct H as (c1 & c2 & o1 & _ & _ & _ & H).
    destruct c2 as [|c c2]; [discriminate H|]. apply pcalls_cons in H. destruct H as (o2 & s & s' & H1 & H2 & E).
    injection E as <- <-. apply pcalls_split in H2. destruct H2 as (c3 & c4 & o3 & _ & _ & H2 & H3).
    assert (A : o_area o2 = Some a) by (one_call c H1; cbn [o_area]; assumption || reflexivity).
    assert (B : o_area o3 = Some a) by (exact (pcalls_keep tol _ _ (keep_area tol a Ha) _ _ _ _ A H2 F)).
    destruct c4 as [|c' c4]; [discriminate H3|]. apply pcalls_cons in H3. destruct H3 as (o4 & s & s' & H4 & _ & E).
    injection E as <- _. one_call c' H4; congruence.
  Qed.

  Lemma diam_kept : forall tol b cs o s1 d s2 d' s3,
    life tol b cs = Ok (o, s1 ++ Diam d :: s2 ++ Diam d' :: s3) -> nltb d (nZ 0) = false -> Forall (fun s => ~ drops_all s) s2 -> d' = d.
  Proof.
    intros tol b cs o s1 a s2 a' s3 H Ha F. apply life_inv in H. destruct H as (o0 & _ & H).
    apply pcalls_split in H. destruct H as (c1 & c2 & o1 & _ & _ & _ & H).
    destruct c2 as [|c c2]; [discriminate H|]. apply pcalls_cons in H. destruct H as (o2 & s & s' & H1 & H2 & E).
    injection E as <- <-. apply pcalls_split in H2. destruct H2 as (c3 & c4 & o3 & _ & _ & H2 & H3).
    assert (A : o_diam o2 = Some a) by (one_call c H1; cbn [o_diam]; assumption || reflexivity).
    assert (B : o_diam o3 = Some a) by (exact (pcalls_keep tol _ _ (keep_diam tol a Ha) _ _ _ _ A H2 F)).
    destruct c4 as [|c' c4]; [discriminate H3|]. apply pcalls_cons in H3. destruct H3 as (o4 & s & s' & H4 & _ & E).
    injection E as <- _. one_call c' H4; congruence.
  Qed.

  (** the index list *)
  Lemma born_idx tol b o : born tol b = Ok o -> o_idx o = born_with b.
  Proof.
    destruct b; cbn [born born_with]; intros H.
    - destruct (polygon_ctor_idx tol idx p) as [g|e] eqn:E; cbn [bind] in H; [|discriminate]. injection H as <-.
      rewrite ctor_idx_ok in E. injection E as <-. reflexivity.
    - unfold polygon_ctor_pts in H. destruct (isSelfIntersecting tol [] p); cbn [bind] in H; [|discriminate].
      destruct (mapM _ _); cbn [bind] in H; [|discriminate]. injection H as <-. reflexivity.
    - injection H as <-. reflexivity.
  Qed.

  Lemma call_idx tol o c o' s : pcall_do tol o c = Ok (o', s) -> o_idx o' = now_with (o_idx o) (c, s).
  Proof. intros H. one_call c H; reflexivity. Qed.

  Lemma calls_idx tol cs : forall o o' ss, pcalls tol cs o = Ok (o', ss) -> o_idx o' = fold_left now_with (combine cs ss) (o_idx o).
  Proof.
    induction cs as [|c cs IH]; intros o o' ss H.
    - rewrite pcalls_nil in H. injection H as <- <-. reflexivity.
    - apply pcalls_cons in H. destruct H as (o1 & s & s' & H1 & H2 & ->). cbn [combine fold_left].
      rewrite <- (call_idx _ _ _ _ _ H1). exact (IH _ _ _ H2).
  Qed.

  Lemma index_list : forall tol b cs o ss, life tol b cs = Ok (o, ss) -> length ss = length cs /\ o_idx o = shown b cs ss.
  Proof.
    intros tol b cs o ss H. apply life_inv in H. destruct H as (o0 & B & H). split.
    - clear B. revert o0 o ss H. induction cs as [|c cs IH]; intros o0 o ss H.
      + rewrite pcalls_nil in H. injection H as _ <-. reflexivity.
      + apply pcalls_cons in H. destruct H as (o1 & s & s' & H1 & H2 & ->). cbn. rewrite (IH _ _ _ H2). reflexivity.
    - unfold shown. rewrite <- (born_idx _ _ _ B). exact (calls_idx _ _ _ _ _ H).
  Qed.

  (** an invariant established by birth or by an answer of kind [K] and kept until an answer of kind [J] *)
  Lemma since_keep tol (I : pobj N -> Prop) (K J : pseen N -> Prop) (P : Prop) b :
    (forall o, born tol b = Ok o -> P -> I o) ->
    (forall o c o' s, pcall_do tol o c = Ok (o', s) -> K s -> I o') ->
    (forall o c o' s, I o -> pcall_do tol o c = Ok (o', s) -> ~ J s -> I o') ->
    forall cs o ss, life tol b cs = Ok (o, ss) -> since K J P ss -> I o.
  Proof.
    intros HB HK HJ cs o ss H D. apply life_inv in H. destruct H as (o0 & B & H). destruct D as [[p F]|(s1 & k & s2 & -> & Kk & F)].
    - exact (pcalls_keep tol I J HJ _ _ _ _ (HB _ B p) H F).
    - apply pcalls_split in H. destruct H as (c1 & c2 & o1 & _ & _ & _ & H).
      destruct c2 as [|c c2]; [discriminate H|]. apply pcalls_cons in H. destruct H as (o2 & s & s' & H1 & H2 & E).
      injection E as <- <-. exact (pcalls_keep tol I J HJ _ _ _ _ (HK _ _ _ _ H1 Kk) H2 F).
  Qed.

  Lemma born_caches tol b o : born tol b = Ok o -> made_with_points b -> o_area o = Some (nZ (-1)) /\ o_diam o = Some (nZ (-1)).
  Proof.
    destruct b; cbn [born made_with_points]; intros H M; [| |destruct M].
    - rewrite ctor_idx_ok in H. cbn [bind] in H. injection H as <-. split; reflexivity.
    - unfold polygon_ctor_pts in H. destruct (isSelfIntersecting tol [] p); cbn [bind] in H; [|discriminate].
      destruct (mapM _ _); cbn [bind] in H; [|discriminate]. injection H as <-. split; reflexivity.
  Qed.

  Lemma area_fresh : forall tol b cs o ss, life tol b cs = Ok (o, ss) -> since drops_area is_area (made_with_points b) ss ->
    forall p a, (exists o', pcall_do tol o (AskArea p) = Ok (o', Area a)) <->
      (exists g g', polygon_ctor_idx tol (shown b cs ss) p = Ok g /\ getArea g p = Ok (g', a)).
  Proof.
    intros tol b cs o ss H D p a.
    assert (A : o_area o = Some (nZ (-1))).
    { refine (since_keep tol (fun o => o_area o = Some (nZ (-1))) _ _ _ b _ _ (keep_unasked tol) cs o ss H D).
      - intros o0 B M. apply (born_caches _ _ _ B M).
      - intros o1 c o2 s H1 K. one_call c H1; try reflexivity; destruct K; discriminate. }
    apply index_list in H. destruct H as [_ H]. rewrite <- H. cbn [pcall_do]. rewrite A. cbn [rd bind]. setoid_rewrite ctor_idx_ok.
    unfold getArea, calculateArea. split.
    - intros [o' E]. exists (mkPoly (o_idx o) (nZ (-1)) (nZ (-1)) point0 (calculateHash (o_idx o))). cbn [pg_area pg_points].
      destruct (neqb (nZ (-1)) (nZ (-1))).
      + destruct (geo_area p (o_idx o)); cbn [bind] in *; [|discriminate]. injection E as _ <-. eauto.
      + injection E as _ <-. eauto.
    - intros (g & g' & E & G). injection E as <-. cbn [pg_area pg_points] in G.
      destruct (neqb (nZ (-1)) (nZ (-1))).
      + destruct (geo_area p (o_idx o)); cbn [bind] in *; [|discriminate]. injection G as _ <-. eauto.
      + injection G as _ <-. eauto.
  Qed.

  Lemma diam_fresh : forall tol b cs o ss, life tol b cs = Ok (o, ss) -> since drops_all is_diam (made_with_points b) ss ->
    forall p d, (exists o', pcall_do tol o (AskDiam p) = Ok (o', Diam d)) <->
      (exists g g', polygon_ctor_idx tol (shown b cs ss) p = Ok g /\ getDiameter g p = Ok (g', d)).
  Proof.
    intros tol b cs o ss H D p a.
    assert (A : o_diam o = Some (nZ (-1))).
    { refine (since_keep tol (fun o => o_diam o = Some (nZ (-1))) _ _ _ b _ _ (keep_undiam tol) cs o ss H D).
      - intros o0 B M. apply (born_caches _ _ _ B M).
      - intros o1 c o2 s H1 K. one_call c H1; try reflexivity; discriminate. }
    apply index_list in H. destruct H as [_ H]. rewrite <- H. cbn [pcall_do]. rewrite A. cbn [rd bind]. setoid_rewrite ctor_idx_ok.
    unfold getDiameter. split.
    - intros [o' E]. exists (mkPoly (o_idx o) (nZ (-1)) (nZ (-1)) point0 (calculateHash (o_idx o))). cbn [pg_diam pg_points].
      destruct (nltb (nZ (-1)) (nZ 0)).
      + destruct (getPoints (o_idx o) p) as [pts|]; cbn [bind] in *; [|discriminate]. destruct (calculateDiameter pts); cbn [bind] in *; [|discriminate]. injection E as _ <-. eauto.
      + injection E as _ <-. eauto.
    - intros (g & g' & E & G). injection E as <-. cbn [pg_diam pg_points] in G.
      destruct (nltb (nZ (-1)) (nZ 0)).
      + destruct (getPoints (o_idx o) p) as [pts|]; cbn [bind] in *; [|discriminate]. destruct (calculateDiameter pts); cbn [bind] in *; [|discriminate]. injection G as _ <-. eauto.
      + injection G as _ <-. eauto.
  Qed.

  Lemma origin_always : forall tol b cs o ss, life tol b cs = Ok (o, ss) -> forall c, In (Cen c) ss -> px c = nZ 0 /\ py c = nZ 0.
  Proof.
    intros tol b cs o ss H. apply life_inv in H. destruct H as (o0 & B & H).
    assert (C : o_cen o0 = point0).
    { destruct b; cbn [born] in B.
      - rewrite ctor_idx_ok in B. cbn [bind] in B. injection B as <-. reflexivity.
      - unfold polygon_ctor_pts in B. destruct (isSelfIntersecting tol [] p); cbn [bind] in B; [|discriminate].
        destruct (mapM _ _); cbn [bind] in B; [|discriminate]. injection B as <-. reflexivity.
      - injection B as <-. reflexivity. }
    clear B. revert o0 C o ss H. induction cs as [|c cs IH]; intros o0 C o ss H c0 Hin.
    - rewrite pcalls_nil in H. injection H as _ <-. destruct Hin.
    - apply pcalls_cons in H. destruct H as (o1 & s & s' & H1 & H2 & ->).
      assert (P : o_cen o1 = point0 /\ (forall c, s = Cen c -> c = point0)).
      { one_call c H1; cbn [o_cen]; split; try assumption; try reflexivity; try (intros c E; discriminate E).
        all: try (rewrite C in Et; discriminate Et). intros c E. injection E as <-. assumption. }
      destruct P as [P Q]. destruct Hin as [E|Hin]; [|exact (IH _ P _ _ H2 _ Hin)].
      rewrite (Q _ E). split; reflexivity.
  Qed.

  Lemma keep_hash tol o c o' s : pcall_do tol o c = Ok (o', s) -> ~ rehashes s -> o_hash o' = o_hash o.
  Proof. intros H D. one_call c H; try reflexivity; exfalso; apply D; unfold rehashes; auto. Qed.

  Lemma keep_good tol o c o' s : o_hash o = calculateHash (o_idx o) -> pcall_do tol o c = Ok (o', s) -> ~ unhashed s -> o_hash o' = calculateHash (o_idx o').
  Proof.
    intros I H D. one_call c H; cbn [o_hash o_idx]; try assumption; try reflexivity; try (exfalso; apply D; unfold unhashed; auto; fail).
    rewrite I. apply calculateHash_perm. apply Permutation_rev.
  Qed.

  Lemma good_hash tol b cs o ss : life tol b cs = Ok (o, ss) -> since rehashes unhashed True ss -> o_hash o = calculateHash (o_idx o).
  Proof.
    intros H D. refine (since_keep tol (fun o => o_hash o = calculateHash (o_idx o)) _ _ _ b _ _ (keep_good tol) cs o ss H D).
    - intros o0 B _. destruct b; cbn [born] in B.
      + rewrite ctor_idx_ok in B. cbn [bind] in B. injection B as <-. reflexivity.
      + unfold polygon_ctor_pts in B. destruct (isSelfIntersecting tol [] p); cbn [bind] in B; [|discriminate].
        destruct (mapM _ _); cbn [bind] in B; [|discriminate]. injection B as <-. reflexivity.
      + injection B as <-. reflexivity.
    - intros o1 c o2 s H1 K. one_call c H1; try reflexivity; destruct K; discriminate.
  Qed.

  Lemma equal_when_hashed : forall tol b cs o ss, life tol b cs = Ok (o, ss) -> since rehashes unhashed True ss ->
    (forall o' s, pcall_do tol o Copied = Ok (o', s) -> pobj_eqb o o' = true) /\
    (forall tol' idx p g, Permutation idx (shown b cs ss) -> polygon_ctor_idx tol' idx p = Ok g -> pobj_eqb o (obj_of g) = true).
  Proof.
    intros tol b cs o ss H D. pose proof (good_hash _ _ _ _ _ H D) as G. apply index_list in H. destruct H as [_ E]. split.
    - intros o' s H. cbn [pcall_do] in H. destruct (rd (o_area o)); cbn [bind] in H; [|discriminate]. destruct (rd (o_diam o)); cbn [bind] in H; [|discriminate].
      injection H as <- _. unfold pobj_eqb. cbn [o_hash]. rewrite G. apply Z.eqb_refl.
    - intros tol' idx p g P H. rewrite ctor_idx_ok in H. injection H as <-. unfold pobj_eqb, obj_of. cbn [o_hash pg_hash].
      rewrite G, E, (calculateHash_perm _ _ P). apply Z.eqb_refl.
  Qed.

  Lemma compared_as_before : forall tol cs o1 o2 ss, pcalls tol cs o1 = Ok (o2, ss) -> Forall (fun s => ~ rehashes s) ss ->
    forall x, pobj_eqb x o2 = pobj_eqb x o1.
  Proof.
    intros tol cs o1 o2 ss H F x. unfold pobj_eqb.
    rewrite (pcalls_keep tol (fun o => o_hash o = o_hash o1) rehashes) with (cs := cs) (o := o1) (o' := o2) (ss := ss); auto.
    intros o c o' s I H1 D. rewrite (keep_hash _ _ _ _ _ H1 D). exact I.
  Qed.

  Lemma unborn : forall tol cs o ss, life tol FromNothing cs = Ok (o, ss) ->
    (Forall (fun s => ~ drops_area s) ss -> forall p, exists m, pcall_do tol o (AskArea p) = Err (UB m)) /\
    (Forall (fun s => ~ drops_all s) ss -> (forall p, exists m, pcall_do tol o (AskDiam p) = Err (UB m)) /\ exists m, pcall_do tol o Copied = Err (UB m)).
  Proof.
    intros tol cs o ss H. apply life_inv in H. destruct H as (o0 & B & H). injection B as <-. split; intros F.
    - assert (A : o_area o = None).
      { refine (pcalls_keep tol (fun o => o_area o = None) _ _ _ _ _ _ _ H F); [|reflexivity].
        intros o1 c o2 s I H1 D. one_call c H1; cbn [o_area]; try assumption; try congruence; exfalso; apply D; unfold drops_area; auto. }
      intros p. cbn [pcall_do]. rewrite A. cbn. eauto.
    - assert (A : o_diam o = None).
      { refine (pcalls_keep tol (fun o => o_diam o = None) _ _ _ _ _ _ _ H F); [|reflexivity].
        intros o1 c o2 s I H1 D. one_call c H1; cbn [o_diam]; try assumption; try congruence; exfalso; apply D; reflexivity. }
      split; [intros p; cbn [pcall_do]; rewrite A; cbn; eauto|]. cbn [pcall_do]. rewrite A. destruct (o_area o); cbn; eauto.
  Qed.

  Lemma initialised : forall tol b cs o ss, life tol b cs = Ok (o, ss) -> made_with_points b \/ In Mutated ss ->
    (exists a, o_area o = Some a) /\ exists d, o_diam o = Some d.
  Proof.
    intros tol b cs o ss H M.
    refine (since_keep tol (fun o => (exists a, o_area o = Some a) /\ exists d, o_diam o = Some d) drops_all (fun _ => False) (made_with_points b) b _ _ _ cs o ss H _).
    - intros o0 B P. destruct (born_caches _ _ _ B P). eauto.
    - intros o1 c o2 s H1 K. one_call c H1; try discriminate K; cbn; eauto.
    - intros o1 c o2 s [[a A] [d D]] H1 _. one_call c H1; cbn; eauto.
    - destruct M as [M|M]; [left; split; [exact M|apply Forall_forall; intros ? ? []]|].
      right. apply in_split in M. destruct M as (s1 & s2 & ->). exists s1, Mutated, s2. split; [reflexivity|]. split; [reflexivity|]. apply Forall_forall; intros ? ? [].
  Qed.
End Proofs.
