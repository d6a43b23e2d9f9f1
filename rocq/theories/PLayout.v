(** Proofs about mesh files of any layout. *)
From Coq Require Import Reals Lra Lia ZArith List Bool Ascii String.
From Verif Require Import Base Spec MUtil MGeom MHull MPolygon MMaps MTriangle MGen MRegion MDelaunay MVoronoi MMesh MHist MFile.
From Verif Require Import Bridge BridgeNum BridgeSeed BridgeLayout PUtil PMaps PPoly PPoly2 PMesh PRead.
Import ListNotations.
Local Open Scope Z_scope.

Definition stream_at (ls : list text) (j : nat) : stream := match skipn j ls with [] => mkStream [] true | r => mkStream (joined r) false end.
Lemma stream_nil ls j : skipn j ls = [] -> stream_at ls j = mkStream [] true.
Proof. intros E. unfold stream_at. rewrite E. reflexivity. Qed.
Lemma stream_some ls j r : skipn j ls = r -> stream_at ls j = match r with [] => mkStream [] true | _ => mkStream (joined r) false end.
Proof. intros <-. unfold stream_at. destruct (skipn j ls); reflexivity. Qed.
Lemma skipn_cons {A} (ls : list A) : forall j l r, skipn j ls = l :: r -> nth_error ls j = Some l /\ skipn (S j) ls = r.
Proof.
  induction ls as [|a ls IH]; intros [|j] l r E; cbn [skipn] in E; try discriminate.
  - injection E as -> ->. split; reflexivity.
  - apply IH in E. exact E.
Qed.
Lemma first_line ls old : ls <> [] -> Forall (fun l => ~ In newline l) ls -> getline (mkStream (joined ls) false) old = (stream_at ls 1, line_at ls 0).
Proof. intros Ne F. destruct ls as [|l ls]; [congruence|]. rewrite getline_joined by exact (Forall_inv F). unfold stream_at. cbn [skipn]. destruct ls; reflexivity. Qed.
Lemma next_line ls j : ls <> [] -> Forall (fun l => ~ In newline l) ls -> getline (stream_at ls (S j)) (line_at ls j) = (stream_at ls (S (S j)), line_at ls (S j)).
Proof.
  intros Ne F. destruct (skipn (S j) ls) as [|l r] eqn:E.
  - assert (L : (List.length ls <= S j)%nat) by (apply (f_equal (@List.length _)) in E; rewrite skipn_length in E; cbn in E; lia).
    assert (E1 : stream_at ls (S (S j)) = mkStream [] true) by exact (stream_nil ls _ (skipn_all2 ls (le_S _ _ L))).
    assert (E2 : line_at ls (S j) = line_at ls j) by (unfold line_at, text in *; rewrite !Nat.min_r by lia; reflexivity).
    rewrite E1, E2, (stream_nil ls (S j) E). reflexivity.
  - pose proof (skipn_cons ls (S j) l r E) as [E1 E2]. assert (L : (S j < List.length ls)%nat) by (apply nth_error_Some; congruence).
    rewrite (stream_some ls (S j) _ E), getline_joined by (rewrite Forall_forall in F; apply F; eapply nth_error_In; exact E1). f_equal.
    + symmetry. exact (stream_some ls _ r E2).
    + unfold line_at. unfold text in *; rewrite Nat.min_l by lia. symmetry. apply nth_error_nth. exact E1.
Qed.

Section Mesh.
  Context {N : Num}.
  Variables (atof : text -> nT N) (tol : nT N).
  Lemma read_points_at ls n : ls <> [] -> Forall (fun l => ~ In newline l) ls -> forall j,
    read_points atof n (stream_at ls (S j)) (line_at ls j) = (ps <- line_points atof (map (line_at ls) (seq (S j) n)) ;; Ok (ps, stream_at ls (S j + n), line_at ls (j + n))).
  Proof.
    intros Ne F. induction n as [|n IH]; intros j; [cbn [read_points seq map]; rewrite !Nat.add_0_r; reflexivity|].
    cbn [read_points seq map]. rewrite next_line by assumption. unfold line_points in *. cbn [mapM]. unfold line_point at 1.
    destruct (vgetn (splitBySpaces (line_at ls (S j))) 0) as [x|]; [|reflexivity]. cbn [bind]. destruct (vgetn (splitBySpaces (line_at ls (S j))) 1) as [y|]; [|reflexivity]. cbn [bind].
    rewrite IH. destruct (mapM _ _) as [ps|]; cbn [bind]; [|reflexivity]. replace (S (S j) + n)%nat with (S j + S n)%nat by lia. replace (S j + n)%nat with (j + S n)%nat by lia. reflexivity.
  Qed.

  Context {T : Type}.
  Variables (ctor : list Z -> list (Point N) -> res T) (segs_of : T -> list Z) (start : Z).
  (** the polygons from the words of their lines *)
  Fixpoint from_words (pts : list (Point N)) (rows : list (list text)) (i : Z) (polys : list T) (em : segmap) : res (list T * segmap) :=
    match rows with
    | [] => Ok (polys, em)
    | ws :: rows' =>
        ks <- mapM (fun f => v <- atoi f ;; Ok (v - start)) ws ;; g <- ctor ks pts ;; ss <- getSegments (segs_of g) [] ;;
        from_words pts rows' (i + 1) (polys ++ [g]) (fold_left (fun m s => sm_insert iseg_eqb m s i) ss em)
    end.
  Lemma read_polys_at ls pts k : ls <> [] -> Forall (fun l => ~ In newline l) ls -> forall j i polys em,
    read_polys ctor segs_of pts start k i polys em (stream_at ls (S j)) (line_at ls j) =
      ('(ps, e) <- from_words pts (map (fun l => tl (splitBySpaces (line_at ls l))) (seq (S j) k)) i polys em ;; Ok (ps, e, stream_at ls (S j + k))).
  Proof.
    intros Ne F. induction k as [|k IH]; intros j i polys em; [cbn [read_polys seq map from_words bind]; rewrite Nat.add_0_r; reflexivity|].
    cbn [read_polys seq map from_words]. rewrite next_line by assumption. destruct (mapM _ (tl _)) as [ks|]; [|reflexivity]. cbn [bind].
    destruct (ctor ks pts) as [g|]; [|reflexivity]. cbn [bind]. destruct (getSegments (segs_of g) []) as [ss|]; [|reflexivity]. cbn [bind].
    rewrite IH. replace (S (S j) + k)%nat with (S j + S k)%nat by lia. reflexivity.
  Qed.
  Lemma create_at ls (m : mesh N T) : ls <> [] -> Forall (fun l => ~ In newline l) ls ->
    createFromStream atof tol ctor segs_of m (joined ls) start =
      (n <- atoi (line_at ls 0) ;; ps <- line_points atof (map (line_at ls) (seq 1 (Z.to_nat n))) ;;
       let pts := fst (ul_push_list (pt_ltb tol) (ms_points m) ps) in
       k <- atoi (line_at ls (Z.to_nat n + 1)) ;;
       '(polys, em) <- from_words (ul_list pts) (map (fun l => tl (splitBySpaces (line_at ls l))) (seq (Z.to_nat n + 2) (Z.to_nat k))) 0 (ms_polygons m) (ms_edges m) ;;
       Ok (mkMesh pts polys em (ms_pointMap m))).
  Proof.
    intros Ne F. unfold createFromStream. rewrite first_line by assumption. destruct (atoi (line_at ls 0)) as [n|]; [|reflexivity]. cbn [bind].
    rewrite read_points_at by assumption. destruct (line_points atof _) as [ps|]; [|reflexivity]. cbn [bind]. rewrite !Nat.add_0_l || idtac.
    change (1 + Z.to_nat n)%nat with (S (Z.to_nat n)). rewrite next_line by assumption. replace (Z.to_nat n + 1)%nat with (S (Z.to_nat n)) by lia.
    destruct (atoi (line_at ls (S (Z.to_nat n)))) as [k|]; [|reflexivity]. cbn [bind]. rewrite read_polys_at by assumption. replace (Z.to_nat n + 2)%nat with (S (S (Z.to_nat n))) by lia.
    destruct (from_words _ _ _ _ _) as [[ps' e]|]; reflexivity.
  Qed.
  Lemma line_points_ext ls ls' is : (forall i, In i is -> exists x y more more', fields_of blank (line_at ls i) (x :: y :: more) /\ fields_of blank (line_at ls' i) (x :: y :: more')) ->
    line_points atof (map (line_at ls) is) = line_points atof (map (line_at ls') is).
  Proof.
    unfold line_points. induction is as [|i is IH]; intros K; [reflexivity|]. cbn [map mapM]. destruct (K i) as (x & y & m1 & m2 & F1 & F2); [now left|]. apply split_iff in F1, F2.
    unfold line_point at 1 3. rewrite F1, F2. cbn. rewrite IH by (intros j Hj; apply K; now right). reflexivity.
  Qed.
  Lemma layout_irrelevant t t' ls ls' n k (m : mesh N T) : laid_out t ls -> laid_out t' ls' -> same_mesh_data ls ls' n k ->
    createFromStream atof tol ctor segs_of m t start = createFromStream atof tol ctor segs_of m t' start.
  Proof.
    intros (Ne & F & ->) (Ne' & F' & ->) (A1 & A2 & B1 & B2 & P & Q). rewrite !create_at by assumption.
    rewrite (atoi_announced _ _ A1), (atoi_announced _ _ A2). destruct (Z.of_nat n <=? int_max); [|reflexivity]. cbn [bind]. rewrite Nat2Z.id.
    rewrite (line_points_ext ls ls') by (intros i Hi; apply in_seq in Hi; apply P; lia). destruct (line_points atof _) as [ps|]; [|reflexivity]. cbn [bind].
    rewrite (atoi_announced _ _ B1), (atoi_announced _ _ B2). destruct (Z.of_nat k <=? int_max); [|reflexivity]. cbn [bind]. rewrite Nat2Z.id.
    replace (map (fun l => tl (splitBySpaces (line_at ls l))) (seq (n + 2) k)) with (map (fun l => tl (splitBySpaces (line_at ls' l))) (seq (n + 2) k)); [reflexivity|].
    apply map_ext_in. intros i Hi. apply in_seq in Hi. destruct (Q i ltac:(lia)) as (w & w' & ws & F1 & F2). apply split_iff in F1, F2. rewrite F1, F2. reflexivity.
  Qed.
End Mesh.

Section Read.
  Context {N : Num}.
  Variables (atof : text -> nT N) (tol : nT N) (start : Z).
  Lemma nth_map_seq {A B} (f : nat -> B) (R : B -> A -> Prop) l : forall j, (forall i a, nth_error l i = Some a -> R (f (j + i)%nat) a) -> Forall2 R (map f (seq j (length l))) l.
  Proof.
    induction l as [|a l IH]; intros j H; cbn [length seq map]; constructor.
    - specialize (H O a eq_refl). rewrite Nat.add_0_r in H. exact H.
    - apply IH. intros i b E. replace (S j + i)%nat with (j + S i)%nat by lia. apply H. exact E.
  Qed.
  Lemma points_given ls qs : Forall2 (gives atof) ls qs -> line_points atof ls = Ok qs.
  Proof.
    unfold line_points. induction 1 as [|l q ls qs G _ IH]; [reflexivity|]. cbn [mapM]. apply line_point_gives in G. rewrite G. cbn [bind]. rewrite IH. reflexivity.
  Qed.
  Lemma indices_given ks ws : Forall2 (fun k v => announces v (k + start) /\ k + start <= 2147483647)%Z ks ws -> mapM (fun f => v <- atoi f ;; Ok (v - start)%Z) ws = Ok ks.
  Proof.
    induction 1 as [|k v ks ws [A B] _ IH]; [reflexivity|]. cbn [mapM]. rewrite (atoi_announced _ _ A). apply Z.leb_le in B. change int_max with 2147483647%Z. rewrite B. cbn [bind].
    rewrite IH. cbn [bind]. replace (k + start - start)%Z with k by lia. reflexivity.
  Qed.
  Lemma polys_given pts rows kss : Forall2 (fun ws ks => mapM (fun f => v <- atoi f ;; Ok (v - start)%Z) ws = Ok ks) rows kss -> forall i polys em,
    exists gs, from_words (polygon_ctor_idx tol) (@pg_points N) start pts rows i polys em =
      Ok (polys ++ gs, fst (fold_left (fun '(m, c) es => (fold_left (fun m s => sm_insert iseg_eqb m s c) es m, (c + 1)%Z)) (map edges_of kss) (em, i))) /\
      map (@pg_points N) gs = kss.
  Proof.
    induction 1 as [|ws ks rows kss E _ IH]; intros i polys em.
    - exists []. cbn. rewrite app_nil_r. auto.
    - cbn [from_words]. rewrite E. cbn [bind]. rewrite ctor_idx_ok. cbn [bind pg_points]. rewrite getSegments_edges. cbn [bind app].
      edestruct (IH (i + 1)%Z) as (gs & Hgs & Hp). rewrite Hgs. eexists (_ :: gs). split.
      + rewrite <- app_assoc. cbn [app]. reflexivity.
      + cbn [map pg_points]. rewrite Hp. reflexivity.
  Qed.
  Lemma file_read t ls qs kss : laid_out t ls -> mesh_file atof ls qs kss start -> (zlen qs <= int_max)%Z -> (zlen kss <= int_max)%Z ->
    strict_weak_order_on (fun q => In q qs) (pt_ltb tol) ->
    (forall i j a b, nth_error qs i = Some a -> nth_error qs j = Some b -> equivb (pt_ltb tol) a b = true -> i = j) ->
    exists m, createFromStream atof tol (polygon_ctor_idx tol) (@pg_points N) mesh_new t start = Ok m /\
      ul_list (ms_points m) = qs /\ map (@pg_points N) (ms_polygons m) = kss /\
      forall nb s, um_find (iseg_match nb) s (ms_edges m) = spec_sm_run (cell_inserts 0 (map edges_of kss)) (canon s).
  Proof.
    intros (Ne & F & ->) (A & B & P & Q) Ln Lk HW HD. rewrite create_at by assumption.
    rewrite (atoi_announced _ _ A). unfold zlen in Ln, Lk. rewrite (proj2 (Z.leb_le _ _) Ln). cbn [bind]. rewrite Nat2Z.id.
    rewrite (points_given _ qs) by (apply nth_map_seq; exact P). cbn [bind]. rewrite (atoi_announced _ _ B), (proj2 (Z.leb_le _ _) Lk). cbn [bind]. rewrite Nat2Z.id.
    edestruct (polys_given (ul_list (fst (ul_push_list (pt_ltb tol) (ms_points (@mesh_new N (polygon N))) qs)))
      (map (fun l => tl (splitBySpaces (line_at ls l))) (seq (length qs + 2) (length kss))) kss) as (gs & Hgs & Hp).
    { apply (nth_map_seq (fun l => tl (splitBySpaces (line_at ls l)))). intros i ks E. destruct (Q i ks E) as (w & ws & W & I). apply split_iff in W. rewrite W. cbn [tl]. apply indices_given. exact I. }
    rewrite Hgs. cbn [bind]. eexists. split; [reflexivity|]. cbn [ms_points ms_polygons ms_edges mesh_new app]. split; [|split; [exact Hp|]].
    - destruct (ul_push_list (pt_ltb tol) ul_empty qs) as [u is] eqn:Eu.
      destruct (ul_push_list_spec _ _ HW ul_empty _ u is (ul_inv_empty _ _) (fun x H => H) Eu) as (_ & L & _). cbn [fst].
      rewrite L. apply (fold_set_add_distinct _ _ []). exact HD.
    - intros nb s. apply (inserts_find (map edges_of kss) [] nb s).
  Qed.
End Read.
