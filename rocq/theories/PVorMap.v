(** The point map of a Voronoi diagram lists the cells around each vertex. *)
From Coq Require Import Reals Lra Lia ZArith List Bool Permutation.
From Verif Require Import Base Spec SpecNum MUtil MGeom MHull MPolygon MMaps MTriangle MGen MRegion MDelaunay MVoronoi Bridge BridgeNum.
From Verif Require Import PUtil PPoint PMaps PCluster PPoly PPoly2 PDelaunay PVoronoi PVorCell PVorConvex PVorBorder.
Import ListNotations.
Open Scope Z_scope.

Section VorMap.
  Context {N : Num}.
  Notation Pt := (Point N).
  Variable tol : nT N.
  Variable d : delaunay N.

  (** the calls of insert behind a list of vertices and cells *)
  Definition logged (cc : list Pt) (h : list (Z * Z)) (ops : list (pm_op N)) : Prop :=
    Forall2 (fun x op => exists q, vertices_are cc [fst x] [q] /\ op = PmInsert q (snd x)) h ops.
  Lemma logged_ext u u' h ops : ext u u' -> logged (ul_list u) h ops -> logged (ul_list u') h ops.
  Proof.
    intros X. apply Forall2_weaken. intros x op (q & H & ->). exists q. split; [|reflexivity]. eapply ext_located; eassumption.
  Qed.
  Lemma get_located (u : ulist Pt) i q : ul_get u i = Ok q -> vertices_are (ul_list u) [i] [q].
  Proof. intros H. unfold ul_get in H. apply vget_ok in H. constructor; [exact H|constructor]. Qed.

  Record mok (h0 : list (Z * Z)) (cell : Z) (s : vstate) : Prop := {
    mk_ranged : ul_ranged (v_cc s);
    mk_inv : ul_inv (fun _ => True) zltb (v_cell s);
    mk_log : exists is ops, logged (ul_list (v_cc s)) (h0 ++ map (fun i => (i, cell)) is) ops /\ v_pm s = pm_run tol ops /\
      forall i, In i (ul_list (v_cell s)) <-> In i is
  }.

  Lemma set_add_iff l x y : In y (set_add Z.eqb l x) <-> In y l \/ y = x.
  Proof.
    unfold set_add, set_mem. destruct (existsb (Z.eqb x) l) eqn:E.
    - apply existsb_exists in E as (z & Hz & E). apply Z.eqb_eq in E. subst z. split; [auto|]. intros [H| ->]; assumption.
    - rewrite in_app_iff. cbn. intuition congruence.
  Qed.
  Lemma mok_push h0 cell s i q e th : mok h0 cell s -> ul_get (v_cc s) i = Ok q ->
    mok h0 cell (mkV (v_cc s) e (pm_insert tol (v_pm s) q cell) th (fst (ul_push_back zltb (v_cell s) i))).
  Proof.
    intros [R I (is & ops & L & E & S)] G. destruct (push_zset (v_cell s) i I) as [I' L']. constructor; cbn [v_cc v_cell v_pm]; auto.
    exists (is ++ [i]), (ops ++ [PmInsert q cell]). split; [|split].
    - rewrite map_app, app_assoc. apply Forall2_app; [exact L|]. constructor; [|constructor]. exists q. cbn [fst snd]. split; [apply get_located; exact G|reflexivity].
    - rewrite E. unfold pm_run. rewrite fold_left_app. reflexivity.
    - intros j. rewrite L', set_add_iff, S, in_app_iff. cbn. intuition congruence.
  Qed.
  Lemma mok_with h0 cell s cc : mok h0 cell s -> ul_ranged cc -> ext (v_cc s) cc -> mok h0 cell (with_cc s cc).
  Proof.
    intros [R I (is & ops & L & E & S)] R' X. constructor; cbn [with_cc v_cc v_cell v_pm]; auto. exists is, ops. split; [|auto].
    eapply logged_ext; eassumption.
  Qed.
  Lemma mok_edges h0 cell s e th : mok h0 cell s -> mok h0 cell (mkV (v_cc s) e (v_pm s) th (v_cell s)).
  Proof. intros [R I L]. constructor; auto. Qed.

  Lemma getCC_ext cc t e cc' i : ul_ranged cc -> getCircumcenter tol d cc t e = Ok (cc', i) -> ul_ranged cc' /\ ext cc cc'.
  Proof.
    intros R H. unfold getCircumcenter in H. destruct (negb (t =? -1)).
    - apply bind_ok in H as (tr & _ & H). destruct (tr_cci tr); [|discriminate]. injection H as <- <-. split; [exact R|apply ext_refl].
    - apply bind_ok in H as (ed & _ & H). apply bind_ok in H as (m & _ & H). injection H as H.
      split; [apply (ul_push_ranged _ _ _ _ _ R H)|eapply push_ext; eassumption].
  Qed.
  Lemma add_step_mok h0 cell i1 i2 s s' : mok h0 cell s -> add_step tol cell i1 i2 s = Ok s' -> mok h0 cell s' /\ v_cc s' = v_cc s.
  Proof.
    intros M H. unfold add_step in H. destruct (negb (i1 =? i2)).
    - apply bind_ok in H as (sa & E & H). apply bind_ok in E as (q2 & G2 & E). injection E as <-.
      apply bind_ok in H as (q1 & G1 & H). injection H as <-. cbn [v_cc v_edges v_pm v_this v_cell] in *. split; [|reflexivity].
      pose proof (mok_push h0 cell s i2 q2 (sm_insert iseg_eqb (v_edges s) (i2, i1) cell) (v_this s ++ [(i2, i1)]) M G2) as M1.
      exact (mok_push h0 cell _ i1 q1 _ _ M1 G1).
    - cbn [bind] in H. apply bind_ok in H as (q1 & G1 & H). injection H as <-. split; [|reflexivity]. apply mok_push; assumption.
  Qed.
  Lemma walk_mok h0 cell index init fuel : forall t1 e s e' s', mok h0 cell s ->
    walk tol fuel d cell index init t1 e s = Ok (e', s') -> mok h0 cell s' /\ ext (v_cc s) (v_cc s').
  Proof.
    induction fuel as [|fuel IH]; intros t1 e s e' s' M H; cbn [walk] in H.
    - destruct (edge_eqb e init); [injection H as <- <-; split; [exact M|apply ext_refl]|discriminate].
    - destruct (edge_eqb e init); [injection H as <- <-; split; [exact M|apply ext_refl]|].
      apply bind_ok in H as ([cc1 i1] & G1 & H). apply bind_ok in H as ([cc2 i2] & G2 & H). apply bind_ok in H as (s1 & A & H).
      destruct (getCC_ext _ _ _ _ _ (mk_ranged _ _ _ M) G1) as [R1 X1]. destruct (getCC_ext _ _ _ _ _ R1 G2) as [R2 X2].
      pose proof (ext_trans _ _ _ X1 X2) as X. destruct (add_step_mok h0 cell i1 i2 _ _ (mok_with _ _ _ _ M R2 X) A) as [M1 E1]. cbn [with_cc v_cc] in E1.
      destruct (negb _) in H.
      + apply bind_ok in H as (tr & _ & H). apply bind_ok in H as (k & _ & H). apply bind_ok in H as (e2 & _ & H).
        destruct (IH _ _ _ _ _ M1 H) as [M2 X3]. split; [exact M2|]. eapply ext_trans; [exact X|]. rewrite E1 in X3. exact X3.
      + injection H as <- <-. split; [exact M1|]. rewrite E1. exact X.
  Qed.
  Lemma close_mok h0 cell center e s s' : mok h0 cell s -> close_cell tol cell center e s = Ok s' -> mok h0 cell s' /\ ext (v_cc s) (v_cc s').
  Proof.
    intros M H. unfold close_cell in H. destruct (e_t2 e =? -1); [|injection H as <-; split; [exact M|apply ext_refl]].
    apply bind_ok in H as (f & _ & H). apply bind_ok in H as (l & _ & H). apply bind_ok in H as (qf & _ & H). apply bind_ok in H as (ql & _ & H).
    destruct (collinear tol qf center ql).
    - injection H as <-. split; [apply mok_edges; exact M|apply ext_refl].
    - destruct (ul_push_back (pt_ltb tol) (v_cc s) (setBoundary center)) as [cc' ri] eqn:Ep.
      apply bind_ok in H as (q & G & H). injection H as <-. cbn [v_cc].
      pose proof (push_ext tol _ _ _ _ (mk_ranged _ _ _ M) Ep) as X. split; [|exact X].
      destruct (ul_push_ranged _ _ _ _ _ (mk_ranged _ _ _ M) Ep) as (R & _).
      exact (mok_push h0 cell (with_cc s cc') ri q _ _ (mok_with _ _ _ _ M R X) G).
  Qed.

  (** the vertices and cells recorded are those of the polygons *)
  Definition listed (h : list (Z * Z)) (polys : list (polygon N)) : Prop :=
    forall i c, In (i, c) h <-> exists g, 0 <= c /\ nth_error polys (Z.to_nat c) = Some g /\ In i (pg_points g).
  Lemma build_cell_map h0 ops0 cell index cc m pm fuel g s : ul_ranged cc -> logged (ul_list cc) h0 ops0 -> pm = pm_run tol ops0 ->
    build_cell tol fuel d cell index cc m pm = Ok (g, s) ->
    ul_ranged (v_cc s) /\ exists is ops, logged (ul_list (v_cc s)) (h0 ++ map (fun i => (i, cell)) is) ops /\ v_pm s = pm_run tol ops /\
      forall i, In i (pg_points g) <-> In i is.
  Proof.
    intros R L EP H. unfold build_cell in H. apply bind_ok in H as (center & _ & H). apply bind_ok in H as (pd & _ & H).
    apply bind_ok in H as (init & _ & H). cbn zeta in H.
    apply bind_ok in H as ([cc1 i1] & G1 & H). apply bind_ok in H as ([cc2 i2] & G2 & H). apply bind_ok in H as (s0 & A & H).
    apply bind_ok in H as (tr & _ & H). apply bind_ok in H as (k & _ & H). apply bind_ok in H as (e & _ & H).
    apply bind_ok in H as ([e' s1] & W & H). apply bind_ok in H as (s2 & Cl & H). rewrite ctor_idx_ok in H. cbn [bind] in H.
    apply bind_ok in H as (g' & F & H). injection H as <- <-.
    destruct (getCC_ext _ _ _ _ _ R G1) as [R1 X1]. destruct (getCC_ext _ _ _ _ _ R1 G2) as [R2 X2].
    assert (M0 : mok h0 cell (mkV cc2 m pm [] ul_empty)).
    { constructor; cbn [v_cc v_cell v_pm]; [exact R2|apply ul_inv_empty|]. exists [], ops0. cbn [map]. rewrite app_nil_r. split; [|split; [exact EP|reflexivity]].
      apply (logged_ext cc1 cc2); [exact X2|]. apply (logged_ext cc cc1); assumption. }
    destruct (add_step_mok _ _ _ _ _ _ M0 A) as [M1 _]. destruct (walk_mok _ _ _ _ _ _ _ _ _ _ M1 W) as [M2 _].
    destruct (close_mok _ _ _ _ _ _ M2 Cl) as [[R3 I3 (is & ops & L3 & E3 & S3)] _]. split; [exact R3|]. exists is, ops. split; [exact L3|]. split; [exact E3|].
    intros i. rewrite <- S3. apply fixCCW_points in F. cbn [pg_points] in F. destruct F as [->| ->]; [reflexivity|]. rewrite <- in_rev. reflexivity.
  Qed.
  Lemma build_cells_map fuel vs : forall (past : list (polygon N)) h0 ops0 cc m pm gs cc' m' pm', ul_ranged cc -> logged (ul_list cc) h0 ops0 ->
    pm = pm_run tol ops0 -> listed h0 past -> build_cells tol fuel d (zlen past) vs cc m pm = Ok (gs, cc', m', pm') ->
    exists h ops, logged (ul_list cc') h ops /\ pm' = pm_run tol ops /\ listed h (past ++ map fst gs).
  Proof.
    induction vs as [|v vs IH]; intros past h0 ops0 cc m pm gs cc' m' pm' R L E LI H; cbn [build_cells] in H.
    - injection H as <- <- <- <-. cbn. rewrite app_nil_r. exists h0, ops0. auto.
    - apply bind_ok in H as ([g s] & B & H). apply bind_ok in H as ([[[gs1 cc1] m1] pm1] & Q & H). injection H as <- <- <- <-.
      destruct (build_cell_map h0 ops0 _ _ _ _ _ _ _ _ R L E B) as (R1 & is & ops & L1 & E1 & S1).
      replace (zlen past + 1) with (zlen (past ++ [g])) in Q by (rewrite zlen_app; unfold zlen; cbn [length]; lia).
      cbn [map fst]. replace (past ++ g :: map fst gs1) with ((past ++ [g]) ++ map fst gs1) by (rewrite <- app_assoc; reflexivity).
      apply (IH (past ++ [g]) _ ops _ _ _ _ _ _ _ R1 L1 E1) in Q; [exact Q|].
      intros i c. rewrite in_app_iff, (LI i c), in_map_iff. split.
      + intros [(g0 & H1 & H2 & H3)|(j & E2 & Hj)].
        * exists g0. split; [exact H1|]. split; [|exact H3]. rewrite nth_error_app1; [exact H2|]. apply nth_error_Some. congruence.
        * injection E2 as -> <-. exists g. split; [unfold zlen; lia|]. split; [|apply S1; exact Hj].
          rewrite nth_error_app2 by (unfold zlen; lia). replace (Z.to_nat (zlen past) - length past)%nat with 0%nat by (unfold zlen; lia). reflexivity.
      + intros (g0 & H1 & H2 & H3). destruct (Nat.lt_ge_cases (Z.to_nat c) (length past)) as [C|C].
        * left. exists g0. rewrite nth_error_app1 in H2 by assumption. auto.
        * right. rewrite nth_error_app2 in H2 by assumption. exists i.
          destruct (Z.to_nat c - length past)%nat as [|n] eqn:En; [|destruct n; discriminate]. injection H2 as ->.
          split; [f_equal; unfold zlen; lia|]. apply S1. exact H3.
  Qed.
  Lemma voronoi_map fuel m : ul_ranged (dl_circumcenters d) -> voronoi tol fuel d = Ok m ->
    exists h ops, logged (ul_list (ms_points m)) h ops /\ ms_pointMap m = pm_run tol ops /\ listed h (ms_polygons m).
  Proof.
    intros R V. unfold voronoi in V. apply bind_ok in V as ([[[gs cc] em] pm] & B & V). injection V as <-. cbn [ms_points ms_polygons ms_pointMap].
    apply (build_cells_map fuel _ [] [] [] _ _ _ _ _ _ _ R (Forall2_nil _) eq_refl) in B; [exact B|].
    intros i c. split; [intros []|]. intros (g & _ & H & _). destruct (Z.to_nat c); discriminate.
  Qed.
End VorMap.

(** the list found at a vertex names exactly the cells with this vertex *)
Lemma vertex_cells_on {N : Num} (tol : nT N) fuel (o : trout N) d m :
  strict_weak_order_on (vertex_source o) (pt_ltb tol) ->
  (forall a b, vertex_source o a -> vertex_source o b -> equivb (pt_ltb tol) a b = pt_eqb tol a b) ->
  triangulation (zlen (o_points o)) (map fst (o_edges o)) (o_tris o) -> read_output tol o = Ok d -> voronoi tol fuel d = Ok m ->
  forall i q, vertices_are (ul_list (ms_points m)) [i] [q] ->
  forall c, In c (snd (pm_get tol (ms_pointMap m) q)) <-> exists g, 0 <= c /\ nth_error (ms_polygons m) (Z.to_nat c) = Some g /\ In i (pg_points g).
Proof.
  intros W EQ T RO V i q Q c. pose proof (read_output_ok tol o d T RO) as O.
  assert (I : ul_inv (vertex_source o) (pt_ltb tol) (ms_points m)).
  { apply (voronoi_keeps tol fuel o d m T RO V); [exact W|intros v x H; exists v; exact H|].
    apply (stored_inv tol o d _ T RO W). intros k c0 H. eapply center_source; exact H. }
  destruct (voronoi_map tol d fuel m (oo_cc _ _ _ O) V) as (h & ops & L & E & LI).
  assert (AT : forall j y, vertices_are (ul_list (ms_points m)) [j] [y] -> 0 <= j /\ nth_error (ul_list (ms_points m)) (Z.to_nat j) = Some y /\ vertex_source o y).
  { intros j y Y. inversion_clear Y as [|? ? ? ? [Y0 Y1] _]. split; [exact Y0|]. split; [exact Y1|]. apply (ui_P _ _ _ I). eapply nth_error_In; exact Y1. }
  assert (PO : forall op, In op ops -> vertex_source o (pm_op_point op)).
  { intros op Hop. destruct (Forall2_in_right _ _ _ L _ Hop) as (x & _ & y & Y & ->). exact (proj2 (proj2 (AT _ _ Y))). }
  destruct (AT _ _ Q) as (Q0 & Q1 & Q2). rewrite E, (proj1 (pointmap_history_on tol _ W EQ ops PO) q Q2). rewrite <- (LI i c).
  unfold pm_collected. rewrite in_flat_map. split.
  - intros (op & Hop & HC). destruct (Forall2_in_right _ _ _ L _ Hop) as ([j c'] & Hx & y & Y & ->). cbn [fst snd pm_op_point pm_op_indices] in *.
    destruct (pt_eqb tol y q) eqn:EE; [|destruct HC]. destruct HC as [<-|[]]. destruct (AT _ _ Y) as (Y0 & Y1 & Y2).
    assert (EI : Z.to_nat j = Z.to_nat i).
    { apply (ul_inv_distinct _ _ _ _ _ _ _ I Y1 Q1). rewrite <- EQ in EE by assumption. unfold equivb in EE. apply andb_true_iff in EE as [E1 E2].
      split; apply negb_true_iff; assumption. }
    replace i with j by lia. exact Hx.
  - intros Hx. destruct (Forall2_in_left _ _ _ L _ Hx) as (op & Hop & y & Y & ->). cbn [fst snd] in *. exists (PmInsert y c). split; [exact Hop|].
    cbn [pm_op_point pm_op_indices]. destruct (AT _ _ Y) as (_ & Y1 & _). rewrite Q1 in Y1. injection Y1 as <-.
    rewrite <- EQ by assumption. unfold equivb. rewrite (swo_irrefl _ _ W) by assumption. left. reflexivity.
Qed.

Lemma vertex_cells_real (tol : R) fuel (o : trout RNum) d m : (0 < tol)%R -> separated tol (vertex_source o) ->
  triangulation (zlen (o_points o)) (map fst (o_edges o)) (o_tris o) -> read_output (N := RNum) tol o = Ok d -> voronoi (N := RNum) tol fuel d = Ok m ->
  forall i q, vertices_are (ul_list (ms_points m)) [i] [q] ->
  forall c, In c (snd (pm_get (N := RNum) tol (ms_pointMap m) q)) <-> exists g, 0 <= c /\ nth_error (ms_polygons m) (Z.to_nat c) = Some g /\ In i (pg_points g).
Proof.
  intros TP SE. apply (vertex_cells_on (N := RNum) tol fuel o d m (pt_swo tol TP _ SE)). intros a b _ _. symmetry. apply pt_eqb_equivb. exact TP.
Qed.
Lemma vertex_cells_doubles (tol : f64) fuel (o : trout F64) d m : tolerance64 tol -> clustered tol (vertex_source o) ->
  triangulation (zlen (o_points o)) (map fst (o_edges o)) (o_tris o) -> read_output (N := F64) tol o = Ok d -> voronoi (N := F64) tol fuel d = Ok m ->
  forall i q, vertices_are (ul_list (ms_points m)) [i] [q] ->
  forall c, In c (snd (pm_get (N := F64) tol (ms_pointMap m) q)) <-> exists g, 0 <= c /\ nth_error (ms_polygons m) (Z.to_nat c) = Some g /\ In i (pg_points g).
Proof.
  intros HT C. apply (vertex_cells_on (N := F64) tol fuel o d m (clustered_swo tol HT _ C)).
  intros a b Pa Pb. apply (equivb_eqp (N := F64) tol _ (near64 tol) (EQ_64 tol HT _ C) (INC_64 tol HT _ C)); assumption.
Qed.
