(** Which neighbour maps generators and meshes share. *)
From Coq Require Import Lia ZArith List Bool.
From Verif Require Import Base MUtil MGeom MHull MPolygon MMaps MTriangle MGen MRegion MDelaunay MMesh MFile MShare BridgeShare Spec Bridge PMaps PDelaunay PMesh.
Import ListNotations.
Local Open Scope nat_scope.

Section Share.
  Context {N : Num}.
  Variables (atof : text -> nT N) (tol : nT N) (triangulate : switches -> pslg N -> trout N).
  Notation ado := (act_do atof tol triangulate).
  Notation wrun := (world_run atof tol triangulate).

  Definition Inv (w : world N) (f : families) : Prop :=
    fam_next f = length (hp_seg (wd_heap w)) /\ map go_edges (wd_gens w) = fam_gen f /\ map ob_edges (wd_meshes w) = fam_mesh f /\
    Forall (fun x => x < fam_next f) (fam_gen f) /\ Forall (fun x => x < fam_next f) (fam_mesh f) /\ Forall (fun o => ob_pm o < length (hp_pm (wd_heap w))) (wd_meshes w).

  Lemma put_nth {A} (l : list A) i (a : A) j : nth_error (put i a l) j = if Nat.eqb i j then (match nth_error l i with Some _ => Some a | None => None end) else nth_error l j.
  Proof. revert i j. induction l as [|x l IH]; intros [|i] [|j]; cbn; try reflexivity. - destruct (Nat.eqb i j); reflexivity. - apply IH. Qed.
  Lemma put_map {A B} (h : A -> B) i a (l : list A) : map h (put i a l) = put i (h a) (map h l).
  Proof. revert i. induction l as [|x l IH]; intros [|i]; cbn; [reflexivity|reflexivity|reflexivity|]. rewrite IH. reflexivity. Qed.
  Lemma put_id {A} (l : list A) i a : nth_error l i = Some a -> put i a l = l.
  Proof. revert i. induction l as [|x l IH]; intros [|i] H; cbn in *; try discriminate; [congruence|]. rewrite IH by exact H. reflexivity. Qed.
  Lemma put_split {A} (l : list A) i a : i < length l -> put i a l = firstn i l ++ a :: skipn (S i) l.
  Proof. revert i. induction l as [|x l IH]; intros [|i] H; cbn in *; try lia; [reflexivity|]. rewrite IH by lia. reflexivity. Qed.
  Lemma put_Forall {A} (P : A -> Prop) (l : list A) i a : Forall P l -> P a -> Forall P (put i a l).
  Proof. intros H Pa. revert i. induction H as [|x l Hx Hl IH]; intros [|i]; cbn; constructor; auto. Qed.
  Lemma Forall_mono {A} (P Q : A -> Prop) (l : list A) : (forall x, P x -> Q x) -> Forall P l -> Forall Q l.
  Proof. intros H F. eapply Forall_impl; eauto. Qed.
  Lemma upd_len {A} n f (l : list A) : length (upd_nth n f l) = length l.
  Proof. apply upd_nth_length. Qed.
  Lemma nth_map_default {A} (h : A -> nat) (l : list A) i a : nth_error l i = Some a -> nth i (map h l) 0 = h a.
  Proof. revert i. induction l as [|x l IH]; intros [|i] H; cbn in *; try discriminate; [congruence|]. apply IH. exact H. Qed.
  Lemma Forall_nth' {A} (P : A -> Prop) l i a : Forall P l -> nth_error l i = Some a -> P a.
  Proof. intros F H. rewrite Forall_forall in F. apply F. eapply nth_error_In; eauto. Qed.
  Lemma upd_some {A} n (x : A) (l : list A) k : nth_error (upd_nth n (fun _ => x) l) k = if Nat.eqb n k then (match nth_error l k with Some _ => Some x | None => None end) else nth_error l k.
  Proof. revert n k. induction l as [|y l IH]; intros [|n] [|k]; cbn; try reflexivity. - destruct (Nat.eqb n k); reflexivity. - apply IH. Qed.

  Lemma start_inv : Inv (mkWorld (mkHeap [] []) [] []) (mkFam 0 [] []).
  Proof. split; [reflexivity|]. split; [reflexivity|]. split; [reflexivity|]. split; [constructor|]. split; constructor. Qed.

  (** what a call answers *)
  Lemma gen_do_kind g c g' out : gen_do triangulate tol g c = (g', Ok out) ->
    match c with
    | CallConforming => exists t, out = OutMesh (RefToLocal t)
    | CallConformingInfo => exists d, out = OutInfo d
    | _ => exists t, out = OutMesh (ByValue t)
    end.
  Proof.
    unfold gen_do. destruct (ensure triangulate tol g (call_switches c) (call_restricted c)) as [g1 r]. intros H. injection H as _ H.
    destruct r as [d|]; [|discriminate]. cbn [bind] in H. destruct c; try (injection H as <-; eexists; reflexivity);
      (destruct (initializeMesh tol (triangle_ctor tol) d); [|discriminate]; injection H as <-; eexists; reflexivity).
  Qed.

  Lemma step_inv w f a w' : Inv w f -> ado w a = Ok w' -> Inv w' (family_step f a).
  Proof.
    intros (I1 & I2 & I3 & I4 & I5 & I6) H. destruct a as [seeds r|g|g c| |i|i j|pts ts i|i file start|i s]; cbn [act_do] in H.
    - injection H as <-. unfold new_gen, Inv. cbn [family_step fam_next fam_gen fam_mesh wd_heap wd_gens wd_meshes hp_seg hp_pm]. rewrite app_length, map_app. cbn [length map go_edges].
      split; [lia|]. split; [rewrite I2, I1; reflexivity|]. split; [exact I3|]. split; [apply Forall_app; split; [eapply Forall_mono; [|exact I4]; cbn; lia|constructor; [lia|constructor]]|].
      split; [eapply Forall_mono; [|exact I5]; cbn; lia|exact I6].
    - unfold copy_gen in H. destruct (vgetn (wd_gens w) g) as [go|] eqn:G; [|discriminate]. cbn [bind] in H. injection H as <-. apply vgetn_ok in G.
      unfold Inv. cbn [family_step fam_next fam_gen fam_mesh wd_heap wd_gens wd_meshes]. rewrite map_app. cbn [map]. rewrite <- I2, (nth_map_default go_edges _ _ _ G). 
      split; [exact I1|]. split; [reflexivity|]. split; [exact I3|]. rewrite I2. split; [apply Forall_app; split; [exact I4|constructor; [|constructor]]|split; assumption].
      rewrite <- I2, Forall_map in I4. exact (Forall_nth' _ _ _ _ I4 G).
    - unfold call_gen in H. destruct (vgetn (wd_gens w) g) as [go|] eqn:G; [|discriminate]. cbn [bind] in H. apply vgetn_ok in G.
      destruct (vgetn (hp_seg (wd_heap w)) (go_edges go)) as [m|]; [|discriminate]. cbn [bind] in H. destruct (gen_do triangulate tol (go_gen go) c) as [gn out] eqn:D.
      destruct out as [out|]; [|discriminate]. cbn [bind] in H. pose proof (gen_do_kind _ _ _ _ D) as K.
      assert (EG : map go_edges (put g (mkGenObj gn (go_edges go)) (wd_gens w)) = fam_gen f).
      { rewrite put_map. cbn [go_edges]. rewrite put_id; [exact I2|]. rewrite nth_error_map, G. reflexivity. }
      assert (EX : nth g (fam_gen f) 0 = go_edges go) by (rewrite <- I2; apply nth_map_default; exact G).
      assert (LT : go_edges go < fam_next f) by (rewrite <- I2, Forall_map in I4; exact (Forall_nth' _ _ _ _ I4 G)).
      assert (PM : forall x, Forall (fun o : mobj N (triangle N) => ob_pm o < length (hp_pm (wd_heap w) ++ [x])) (wd_meshes w)) by (intros x; eapply Forall_mono; [|exact I6]; cbn; intros o; rewrite app_length; cbn; lia).
      destruct c as [| | |sg]; destruct K as (t & ->); injection H as <-; unfold Inv; cbn [family_step fam_next fam_gen fam_mesh wd_heap wd_gens wd_meshes hp_seg hp_pm]; rewrite upd_len.
      + split; [exact I1|]. split; [exact EG|]. split; [exact I3|]. split; [exact I4|]. split; [exact I5|apply PM].
      + split; [exact I1|]. split; [exact EG|]. split; [exact I3|]. split; [exact I4|]. split; [exact I5|exact I6].
      + rewrite map_app. cbn [map ob_edges]. rewrite I3, EX. split; [exact I1|]. split; [exact EG|]. split; [reflexivity|]. split; [exact I4|].
        split; [apply Forall_app; split; [exact I5|constructor; [exact LT|constructor]]|apply Forall_app; split; [apply PM|constructor; [cbn [ob_pm]; rewrite app_length; cbn; lia|constructor]]].
      + rewrite map_app. cbn [map ob_edges]. rewrite I3, EX. split; [exact I1|]. split; [exact EG|]. split; [reflexivity|]. split; [exact I4|].
        split; [apply Forall_app; split; [exact I5|constructor; [exact LT|constructor]]|apply Forall_app; split; [apply PM|constructor; [cbn [ob_pm]; rewrite app_length; cbn; lia|constructor]]].
    - injection H as <-. unfold new_mesh, Inv. cbn [family_step fam_next fam_gen fam_mesh wd_heap wd_gens wd_meshes hp_seg hp_pm]. rewrite app_length, map_app. cbn [length map ob_edges].
      split; [lia|]. split; [exact I2|]. split; [rewrite I3, I1; reflexivity|]. split; [eapply Forall_mono; [|exact I4]; cbn; lia|].
      split; [apply Forall_app; split; [eapply Forall_mono; [|exact I5]; cbn; lia|constructor; [lia|constructor]]|].
      apply Forall_app. split; [eapply Forall_mono; [|exact I6]; cbn; intros o; rewrite app_length; cbn; lia|constructor; [cbn [ob_pm]; rewrite app_length; cbn; lia|constructor]].
    - unfold copy_mesh in H. destruct (vgetn (wd_meshes w) i) as [o|] eqn:G; [|discriminate]. cbn [bind] in H. injection H as <-. apply vgetn_ok in G.
      unfold Inv. cbn [family_step fam_next fam_gen fam_mesh wd_heap wd_gens wd_meshes]. rewrite map_app. cbn [map mesh_copy ob_edges]. rewrite <- I3, (nth_map_default ob_edges _ _ _ G).
      split; [exact I1|]. split; [exact I2|]. split; [reflexivity|]. split; [exact I4|]. rewrite I3. split; [apply Forall_app; split; [exact I5|constructor; [|constructor]]|].
      + rewrite <- I3, Forall_map in I5. exact (Forall_nth' _ _ _ _ I5 G).
      + apply Forall_app. split; [exact I6|constructor; [exact (Forall_nth' _ _ _ _ I6 G)|constructor]].
    - unfold assign_mesh in H. destruct (vgetn (wd_meshes w) i) as [o0|] eqn:G0; [|discriminate]. cbn [bind] in H. destruct (vgetn (wd_meshes w) j) as [o|] eqn:G; [|discriminate]. cbn [bind] in H. injection H as <-.
      apply vgetn_ok in G. apply vgetn_ok in G0. unfold Inv. cbn [family_step fam_next fam_gen fam_mesh wd_heap wd_gens wd_meshes]. rewrite put_map, I3.
      assert (L : i < length (fam_mesh f)) by (rewrite <- I3, map_length; apply nth_error_Some; congruence).
      assert (EX : nth j (fam_mesh f) 0 = ob_edges o) by (rewrite <- I3; apply nth_map_default; exact G). rewrite EX, <- put_split by exact L.
      split; [exact I1|]. split; [exact I2|]. split; [reflexivity|]. split; [exact I4|]. split; [apply put_Forall; [exact I5|]|apply put_Forall; [exact I6|exact (Forall_nth' _ _ _ _ I6 G)]].
      rewrite <- I3, Forall_map in I5. exact (Forall_nth' _ _ _ _ I5 G).
    - unfold mesh_with_maps in H. destruct (vgetn (wd_meshes w) i) as [o|] eqn:G; [|discriminate]. cbn [bind] in H. injection H as <-. apply vgetn_ok in G.
      unfold Inv. cbn [family_step fam_next fam_gen fam_mesh wd_heap wd_gens wd_meshes]. rewrite map_app. cbn [map ob_edges]. rewrite <- I3, (nth_map_default ob_edges _ _ _ G).
      split; [exact I1|]. split; [exact I2|]. split; [reflexivity|]. split; [exact I4|]. rewrite I3. split; [apply Forall_app; split; [exact I5|constructor; [|constructor]]|].
      + rewrite <- I3, Forall_map in I5. exact (Forall_nth' _ _ _ _ I5 G).
      + apply Forall_app. split; [exact I6|constructor; [exact (Forall_nth' _ _ _ _ I6 G)|constructor]].
    - unfold read_mesh_into in H. destruct (vgetn (wd_meshes w) i) as [o|] eqn:G; [|discriminate]. cbn [bind] in H. apply vgetn_ok in G. unfold obj_createFromStream in H.
      destruct (mesh_view (wd_heap w) o) as [m|]; [|discriminate]. cbn [bind] in H.
      match type of H with context [createFromStream ?a ?b ?c ?d ?e ?f ?g] => destruct (createFromStream a b c d e f g) as [m'|]; [|discriminate] end. cbn [bind] in H. injection H as <-.
      unfold Inv. cbn [family_step fam_next fam_gen fam_mesh wd_heap wd_gens wd_meshes hp_seg hp_pm]. rewrite upd_len, put_map. cbn [ob_edges]. rewrite put_id by (rewrite nth_error_map, G; reflexivity).
      split; [exact I1|]. split; [exact I2|]. split; [exact I3|]. split; [exact I4|]. split; [exact I5|apply put_Forall; [exact I6|exact (Forall_nth' _ _ _ _ I6 G)]].
    - unfold look_up in H. destruct (vgetn (wd_meshes w) i) as [o|] eqn:G; [|discriminate]. cbn [bind] in H. unfold obj_getNeighbours in H.
      destruct (vgetn (hp_seg (wd_heap w)) (ob_edges o)) as [e|]; [|discriminate]. cbn [bind] in H. destruct (sm_get iseg_eqb e s) as [e' n]. cbn [bind] in H. injection H as <-.
      unfold Inv. cbn [family_step wd_heap wd_gens wd_meshes hp_seg hp_pm]. rewrite upd_len. split; [exact I1|]. split; [exact I2|]. split; [exact I3|]. split; [exact I4|]. split; assumption.
  Qed.

  Lemma run_snoc acts a w : wrun (acts ++ [a]) = Ok w -> exists w0, wrun acts = Ok w0 /\ ado w0 a = Ok w.
  Proof. unfold world_run. rewrite foldM_app. destruct (foldM ado acts _) as [w0|]; [|discriminate]. cbn [bind foldM]. intros H. exists w0. split; [reflexivity|]. destruct (ado w0 a); [exact H|discriminate]. Qed.
  Lemma run_inv acts w : wrun acts = Ok w -> Inv w (families_of acts).
  Proof.
    revert w. induction acts as [|a acts IH] using rev_ind; intros w H.
    - injection H as <-. exact start_inv.
    - apply run_snoc in H as (w0 & R & S). unfold families_of. rewrite fold_left_app. cbn [fold_left]. exact (step_inv _ _ _ _ (IH _ R) S).
  Qed.

  Lemma view_parts (w : world N) i m : world_mesh w i = Ok m -> exists o e p, nth_error (wd_meshes w) i = Some o /\ nth_error (hp_seg (wd_heap w)) (ob_edges o) = Some e /\
    nth_error (hp_pm (wd_heap w)) (ob_pm o) = Some p /\ m = mkMesh (ob_points o) (ob_polys o) e p.
  Proof.
    unfold world_mesh, mesh_view. destruct (vgetn (wd_meshes w) i) as [o|] eqn:G; [|discriminate]. cbn [bind]. destruct (vgetn (hp_seg (wd_heap w)) (ob_edges o)) as [e|] eqn:E; [|discriminate]. cbn [bind].
    destruct (vgetn (hp_pm (wd_heap w)) (ob_pm o)) as [p|] eqn:P; [|discriminate]. intros H. injection H as <-. apply vgetn_ok in G. apply vgetn_ok in E. apply vgetn_ok in P. exists o, e, p. auto.
  Qed.
  Lemma view_make (w : world N) i (o : mobj N (triangle N)) e p : nth_error (wd_meshes w) i = Some o -> nth_error (hp_seg (wd_heap w)) (ob_edges o) = Some e -> nth_error (hp_pm (wd_heap w)) (ob_pm o) = Some p ->
    world_mesh w i = Ok (mkMesh (ob_points o) (ob_polys o) e p).
  Proof. intros G E P. unfold world_mesh, mesh_view. apply vgetn_ok in G. apply vgetn_ok in E. apply vgetn_ok in P. rewrite G. cbn [bind]. rewrite E. cbn [bind]. rewrite P. reflexivity. Qed.

  Lemma fam_of (w : world N) f i o : Inv w f -> nth_error (wd_meshes w) i = Some o -> nth_error (fam_mesh f) i = Some (ob_edges o).
  Proof. intros (_ & _ & I3 & _) G. rewrite <- I3, nth_error_map, G. reflexivity. Qed.
  Lemma gfam_of (w : world N) f g o : Inv w f -> nth_error (wd_gens w) g = Some o -> nth_error (fam_gen f) g = Some (go_edges o).
  Proof. intros (_ & I2 & _) G. rewrite <- I2, nth_error_map, G. reflexivity. Qed.

  (** every mesh of the program can be seen *)
  Lemma all_visible acts w i : wrun acts = Ok w -> i < length (fam_mesh (families_of acts)) -> exists m, world_mesh w i = Ok m.
  Proof.
    intros R L. destruct (run_inv _ _ R) as (I1 & I2 & I3 & I4 & I5 & I6). rewrite <- I3, map_length in L. destruct (nth_error (wd_meshes w) i) as [o|] eqn:G; [|apply nth_error_None in G; lia].
    assert (A : ob_edges o < length (hp_seg (wd_heap w))) by (rewrite <- I1; rewrite <- I3, Forall_map in I5; exact (Forall_nth' _ _ _ _ I5 G)).
    pose proof (Forall_nth' _ _ _ _ I6 G) as B. cbn beta in B. apply nth_error_Some in A. apply nth_error_Some in B.
    destruct (nth_error (hp_seg (wd_heap w)) (ob_edges o)) as [e|] eqn:E; [|congruence]. destruct (nth_error (hp_pm (wd_heap w)) (ob_pm o)) as [p|] eqn:P; [|congruence].
    eexists. exact (view_make _ _ _ _ _ G E P).
  Qed.

  Lemma family_shares acts w i j mi mj k : wrun acts = Ok w -> world_mesh w i = Ok mi -> world_mesh w j = Ok mj -> mesh_family acts i = Some k -> mesh_family acts j = Some k -> ms_edges mi = ms_edges mj.
  Proof.
    intros R Vi Vj Fi Fj. pose proof (run_inv _ _ R) as I. apply view_parts in Vi as (oi & ei & pi & A1 & A2 & A3 & ->). apply view_parts in Vj as (oj & ej & pj & B1 & B2 & B3 & ->).
    unfold mesh_family in *. rewrite (fam_of _ _ _ _ I A1) in Fi. rewrite (fam_of _ _ _ _ I B1) in Fj. cbn [ms_edges]. congruence.
  Qed.

  Lemma nth_app_l {A} (l l' : list A) i a : nth_error l i = Some a -> nth_error (l ++ l') i = Some a.
  Proof. intros H. rewrite nth_error_app1; [exact H|]. apply nth_error_Some. congruence. Qed.

  Lemma others_untouched acts w a w' i m : wrun acts = Ok w -> ado w a = Ok w' -> world_mesh w i = Ok m -> works_on acts a <> mesh_family acts i -> (forall j, a <> AssignMesh i j) -> world_mesh w' i = Ok m.
  Proof.
    intros R S V W NA. pose proof (run_inv _ _ R) as I. apply view_parts in V as (o & e & p & A1 & A2 & A3 & ->). unfold mesh_family in W. rewrite (fam_of _ _ _ _ I A1) in W.
    destruct a as [seeds r|g|g c| |i'|i' j|pts ts i'|i' file start|i' s]; cbn [act_do works_on] in *.
    - injection S as <-. apply view_make; cbn; [exact A1|apply nth_app_l; exact A2|exact A3].
    - unfold copy_gen in S. destruct (vgetn (wd_gens w) g) as [go|] eqn:G; [|discriminate]. injection S as <-. apply view_make; assumption.
    - unfold call_gen in S. destruct (vgetn (wd_gens w) g) as [go|] eqn:G; [|discriminate]. cbn [bind] in S. apply vgetn_ok in G. unfold gen_family in W. rewrite (gfam_of _ _ _ _ I G) in W.
      destruct (vgetn (hp_seg (wd_heap w)) (go_edges go)) as [m|]; [|discriminate]. cbn [bind] in S. destruct (gen_do triangulate tol (go_gen go) c) as [gn out] eqn:D.
      destruct out as [out|]; [|discriminate]. cbn [bind] in S.
      assert (E : forall x, nth_error (upd_nth (go_edges go) (fun _ => x) (hp_seg (wd_heap w))) (ob_edges o) = Some e).
      { intros x. rewrite upd_some. destruct (Nat.eqb_spec (go_edges go) (ob_edges o)) as [Q|Q]; [congruence|exact A2]. }
      destruct out as [[t|t]|d]; injection S as <-; apply view_make; cbn [wd_meshes wd_heap hp_seg hp_pm]; solve [apply nth_app_l; exact A1|exact A1|apply E|apply nth_app_l; exact A3|exact A3].
    - injection S as <-. apply view_make; cbn; apply nth_app_l; assumption.
    - unfold copy_mesh in S. destruct (vgetn (wd_meshes w) i') as [o'|]; [|discriminate]. injection S as <-. apply view_make; cbn; [apply nth_app_l; exact A1|exact A2|exact A3].
    - unfold assign_mesh in S. destruct (vgetn (wd_meshes w) i') as [o'|]; [|discriminate]. cbn [bind] in S. destruct (vgetn (wd_meshes w) j) as [o2|]; [|discriminate]. injection S as <-.
      apply view_make; cbn; [|exact A2|exact A3]. rewrite put_nth. destruct (Nat.eqb_spec i' i) as [->|Q]; [exfalso; exact (NA j eq_refl)|exact A1].
    - unfold mesh_with_maps in S. destruct (vgetn (wd_meshes w) i') as [o'|]; [|discriminate]. injection S as <-. apply view_make; cbn; [apply nth_app_l; exact A1|exact A2|exact A3].
    - unfold read_mesh_into in S. destruct (vgetn (wd_meshes w) i') as [o'|] eqn:G; [|discriminate]. cbn [bind] in S. apply vgetn_ok in G. unfold mesh_family in W. rewrite (fam_of _ _ _ _ I G) in W. unfold obj_createFromStream in S.
      destruct (mesh_view (wd_heap w) o') as [m|]; [|discriminate]. cbn [bind] in S.
      match type of S with context [createFromStream ?a ?b ?c ?d ?e ?f ?g] => destruct (createFromStream a b c d e f g) as [m'|]; [|discriminate] end. cbn [bind] in S. injection S as <-.
      apply view_make; cbn [wd_meshes wd_heap hp_seg hp_pm].
      + rewrite put_nth. destruct (Nat.eqb_spec i' i) as [->|Q]; [congruence|exact A1].
      + rewrite upd_some. destruct (Nat.eqb_spec (ob_edges o') (ob_edges o)) as [Q|Q]; [congruence|exact A2].
      + exact A3.
    - unfold look_up in S. destruct (vgetn (wd_meshes w) i') as [o'|] eqn:G; [|discriminate]. cbn [bind] in S. apply vgetn_ok in G. unfold mesh_family in W. rewrite (fam_of _ _ _ _ I G) in W. unfold obj_getNeighbours in S.
      destruct (vgetn (hp_seg (wd_heap w)) (ob_edges o')) as [e0|]; [|discriminate]. cbn [bind] in S. destruct (sm_get iseg_eqb e0 s) as [e' n]. cbn [bind] in S. injection S as <-.
      apply view_make; cbn [wd_meshes wd_heap hp_seg hp_pm]; [exact A1| |exact A3]. rewrite upd_some. destruct (Nat.eqb_spec (ob_edges o') (ob_edges o)) as [Q|Q]; [congruence|exact A2].
  Qed.

  (** what the members of a family see *)
  Lemma lookup_effect acts w i j s w' m k : wrun acts = Ok w -> ado w (LookUp j s) = Ok w' -> world_mesh w i = Ok m -> mesh_family acts i = Some k -> mesh_family acts j = Some k ->
    world_mesh w' i = Ok (mkMesh (ms_points m) (ms_polygons m) (fst (sm_get iseg_eqb (ms_edges m) s)) (ms_pointMap m)).
  Proof.
    intros R S V Fi Fj. pose proof (run_inv _ _ R) as I. apply view_parts in V as (o & e & p & A1 & A2 & A3 & ->). unfold mesh_family in *. rewrite (fam_of _ _ _ _ I A1) in Fi. cbn [act_do] in S.
    unfold look_up in S. destruct (vgetn (wd_meshes w) j) as [o'|] eqn:G; [|discriminate]. cbn [bind] in S. apply vgetn_ok in G. rewrite (fam_of _ _ _ _ I G) in Fj. assert (Q : ob_edges o' = ob_edges o) by congruence.
    unfold obj_getNeighbours in S. rewrite Q in S. pose proof A2 as A2'. apply vgetn_ok in A2'. rewrite A2' in S. cbn [bind] in S. destruct (sm_get iseg_eqb e s) as [e' n] eqn:SG. cbn [bind] in S. injection S as <-. cbn [ms_points ms_polygons ms_edges ms_pointMap]. rewrite SG. cbn [fst].
    apply view_make; cbn [wd_meshes wd_heap hp_seg hp_pm]; [exact A1| |exact A3]. rewrite upd_some, Nat.eqb_refl, A2. reflexivity.
  Qed.

  Lemma lookup_effect2 acts w i j s w' m k : wrun acts = Ok w -> ado w (LookUp j s) = Ok w' -> world_mesh w i = Ok m -> mesh_family acts i = Some k -> mesh_family acts j = Some k ->
    (um_find iseg_eqb s (ms_edges m) <> None -> world_mesh w' i = Ok m) /\
    (um_find iseg_eqb s (ms_edges m) = None -> world_mesh w' i = Ok (mkMesh (ms_points m) (ms_polygons m) (ms_edges m ++ [(s, mkNb None (-1)%Z)]) (ms_pointMap m))).
  Proof.
    intros R S V Fi Fj. rewrite (lookup_effect _ _ _ _ _ _ _ _ R S V Fi Fj). unfold sm_get. destruct (um_find iseg_eqb s (ms_edges m)) as [n|]; cbn [fst].
    - split; [intros _; destruct m; reflexivity|discriminate].
    - split; [congruence|reflexivity].
  Qed.

  Lemma read_effect acts w i j file start w' m k : wrun acts = Ok w -> ado w (ReadInto j file start) = Ok w' -> world_mesh w i = Ok m -> mesh_family acts i = Some k -> mesh_family acts j = Some k ->
    exists mj mj', world_mesh w j = Ok mj /\ createFromStream atof tol (triangle_ctor tol) (fun t => pg_points (tr_poly t)) mj file start = Ok mj' /\ world_mesh w' j = Ok mj' /\
      (i <> j -> world_mesh w' i = Ok (mkMesh (ms_points m) (ms_polygons m) (ms_edges mj') (ms_pointMap m))).
  Proof.
    intros R S V Fi Fj. pose proof (run_inv _ _ R) as I. apply view_parts in V as (o & e & p & A1 & A2 & A3 & ->). unfold mesh_family in *. rewrite (fam_of _ _ _ _ I A1) in Fi. cbn [act_do] in S.
    unfold read_mesh_into in S. destruct (vgetn (wd_meshes w) j) as [o'|] eqn:G; [|discriminate]. cbn [bind] in S. unfold obj_createFromStream in S.
    destruct (mesh_view (wd_heap w) o') as [mj|] eqn:VJ; [|discriminate]. cbn [bind] in S.
    match type of S with context [createFromStream ?a ?b ?c ?d ?e ?f ?g] => destruct (createFromStream a b c d e f g) as [m'|] eqn:CR; [|discriminate] end. cbn [bind] in S. injection S as <-.
    assert (WJ : world_mesh w j = Ok mj) by (unfold world_mesh; rewrite G; exact VJ). destruct (view_parts _ _ _ WJ) as (oj & ej & pj & B1 & B2 & B3 & Ej). apply vgetn_ok in G. rewrite G in B1. injection B1 as <-.
    rewrite (fam_of _ _ _ _ I G) in Fj. assert (Q : ob_edges o' = ob_edges o) by congruence. exists mj, m'. split; [exact WJ|]. split; [exact CR|].
    assert (PMJ : ms_pointMap m' = pj).
    { subst mj. unfold createFromStream in CR. repeat match type of CR with context [let '(_, _) := ?x in _] => destruct x | bind ?x _ = _ => destruct x as [?|]; [cbn [bind] in CR|discriminate] end. injection CR as <-. reflexivity. }
    split.
    - rewrite (view_make _ j (mkObj (ms_points m') (ms_polygons m') (ob_edges o') (ob_pm o')) (ms_edges m') pj).
      + cbn [ob_points ob_polys]. rewrite <- PMJ. destruct m'; reflexivity.
      + cbn [wd_meshes]. rewrite put_nth, Nat.eqb_refl, G. reflexivity.
      + cbn [wd_heap hp_seg ob_edges]. rewrite upd_some, Nat.eqb_refl, B2. reflexivity.
      + exact B3.
    - intros NE. cbn [ms_points ms_polygons ms_pointMap]. apply view_make; cbn [wd_meshes wd_heap hp_seg hp_pm].
      + rewrite put_nth. destruct (Nat.eqb_spec j i); [congruence|exact A1].
      + rewrite upd_some, Q, Nat.eqb_refl, A2. reflexivity.
      + exact A3.
  Qed.

  Lemma assign_effect acts w i j w' : wrun acts = Ok w -> ado w (AssignMesh i j) = Ok w' -> world_mesh w' i = world_mesh w j.
  Proof.
    intros _ S. cbn [act_do] in S. unfold assign_mesh in S. destruct (vgetn (wd_meshes w) i) as [o0|] eqn:G0; [|discriminate]. cbn [bind] in S. destruct (vgetn (wd_meshes w) j) as [o|] eqn:G; [|discriminate]. cbn [bind] in S. injection S as <-.
    apply vgetn_ok in G0. unfold world_mesh. rewrite G. cbn [wd_meshes wd_heap]. replace (vgetn (put i o (wd_meshes w)) i) with (Ok o); [reflexivity|]. symmetry. apply vgetn_ok. rewrite put_nth, Nat.eqb_refl, G0. reflexivity.
  Qed.

  (** the first mesh of a new generator is the one of the model without sharing *)
  Lemma first_mesh acts w seeds r c w' : wrun (acts ++ [NewGen seeds r]) = Ok w -> gives_mesh (CallGen (length (fam_gen (families_of acts))) c) <> None ->
    ado w (CallGen (length (fam_gen (families_of acts))) c) = Ok w' ->
    exists g t, gen_do triangulate tol (gen_ctor seeds r) c = (g, Ok (OutMesh (ByValue t))) /\ world_mesh w' (length (fam_mesh (families_of acts))) = Ok t.
  Proof.
    intros R GM S. apply run_snoc in R as (w0 & R & S0). destruct (run_inv _ _ R) as (I1 & I2 & I3 & _). cbn [act_do] in S0. injection S0 as <-. cbn [act_do] in S.
    unfold call_gen in S. rewrite <- I2, map_length in S. cbn [new_gen wd_gens wd_heap hp_seg hp_pm wd_meshes] in S.
    replace (vgetn (wd_gens w0 ++ [mkGenObj (gen_ctor seeds r) (length (hp_seg (wd_heap w0)))]) (length (wd_gens w0))) with (Ok (mkGenObj (gen_ctor seeds r) (length (hp_seg (wd_heap w0))))) in S
      by (symmetry; apply vgetn_ok; rewrite nth_error_app2, Nat.sub_diag by lia; reflexivity).
    cbn [bind go_edges go_gen] in S. replace (vgetn (hp_seg (wd_heap w0) ++ [[]]) (length (hp_seg (wd_heap w0)))) with (Ok (@nil (iseg * nbseg))) in S by (symmetry; apply vgetn_ok; rewrite nth_error_app2, Nat.sub_diag by lia; reflexivity).
    cbn [bind] in S. destruct (gen_do triangulate tol (gen_ctor seeds r) c) as [gn out] eqn:D. destruct out as [out|]; [|discriminate]. cbn [bind] in S. pose proof (gen_do_kind _ _ _ _ D) as K.
    assert (KT : exists t, out = OutMesh (ByValue t)) by (destruct c; cbn in GM; try congruence; exact K). destruct KT as (t & ->). exists gn, t. split; [reflexivity|]. injection S as <-.
    rewrite <- I3, map_length.
    (* the edges *)
    assert (X : exists d, gn_data gn = Some (Ok d) /\ ms_edges t = put_edges [] (dl_edges d)).
    { unfold gen_do in D. destruct (ensure triangulate tol (gen_ctor seeds r) (call_switches c) (call_restricted c)) as [g1 rd] eqn:EN. injection D as -> D. destruct rd as [d|]; [|discriminate]. cbn [bind] in D.
      assert (IM : initializeMesh tol (triangle_ctor tol) d = Ok t).
      { destruct c; cbn in GM; try congruence; (destruct (initializeMesh tol (triangle_ctor tol) d) as [t'|]; [|discriminate]; cbn [bind] in D; congruence). }
      exists d. unfold ensure in EN. cbn [gen_ctor gn_data] in EN. unfold callTriangle in EN. destruct (build_pslg tol _ _ _) as [inp|]; [|congruence]. injection EN as <- EN. cbn [gn_data]. split; [congruence|].
      unfold initializeMesh in IM. destruct (ul_push_list _ _ _) as [pts idx] in IM. match type of IM with bind ?x _ = _ => destruct x as [[polys pm]|]; [|discriminate] end. cbn [bind] in IM. injection IM as <-. cbn [ms_edges].
      unfold read_output in EN. repeat match type of EN with bind ?x _ = _ => destruct x as [?|]; [cbn [bind] in EN|discriminate] | context [let '(_, _) := ?x in _] => destruct x end. injection EN as <-. reflexivity. }
    destruct X as (d & X1 & X2). rewrite X1. cbn [gen_ctor gn_data].
    rewrite (view_make _ _ (mkObj (ms_points t) (ms_polygons t) (length (hp_seg (wd_heap w0))) (length (hp_pm (wd_heap w0)))) (ms_edges t) (ms_pointMap t)).
    - destruct t; reflexivity.
    - cbn [wd_meshes]. rewrite nth_error_app2, Nat.sub_diag by lia. reflexivity.
    - cbn [wd_heap hp_seg ob_edges]. rewrite upd_some, Nat.eqb_refl, nth_error_app2, Nat.sub_diag by lia. cbn [nth_error]. rewrite X2. reflexivity.
    - cbn [wd_heap hp_pm ob_pm]. rewrite nth_error_app2, Nat.sub_diag by lia. reflexivity.
  Qed.

  Lemma first_mesh2 acts w seeds r c w' : wrun (acts ++ [NewGen seeds r]) = Ok w -> c = CallConstrained \/ (exists s, c = CallConstrainedWith s) ->
    ado w (CallGen (length (fam_gen (families_of acts))) c) = Ok w' ->
    exists g t, gen_do triangulate tol (gen_ctor seeds r) c = (g, Ok (OutMesh (ByValue t))) /\ world_mesh w' (length (fam_mesh (families_of acts))) = Ok t.
  Proof. intros R C. apply (first_mesh _ _ _ _ _ _ R). destruct C as [->|(s & ->)]; cbn [gives_mesh]; discriminate. Qed.

  (** later calls on the same generator leave the maps alone *)
  Lemma later_calls acts w g c go d w' i m : wrun acts = Ok w -> nth_error (wd_gens w) g = Some go -> gn_data (go_gen go) = Some d -> ado w (CallGen g c) = Ok w' -> world_mesh w i = Ok m -> world_mesh w' i = Ok m.
  Proof.
    intros R G GD S V. apply view_parts in V as (o & e & p & A1 & A2 & A3 & ->). cbn [act_do] in S. unfold call_gen in S. apply vgetn_ok in G. rewrite G in S. cbn [bind] in S.
    destruct (vgetn (hp_seg (wd_heap w)) (go_edges go)) as [m|] eqn:M; [|discriminate]. cbn [bind] in S. apply vgetn_ok in M. rewrite GD in S. destruct (gen_do triangulate tol (go_gen go) c) as [gn out].
    destruct out as [out|]; [|discriminate]. cbn [bind] in S.
    assert (E : nth_error (upd_nth (go_edges go) (fun _ => m) (hp_seg (wd_heap w))) (ob_edges o) = Some e).
    { rewrite upd_some. destruct (Nat.eqb_spec (go_edges go) (ob_edges o)) as [Q|Q]; [rewrite Q in M; rewrite M in A2; rewrite M; exact A2|exact A2]. }
    destruct out as [[t|t]|d0]; injection S as <-; apply view_make; cbn [wd_meshes wd_heap hp_seg hp_pm]; solve [apply nth_app_l; exact A1|exact A1|exact E|apply nth_app_l; exact A3|exact A3].
  Qed.

  (** a generator that was called stays called *)
  Lemma gen_do_called (g : gen N) c g' out : gen_do triangulate tol g c = (g', out) -> exists d, gn_data g' = Some d.
  Proof.
    unfold gen_do. destruct (ensure triangulate tol g (call_switches c) (call_restricted c)) as [g1 r] eqn:E. intros H. injection H as <- _. unfold ensure in E. destruct (gn_data g) as [d|] eqn:D.
    - injection E as <- _. eauto.
    - unfold callTriangle in E. destruct (build_pslg tol _ _ _); injection E as <- _; cbn [gn_data]; eauto.
  Qed.
  Lemma step_called w a w' g : ado w a = Ok w' -> (exists c, a = CallGen g c) \/ (exists go d, nth_error (wd_gens w) g = Some go /\ gn_data (go_gen go) = Some d) ->
    exists go d, nth_error (wd_gens w') g = Some go /\ gn_data (go_gen go) = Some d.
  Proof.
    intros S H. destruct a as [seeds r|g0|g0 c| |i|i j|pts ts i|i file start|i s]; cbn [act_do] in S.
    - destruct H as [(c & H)|(go & d & H1 & H2)]; [discriminate|]. injection S as <-. exists go, d. split; [apply nth_app_l; exact H1|exact H2].
    - destruct H as [(c & H)|(go & d & H1 & H2)]; [discriminate|]. unfold copy_gen in S. destruct (vgetn (wd_gens w) g0); [|discriminate]. injection S as <-. exists go, d. split; [apply nth_app_l; exact H1|exact H2].
    - unfold call_gen in S. destruct (vgetn (wd_gens w) g0) as [go0|] eqn:G; [|discriminate]. cbn [bind] in S. apply vgetn_ok in G. destruct (vgetn (hp_seg (wd_heap w)) (go_edges go0)) as [m|]; [|discriminate]. cbn [bind] in S.
      destruct (gen_do triangulate tol (go_gen go0) c) as [gn out] eqn:D. destruct out as [out|]; [|discriminate]. cbn [bind] in S. destruct (gen_do_called _ _ _ _ D) as (d0 & D0).
      assert (E : wd_gens w' = put g0 (mkGenObj gn (go_edges go0)) (wd_gens w)) by (destruct out as [[t|t]|d1]; injection S as <-; reflexivity). rewrite E, put_nth, G.
      destruct (Nat.eqb_spec g0 g) as [->|Q]; [exists (mkGenObj gn (go_edges go0)), d0; split; [reflexivity|exact D0]|]. destruct H as [(c' & H)|(go & d & H1 & H2)]; [congruence|]. exists go, d. auto.
    - destruct H as [(c & H)|(go & d & H1 & H2)]; [discriminate|]. injection S as <-. exists go, d. auto.
    - destruct H as [(c & H)|(go & d & H1 & H2)]; [discriminate|]. unfold copy_mesh in S. destruct (vgetn (wd_meshes w) i); [|discriminate]. injection S as <-. exists go, d. auto.
    - destruct H as [(c & H)|(go & d & H1 & H2)]; [discriminate|]. unfold assign_mesh in S. destruct (vgetn (wd_meshes w) i); [|discriminate]. cbn [bind] in S. destruct (vgetn (wd_meshes w) j); [|discriminate]. injection S as <-. exists go, d. auto.
    - destruct H as [(c & H)|(go & d & H1 & H2)]; [discriminate|]. unfold mesh_with_maps in S. destruct (vgetn (wd_meshes w) i); [|discriminate]. injection S as <-. exists go, d. auto.
    - destruct H as [(c & H)|(go & d & H1 & H2)]; [discriminate|]. unfold read_mesh_into in S. destruct (vgetn (wd_meshes w) i); [|discriminate]. cbn [bind] in S. destruct (obj_createFromStream _ _ _ _ _ _ _ _) as [[h o]|]; [|discriminate]. injection S as <-. exists go, d. auto.
    - destruct H as [(c & H)|(go & d & H1 & H2)]; [discriminate|]. unfold look_up in S. destruct (vgetn (wd_meshes w) i); [|discriminate]. cbn [bind] in S. destruct (obj_getNeighbours _ _ _) as [[h o]|]; [|discriminate]. injection S as <-. exists go, d. auto.
  Qed.
  Lemma run_called acts w g c : wrun acts = Ok w -> In (CallGen g c) acts -> exists go d, nth_error (wd_gens w) g = Some go /\ gn_data (go_gen go) = Some d.
  Proof.
    revert w. induction acts as [|a acts IH] using rev_ind; intros w R Hin; [destruct Hin|]. apply run_snoc in R as (w0 & R & S). apply (step_called _ _ _ _ S). apply in_app_iff in Hin as [Hin|[Hin|[]]]; [right; exact (IH _ R Hin)|left; exists c; exact Hin].
  Qed.
  Lemma later_calls2 acts w g c0 c w' i m : wrun acts = Ok w -> In (CallGen g c0) acts -> ado w (CallGen g c) = Ok w' -> world_mesh w i = Ok m -> world_mesh w' i = Ok m.
  Proof. intros R Hin. destruct (run_called _ _ _ _ R Hin) as (go & d & H1 & H2). exact (later_calls _ _ _ _ _ _ _ _ _ R H1 H2). Qed.

  Lemma put_edges_find m es s : um_find iseg_eqb s (put_edges m es) =
    match find (fun e => same_side s (e_p1 e, e_p2 e)) (rev es) with Some e => Some (nb_two (e_t1 e) (e_t2 e)) | None => um_find iseg_eqb s m end.
  Proof.
    induction es as [|e es IH] using rev_ind; [reflexivity|]. rewrite rev_app_distr. cbn [rev app find]. unfold put_edges in *. rewrite fold_left_app. cbn [fold_left]. rewrite same_side_iseg, (iseg_eqb_sym s).
    set (k := fold_left _ es m) in *. unfold sm_put. destruct (um_find iseg_eqb (e_p1 e, e_p2 e) k) as [n|] eqn:E.
    - rewrite um_find_update; [|apply iseg_eqb_trans|apply iseg_eqb_sym]. destruct (iseg_eqb (e_p1 e, e_p2 e) s) eqn:Es; [|exact IH].
      rewrite (um_find_ext iseg_eqb iseg_eqb s (e_p1 e, e_p2 e) k), E; [reflexivity|]. intros q. rewrite !(iseg_eqb_sym q). symmetry. apply iseg_eqb_trans. assumption.
    - rewrite um_find_add. destruct (iseg_eqb (e_p1 e, e_p2 e) s) eqn:Es.
      + rewrite (um_find_ext iseg_eqb iseg_eqb s (e_p1 e, e_p2 e) k), E; [reflexivity|]. intros q. rewrite !(iseg_eqb_sym q). symmetry. apply iseg_eqb_trans. assumption.
      + rewrite <- IH. destruct (um_find iseg_eqb s k); reflexivity.
  Qed.

  (** the first call on a generator: its triangulation is written into the map of the family *)
  Lemma first_call acts w g c go w' i m k : wrun acts = Ok w -> nth_error (wd_gens w) g = Some go -> gn_data (go_gen go) = None -> ado w (CallGen g c) = Ok w' ->
    world_mesh w i = Ok m -> mesh_family acts i = Some k -> gen_family acts g = Some k ->
    exists inp d e', build_pslg tol (gn_region (go_gen go)) (gn_seeds (go_gen go)) (call_restricted c) = Ok inp /\ read_output tol (triangulate (call_switches c) inp) = Ok d /\
      world_mesh w' i = Ok (mkMesh (ms_points m) (ms_polygons m) e' (ms_pointMap m)) /\
      forall s, um_find iseg_eqb s e' = match find (fun e => same_side s (e_p1 e, e_p2 e)) (rev (dl_edges d)) with Some e => Some (nb_two (e_t1 e) (e_t2 e)) | None => um_find iseg_eqb s (ms_edges m) end.
  Proof.
    intros R G GD S V Fi Fg. pose proof (run_inv _ _ R) as I. apply view_parts in V as (o & e & p & A1 & A2 & A3 & ->). unfold mesh_family, gen_family in *. rewrite (fam_of _ _ _ _ I A1) in Fi. rewrite (gfam_of _ _ _ _ I G) in Fg.
    assert (Q : go_edges go = ob_edges o) by congruence. cbn [act_do] in S. unfold call_gen in S. apply vgetn_ok in G. rewrite G in S. cbn [bind] in S.
    rewrite Q in S. pose proof A2 as M. apply vgetn_ok in M. rewrite M in S. cbn [bind] in S. rewrite GD in S. destruct (gen_do triangulate tol (go_gen go) c) as [gn out] eqn:D. destruct out as [out|]; [|discriminate]. cbn [bind] in S.
    unfold gen_do in D. destruct (ensure triangulate tol (go_gen go) (call_switches c) (call_restricted c)) as [g1 rd] eqn:EN. injection D as -> D. destruct rd as [d|]; [|discriminate].
    unfold ensure in EN. rewrite GD in EN. unfold callTriangle in EN. destruct (build_pslg tol _ _ (call_restricted c)) as [inp|] eqn:BP; [|congruence]. injection EN as <- EN. cbn [gn_data] in S. rewrite EN in S.
    exists inp, d, (put_edges e (dl_edges d)). split; [reflexivity|]. split; [exact EN|]. split; [|intros s; exact (put_edges_find _ _ _)]. cbn [ms_points ms_polygons ms_pointMap].
    assert (E : nth_error (upd_nth (ob_edges o) (fun _ => put_edges e (dl_edges d)) (hp_seg (wd_heap w))) (ob_edges o) = Some (put_edges e (dl_edges d))) by (rewrite upd_some, Nat.eqb_refl, A2; reflexivity).
    destruct out as [[t|t]|d0]; injection S as <-; apply view_make; cbn [wd_meshes wd_heap hp_seg hp_pm]; solve [apply nth_app_l; exact A1|exact A1|exact E|apply nth_app_l; exact A3|exact A3].
  Qed.

  (** careful programs *)
  Lemma nodup_snoc {A} (l : list A) a : NoDup l -> ~ In a l -> NoDup (l ++ [a]).
  Proof. intros H1 H2. apply NoDup_rev in H1. rewrite <- (rev_involutive (l ++ [a])), rev_app_distr. apply NoDup_rev. cbn. constructor; [rewrite <- in_rev; exact H2|exact H1]. Qed.
  Lemma asked_app (l l' : list (act N)) : meshes_asked (l ++ l') = meshes_asked l ++ meshes_asked l'.
  Proof. unfold meshes_asked. apply flat_map_app. Qed.
  Lemma nodup_app_l {A} (l l' : list A) : NoDup (l ++ l') -> NoDup l.
  Proof. induction l as [|x l IH]; intros H; [constructor|]. inversion H; subst. constructor; [rewrite in_app_iff in *; tauto|auto]. Qed.
  Lemma nodup_last {A} (l : list A) a : NoDup (l ++ [a]) -> ~ In a l.
  Proof. intros H. apply NoDup_rev in H. rewrite rev_app_distr in H. inversion H; subst. rewrite <- in_rev in *. assumption. Qed.

  Lemma careful_inv acts w : wrun acts = Ok w -> careful acts -> let f := families_of acts in
    NoDup (fam_gen f) /\ NoDup (fam_mesh f) /\ (forall g k, nth_error (fam_gen f) g = Some k -> In k (fam_mesh f) -> In g (meshes_asked acts)).
  Proof.
    revert w. induction acts as [|a acts IH] using rev_ind; intros w R [C1 C2].
    - cbn. split; [constructor|]. split; [constructor|]. intros [|g] k H; discriminate.
    - apply run_snoc in R as (w0 & R & S). rewrite asked_app in C2. apply Forall_app in C1 as [C1 C3]. inversion C3 as [|? ? NC _]; subst.
      destruct (IH _ R (conj C1 (nodup_app_l _ _ C2))) as (G1 & G2 & G3). destruct (run_inv _ _ R) as (I1 & I2 & I3 & I4 & I5 & I6). cbv zeta. unfold families_of. rewrite fold_left_app. cbn [fold_left]. fold (families_of acts). set (f := families_of acts) in *.
      rewrite asked_app. assert (NX : forall l, Forall (fun x => x < fam_next f) l -> ~ In (fam_next f) l) by (intros l F Hin; rewrite Forall_forall in F; specialize (F _ Hin); lia).
      assert (KEEP : forall g k, nth_error (fam_gen f) g = Some k -> In k (fam_mesh f) -> In g (meshes_asked acts ++ meshes_asked [a])) by (intros; apply in_or_app; left; eapply G3; eauto).
      assert (CG : forall g, gives_mesh a = Some g -> a = CallGen g CallConstrained \/ (exists s, a = CallGen g (CallConstrainedWith s))) by (intros g Hg; destruct a as [| |g' []| | | | | |]; try discriminate; injection Hg as <-; eauto).
      assert (CALL : forall g c, a = CallGen g c -> gives_mesh a = Some g -> NoDup (fam_gen f) /\ NoDup (fam_mesh f ++ [nth g (fam_gen f) 0]) /\
        (forall g0 k, nth_error (fam_gen f) g0 = Some k -> In k (fam_mesh f ++ [nth g (fam_gen f) 0]) -> In g0 (meshes_asked acts ++ meshes_asked [a]))).
      { intros g c Ea Hg. subst a. cbn [act_do] in S. unfold call_gen in S. destruct (vgetn (wd_gens w0) g) as [go|] eqn:G; [|discriminate]. apply vgetn_ok in G.
        assert (NG : nth_error (fam_gen f) g = Some (go_edges go)) by (rewrite <- I2, nth_error_map, G; reflexivity). rewrite (nth_error_nth _ _ 0 NG).
        assert (AS : meshes_asked [CallGen g c] = [g]) by (unfold meshes_asked; cbn [flat_map]; rewrite Hg; reflexivity). rewrite AS in C2 |- *.
        split; [exact G1|]. split.
        - apply nodup_snoc; [exact G2|]. intros Hin. exact (nodup_last _ _ C2 (G3 _ _ NG Hin)).
        - intros g0 k H0 Hin. apply in_or_app. apply in_app_iff in Hin as [Hin|[<-|[]]]; [left; eapply G3; eauto|right; left].
          rewrite NoDup_nth_error in G1. apply G1; [apply nth_error_Some; congruence|congruence]. }
      destruct a as [seeds r|g|g c| |i|i j|pts ts i|i file start|i s]; cbn [family_step fam_gen fam_mesh]; try (exfalso; apply NC; exact I).
      + split; [apply nodup_snoc; [exact G1|apply NX; exact I4]|]. split; [exact G2|]. intros g k Hg Hin. apply (KEEP g k); [|exact Hin].
        destruct (Nat.lt_ge_cases g (length (fam_gen f))) as [L|L]; [rewrite nth_error_app1 in Hg by exact L; exact Hg|]. rewrite nth_error_app2 in Hg by exact L.
        destruct (g - length (fam_gen f)) as [|n]; [injection Hg as <-; exfalso; exact (NX _ I5 Hin)|destruct n; discriminate].
      + destruct c; [split; [exact G1|split; [exact G2|exact KEEP]]|split; [exact G1|split; [exact G2|exact KEEP]]|exact (CALL _ _ eq_refl eq_refl)|exact (CALL _ _ eq_refl eq_refl)].
      + split; [exact G1|]. split; [apply nodup_snoc; [exact G2|apply NX; exact I5]|]. intros g k Hg Hin. apply in_app_iff in Hin as [Hin|[<-|[]]]; [exact (KEEP g k Hg Hin)|]. exfalso. exact (NX _ I4 (nth_error_In _ _ Hg)).
      + split; [exact G1|split; [exact G2|exact KEEP]].
      + split; [exact G1|split; [exact G2|exact KEEP]].
  Qed.
  Lemma careful_apart acts w i j k : wrun acts = Ok w -> careful acts -> mesh_family acts i = Some k -> mesh_family acts j = Some k -> i = j.
  Proof.
    intros R C Fi Fj. destruct (careful_inv _ _ R C) as (_ & G & _). unfold mesh_family in *. rewrite NoDup_nth_error in G. apply G; [apply nth_error_Some; congruence|congruence].
  Qed.
End Share.
