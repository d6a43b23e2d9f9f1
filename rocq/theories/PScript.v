(** Scripts of statements on several regions. *)
From Coq Require Import Reals Lra Lia ZArith List Bool Permutation Ascii String.
From Verif Require Import Base Spec SpecNum MUtil MGeom MHull MPolygon MMaps MTriangle MGen MRegion MDelaunay MVoronoi MMesh MFormat MHist MFile MScript.
From Verif Require Import Bridge BridgeNum BridgeHist BridgeVor64 Bridge64 BridgeProg BridgeScript.
From Verif Require Import PUtil PMaps PMesh PRegion PDelaunay PFile PReg64 PHist64 PFormat PProgram.
Import ListNotations.
Local Open Scope Z_scope.

Section Script.
  Context {N : Num}.
  Variables (tol : nT N) (fmt : nT N -> text) (triangulate : switches -> pslg N -> trout N) (fuel : nat) (order : list iseg -> list iseg).
  Notation sdo := (script_do tol fmt triangulate fuel order).
  Notation srun := (script_run tol fmt triangulate fuel order).

  Lemma script_app home s1 s2 w : srun home w (s1 ++ s2) = (w1 <- srun home w s1 ;; srun home w1 s2).
  Proof. unfold script_run. revert w. induction s1 as [|s s1 IH]; intros w; [reflexivity|]. cbn [app foldM]. destruct (sdo home w s); [apply IH|reflexivity]. Qed.

  (** ** The triangulation tests *)
  Lemma triangle_test home d name (r : region N) pts d' : generateTest_Triangle tol fmt triangulate order home d name r pts <> Ok d'.
  Proof.
    unfold generateTest_Triangle. destruct (gen_do triangulate tol (gen_ctor pts (region_copy r)) CallConforming) as [g o] eqn:E. cbn [snd].
    destruct o as [[h|i]|e]; cbn [bind]; try discriminate. pose proof (dangling triangulate tol _ _ _ _ E) as D. cbn in D. rewrite D. discriminate.
  Qed.
  Lemma triangle_test_ub home d name (r : region N) pts x : snd (gen_do triangulate tol (gen_ctor pts (region_copy r)) CallConforming) = Ok x ->
    generateTest_Triangle tol fmt triangulate order home d name r pts = Err (UB "dangling reference").
  Proof.
    unfold generateTest_Triangle. destruct (gen_do triangulate tol (gen_ctor pts (region_copy r)) CallConforming) as [g o] eqn:E. cbn [snd]. intros ->. cbn [bind].
    destruct x as [h|i].
    - pose proof (dangling triangulate tol _ _ _ _ E) as D. cbn in D. rewrite D. reflexivity.
    - exfalso. unfold gen_do in E. destruct (ensure triangulate tol _ _ _) as [g1 rd]. assert (H : snd (g, Ok (OutInfo i)) = Ok (OutInfo i)) by reflexivity.
      rewrite <- E in H. cbn [snd] in H. destruct rd as [y|]; cbn [bind] in H; [|discriminate]. destruct (initializeMesh tol (triangle_ctor tol) y); discriminate.
  Qed.
  Lemma triangle_tests home (w w' : disk * list (region N)) ss : Exists tests_triangles ss -> srun home w ss <> Ok w'.
  Proof.
    intros H. revert w. induction H as [s ss T|s ss T IH]; intros w E; unfold script_run in E; cbn [foldM] in E.
    - destruct s as [| | |i name|]; try contradiction. cbn [script_do] in E. destruct (vgetn (snd w) i) as [r|]; [|discriminate]. cbn [bind] in E.
      destruct (generateTest_Triangle _ _ _ _ home (fst w) name r (rg_seeds r)) as [d|] eqn:G; [|discriminate]. exact (triangle_test _ _ _ _ _ _ G).
    - destruct (sdo home w s) as [w1|]; [|discriminate]. exact (IH w1 E).
  Qed.
  Lemma triangle_tests_ub home (w w1 : disk * list (region N)) s1 s2 i name r x : srun home w s1 = Ok w1 -> nth_error (snd w1) i = Some r ->
    snd (gen_do triangulate tol (gen_ctor (rg_seeds r) (region_copy r)) CallConforming) = Ok x ->
    srun home w (s1 ++ TestTriangle i name :: s2) = Err (UB "dangling reference").
  Proof.
    intros H1 H2 H3. rewrite script_app, H1. cbn [bind]. unfold script_run. cbn [foldM script_do]. unfold vgetn. rewrite H2. cbn [bind].
    rewrite (triangle_test_ub _ _ _ _ _ _ H3). reflexivity.
  Qed.

  (** ** What the statements leave *)
  Lemma vgetn_ok' {A} (l : list A) i a : vgetn l i = Ok a -> nth_error l i = Some a.
  Proof. unfold vgetn. destruct (nth_error l i); [|discriminate]. intros H. injection H as ->. reflexivity. Qed.

  Lemma print_ok (home : text) d name rt d' : print_file (Some home) d name rt = Ok d' -> exists t, rt = Ok t /\
    (dk_writable d (home ++ slash :: name) = true -> dk_text d' (home ++ slash :: name) = Some t) /\
    (forall p, p <> home ++ slash :: name -> dk_text d' p = dk_text d p) /\ (forall p, dk_writable d' p = dk_writable d p).
  Proof.
    intros H. destruct rt as [t|e]; [|unfold print_file, getPath in H; cbn [bind] in H; discriminate]. exists t. split; [reflexivity|].
    destruct (print_file_spec home d name t) as (d1 & E & T & W). rewrite E in H. injection H as ->.
    split; [intros Hw; rewrite T, Hw; destruct list_eq_dec; [reflexivity|congruence]|]. split; [|exact W].
    intros p D. rewrite T. destruct list_eq_dec; [congruence|]. rewrite andb_false_r. reflexivity.
  Qed.

  Lemma polygon_file (home : text) d name (r : region N) d' : (forall x, field (fmt x)) -> (forall l, Permutation (order l) l) ->
    generateTest_Polygon tol fmt triangulate fuel order (Some home) d name r (rg_seeds r) = Ok d' ->
    exists t, (forall i, file_holds tol fmt triangulate fuel (TestPolygon i name) r t) /\
      let p0 := home ++ slash :: name ++ list_ascii_of_string ".txt" in
      (dk_writable d p0 = true -> dk_text d' p0 = Some t) /\ (forall p, p <> p0 -> dk_text d' p = dk_text d p) /\ (forall p, dk_writable d' p = dk_writable d p).
  Proof.
    intros FMT HO H. unfold generateTest_Polygon in H.
    assert (E : voronoiGenerator tol triangulate fuel (rg_seeds r) (region_copy r) = voronoiGenerator tol triangulate fuel (rg_seeds r) r) by reflexivity.
    rewrite E in H. destruct (voronoiGenerator tol triangulate fuel (rg_seeds r) r) as [[v mm]|] eqn:VG; [|discriminate]. cbn [bind] in H.
    unfold mesh_printInFile in H. destruct (print_ok _ _ _ _ _ H) as (t & Ht & P). exists t. split; [|exact P]. intros i. cbn [file_holds].
    assert (VV : exists inp, build_pslg tol (region_copy r) (rg_seeds r) [] = Ok inp /\ exists dl, read_output tol (triangulate swConforming inp) = Ok dl /\ voronoi tol fuel dl = Ok v).
    { clear - VG. unfold voronoiGenerator, ensure in VG. cbn [gen_ctor gn_data] in VG. unfold callTriangle in VG. cbn [gen_ctor gn_region gn_seeds] in VG.
      destruct (build_pslg tol (region_copy r) (rg_seeds r) []) as [inp|]; [|discriminate]. cbn [bind] in VG. exists inp. split; [reflexivity|].
      destruct (read_output tol (triangulate swConforming inp)) as [dl|]; [|discriminate]. cbn [bind] in VG. exists dl. split; [reflexivity|].
      destruct (initializeMesh tol _ dl) as [x|]; [|discriminate]. cbn [bind] in VG. destruct (voronoi tol fuel dl) as [v'|]; [|discriminate]. cbn [bind] in VG. injection VG as <- _. reflexivity. }
    destruct VV as (inp & B & dl & RO & V). exists inp, v, mm. split; [exact B|]. split; [exact VG|]. cbv zeta. intros T F L LP.
    exists (order (map fst (ms_edges v))). split; [apply lists_keys; [exact (voronoi_keys tol fuel _ dl v T RO F L V)|apply HO]|].
    destruct (voronoi_small tol fuel _ dl v T RO V LP) as [S1 S2]. injection Ht as <-. apply printed_rows; [exact FMT| |exact S2].
    apply Forall_forall. intros s Hs. rewrite Forall_forall in S1. apply S1. exact (Permutation_in _ (HO _) Hs).
  Qed.

  Lemma statement_done (home : text) d rs d' rs' s : (forall x, field (fmt x)) -> (forall l, Permutation (order l) l) ->
    sdo (Some home) (d, rs) s = Ok (d', rs') ->
    length rs' = length rs /\ (forall i r, nth_error rs i = Some r -> exists r', nth_error rs' i = Some r' /\ life tol i [s] r r') /\
    (forall p, dk_writable d' p = dk_writable d p) /\ (forall p, writes home s <> Some p -> dk_text d' p = dk_text d p) /\
    (forall p, writes home s = Some p -> dk_writable d p = true -> exists r t, nth_error rs (about s) = Some r /\ dk_text d' p = Some t /\ file_holds tol fmt triangulate fuel s r t).
  Proof.
    intros FMT HO H. destruct s as [i o|i pts|i name|i name|i name]; cbn [script_do fst snd] in H;
      (destruct (vgetn rs i) as [r|] eqn:G; [|discriminate]); apply vgetn_ok' in G; cbn [bind] in H.
    - destruct (region_do tol r o) as [r1|] eqn:E; [|discriminate]. cbn [bind] in H. injection H as <- <-. destruct (put_replaced rs i r1 r G) as (P1 & P2 & P3).
      split; [exact P1|]. split; [|split; [reflexivity|split; [reflexivity|discriminate]]].
      intros j rj Hj. cbn [life]. destruct (Nat.eqb_spec j i) as [->|D]; [rewrite G in Hj; injection Hj as <-; exists r1; split; [exact P2|]; exists r1; split; [exact E|reflexivity]|].
      exists rj. split; [rewrite P3; assumption|reflexivity].
    - destruct (region_ctor tol pts) as [r1|] eqn:E; [|discriminate]. cbn [bind] in H. injection H as <- <-. destruct (put_replaced rs i r1 r G) as (P1 & P2 & P3).
      split; [exact P1|]. split; [|split; [reflexivity|split; [reflexivity|discriminate]]].
      intros j rj Hj. cbn [life]. destruct (Nat.eqb_spec j i) as [->|D]; [rewrite G in Hj; injection Hj as <-; exists r1; split; [exact P2|]; exists r1; split; [exact E|reflexivity]|].
      exists rj. split; [rewrite P3; assumption|reflexivity].
    - destruct (generateTest_Polygon _ _ _ _ _ (Some home) d name r (rg_seeds r)) as [d1|] eqn:E; [|discriminate]. cbn [bind] in H. injection H as <- <-.
      destruct (polygon_file _ _ _ _ _ FMT HO E) as (t & F & W1 & W2 & W3). split; [reflexivity|]. split; [intros j rj Hj; exists rj; split; [assumption|reflexivity]|].
      split; [exact W3|]. cbn [writes about]. split; [intros p D; apply W2; intros K; apply D; rewrite K; reflexivity|]. intros p D W. injection D as <-. exists r, t. split; [exact G|]. split; [exact (W1 W)|apply F].
    - destruct (generateTest_Triangle _ _ _ _ (Some home) d name r (rg_seeds r)) as [d1|] eqn:E; [|discriminate]. destruct (triangle_test _ _ _ _ _ _ E).
    - destruct (region_printInFile fmt (Some home) d r name) as [d1|] eqn:E; [|discriminate]. cbn [bind] in H. injection H as <- <-. unfold region_printInFile in E.
      destruct (print_ok _ _ _ _ _ E) as (t & F & W1 & W2 & W3). split; [reflexivity|]. split; [intros j rj Hj; exists rj; split; [assumption|reflexivity]|].
      split; [exact W3|]. cbn [writes about]. split; [intros p D; apply W2; intros K; apply D; rewrite K; reflexivity|]. intros p D W. injection D as <-. exists r, t. split; [exact G|]. split; [exact (W1 W)|exact F].
  Qed.

  Lemma life_step i s ss (r r1 r' : region N) : life tol i [s] r r1 -> life tol i ss r1 r' -> life tol i (s :: ss) r r'.
  Proof.
    destruct s as [j o|j pts| | |]; cbn [life]; try (intros ->; trivial);
      (destruct (Nat.eqb i j); [intros (r2 & H1 & <-) H2; exists r2; split; assumption|intros ->; trivial]).
  Qed.

  Lemma script_left (home : text) : (forall x, field (fmt x)) -> (forall l, Permutation (order l) l) -> forall ss d rs d' rs', srun (Some home) (d, rs) ss = Ok (d', rs') ->
    length rs' = length rs /\ (forall i r, nth_error rs i = Some r -> exists r', nth_error rs' i = Some r' /\ life tol i ss r r') /\
    (forall p, dk_writable d' p = dk_writable d p) /\ (forall p, Forall (fun s => writes home s <> Some p) ss -> dk_text d' p = dk_text d p).
  Proof.
    intros FMT HO. induction ss as [|s ss IH]; intros d rs d' rs' H; unfold script_run in H; cbn [foldM] in H.
    - injection H as <- <-. repeat split; try reflexivity. intros i r Hi. exists r. split; [exact Hi|reflexivity].
    - destruct (sdo (Some home) (d, rs) s) as [[d1 rs1]|] eqn:E; [|discriminate]. cbn [bind] in H. destruct (statement_done _ _ _ _ _ _ FMT HO E) as (A1 & A2 & A3 & A4 & _).
      destruct (IH d1 rs1 d' rs' H) as (B1 & B2 & B3 & B4). split; [congruence|]. split; [|split].
      + intros i r Hi. destruct (A2 i r Hi) as (r1 & Hr1 & L1). destruct (B2 i r1 Hr1) as (r' & Hr' & L2). exists r'. split; [exact Hr'|]. exact (life_step _ _ _ _ _ _ L1 L2).
      + intros p. rewrite B3. apply A3.
      + intros p F. inversion_clear F. rewrite B4 by assumption. apply A4. assumption.
  Qed.

  Lemma script_files (home : text) ss d rs d' rs' : (forall x, field (fmt x)) -> (forall l, Permutation (order l) l) -> srun (Some home) (d, rs) ss = Ok (d', rs') ->
    length rs' = length rs /\ (forall i r, nth_error rs i = Some r -> exists r', nth_error rs' i = Some r' /\ life tol i ss r r') /\
    (forall p, dk_writable d' p = dk_writable d p) /\ (forall p, Forall (fun s => writes home s <> Some p) ss -> dk_text d' p = dk_text d p) /\
    (forall s1 s s2 p, ss = s1 ++ s :: s2 -> writes home s = Some p -> Forall (fun s => writes home s <> Some p) s2 -> dk_writable d p = true ->
       exists r0 r t, nth_error rs (about s) = Some r0 /\ life tol (about s) s1 r0 r /\ dk_text d' p = Some t /\ file_holds tol fmt triangulate fuel s r t).
  Proof.
    intros FMT HO H. destruct (script_left home FMT HO ss d rs d' rs' H) as (A1 & A2 & A3 & A4). split; [exact A1|]. split; [exact A2|]. split; [exact A3|]. split; [exact A4|].
    intros s1 s s2 p -> W F Hw. rewrite script_app in H. destruct (srun (Some home) (d, rs) s1) as [[d1 rs1]|] eqn:E1; [|discriminate]. cbn [bind] in H.
    unfold script_run in H. cbn [foldM] in H. destruct (sdo (Some home) (d1, rs1) s) as [[d2 rs2]|] eqn:E2; [|discriminate]. cbn [bind] in H.
    destruct (script_left home FMT HO s1 d rs d1 rs1 E1) as (B1 & B2 & B3 & _). destruct (statement_done _ _ _ _ _ _ FMT HO E2) as (_ & _ & C3 & _ & C5).
    destruct (script_left home FMT HO s2 d2 rs2 d' rs' H) as (_ & _ & _ & D4).
    destruct (C5 p W) as (r & t & Hr & Ht & Fh); [rewrite B3; exact Hw|].
    destruct (nth_error rs (about s)) as [r0|] eqn:G; [|apply nth_error_None in G; assert (nth_error rs1 (about s) <> None) as Hn by congruence; apply nth_error_Some in Hn; lia].
    destruct (B2 _ _ G) as (r' & Hr' & L). assert (r' = r) as -> by congruence. exists r0, r, t. split; [reflexivity|]. split; [exact L|]. split; [|exact Fh]. rewrite D4 by exact F. exact Ht.
  Qed.
End Script.

(** ** Doubles: when a script runs to its end *)
Lemma life_app {N : Num} (tol : nT N) i s1 s2 : forall r r1 r' : region N, life tol i s1 r r1 -> life tol i s2 r1 r' -> life tol i (s1 ++ s2) r r'.
Proof.
  induction s1 as [|s s1 IH]; intros r r1 r' H1 H2; [cbn in H1; subst; exact H2|].
  destruct s as [j o|j pts| | |]; cbn [life app] in *; try (eapply IH; eassumption);
    (destruct (Nat.eqb i j); [destruct H1 as (r2 & E & L); exists r2; split; [exact E|]; eapply IH; eassumption|eapply IH; eassumption]).
Qed.

Lemma mapM_made (tol : f64) outs : forall rs, mapM (region_ctor (N := F64) tol) outs = Ok rs -> Forall region_made rs.
Proof.
  induction outs as [|o outs IH]; intros rs H; cbn [mapM] in H; [injection H as <-; constructor|].
  apply bind_ok in H as (r & H1 & H). apply bind_ok in H as (rs' & H2 & H). injection H as <-. constructor; [exact (rm_ctor _ _ _ H1)|exact (IH _ H2)].
Qed.

Lemma script_runs (e m : Z) (tol : f64) fuel (triangulate : switches -> pslg F64 -> trout F64) (order : list iseg -> list iseg) (home : text) (d : disk)
    (outlines : list (list (Point F64))) (rs : list (region F64)) (ss : list (statement F64)) :
  -199 <= e <= 200 -> 0 <= m <= 16 -> tolerance64 tol -> (forall l, Permutation (order l) l) -> mapM (region_ctor (N := F64) tol) outlines = Ok rs ->
  (forall s1 s s2, ss = s1 ++ s :: s2 -> exists r0, nth_error rs (about s) = Some r0 /\ forall r, life (N := F64) tol (about s) s1 r0 r -> ready e m tol triangulate fuel s r) ->
  exists w', script_main (N := F64) tol print_double triangulate fuel order (Some home) d outlines ss = Ok w'.
Proof.
  intros He Hm Ht HO HC HR. unfold script_main. rewrite HC. cbn [bind].
  pose proof Ht as [Tf Tp]. assert (T0 : (0 < val tol)%R) by (eapply Rlt_le_trans; [|exact Tp]; apply Flocq.Core.Raux.bpow_gt_0).
  assert (G : forall s2 s1 d1 rs1, ss = s1 ++ s2 -> Forall region_made rs1 -> length rs1 = length rs ->
    (forall i r, nth_error rs i = Some r -> exists r', nth_error rs1 i = Some r' /\ life (N := F64) tol i s1 r r') ->
    exists w', script_run (N := F64) tol print_double triangulate fuel order (Some home) (d1, rs1) s2 = Ok w').
  { induction s2 as [|s s2 IH]; intros s1 d1 rs1 E M L Hl; [eexists; reflexivity|].
    assert (S : exists d2 rs2, script_do (N := F64) tol print_double triangulate fuel order (Some home) (d1, rs1) s = Ok (d2, rs2) /\ Forall region_made rs2).
    { destruct (HR s1 s s2 E) as (r0 & G0 & R0). destruct (Hl _ _ G0) as (r & Gr & Lr). specialize (R0 r Lr).
      assert (Mr : region_made r) by (rewrite Forall_forall in M; apply M; eapply nth_error_In; exact Gr).
      destruct s as [i o|i pts|i name|i name|i name]; cbn [about] in *; cbn [script_do fst snd]; unfold vgetn; rewrite Gr; cbn [bind]; cbn [ready] in R0.
      - destruct R0 as (B & r' & D). rewrite D. cbn [bind]. eexists _, _. split; [reflexivity|]. apply put_forall; [exact M|].
        destruct (region_history64 tol Tf T0 [o] r r' Mr) as [M' _]; [constructor; [exact B|constructor]|cbn [region_run]; rewrite D; reflexivity|exact M'].
      - destruct R0 as (r' & D). rewrite D. cbn [bind]. eexists _, _. split; [reflexivity|]. apply put_forall; [exact M|exact (rm_ctor _ _ _ D)].
      - destruct R0 as (CL & A). destruct (generator64 e m tol fuel triangulate (rg_seeds r) r He Hm Ht Mr CL) as (inp & B & _ & V). cbv zeta in V.
        destruct (A inp B) as [A1 A2]. destruct (V A1 A2) as (v & mm & VG & _). unfold generateTest_Polygon.
        change (voronoiGenerator (N := F64) tol triangulate fuel (rg_seeds r) (region_copy r)) with (voronoiGenerator (N := F64) tol triangulate fuel (rg_seeds r) r).
        rewrite VG. cbn [bind]. unfold mesh_printInFile.
        match goal with |- context [print_file (Some home) d1 ?n (Ok ?t)] => destruct (print_file_spec home d1 n t) as (d2 & P & _) end.
        rewrite P. cbn [bind]. eexists _, _. split; [reflexivity|exact M].
      - contradiction.
      - unfold region_printInFile. destruct (print_text (N := F64) print_double r Mr) as (t & P & _). rewrite P.
        destruct (print_file_spec home d1 name t) as (d2 & P2 & _). rewrite P2. cbn [bind]. eexists _, _. split; [reflexivity|exact M]. }
    destruct S as (d2 & rs2 & S & M2). destruct (statement_done (N := F64) tol print_double triangulate fuel order home d1 rs1 d2 rs2 s print_double_field HO S) as (S1 & S2 & _).
    unfold script_run. cbn [foldM]. rewrite S. cbn [bind]. apply (IH (s1 ++ [s]) d2 rs2); [rewrite <- app_assoc; exact E|exact M2|congruence|].
    intros i r Hi. destruct (Hl i r Hi) as (r1 & H1 & L1). destruct (S2 i r1 H1) as (r2 & H2 & L2). exists r2. split; [exact H2|]. eapply life_app; eassumption. }
  apply (G ss [] d rs); [reflexivity|exact (mapM_made _ _ _ HC)|reflexivity|]. intros i r Hi. exists r. split; [exact Hi|reflexivity].
Qed.
