(** Proofs about files. *)
From Coq Require Import Ascii Permutation.
From Verif Require Import Base Spec MUtil MGeom MHull MPolygon MMaps MTriangle MGen MRegion MDelaunay MMesh MDump MFile Bridge BridgeHist BridgeFile
  PUtil PPoint PSegment PContains PPoly PPoly2 PHull PRegion PDelaunay PMesh PMore PMore2 PHist PDump.

Lemma atoi_big n : int_max < n -> exists m, atoi (print_int n) = Err (UB m).
Proof.
  intros H. unfold print_int. assert (E : n <? 0 = false) by (apply Z.ltb_ge; unfold int_max in H; lia). rewrite E. unfold int_max in H.
  destruct (dec_spec n) as (A & B & C & _); [lia|]. unfold atoi. destruct (dec n) as [|c s] eqn:D; [congruence|].
  inversion A as [|? ? Hc Hs]; subst. destruct (isdig_plain c Hc) as (_ & _ & Hm & Hp & Hsp).
  cbn [skip_spaces]. rewrite Hsp, (eqb_false _ _ Hm), (eqb_false _ _ Hp).
  rewrite <- (app_nil_r (c :: s)), (atoi_digits_dval (c :: s) [] A I 0).
  assert (F : in_int (dval 0 (c :: s)) = false).
  { destruct (in_int (dval 0 (c :: s))) eqn:K; [|reflexivity]. apply in_int_iff in K. unfold int_max in K. lia. }
  rewrite F. eauto.
Qed.

Lemma put_replaced {A} (l : list A) i a r : nth_error l i = Some r ->
  length (put i a l) = length l /\ nth_error (put i a l) i = Some a /\ forall j, j <> i -> nth_error (put i a l) j = nth_error l j.
Proof.
  revert i. induction l as [|b l IH]; intros i H; [destruct i; discriminate|]. destruct i as [|i]; cbn [put nth_error length] in *.
  - split; [reflexivity|]. split; [reflexivity|]. intros [|j] D; [lia|reflexivity].
  - destruct (IH i H) as (H1 & H2 & H3). split; [lia|]. split; [exact H2|]. intros [|j] D; [reflexivity|]. apply H3. lia.
Qed.
Lemma put_same {A} (l : list A) i a : nth_error l i = Some a -> put i a l = l.
Proof. revert i. induction l as [|b l IH]; intros [|i] H; cbn in *; try congruence. f_equal. auto. Qed.
Lemma put_forall {A} (P : A -> Prop) l i a : Forall P l -> P a -> Forall P (put i a l).
Proof. intros H Ha. revert i. induction H as [|b l Hb Hl IH]; intros [|i]; cbn [put]; constructor; auto. Qed.

Section FileHistory.
  Context {N : Num}.
  Variable atof : text -> nT N.
  Variable fmt : nT N -> text.
  Variable tol : nT N.
  Hypothesis fields : forall x, field (fmt x).
  Variable home : text.
  Let path name := home ++ slash :: name.
  Let pathE name : (home ++ [slash]) ++ name = path name.
  Proof. unfold path. rewrite <- app_assoc. reflexivity. Qed.
  Let path_inj n n' : path n = path n' -> n = n'.
  Proof. unfold path. intros H. apply app_inv_head in H. congruence. Qed.

  Definition file_of (pts : list (Point N)) (t : text) : Prop :=
    exists rest, t = unlines (print_int (zlen pts) :: map (point_string fmt) pts) ++ rest.
  Definition tracks (d : disk) (st : store) : Prop :=
    forall n, match st n with None => dk_text d (path n) = None | Some pts => exists t, dk_text d (path n) = Some t /\ file_of pts t end.

  Lemma print_text (r : region N) : region_made r -> exists t, region_print fmt r = Ok t /\ file_of (getRegionPoints r ++ rg_seeds r) t.
  Proof.
    intros M. destruct (region_segments r [] M) as (vs & segs & _ & Hseg & _). cbn [app] in Hseg.
    unfold region_print. rewrite Hseg. cbn [bind]. eexists. split; [reflexivity|]. eexists.
    rewrite <- unlines_app, zlen_app, map_app. cbn [app]. rewrite <- !app_assoc. reflexivity.
  Qed.
  Lemma all_printable (pts : list (Point N)) : Forall (printable fmt) pts.
  Proof. apply Forall_forall. intros q _. split; apply fields. Qed.
  Lemma read_text pts t : file_of pts t ->
    (zlen pts <= int_max /\ read_seed_file atof t = Ok (map (reread atof fmt) pts)) \/ exists m, read_seed_file atof t = Err (UB m).
  Proof.
    intros [rest ->]. destruct (Z_le_gt_dec (zlen pts) int_max) as [L|L].
    - left. split; [exact L|]. apply seed_lines; [apply all_printable|exact L].
    - right. unfold read_seed_file. rewrite unlines_cons, <- app_assoc. cbn [app]. rewrite getline_line by apply no_newline_int.
      destruct (atoi_big (zlen pts)) as (m & ->); [lia|]. cbn [bind]. eauto.
  Qed.
  Lemma write_tracks d st name pts t : tracks d st -> file_of pts t -> dk_writable d (path name) = true ->
    exists st', store_set st name pts st' /\ tracks (disk_write d (path name) t) st'.
  Proof.
    intros T F W. exists (fun n => if list_eq_dec ascii_dec n name then Some pts else st n). split.
    - split; [destruct list_eq_dec; congruence|]. intros n D. destruct list_eq_dec; congruence.
    - intros n. unfold disk_write. rewrite W. cbn [dk_text]. destruct (list_eq_dec ascii_dec n name) as [->|D].
      + destruct list_eq_dec; [eauto|congruence].
      + destruct (list_eq_dec ascii_dec (path n) (path name)) as [E|_]; [apply path_inj in E; congruence|apply T].
  Qed.
  Lemma write_writable d p t q : dk_writable (disk_write d p t) q = dk_writable d q.
  Proof. unfold disk_write. destruct (dk_writable d p); reflexivity. Qed.

  Lemma one_file_call d st rs o d1 rs1 b : Forall region_made rs -> tracks d st ->
    file_do atof fmt tol (Some home) (d, rs) o = Ok (d1, rs1, b) ->
    Forall region_made rs1 /\ (forall p, dk_writable d1 p = dk_writable d p) /\
    exists st1, tracks d1 st1 /\ store_step tol (reread atof fmt) (fun n => dk_writable d (path n)) st rs o st1 rs1 b.
  Proof.
    intros M T H. destruct o as [i name|i name]; cbn [file_do snd fst] in H; apply bind_ok in H as (r & Hr & H);
      unfold vgetn in Hr; destruct (nth_error rs i) as [r0|] eqn:Er; try discriminate; injection Hr as ->;
      pose proof (proj1 (Forall_forall _ _) M r (nth_error_In _ _ Er)) as Mr.
    - unfold region_printInFile, print_file, getPath in H. cbn [bind] in H. destruct (print_text r Mr) as (t & Et & Ft). rewrite Et in H. cbn [bind] in H.
      rewrite pathE in H. injection H as <- <- <-. split; [exact M|]. split; [intros p; apply write_writable|].
      destruct (dk_writable d (path name)) eqn:W.
      + destruct (write_tracks d st name _ t T Ft W) as (st1 & S1 & T1). exists st1. split; [exact T1|]. eapply store_print; eauto.
      + exists st. split; [unfold disk_write; rewrite W; exact T|]. eapply store_print_ignored; eauto.
    - unfold region_readFile, openFile, getPath in H. cbn [bind] in H. rewrite pathE in H. specialize (T name) as Tn. destruct (st name) as [pts|] eqn:Es.
      + destruct Tn as (t & Ht & Ft). rewrite Ht in H. unfold addSeedsFromFile in H. destruct (read_text pts t Ft) as [[L E]|[m E]]; rewrite E in H; cbn [bind] in H; [|discriminate].
        destruct (readSeeds_char tol r (map (reread atof fmt) pts) Mr) as (keep & K1 & K2). rewrite K2 in H. injection H as <- <- <-.
        split; [apply put_forall; [exact M|exact (rm_read _ _ _ _ Mr K2)]|]. split; [reflexivity|]. exists st. split; [exact T|].
        eapply store_read; [exact Er|exact Es|apply kept_filter; exact K1|]. exact (put_replaced rs i _ r Er).
      + rewrite Tn in H. rewrite (put_same rs i r Er) in H. injection H as <- <- <-. split; [exact M|]. split; [reflexivity|]. exists st. split; [exact T|].
        eapply store_read_missing; eauto.
  Qed.

  Lemma file_history_on : forall os d st rs d' rs' bs, Forall region_made rs -> tracks d st ->
    file_run atof fmt tol (Some home) (d, rs) os = Ok (d', rs', bs) ->
    exists st', tracks d' st' /\ store_run tol (reread atof fmt) (fun n => dk_writable d (path n)) st rs os st' rs' bs.
  Proof.
    induction os as [|o os IH]; intros d st rs d' rs' bs M T H; cbn [file_run] in H.
    - injection H as <- <- <-. exists st. split; [exact T|constructor].
    - apply bind_ok in H as ([[d1 rs1] b] & H1 & H). apply bind_ok in H as ([[d2 rs2] bs2] & H2 & H). injection H as <- <- <-.
      destruct (one_file_call d st rs o d1 rs1 b M T H1) as (M1 & W & st1 & T1 & S1).
      destruct (IH d1 st1 rs1 d2 rs2 bs2 M1 T1 H2) as (st2 & T2 & S2). exists st2. split; [exact T2|]. econstructor; [exact S1|].
      assert (G : forall w w' st rs os st' rs' bs, (forall n, w n = w' n) -> store_run (N := N) tol (reread atof fmt) w st rs os st' rs' bs ->
        store_run tol (reread atof fmt) w' st rs os st' rs' bs).
      { clear. intros w w' st rs os st' rs' bs E. induction 1 as [|st rs o st1 rs1 b os st2 rs2 bs H _ IH]; econstructor; [|exact IH].
        inversion H; subst; [eapply store_print|eapply store_print_ignored|eapply store_read|eapply store_read_missing]; eauto; rewrite <- E; assumption. }
      eapply G; [|exact S2]. intros n. apply W.
  Qed.

  Lemma file_history os d rs d' rs' bs : Forall region_made rs -> (forall n, dk_text d (path n) = None) ->
    file_run atof fmt tol (Some home) (d, rs) os = Ok (d', rs', bs) ->
    exists st', store_run tol (reread atof fmt) (fun n => dk_writable d (path n)) (fun _ => None) rs os st' rs' bs.
  Proof.
    intros M E H. destruct (file_history_on os d (fun _ => None) rs d' rs' bs M E H) as (st' & _ & S). eauto.
  Qed.
  (** a call does not fail, unless a file has more points than an int can count *)
  Lemma file_print_total d rs i name r : region_made r -> nth_error rs i = Some r ->
    exists t, region_print fmt r = Ok t /\
    exists d', file_do atof fmt tol (Some home) (d, rs) (FilePrint i name) = Ok (d', rs, false) /\
      dk_text d' (path name) = (if dk_writable d (path name) then Some t else dk_text d (path name)) /\
      forall p, p <> path name -> dk_text d' p = dk_text d p.
  Proof.
    intros M Er. destruct (print_text r M) as (t & Et & _). exists t. split; [exact Et|]. exists (disk_write d (path name) t).
    cbn [file_do snd fst]. unfold vgetn. rewrite Er. cbn [bind]. unfold region_printInFile, print_file, getPath. cbn [bind]. rewrite Et. cbn [bind].
    rewrite pathE. split; [reflexivity|]. unfold disk_write. destruct (dk_writable d (path name)); cbn [dk_text].
    - split; [destruct list_eq_dec; congruence|]. intros p D. destruct list_eq_dec; congruence.
    - auto.
  Qed.
  Lemma file_read_total d rs i name r r0 t : region_made r -> nth_error rs i = Some r -> region_made r0 -> region_print fmt r0 = Ok t ->
    zlen (getRegionPoints r0 ++ rg_seeds r0) <= int_max -> dk_text d (path name) = Some t ->
    exists rs', file_do atof fmt tol (Some home) (d, rs) (FileRead i name) = Ok (d, rs', false).
  Proof.
    intros M Er M0 E0 L Ht. destruct (print_text r0 M0) as (t0 & Et & rest & Ft). rewrite E0 in Et. injection Et as <-.
    cbn [file_do snd fst]. unfold vgetn. rewrite Er. cbn [bind]. unfold region_readFile, openFile, getPath. cbn [bind]. rewrite pathE, Ht.
    unfold addSeedsFromFile. rewrite Ft, seed_lines; [|apply all_printable|exact L]. cbn [bind].
    destruct (readSeeds_char tol r (map (reread atof fmt) (getRegionPoints r0 ++ rg_seeds r0)) M) as (keep & K1 & K2). rewrite K2. eauto.
  Qed.
  Lemma file_missing d rs i name r : nth_error rs i = Some r -> dk_text d (path name) = None ->
    file_do atof fmt tol (Some home) (d, rs) (FileRead i name) = Ok (d, rs, true).
  Proof.
    intros Er Ht. cbn [file_do snd fst]. unfold vgetn. rewrite Er. cbn [bind]. unfold region_readFile, openFile, getPath. cbn [bind]. rewrite pathE, Ht.
    rewrite (put_same rs i r Er). reflexivity.
  Qed.
End FileHistory.

(** the environment variable is not set *)
Lemma no_home {N : Num} atof fmt (tol : nT N) d rs o : (exists r, nth_error rs (match o with FilePrint i _ | FileRead i _ => i end) = Some r) ->
  exists m, file_do atof fmt tol None (d, rs) o = Err (UB m).
Proof. intros (r & H). destruct o; cbn [file_do snd]; unfold vgetn; rewrite H; cbn; eauto. Qed.
(** a mesh and a missing file *)
Lemma mesh_file {N : Num} atof (tol : nT N) T ctor (segs_of : T -> list Z) (home : text) d m (name : text) start :
  createFromFile atof tol ctor segs_of (Some home) d m name start =
    match dk_text d (home ++ slash :: name) with
    | Some t => createFromStream atof tol ctor segs_of m t start
    | None => Err (Throw "Could not open file. Please check path.")
    end.
Proof. unfold createFromFile, openFile, getPath. cbn [bind]. rewrite <- app_assoc. cbn [app]. destruct dk_text; reflexivity. Qed.
Lemma print_file_spec (home : text) d (name t : text) : exists d', print_file (Some home) d name (Ok t) = Ok d' /\
  (forall p, dk_text d' p = if andb (dk_writable d (home ++ slash :: name)) (if list_eq_dec ascii_dec p (home ++ slash :: name) then true else false) then Some t else dk_text d p) /\
  (forall p, dk_writable d' p = dk_writable d p).
Proof.
  unfold print_file, getPath. cbn [bind]. rewrite <- app_assoc. cbn [app]. eexists. split; [reflexivity|]. unfold disk_write.
  destruct (dk_writable d _) eqn:W; cbn [dk_text dk_writable andb]; split; intros p; try reflexivity. destruct list_eq_dec; reflexivity.
Qed.
(** a mesh printed under a name and read from it: what createFromStream makes of the printed text *)
Lemma mesh_file_roundtrip {N : Num} (atof : text -> nT N) (fmt : nT N -> text) (tol : nT N) T ctor (segs_of : T -> list Z) (home : text) d (pts : list (Point N)) es polys (name : text) d' (m : mesh N T) start :
  dk_writable d (home ++ slash :: name) = true -> mesh_printInFile fmt (Some home) d pts es polys name = Ok d' ->
  createFromFile atof tol ctor segs_of (Some home) d' m name start = createFromStream atof tol ctor segs_of m (printInStream fmt pts es polys) start /\
  forall other : text, other <> name -> createFromFile atof tol ctor segs_of (Some home) d' m other start = createFromFile atof tol ctor segs_of (Some home) d m other start.
Proof.
  intros W H. destruct (print_file_spec home d name (printInStream fmt pts es polys)) as (d1 & H1 & H2 & H3).
  unfold mesh_printInFile in H. rewrite H1 in H. injection H as ->. split.
  - rewrite mesh_file, H2, W. destruct list_eq_dec; [reflexivity|congruence].
  - intros other D. rewrite !mesh_file, H2. destruct list_eq_dec as [E|_]; [apply app_inv_head in E; congruence|]. rewrite andb_false_r. reflexivity.
Qed.

Lemma file_calls {N : Num} (atof : text -> nT N) (fmt : nT N -> text) (tol : nT N) : (forall x, field (fmt x)) ->
  forall (home : text) d (rs : list (region N)) i (name : text) r, region_made r -> nth_error rs i = Some r ->
  (exists t d', region_print fmt r = Ok t /\ file_do atof fmt tol (Some home) (d, rs) (FilePrint i name) = Ok (d', rs, false) /\
    dk_text d' (home ++ slash :: name) = (if dk_writable d (home ++ slash :: name) then Some t else dk_text d (home ++ slash :: name)) /\
    forall p, p <> home ++ slash :: name -> dk_text d' p = dk_text d p) /\
  (forall r0 t, region_made r0 -> region_print fmt r0 = Ok t -> zlen (getRegionPoints r0 ++ rg_seeds r0) <= int_max -> dk_text d (home ++ slash :: name) = Some t ->
    exists rs', file_do atof fmt tol (Some home) (d, rs) (FileRead i name) = Ok (d, rs', false)) /\
  (dk_text d (home ++ slash :: name) = None -> file_do atof fmt tol (Some home) (d, rs) (FileRead i name) = Ok (d, rs, true)).
Proof.
  intros F home d rs i name r M Er. split; [|split].
  - destruct (file_print_total atof fmt tol home d rs i name r M Er) as (t & E1 & d' & E2 & E3 & E4). eauto 8.
  - intros r0 t M0 E0 L Ht. exact (file_read_total atof fmt tol F home d rs i name r r0 t M Er M0 E0 L Ht).
  - intros Ht. exact (file_missing atof fmt tol home d rs i name r Er Ht).
Qed.
Lemma mesh_through_a_file {N : Num} (tol : nT N) (atof : text -> nT N) (fmt : nT N -> text) (pts : list (Point N)) (es : list iseg) (polys : list (list Z)) (home : text) d (name : text) :
  Forall (printable fmt) pts -> zlen pts <= int_max -> zlen es <= int_max ->
  Forall (fun e => Z.abs (fst e) < 1000000 /\ Z.abs (snd e) < 1000000) es -> dk_writable d (home ++ slash :: name) = true ->
  exists d' m, mesh_printInFile fmt (Some home) d pts es polys name = Ok d' /\
    createFromFile atof tol (polygon_ctor_idx tol) (@pg_points N) (Some home) d' mesh_new name 0 = Ok m /\
    map (@pg_points N) (ms_polygons m) = map (fun e => [snd e]) es /\
    (forall p, p <> home ++ slash :: name -> dk_text d' p = dk_text d p).
Proof.
  intros H1 H2 H3 H4 W. destruct (print_file_spec home d name (printInStream fmt pts es polys)) as (d' & E & T & _).
  destruct (printed_read tol atof fmt pts es polys H1 H2 H3 H4) as (m & M1 & M2 & _). exists d', m. split; [exact E|].
  split; [rewrite mesh_file, T, W; destruct list_eq_dec; [exact M1|congruence]|]. split; [exact M2|].
  intros p D. rewrite T. destruct list_eq_dec; [congruence|]. rewrite andb_false_r. reflexivity.
Qed.

(** a mesh file with a point and a polygon section *)
Lemma mesh_file_read {N : Num} (tol : nT N) (atof : text -> nT N) (fmt : nT N -> text) (pts : list (Point N)) (kss : list (list Z)) start (home : text) d (name : text) :
  Forall (printable fmt) pts -> zlen pts <= int_max -> zlen kss <= int_max ->
  Forall (fun ks => zlen ks < 1000000 /\ Forall (fun k => Z.abs (k + start) < 1000000) ks) kss ->
  strict_weak_order_on (fun q => In q (map (reread atof fmt) pts)) (pt_ltb tol) ->
  (forall i j a b, nth_error (map (reread atof fmt) pts) i = Some a -> nth_error (map (reread atof fmt) pts) j = Some b -> equivb (pt_ltb tol) a b = true -> i = j) ->
  dk_text d (home ++ slash :: name) = Some (unlines (print_int (zlen pts) :: map (point_string fmt) pts ++
                print_int (zlen kss) :: map (fun ks => polygon_string (map (fun k => k + start) ks)) kss)) ->
  (exists m, createFromFile atof tol (polygon_ctor_idx tol) (@pg_points N) (Some home) d mesh_new name start = Ok m /\
    ul_list (ms_points m) = map (reread atof fmt) pts /\ map (@pg_points N) (ms_polygons m) = kss) /\
  forall other : text, dk_text d (home ++ slash :: other) = None -> forall m : mesh N (polygon N),
    exists msg, createFromFile atof tol (polygon_ctor_idx tol) (@pg_points N) (Some home) d m other start = Err (Throw msg).
Proof.
  intros A B C D E F H. split.
  - destruct (read_back tol atof fmt pts kss start A B C D E F) as (m & M1 & M2 & M3 & _). exists m. rewrite mesh_file, H. auto.
  - intros other Ho m. rewrite mesh_file, Ho. eauto.
Qed.
(** the other files *)
Definition holds_now (home : text) (d : disk) (name t : text) (d' : disk) : Prop :=
  dk_text d' (home ++ slash :: name) = (if dk_writable d (home ++ slash :: name) then Some t else dk_text d (home ++ slash :: name)) /\
  forall p, p <> home ++ slash :: name -> dk_text d' p = dk_text d p.
Lemma printed_file (home : text) d (name : text) (c : res text) d' : print_file (Some home) d name c = Ok d' ->
  exists t, c = Ok t /\ holds_now home d name t d'.
Proof.
  intros H. destruct c as [t|e]; [|discriminate H]. exists t. split; [reflexivity|].
  destruct (print_file_spec home d name t) as (d1 & E & T & _). rewrite E in H. injection H as <-. split.
  - rewrite T. destruct (dk_writable _ _); cbn [andb]; [destruct list_eq_dec; congruence|reflexivity].
  - intros p D. rewrite T. destruct list_eq_dec; [congruence|]. rewrite andb_false_r. reflexivity.
Qed.
Lemma map_files (home : text) d (name : text) : dk_writable d (home ++ slash :: name) = true ->
  (forall (N : Num) (fmt : nT N -> text), (forall x, field (fmt x)) -> forall m : pmap N,
    exists d' t rows, pointmap_printInFile fmt (Some home) d m name = Ok d' /\ dk_text d' (home ++ slash :: name) = Some t /\
      (forall p, p <> home ++ slash :: name -> dk_text d' p = dk_text d p) /\ text_rows t rows /\
      Forall2 (fun (e : Point N * list Z) row => exists ns, row = fmt (px (fst e)) :: fmt (py (fst e)) :: ns /\ Forall2 integer_text ns (snd e)) m rows) /\
  (forall (h : list (Z * sm_op)) es, Permutation es (sm_run h) -> Forall sm_op_short (map snd h) ->
    (forall s n, spec_sm_run (map snd h) (canon s) = Some n -> nb1 n <> None) ->
    exists d' t rows, segmap_printInFile (Some home) d es name = Ok d' /\ dk_text d' (home ++ slash :: name) = Some t /\
      (forall p, p <> home ++ slash :: name -> dk_text d' p = dk_text d p) /\ text_rows t rows /\ zlen rows = sm_size (sm_run h) /\
      (forall row, In row rows -> exists a b i j, Forall2 integer_text row [a; b; i; j] /\ spec_sm_run (map snd h) (canon (a, b)) = Some (mkNb (Some i) j)) /\
      (forall s i j, spec_sm_run (map snd h) (canon s) = Some (mkNb (Some i) j) ->
         exists row a b, In row rows /\ canon (a, b) = canon s /\ Forall2 integer_text row [a; b; i; j])).
Proof.
  intros W. split.
  - intros N fmt F m. destruct (pointmap_dump fmt F m) as (rows & R1 & R2). destruct (print_file_spec home d name (pointmap_print fmt m)) as (d' & E & _).
    destruct (printed_file home d name _ d' E) as (t & Et & Hw & Hp). injection Et as <-. rewrite W in Hw.
    exists d', (pointmap_print fmt m), rows. split; [exact E|]. auto.
  - intros h es P S H. destruct (proj2 (segmap_dump h es P) H) as (t & Et & K). destruct (K S) as (rows & R).
    destruct (print_file_spec home d name t) as (d' & E & _). destruct (printed_file home d name _ d' E) as (t' & Et' & Hw & Hp). injection Et' as <-. rewrite W in Hw.
    exists d', t, rows. split; [unfold segmap_printInFile; rewrite Et; exact E|]. auto.
Qed.
