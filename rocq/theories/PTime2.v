(** Proofs about the program that measures time. *)
From Coq Require Import Reals Lra Lia ZArith List Bool Permutation Ascii String.
From Flocq Require Import Core.
From Verif Require Import Base Spec MUtil MGeom MHull MPolygon MMaps MTriangle MGen MRegion MDelaunay MVoronoi MMesh MHist MFile MTime Bridge BridgeNum Bridge64 BridgeErr BridgeProg BridgeTime.
From Verif Require Import PUtil PMesh PDump PFile PProgram PFloat PErr5 PTime.
Import ListNotations.
Local Open Scope Z_scope.

Lemma print_int_inj a b : print_int a = print_int b -> a = b.
Proof. intros K. apply (integer_text_unique (print_int a)); [apply print_int_text|rewrite K; apply print_int_text]. Qed.
Lemma run_bound ds : Forall decimal_digit ds -> 0 <= run_value ds < 10 ^ Z.of_nat (List.length ds).
Proof.
  unfold run_value. intros F. assert (G : forall ds a, Forall decimal_digit ds -> 0 <= a ->
    a * 10 ^ Z.of_nat (List.length ds) <= fold_left (fun a c => 10 * a + (Z.of_nat (nat_of_ascii c) - 48)) ds a < (a + 1) * 10 ^ Z.of_nat (List.length ds)).
  { clear. induction ds as [|c ds IH]; intros a F Pa; cbn [fold_left List.length]; [cbn; lia|]. inversion_clear F as [|? ? D F']. unfold decimal_digit in D.
    specialize (IH (10 * a + (Z.of_nat (nat_of_ascii c) - 48)) F' ltac:(lia)). rewrite Nat2Z.inj_succ, Z.pow_succ_r by lia.
    assert (0 < 10 ^ Z.of_nat (List.length ds)) by (apply Z.pow_pos_nonneg; lia). nia. }
  specialize (G ds 0 F ltac:(lia)). lia.
Qed.
Lemma print_int_short i b : integer_text b (Z.of_nat i) -> (List.length (print_int (Z.of_nat i)) <= List.length b)%nat.
Proof.
  intros (ds & Ne & F & K). pose proof (run_bound ds F) as B. assert (L : (List.length ds <= List.length b)%nat /\ Z.of_nat i < 10 ^ Z.of_nat (List.length ds)).
  { destruct K as [[-> K]|[-> K]]; cbn [List.length]; lia. }
  destruct L as [L1 L2]. unfold print_int. destruct (Z.of_nat i <? 0) eqn:E0; [apply Z.ltb_lt in E0; lia|]. destruct (dec_spec (Z.of_nat i)) as (_ & _ & _ & P & _); [lia|].
  destruct (Nat.le_gt_cases (List.length (dec (Z.of_nat i))) (List.length ds)) as [G|G]; [lia|]. exfalso.
  assert (10 ^ Z.of_nat (List.length ds) <= 10 ^ (Z.of_nat (List.length (dec (Z.of_nat i))) - 1)) by (apply Z.pow_le_mono_r; lia).
  assert (10 ^ 1 <= 10 ^ Z.of_nat (List.length ds)) by (apply Z.pow_le_mono_r; [lia|]; destruct ds; [congruence|cbn [List.length]; lia]). lia.
Qed.
Lemma triangle_name_inj i j : triangle_name i = triangle_name j -> i = j.
Proof. unfold triangle_name. intros K. apply app_inv_head, app_inv_tail, print_int_inj in K. lia. Qed.
Lemma results_other i : results_name <> triangle_name i.
Proof. unfold results_name, triangle_name. cbn. discriminate. Qed.
Lemma write_text d p t q : dk_text (disk_write d p t) q = if list_eq_dec ascii_dec q p then (if dk_writable d p then Some t else dk_text d p) else dk_text d q.
Proof. unfold disk_write. destruct (dk_writable d p) eqn:W; cbn [dk_text]; destruct (list_eq_dec ascii_dec q p) as [->|D]; reflexivity. Qed.

Section Files.
  Context {N : Num}.
  Variables (tol : nT N) (fmt : nT N -> text) (triangulate : switches -> pslg N -> trout N) (fuel : nat) (order : list iseg -> list iseg) (clock : nat -> Z) (home : text) (d : disk).
  Definition printed_mesh (t : mesh N (polygon N)) : text :=
    printInStream fmt (ul_list (ms_points t)) (order (map fst (ms_edges t))) (map (fun g : polygon N => pg_points g) (ms_polygons t)).
  Notation step := (time_step tol fmt triangulate fuel order clock (Some home)).
  Definition line_of (run : nat * Z) : text := time_line (snd run) (clock (fst run)).
  Definition tpath (i : nat) : text := home ++ slash :: triangle_name i.

  Record inv (done : list (nat * Z)) (st : time_state) : Prop := {
    i_log : ti_log st = flat_map line_of done;
    i_w : forall p, dk_writable (ti_disk st) p = dk_writable d p;
    i_res : left_in d (ti_disk st) (log_path home) (ti_log st);
    i_con : ti_console st = flat_map (fun run => print_int (clock (fst run)) ++ list_ascii_of_string ",") done;
    i_mesh : forall i n, In (i, n) done -> n * n <= int_max /\ exists v t, time_meshes tol triangulate fuel n = Ok (v, t) /\ left_in d (ti_disk st) (tpath i) (printed_mesh t);
    i_other : forall p, p <> log_path home -> (forall i n, In (i, n) done -> p <> tpath i) -> dk_text (ti_disk st) p = dk_text d p }.

  Lemma tpath_inj i j : tpath i = tpath j -> i = j.
  Proof. unfold tpath. intros K. apply app_inv_head in K. apply (f_equal (@tl ascii)) in K. exact (triangle_name_inj _ _ K). Qed.
  Lemma log_tpath i : log_path home <> tpath i.
  Proof. unfold log_path, tpath. intros K. apply app_inv_head in K. apply (f_equal (@tl ascii)) in K. exact (results_other i K). Qed.

  Lemma step_form st i n st' : step st (i, n) = Ok st' -> exists v t, time_meshes tol triangulate fuel n = Ok (v, t) /\ n * n <= int_max /\
    st' = mkTime (disk_write (disk_write (ti_disk st) (log_path home) (ti_log st ++ time_line n (clock i))) (tpath i) (printed_mesh t))
            (ti_log st ++ time_line n (clock i)) (ti_console st ++ print_int (clock i) ++ list_ascii_of_string ",").
  Proof.
    unfold time_step. destruct (time_meshes tol triangulate fuel n) as [[v t]|]; [|discriminate]. cbn [bind getPath]. destruct (int_max <? n * n) eqn:O; [discriminate|]. apply Z.ltb_ge in O.
    unfold mesh_printInFile, print_file. cbn [bind getPath]. rewrite <- !app_assoc. cbn [app]. intros K. injection K as <-. exists v, t. split; [reflexivity|]. split; [exact O|]. reflexivity.
  Qed.
  Lemma step_inv done st i n st' : inv done st -> ~ In i (map fst done) -> step st (i, n) = Ok st' -> inv (done ++ [(i, n)]) st'.
  Proof.
    intros [I1 I2 I3 I4 I5 I6] Ni K. destruct (step_form st i n st' K) as (v & t & Em & On & ->). pose proof (log_tpath i) as LT.
    split; cbn [ti_disk ti_log ti_console].
    - rewrite I1, flat_map_app. cbn [flat_map]. rewrite app_nil_r. reflexivity.
    - intros p. rewrite !write_writable. apply I2.
    - unfold left_in. rewrite write_text. destruct (list_eq_dec ascii_dec _ _) as [K'|_]; [exfalso; exact (LT K')|]. rewrite write_text.
      destruct (list_eq_dec ascii_dec _ _) as [_|K']; [|congruence]. rewrite I2. destruct (dk_writable d (log_path home)) eqn:W; [reflexivity|]. unfold left_in in I3. rewrite W in I3. exact I3.
    - rewrite I4, flat_map_app. cbn [flat_map fst]. rewrite app_nil_r. reflexivity.
    - intros j m Hj. apply in_app_iff in Hj as [Hj|[X|[]]].
      + destruct (I5 j m Hj) as (Om & v' & t' & E' & L'). split; [exact Om|]. exists v', t'. split; [exact E'|]. unfold left_in in *. rewrite <- L', write_text.
        destruct (list_eq_dec ascii_dec _ _) as [K'|_]; [exfalso; apply Ni; apply tpath_inj in K' as <-; exact (in_map fst _ _ Hj)|]. rewrite write_text.
        destruct (list_eq_dec ascii_dec _ _) as [K'|_]; [exfalso; exact (log_tpath j (eq_sym K'))|]. reflexivity.
      + injection X as <- <-. split; [exact On|]. exists v, t. split; [exact Em|]. unfold left_in. rewrite write_text. destruct (list_eq_dec ascii_dec _ _) as [_|K']; [|congruence].
        rewrite write_writable, I2. destruct (dk_writable d (tpath i)) eqn:W; [reflexivity|]. rewrite write_text.
        destruct (list_eq_dec ascii_dec _ _) as [K'|_]; [exfalso; exact (log_tpath i (eq_sym K'))|]. apply I6; [intros K'; exact (log_tpath i (eq_sym K'))|].
        intros j m Hj K'. apply Ni. apply tpath_inj in K' as ->. exact (in_map fst _ _ Hj).
    - intros p P1 P2. rewrite write_text. destruct (list_eq_dec ascii_dec _ _) as [K'|_]; [exfalso; apply (P2 i n); [apply in_app_iff; right; left; reflexivity|exact K']|].
      rewrite write_text. destruct (list_eq_dec ascii_dec _ _) as [K'|_]; [exfalso; exact (P1 K')|]. apply I6; [exact P1|]. intros j m Hj. apply (P2 j m). apply in_app_iff. now left.
  Qed.
  Lemma run_inv runs : forall done st st', inv done st -> NoDup (map fst (done ++ runs)) -> foldM step runs st = Ok st' -> inv (done ++ runs) st'.
  Proof.
    induction runs as [|[i n] runs IH]; intros done st st' I ND K; cbn [foldM] in K.
    - injection K as <-. rewrite app_nil_r. exact I.
    - destruct (step st (i, n)) as [st1|] eqn:S1; [|discriminate]. cbn [bind] in K. change ((i, n) :: runs) with ([(i, n)] ++ runs) in *. rewrite app_assoc in *.
      apply (IH _ st1); [|exact ND|exact K]. apply (step_inv _ st); [exact I| |exact S1]. rewrite !map_app in ND. cbn [map fst app] in ND. rewrite <- app_assoc in ND.
      intros Hin. apply NoDup_remove_2 in ND. apply ND. apply in_app_iff. now left.
  Qed.
  Definition numbered (ns : list Z) : list (nat * Z) := combine (seq 0 (List.length ns)) ns.
  Lemma combine_fst {A B} (l : list A) (m : list B) : List.length l = List.length m -> map fst (combine l m) = l.
  Proof. revert m. induction l as [|a l IH]; intros [|b m] L; cbn in *; try congruence. f_equal. apply IH. lia. Qed.
  Lemma numbered_in ns i n : In (i, n) (numbered ns) <-> nth_error ns i = Some n.
  Proof.
    unfold numbered. assert (G : forall ns k, In (i, n) (combine (seq k (List.length ns)) ns) <-> (k <= i)%nat /\ nth_error ns (i - k) = Some n).
    { clear ns. induction ns as [|m ns IH]; intros k; cbn [List.length seq combine In]; [split; [tauto|]; intros [_ K]; destruct (i - k)%nat; discriminate|].
      rewrite IH. split.
      - intros [X|[K1 K2]]; [injection X as <- <-; split; [lia|]; now rewrite Nat.sub_diag|]. split; [lia|]. replace (i - k)%nat with (S (i - S k))%nat by lia. exact K2.
      - intros [K1 K2]. destruct (i - k)%nat as [|j] eqn:Ej; [left; cbn in K2; injection K2 as ->; f_equal; lia|right]. split; [lia|]. replace (i - S k)%nat with j by lia. exact K2. }
    rewrite G, Nat.sub_0_r. split; [intros [_ K]; exact K|intros K; split; [lia|exact K]].
  Qed.
  Lemma program_inv ns st : time_program tol fmt triangulate fuel order clock (Some home) d ns = Ok st -> inv (numbered ns) st.
  Proof.
    unfold time_program. cbn [bind getPath]. rewrite <- app_assoc. cbn [app]. intros K. apply (run_inv _ []) in K; [exact K| |].
    - split; cbn [ti_disk ti_log ti_console flat_map]; try reflexivity.
      + intros p. apply write_writable.
      + unfold left_in. rewrite write_text. destruct (list_eq_dec ascii_dec _ _) as [_|K']; [reflexivity|]. exfalso. apply K'. reflexivity.
      + intros i n [].
      + intros p P1 _. rewrite write_text. destruct (list_eq_dec ascii_dec _ _) as [K'|_]; [exfalso; exact (P1 K')|reflexivity].
    - cbn [app]. rewrite combine_fst by apply seq_length. apply seq_NoDup.
  Qed.

  Definition row_of (run : nat * Z) : list text :=
    [list_ascii_of_string "Numero"; list_ascii_of_string "de"; list_ascii_of_string "puntos:"; print_int (snd run * snd run); list_ascii_of_string "Tiempo:"; print_int (clock (fst run))].
  Definition body_of (run : nat * Z) : text :=
    list_ascii_of_string "Numero" ++ flat_map (fun g => space :: g) [list_ascii_of_string "de"; list_ascii_of_string "puntos:"; print_int (snd run * snd run); list_ascii_of_string "Tiempo:"; print_int (clock (fst run))].
  Lemma line_body run : line_of run = body_of run ++ [newline].
  Proof.
    unfold line_of, time_line, body_of. cbn [flat_map list_ascii_of_string app]. rewrite app_nil_r. repeat (rewrite <- app_assoc; cbn [app]). reflexivity.
  Qed.
  Lemma row_fields run : Forall field (row_of run).
  Proof.
    assert (F : forall s, forallb (fun c => negb (existsb (Nat.eqb (nat_of_ascii c)) [9; 10; 11; 12; 13; 32]%nat)) s = true -> s <> [] -> field s).
    { intros s K Ne. split; [exact Ne|]. rewrite forallb_forall in K. rewrite Forall_forall. intros c Hc B. specialize (K c Hc). apply negb_true_iff in K.
      assert (existsb (Nat.eqb (nat_of_ascii c)) [9; 10; 11; 12; 13; 32]%nat = true); [|congruence]. apply existsb_exists. exists (nat_of_ascii c). split; [exact B|apply Nat.eqb_refl]. }
    unfold row_of. repeat first [apply Forall_cons|apply Forall_nil]; try apply print_int_field; apply F; try reflexivity; discriminate.
  Qed.
  Lemma log_rows runs : text_rows (flat_map line_of runs) (map row_of runs).
  Proof.
    replace (flat_map line_of runs) with (unlines (map body_of runs)).
    - apply text_rows_map. intros run _. split; [exact (fields_line _ _ (row_fields run))|exact (line_no_newline _ _ (row_fields run))].
    - induction runs as [|run runs IH]; [reflexivity|]. cbn [map flat_map]. rewrite line_body, <- IH. unfold unlines. cbn. rewrite <- ?app_assoc. reflexivity.
  Qed.

  Lemma time_files ns st : time_program tol fmt triangulate fuel order clock (Some home) d ns = Ok st ->
    (exists t rows, left_in d (ti_disk st) (log_path home) t /\ text_rows t rows /\ Forall2 (log_row clock) (numbered ns) rows) /\
    (forall i n, nth_error ns i = Some n -> n * n <= int_max /\ exists v t path f, time_meshes tol triangulate fuel n = Ok (v, t) /\ run_path home i path /\
       left_in d (ti_disk st) path f /\ (printable fmt order t -> mesh_text fmt (ul_list (ms_points t)) (order (map fst (ms_edges t))) (map (fun g : polygon N => pg_points g) (ms_polygons t)) f)) /\
    (forall path, path <> log_path home -> (forall i, (i < List.length ns)%nat -> ~ run_path home i path) -> dk_text (ti_disk st) path = dk_text d path) /\
    (forall path, dk_writable (ti_disk st) path = dk_writable d path).
  Proof.
    intros K. destruct (program_inv ns st K) as [I1 I2 I3 I4 I5 I6].
    assert (RP : forall i, run_path home i (tpath i)).
    { intros i. exists (print_int (Z.of_nat i)). split; [apply print_int_text|]. split; [apply print_int_short|reflexivity]. }
    split; [|split; [|split; [|exact I2]]].
    - exists (ti_log st), (map row_of (numbered ns)). split; [exact I3|]. split; [rewrite I1; apply log_rows|].
      clear. induction (numbered ns) as [|run runs IH]; cbn [map]; constructor; [|exact IH].
      exists (print_int (snd run * snd run)), (print_int (clock (fst run))). split; [reflexivity|]. split; apply print_int_text.
    - intros i n Hn. apply numbered_in, I5 in Hn as (On & v & t & Em & L). split; [exact On|]. exists v, t, (tpath i), (printed_mesh t). split; [exact Em|]. split; [apply RP|]. split; [exact L|].
      intros (P1 & P2 & P3). apply printed_rows; [exact P1|exact P2|]. apply Forall_map. exact P3.
    - intros path P1 P2. apply I6; [exact P1|]. intros i n Hi P. apply numbered_in in Hi. apply (P2 i); [apply nth_error_Some; congruence|rewrite P; apply RP].
  Qed.

  Lemma time_runs ns : (forall n, In n ns -> n * n <= int_max /\ exists m, time_meshes tol triangulate fuel n = Ok m) ->
    exists st, time_program tol fmt triangulate fuel order clock (Some home) d ns = Ok st.
  Proof.
    intros K. unfold time_program. cbn [bind getPath].
    assert (G : forall runs st, (forall i n, In (i, n) runs -> In n ns) -> exists st', foldM step runs st = Ok st').
    { induction runs as [|[i n] runs IH]; intros st Hr; [exists st; reflexivity|]. cbn [foldM]. destruct (K n) as (On & [v t] & Em); [apply (Hr i); left; reflexivity|].
      unfold time_step at 1. rewrite Em. cbn [bind getPath]. assert (L : (int_max <? n * n) = false) by (apply Z.ltb_ge; exact On). rewrite L.
      unfold mesh_printInFile, print_file. cbn [bind getPath]. apply IH. intros j m Hj. apply (Hr j). right. exact Hj. }
    apply G. intros i n Hi. exact (in_combine_r _ _ _ _ Hi).
  Qed.
End Files.

Lemma time_program_home {N : Num} (tol : nT N) fmt triangulate fuel order clock d ns : exists m, time_program tol fmt triangulate fuel order clock None d ns = Err (UB m).
Proof. unfold time_program. cbn. eexists. reflexivity. Qed.
Lemma time_ends {N : Num} (tol : nT N) fmt triangulate fuel order clock d ns :
  (forall home, (forall n, In n ns -> n * n <= int_max /\ exists m, time_meshes tol triangulate fuel n = Ok m) ->
     exists st, time_program tol fmt triangulate fuel order clock (Some home) d ns = Ok st) /\
  (exists m, time_program tol fmt triangulate fuel order clock None d ns = Err (UB m)).
Proof. split; [intros home; apply time_runs|apply time_program_home]. Qed.

(** ** The number of points on doubles *)
Lemma square_made tol : exists r, region_ctor (N := F64) tol (time_square (N := F64)) = Ok r.
Proof. eexists. unfold region_ctor, polygon_ctor_pts. cbn. reflexivity. Qed.
Local Open Scope R_scope.
Lemma time_count tol n : fin tol -> 2 * contain_slack (bpow radix2 5) < val tol <= 10 -> (2 <= n)%Z -> (n * n <= int_max)%Z ->
  exists r, time_domain (N := F64) tol n = Ok r /\ zlen (rg_seeds r) = (n * n)%Z /\
    forall i j, (i < Z.to_nat n)%nat -> (j < Z.to_nat n)%nat -> exists q, nth_error (rg_seeds r) (i * Z.to_nat n + j) = Some q /\
      close_point (bpow radix2 (-44)) q (INR j * (10 / IZR (n - 1)), INR i * (10 / IZR (n - 1))).
Proof.
  intros Ft [T1 T2] Hn On. destruct (square_made tol) as [r C]. destruct (ofZ_correct 0 ltac:(lia)) as [F0 V0]. destruct (ofZ_correct 10 ltac:(lia)) as [F10 V10].
  assert (NB : (2 <= n <= 2 ^ 31)%Z) by (split; [exact Hn|]; unfold int_max in On; nia).
  destruct (rect_seeding 4 tol (F64_ofZ 0) (F64_ofZ 10) (F64_ofZ 0) (F64_ofZ 10) r n n) as (qs & G & L & K); rewrite ?V0, ?V10; try lra; try assumption; try lia.
  - intros c Hc. cbn [In] in Hc. change (bpow radix2 4) with 16. destruct Hc as [<-|[<-|[<-|[<-|[]]]]]; rewrite ?V0, ?V10; (split; [assumption|apply Rabs_le; lra]).
  - exists (with_seeds r qs). unfold time_domain. rewrite C. cbn [bind]. rewrite G. cbn [bind]. split; [reflexivity|]. split.
    + cbn [rg_seeds with_seeds]. unfold zlen. rewrite L, Nat2Z.inj_mul, !Z2Nat.id by lia. reflexivity.
    + intros i j Hi Hj. destruct (K i j Hi Hj) as (q & K1 & K2). exists q. split; [exact K1|]. rewrite V0, V10 in K2. cbn [Z.sub] in K2.
      replace (INR j * (10 / IZR (n - 1))) with (0 + INR j * ((10 - 0) / IZR (n - 1))) by (unfold Rdiv; ring).
      replace (INR i * (10 / IZR (n - 1))) with (0 + INR i * ((10 - 0) / IZR (n - 1))) by (unfold Rdiv; ring). exact K2.
Qed.
