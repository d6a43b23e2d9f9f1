(** Proofs about the debug output. *)
From Coq Require Import Lia ZArith List Bool Permutation Ascii.
From Verif Require Import Base Spec MUtil MGeom MHull MPolygon MMaps MTriangle MGen MRegion MDelaunay MVoronoi MMesh MDump Bridge.
From Verif Require Import PUtil PMaps PMesh PPoly2 PDelaunay.
Import ListNotations.
Local Open Scope Z_scope.

Lemma print_int_text n : integer_text (print_int n) n.
Proof.
  unfold print_int. destruct (n <? 0) eqn:E.
  - apply Z.ltb_lt in E. destruct (dec_spec (- n)) as (A & B & V & _); [lia|]. exists (dec (- n)). split; [exact B|]. split; [now apply Forall_decimal|].
    right. split; [reflexivity|]. rewrite run_value_dval, V by exact A. lia.
  - apply Z.ltb_ge in E. destruct (dec_spec n) as (A & B & V & _); [lia|]. exists (dec n). split; [exact B|]. split; [now apply Forall_decimal|].
    left. split; [reflexivity|]. rewrite run_value_dval, V by exact A. reflexivity.
Qed.
Lemma integer_text_unique t n m : integer_text t n -> integer_text t m -> n = m.
Proof.
  assert (M : ~ decimal_digit "-"%char) by (unfold decimal_digit; cbn; lia).
  intros (ds & N1 & D1 & H1) (ds' & N2 & D2 & H2).
  destruct H1 as [[-> ->]|[-> ->]], H2 as [[E ->]|[E ->]].
  - congruence.
  - subst. inversion D1. contradiction.
  - subst. inversion D2. contradiction.
  - injection E as <-. reflexivity.
Qed.
Lemma fields_line f fs : Forall field (f :: fs) -> fields_of blank (f ++ flat_map (fun g => space :: g) fs) (f :: fs).
Proof. intros H. apply split_iff, split_fields, H. Qed.
Lemma fields_line_end f fs : Forall field (f :: fs) -> fields_of blank (f ++ flat_map (fun g => space :: g) fs ++ [space]) (f :: fs) /\
  ~ In newline (f ++ flat_map (fun g => space :: g) fs ++ [space]).
Proof.
  intros H. split.
  - revert f H. induction fs as [|g fs IH]; intros f H; inversion H as [|? ? [A B] H2]; subst.
    + cbn [flat_map app]. apply (fields_more blank [] f space [] []); auto; [unfold blank; cbn; auto 10|]. apply fields_none. constructor.
    + cbn [flat_map]. rewrite <- app_assoc. apply (fields_more blank [] f space (g ++ flat_map (fun g => space :: g) fs ++ [space]) (g :: fs)); auto.
      unfold blank. cbn. auto 10.
  - rewrite app_assoc. intros I. apply in_app_iff in I as [I|[I|[]]]; [exact (line_no_newline _ _ H I)|discriminate].
Qed.
Lemma text_rows_map {A} (f : A -> text) (g : A -> list text) l : (forall a, In a l -> fields_of blank (f a) (g a) /\ ~ In newline (f a)) ->
  text_rows (unlines (map f l)) (map g l).
Proof.
  intros H. exists (map f l). split; [reflexivity|]. split.
  - apply Forall_forall. intros x Hx. apply in_map_iff in Hx as (a & <- & Ha). apply H, Ha.
  - induction l as [|a l IH]; cbn [map]; constructor; [apply H; left; reflexivity|apply IH; intros b Hb; apply H; right; exact Hb].
Qed.

(** ** Segment maps *)
Lemma um_update_keys {V} k f (m : umap iseg V) : map fst (um_update iseg_eqb k f m) = map fst m.
Proof. induction m as [|[k' v] m IH]; [reflexivity|]. cbn [um_update]. destruct (iseg_eqb k' k); cbn [map fst]; congruence. Qed.
Lemma um_find_none {V} k (m : umap iseg V) : um_find iseg_eqb k m = None -> ~ In (canon k) (map canon (map fst m)).
Proof.
  induction m as [|[k' v] m IH]; [cbn; auto|]. cbn [um_find map fst In]. destruct (iseg_eqb k' k) eqn:E; [discriminate|]. intros H [I|I]; [|exact (IH H I)].
  rewrite iseg_eqb_canon, I in E. rewrite (proj2 (pair_eqb_iff _ _) eq_refl) in E. discriminate.
Qed.
Definition keys_ok (m : segmap) : Prop := NoDup (map canon (map fst m)).
Lemma add_keys k v (m : segmap) : um_find iseg_eqb k m = None -> keys_ok m -> keys_ok (um_add k v m).
Proof.
  intros H K. unfold keys_ok, um_add. rewrite !map_app. cbn [map fst].
  apply (NoDup_Add (a := canon k) (l := map canon (map fst m))); [rewrite <- (app_nil_r (map canon (map fst m))) at 1; apply Add_app|].
  split; [exact K|]. apply um_find_none. exact H.
Qed.
Lemma step_keys m c : keys_ok m -> keys_ok (sm_step m c).
Proof.
  intros K. destruct c as [nb [s i|s n|s]]; unfold sm_step, sm_insert, sm_put, sm_get; cbn [fst snd]; rewrite sm_find_eqb, ?sm_update_eqb;
    destruct (um_find iseg_eqb s m) eqn:E; cbn [fst]; try (unfold keys_ok; rewrite um_update_keys; exact K); try exact K; apply add_keys; assumption.
Qed.
Lemma run_keys h : keys_ok (sm_run h).
Proof.
  unfold sm_run. assert (G : forall m, keys_ok m -> keys_ok (fold_left sm_step h m)); [|apply G; constructor].
  induction h as [|c h IH]; intros m K; [exact K|]. apply IH, step_keys, K.
Qed.
Lemma find_entry (m : segmap) s n : keys_ok m -> In (s, n) m -> um_find iseg_eqb s m = Some n.
Proof.
  induction m as [|[k v] m IH]; [intros _ []|]. unfold keys_ok. cbn [map fst um_find In]. intros K. inversion K as [|? ? N1 N2]; subst. intros [H|H].
  - injection H as -> ->. rewrite iseg_eqb_refl. reflexivity.
  - destruct (iseg_eqb k s) eqn:E; [|apply IH; assumption]. exfalso. apply N1. rewrite iseg_eqb_canon in E. apply pair_eqb_iff in E. rewrite E.
    apply in_map, (in_map fst _ _ H).
Qed.
Lemma entry_found (m : segmap) s n : um_find iseg_eqb s m = Some n -> exists s', canon s' = canon s /\ In (s', n) m.
Proof.
  induction m as [|[k v] m IH]; [discriminate|]. cbn [um_find In]. destruct (iseg_eqb k s) eqn:E.
  - intros H. injection H as ->. rewrite iseg_eqb_canon in E. apply pair_eqb_iff in E. exists k. auto.
  - intros H. destruct (IH H) as (s' & A & B). exists s'. auto.
Qed.
Lemma run_spec h s : um_find iseg_eqb s (sm_run h) = spec_sm_run (map snd h) (canon s).
Proof. rewrite <- (sm_find_eqb 1). apply (proj1 (segmap_refines h)). Qed.
Lemma entries_spec h s n : In (s, n) (sm_run h) -> spec_sm_run (map snd h) (canon s) = Some n.
Proof. intros H. rewrite <- run_spec. apply find_entry; [apply run_keys|exact H]. Qed.
Lemma spec_entries h s n : spec_sm_run (map snd h) (canon s) = Some n -> exists s', canon s' = canon s /\ In (s', n) (sm_run h).
Proof. rewrite <- run_spec. apply entry_found. Qed.

Definition entry_short (e : iseg * nbseg) : Prop :=
  six_digits (fst (fst e)) /\ six_digits (snd (fst e)) /\ (forall i, nb1 (snd e) = Some i -> six_digits i) /\ six_digits (nb2 (snd e)).
Lemma update_short k f (m : segmap) : (forall s n, entry_short (s, n) -> entry_short (s, f n)) -> Forall entry_short m -> Forall entry_short (um_update iseg_eqb k f m).
Proof.
  intros F. induction m as [|[k' v] m IH]; intros H; [constructor|]. inversion H; subst. cbn [um_update]. destruct (iseg_eqb k' k); constructor; auto.
Qed.
Lemma six_m1 : six_digits (-1). Proof. unfold six_digits. lia. Qed.
Lemma step_short m c : sm_op_short (snd c) -> Forall entry_short m -> Forall entry_short (sm_step m c).
Proof.
  intros (A & B & C) H. destruct c as [nb [s i|s n|s]]; cbn [snd sm_op_segment] in *; unfold sm_step, sm_insert, sm_put, sm_get; cbn [fst snd]; rewrite sm_find_eqb, ?sm_update_eqb;
    destruct (um_find iseg_eqb s m) eqn:E; cbn [fst].
  - apply update_short; [|exact H]. intros s' n' (P1 & P2 & P3 & P4). exact (conj P1 (conj P2 (conj P3 C))).
  - apply Forall_app. split; [exact H|]. constructor; [|constructor]. refine (conj A (conj B (conj _ six_m1))). intros j Hj. injection Hj as <-. exact C.
  - apply update_short; [|exact H]. intros s' n' (P1 & P2 & P3 & P4). exact (conj P1 (conj P2 C)).
  - apply Forall_app. split; [exact H|]. constructor; [|constructor]. exact (conj A (conj B C)).
  - exact H.
  - apply Forall_app. split; [exact H|]. constructor; [|constructor]. refine (conj A (conj B (conj _ six_m1))). discriminate.
Qed.
Lemma run_short h : Forall sm_op_short (map snd h) -> Forall entry_short (sm_run h).
Proof.
  unfold sm_run. assert (G : forall m, Forall entry_short m -> Forall sm_op_short (map snd h) -> Forall entry_short (fold_left sm_step h m)); [|apply G; constructor].
  induction h as [|c h IH]; intros m K F; [exact K|]. inversion F; subst. apply IH; [apply step_short; assumption|assumption].
Qed.
Definition sm_row (e : iseg * nbseg) : list text :=
  match nb1 (snd e) with
  | Some i => map print_int [fst (fst e); snd (fst e); i; nb2 (snd e)]
  | None => []
  end.
Definition sm_line (e : iseg * nbseg) : text :=
  match nb1 (snd e) with
  | Some i => iseg_string (fst e) ++ space :: print_g i ++ space :: print_g (nb2 (snd e))
  | None => []
  end.
Lemma sm_line_fields e i : nb1 (snd e) = Some i -> entry_short e -> fields_of blank (sm_line e) (sm_row e) /\ ~ In newline (sm_line e).
Proof.
  intros H (A & B & C & D). unfold sm_line, sm_row, iseg_string. rewrite H. rewrite !print_g_small by (assumption || apply C; assumption).
  rewrite <- app_assoc. cbn [app map].
  assert (F : Forall field (map print_int [fst (fst e); snd (fst e); i; nb2 (snd e)])) by (cbn [map]; repeat constructor; try apply print_int_field; apply (print_int_field _)).
  assert (E : print_int (fst (fst e)) ++ space :: print_int (snd (fst e)) ++ space :: print_int i ++ space :: print_int (nb2 (snd e)) =
    print_int (fst (fst e)) ++ flat_map (fun g => space :: g) [print_int (snd (fst e)); print_int i; print_int (nb2 (snd e))]) by (cbn [flat_map app]; rewrite app_nil_r; reflexivity).
  rewrite E. split; [apply fields_line|apply line_no_newline]; exact F.
Qed.
Lemma segmap_print_ok es : (forall e, In e es -> nb1 (snd e) <> None) -> segmap_print es = Ok (unlines (map sm_line es)).
Proof.
  intros H. unfold segmap_print. rewrite (mapM_pure _ sm_line); [reflexivity|]. intros e He. unfold nb_string, sm_line. specialize (H e He).
  destruct (nb1 (snd e)); [reflexivity|congruence].
Qed.
Lemma segmap_print_ub es : (exists e, In e es /\ nb1 (snd e) = None) -> segmap_print es = Err (UB "uninitialised n1").
Proof.
  intros (e & He & Hn). unfold segmap_print. induction es as [|[s n] es IH]; [destruct He|]. cbn [mapM].
  unfold nb_string at 1. cbn [snd]. destruct (nb1 n) eqn:E; [|reflexivity]. cbn [bind]. destruct He as [<-|He]; [cbn [snd] in Hn; congruence|].
  specialize (IH He). destruct (mapM (fun e0 : iseg * nbseg => n0 <- nb_string (snd e0);; Ok (iseg_string (fst e0) ++ space :: n0)) es); [discriminate|].
  cbn [bind] in *. injection IH as ->. reflexivity.
Qed.
Lemma segmap_dump h es : Permutation es (sm_run h) ->
  ((exists s n, spec_sm_run (map snd h) (canon s) = Some n /\ nb1 n = None) -> exists w, segmap_print es = Err (UB w)) /\
  ((forall s n, spec_sm_run (map snd h) (canon s) = Some n -> nb1 n <> None) -> exists t, segmap_print es = Ok t /\
    (Forall sm_op_short (map snd h) -> exists rows, text_rows t rows /\ zlen rows = sm_size (sm_run h) /\
      (forall row, In row rows -> exists a b i j, Forall2 integer_text row [a; b; i; j] /\ spec_sm_run (map snd h) (canon (a, b)) = Some (mkNb (Some i) j)) /\
      (forall s i j, spec_sm_run (map snd h) (canon s) = Some (mkNb (Some i) j) -> exists row a b, In row rows /\ canon (a, b) = canon s /\ Forall2 integer_text row [a; b; i; j]))).
Proof.
  intros P. split.
  - intros (s & n & H & Hn). destruct (spec_entries h s n H) as (s' & _ & I). exists "uninitialised n1"%string. apply segmap_print_ub. exists (s', n).
    split; [apply (Permutation_in _ (Permutation_sym P)); exact I|exact Hn].
  - intros H. assert (H' : forall e, In e es -> nb1 (snd e) <> None).
    { intros [s n] He. cbn [snd]. apply (H s). apply entries_spec. apply (Permutation_in _ P). exact He. }
    eexists. split; [apply segmap_print_ok; exact H'|]. intros S. apply run_short in S. rewrite Forall_forall in S.
    assert (TX : forall s n i, nb1 n = Some i -> Forall2 integer_text (sm_row (s, n)) [fst s; snd s; i; nb2 n]).
    { intros s n i E. unfold sm_row. cbn [fst snd]. rewrite E. cbn [map]. repeat constructor; apply print_int_text. }
    exists (map sm_row es). split; [|split; [|split]].
    + apply text_rows_map. intros [s n] He. specialize (H' _ He). cbn [snd] in H'. destruct (nb1 n) as [i|] eqn:E; [|congruence].
      apply (sm_line_fields (s, n) i E). apply S. apply (Permutation_in _ P). exact He.
    + unfold sm_size, zlen. rewrite map_length, (Permutation_length P). reflexivity.
    + intros row Hr. apply in_map_iff in Hr as ([s n] & <- & He). pose proof (H' _ He) as Hn. cbn [snd] in Hn. destruct (nb1 n) as [i|] eqn:E; [|congruence].
      exists (fst s), (snd s), i, (nb2 n). split; [apply TX; exact E|]. rewrite <- surjective_pairing. rewrite (entries_spec h s n); [|apply (Permutation_in _ P); exact He].
      destruct n as [n1 n2]. cbn [nb1 nb2] in *. congruence.
    + intros s i j E. destruct (spec_entries h s _ E) as (s' & C & I). exists (sm_row (s', mkNb (Some i) j)), (fst s'), (snd s'). split; [apply in_map; apply (Permutation_in _ (Permutation_sym P)); exact I|].
      split; [rewrite <- surjective_pairing; exact C|]. apply (TX s' (mkNb (Some i) j) i eq_refl).
Qed.

(** ** Point maps and the input file of Triangle *)
Section DumpN.
  Context {N : Num}.
  Variable fmt : nT N -> text.
  Hypothesis FMT : forall x, field (fmt x).
  Lemma pointmap_dump (m : pmap N) : exists rows, text_rows (pointmap_print fmt m) rows /\
    Forall2 (fun (e : Point N * list Z) row => exists ns, row = fmt (px (fst e)) :: fmt (py (fst e)) :: ns /\ Forall2 integer_text ns (snd e)) m rows.
  Proof.
    exists (map (fun e : Point N * list Z => fmt (px (fst e)) :: fmt (py (fst e)) :: map print_int (snd e)) m). split.
    - apply text_rows_map. intros [p l] _. cbn [fst snd].
      assert (E : pm_line fmt (p, l) = fmt (px p) ++ flat_map (fun g => space :: g) (fmt (py p) :: map print_int l) ++ [space]).
      { unfold pm_line, point_string. cbn [fst snd flat_map]. rewrite <- !app_assoc. cbn [app]. f_equal. f_equal. f_equal.
        induction l as [|i l IH]; [reflexivity|]. cbn [flat_map map]. rewrite <- !app_assoc. cbn [app]. f_equal. f_equal. rewrite IH. reflexivity. }
      rewrite E. apply fields_line_end. constructor; [apply FMT|]. constructor; [apply FMT|]. apply Forall_forall. intros x Hx. apply in_map_iff in Hx as (i & <- & _). apply print_int_field.
    - induction m as [|e m IH]; cbn [map]; constructor; [|exact IH]. eexists. split; [reflexivity|]. clear IH. induction (snd e); cbn [map]; constructor; [apply print_int_text|assumption].
  Qed.
  Lemma numbered_rows {A} (f : A -> text) (g : A -> list text) l : (forall a, In a l -> exists x xs, g a = x :: xs /\ Forall field (x :: xs) /\ f a = x ++ flat_map (fun w => space :: w) xs) ->
    forall i, exists rows, Forall2 (fields_of blank) (numbered f i l) rows /\ Forall (fun w => ~ In newline w) (numbered f i l) /\
      Forall2 (fun (ka : nat * A) row => exists k, row = k :: g (snd ka) /\ integer_text k (i + Z.of_nat (fst ka))) (combine (seq 0 (length l)) l) rows.
  Proof.
    induction l as [|a l IH]; intros H i; [exists []; repeat constructor|].
    destruct (IH (fun b Hb => H b (or_intror Hb)) (i + 1)) as (rows & R1 & R2 & R3). destruct (H a (or_introl eq_refl)) as (x & xs & G & F & L).
    assert (F' : Forall field (print_int i :: x :: xs)) by (constructor; [apply print_int_field|exact F]).
    exists ((print_int i :: g a) :: rows). cbn [numbered length seq combine]. rewrite L, G.
    change (print_int i ++ space :: x ++ flat_map (fun w => space :: w) xs) with (print_int i ++ flat_map (fun w => space :: w) (x :: xs)).
    split; [constructor; [apply fields_line; exact F'|exact R1]|]. split; [constructor; [apply line_no_newline; exact F'|exact R2]|].
    constructor; [exists (print_int i); cbn [fst snd]; rewrite G; split; [reflexivity|]; rewrite Z.add_0_r; apply print_int_text|].
    clear - R3. rewrite <- seq_shift.
    assert (C : forall (s : list nat), combine (map S s) l = map (fun ka => (S (fst ka), snd ka)) (combine s l)).
    { clear. induction l as [|b l IH]; intros [|k s]; cbn; try reflexivity. rewrite IH. reflexivity. }
    rewrite C. revert rows R3. generalize (combine (seq 0 (length l)) l). intros c. induction c as [|[k b] c IH]; intros rows R; inversion R as [|? r ? ? (k' & E1 & E2) R']; subst; cbn [map]; constructor.
    - exists k'. cbn [fst snd] in *. split; [reflexivity|]. rewrite Nat2Z.inj_succ. replace (i + Z.succ (Z.of_nat k)) with (i + 1 + Z.of_nat k) by lia. exact E2.
    - apply IH. exact R'.
  Qed.
  Lemma region_copy_segments (r : region N) s : region_getSegments (region_copy r) s = region_getSegments r s.
  Proof. reflexivity. Qed.
  Lemma poly_file tol (r : region N) seeds restricted g pl idx :
    build_pslg tol r seeds restricted = Ok g -> ul_push_list (pt_ltb tol) (fst (ul_push_list (pt_ltb tol) ul_empty seeds)) (getRegionPoints r) = (pl, idx) ->
    exists t ss rss h1 ps h2 sr h3 hs, writeTriangleInputFile fmt pl r idx = Ok t /\ in_segments g = ss ++ rss /\ length rss = length restricted /\
      text_rows t (h1 :: ps ++ h2 :: sr ++ h3 :: hs) /\
      Forall2 integer_text h1 [zlen (in_points g); 2; 0; 0] /\ Forall2 integer_text h2 [zlen ss; 0] /\ Forall2 integer_text h3 [zlen (in_holes g)] /\
      Forall2 (fun (kp : nat * (nT N * nT N)) row => exists k, row = [k; fmt (fst (snd kp)); fmt (snd (snd kp))] /\ integer_text k (Z.of_nat (fst kp)))
        (combine (seq 0 (length (in_points g))) (in_points g)) ps /\
      Forall2 (fun (ks : nat * (Z * Z)) row => Forall2 integer_text row [Z.of_nat (fst ks); fst (snd ks); snd (snd ks)]) (combine (seq 0 (length ss)) ss) sr /\
      Forall2 (fun (kp : nat * (nT N * nT N)) row => exists k, row = [k; fmt (fst (snd kp)); fmt (snd (snd kp))] /\ integer_text k (Z.of_nat (fst kp)))
        (combine (seq 0 (length (in_holes g))) (in_holes g)) hs.
  Proof.
    intros B P. unfold build_pslg in B. destruct (ul_push_list (pt_ltb tol) ul_empty seeds) as [u1 i1]. cbn [fst] in P. rewrite P in B.
    unfold writeTriangleInputFile. rewrite region_copy_segments. destruct (region_getSegments r []) as [segs|] eqn:S; [|discriminate B]. cbn [bind] in B |- *.
    destruct (mapM (fun s => a <- vget idx (fst s);; b <- vget idx (snd s);; Ok (a, b)) segs) as [ss|] eqn:M; [|discriminate B]. cbn [bind] in B |- *.
    injection B as <-. cbn [in_points in_segments in_holes]. change (rg_holes (region_copy r)) with (rg_holes r).
    assert (PT : forall q : Point N, exists x xs, [fmt (px q); fmt (py q)] = x :: xs /\ Forall field (x :: xs) /\ point_string fmt q = x ++ flat_map (fun w => space :: w) xs).
    { intros q. exists (fmt (px q)), [fmt (py q)]. split; [reflexivity|]. split; [repeat constructor; apply FMT|]. unfold point_string. cbn [flat_map]. rewrite app_nil_r. reflexivity. }
    destruct (numbered_rows (point_string fmt) (fun q => [fmt (px q); fmt (py q)]) (ul_list pl) (fun q _ => PT q) 0) as (ps & P1 & P2 & P3).
    destruct (numbered_rows (fun h : hole N => point_string fmt (h_center h)) (fun h => [fmt (px (h_center h)); fmt (py (h_center h))]) (rg_holes r) (fun h _ => PT (h_center h)) 0) as (hs & H1 & H2 & H3).
    destruct (numbered_rows (fun s : Z * Z => print_int (fst s) ++ space :: print_int (snd s)) (fun s => [print_int (fst s); print_int (snd s)]) ss) with (i := 0) as (sr & S1 & S2 & S3).
    { intros s _. exists (print_int (fst s)), [print_int (snd s)]. split; [reflexivity|]. split; [repeat constructor; apply print_int_field|]. cbn [flat_map]. rewrite app_nil_r. reflexivity. }
    assert (L : zlen segs = zlen ss) by (unfold zlen; rewrite (mapM_ok_length _ _ _ M); reflexivity).
    eexists _, ss, _, (map print_int [zlen (ul_list pl); 2; 0; 0]), ps, (map print_int [zlen ss; 0]), sr, [print_int (zlen (rg_holes r))], hs.
    split; [reflexivity|]. split; [reflexivity|]. split; [apply map_length|].
    assert (FI : forall l, Forall field (map print_int l)) by (intros l; apply Forall_forall; intros x Hx; apply in_map_iff in Hx as (i & <- & _); apply print_int_field).
    split; [|split; [|split; [|split; [|split; [|split]]]]].
    - unfold unlines. eexists. split; [reflexivity|].
      assert (E1 : print_int (zlen (ul_list pl)) ++ space :: print_int 2 ++ space :: print_int 0 ++ space :: print_int 0 =
        print_int (zlen (ul_list pl)) ++ flat_map (fun w => space :: w) (map print_int [2; 0; 0])) by reflexivity.
      assert (E2 : print_int (zlen segs) ++ space :: print_int 0 = print_int (zlen ss) ++ flat_map (fun w => space :: w) (map print_int [0])) by (rewrite L; reflexivity).
      assert (E3 : print_int (zlen (rg_holes r)) = print_int (zlen (rg_holes r)) ++ flat_map (fun w => space :: w) []) by (cbn [flat_map]; rewrite app_nil_r; reflexivity).
      rewrite E1, E2. split.
      + constructor; [apply (line_no_newline (print_int (zlen (ul_list pl))) (map print_int [2; 0; 0]) (FI [zlen (ul_list pl); 2; 0; 0]))|]. apply Forall_app. split; [exact P2|].
        constructor; [apply (line_no_newline (print_int (zlen ss)) (map print_int [0]) (FI [zlen ss; 0]))|]. apply Forall_app. split; [exact S2|].
        constructor; [rewrite E3; apply (line_no_newline (print_int (zlen (rg_holes r))) [] (FI [zlen (rg_holes r)]))|exact H2].
      + constructor; [apply (fields_line (print_int (zlen (ul_list pl))) (map print_int [2; 0; 0]) (FI [zlen (ul_list pl); 2; 0; 0]))|]. apply Forall2_app; [exact P1|].
        constructor; [apply (fields_line (print_int (zlen ss)) (map print_int [0]) (FI [zlen ss; 0]))|]. apply Forall2_app; [exact S1|].
        constructor; [rewrite E3 at 1; apply (fields_line (print_int (zlen (rg_holes r))) [] (FI [zlen (rg_holes r)]))|exact H1].
    - replace (zlen (map (fun q : Point N => (px q, py q)) (ul_list pl))) with (zlen (ul_list pl)) by (unfold zlen; rewrite map_length; reflexivity).
      cbn [map]. repeat constructor; apply print_int_text.
    - cbn [map]. repeat constructor; apply print_int_text.
    - replace (zlen (map (fun h : hole N => (px (h_center h), py (h_center h))) (rg_holes r))) with (zlen (rg_holes r)) by (unfold zlen; rewrite map_length; reflexivity).
      repeat constructor; apply print_int_text.
    - rewrite map_length. clear - P3. revert ps P3. generalize (seq 0 (length (ul_list pl))). generalize (ul_list pl). intros l. induction l as [|q l IH]; intros [|k s] ps R; cbn [combine map] in *; inversion R as [|? r ? ? (k' & A1 & A2) R']; subst; constructor.
      + exists k'. cbn [fst snd] in *. auto.
      + apply IH. exact R'.
    - clear - S3. revert sr S3. generalize (combine (seq 0 (length ss)) ss). intros c. induction c as [|[k s] c IH]; intros sr R; inversion R as [|? r ? ? (k' & A1 & A2) R']; subst; constructor; [|apply IH; exact R'].
      cbn [fst snd] in *. repeat constructor; try exact A2; apply print_int_text.
    - rewrite map_length. clear - H3. revert hs H3. generalize (seq 0 (length (rg_holes r))). generalize (rg_holes r). intros l. induction l as [|q l IH]; intros [|k s] ps R; cbn [combine map] in *; inversion R as [|? rr ? ? (k' & A1 & A2) R']; subst; constructor.
      + exists k'. cbn [fst snd] in *. auto.
      + apply IH. exact R'.
  Qed.

End DumpN.
Section Vec.
  Context {N : Num}.
  (** ** Triangles with a vector of circumcenters *)
  Lemma triangles_vec_ok (tol : nT N) ts (p : list (Point N)) : forall cs trs cs', triangles_vec tol ts p cs = Ok (trs, cs') ->
    length trs = length ts /\ (exists l, cs' = cs ++ l /\ length l = length ts) /\
    forall k tr, nth_error trs k = Some tr -> exists idx A B C, nth_error ts k = Some idx /\ pg_points (tr_poly tr) = idx /\ vertices_are p (firstn 3 idx) [A; B; C] /\
      tr_cc tr = circumcenter A B C /\ tr_cci tr = Some (zlen cs + Z.of_nat k) /\ nth_error cs' (length cs + k) = Some (tr_cc tr).
  Proof.
    induction ts as [|idx ts IH]; intros cs trs cs' H; cbn [triangles_vec] in H.
    - injection H as <- <-. split; [reflexivity|]. split; [exists []; rewrite app_nil_r; auto|]. intros [|k] tr Hk; discriminate.
    - inv_ok H. destruct v as [t cs1]. destruct v0 as [rest cs2]. cbn [fst snd] in *. injection H as <- <-.
      unfold triangle_ctor_vec in E. inv_ok E. destruct v0 as [[A B] C]. injection E as <- <-.
      destruct (IH _ _ _ E0) as (L & (l & X & Ll) & K). split; [cbn [length]; congruence|]. split.
      { exists (circumcenter A B C :: l). rewrite X, <- app_assoc. split; [reflexivity|cbn [length]; congruence]. }
      intros [|k] tr Hk; cbn [nth_error] in Hk.
      + injection Hk as <-. exists idx, A, B, C. cbn [tr_poly tr_cc tr_cci]. split; [reflexivity|].
        match goal with H : polygon_ctor_idx _ _ _ = Ok _ |- _ => rewrite ctor_idx_ok in H; injection H as <- end. split; [reflexivity|]. split.
        { match goal with H : tri_vertices _ _ = Ok _ |- _ => rename H into TV end. clear - TV.
          destruct idx as [|a [|b [|c idx]]].
          - discriminate TV.
          - exfalso. unfold tri_vertices, vpt in TV; cbn in TV. destruct (vget p a); discriminate TV.
          - exfalso. unfold tri_vertices, vpt in TV; cbn in TV. destruct (vget p a); [|discriminate TV]. cbn [bind] in TV. destruct (vget p b); discriminate TV.
          - apply tri_vertices_are. exact TV. }
        split; [reflexivity|]. split; [f_equal; lia|]. rewrite X, Nat.add_0_r, <- app_assoc, nth_error_app2, Nat.sub_diag by lia. reflexivity.
      + destruct (K k tr Hk) as (idx' & A' & B' & C' & K1 & K2 & K3 & K4 & K5 & K6). exists idx', A', B', C'. cbn [nth_error]. repeat (split; [assumption|]).
        unfold zlen in *. rewrite app_length in K5, K6. cbn [length] in K5, K6. split; [rewrite K5; f_equal; lia|]. rewrite <- K6. f_equal. lia.
  Qed.
  Lemma built_not_null (tol : nT N) idx (p : list (Point N)) t : triangle_ctor tol idx p = Ok t -> triangle_isNull t = false.
  Proof.
    unfold triangle_ctor. rewrite ctor_idx_ok. cbn [bind]. intros H. inv_ok H. destruct v as [[A B] C]. injection H as <-.
    unfold triangle_isNull, zlen. cbn [tr_poly pg_points]. destruct idx; [discriminate E|reflexivity].
  Qed.
End Vec.
