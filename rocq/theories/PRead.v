(** Proofs about seed files of any layout and the program that reads one. *)
From Coq Require Import Reals Lra Lia ZArith List Bool Ascii String.
From Verif Require Import Base Spec MUtil MGeom MHull MPolygon MMaps MTriangle MGen MRegion MDelaunay MVoronoi MMesh MHist MFile MProgram MRead.
From Verif Require Import Bridge BridgeNum BridgeSeed PUtil PMesh PRegion.
Import ListNotations.
Local Open Scope Z_scope.

(** ** Lines *)
Lemma joined_cons l l' ls : joined (l :: l' :: ls) = l ++ line_end :: joined (l' :: ls).
Proof. reflexivity. Qed.
Lemma lay_out t : exists ls, laid_out t ls.
Proof.
  induction t as [|c t (ls & Ne & F & E)]; [exists [[]]; split; [discriminate|]; split; [constructor; [intros []|constructor]|reflexivity]|].
  destruct ls as [|l ls]; [congruence|]. destruct (ascii_dec c line_end) as [->|D].
  - exists ([] :: l :: ls). split; [discriminate|]. split; [constructor; [intros []|exact F]|]. rewrite joined_cons, <- E. reflexivity.
  - exists ((c :: l) :: ls). split; [discriminate|]. inversion_clear F as [|? ? F1 F2]. split; [constructor; [intros [K|K]; [congruence|exact (F1 K)]|exact F2]|].
    destruct ls; cbn [joined] in *; rewrite E; reflexivity.
Qed.
Lemma cut_unique (a b : list ascii) r s : ~ In line_end a -> ~ In line_end b -> a ++ line_end :: r = b ++ line_end :: s -> a = b /\ r = s.
Proof.
  revert b. induction a as [|c a IH]; intros [|e b] Na Nb E; cbn [app] in E.
  - injection E as E. auto.
  - injection E as <- E. exfalso. apply Nb. now left.
  - injection E as -> E. exfalso. apply Na. now left.
  - injection E as <- E. destruct (IH b) as [-> ->]; auto; [intros K; apply Na; now right|intros K; apply Nb; now right].
Qed.
Lemma lay_out_unique t ls : laid_out t ls -> forall ls', laid_out t ls' -> ls = ls'.
Proof.
  intros (Ne & F & E) ls' (Ne' & F' & E'). rewrite E in E'. clear E t. revert ls' Ne' F' E'.
  induction ls as [|l ls IH]; [congruence|]. intros [|l' ls'] Ne' F' E; [congruence|]. inversion_clear F as [|? ? F1 F2]. inversion_clear F' as [|? ? G1 G2].
  destruct ls as [|m ls], ls' as [|m' ls'].
  - cbn in E. congruence.
  - rewrite joined_cons in E. cbn [joined] in E. exfalso. apply F1. rewrite E. apply in_app_iff. right. now left.
  - rewrite joined_cons in E. cbn [joined] in E. exfalso. apply G1. rewrite <- E. apply in_app_iff. right. now left.
  - rewrite !joined_cons in E. destruct (cut_unique _ _ _ _ F1 G1 E) as [-> E2]. f_equal. apply IH; auto; discriminate.
Qed.

Lemma lines_of_text t : exists ls, laid_out t ls /\ forall ls', laid_out t ls' -> ls = ls'.
Proof. destruct (lay_out t) as [ls L]. exists ls. split; [exact L|exact (lay_out_unique t ls L)]. Qed.

(** ** The first line *)
Lemma decimal_isdig c : decimal_digit c -> isdig c.
Proof.
  unfold decimal_digit. intros D. exists (Z.of_nat (nat_of_ascii c) - 48). split; [lia|]. unfold digit.
  replace (48 + Z.to_nat (Z.of_nat (nat_of_ascii c) - 48))%nat with (nat_of_ascii c) by lia. symmetry. apply ascii_nat_embedding.
Qed.
Lemma digit_val_none c : ~ decimal_digit c -> digit_val c = None.
Proof.
  intros D. unfold digit_val, decimal_digit in *. cbv zeta. destruct (Nat.leb_spec 48 (nat_of_ascii c)); [|reflexivity]. destruct (Nat.leb_spec (nat_of_ascii c) 57); [|reflexivity]. exfalso. apply D. split; assumption.
Qed.
Lemma skip_blank sp s : Forall blank sp -> skip_spaces (sp ++ s) = skip_spaces s.
Proof. induction 1 as [|c sp B _ IH]; [reflexivity|]. cbn [app skip_spaces]. apply is_space_blank in B. rewrite B. exact IH. Qed.
Lemma atoi_announced l n : announces l n -> atoi l = if n <=? int_max then Ok n else Err (UB "atoi overflow").
Proof.
  intros (sp & ds & rest & -> & B & Ne & D & R & ->). assert (I : Forall isdig ds) by (revert D; apply Forall_impl; exact decimal_isdig).
  unfold atoi. rewrite (skip_blank _ _ B). destruct ds as [|c s]; [congruence|]. pose proof (Forall_inv I) as Hc. destruct (isdig_plain c Hc) as (_ & _ & Hm & Hp & Hsp).
  cbn [app skip_spaces]. rewrite Hsp, (eqb_false _ _ Hm), (eqb_false _ _ Hp). change (c :: s ++ rest) with ((c :: s) ++ rest).
  rewrite (atoi_digits_dval (c :: s) rest I) by (destruct rest; [exact Logic.I|apply digit_val_none, R]). rewrite <- run_value_dval by exact I.
  unfold in_int. assert (P : 0 <= run_value (c :: s)).
  { unfold run_value. assert (G : forall ds a, Forall decimal_digit ds -> 0 <= a -> 0 <= fold_left (fun a c => 10 * a + (Z.of_nat (nat_of_ascii c) - 48)) ds a).
    { clear. induction ds as [|e ds IH]; intros a F Pa; cbn [fold_left]; [exact Pa|]. inversion_clear F as [|? ? D F']. unfold decimal_digit in D. apply IH; [exact F'|lia]. }
    apply G; [exact D|lia]. }
  assert (Q : int_min <=? run_value (c :: s) = true) by (apply Z.leb_le; unfold int_min; lia). rewrite Q. cbn [andb]. reflexivity.
Qed.

(** ** Reading *)
Section Points.
  Context {N : Num}.
  Variable atof : text -> nT N.
  Definition line_point (l : text) : res (Point N) := let f := splitBySpaces l in x <- vgetn f 0 ;; y <- vgetn f 1 ;; Ok (mkP (atof x) (atof y)).
  Definition line_points (ls : list text) : res (list (Point N)) := mapM line_point ls.

  Lemma line_point_gives l q : line_point l = Ok q <-> gives atof l q.
  Proof.
    unfold line_point, gives. split.
    - intros E. destruct (splitBySpaces l) as [|x [|y more]] eqn:S; cbn in E; try discriminate. injection E as <-. exists x, y, more. split; [apply split_iff; exact S|reflexivity].
    - intros (x & y & more & F & ->). apply split_iff in F. rewrite F. reflexivity.
  Qed.
  Lemma line_point_err l : (forall q, ~ gives atof l q) -> exists m, line_point l = Err (UB m).
  Proof.
    intros K. unfold line_point. destruct (splitBySpaces l) as [|x [|y more]] eqn:S; cbn; [eexists; reflexivity|eexists; reflexivity|].
    exfalso. apply (K (mkP (atof x) (atof y))). exists x, y, more. split; [apply split_iff; exact S|reflexivity].
  Qed.
  Lemma points_ok {A} (f : A -> text) is : (forall i, In i is -> exists q, gives atof (f i) q) -> exists qs, line_points (map f is) = Ok qs /\ Forall2 (fun i q => gives atof (f i) q) is qs.
  Proof.
    induction is as [|i is IH]; intros K; [exists []; split; [reflexivity|constructor]|]. destruct (K i) as [q Hq]; [now left|]. destruct IH as (qs & E & F); [intros j Hj; apply K; now right|].
    exists (q :: qs). split; [|constructor; assumption]. unfold line_points in *. cbn [map mapM]. apply line_point_gives in Hq. rewrite Hq. cbn [bind]. rewrite E. reflexivity.
  Qed.
  Lemma points_err {A} (f : A -> text) is i : In i is -> (forall q, ~ gives atof (f i) q) -> exists m, line_points (map f is) = Err (UB m).
  Proof.
    intros Hi K. unfold line_points. induction is as [|j is IH]; [destruct Hi|]. cbn [map mapM].
    destruct (line_point (f j)) as [q|e] eqn:E.
    - cbn [bind]. destruct Hi as [->|Hi]; [exfalso; apply (K q), line_point_gives, E|]. destruct (IH Hi) as [m ->]. exists m. reflexivity.
    - cbn [bind]. destruct (line_point_err (f j)) as [m Em]; [intros q G; apply line_point_gives in G; congruence|]. rewrite Em in E. injection E as <-. exists m. reflexivity.
  Qed.

  Lemma read_eof n : forall rest old, exists st l, read_points atof n (mkStream rest true) old = (ps <- line_points (repeat old n) ;; Ok (ps, st, l)).
  Proof.
    induction n as [|n IH]; intros rest old; [eexists _, _; reflexivity|]. destruct (IH rest old) as (st & l & E). exists st, l. cbn [read_points repeat]. unfold getline. cbn [st_eof].
    unfold line_points in *. cbn [mapM]. unfold line_point at 1. destruct (vgetn (splitBySpaces old) 0) as [x|]; [|reflexivity]. cbn [bind]. destruct (vgetn (splitBySpaces old) 1) as [y|]; [|reflexivity]. cbn [bind].
    rewrite E. destruct (mapM line_point (repeat old n)); reflexivity.
  Qed.
  Lemma take_last l : ~ In newline l -> forall acc, take_line l acc = (rev acc ++ l, [], true).
  Proof.
    induction l as [|c l IH]; intros K acc; cbn [take_line]; [now rewrite app_nil_r|]. rewrite eqb_false by (intros ->; apply K; now left).
    rewrite IH by (intros X; apply K; now right). cbn [rev]. rewrite <- app_assoc. reflexivity.
  Qed.
  Lemma getline_joined l ls old : ~ In newline l -> getline (mkStream (joined (l :: ls)) false) old = (match ls with [] => mkStream [] true | _ => mkStream (joined ls) false end, l).
  Proof.
    intros K. destruct ls as [|m ls]; [unfold getline; cbn [st_eof st_rest joined]; rewrite take_last by exact K; reflexivity|]. rewrite joined_cons. apply getline_line, K.
  Qed.
  Lemma lines_shift l m ls n : map (line_at (l :: m :: ls)) (seq 1 n) = map (line_at (m :: ls)) (seq 0 n).
  Proof. rewrite <- seq_shift, map_map. apply map_ext. intros i. unfold line_at. cbn [List.length]. rewrite !Nat.sub_succ, !Nat.sub_0_r. reflexivity. Qed.
  Lemma lines_last l n : map (line_at [l]) (seq 1 n) = repeat l n.
  Proof.
    rewrite <- seq_shift, map_map. generalize 0%nat. induction n as [|n IH]; intros k; [reflexivity|]. cbn [seq map repeat]. rewrite IH. reflexivity.
  Qed.
  Lemma read_after n : forall l ls, Forall (fun l => ~ In newline l) (l :: ls) -> exists st l',
    read_points atof n (match ls with [] => mkStream [] true | _ => mkStream (joined ls) false end) l = (ps <- line_points (map (line_at (l :: ls)) (seq 1 n)) ;; Ok (ps, st, l')).
  Proof.
    induction n as [|n IH]; intros l ls F; [eexists _, _; reflexivity|]. destruct ls as [|m ls]; [rewrite lines_last; apply read_eof|].
    rewrite lines_shift. inversion_clear F as [|? ? F1 F2]. destruct (IH m ls F2) as (st & l' & E). exists st, l'. cbn [read_points]. rewrite getline_joined by exact (Forall_inv F2).
    cbn [seq map]. unfold line_points in *. cbn [mapM]. replace (line_at (m :: ls) 0) with m by reflexivity. unfold line_point at 1.
    destruct (vgetn (splitBySpaces m) 0) as [x|]; [|reflexivity]. cbn [bind]. destruct (vgetn (splitBySpaces m) 1) as [y|]; [|reflexivity]. cbn [bind].
    rewrite E. destruct (mapM line_point (map (line_at (m :: ls)) (seq 1 n))); reflexivity.
  Qed.
  Lemma read_char t ls n : laid_out t ls -> announces (line_at ls 0) n ->
    read_seed_file atof t = if n <=? int_max then line_points (map (line_at ls) (seq 1 (Z.to_nat n))) else Err (UB "atoi overflow").
  Proof.
    intros (Ne & F & ->) A. destruct ls as [|l ls]; [congruence|]. change (line_at (l :: ls) 0) with l in A. unfold read_seed_file.
    rewrite getline_joined by exact (Forall_inv F). rewrite (atoi_announced l n A). destruct (n <=? int_max); [|reflexivity]. cbn [bind].
    destruct (read_after (Z.to_nat n) l ls F) as (st & l' & ->). destruct (line_points _); reflexivity.
  Qed.

  Lemma seed_file t ls n : laid_out t ls -> announces (line_at ls 0) n ->
    (n <= int_max -> (forall i, (1 <= i <= Z.to_nat n)%nat -> exists q, gives atof (line_at ls i) q) ->
       exists qs, read_seed_file atof t = Ok qs /\ Forall2 (fun i q => gives atof (line_at ls i) q) (seq 1 (Z.to_nat n)) qs) /\
    (forall i, (1 <= i <= Z.to_nat n)%nat -> (forall q, ~ gives atof (line_at ls i) q) -> exists m, read_seed_file atof t = Err (UB m)) /\
    (int_max < n -> exists m, read_seed_file atof t = Err (UB m)).
  Proof.
    intros L A. rewrite (read_char t ls n L A). split; [|split].
    - intros Hn K. apply Z.leb_le in Hn. rewrite Hn. apply points_ok. intros i Hi. apply in_seq in Hi. apply K. lia.
    - intros i Hi K. destruct (n <=? int_max); [|eexists; reflexivity]. apply (points_err _ _ i); [apply in_seq; lia|exact K].
    - intros Hn. apply Z.leb_gt in Hn. rewrite Hn. eexists. reflexivity.
  Qed.
  Lemma seed_file_region tol t (r : region N) qs : region_made r -> read_seed_file atof t = Ok qs ->
    exists keep : Point N -> bool, (forall q, keep q = true <-> in_domain tol r q) /\ addSeedsFromFile atof tol r t = Ok (with_seeds r (filter keep (rg_seeds r ++ qs))).
  Proof.
    intros M E. exists (keeps tol r). split; [intros q; apply keeps_iff, M|]. unfold addSeedsFromFile. rewrite E. cbn [bind]. unfold addSeedsRead. apply clean_char, M.
  Qed.

  Lemma read_program_char tol fmt triangulate fuel order home d pts r0 source name : region_ctor tol pts = Ok r0 ->
    (forall t qs, dk_text d (home ++ slash :: source) = Some t -> read_seed_file atof t = Ok qs ->
       read_program tol atof fmt triangulate fuel order (Some home) d pts source name = mesh_program tol fmt triangulate fuel order (Some home) d pts [OpRead qs] name) /\
    (forall t m, dk_text d (home ++ slash :: source) = Some t -> read_seed_file atof t = Err (UB m) ->
       read_program tol atof fmt triangulate fuel order (Some home) d pts source name = Err (UB m)) /\
    (dk_text d (home ++ slash :: source) = None -> exists m, read_program tol atof fmt triangulate fuel order (Some home) d pts source name = Err (Throw m)) /\
    (exists m, read_program tol atof fmt triangulate fuel order None d pts source name = Err (UB m)).
  Proof.
    intros C. unfold read_program, mesh_program, make_domain, region_readFile, openFile. rewrite C. cbn [bind getPath].
    rewrite <- app_assoc. cbn [app]. split; [|split; [|split]].
    - intros t qs T E. rewrite T. unfold addSeedsFromFile. rewrite E. cbn [bind region_run region_do]. unfold addSeedsRead. rewrite (clean_char tol r0 _ (rm_ctor _ _ _ C)). reflexivity.
    - intros t m T E. rewrite T. unfold addSeedsFromFile. rewrite E. reflexivity.
    - intros T. rewrite T. eexists. reflexivity.
    - eexists. reflexivity.
  Qed.
End Points.
