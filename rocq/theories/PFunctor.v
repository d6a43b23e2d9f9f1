(** Functors behind pointers. *)
From Coq Require Import Lia ZArith List Bool.
From Verif Require Import Base MUtil MGeom MGen MFile MFunctor BridgeFunctor.
Import ListNotations.
Local Open Scope nat_scope.

Section F.
  Context {N : Num}.
  Notation fobj := (fobj N).
  Implicit Types h : list fobj.

  Lemma putn {A} (l : list A) i (a : A) j : nth_error (put i a l) j = if Nat.eqb i j then (match nth_error l i with Some _ => Some a | None => None end) else nth_error l j.
  Proof. revert i j. induction l as [|x l IH]; intros [|i] [|j]; cbn; try reflexivity. - destruct (Nat.eqb i j); reflexivity. - apply IH. Qed.
  Lemma putl {A} (l : list A) i (a : A) : length (put i a l) = length l.
  Proof. revert i. induction l as [|x l IH]; intros [|i]; cbn; auto. Qed.

  Definition wf h : Prop := forall i p o k, nth_error h i = Some (Noise p o k) -> p < i.
  Definition shape (c : fobj) : option nat := match c with Plain _ => None | Noise p _ _ => Some p end.
  Definition alike h h' : Prop := length h' = length h /\ forall j, option_map shape (nth_error h' j) = option_map shape (nth_error h j).
  Inductive bottom h : nat -> nat -> Prop :=
  | bt_plain i f : nth_error h i = Some (Plain f) -> bottom h i i
  | bt_noise i p o k b : nth_error h i = Some (Noise p o k) -> bottom h p b -> bottom h i b.

  Lemma alike_refl h : alike h h. Proof. split; auto. Qed.
  Lemma alike_trans a b c : alike a b -> alike b c -> alike a c.
  Proof. intros [L1 H1] [L2 H2]. split; [congruence|]. intros j. rewrite H2. apply H1. Qed.
  Lemma alike_sym a b : alike a b -> alike b a.
  Proof. intros [L H]. split; [congruence|]. intros j. symmetry. apply H. Qed.
  Lemma alike_wf h h' : alike h h' -> wf h -> wf h'.
  Proof. intros [_ A] W i p o k E. specialize (A i). rewrite E in A. destruct (nth_error h i) as [[|p' o' k']|] eqn:E'; try discriminate. injection A as <-. exact (W _ _ _ _ E'). Qed.
  Lemma alike_bottom h h' i b : alike h h' -> bottom h i b -> bottom h' i b.
  Proof.
    intros [_ A] B. induction B as [i f E|i p o k b E B IH]; specialize (A i); rewrite E in A; destruct (nth_error h' i) as [[f'|p' o' k']|] eqn:E'; try discriminate.
    - exact (bt_plain _ _ _ E').
    - injection A as ->. exact (bt_noise _ _ _ _ _ _ E' IH).
  Qed.
  Lemma bottom_fun h i b b' : bottom h i b -> bottom h i b' -> b = b'.
  Proof. intros B. revert b'. induction B as [i f E|i p o k b E B IH]; intros b' B'; inversion B'; subst; try congruence. apply IH. congruence. Qed.
  Lemma bottom_ex h i : wf h -> i < length h -> exists b, bottom h i b.
  Proof.
    intros W. induction (lt_wf i) as [i _ IH]. intros L. destruct (nth_error h i) as [[f|p o k]|] eqn:E; [exists i; econstructor; eauto| |apply nth_error_None in E; lia].
    pose proof (W _ _ _ _ E). destruct (IH p) as (b & B); [assumption|lia|]. exists b. econstructor; eauto.
  Qed.
  Lemma stands_ex h i : wf h -> i < length h -> exists f, stands_for h i f.
  Proof.
    intros W. induction (lt_wf i) as [i _ IH]. intros L. destruct (nth_error h i) as [[f|p o k]|] eqn:E; [exists f; constructor; auto| |apply nth_error_None in E; lia].
    pose proof (W _ _ _ _ E). destruct (IH p) as (f & B); [assumption|lia|]. exists (FNoise f o k). exact (sf_noise _ _ _ _ _ _ E B).
  Qed.
  Lemma stands_fun h i f f' : stands_for h i f -> stands_for h i f' -> f = f'.
  Proof. intros B. revert f'. induction B as [i f E|i p o k f E B IH]; intros f' B'; inversion B' as [? ? E'|? p' o' k' f0 E' B0]; subst; rewrite E in E'; try discriminate; injection E' as; subst; [reflexivity|]. rewrite (IH _ B0). reflexivity. Qed.
  Lemma stands_put h i c p f : wf h -> stands_for h p f -> p < i -> stands_for (put i c h) p f.
  Proof.
    intros W S. induction S as [j f E|j p o k f E S IH]; intros L.
    - constructor. rewrite putn. destruct (Nat.eqb_spec i j); [lia|exact E].
    - apply (sf_noise _ j p o k). + rewrite putn. destruct (Nat.eqb_spec i j); [lia|exact E]. + apply IH. pose proof (W _ _ _ _ E). lia.
  Qed.
  Lemma put_alike h i c c' : nth_error h i = Some c -> shape c = shape c' -> alike h (put i c' h).
  Proof. intros E S. split; [apply putl|]. intros j. rewrite putn. destruct (Nat.eqb_spec i j) as [<-|]; [|reflexivity]. rewrite E. cbn. congruence. Qed.

  (** what a call changes *)
  Lemma papply_frame fuel h i x h' y : papply fuel h i x = Ok (h', y) -> alike h h' /\ forall b j, bottom h i b -> (bottom h j b -> False) -> nth_error h' j = nth_error h j.
  Proof.
    revert h i h' y. induction fuel as [|fuel IH]; intros h i h' y H; [discriminate|]. cbn [papply] in H. destruct (vgetn h i) as [c|] eqn:E; [|discriminate]. cbn [bind] in H. apply vgetn_ok in E. destruct c as [f|p o k].
    - destruct (apply f x) as [[f' y']|]; [|discriminate]. cbn [bind] in H. injection H as <- <-. split; [apply (put_alike _ _ (Plain f)); [exact E|reflexivity]|]. intros b j B NB. rewrite putn. destruct (Nat.eqb_spec i j) as [<-|]; [destruct (NB B)|reflexivity].
    - destruct (papply fuel h p x) as [[h1 y1]|] eqn:P; [|discriminate]. cbn [bind] in H. injection H as <- <-. destruct (IH _ _ _ _ P) as (A & F). pose proof A as [_ A']. specialize (A' i). rewrite E in A'.
      destruct (nth_error h1 i) as [c1|] eqn:E1; [|discriminate]. split.
      + apply (alike_trans _ _ _ A). apply (put_alike _ _ c1); [exact E1|]. cbn in *. congruence.
      + intros b j B NB. rewrite putn. destruct (Nat.eqb_spec i j) as [<-|]; [destruct (NB B)|]. apply (F b); [|exact NB]. inversion B; subst; [congruence|]. congruence.
  Qed.
  Lemma stands_frame h h' b j f bj : alike h h' -> (forall j, (bottom h j b -> False) -> nth_error h' j = nth_error h j) -> stands_for h j f -> bottom h j bj -> bj <> b -> stands_for h' j f.
  Proof.
    intros A F S. revert bj. induction S as [j f E|j p o k f E S IH]; intros bj B NB.
    - constructor. rewrite F; [exact E|]. intros B'. apply NB. exact (bottom_fun _ _ _ _ B B').
    - apply (sf_noise _ j p o k).
      + rewrite F; [exact E|]. intros B'. apply NB. exact (bottom_fun _ _ _ _ B B').
      + apply (IH bj); [|exact NB]. inversion B; subst; congruence.
  Qed.

  Lemma papply_sound fuel h i x f h' y : wf h -> stands_for h i f -> papply fuel h i x = Ok (h', y) -> exists f', apply f x = Ok (f', y) /\ stands_for h' i f'.
  Proof.
    revert h i f h' y. induction fuel as [|fuel IH]; intros h i f h' y W SF H; [discriminate|]. cbn [papply] in H. destruct (vgetn h i) as [c|] eqn:E; [|discriminate]. cbn [bind] in H. apply vgetn_ok in E. destruct c as [f0|p o k].
    - inversion SF as [? ? E'|? ? ? ? ? E' ?]; subst; [|congruence]. assert (f0 = f) as -> by congruence. destruct (apply f x) as [[f' y']|]; [|discriminate]. cbn [bind] in H. injection H as <- <-. exists f'. split; [reflexivity|].
      constructor. rewrite putn, Nat.eqb_refl, E. reflexivity.
    - inversion SF as [? ? E'|? p' o' k' f0 E' S0]; subst; [congruence|]. rewrite E in E'. injection E' as <- <- <-. destruct (papply fuel h p x) as [[h1 y1]|] eqn:P; [|discriminate]. cbn [bind] in H. injection H as <- <-.
      destruct (IH _ _ _ _ _ W S0 P) as (f' & A & S'). destruct (papply_frame _ _ _ _ _ _ P) as (AL & _). exists (FNoise f' o (S k)). split; [cbn [apply]; rewrite A; reflexivity|].
      apply (sf_noise _ i p o (S k)).
      + rewrite putn, Nat.eqb_refl. destruct (nth_error h1 i) eqn:E1; [reflexivity|]. destruct AL as [_ AL]. specialize (AL i). rewrite E, E1 in AL. discriminate.
      + apply stands_put; [exact (alike_wf _ _ AL W)|exact S'|exact (W _ _ _ _ E)].
  Qed.
  Lemma papply_complete fuel h i x f f' y : wf h -> stands_for h i f -> i < fuel -> apply f x = Ok (f', y) -> exists h', papply fuel h i x = Ok (h', y).
  Proof.
    revert h i f f' y. induction fuel as [|fuel IH]; intros h i f f' y W SF L H; [lia|]. cbn [papply]. inversion SF as [? ? E|? p o k f0 E S0]; subst; rewrite (proj2 (vgetn_ok _ _ _) E); cbn [bind].
    - rewrite H. cbn [bind]. eauto.
    - cbn [apply] in H. destruct (apply f0 x) as [[f1 y1]|] eqn:A; [|discriminate]. cbn [bind] in H. injection H as <- <-. pose proof (W _ _ _ _ E). destruct (IH h p f0 f1 y1 W S0 ltac:(lia) A) as (h1 & ->). cbn [bind]. eauto.
  Qed.

  (** one place of the grid *)
  Definition rests h (g : pgen) : list nat -> Prop := Forall2 (bottom h) (pgen_ptrs g).
  Lemma alike_rests h h' g bs : alike h h' -> rests h g bs -> rests h' g bs.
  Proof. intros A R. unfold rests in *. induction R as [|i b l l' Hb R IH]; constructor; [exact (alike_bottom _ _ _ _ A Hb)|exact IH]. Qed.

  Lemma fcall_step h i x f b : wf h -> stands_for h i f -> bottom h i b ->
    (forall h' y, fcall h i x = Ok (h', y) -> exists f', apply f x = Ok (f', y) /\ stands_for h' i f' /\ alike h h' /\ (forall j fj bj, stands_for h j fj -> bottom h j bj -> bj <> b -> stands_for h' j fj)) /\
    (forall f' y, apply f x = Ok (f', y) -> exists h', fcall h i x = Ok (h', y)).
  Proof.
    intros W SF B. split.
    - intros h' y H. destruct (papply_sound _ _ _ _ _ _ _ W SF H) as (f' & A & S'). destruct (papply_frame _ _ _ _ _ _ H) as (AL & F). exists f'. split; [exact A|]. split; [exact S'|]. split; [exact AL|].
      intros j fj bj Sj Bj NB. apply (stands_frame h h' b j fj bj AL); auto. intros j0 NB0. exact (F b j0 B NB0).
    - intros f' y A. exact (papply_complete (S i) h i x f f' y W SF (Nat.lt_succ_diag_r i) A).
  Qed.

  Lemma presult_step lr h g g' bs x y : wf h -> same_gen h g g' -> rests h g bs -> NoDup bs ->
    (forall h' q, presult lr h g x y = Ok (h', q) -> exists g2, result g' x y = Ok (g2, q) /\ same_gen h' g g2 /\ alike h h' /\ (forall j fj bj, stands_for h j fj -> bottom h j bj -> ~ In bj bs -> stands_for h' j fj)) /\
    (forall g2 q, result g' x y = Ok (g2, q) -> exists h', presult lr h g x y = Ok (h', q)).
  Proof.
    intros W SG R ND. destruct g as [i|i|i j], g' as [f|f|f f']; cbn [same_gen] in SG; try contradiction; unfold rests in R; cbn [pgen_ptrs] in R.
    - inversion R as [|? b ? ? B R']; subst. inversion R'; subst. destruct (fcall_step h i x f b W SG B) as (A1 & A2). cbn [presult result]. split.
      + intros h' q H. destruct (fcall h i x) as [[h1 v]|] eqn:C; [|discriminate]. cbn [bind] in H. injection H as <- <-. destruct (A1 _ _ eq_refl) as (f2 & Q1 & Q2 & Q3 & Q4). exists (GX f2). rewrite Q1. cbn [bind]. split; [reflexivity|]. split; [exact Q2|]. split; [exact Q3|].
        intros j fj bj Sj Bj NI. apply (Q4 j fj bj Sj Bj). intros ->. apply NI. left. reflexivity.
      + intros g2 q H. destruct (apply f x) as [[f2 v]|] eqn:C; [|discriminate]. cbn [bind] in H. injection H as <- <-. destruct (A2 _ _ eq_refl) as (h' & ->). cbn [bind]. eauto.
    - inversion R as [|? b ? ? B R']; subst. inversion R'; subst. destruct (fcall_step h i y f b W SG B) as (A1 & A2). cbn [presult result]. split.
      + intros h' q H. destruct (fcall h i y) as [[h1 v]|] eqn:C; [|discriminate]. cbn [bind] in H. injection H as <- <-. destruct (A1 _ _ eq_refl) as (f2 & Q1 & Q2 & Q3 & Q4). exists (GY f2). rewrite Q1. cbn [bind]. split; [reflexivity|]. split; [exact Q2|]. split; [exact Q3|].
        intros j fj bj Sj Bj NI. apply (Q4 j fj bj Sj Bj). intros ->. apply NI. left. reflexivity.
      + intros g2 q H. destruct (apply f y) as [[f2 v]|] eqn:C; [|discriminate]. cbn [bind] in H. injection H as <- <-. destruct (A2 _ _ eq_refl) as (h' & ->). cbn [bind]. eauto.
    - destruct SG as [S1 S2]. inversion R as [|? b1 ? ? B1 R']; subst. inversion R' as [|? b2 ? ? B2 R'']; subst. inversion R''; subst. assert (NE : b1 <> b2) by (inversion ND as [|? ? NI _]; subst; cbn in NI; intuition congruence).
      destruct (fcall_step h i x f b1 W S1 B1) as (A1 & A2). destruct (fcall_step h j y f' b2 W S2 B2) as (D1 & D2). cbn [presult result]. destruct lr.
      + split.
        * intros h' q H. destruct (fcall h i x) as [[h1 v]|] eqn:C; [|discriminate]. cbn [bind] in H. destruct (A1 _ _ eq_refl) as (f2 & Q1 & Q2 & Q3 & Q4). destruct (fcall h1 j y) as [[h2 v2]|] eqn:C2; [|discriminate]. cbn [bind] in H. injection H as <- <-.
          pose proof (Q4 j f' b2 S2 B2 (not_eq_sym NE)) as S2'. pose proof (alike_bottom _ _ _ _ Q3 B2) as B2'. destruct (fcall_step h1 j y f' b2 (alike_wf _ _ Q3 W) S2' B2') as (D1' & _). destruct (D1' _ _ C2) as (f3 & P1 & P2 & P3 & P4).
          exists (GBoth f2 f3). rewrite Q1. cbn [bind]. rewrite P1. cbn [bind]. split; [reflexivity|]. split; [split; [|exact P2]|].
          -- exact (P4 i f2 b1 Q2 (alike_bottom _ _ _ _ Q3 B1) NE).
          -- split; [exact (alike_trans _ _ _ Q3 P3)|]. intros j0 fj bj Sj Bj NI. apply (P4 j0 fj bj); [|exact (alike_bottom _ _ _ _ Q3 Bj)|intros ->; apply NI; right; left; reflexivity]. apply (Q4 j0 fj bj Sj Bj). intros ->. apply NI. left. reflexivity.
        * intros g2 q H. destruct (apply f x) as [[f2 v]|] eqn:C; [|discriminate]. cbn [bind] in H. destruct (apply f' y) as [[f3 v2]|] eqn:C2; [|discriminate]. cbn [bind] in H. injection H as <- <-. destruct (A2 _ _ eq_refl) as (h1 & H1). rewrite H1. cbn [bind].
          destruct (A1 _ _ H1) as (f2' & Q1 & Q2 & Q3 & Q4). destruct (fcall_step h1 j y f' b2 (alike_wf _ _ Q3 W) (Q4 j f' b2 S2 B2 (not_eq_sym NE)) (alike_bottom _ _ _ _ Q3 B2)) as (_ & D2'). destruct (D2' _ _ C2) as (h2 & ->). cbn [bind]. eauto.
      + split.
        * intros h' q H. destruct (fcall h j y) as [[h1 v2]|] eqn:C; [|discriminate]. cbn [bind] in H. destruct (D1 _ _ eq_refl) as (f3 & Q1 & Q2 & Q3 & Q4). destruct (fcall h1 i x) as [[h2 v]|] eqn:C2; [|discriminate]. cbn [bind] in H. injection H as <- <-.
          pose proof (Q4 i f b1 S1 B1 NE) as S1'. pose proof (alike_bottom _ _ _ _ Q3 B1) as B1'. destruct (fcall_step h1 i x f b1 (alike_wf _ _ Q3 W) S1' B1') as (A1' & _). destruct (A1' _ _ C2) as (f2 & P1 & P2 & P3 & P4).
          exists (GBoth f2 f3). rewrite P1. cbn [bind]. rewrite Q1. cbn [bind]. split; [reflexivity|]. split; [split; [exact P2|]|].
          -- exact (P4 j f3 b2 Q2 (alike_bottom _ _ _ _ Q3 B2) (not_eq_sym NE)).
          -- split; [exact (alike_trans _ _ _ Q3 P3)|]. intros j0 fj bj Sj Bj NI. apply (P4 j0 fj bj); [|exact (alike_bottom _ _ _ _ Q3 Bj)|intros ->; apply NI; left; reflexivity]. apply (Q4 j0 fj bj Sj Bj). intros ->. apply NI. right. left. reflexivity.
        * intros g2 q H. destruct (apply f x) as [[f2 v]|] eqn:C; [|discriminate]. cbn [bind] in H. destruct (apply f' y) as [[f3 v2]|] eqn:C2; [|discriminate]. cbn [bind] in H. injection H as <- <-. destruct (D2 _ _ eq_refl) as (h1 & H1). rewrite H1. cbn [bind].
          destruct (D1 _ _ H1) as (f3' & Q1 & Q2 & Q3 & Q4). destruct (fcall_step h1 i x f b1 (alike_wf _ _ Q3 W) (Q4 i f b1 S1 B1 NE) (alike_bottom _ _ _ _ Q3 B1)) as (_ & A2'). destruct (A2' _ _ C) as (h2 & ->). cbn [bind]. eauto.
  Qed.

  Lemma pgenerate_same ord h g g' bs pts box nX nY : wf h -> same_gen h g g' -> rests h g bs -> NoDup bs ->
    (forall h' qs, pgenerate ord h g pts box nX nY = Ok (h', qs) -> exists g2, generate g' pts box nX nY = Ok (g2, qs) /\ same_gen h' g g2 /\ alike h h' /\ (forall j fj bj, stands_for h j fj -> bottom h j bj -> ~ In bj bs -> stands_for h' j fj)) /\
    (forall g2 qs, generate g' pts box nX nY = Ok (g2, qs) -> exists h', pgenerate ord h g pts box nX nY = Ok (h', qs)).
  Proof.
    unfold pgenerate, generate. generalize (grid_indices nX nY). intros l. revert h g' pts. induction l as [|ij l IH]; intros h g' pts W SG R ND; cbn [foldM fst snd].
    - split; [intros h' qs H; injection H as <- <-; exists g'; split; [reflexivity|]; split; [exact SG|]; split; [apply alike_refl|auto]|intros g2 qs H; injection H as <- <-; eauto].
    - destruct (divr (bb_width box) (nZ (nX - 1))) as [dX|] eqn:EX; [|cbn [bind]; split; intros; discriminate]. destruct (divr (bb_height box) (nZ (nY - 1))) as [dY|] eqn:EY; [|cbn [bind]; split; intros; discriminate]. cbn [bind].
      set (x := nadd (bb_xMin box) (nmul (nZ (snd ij)) dX)). set (y := nadd (bb_yMin box) (nmul (nZ (fst ij)) dY)). destruct (presult_step (ord ij) h g g' bs x y W SG R ND) as (P1 & P2). split.
      + intros h' qs H. destruct (presult (ord ij) h g x y) as [[h1 q]|] eqn:C; [|discriminate]. cbn [bind] in H. destruct (P1 _ _ eq_refl) as (g1 & Q1 & Q2 & Q3 & Q4). rewrite Q1. cbn [bind].
        destruct (IH h1 g1 (pts ++ [q]) (alike_wf _ _ Q3 W) Q2 (alike_rests _ _ _ _ Q3 R) ND) as (I1 & _). destruct (I1 _ _ H) as (g2 & J1 & J2 & J3 & J4). exists g2. split; [exact J1|]. split; [exact J2|]. split; [exact (alike_trans _ _ _ Q3 J3)|].
        intros j fj bj Sj Bj NI. apply (J4 j fj bj); [exact (Q4 j fj bj Sj Bj NI)|exact (alike_bottom _ _ _ _ Q3 Bj)|exact NI].
      + intros g2 qs H. destruct (result g' x y) as [[g1 q]|] eqn:C; [|discriminate]. cbn [bind] in H. destruct (P2 _ _ eq_refl) as (h1 & H1). rewrite H1. cbn [bind]. destruct (P1 _ _ H1) as (g1' & Q1 & Q2 & Q3 & Q4). assert (g1' = g1) as -> by congruence.
        destruct (IH h1 g1 (pts ++ [q]) (alike_wf _ _ Q3 W) Q2 (alike_rests _ _ _ _ Q3 R) ND) as (_ & I2). exact (I2 _ _ H).
  Qed.

  (** programs *)
  Lemma run_snocF (acts : list (fact N)) a w : fact_run (acts ++ [a]) = Ok w -> exists w0, fact_run acts = Ok w0 /\ fact_do w0 a = Ok w.
  Proof. unfold fact_run. rewrite foldM_app. destruct (foldM fact_do acts _) as [w0|]; [|discriminate]. cbn [bind foldM]. intros H. exists w0. split; [reflexivity|]. destruct (fact_do w0 a); [exact H|discriminate]. Qed.

  Definition okw (w : fworld N) (bs : list nat) (gs : list pgen) : Prop :=
    wf (fw_heap w) /\ length bs = length (fw_heap w) /\ (forall i b, nth_error bs i = Some b -> bottom (fw_heap w) i b) /\ fw_gens w = gs /\ Forall (fun g => Forall (fun i => i < length (fw_heap w)) (pgen_ptrs g)) gs.

  Lemma bottom_app h c i b : bottom h i b -> bottom (h ++ [c]) i b.
  Proof.
    assert (NA : forall i c0, nth_error h i = Some c0 -> nth_error (h ++ [c]) i = Some c0) by (intros j c0 H; rewrite nth_error_app1; [exact H|apply nth_error_Some; congruence]).
    intros B. induction B as [i f E|i p o k b E B IH]; [eapply bt_plain; eauto|eapply bt_noise; eauto].
  Qed.
  Lemma wf_app h c : wf h -> (forall p o k, c = Noise p o k -> p < length h) -> wf (h ++ [c]).
  Proof.
    intros W C i p o k E. destruct (Nat.lt_ge_cases i (length h)) as [L|L]; [rewrite nth_error_app1 in E by exact L; exact (W _ _ _ _ E)|]. rewrite nth_error_app2 in E by exact L.
    destruct (i - length h) as [|n]; [injection E as E; specialize (C _ _ _ E); lia|destruct n; discriminate].
  Qed.
  Lemma pgenerate_alike ord h g pts box nX nY h' qs : pgenerate ord h g pts box nX nY = Ok (h', qs) -> alike h h'.
  Proof.
    unfold pgenerate. generalize (grid_indices nX nY). intros l. revert h pts. induction l as [|ij l IH]; intros h pts H; cbn [foldM fst snd] in H; [injection H as <- <-; apply alike_refl|].
    destruct (divr (bb_width box) (nZ (nX - 1))) as [dX|]; [|discriminate]. destruct (divr (bb_height box) (nZ (nY - 1))) as [dY|]; [|discriminate]. cbn [bind] in H.
    match type of H with context [presult ?a ?b ?c ?d ?e] => destruct (presult a b c d e) as [[h1 q]|] eqn:P; [|discriminate] end. cbn [bind] in H.
    apply (alike_trans _ h1); [|exact (IH _ _ H)]. destruct g as [i|i|i j]; cbn [presult] in P.
    - destruct (fcall h i _) as [[h2 v]|] eqn:C; [|discriminate]. injection P as <- <-. exact (proj1 (papply_frame _ _ _ _ _ _ C)).
    - destruct (fcall h i _) as [[h2 v]|] eqn:C; [|discriminate]. injection P as <- <-. exact (proj1 (papply_frame _ _ _ _ _ _ C)).
    - destruct (ord ij).
      + destruct (fcall h i _) as [[h2 v]|] eqn:C; [|discriminate]. cbn [bind] in P. destruct (fcall h2 j _) as [[h3 v2]|] eqn:C2; [|discriminate]. injection P as <- <-. exact (alike_trans _ _ _ (proj1 (papply_frame _ _ _ _ _ _ C)) (proj1 (papply_frame _ _ _ _ _ _ C2))).
      + destruct (fcall h j _) as [[h2 v]|] eqn:C; [|discriminate]. cbn [bind] in P. destruct (fcall h2 i _) as [[h3 v2]|] eqn:C2; [|discriminate]. injection P as <- <-. exact (alike_trans _ _ _ (proj1 (papply_frame _ _ _ _ _ _ C)) (proj1 (papply_frame _ _ _ _ _ _ C2))).
  Qed.

  Lemma gens_of_app (a b : list (fact N)) : gens_of (a ++ b) = gens_of a ++ gens_of b.
  Proof. unfold gens_of. apply flat_map_app. Qed.
  Lemma mapM_lt h l v : mapM (vgetn h) l = Ok v -> Forall (fun i => i < length h) l.
  Proof.
    revert v. induction l as [|i l IH]; intros v H; [constructor|]. cbn [mapM] in H. destruct (vgetn h i) as [c|] eqn:E; [|discriminate]. cbn [bind] in H. destruct (mapM (vgetn h) l) as [v'|] eqn:M; [|discriminate].
    apply vgetn_ok in E. constructor; [apply nth_error_Some; congruence|exact (IH _ eq_refl)].
  Qed.
  Lemma run_ok (acts : list (fact N)) w : fact_run acts = Ok w -> okw w (bottoms acts) (gens_of acts).
  Proof.
    revert w. induction acts as [|a acts IH] using rev_ind; intros w R.
    - injection R as <-. split; [intros [|i] p o k H; discriminate|]. split; [reflexivity|]. split; [intros [|i] b H; discriminate|]. split; [reflexivity|constructor].
    - apply run_snocF in R as (w0 & R & S). destruct (IH _ R) as (W & L & B & G & P). unfold bottoms. rewrite fold_left_app, gens_of_app. cbn [fold_left]. fold (bottoms acts). destruct a as [f|p o|g|k ord box nX nY]; cbn [fact_do bottoms_step gens_of flat_map] in *.
      + injection S as <-. unfold okw. cbn [fw_heap fw_gens]. rewrite !app_length, app_nil_r. cbn [length]. split; [apply wf_app; [exact W|discriminate]|]. split; [lia|]. split; [|split; [exact G|eapply Forall_impl; [|exact P]; intros g Hg; eapply Forall_impl; [|exact Hg]; cbn; intros; lia]].
        intros i b Hb. destruct (Nat.lt_ge_cases i (length (bottoms acts))) as [Li|Li]; [rewrite nth_error_app1 in Hb by exact Li; apply bottom_app; exact (B _ _ Hb)|]. rewrite nth_error_app2 in Hb by exact Li.
        destruct (i - length (bottoms acts)) as [|n] eqn:D; [|destruct n; discriminate]. injection Hb as <-. assert (i = length (fw_heap w0)) as -> by lia. rewrite L. apply (bt_plain _ _ f). rewrite nth_error_app2, Nat.sub_diag by lia. reflexivity.
      + destruct (vgetn (fw_heap w0) p) as [c|] eqn:V; [|discriminate]. cbn [bind] in S. injection S as <-. apply vgetn_ok in V. assert (Lp : p < length (fw_heap w0)) by (apply nth_error_Some; congruence).
        unfold okw. cbn [fw_heap fw_gens]. rewrite !app_length, app_nil_r. cbn [length]. split; [apply wf_app; [exact W|intros p' o' k' E; injection E as -> _ _; exact Lp]|]. split; [lia|]. split; [|split; [exact G|eapply Forall_impl; [|exact P]; intros g Hg; eapply Forall_impl; [|exact Hg]; cbn; intros; lia]].
        intros i b Hb. destruct (Nat.lt_ge_cases i (length (bottoms acts))) as [Li|Li]; [rewrite nth_error_app1 in Hb by exact Li; apply bottom_app; exact (B _ _ Hb)|]. rewrite nth_error_app2 in Hb by exact Li.
        destruct (i - length (bottoms acts)) as [|n] eqn:D; [|destruct n; discriminate]. injection Hb as <-. assert (i = length (fw_heap w0)) as -> by lia. apply (bt_noise _ _ p o 0); [rewrite nth_error_app2, Nat.sub_diag by lia; reflexivity|]. apply bottom_app. apply B. apply nth_error_nth'. lia.
      + destruct (mapM (vgetn (fw_heap w0)) (pgen_ptrs g)) as [v|] eqn:M; [|discriminate]. cbn [bind] in S. injection S as <-. unfold okw. cbn [fw_heap fw_gens]. split; [exact W|]. split; [exact L|]. split; [exact B|]. split; [rewrite G; reflexivity|]. apply Forall_app. split; [exact P|constructor; [exact (mapM_lt _ _ _ M)|constructor]].
      + destruct (vgetn (fw_gens w0) k) as [g|]; [|discriminate]. cbn [bind] in S. destruct (pgenerate ord (fw_heap w0) g [] box nX nY) as [[h qs]|] eqn:PG; [|discriminate]. cbn [bind] in S. injection S as <-. pose proof (pgenerate_alike _ _ _ _ _ _ _ _ _ PG) as A.
        unfold okw. cbn [fw_heap fw_gens]. rewrite app_nil_r, (proj1 A). split; [exact (alike_wf _ _ A W)|]. split; [exact L|]. split; [intros i b Hb; exact (alike_bottom _ _ _ _ A (B _ _ Hb))|]. split; assumption.
  Qed.

  Lemma rests_of (acts : list (fact N)) w g : fact_run acts = Ok w -> In g (gens_of acts) -> rests (fw_heap w) g (rests_on acts g).
  Proof.
    intros R Hin. destruct (run_ok _ _ R) as (W & L & B & G & P). rewrite Forall_forall in P. specialize (P _ Hin). unfold rests, rests_on. revert P. generalize (pgen_ptrs g). intros l P. induction P as [|i l Hi P IH]; cbn [map]; constructor; [|exact IH].
    apply B. apply nth_error_nth'. lia.
  Qed.
  Lemma same_ex (acts : list (fact N)) w g : fact_run acts = Ok w -> In g (gens_of acts) -> exists g1, same_gen (fw_heap w) g g1.
  Proof.
    intros R Hin. destruct (run_ok _ _ R) as (W & L & B & G & P). rewrite Forall_forall in P. specialize (P _ Hin). destruct g as [i|i|i j]; cbn [pgen_ptrs] in P.
    - inversion P; subst. destruct (stands_ex _ i W) as (f & S); [assumption|]. exists (GX f). exact S.
    - inversion P; subst. destruct (stands_ex _ i W) as (f & S); [assumption|]. exists (GY f). exact S.
    - inversion P as [|? ? Pi P']; subst. inversion P' as [|? ? Pj P'']; subst. destruct (stands_ex _ i W Pi) as (f & S). destruct (stands_ex _ j W Pj) as (f' & S'). exists (GBoth f f'). split; assumption.
  Qed.

  (** a generator on functors of its own gives the points of the model without pointers *)
  Lemma unshared (acts : list (fact N)) w k g ord box nX nY : fact_run acts = Ok w -> nth_error (gens_of acts) k = Some g -> NoDup (rests_on acts g) ->
    exists g1, same_gen (fw_heap w) g g1 /\
    (forall w', fact_do w (Generate k ord box nX nY) = Ok w' -> exists g2 qs, generate g1 [] box nX nY = Ok (g2, qs) /\ fw_out w' = fw_out w ++ [qs] /\ same_gen (fw_heap w') g g2 /\
       (forall i f b, stands_for (fw_heap w) i f -> nth_error (bottoms acts) i = Some b -> ~ In b (rests_on acts g) -> stands_for (fw_heap w') i f)) /\
    (forall g2 qs, generate g1 [] box nX nY = Ok (g2, qs) -> exists w', fact_do w (Generate k ord box nX nY) = Ok w').
  Proof.
    intros R K ND. pose proof (nth_error_In _ _ K) as Hin. destruct (run_ok _ _ R) as (W & L & B & G & P). destruct (same_ex _ _ _ R Hin) as (g1 & SG). exists g1. split; [exact SG|].
    destruct (pgenerate_same ord (fw_heap w) g g1 (rests_on acts g) [] box nX nY W SG (rests_of _ _ _ R Hin) ND) as (A1 & A2). cbn [fact_do]. rewrite G. apply vgetn_ok in K. rewrite K. cbn [bind]. split.
    - intros w' H. destruct (pgenerate ord (fw_heap w) g [] box nX nY) as [[h qs]|]; [|discriminate]. cbn [bind] in H. injection H as <-. destruct (A1 _ _ eq_refl) as (g2 & Q1 & Q2 & Q3 & Q4). exists g2, qs. split; [exact Q1|]. split; [reflexivity|]. split; [exact Q2|].
      intros i f b S Hb NI. exact (Q4 i f b S (B _ _ Hb) NI).
    - intros g2 qs H. destruct (A2 _ _ H) as (h' & ->). cbn [bind]. eauto.
  Qed.

  (** a generator with one displacing functor for both coordinates *)
  Local Open Scope num_scope.
  Lemma displaced_both (acts : list (fact N)) w k p d alt ord box nX nY w' : fact_run acts = Ok w -> nth_error (gens_of acts) k = Some (PBoth p p) -> nth_error (fw_heap w) p = Some (Plain (FDisplace d alt)) ->
    fact_do w (Generate k ord box nX nY) = Ok w' ->
    exists qs, fw_out w' = fw_out w ++ [qs] /\ fw_heap w' = fw_heap w /\
      Forall2 (fun ij q => exists x y, place box nX nY ij = Some (x, y) /\ q = if Bool.eqb (ord ij) alt then mkP x (y + d / nZ 2) else mkP (x + d / nZ 2) y) (grid_indices nX nY) qs.
  Proof.
    intros R K E H. destruct (run_ok _ _ R) as (W & L & B & G & P). cbn [fact_do] in H. rewrite G, (proj2 (vgetn_ok _ _ _) K) in H. cbn [bind] in H.
    destruct (pgenerate ord (fw_heap w) (PBoth p p) [] box nX nY) as [[h qs]|] eqn:PG; [|discriminate]. cbn [bind] in H. injection H as <-. cbn [fw_out fw_heap]. exists qs. split; [reflexivity|]. clear K P G R L B W.
    revert PG. unfold pgenerate. generalize (grid_indices nX nY). intros l PG.
    assert (X : forall l0 h0 pts, h0 = fw_heap w -> foldM (fun (st : list fobj * list (Point N)) (ij : Z * Z) =>
      dX <- divr (bb_width box) (nZ (nX - 1)) ;; dY <- divr (bb_height box) (nZ (nY - 1)) ;;
      '(h', q) <- presult (ord ij) (fst st) (PBoth p p) (bb_xMin box + nZ (snd ij) * dX) (bb_yMin box + nZ (fst ij) * dY) ;; Ok (h', snd st ++ [q])) l0 (h0, pts) = Ok (h, qs) ->
      h = fw_heap w /\ exists qs', qs = pts ++ qs' /\ Forall2 (fun ij q => exists x y, place box nX nY ij = Some (x, y) /\ q = if Bool.eqb (ord ij) alt then mkP x (y + d / nZ 2) else mkP (x + d / nZ 2) y) l0 qs').
    { intros l0. induction l0 as [|ij l0 IH]; intros h0 pts Hh F; cbn [foldM fst snd] in F; [injection F as <- <-; split; [exact Hh|exists []; split; [rewrite app_nil_r; reflexivity|constructor]]|].
      destruct (divr (bb_width box) (nZ (nX - 1))) as [dX|] eqn:EX; [|discriminate]. destruct (divr (bb_height box) (nZ (nY - 1))) as [dY|] eqn:EY; [|discriminate]. cbn [bind] in F.
      set (x := bb_xMin box + nZ (snd ij) * dX) in *. set (y := bb_yMin box + nZ (fst ij) * dY) in *.
      assert (PR : presult (ord ij) h0 (PBoth p p) x y = Ok (h0, if Bool.eqb (ord ij) alt then mkP x (y + d / nZ 2) else mkP (x + d / nZ 2) y)).
      { subst h0. unfold presult, fcall. cbn [papply]. rewrite (proj2 (vgetn_ok _ _ _) E). cbn [bind apply].
        assert (E2 : forall c, vgetn (put p c (fw_heap w)) p = Ok c) by (intros c; apply vgetn_ok; rewrite putn, Nat.eqb_refl, E; reflexivity).
        assert (E3 : forall c, put p (Plain (FDisplace d (negb (negb alt)))) (put p c (fw_heap w)) = fw_heap w).
        { intros c. rewrite negb_involutive. clear - E. revert p E. induction (fw_heap w) as [|a l IH]; intros [|p] E; cbn in *; try discriminate; [congruence|]. rewrite IH by exact E. reflexivity. }
        destruct (ord ij); cbn [bind]; rewrite E2; cbn [bind apply]; rewrite E3; destruct alt; reflexivity. }
      rewrite PR in F. cbn [bind] in F. destruct (IH _ _ Hh F) as (Q1 & qs' & Q2 & Q3). split; [exact Q1|]. eexists (_ :: qs'). split; [rewrite Q2, <- app_assoc; reflexivity|]. constructor; [|exact Q3].
      exists x, y. split; [unfold place; rewrite EX, EY; reflexivity|reflexivity]. }
    destruct (X l (fw_heap w) [] eq_refl PG) as (Q1 & qs' & Q2 & Q3). split; [exact Q1|]. cbn [app] in Q2. subst qs'. exact Q3.
  Qed.

  (** functors without state can be shared *)
  Lemma stateless_both (acts : list (fact N)) w k p (f : functor N) ord box nX nY : fact_run acts = Ok w -> nth_error (gens_of acts) k = Some (PBoth p p) -> nth_error (fw_heap w) p = Some (Plain f) ->
    (exists g, f = FPure g) \/ (exists d, f = FUniform d) ->
    (forall w', fact_do w (Generate k ord box nX nY) = Ok w' -> exists g2 qs, generate (GBoth f f) [] box nX nY = Ok (g2, qs) /\ fw_out w' = fw_out w ++ [qs] /\ fw_heap w' = fw_heap w) /\
    (forall g2 qs, generate (GBoth f f) [] box nX nY = Ok (g2, qs) -> exists w', fact_do w (Generate k ord box nX nY) = Ok w').
  Proof.
    intros R K E SL. destruct (run_ok _ _ R) as (W & L & B & G & P). cbn [fact_do]. rewrite G, (proj2 (vgetn_ok _ _ _) K). cbn [bind].
    assert (PF : exists u, forall x, apply f x = Ok (f, u x)) by (destruct SL as [(g & ->)|(d & ->)]; cbn [apply]; [exists g|exists (fun x => x * d)]; reflexivity). destruct PF as (u & PF).
    assert (PI : put p (Plain f) (fw_heap w) = fw_heap w). { clear - E. revert p E. induction (fw_heap w) as [|a l IH]; intros [|p] E; cbn in *; try discriminate; [congruence|]. rewrite IH by exact E. reflexivity. }
    assert (FC : forall x, fcall (fw_heap w) p x = Ok (fw_heap w, u x)) by (intros x; unfold fcall; cbn [papply]; rewrite (proj2 (vgetn_ok _ _ _) E); cbn [bind]; rewrite PF; cbn [bind]; rewrite PI; reflexivity).
    assert (X : forall pts, match pgenerate ord (fw_heap w) (PBoth p p) pts box nX nY, generate (GBoth f f) pts box nX nY with
      | Ok (h, qs), Ok (g2, qs') => h = fw_heap w /\ qs = qs' | Err _, Err _ => True | _, _ => False end).
    { unfold pgenerate, generate. generalize (grid_indices nX nY). intros l. induction l as [|ij l IH]; intros pts; cbn [foldM fst snd]; [split; reflexivity|].
      destruct (divr (bb_width box) (nZ (nX - 1))) as [dX|]; [|exact I]. destruct (divr (bb_height box) (nZ (nY - 1))) as [dY|]; [|exact I]. cbn [bind]. unfold presult, result.
      assert (Q : forall x y, (if ord ij then '(h1, vx) <- fcall (fw_heap w) p x;; '(h2, vy) <- fcall h1 p y;; Ok (h2, mkP vx vy) else '(h1, vy) <- fcall (fw_heap w) p y;; '(h2, vx) <- fcall h1 p x;; Ok (h2, mkP vx vy)) = Ok (fw_heap w, mkP (u x) (u y))).
      { intros x y. destruct (ord ij); rewrite FC; cbn [bind]; rewrite FC; reflexivity. }
      rewrite Q, !PF. cbn [bind]. apply IH. }
    specialize (X []). destruct (pgenerate ord (fw_heap w) (PBoth p p) [] box nX nY) as [[h qs]|], (generate (GBoth f f) [] box nX nY) as [[g2 qs']|]; try contradiction; cbn [bind]; split; try (intros; discriminate).
    - intros w' H. injection H as <-. destruct X as [-> ->]. eauto.
    - eauto.
  Qed.
End F.
