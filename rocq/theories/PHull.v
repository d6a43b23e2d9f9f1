(** Proofs about the convex hull chains and the rotating calipers (C27, C28). *)
From Coq Require Import Reals Lra Psatz Permutation.
From Verif Require Import Base Spec MUtil MGeom MHull MPolygon Bridge PUtil PPoint PPoly PPoly2 PContains.
Local Open Scope R_scope.

(** * Vectors pointing to the right *)
Definition fwd (v : pt) : Prop := 0 < fst v \/ (fst v = 0 /\ 0 <= snd v).
Lemma lex_fwd a b : lex_le a b <-> fwd (vsub b a).
Proof. unfold lex_le, fwd, vsub. cbn [fst snd]. split; intros [H|[H1 H2]]; try (left; lra); right; split; lra. Qed.
Lemma lex_refl a : lex_le a a.
Proof. unfold lex_le. lra. Qed.
Lemma lex_trans a b c : lex_le a b -> lex_le b c -> lex_le a c.
Proof. unfold lex_le. lra. Qed.
Lemma lex_total a b : lex_le a b \/ lex_le b a.
Proof. unfold lex_le. destruct (Rtotal_order (fst a) (fst b)) as [|[|]]; destruct (Rle_dec (snd a) (snd b)); lra. Qed.
Lemma lex_antisym a b : lex_le a b -> lex_le b a -> a = b.
Proof. unfold lex_le. destruct a, b; cbn. intros. f_equal; lra. Qed.

Lemma cross_trans u v w : fwd u -> fwd v -> fwd w -> (fst v <> 0 \/ snd v <> 0) ->
  0 <= vcross u v -> 0 <= vcross v w -> 0 <= vcross u w.
Proof.
  unfold fwd, vcross. destruct u as [ux uy], v as [vx vy], w as [wx wy]. cbn [fst snd]. intros Hu Hv Hw Hn H1 H2.
  destruct Hv as [Hv|[Hv Hv']].
  - assert (E : vx * (ux * wy - uy * wx) = ux * (vx * wy - vy * wx) + wx * (ux * vy - uy * vx)) by ring.
    assert (0 <= ux) by lra. assert (0 <= wx) by lra. nra.
  - subst vx. assert (0 < vy) by lra. destruct Hw as [Hw|[Hw Hw']]; [nra|]. subst wx. destruct Hu as [Hu|[Hu Hu']]; nra.
Qed.
Lemma cross_trans_s s u v w : s = 1 \/ s = -1 -> fwd u -> fwd v -> fwd w -> (fst v <> 0 \/ snd v <> 0) ->
  0 <= s * vcross u v -> 0 <= s * vcross v w -> 0 <= s * vcross u w.
Proof.
  intros [-> | ->] Hu Hv Hw Hn H1 H2.
  - rewrite Rmult_1_l in *. exact (cross_trans u v w Hu Hv Hw Hn H1 H2).
  - assert (E : forall a b, -1 * vcross a b = vcross b a) by (intros; unfold vcross; ring). rewrite E in *.
    exact (cross_trans w v u Hw Hv Hu Hn H2 H1).
Qed.
Lemma strict_nonzero s a b c : s * orient a b c < 0 -> fst (vsub b a) <> 0 \/ snd (vsub b a) <> 0.
Proof.
  unfold orient, vcross, vsub. cbn [fst snd]. intros H. destruct (Req_dec (fst b - fst a) 0) as [E|E]; [|left; exact E].
  right. intros E'. rewrite E, E' in H. nra.
Qed.

(** * The stack algorithm on coordinates *)
Fixpoint pop (s : R) (p : pt) (st : list pt) : list pt :=
  match st with
  | b :: ((a :: _) as r) => if Rleb 0 (s * orient a b p) then pop s p r else st
  | _ => st
  end.
Definition stack (s : R) (l : list pt) : list pt := fold_left (fun st p => p :: pop s p st) l [].

Fixpoint turns (s : R) (st : list pt) : Prop :=
  match st with
  | c :: r => match r with b :: a :: _ => s * orient a b c < 0 | _ => True end /\ turns s r
  | [] => True
  end.
(** edges of the stack are directed to the right and have no point of [Q] beyond; the bottom is first *)
Fixpoint under (s : R) (Q : list pt) (st : list pt) : Prop :=
  match st with
  | b :: r => match r with
              | a :: _ => lex_le a b /\ forall q, In q Q -> s * orient a b q <= 0
              | [] => forall q, In q Q -> lex_le b q
              end /\ under s Q r
  | [] => True
  end.

Section Step.
  Variable s : R.
  Hypothesis Hs : s = 1 \/ s = -1.

  Lemma turn_extends p st : turns s (p :: st) -> (forall q, In q st -> lex_le q p) -> under s [] st ->
    under s [p] st.
  Proof.
    revert p. induction st as [|b r IH]; intros p HT HL HU; [exact I|].
    destruct HU as [HU1 HU2]. destruct r as [|a r'].
    - split; [|exact I]. intros q [<-|[]]. apply HL. left. reflexivity.
    - destruct HT as [HT1 HT2]. cbn [under] in HU1. destruct HU1 as [Hab _]. split.
      + split; [exact Hab|]. intros q [<-|[]]. lra.
      + apply IH; [|intros q Hq; apply HL; right; exact Hq|exact HU2].
        split; [|exact (proj2 HT2)]. destruct r' as [|a' r'']; [exact I|].
        destruct HT2 as [HT2 _]. destruct HU2 as [[Ha' _] _].
        assert (H : 0 <= s * vcross (vsub p b) (vsub a a')).
        { apply (cross_trans_s s (vsub p b) (vsub b a) (vsub a a') Hs).
          - apply lex_fwd, HL. left. reflexivity.
          - apply lex_fwd, Hab.
          - apply lex_fwd, Ha'.
          - exact (strict_nonzero s a b p HT1).
          - unfold orient, vcross, vsub in *. cbn [fst snd] in *. nra.
          - unfold orient, vcross, vsub in *. cbn [fst snd] in *. nra. }
        unfold orient, vcross, vsub in *. cbn [fst snd] in *. nra.
  Qed.

  Variable Q : list pt.
  Variable p : pt.
  Hypothesis Hp : forall q, In q Q -> lex_le q p.

  Lemma pop_good : forall st, turns s st -> under s Q st -> incl st Q -> st <> [] ->
    (forall b r, st = b :: r -> forall q, In q Q -> lex_le b q -> s * orient b p q <= 0) ->
    turns s (p :: pop s p st) /\ under s Q (pop s p st) /\ incl (pop s p st) st /\
    exists b r, pop s p st = b :: r /\ forall q, In q Q -> s * orient b p q <= 0.
  Proof.
    induction st as [|b r IH]; intros HT HU HI Hn HJ; [congruence|]. clear Hn.
    assert (HbQ : In b Q) by (apply HI; left; reflexivity).
    destruct r as [|a r'].
    - cbn [pop]. split; [split; [exact I|exact HT]|]. split; [exact HU|]. split; [apply incl_refl|].
      exists b, []. split; [reflexivity|]. intros q Hq. apply (HJ b [] eq_refl q Hq). apply (proj1 HU q Hq).
    - cbn [pop]. destruct HT as [HT1 HT2]. destruct HU as [[Hab HE] HU2]. destruct (Rleb_spec 0 (s * orient a b p)) as [Hpop|Hkeep].
      + destruct (IH HT2 HU2) as (R1 & R2 & R3 & R4).
        * intros x Hx. apply HI. right. exact Hx.
        * discriminate.
        * intros b0 r0 [= <- <-] q Hq Haq.
          destruct (lex_total b q) as [Hbq|Hqb].
          -- specialize (HJ b _ eq_refl q Hq Hbq). specialize (HE q Hq). unfold orient, vcross, vsub in *. cbn [fst snd] in *. nra.
          -- destruct (Req_dec (fst (vsub b a)) 0) as [E1|E1]; [destruct (Req_dec (snd (vsub b a)) 0) as [E2|E2]|].
             ++ assert (a = b). { destruct a, b. unfold vsub in E1, E2. cbn in E1, E2. f_equal; lra. } subst b.
                apply (HJ a _ eq_refl q Hq Haq).
             ++ assert (H : 0 <= s * vcross (vsub q a) (vsub p a)).
                { apply (cross_trans_s s _ (vsub b a) _ Hs); [apply lex_fwd, Haq|apply lex_fwd, Hab| |right; exact E2| |exact Hpop].
                  - apply lex_fwd. eapply lex_trans; [exact Hab|apply Hp; exact HbQ].
                  - specialize (HE q Hq). unfold orient, vcross, vsub in *. cbn [fst snd] in *. nra. }
                unfold orient, vcross, vsub in *. cbn [fst snd] in *. nra.
             ++ assert (H : 0 <= s * vcross (vsub q a) (vsub p a)).
                { apply (cross_trans_s s _ (vsub b a) _ Hs); [apply lex_fwd, Haq|apply lex_fwd, Hab| |left; exact E1| |exact Hpop].
                  - apply lex_fwd. eapply lex_trans; [exact Hab|apply Hp; exact HbQ].
                  - specialize (HE q Hq). unfold orient, vcross, vsub in *. cbn [fst snd] in *. nra. }
                unfold orient, vcross, vsub in *. cbn [fst snd] in *. nra.
        * split; [exact R1|]. split; [exact R2|]. split; [|exact R4]. intros x Hx. right. apply R3, Hx.
      + apply Rnot_le_lt in Hkeep. split; [split; [exact Hkeep|split; assumption]|]. split; [split; [split; assumption|exact HU2]|]. split; [apply incl_refl|].
        exists b, (a :: r'). split; [reflexivity|]. intros q Hq. destruct (lex_total b q) as [Hbq|Hqb]; [exact (HJ b _ eq_refl q Hq Hbq)|].
        assert (H : 0 <= s * vcross (vsub p b) (vsub b q)).
        { apply (cross_trans_s s _ (vsub b a) _ Hs); [apply lex_fwd, Hp, HbQ|apply lex_fwd, Hab|apply lex_fwd, Hqb| | |].
          - exact (strict_nonzero s a b p Hkeep).
          - unfold orient, vcross, vsub in *. cbn [fst snd] in *. nra.
          - specialize (HE q Hq). unfold orient, vcross, vsub in *. cbn [fst snd] in *. nra. }
        unfold orient, vcross, vsub in *. cbn [fst snd] in *. nra.
  Qed.
End Step.

(** * The chains *)
Section Chain.
  Variable s : R.
  Hypothesis Hs : s = 1 \/ s = -1.
  Definition state_ok (Q st : list pt) : Prop :=
    turns s st /\ under s Q st /\ incl st Q /\ exists b r, st = b :: r /\ forall q, In q Q -> lex_le q b.

  Lemma under_app Q1 Q2 st : under s Q1 st -> under s Q2 st -> under s (Q1 ++ Q2) st.
  Proof.
    induction st as [|b [|a r] IH]; intros H1 H2; [exact I| |].
    - split; [|exact I]. intros q Hq. apply in_app_or in Hq as [Hq|Hq]; [apply H1, Hq|apply H2, Hq].
    - destruct H1 as [[L1 E1] H1], H2 as [[L2 E2] H2]. split; [|apply IH; assumption].
      split; [exact L1|]. intros q Hq. apply in_app_or in Hq as [Hq|Hq]; [apply E1, Hq|apply E2, Hq].
  Qed.
  Lemma under_incl Q1 Q2 st : incl Q2 Q1 -> under s Q1 st -> under s Q2 st.
  Proof.
    intros HI. induction st as [|b [|a r] IH]; intros H1; [exact I| |].
    - split; [|exact I]. intros q Hq. apply H1, HI, Hq.
    - destruct H1 as [[L1 E1] H1]. split; [|apply IH; assumption]. split; [exact L1|]. intros q Hq. apply E1, HI, Hq.
  Qed.

  Lemma step_ok Q st p : state_ok Q st -> (forall q, In q Q -> lex_le q p) -> state_ok (Q ++ [p]) (p :: pop s p st).
  Proof.
    intros (HT & HU & HI & b & r & E & HL) Hp.
    destruct (pop_good s Hs Q p Hp st HT HU HI) as (R1 & R2 & R3 & b' & r' & E' & R4).
    - rewrite E. discriminate.
    - intros b0 r0 E0 q Hq Hbq. rewrite E in E0. injection E0 as <- <-.
      rewrite (lex_antisym _ _ Hbq (HL q Hq)). unfold orient, vcross, vsub. cbn [fst snd]. nra.
    - assert (HL' : forall q, In q (pop s p st) -> lex_le q p) by (intros q Hq; apply Hp, HI, R3, Hq).
      split; [exact R1|]. split; [|split].
      + pose proof (under_app _ _ _ R2 (turn_extends s Hs p _ R1 HL' (under_incl Q [] _ (fun x (H : In x []) => match H with end) R2))) as HU'.
        rewrite E' in *. split; [|exact HU']. split; [apply HL'; left; reflexivity|].
        intros q Hq. apply in_app_or in Hq as [Hq|[<-|[]]]; [apply R4, Hq|]. unfold orient, vcross, vsub. cbn [fst snd]. nra.
      + intros x [<-|Hx]; apply in_or_app; [right; left; reflexivity|left; apply HI, R3, Hx].
      + exists p, (pop s p st). split; [reflexivity|]. intros q Hq. apply in_app_or in Hq as [Hq|[<-|[]]]; [apply Hp, Hq|apply lex_refl].
  Qed.

  Fixpoint sorted (l : list pt) : Prop := match l with a :: l' => (forall q, In q l' -> lex_le a q) /\ sorted l' | [] => True end.

  Lemma steps_ok l : forall Q st, state_ok Q st -> (forall q x, In q Q -> In x l -> lex_le q x) -> sorted l ->
    state_ok (Q ++ l) (fold_left (fun st p => p :: pop s p st) l st).
  Proof.
    induction l as [|p l IH]; intros Q st H HQ HS; [rewrite app_nil_r; exact H|].
    cbn [fold_left]. change (p :: l) with ([p] ++ l). rewrite app_assoc. destruct HS as [HS1 HS2]. apply IH.
    - apply step_ok; [exact H|]. intros q Hq. apply HQ; [exact Hq|left; reflexivity].
    - intros q x Hq Hx. apply in_app_or in Hq as [Hq|[<-|[]]]; [apply HQ; [exact Hq|right; exact Hx]|apply HS1, Hx].
    - exact HS2.
  Qed.
  Lemma stack_ok l : l <> [] -> sorted l -> state_ok l (stack s l).
  Proof.
    destruct l as [|p l]; intros Hn HS; [congruence|]. destruct HS as [HS1 HS2]. unfold stack. cbn [fold_left pop].
    change (p :: l) with ([p] ++ l). apply steps_ok; [|intros q x [<-|[]] Hx; apply HS1, Hx|exact HS2].
    split; [split; exact I|]. split; [split; [|exact I]; intros q [<-|[]]; apply lex_refl|]. split; [apply incl_refl|].
    exists p, []. split; [reflexivity|]. intros q [<-|[]]. apply lex_refl.
  Qed.

  (** ** reading the stack from the bottom *)
  Lemma pairs_snoc {A} (l : list A) a b : pairs ((l ++ [a]) ++ [b]) = pairs (l ++ [a]) ++ [(a, b)].
  Proof.
    induction l as [|x [|y l] IH]; [reflexivity|reflexivity|]. 
    change ((x, y) :: pairs (((y :: l) ++ [a]) ++ [b]) = (x, y) :: pairs ((y :: l) ++ [a]) ++ [(a, b)]). rewrite IH. reflexivity.
  Qed.
  Lemma under_pairs Q st : under s Q st -> forall a b, In (a, b) (pairs (rev st)) -> lex_le a b /\ forall q, In q Q -> s * orient a b q <= 0.
  Proof.
    induction st as [|c [|d r] IH]; intros HU a b H; [destruct H|destruct H|].
    cbn [rev] in H. rewrite pairs_snoc in H. apply in_app_or in H as [H|[[= <- <-]|[]]]; [apply IH; [apply HU|exact H]|apply HU].
  Qed.
  Lemma turns_nth st : turns s st -> forall i a b c, nth_error (rev st) i = Some a -> nth_error (rev st) (i + 1) = Some b ->
    nth_error (rev st) (i + 2) = Some c -> s * orient a b c < 0.
  Proof.
    induction st as [|z r IH]; intros HT i a b c Ha Hb Hc; [destruct i; discriminate|].
    cbn [rev] in *. destruct HT as [HT1 HT2].
    assert (HL : (i + 2 < length (rev r ++ [z]))%nat) by (apply nth_error_Some; congruence).
    rewrite app_length, rev_length in HL. cbn in HL.
    rewrite nth_error_app1 in Ha by (rewrite rev_length; lia). rewrite nth_error_app1 in Hb by (rewrite rev_length; lia).
    destruct (Nat.eq_dec (i + 2) (length r)) as [E|E].
    - rewrite nth_error_app2 in Hc by (rewrite rev_length; lia). rewrite rev_length, E, Nat.sub_diag in Hc. injection Hc as <-.
      destruct r as [|y [|x r']]; [cbn in E; lia|cbn in E; lia|]. cbn [length] in E. cbn [rev] in Ha, Hb. rewrite <- app_assoc in Ha, Hb.
      rewrite nth_error_app2 in Ha by (rewrite rev_length; lia). rewrite nth_error_app2 in Hb by (rewrite rev_length; lia).
      rewrite rev_length in Ha, Hb. replace (i - length r')%nat with 0%nat in Ha by lia. replace (i + 1 - length r')%nat with 1%nat in Hb by lia.
      cbn in Ha, Hb. injection Ha as <-. injection Hb as <-. exact HT1.
    - rewrite nth_error_app1 in Hc by (rewrite rev_length; lia). exact (IH HT2 i a b c Ha Hb Hc).
  Qed.
  Lemma under_first Q st : under s Q st -> st <> [] -> exists f, hd_error (rev st) = Some f /\ forall q, In q Q -> lex_le f q.
  Proof.
    induction st as [|b [|a r] IH]; intros HU Hn; [congruence| |].
    - exists b. split; [reflexivity|]. apply HU.
    - destruct IH as (f & E & H); [apply HU|discriminate|]. exists f. split; [|exact H]. cbn [rev] in *.
      destruct (rev r ++ [a]); [discriminate|exact E].
  Qed.

  Lemma pairs_in {A} (l : list A) a b : In (a, b) (pairs l) -> exists i, nth_error l i = Some a /\ nth_error l (i + 1) = Some b.
  Proof.
    induction l as [|x [|y l] IH]; intros H; [destruct H|destruct H|]. destruct H as [[= <- <-]|H].
    - exists 0%nat. split; reflexivity.
    - destruct (IH H) as (i & E1 & E2). exists (S i). split; assumption.
  Qed.
  Lemma orient_same s' a c : s' * orient a a c = 0.
  Proof. unfold orient, vcross, vsub. cbn. ring. Qed.
  Lemma orient_same2 s' a c : s' * orient a c c = 0.
  Proof. unfold orient, vcross, vsub. cbn. ring. Qed.

  Lemma chain_correct Q st : state_ok Q st -> hull_chain s Q (rev st).
  Proof.
    intros (HT & HU & HI & b & r & E & HL). assert (Hn : st <> []) by (rewrite E; discriminate).
    destruct (under_first Q st HU Hn) as (f & Ef & Hf).
    split; [intros x Hx; apply HI; apply in_rev; exact Hx|]. split; [exists f; auto|].
    split; [exists b; rewrite rev_involutive, E; auto|]. split; [|split].
    - intros x y Hxy. split; [apply (under_pairs Q st HU x y Hxy)|]. intros (q & q' & Hq & Hq' & Hne) <-.
      destruct (pairs_in _ _ _ Hxy) as (i & E1 & E2).
      destruct (nth_error (rev st) (i + 2)) as [z|] eqn:E3.
      { pose proof (turns_nth st HT i x x z E1 E2 E3) as H. rewrite orient_same in H. lra. }
      destruct i as [|i].
      + apply Hne. assert (Hx : forall q0, In q0 Q -> q0 = x).
        { intros q0 Hq0. apply nth_error_None in E3. destruct (rev st) as [|u1 [|u2 [|u3 l]]] eqn:ER; try (cbn in E1, E2; discriminate); [|cbn in E3; lia].
          cbn in E1, E2, Ef. injection E1 as ->. injection E2 as ->. injection Ef as <-.
          assert (st = [x; x]) by (rewrite <- (rev_involutive st), ER; reflexivity). rewrite E in H. injection H as -> _.
          apply lex_antisym; [apply HL, Hq0|apply Hf, Hq0]. }
        rewrite (Hx q Hq), (Hx q' Hq'). reflexivity.
      + destruct (nth_error (rev st) i) as [z|] eqn:E4.
        * replace (S i) with (i + 1)%nat in * by lia. replace (i + 1 + 1)%nat with (i + 2)%nat in * by lia.
          pose proof (turns_nth st HT i z x x E4 E1 E2) as H. rewrite orient_same2 in H. lra.
        * apply nth_error_None in E4. assert (S i < length (rev st))%nat by (apply nth_error_Some; congruence). lia.
    - intros i x y z. apply turns_nth, HT.
    - intros x y q Hxy Hq. apply (under_pairs Q st HU x y Hxy). exact Hq.
  Qed.

  (** ** a strict maximum of a direction is never popped *)
  Variable d P : pt.
  Hypothesis Hd : 0 < s * snd d.
  Lemma pop_keeps p st Q : under s Q st -> (forall q, In q st -> lex_le q p) ->
    (forall q, In q (p :: st) -> q <> P -> vdot d q < vdot d P) -> In P st -> In P (p :: pop s p st).
  Proof.
    induction st as [|b [|a r] IH]; intros HU HL HM HP; [destruct HP|right; exact HP|].
    cbn [pop]. destruct (Rleb_spec 0 (s * orient a b p)) as [Hpop|Hkeep]; [|right; exact HP].
    assert (HR : In P (a :: r) -> In P (p :: pop s p (a :: r))).
    { intros HP'. apply IH; [apply HU|intros q Hq; apply HL; right; exact Hq| |exact HP'].
      intros q [Hq|Hq]; apply HM; [left; exact Hq|right; right; exact Hq]. }
    destruct HP as [->|HP]; [|apply HR, HP].
    assert (EqDec : forall x y : pt, {x = y} + {x <> y}).
    { intros [x1 x2] [y1 y2]. destruct (Req_EM_T x1 y1); [destruct (Req_EM_T x2 y2)|]; [left; congruence|right; congruence|right; congruence]. }
    destruct (EqDec p P) as [->|HpP]; [left; reflexivity|]. destruct (EqDec a P) as [->|HaP]; [apply HR; left; reflexivity|].
    exfalso. pose proof (HM p (or_introl eq_refl) HpP) as H1. pose proof (HM a (or_intror (or_intror (or_introl eq_refl))) HaP) as H2.
    destruct HU as [[HaP' _] _]. pose proof (HL P (or_introl eq_refl)) as HPp. clear - Hs Hd H1 H2 HaP' HPp Hpop.
    unfold lex_le, vdot, orient, vcross, vsub in *. destruct d as [dx dy], P as [Px Py], p as [x y], a as [ax ay]. cbn [fst snd] in *.
    set (ex := Px - ax) in *. set (ey := Py - ay) in *. set (fx := x - Px) in *. set (fy := y - Py) in *.
    assert (D1 : 0 < dx * ex + dy * ey) by (unfold ex, ey; lra). assert (D2 : dx * fx + dy * fy < 0) by (unfold fx, fy; lra).
    assert (Hc : 0 <= s * (ex * fy - ey * fx)). { unfold ex, ey, fx, fy in *. lra. }
    assert (Hex : 0 <= ex) by (unfold ex; lra). assert (Hfx : 0 <= fx) by (unfold fx; lra).
    assert (I : ex * (dx * fx + dy * fy) - fx * (dx * ex + dy * ey) = dy * (ex * fy - ey * fx)) by ring.
    assert (HcD : 0 <= dy * (ex * fy - ey * fx)).
    { destruct Hs as [-> | ->]; nra. }
    assert (ex = 0) by nra. assert (fx = 0) by nra.
    assert (Ey : 0 <= ey) by (unfold ex, ey in *; lra). assert (Fy : 0 <= fy) by (unfold fx, fy in *; lra).
    assert (Ez : dx * ex = 0) by (replace ex with 0; ring). assert (Fz : dx * fx = 0) by (replace fx with 0; ring). nra.
  Qed.
  Lemma steps_keep l : forall Q st, state_ok Q st -> (forall q x, In q Q -> In x l -> lex_le q x) -> sorted l ->
    (forall q, In q (Q ++ l) -> q <> P -> vdot d q < vdot d P) -> In P st \/ In P l ->
    In P (fold_left (fun st p => p :: pop s p st) l st).
  Proof.
    induction l as [|p l IH]; intros Q st H HQ HS HM HP; [destruct HP as [HP|[]]; exact HP|].
    cbn [fold_left]. destruct HS as [HS1 HS2].
    assert (Hp : forall q, In q Q -> lex_le q p) by (intros q Hq; apply HQ; [exact Hq|left; reflexivity]).
    apply (IH (Q ++ [p])).
    - apply step_ok; [exact H|exact Hp].
    - intros q x Hq Hx. apply in_app_or in Hq as [Hq|[<-|[]]]; [apply HQ; [exact Hq|right; exact Hx]|apply HS1, Hx].
    - exact HS2.
    - intros q Hq. rewrite <- app_assoc in Hq. apply HM, Hq.
    - destruct HP as [HP|[->|HP]]; [left|left; left; reflexivity|right; exact HP].
      destruct H as (_ & HU & HI & _). apply (pop_keeps p st Q); [exact HU|intros q Hq; apply Hp, HI, Hq| |exact HP].
      intros q [Hq|Hq]; apply HM, in_or_app; [right; left; exact Hq|left; apply HI, Hq].
  Qed.
  Lemma stack_keeps l : sorted l -> (forall q, In q l -> q <> P -> vdot d q < vdot d P) -> In P l -> In P (stack s l).
  Proof.
    destruct l as [|p l]; intros HS HM HP; [destruct HP|]. destruct HS as [HS1 HS2]. unfold stack. cbn [fold_left pop].
    apply (steps_keep l [p]); [|intros q x [<-|[]] Hx; apply HS1, Hx|exact HS2|exact HM|destruct HP as [->|HP]; [left; left; reflexivity|right; exact HP]].
    split; [split; exact I|]. split; [split; [|exact I]; intros q [<-|[]]; apply lex_refl|]. split; [apply incl_refl|].
    exists p, []. split; [reflexivity|]. intros q [<-|[]]. apply lex_refl.
  Qed.
End Chain.

(** * The model on coordinates *)
Lemma ltb_lex (a b : Point RNum) : hull_ltb (N := RNum) a b = true -> lex_le (xy a) (xy b).
Proof. unfold hull_ltb, lex_le, xy. rnum. cbn [fst snd]. repeat rcase; intros H; try discriminate; lra. Qed.
Lemma ltb_lex' (a b : Point RNum) : hull_ltb (N := RNum) a b = false -> lex_le (xy b) (xy a).
Proof. unfold hull_ltb, lex_le, xy. rnum. cbn [fst snd]. repeat rcase; intros H; try discriminate; lra. Qed.
Lemma ins_perm (a : Point RNum) l : Permutation (hull_ins (N := RNum) a l) (a :: l).
Proof.
  induction l as [|b l IH]; [reflexivity|]. cbn [hull_ins]. destruct (hull_ltb a b); [reflexivity|].
  rewrite IH. apply perm_swap.
Qed.
Lemma ins_sorted (a : Point RNum) l : sorted (map xy l) -> sorted (map xy (hull_ins (N := RNum) a l)).
Proof.
  induction l as [|b l IH]; intros H; [split; [intros q []|exact I]|]. cbn [hull_ins]. destruct (hull_ltb a b) eqn:E.
  - cbn [map]. split; [|exact H]. intros q [<-|Hq]; [apply ltb_lex, E|]. eapply lex_trans; [apply ltb_lex, E|apply H, Hq].
  - cbn [map]. split; [|apply IH, H]. intros q Hq. apply in_map_iff in Hq as (x & <- & Hx).
    apply (Permutation_in _ (ins_perm a l)) in Hx as [<-|Hx]; [apply ltb_lex', E|apply H, in_map, Hx].
Qed.
Lemma sort_ok l : forall acc, sorted (map xy acc) ->
  let r := fold_left (fun acc (a : Point RNum) => hull_ins (N := RNum) a acc) l acc in Permutation r (acc ++ l) /\ sorted (map xy r).
Proof.
  induction l as [|a l IH]; intros acc H; [rewrite app_nil_r; split; [reflexivity|exact H]|]. cbn [fold_left].
  destruct (IH (hull_ins (N := RNum) a acc) (ins_sorted a acc H)) as [H1 H2]. split; [|exact H2].
  eapply Permutation_trans; [exact H1|]. rewrite ins_perm. cbn. apply Permutation_middle.
Qed.
Lemma hull_sort_perm (l : list (Point RNum)) : Permutation (hull_sort (N := RNum) l) l.
Proof. exact (proj1 (sort_ok l [] I)). Qed.
Lemma hull_sort_sorted (l : list (Point RNum)) : sorted (map xy (hull_sort (N := RNum) l)).
Proof. exact (proj2 (sort_ok l [] I)). Qed.

Lemma orientation_xy (a b c : Point RNum) : orientation (N := RNum) a b c = orient (xy a) (xy b) (xy c).
Proof. reflexivity. Qed.
Lemma pop_upper_xy (p : Point RNum) st : map xy (pop_upper (N := RNum) p st) = pop 1 (xy p) (map xy st).
Proof.
  induction st as [|b [|a r] IH]; [reflexivity|reflexivity|]. cbn [pop_upper map pop]. cbn [map] in IH.
  rewrite orientation_xy. rnum. destruct (Rleb_spec 0 (orient (xy a) (xy b) (xy p))), (Rleb_spec 0 (1 * orient (xy a) (xy b) (xy p))); try lra;
    [exact IH|reflexivity].
Qed.
Lemma pop_lower_xy (p : Point RNum) st : map xy (pop_lower (N := RNum) p st) = pop (-1) (xy p) (map xy st).
Proof.
  induction st as [|b [|a r] IH]; [reflexivity|reflexivity|]. cbn [pop_lower map pop]. cbn [map] in IH.
  rewrite orientation_xy. rnum. destruct (Rleb_spec (orient (xy a) (xy b) (xy p)) 0), (Rleb_spec 0 (-1 * orient (xy a) (xy b) (xy p))); try lra;
    [exact IH|reflexivity].
Qed.
Lemma chain_xy s f (l : list (Point RNum)) : (forall p st, map xy (f p st) = pop s (xy p) (map xy st)) ->
  map xy (chain f l) = rev (stack s (map xy l)).
Proof.
  intros H. unfold chain, stack. rewrite map_rev. f_equal.
  enough (G : forall st, map xy (fold_left (fun st (p : Point RNum) => p :: f p st) l st) = fold_left (fun st p => p :: pop s p st) (map xy l) (map xy st)) by apply (G []).
  induction l as [|p l IH]; intros st; [reflexivity|]. cbn [fold_left map]. rewrite IH. cbn [map]. rewrite H. reflexivity.
Qed.
Lemma hull_chain_perm s vs vs' ch : Permutation vs vs' -> hull_chain s vs ch -> hull_chain s vs' ch.
Proof.
  intros HP. assert (H1 : forall x, In x vs -> In x vs') by (intros x; apply Permutation_in, HP).
  assert (H2 : forall x, In x vs' -> In x vs) by (intros x; apply Permutation_in, Permutation_sym, HP).
  intros (A & (f & B1 & B2) & (l & C1 & C2) & D & E & F). split; [intros x Hx; apply H1, A, Hx|].
  split; [exists f; auto|]. split; [exists l; auto|]. split; [|split; auto].
  intros a b Hab. split; [apply D, Hab|]. intros (q & q' & Hq & Hq' & Hne). apply D; [exact Hab|]. exists q, q'. auto.
Qed.

Lemma pop_incl {N : Num} (f : Point N -> list (Point N) -> list (Point N)) (l : list (Point N)) :
  (forall p st, incl (f p st) st) -> incl (chain f l) l.
Proof.
  intros H. unfold chain. intros x Hx. apply in_rev in Hx.
  enough (G : forall st, incl (fold_left (fun st p => p :: f p st) l st) (st ++ l)) by (apply (G []) in Hx; exact Hx).
  clear x Hx. induction l as [|p l IH]; intros st x Hx; [rewrite app_nil_r; exact Hx|]. cbn [fold_left] in Hx. apply IH in Hx.
  apply in_app_or in Hx as [[<-|Hx]|Hx]; apply in_or_app; [right; left; reflexivity|left; apply (H p), Hx|right; right; exact Hx].
Qed.
Lemma pop_upper_incl {N : Num} (p : Point N) st : incl (pop_upper p st) st.
Proof.
  induction st as [|b [|a r] IH]; [apply incl_refl|apply incl_refl|]. cbn [pop_upper]. destruct (_ : bool); [|apply incl_refl].
  intros x Hx. right. apply IH, Hx.
Qed.
Lemma pop_lower_incl {N : Num} (p : Point N) st : incl (pop_lower p st) st.
Proof.
  induction st as [|b [|a r] IH]; [apply incl_refl|apply incl_refl|]. cbn [pop_lower]. destruct (_ : bool); [|apply incl_refl].
  intros x Hx. right. apply IH, Hx.
Qed.

Lemma convexHull_correct (pts : list (Point RNum)) : pts <> [] ->
  let (u, l) := convexHull (N := RNum) pts in
  hull_chain 1 (map xy pts) (map xy u) /\ hull_chain (-1) (map xy pts) (map xy l) /\ incl u pts /\ incl l pts.
Proof.
  intros Hn. unfold convexHull. rewrite (chain_xy 1 _ _ pop_upper_xy), (chain_xy (-1) _ _ pop_lower_xy).
  pose proof (Permutation_map xy (hull_sort_perm pts)) as HP. pose proof (hull_sort_sorted pts) as HS.
  assert (Hn' : map xy (hull_sort (N := RNum) pts) <> []).
  { intros E. rewrite E in HP. apply Permutation_nil in HP. destruct pts; [congruence|discriminate]. }
  split; [|split; [|split]].
  - apply (hull_chain_perm 1 _ _ _ HP), chain_correct, stack_ok; [left; reflexivity|exact Hn'|exact HS].
  - apply (hull_chain_perm (-1) _ _ _ HP), chain_correct, stack_ok; [right; reflexivity|exact Hn'|exact HS].
  - intros x Hx. apply (Permutation_in _ (hull_sort_perm pts)). exact (pop_incl _ _ pop_upper_incl x Hx).
  - intros x Hx. apply (Permutation_in _ (hull_sort_perm pts)). exact (pop_incl _ _ pop_lower_incl x Hx).
Qed.
Lemma hull_extreme (pts : list (Point RNum)) (d P : pt) : In P (map xy pts) ->
  (forall q, In q (map xy pts) -> q <> P -> vdot d q < vdot d P) ->
  (0 < snd d -> In P (map xy (fst (convexHull (N := RNum) pts)))) /\ (snd d < 0 -> In P (map xy (snd (convexHull (N := RNum) pts)))).
Proof.
  intros HP HM. pose proof (Permutation_map xy (hull_sort_perm pts)) as HPm. pose proof (hull_sort_sorted pts) as HS.
  unfold convexHull. cbn [fst snd]. rewrite (chain_xy 1 _ _ pop_upper_xy), (chain_xy (-1) _ _ pop_lower_xy).
  split; intros Hd; apply in_rev; rewrite rev_involutive; [apply (stack_keeps 1) with (d := d)|apply (stack_keeps (-1)) with (d := d)];
    try (left; reflexivity); try (right; reflexivity); try lra; try exact HS;
    try (intros q Hq; apply HM; exact (Permutation_in _ HPm Hq)); exact (Permutation_in _ (Permutation_sym HPm) HP).
Qed.

(** * Rotating calipers *)
Lemma calipers_total {N : Num} (u l : list (Point N)) : forall fuel i j, (i < length u)%nat -> (j < length l)%nat ->
  (length u - 1 - i + j < fuel)%nat ->
  exists prs, calipers fuel u l i j = Ok prs /\ (forall a b, In (a, b) prs -> In a u /\ In b l) /\
    ((i < length u - 1)%nat \/ (0 < j)%nat -> exists a b, nth_error u i = Some a /\ nth_error l j = Some b /\ In (a, b) prs).
Proof.
  induction fuel as [|fuel IH]; intros i j Hi Hj Hf; [lia|]. cbn [calipers].
  destruct (Nat.ltb i (length u - 1) || Nat.ltb 0 j)%bool eqn:E.
  2:{ exists []. split; [reflexivity|]. split; [intros a b []|]. intros H. apply orb_false_iff in E as [E1 E2].
      apply Nat.ltb_ge in E1, E2. lia. }
  assert (Hc : (i < length u - 1)%nat \/ (0 < j)%nat) by (apply orb_true_iff in E as [E|E]; apply Nat.ltb_lt in E; auto).
  destruct (nth_error u i) as [a|] eqn:Ea; [|apply nth_error_None in Ea; lia].
  destruct (nth_error l j) as [b|] eqn:Eb; [|apply nth_error_None in Eb; lia].
  unfold vgetn at 1 2. rewrite Ea, Eb. cbn [bind].
  assert (Hnext : exists i' j', (i' < length u)%nat /\ (j' < length l)%nat /\ (length u - 1 - i' + j' < fuel)%nat /\
    (if Nat.eqb i (length u - 1) then Ok (i, j - 1)%nat
     else if Nat.eqb j 0 then Ok (i + 1, j)%nat
     else a1 <- vgetn u (i + 1) ;; b1 <- vgetn l (j - 1) ;;
          if ((py b - py b1) * (px a1 - px a) <? (py a1 - py a) * (px b - px b1))%num
          then Ok (i + 1, j)%nat else Ok (i, j - 1)%nat) = Ok (i', j')).
  { destruct (Nat.eqb_spec i (length u - 1)) as [Ei|Ei]; [exists i, (j - 1)%nat; repeat split; lia|].
    destruct (Nat.eqb_spec j 0) as [Ej|Ej]; [exists (i + 1)%nat, j; repeat split; lia|].
    unfold vgetn. destruct (nth_error u (i + 1)) as [a1|] eqn:Ea1; [|apply nth_error_None in Ea1; lia].
    destruct (nth_error l (j - 1)) as [b1|] eqn:Eb1; [|apply nth_error_None in Eb1; lia]. cbn [bind].
    destruct (_ <? _)%num; [exists (i + 1)%nat, j|exists i, (j - 1)%nat]; repeat split; lia. }
  destruct Hnext as (i' & j' & Hi' & Hj' & Hf' & ->). cbn [bind].
  destruct (IH i' j' Hi' Hj' Hf') as (prs & -> & Hin & _). cbn [bind]. exists ((a, b) :: prs). split; [reflexivity|]. split.
  - intros x y [[= <- <-]|H]; [split; eapply nth_error_In; eassumption|apply Hin, H].
  - intros _. exists a, b. repeat split; try assumption. left. reflexivity.
Qed.

Section Visit.
  Variables (u l : list (Point RNum)) (I0 J0 : nat) (a b : Point RNum).
  Hypothesis Ha : nth_error u I0 = Some a.
  Hypothesis Hb : nth_error l J0 = Some b.
  Hypothesis Hne : (I0 < length u - 1)%nat \/ (0 < J0)%nat.
  Hypothesis HA : forall j b' b1 a1, (J0 < j)%nat -> nth_error l j = Some b' -> nth_error l (j - 1) = Some b1 -> nth_error u (I0 + 1) = Some a1 ->
    0 <= vcross (vsub (xy a1) (xy a)) (vsub (xy b') (xy b1)).
  Hypothesis HB : forall i a' a1 b1, (i < I0)%nat -> (0 < J0)%nat -> nth_error u i = Some a' -> nth_error u (i + 1) = Some a1 ->
    nth_error l (J0 - 1) = Some b1 -> vcross (vsub (xy a1) (xy a')) (vsub (xy b) (xy b1)) < 0.

  Lemma visits : forall fuel i j prs, (i <= I0)%nat -> (J0 <= j)%nat -> (j < length l)%nat ->
    calipers (N := RNum) fuel u l i j = Ok prs -> In (a, b) prs.
  Proof.
    assert (HI : (I0 < length u)%nat) by (apply nth_error_Some; congruence).
    induction fuel as [|fuel IH]; intros i j prs Hi Hj Hjl E; [discriminate|]. cbn [calipers] in E.
    assert (Ec : (Nat.ltb i (length u - 1) || Nat.ltb 0 j)%bool = true).
    { apply orb_true_iff. rewrite !Nat.ltb_lt. lia. }
    rewrite Ec in E. destruct (nth_error u i) as [a'|] eqn:Ea; [|apply nth_error_None in Ea; lia].
    destruct (nth_error l j) as [b'|] eqn:Eb; [|apply nth_error_None in Eb; lia].
    unfold vgetn at 1 2 in E. rewrite Ea, Eb in E. cbn [bind] in E.
    apply bind_ok in E as ([i' j'] & E1 & E). apply bind_ok in E as (rest & E2 & E). injection E as <-.
    destruct (Nat.eq_dec i I0) as [->|Hi'].
    - destruct (Nat.eq_dec j J0) as [->|Hj'].
      + left. congruence.
      + right. rewrite Ha in Ea. injection Ea as <-.
        assert (i' = I0 /\ j' = (j - 1)%nat) as [-> ->].
        { destruct (Nat.eqb_spec I0 (length u - 1)) as [Ei|Ei]; [injection E1; auto|].
          destruct (Nat.eqb_spec j 0) as [Ej|Ej]; [lia|]. unfold vgetn in E1.
          destruct (nth_error u (I0 + 1)) as [a1|] eqn:Ea1; [|discriminate]. destruct (nth_error l (j - 1)) as [b1|] eqn:Eb1; [|discriminate].
          cbn [bind] in E1. pose proof (HA j b' b1 a1 ltac:(lia) Eb Eb1 eq_refl) as H. revert E1. rnum. rcase; intros E1; [|injection E1; auto].
          exfalso. unfold vcross, vsub, xy in H. cbn [fst snd] in H. lra. }
        apply (IH I0 (j - 1)%nat); [lia|lia|lia|exact E2].
    - right. destruct (Nat.eq_dec j J0) as [->|Hj'].
      + assert (i' = (i + 1)%nat /\ j' = J0) as [-> ->].
        { destruct (Nat.eqb_spec i (length u - 1)) as [Ei|Ei]; [lia|].
          destruct (Nat.eqb_spec J0 0) as [Ej|Ej]; [injection E1; auto|]. unfold vgetn in E1.
          destruct (nth_error u (i + 1)) as [a1|] eqn:Ea1; [|discriminate]. destruct (nth_error l (J0 - 1)) as [b1|] eqn:Eb1; [|discriminate].
          cbn [bind] in E1. rewrite Hb in Eb. injection Eb as <-.
          pose proof (HB i a' a1 b1 ltac:(lia) ltac:(lia) Ea Ea1 eq_refl) as H. revert E1. rnum. rcase; intros E1; [injection E1; auto|].
          exfalso. unfold vcross, vsub, xy in H. cbn [fst snd] in H. lra. }
        apply (IH (i + 1)%nat J0); [lia|lia|lia|exact E2].
      + assert ((i' = i /\ j' = (j - 1)%nat) \/ (i' = (i + 1)%nat /\ j' = j)) as Hs.
        { destruct (Nat.eqb i (length u - 1)); [injection E1; auto|]. destruct (Nat.eqb j 0); [injection E1; auto|].
          apply bind_ok in E1 as (a1 & _ & E1). apply bind_ok in E1 as (b1 & _ & E1).
          destruct (_ : bool); injection E1; auto. }
        apply (IH i' j'); [lia|lia|lia|exact E2].
  Qed.
End Visit.

(** ** the slopes along a chain *)
Section Slopes.
  Variable vs : list pt.
  Variable d : pt.
  Hypothesis Hd : 0 < snd d.
  Hypothesis Hdiff : exists q q', In q vs /\ In q' vs /\ q <> q'.
  Variables P Q : pt.
  Hypothesis HP : forall q, In q vs -> q <> P -> vdot d q < vdot d P.
  Hypothesis HQ : forall q, In q vs -> q <> Q -> vdot d Q < vdot d q.

  Lemma nth_pairs {A} (l : list A) i a b : nth_error l i = Some a -> nth_error l (i + 1) = Some b -> In (a, b) (pairs l).
  Proof.
    revert i. induction l as [|x [|y l] IH]; intros i Ha Hb; [destruct i; discriminate|destruct i as [|[|i]]; discriminate|].
    destruct i as [|i]; [injection Ha as <-; injection Hb as <-; left; reflexivity|right; exact (IH i Ha Hb)].
  Qed.
  Lemma edge_facts s ch i a b : hull_chain s vs ch -> nth_error ch i = Some a -> nth_error ch (i + 1) = Some b ->
    lex_le a b /\ a <> b /\ In a vs /\ In b vs.
  Proof.
    intros (H1 & _ & _ & H2 & _) Ha Hb. destruct (H2 a b (nth_pairs ch i a b Ha Hb)) as [E1 E2].
    repeat split; [exact E1|exact (E2 Hdiff)| |]; apply H1; eapply nth_error_In; eassumption.
  Qed.

  (** before the maximum of the upper chain the direction increases *)
  Lemma upper_increases ch I0 : hull_chain 1 vs ch -> nth_error ch I0 = Some P ->
    forall k i a b, (i + 1 + k = I0)%nat -> nth_error ch i = Some a -> nth_error ch (i + 1) = Some b -> 0 < vdot d (vsub b a).
  Proof.
    clear HQ Q. intros HC HPI. induction k as [|k IH]; intros i a b Hk Ha Hb.
    - destruct (edge_facts 1 ch i a b HC Ha Hb) as (HL & Hne & Hva & Hvb). replace (i + 1)%nat with I0 in Hb by lia.
      assert (b = P) by congruence. subst b. pose proof (HP a Hva Hne) as H. unfold vdot, vsub in *. cbn [fst snd]. lra.
    - destruct (nth_error ch (i + 2)) as [c|] eqn:Ec.
      2:{ apply nth_error_None in Ec. assert (I0 < length ch)%nat by (apply nth_error_Some; congruence). lia. }
      assert (Hf : 0 < vdot d (vsub c b)).
      { apply (IH (i + 1)%nat); [lia|exact Hb|]. replace (i + 1 + 1)%nat with (i + 2)%nat by lia. exact Ec. }
      destruct (edge_facts 1 ch i a b HC Ha Hb) as (HL & Hne & _).
      assert (HT : 1 * orient a b c < 0) by (apply HC with (i := i); assumption).
      destruct (edge_facts 1 ch (i + 1) b c HC Hb) as (HL2 & _); [replace (i + 1 + 1)%nat with (i + 2)%nat by lia; exact Ec|].
      apply Rnot_le_lt. intros Hle.
      assert (Hab : fst a < fst b \/ (fst a = fst b /\ snd a < snd b)).
      { unfold lex_le in HL. destruct HL as [HL|[HL1 HL2']]; [left; exact HL|right]. split; [exact HL1|].
        destruct HL2' as [H|H]; [exact H|]. exfalso. apply Hne. destruct a, b; cbn in *; congruence. }
      clear - Hd Hf Hle HT Hab HL2. unfold lex_le, vdot, vsub, orient, vcross in *. destruct a as [ax ay], b as [bx by_], c as [cx cy], d as [dx dy].
      unfold vsub in *. cbn [fst snd] in *.
      set (ex := bx - ax) in *. set (ey := by_ - ay) in *. set (fx := cx - bx) in *. set (fy := cy - by_) in *.
      assert (HT' : ex * fy - ey * fx < 0) by (unfold ex, ey, fx, fy in *; lra).
      assert (E : ex * (dx * fx + dy * fy) = fx * (dx * ex + dy * ey) + dy * (ex * fy - ey * fx)) by ring.
      assert (Hfx : 0 <= fx) by (unfold fx; lra).
      destruct Hab as [Hab|[Hab Hab']].
      + assert (0 < ex) by (unfold ex; lra). nra.
      + assert (E0 : ex = 0) by (unfold ex; lra). assert (0 < ey) by (unfold ey; lra).
        assert (dx * ex = 0) by (rewrite E0; ring). nra.
  Qed.
  Lemma lower_increases ch J0 : hull_chain (-1) vs ch -> nth_error ch J0 = Some Q ->
    forall k a b, nth_error ch (J0 + k) = Some a -> nth_error ch (J0 + k + 1) = Some b -> 0 < vdot d (vsub b a).
  Proof.
    clear HP P. intros HC HQJ. induction k as [|k IH]; intros b c Hb Hc.
    - destruct (edge_facts (-1) ch (J0 + 0) b c HC Hb Hc) as (HL & Hne & Hva & Hvb). rewrite Nat.add_0_r in Hb.
      assert (b = Q) by congruence. subst b. assert (Hne' : c <> Q) by congruence. pose proof (HQ c Hvb Hne') as H. unfold vdot, vsub in *. cbn [fst snd]. lra.
    - destruct (nth_error ch (J0 + k)) as [a|] eqn:Ea.
      2:{ apply nth_error_None in Ea. assert (J0 + S k < length ch)%nat by (apply nth_error_Some; congruence). lia. }
      replace (J0 + S k)%nat with (J0 + k + 1)%nat in * by lia.
      assert (He : 0 < vdot d (vsub b a)) by exact (IH a b eq_refl Hb).
      destruct (edge_facts (-1) ch (J0 + k) a b HC Ea Hb) as (HL & Hne & _).
      replace (J0 + k + 1 + 1)%nat with (J0 + k + 2)%nat in Hc by lia.
      assert (HT : -1 * orient a b c < 0) by (apply HC with (i := (J0 + k)%nat); assumption).
      destruct (edge_facts (-1) ch (J0 + k + 1) b c HC Hb) as (HL2 & _); [replace (J0 + k + 1 + 1)%nat with (J0 + k + 2)%nat by lia; exact Hc|].
      clear - Hd He HT HL HL2. unfold lex_le, vdot, vsub, orient, vcross in *. destruct a as [ax ay], b as [bx by_], c as [cx cy], d as [dx dy].
      unfold vsub in *. cbn [fst snd] in *.
      set (ex := bx - ax) in *. set (ey := by_ - ay) in *. set (fx := cx - bx) in *. set (fy := cy - by_) in *.
      assert (HT' : 0 < ex * fy - ey * fx) by (unfold ex, ey, fx, fy in *; lra).
      assert (E : ex * (dx * fx + dy * fy) = fx * (dx * ex + dy * ey) + dy * (ex * fy - ey * fx)) by ring.
      assert (Hfx : 0 <= fx) by (unfold fx; lra). assert (Hex : 0 <= ex) by (unfold ex; lra).
      destruct Hex as [Hex|Hex]; [nra|]. exfalso. assert (0 <= ey) by (unfold ex, ey in *; lra). nra.
  Qed.
End Slopes.

(** * The diameter *)
Lemma dist_sq a b : dist a b = sqrt (vdot (vsub a b) (vsub a b)).
Proof. reflexivity. Qed.
Lemma dist_sym a b : dist a b = dist b a.
Proof. unfold dist. f_equal. ring. Qed.
Lemma far_strict vs P Q : In Q vs -> (forall a b, In a vs -> In b vs -> vdot (vsub a b) (vsub a b) <= vdot (vsub P Q) (vsub P Q)) ->
  forall q, In q vs -> q <> P -> vdot (vsub P Q) q < vdot (vsub P Q) P.
Proof.
  intros HQ HM q Hq Hne. specialize (HM q Q Hq HQ). destruct q as [x y], P as [a b], Q as [c e]. unfold vdot, vsub in *. cbn [fst snd] in *.
  assert (H : 0 < (x - a) * (x - a) + (y - b) * (y - b)).
  { pose proof (Rle_0_sqr (x - a)) as S1. pose proof (Rle_0_sqr (y - b)) as S2. unfold Rsqr in *.
    destruct (Req_dec x a) as [Ex|Ex].
    - destruct (Req_dec y b) as [Ey|Ey]; [exfalso; apply Hne; congruence|].
      pose proof (Rlt_0_sqr (y - b) ltac:(lra)) as S. unfold Rsqr in S. lra.
    - pose proof (Rlt_0_sqr (x - a) ltac:(lra)) as S. unfold Rsqr in S. lra. }
  nra.
Qed.

Lemma stack_length s l : (2 <= length l)%nat -> (2 <= length (stack s l))%nat.
Proof.
  assert (Hp : forall p st, st <> [] -> pop s p st <> []).
  { intros p. induction st as [|b [|a r] IH]; intros H; [congruence|discriminate|]. cbn [pop]. destruct (Rleb _ _); [apply IH; discriminate|discriminate]. }
  assert (G : forall l st, st <> [] -> l <> [] -> (2 <= length (fold_left (fun st p => p :: pop s p st) l st))%nat).
  { clear l. induction l as [|p l IH]; intros st Hst Hl; [congruence|]. destruct l as [|p' l].
    - cbn. pose proof (Hp p st Hst). destruct (pop s p st); [congruence|cbn; lia].
    - change (2 <= length (fold_left (fun st p => p :: pop s p st) (p' :: l) (p :: pop s p st)))%nat. apply IH; discriminate. }
  destruct l as [|a [|b l]]; cbn [length]; intros H; [lia|lia|]. unfold stack. change (2 <= length (fold_left (fun st p => p :: pop s p st) (b :: l) [a]))%nat.
  apply G; discriminate.
Qed.
Lemma hull_lengths (pts : list (Point RNum)) : (2 <= length pts)%nat ->
  (2 <= length (fst (convexHull (N := RNum) pts)))%nat /\ (2 <= length (snd (convexHull (N := RNum) pts)))%nat.
Proof.
  intros H. unfold convexHull. cbn [fst snd].
  assert (Hl : (2 <= length (map xy (hull_sort (N := RNum) pts)))%nat) by (rewrite map_length, (Permutation_length (hull_sort_perm pts)); exact H).
  split; [rewrite <- (map_length xy), (chain_xy 1 _ _ pop_upper_xy)|rewrite <- (map_length xy), (chain_xy (-1) _ _ pop_lower_xy)];
    rewrite rev_length; apply stack_length, Hl.
Qed.

Lemma hd_nth {A} (l : list A) : hd_error l = nth_error l 0.
Proof. destruct l; reflexivity. Qed.
Lemma last_nth {A} (l : list A) : hd_error (rev l) = nth_error l (length l - 1).
Proof.
  destruct l as [|a l _] using rev_ind; [reflexivity|]. rewrite rev_app_distr, app_length. cbn [rev app hd_error length].
  rewrite nth_error_app2 by lia. replace (length l + 1 - 1 - length l)%nat with 0%nat by lia. reflexivity.
Qed.
Lemma nth_xy (l : list (Point RNum)) i p : nth_error (map xy l) i = Some p -> exists a, nth_error l i = Some a /\ xy a = p.
Proof. rewrite nth_error_map. destruct (nth_error l i) as [a|]; intros H; [|discriminate]. injection H as <-. eauto. Qed.

(** one of the pairs visited is a farthest pair *)
Lemma calipers_farthest (pts : list (Point RNum)) : (2 <= length pts)%nat ->
  exists prs, rotatingCalipers (N := RNum) pts = Ok prs /\ (forall a b, In (a, b) prs -> In a pts /\ In b pts) /\
    exists a b, In (a, b) prs /\ is_diameter (map xy pts) (dist (xy a) (xy b)).
Proof.
  intros Hlen. set (vs := map xy pts). assert (Hn : pts <> []) by (intros ->; cbn in Hlen; lia).
  pose proof (convexHull_correct pts Hn) as HC. pose proof (hull_lengths pts Hlen) as [HLu HLl].
  pose proof (hull_extreme pts) as HX.
  unfold rotatingCalipers. destruct (convexHull (N := RNum) pts) as [u l] eqn:EH. cbn [fst snd] in *. fold vs in HC, HX.
  destruct HC as (HU & HL & HIu & HIl).
  destruct u as [|u0 u']; [cbn in HLu; lia|]. set (u := u0 :: u') in *.
  destruct (calipers_total u l (length u + length l) 0 (length l - 1)) as (prs & E & Hin & Hfirst); [lia|lia|lia|].
  assert (E' : calipers (N := RNum) (length u + length l) u l 0 (length l - 1) = Ok prs) by exact E.
  exists prs. split; [exact E|]. split; [intros a b Hab; apply Hin in Hab as [Ha Hb]; split; [apply HIu, Ha|apply HIl, Hb]|].
  destruct Hfirst as (a0 & b0 & Ha0 & Hb0 & H0); [lia|].
  (* the first pair joins the extreme points of the order *)
  assert (Hmin : forall q, In q vs -> lex_le (xy a0) q).
  { destruct HU as (_ & (f & Hf & Hf') & _). rewrite hd_nth, nth_error_map, Ha0 in Hf. injection Hf as <-. exact Hf'. }
  assert (Hmax : forall q, In q vs -> lex_le q (xy b0)).
  { destruct HL as (_ & _ & (f & Hf & Hf') & _). rewrite last_nth, map_length, nth_error_map, Hb0 in Hf. injection Hf as <-. exact Hf'. }
  assert (Ia0 : In (xy a0) vs) by (apply in_map, HIu; eapply nth_error_In; exact Ha0).
  assert (Ib0 : In (xy b0) vs) by (apply in_map, HIl; eapply nth_error_In; exact Hb0).
  (* a farthest pair *)
  destruct (max_elt (fun e : pt * pt => vdot (vsub (fst e) (snd e)) (vsub (fst e) (snd e))) (list_prod vs vs)) as ([P Q] & HPQ & HM).
  { intros H. assert (In (xy a0, xy a0) []) as [] by (rewrite <- H; apply in_prod; assumption). }
  apply in_prod_iff in HPQ as [HP HQ]. cbn [fst snd] in HM.
  assert (HM' : forall a b, In a vs -> In b vs -> vdot (vsub a b) (vsub a b) <= vdot (vsub P Q) (vsub P Q)).
  { intros a b Ha Hb. apply (HM (a, b)). apply in_prod; assumption. }
  clear HM.
  assert (HDiam : is_diameter vs (dist P Q)).
  { split; [exists P, Q; auto|]. intros a b Ha Hb. rewrite !dist_sq. apply sqrt_le_1_alt, HM'; assumption. }
  enough (G : exists a b, In (a, b) prs /\ dist (xy a) (xy b) = dist P Q) by (destruct G as (a & b & Hab & ED); exists a, b; rewrite ED; auto).
  assert (Main : forall P Q, In P vs -> In Q vs -> P <> Q ->
    (forall a b, In a vs -> In b vs -> vdot (vsub a b) (vsub a b) <= vdot (vsub P Q) (vsub P Q)) ->
    0 < snd (vsub P Q) \/ (snd (vsub P Q) = 0 /\ 0 < fst (vsub P Q)) ->
    exists a b, In (a, b) prs /\ dist (xy a) (xy b) = dist P Q).
  { clear P Q HP HQ HM' HDiam. intros P Q HP HQ HPQ HM Hdir.
    pose proof (far_strict vs P Q HQ HM) as SP.
    assert (SQ : forall q, In q vs -> q <> Q -> vdot (vsub P Q) Q < vdot (vsub P Q) q).
    { intros q Hq Hne. assert (HM2 : forall a b, In a vs -> In b vs -> vdot (vsub a b) (vsub a b) <= vdot (vsub Q P) (vsub Q P)).
      { intros a b Ha Hb. replace (vdot (vsub Q P) (vsub Q P)) with (vdot (vsub P Q) (vsub P Q)) by (unfold vdot, vsub; cbn; ring). apply HM; assumption. }
      pose proof (far_strict vs Q P HP HM2 q Hq Hne) as H. unfold vdot, vsub in *. cbn [fst snd] in *. lra. }
    destruct Hdir as [Hd|[Hd1 Hd2]].
    - assert (PU : In P (map xy u)) by (apply (HX (vsub P Q) P HP SP); exact Hd).
      assert (QL : In Q (map xy l)).
      { apply (HX (vsub Q P) Q HQ); [|unfold vsub in *; cbn [fst snd] in *; lra].
        intros q Hq Hne. pose proof (SQ q Hq Hne) as H. unfold vdot, vsub in *. cbn [fst snd] in *. lra. }
      apply In_nth_error in PU as (I0 & EP). apply In_nth_error in QL as (J0 & EQ).
      destruct (nth_xy _ _ _ EP) as (a & Ea & HaP). destruct (nth_xy _ _ _ EQ) as (b & Eb & HbQ).
      assert (LI : (I0 < length u)%nat) by (apply nth_error_Some; congruence).
      assert (LJ : (J0 < length l)%nat) by (apply nth_error_Some; congruence).
      assert (Hdiff : exists q q', In q vs /\ In q' vs /\ q <> q') by (exists P, Q; auto).
      destruct (Nat.ltb I0 (length u - 1) || Nat.ltb 0 J0)%bool eqn:EC.
      + exists a, b. split; [|rewrite HaP, HbQ; reflexivity].
        assert (Hne : (I0 < length u - 1)%nat \/ (0 < J0)%nat) by (apply orb_true_iff in EC as [H|H]; apply Nat.ltb_lt in H; auto).
        apply (visits u l I0 J0 a b Ea Eb Hne) with (fuel := (length u + length l)%nat) (i := 0%nat) (j := (length l - 1)%nat);
          [| |lia|lia|lia|exact E'].
        * (* the lower vertex moves while the upper one has arrived *)
          intros j b' b1 a1 Hj Ebj Ebj1 Ea1.
          assert (Ebj' : nth_error (map xy l) j = Some (xy b')) by (rewrite nth_error_map, Ebj; reflexivity).
          assert (Ebj1' : nth_error (map xy l) (j - 1) = Some (xy b1)) by (rewrite nth_error_map, Ebj1; reflexivity).
          assert (Ea1' : nth_error (map xy u) (I0 + 1) = Some (xy a1)) by (rewrite nth_error_map, Ea1; reflexivity).
          assert (F : 0 < vdot (vsub P Q) (vsub (xy b') (xy b1))).
          { apply (lower_increases vs (vsub P Q) Hd Hdiff Q SQ (map xy l) J0 HL EQ (j - 1 - J0)).
            - replace (J0 + (j - 1 - J0))%nat with (j - 1)%nat by lia. exact Ebj1'.
            - replace (J0 + (j - 1 - J0) + 1)%nat with j by lia. exact Ebj'. }
          destruct (edge_facts vs Hdiff 1 (map xy u) I0 P (xy a1) HU EP Ea1') as (L1 & N1 & _ & V1).
          assert (Ebj2 : nth_error (map xy l) (j - 1 + 1) = Some (xy b')) by (replace (j - 1 + 1)%nat with j by lia; exact Ebj').
          destruct (edge_facts vs Hdiff (-1) (map xy l) (j - 1) (xy b1) (xy b') HL Ebj1' Ebj2) as (L2 & N2 & _ & _).
          pose proof (SP (xy a1) V1 (fun H => N1 (eq_sym H))) as S1. rewrite HaP.
          clear - Hd F L1 L2 S1. revert F L1 L2 S1 Hd. generalize (xy a1) (xy b') (xy b1). intros [x1 y1] [x2 y2] [x3 y3].
          destruct (vsub P Q) as [dx dy], P as [x0 y0]. unfold lex_le, vdot, vcross, vsub. cbn [fst snd]. intros F L1 L2 S1 Hd.
          set (ex := x1 - x0) in *. set (ey := y1 - y0) in *. set (fx := x2 - x3) in *. set (fy := y2 - y3) in *.
          assert (De : dx * ex + dy * ey < 0) by (unfold ex, ey; lra).
          assert (Hex : 0 <= ex) by (unfold ex; lra). assert (Hfx : 0 <= fx) by (unfold fx; lra).
          assert (I : ex * (dx * fx + dy * fy) - fx * (dx * ex + dy * ey) = dy * (ex * fy - ey * fx)) by ring.
          assert (0 <= ex * (dx * fx + dy * fy)) by (apply Rmult_le_pos; lra). assert (0 <= fx * - (dx * ex + dy * ey)) by (apply Rmult_le_pos; lra).
          apply Rmult_le_reg_l with dy; lra.
        * (* the upper vertex moves while the lower one has arrived *)
          intros i a' a1 b1 Hi HJ Eai Eai1 Ebj1.
          assert (Eai' : nth_error (map xy u) i = Some (xy a')) by (rewrite nth_error_map, Eai; reflexivity).
          assert (Eai1' : nth_error (map xy u) (i + 1) = Some (xy a1)) by (rewrite nth_error_map, Eai1; reflexivity).
          assert (Ebj1' : nth_error (map xy l) (J0 - 1) = Some (xy b1)) by (rewrite nth_error_map, Ebj1; reflexivity).
          assert (F : 0 < vdot (vsub P Q) (vsub (xy a1) (xy a'))).
          { apply (upper_increases vs (vsub P Q) Hd Hdiff P SP (map xy u) I0 HU EP (I0 - 1 - i) i); [lia|exact Eai'|exact Eai1']. }
          destruct (edge_facts vs Hdiff 1 (map xy u) i (xy a') (xy a1) HU Eai' Eai1') as (L1 & N1 & _ & _).
          assert (EQ' : nth_error (map xy l) (J0 - 1 + 1) = Some Q) by (replace (J0 - 1 + 1)%nat with J0 by lia; exact EQ).
          destruct (edge_facts vs Hdiff (-1) (map xy l) (J0 - 1) (xy b1) Q HL Ebj1' EQ') as (L2 & N2 & V2 & _).
          pose proof (SQ (xy b1) V2 N2) as S1. rewrite HbQ.
          clear - Hd F L1 L2 S1. revert F L1 L2 S1 Hd. generalize (xy a1) (xy a') (xy b1). intros [x1 y1] [x2 y2] [x3 y3].
          destruct (vsub P Q) as [dx dy], Q as [x0 y0]. unfold lex_le, vdot, vcross, vsub. cbn [fst snd]. intros F L1 L2 S1 Hd.
          set (ex := x1 - x2) in *. set (ey := y1 - y2) in *. set (fx := x0 - x3) in *. set (fy := y0 - y3) in *.
          assert (Df : dx * fx + dy * fy < 0) by (unfold fx, fy; lra).
          assert (Hex : 0 <= ex) by (unfold ex; lra). assert (Hfx : 0 <= fx) by (unfold fx; lra).
          assert (I : ex * (dx * fx + dy * fy) - fx * (dx * ex + dy * ey) = dy * (ex * fy - ey * fx)) by ring.
          assert (0 <= ex * - (dx * fx + dy * fy)) by (apply Rmult_le_pos; lra). assert (0 <= fx * (dx * ex + dy * ey)) by (apply Rmult_le_pos; lra).
          assert (Hst : 0 < ex * - (dx * fx + dy * fy) + fx * (dx * ex + dy * ey)).
          { destruct (Req_dec fx 0) as [Ef|Ef].
            - exfalso. assert (0 <= fy) by (unfold fx, fy in *; lra). assert (dx * fx = 0) by (rewrite Ef; ring). nra.
            - assert (0 < fx * (dx * ex + dy * ey)) by (apply Rmult_lt_0_compat; lra). lra. }
          apply Rmult_lt_reg_l with dy; lra.
      + (* both ends: the first pair, swapped *)
        apply orb_false_iff in EC as [EC1 EC2]. apply Nat.ltb_ge in EC1, EC2.
        exists a0, b0. split; [exact H0|].
        assert (Xb : xy b0 = P).
        { apply lex_antisym; [|apply Hmax, HP]. destruct HU as (_ & _ & (f & Hf & Hf') & _).
          rewrite last_nth, map_length in Hf. replace (length u - 1)%nat with I0 in Hf by lia. rewrite EP in Hf. injection Hf as <-. apply Hf', Ib0. }
        assert (Xa : xy a0 = Q).
        { apply lex_antisym; [apply Hmin, HQ|]. destruct HL as (_ & (f & Hf & Hf') & _).
          rewrite hd_nth in Hf. replace 0%nat with J0 in Hf by lia. rewrite EQ in Hf. injection Hf as <-. apply Hf', Ia0. }
        rewrite Xa, Xb. apply dist_sym.
    - (* the farthest pair is horizontal *)
      exists a0, b0. split; [exact H0|].
      assert (Xb : xy b0 = P).
      { destruct (Hmax P HP) as [H|[H1 H2]].
        - exfalso. assert (Hne : xy b0 <> P) by (intros Ex; rewrite Ex in H; lra). pose proof (SP _ Ib0 Hne) as S. unfold vdot in S. rewrite Hd1 in S. nra.
        - destruct (Req_dec (snd P) (snd (xy b0))) as [E2|E2]; [destruct P, (xy b0); cbn in *; congruence|].
          exfalso. assert (Hne : xy b0 <> P) by (intros Ex; rewrite Ex in E2; lra). pose proof (SP _ Ib0 Hne) as S. unfold vdot in S. rewrite Hd1, H1 in S. lra. }
      assert (Xa : xy a0 = Q).
      { destruct (Hmin Q HQ) as [H|[H1 H2]].
        - exfalso. assert (Hne : xy a0 <> Q) by (intros Ex; rewrite Ex in H; lra). pose proof (SQ _ Ia0 Hne) as S. unfold vdot in S. rewrite Hd1 in S. nra.
        - destruct (Req_dec (snd Q) (snd (xy a0))) as [E2|E2]; [destruct Q, (xy a0); cbn in *; congruence|].
          exfalso. assert (Hne : xy a0 <> Q) by (intros Ex; rewrite Ex in E2; lra). pose proof (SQ _ Ia0 Hne) as S. unfold vdot in S. rewrite Hd1, H1 in S. lra. }
      rewrite Xa, Xb. apply dist_sym. }
  destruct (Req_dec (snd (vsub P Q)) 0) as [E1|E1]; [destruct (Req_dec (fst (vsub P Q)) 0) as [E2|E2]|].
  - (* all the points coincide *)
    exists a0, b0. split; [exact H0|]. rewrite !dist_sq.
    assert (Z : vdot (vsub P Q) (vsub P Q) = 0) by (unfold vdot; rewrite E1, E2; ring). rewrite Z.
    pose proof (HM' _ _ Ia0 Ib0) as H. rewrite Z in H. f_equal. unfold vdot in *. nra.
  - assert (HPQ : P <> Q) by (intros ->; apply E2; unfold vsub; cbn; lra).
    destruct (Rlt_dec 0 (fst (vsub P Q))) as [G|G]; [apply Main; auto|].
    destruct (Main Q P HQ HP (fun H => HPQ (eq_sym H))) as (a & b & H1 & H2).
    { intros x y Hx Hy. replace (vdot (vsub Q P) (vsub Q P)) with (vdot (vsub P Q) (vsub P Q)) by (unfold vdot, vsub; cbn; ring). apply HM'; assumption. }
    { right. unfold vsub in *. cbn [fst snd] in *. lra. }
    exists a, b. split; [exact H1|]. rewrite H2. apply dist_sym.
  - assert (HPQ : P <> Q) by (intros ->; apply E1; unfold vsub; cbn; lra).
    destruct (Rlt_dec 0 (snd (vsub P Q))) as [G|G]; [apply Main; auto|].
    destruct (Main Q P HQ HP (fun H => HPQ (eq_sym H))) as (a & b & H1 & H2).
    { intros x y Hx Hy. replace (vdot (vsub Q P) (vsub Q P)) with (vdot (vsub P Q) (vsub P Q)) by (unfold vdot, vsub; cbn; ring). apply HM'; assumption. }
    { left. unfold vsub in *. cbn [fst snd] in *. lra. }
    exists a, b. split; [exact H1|]. rewrite H2. apply dist_sym.
Qed.

Lemma fold_max (prs : list (Point RNum * Point RNum)) : forall m0,
  let r := fold_left (fun mx (pr : Point RNum * Point RNum) =>
     let d := norm (N := RNum) (pt_sub (N := RNum) (fst pr) (snd pr)) in if Rltb mx d then d else mx) prs m0 in
  m0 <= r /\ (forall a b, In (a, b) prs -> dist (xy a) (xy b) <= r) /\ (r = m0 \/ exists a b, In (a, b) prs /\ r = dist (xy a) (xy b)).
Proof.
  induction prs as [|[a b] prs IH]; intros m0; [cbn; split; [lra|split; [intros a b []|left; reflexivity]]|]. cbn [fold_left fst snd].
  assert (E : norm (N := RNum) (pt_sub (N := RNum) a b) = dist (xy a) (xy b)) by reflexivity. rewrite E.
  destruct (Rltb_spec m0 (dist (xy a) (xy b))) as [H|H].
  - destruct (IH (dist (xy a) (xy b))) as (H1 & H2 & H3). cbv zeta in *. split; [lra|]. split.
    + intros x y [[= <- <-]|Hxy]; [exact H1|apply H2, Hxy].
    + right. destruct H3 as [->|(x & y & Hxy & ->)]; [exists a, b|exists x, y]; split; auto; [left|right; exact Hxy]. reflexivity.
  - destruct (IH m0) as (H1 & H2 & H3). cbv zeta in *. split; [exact H1|]. split.
    + intros x y [[= <- <-]|Hxy]; [lra|apply H2, Hxy].
    + destruct H3 as [->|(x & y & Hxy & ->)]; [left; reflexivity|right; exists x, y; split; [right; exact Hxy|reflexivity]].
Qed.
Lemma calculateDiameter_correct (pts : list (Point RNum)) : (2 <= length pts)%nat ->
  exists d, calculateDiameter (N := RNum) pts = Ok d /\ is_diameter (map xy pts) d.
Proof.
  intros Hl. destruct (calipers_farthest pts Hl) as (prs & E & Hin & a & b & Hab & HD).
  unfold calculateDiameter. rewrite E. cbn [bind]. eexists. split; [reflexivity|]. rnum.
  destruct (fold_max prs (-1)) as (H1 & H2 & H3). cbv zeta in *.
  match goal with |- is_diameter _ ?r => set (r0 := r) in * end.
  assert (Er : r0 = dist (xy a) (xy b)).
  { apply Rle_antisym; [|apply H2, Hab]. destruct H3 as [->|(x & y & Hxy & ->)].
    - pose proof (sqrt_pos ((fst (xy a) - fst (xy b)) * (fst (xy a) - fst (xy b)) + (snd (xy a) - snd (xy b)) * (snd (xy a) - snd (xy b)))) as H. unfold dist. lra.
    - apply HD; apply in_map; apply (Hin x y Hxy). }
  rewrite Er. exact HD.
Qed.
Lemma getPoints_vertices {N : Num} (p : list (Point N)) idx vs : vertices_are p idx vs -> getPoints idx p = Ok vs.
Proof.
  intros H. unfold getPoints.
  assert (G : forall i, (i < length idx)%nat -> exists v, nth_error vs i = Some v /\ vpt p idx i = Ok v).
  { intros i Hi. destruct (nth_error idx i) as [k|] eqn:Ek; [|apply nth_error_None in Ek; lia].
    destruct (nth_error vs i) as [v|] eqn:Ev; [|apply nth_error_None in Ev; rewrite (vertices_length _ _ _ H) in Ev; lia].
    exists v. split; [reflexivity|]. unfold vpt, vgetn. rewrite Ek. cbn [bind]. unfold vget.
    assert (HK : (0 <= k)%Z /\ nth_error p (Z.to_nat k) = Some v).
    { clear - H Ek Ev. revert i Ek Ev. induction H as [|k0 v0 idx vs H0 H IH]; intros i Ek Ev; [destruct i; discriminate|].
      destruct i; [cbn in *; congruence|exact (IH i Ek Ev)]. }
    destruct HK as [Hk Hv]. destruct (Z.ltb_spec k 0); [lia|]. unfold vgetn. rewrite Hv. reflexivity. }
  pose proof (vertices_length _ _ _ H) as HL. clear H. 
  enough (K : forall n s, (forall i, (i < n)%nat -> exists v, nth_error vs (s + i) = Some v /\ vpt p idx (s + i) = Ok v) -> (s + n = length vs)%nat ->
     mapM (vpt p idx) (seq s n) = Ok (skipn s vs)).
  { rewrite (K (length idx) 0%nat); [reflexivity|intros i Hi; apply G; exact Hi|lia]. }
  induction n as [|n IH]; intros s HG Hs.
  - cbn. rewrite skipn_all2 by lia. reflexivity.
  - cbn [seq mapM]. destruct (HG 0%nat ltac:(lia)) as (v & Hv & Hp). rewrite Nat.add_0_r in *. rewrite Hp. cbn [bind].
    rewrite (IH (S s)); [|intros i Hi; replace (S s + i)%nat with (s + S i)%nat by lia; apply HG; lia|lia]. cbn [bind].
    f_equal. symmetry. clear - Hv. revert s Hv. induction vs as [|w vs IH]; intros s Hv; [destruct s; discriminate|].
    destruct s; [cbn in *; congruence|cbn [skipn]; exact (IH s Hv)].
Qed.
Lemma getDiameter_correct (g : polygon RNum) p (vs : list (Point RNum)) : vertices_are p (pg_points g) vs -> pg_diam g < 0 -> (2 <= length vs)%nat ->
  exists g' d, getDiameter (N := RNum) g p = Ok (g', d) /\ is_diameter (map xy vs) d /\
    forall p', getDiameter (N := RNum) g' p' = Ok (g', d).
Proof.
  intros HV Hd Hl. destruct (calculateDiameter_correct vs Hl) as (d & E & HD). unfold getDiameter at 1. rnum.
  destruct (Rltb_spec (pg_diam g) 0) as [_|]; [|lra]. rewrite (getPoints_vertices _ _ _ HV). cbn [bind]. rewrite E. cbn [bind].
  eexists _, d. split; [reflexivity|]. split; [exact HD|]. intros p'. unfold getDiameter. cbn [pg_diam]. rnum.
  destruct (Rltb_spec d 0) as [H|]; [|reflexivity]. exfalso. destruct HD as [(a & b & _ & _ & ->) _].
  unfold dist in H. pose proof (sqrt_pos ((fst a - fst b) * (fst a - fst b) + (snd a - snd b) * (snd a - snd b))). lra.
Qed.
Lemma getDiameter_small {N : Num} (g : polygon N) p (vs : list (Point N)) : vertices_are p (pg_points g) vs -> nltb (pg_diam g) (nZ 0) = true ->
  (forall v, vs = [v] -> exists g', getDiameter g p = Ok (g', nZ (-1))) /\
  (vs = [] -> getDiameter g p = Err (UB "vector index out of range")).
Proof.
  intros HV Hd. unfold getDiameter. rewrite Hd, (getPoints_vertices _ _ _ HV). cbn [bind]. split.
  - intros v ->. eexists. reflexivity.
  - intros ->. reflexivity.
Qed.
Lemma calipers_ends {N : Num} (u l : list (Point N)) i j : (i < length u)%nat -> (j < length l)%nat ->
  exists prs, calipers (length u + length l) u l i j = Ok prs /\ (forall a b, In (a, b) prs -> In a u /\ In b l).
Proof.
  intros Hi Hj. destruct (calipers_total u l (length u + length l) i j Hi Hj) as (prs & E & H & _); [lia|]. eauto.
Qed.
