(** Closed chains of exposed points whose edges have all points on their left. *)
From Coq Require Import Reals Lra Lia ZArith List Bool Permutation.
From Verif Require Import Base Spec MUtil Bridge PUtil PPoly PContains PVoronoi PFan PVorGeo.
Import ListNotations.

(** * Deleting repetitions from a chain that follows a one-to-one relation *)
Section Follow.
  Local Open Scope Z_scope.
  Variable S : Z -> Z -> Prop.
  Hypothesis fn : forall a b b', S a b -> S a b' -> b = b'.
  Hypothesis inj : forall a a' b, S a b -> S a' b -> a = a'.

  Lemma snoc_pairs (l : list Z) y z : pairs ((l ++ [y]) ++ [z]) = pairs (l ++ [y]) ++ [(y, z)].
  Proof. apply pairs_snoc. Qed.
  Lemma pred_in (l : list Z) x y : In y (tl (x :: l)) -> exists z, In (z, y) (pairs (x :: l)).
  Proof.
    revert x. induction l as [|b l IH]; intros x H; [destruct H|]. cbn [tl] in H. destruct H as [<-|H]; [exists x; rewrite pairs_cons; left; reflexivity|].
    destruct (IH b H) as (z & Hz). exists z. rewrite pairs_cons. right. exact Hz.
  Qed.
  Lemma succ_in (l : list Z) y z : In z (l ++ [y]) -> z = y \/ exists b, In (z, b) (pairs (l ++ [y])).
  Proof.
    induction l as [|a l IH]; cbn [app]; intros H; [destruct H as [<-|[]]; auto|].
    destruct H as [<-|H].
    - right. destruct (l ++ [y]) as [|b r] eqn:E; [destruct l; discriminate|]. exists b. rewrite pairs_cons. left. reflexivity.
    - destruct (IH H) as [->|(b & Hb)]; [auto|]. right. exists b. destruct (l ++ [y]) as [|c r] eqn:E; [destruct l; discriminate|]. rewrite pairs_cons. right. exact Hb.
  Qed.
  Lemma pairs_fst_not_last (l : list Z) y b : NoDup (l ++ [y]) -> ~ In (y, b) (pairs (l ++ [y])).
  Proof.
    induction l as [|a l IH]; cbn [app]; intros ND H; [destruct H|]. inversion_clear ND as [|? ? N1 N2].
    destruct (l ++ [y]) as [|c r] eqn:E; [destruct l; discriminate|]. rewrite pairs_cons in H. destruct H as [H|H]; [|exact (IH N2 H)].
    injection H as -> _. apply N1. rewrite <- E. apply in_or_app. right. left. reflexivity.
  Qed.

  (** the list without repetitions [D] and the last element [z] of what was read *)
  Definition reading (d0 : Z) (D : list Z) (z : Z) : Prop :=
    NoDup D /\ hd_error D = Some d0 /\ (forall e, In e (pairs D) -> S (fst e) (snd e)) /\ In z D /\
    ((exists l, D = l ++ [z]) \/ (exists l y, D = l ++ [y] /\ S y d0)).
  Lemma reading_step d0 D z y : reading d0 D z -> z = y \/ S z y -> reading d0 (set_add Z.eqb D y) y.
  Proof.
    intros (ND & HD & PS & Iz & PH) Hy. unfold set_add. destruct (set_mem Z.eqb y D) eqn:M.
    - assert (Iy : In y D). { apply existsb_exists in M as (x & Hx & E). apply Z.eqb_eq in E as ->. exact Hx. }
      split; [exact ND|]. split; [exact HD|]. split; [exact PS|]. split; [exact Iy|].
      destruct PH as [(l & E)|PH]; [|right; exact PH]. destruct Hy as [<-|Hy]; [left; exists l; exact E|]. right. exists l, z. split; [exact E|].
      destruct D as [|x D]; [destruct Iy|]. cbn in HD. injection HD as ->. destruct Iy as [->|Iy]; [exact Hy|]. exfalso.
      destruct (pred_in D d0 y Iy) as (w & Hw). pose proof (PS _ Hw) as Sw. cbn [fst snd] in Sw. pose proof (inj _ _ _ Hy Sw) as ->.
      rewrite E in Hw, ND. exact (pairs_fst_not_last _ _ _ ND Hw).
    - assert (Ny : ~ In y D). { intros H. assert (K : set_mem Z.eqb y D = true) by (apply existsb_exists; exists y; split; [exact H|apply Z.eqb_refl]). congruence. }
      destruct Hy as [<-|Hy]; [contradiction|].
      destruct PH as [(l & E)|(l & y' & E & Sy)].
      + split; [|split; [|split; [|split]]].
        * apply (NoDup_Add (a := y) (l := D)); [|split; assumption]. rewrite <- (app_nil_r D) at 1. apply Add_app.
        * destruct D; [discriminate|exact HD].
        * rewrite E, snoc_pairs. intros e He. apply in_app_or in He as [He|[<-|[]]]; [apply PS; rewrite E; exact He|exact Hy].
        * apply in_or_app. right. left. reflexivity.
        * left. exists D. reflexivity.
      + exfalso. apply Ny. rewrite E in Iz. destruct (succ_in _ _ _ Iz) as [->|(b & Hb)].
        * rewrite (fn _ _ _ Hy Sy). destruct D; [discriminate|]. cbn in HD. injection HD as ->. left. reflexivity.
        * rewrite <- E in Hb. pose proof (PS _ Hb) as Sb. cbn [fst snd] in Sb. rewrite (fn _ _ _ Hy Sb). apply (pairs_in _ _ Hb).
  Qed.
  Lemma reading_all d0 l D z zf : reading d0 D z -> (forall e, In e (pairs (z :: l)) -> fst e = snd e \/ S (fst e) (snd e)) ->
    zf = last l z -> reading d0 (fold_left (set_add Z.eqb) l D) zf.
  Proof.
    revert D z. induction l as [|y l IH]; intros D z R H E; cbn [fold_left]; [rewrite E; exact R|].
    apply (IH _ y); [|intros e He; apply H; rewrite pairs_cons; right; exact He|].
    - apply (reading_step d0 D z y R). apply (H (z, y)). rewrite pairs_cons. left. reflexivity.
    - rewrite E. clear. destruct l as [|b l]; [reflexivity|]. change (last (b :: l) z = last (b :: l) y). revert b. induction l as [|c l IH]; intros b; [reflexivity|apply (IH c)].
  Qed.
  Lemma last_cons (l : list Z) b x : last (b :: l) x = last l b.
  Proof. revert b x. induction l as [|c l IH]; intros b x; [reflexivity|]. change (last (c :: l) x = last (c :: l) b). rewrite (IH c x), (IH c b). reflexivity. Qed.
  Lemma last_pair (l : list Z) x d : In (last l x, d) (pairs (x :: l ++ [d])).
  Proof.
    revert x. induction l as [|b l IH]; intros x; cbn [app]; [rewrite pairs_cons; left; reflexivity|]. rewrite pairs_cons. right.
    rewrite last_cons. apply IH.
  Qed.
  (** Without repetitions the chain follows the relation, and closes, unless one element is left. *)
  Lemma dedup_follows l : (forall e, In e (edges_of l) -> fst e = snd e \/ S (fst e) (snd e)) -> (2 <= length (dedup l))%nat ->
    forall e, In e (edges_of (dedup l)) -> S (fst e) (snd e).
  Proof.
    destruct l as [|d0 l]; intros H L; [cbn in L; lia|]. unfold edges_of in H. cbn [app] in H.
    assert (R : reading d0 (dedup (d0 :: l)) (last l d0)).
    { unfold dedup. cbn [fold_left]. change (set_add Z.eqb [] d0) with [d0]. apply (reading_all d0 l [d0] d0); [|intros e He; apply H|reflexivity].
      - split; [constructor; [intros []|constructor]|]. split; [reflexivity|]. split; [intros e []|]. split; [left; reflexivity|]. left. exists []. reflexivity.
      - clear - He. revert He. generalize d0 at 1 2. induction l as [|b l IH]; intros x He; [destruct He|]. cbn [app]. rewrite pairs_cons in *.
        destruct He as [<-|He]; [left; reflexivity|right; apply IH; exact He]. }
    destruct R as (ND & HD & PS & Iz & PH).
    assert (CL : exists l' y, dedup (d0 :: l) = l' ++ [y] /\ S y d0).
    { destruct PH as [(l' & E)|(l' & y & E & Sy)]; [|exists l', y; auto]. exists l', (last l d0). split; [exact E|].
      destruct (H _ (last_pair l d0 d0)) as [K|K]; [|exact K]. cbn [fst snd] in K. exfalso. rewrite K in E. rewrite E in ND, HD, L.
      destruct l' as [|x l']; [cbn in L; lia|]. cbn in HD. injection HD as ->. inversion_clear ND as [|? ? N _]. apply N, in_or_app. right. left. reflexivity. }
    destruct CL as (l' & y & E & Sy). intros e He. unfold edges_of in He. destruct (dedup (d0 :: l)) as [|x D] eqn:ED; [destruct He|].
    cbn in HD. injection HD as ->. rewrite E, snoc_pairs in He. apply in_app_or in He as [He|[<-|[]]]; [apply PS; rewrite E; exact He|exact Sy].
  Qed.
End Follow.

(** * Exposed points *)
Section Exposed.
  Local Open Scope R_scope.
  Variable I : list Z.
  Variable f : Z -> pt.
  Hypothesis finj : forall i j, In i I -> In j I -> f i = f j -> i = j.
  Hypothesis exposed : forall i, In i I -> exists u, forall j, In j I -> j <> i -> vdot u (f j) < vdot u (f i).

  Lemma not_collinear i j k : In i I -> In j I -> In k I -> i <> j -> i <> k -> j <> k -> orient (f i) (f j) (f k) <> 0.
  Proof.
    intros Hi Hj Hk Nij Nik Njk O.
    assert (D : f i <> f j) by (intros E; apply Nij; auto).
    destruct (exposed i Hi) as (ui & Ui), (exposed j Hj) as (uj & Uj), (exposed k Hk) as (uk & Uk).
    pose proof (Ui j Hj ltac:(congruence)) as A1. pose proof (Ui k Hk ltac:(congruence)) as A2.
    pose proof (Uj i Hi ltac:(congruence)) as B1. pose proof (Uj k Hk ltac:(congruence)) as B2.
    pose proof (Uk i Hi ltac:(congruence)) as C1. pose proof (Uk j Hj ltac:(congruence)) as C2.
    clear Ui Uj Uk. destruct (f i) as [ax ay], (f j) as [bx b_y], (f k) as [cx cy]. unfold orient, vcross, vsub, vdot in *. cbn [fst snd] in *.
    assert (exists t, cx = ax + t * (bx - ax) /\ cy = ay + t * (b_y - ay)) as (t & -> & ->).
    { destruct (Req_dec bx ax) as [E|E].
      - assert (E2 : b_y - ay <> 0) by (intros E2; apply D; f_equal; lra). exists ((cy - ay) / (b_y - ay)). rewrite E in *. split; [|field; exact E2].
        assert (K : (b_y - ay) * (cx - ax) = 0) by lra. apply Rmult_integral in K as [K|K]; [lra|]. lra.
      - assert (E2 : bx - ax <> 0) by lra. exists ((cx - ax) / (bx - ax)). split; [field; exact E2|].
        apply (Rmult_eq_reg_l (bx - ax)); [|exact E2]. field_simplify; [|exact E2]. lra. }
    clear O D. destruct (Rlt_dec t 0) as [T|T]; [|destruct (Rlt_dec t 1) as [T'|T']].
    - set (p := fst ui * (bx - ax) + snd ui * (b_y - ay)). assert (P1 : p < 0) by (unfold p; lra). assert (P2 : t * p < 0) by (unfold p; lra). nra.
    - set (p := fst uk * (bx - ax) + snd uk * (b_y - ay)). assert (P1 : 0 < t * p) by (unfold p; lra). assert (P2 : (1 - t) * p < 0) by (unfold p; lra). nra.
    - set (p := fst uj * (bx - ax) + snd uj * (b_y - ay)). assert (P1 : 0 < p) by (unfold p; lra). assert (P2 : (t - 1) * p < 0) by (unfold p; lra). nra.
  Qed.
  (** different, with everything to the left *)
  Definition supports (i j : Z) : Prop := In i I /\ In j I /\ i <> j /\ forall k, In k I -> 0 <= orient (f i) (f j) (f k).
  Lemma supports_fn i j j' : supports i j -> supports i j' -> j = j'.
  Proof.
    intros (H1 & H2 & H3 & H4) (_ & K2 & K3 & K4). destruct (Z.eq_dec j j') as [E|E]; [exact E|]. exfalso.
    apply (not_collinear i j j' H1 H2 K2 H3 K3 E). pose proof (H4 j' K2) as A. pose proof (K4 j H2) as B. unfold orient, vcross, vsub in *; cbn [fst snd] in *. lra.
  Qed.
  Lemma supports_inj i i' j : supports i j -> supports i' j -> i = i'.
  Proof.
    intros (H1 & H2 & H3 & H4) (K1 & _ & K3 & K4). destruct (Z.eq_dec i i') as [E|E]; [exact E|]. exfalso.
    apply (not_collinear i j i' H1 H2 K1 H3 E ltac:(congruence)). pose proof (H4 i' K1) as A. pose proof (K4 i H1) as B. unfold orient, vcross, vsub in *; cbn [fst snd] in *. lra.
  Qed.
  Lemma supports_strict i j k : supports i j -> In k I -> k <> i -> k <> j -> 0 < orient (f i) (f j) (f k).
  Proof.
    intros (H1 & H2 & H3 & H4) Hk N1 N2. pose proof (H4 k Hk) as A. pose proof (not_collinear i j k H1 H2 Hk H3 ltac:(congruence) ltac:(congruence)). lra.
  Qed.
  (** a list of such indices in which neighbours support everything *)
  Lemma supports_convex D : incl D I -> incl I D -> NoDup D -> (3 <= length D)%nat -> (forall e, In e (edges_of D) -> supports (fst e) (snd e)) -> strictly_convex (map f D).
  Proof.
    intros S1 S2 ND L H. split; [rewrite map_length; exact L|]. split.
    - clear - finj S1 ND. induction D as [|x D IH]; [constructor|]. inversion_clear ND as [|? ? N1 N2]. cbn [map]. constructor.
      + intros K. apply in_map_iff in K as (y & E & Hy). apply N1. rewrite <- (finj y x); [exact Hy|apply S1; right; exact Hy|apply S1; left; reflexivity|exact E].
      + apply IH; [intros y Hy; apply S1; right; exact Hy|exact N2].
    - intros a b v Hab Hv Na Nb. rewrite edges_of_map in Hab. apply in_map_iff in Hab as ([i j] & E & Hij). injection E as <- <-. cbn [fst snd] in *.
      apply in_map_iff in Hv as (k & <- & Hk). pose proof (H _ Hij) as SU. cbn [fst snd] in SU. apply supports_strict; [exact SU|apply S1; exact Hk|congruence|congruence].
  Qed.
End Exposed.

Lemma dedup_nodup l : NoDup (dedup l).
Proof.
  unfold dedup. assert (G : forall D, NoDup D -> NoDup (fold_left (set_add Z.eqb) l D)); [|apply G; constructor].
  induction l as [|x l IH]; intros D ND; cbn [fold_left]; [exact ND|]. apply IH. unfold set_add. destruct (set_mem Z.eqb x D) eqn:M; [exact ND|].
  apply (NoDup_Add (a := x) (l := D)); [rewrite <- (app_nil_r D) at 1; apply Add_app|]. split; [exact ND|]. intros H.
  assert (K : set_mem Z.eqb x D = true) by (apply existsb_exists; exists x; split; [exact H|apply Z.eqb_refl]). congruence.
Qed.

(** A closed chain of exposed points with everything to the left of each step is a strictly convex polygon once repetitions are deleted. *)
Lemma chain_convex (l : list Z) (f : Z -> pt) :
  (forall i j, In i l -> In j l -> f i = f j -> i = j) ->
  (forall i, In i l -> exists u, forall j, In j l -> j <> i -> (vdot u (f j) < vdot u (f i))%R) ->
  (3 <= length (dedup l))%nat ->
  (forall i j, In (i, j) (edges_of l) -> forall k, In k l -> (0 <= orient (f i) (f j) (f k))%R) ->
  strictly_convex (map f (dedup l)).
Proof.
  intros FI EX L SU. apply (supports_convex l f FI EX); [intros x; apply dedup_in|intros x; apply dedup_in|apply dedup_nodup|exact L|].
  apply (dedup_follows (supports l f) (supports_fn l f FI EX) (supports_inj l f FI EX)); [|lia].
  intros [i j] He. cbn [fst snd]. destruct (Z.eq_dec i j) as [E|E]; [left; exact E|right]. destruct (edge_in _ _ _ He) as [H1 H2].
  split; [exact H1|]. split; [exact H2|]. split; [exact E|]. apply SU, He.
Qed.
Lemma chain_convex_rev (l : list Z) (f : Z -> pt) :
  (forall i j, In i l -> In j l -> f i = f j -> i = j) ->
  (forall i, In i l -> exists u, forall j, In j l -> j <> i -> (vdot u (f j) < vdot u (f i))%R) ->
  (3 <= length (dedup l))%nat ->
  (forall i j, In (i, j) (edges_of l) -> forall k, In k l -> (0 <= orient (f j) (f i) (f k))%R) ->
  strictly_convex (map f (rev (dedup l))).
Proof.
  intros FI EX L SU. apply (supports_convex l f FI EX); [intros x; rewrite <- in_rev; apply dedup_in|intros x; rewrite <- in_rev; apply dedup_in|apply NoDup_rev, dedup_nodup|rewrite rev_length; exact L|].
  assert (G : forall e, In e (edges_of (dedup l)) -> supports l f (snd e) (fst e)).
  { apply (dedup_follows (fun a b => supports l f b a)); [intros a b b' H H'; exact (supports_inj l f FI EX _ _ _ H H')|intros a a' b H H'; exact (supports_fn l f FI EX _ _ _ H H')| |lia].
    intros [i j] He. cbn [fst snd]. destruct (Z.eq_dec i j) as [E|E]; [left; exact E|right]. destruct (edge_in _ _ _ He) as [H1 H2].
    split; [exact H2|]. split; [exact H1|]. split; [congruence|]. apply SU, He. }
  intros e He. apply (Permutation_in _ (edges_of_rev _)), in_map_iff in He as ([a b] & <- & He). exact (G _ He).
Qed.
(** the area of a strictly convex polygon *)
Lemma convex_area vs : strictly_convex vs -> (0 < shoelace vs)%R.
Proof.
  intros (L & ND & H). destruct vs as [|a [|b [|c vs]]]; [cbn in L; lia|cbn in L; lia|cbn in L; lia|].
  rewrite (shoelace_fan a).
  assert (W : forall e, In e (edges_of (a :: b :: c :: vs)) -> (0 <= orient (fst e) (snd e) a / 2)%R).
  { intros [x y] He. cbn [fst snd]. assert (D : (a = x \/ a = y) \/ (a <> x /\ a <> y)).
    { assert (DD : forall p q : pt, p = q \/ p <> q) by (intros [p1 p2] [q1 q2]; destruct (Req_dec p1 q1) as [->|E1], (Req_dec p2 q2) as [->|E2]; [left; reflexivity|right; congruence..]).
      destruct (DD a x), (DD a y); tauto. }
    destruct D as [[<-|<-]|[D1 D2]].
    - unfold orient, vcross, vsub; cbn [fst snd]. lra.
    - unfold orient, vcross, vsub; cbn [fst snd]. lra.
    - pose proof (H _ _ a He (or_introl eq_refl) D1 D2). lra. }
  assert (E : In (b, c) (edges_of (a :: b :: c :: vs))) by (unfold edges_of; cbn [app]; rewrite !pairs_cons; right; left; reflexivity).
  assert (P : (0 < orient b c a / 2)%R).
  { inversion_clear ND as [|? ? N1 _]. assert (a <> b /\ a <> c) as [N2 N3] by (split; intros ->; apply N1; cbn; auto). pose proof (H _ _ a E (or_introl eq_refl) N2 N3). lra. }
  revert W E. generalize (edges_of (a :: b :: c :: vs)). intros es W E. induction es as [|e es IH]; [destruct E|]. cbn [map sumR fold_right].
  assert (SP : (0 <= sumR (map (fun e => orient (fst e) (snd e) a / 2) es))%R).
  { clear - W. induction es as [|e' es IH]; [cbn; lra|]. cbn [map sumR fold_right]. pose proof (W e' ltac:(right; left; reflexivity)). 
    assert (0 <= sumR (map (fun e => orient (fst e) (snd e) a / 2) es))%R by (apply IH; intros x Hx; apply W; cbn in *; tauto). unfold sumR in *. lra. }
  destruct E as [->|E].
  - cbn [fst snd]. unfold sumR in *. lra.
  - assert (K : (0 < sumR (map (fun e => orient (fst e) (snd e) a / 2) es))%R) by (apply IH; [intros x Hx; apply W; right; exact Hx|exact E]).
    pose proof (W e (or_introl eq_refl)). unfold sumR in *. lra.
Qed.
