(** Sums of steps that only change their sign with the direction, around Voronoi cells whose points may have been moved. *)
From Coq Require Import Reals Lra Lia ZArith List Bool Permutation.
From Verif Require Import Base Spec MUtil MGeom MHull MPolygon MMaps MTriangle MGen MRegion MDelaunay MVoronoi Bridge BridgeTile BridgeFill BridgeAny.
From Verif Require Import PUtil PPoint PPoly PPoly2 PTri PMore PContains PDelaunay PVoronoi PFan PVorGeo PVorCell PConvex PVorConvex PWedge PBorderCell PVorBorder PTile PTile2 PTile3 PTile4 PTile5 PTile6 PFill PFill2 PAny PAny2 PAny3 PWind PAny4 PAny5 PAny6.
Import ListNotations.

(** a quantity of steps that changes its sign with the direction *)
Definition turning (w : pt -> pt -> R) : Prop := forall a b, (w b a = - w a b)%R.
Section Anti.
  Local Open Scope R_scope.
  Variable w : pt -> pt -> R.
  Hypothesis anti : turning w.
  Lemma w_same_a x : w x x = 0.
  Proof. pose proof (anti x x). lra. Qed.
  Lemma tri_same_a p x : tri_w w p x x = 0.
  Proof. unfold tri_w. rewrite (w_same_a x), (anti p x). lra. Qed.
  Lemma tri_p_a p x : tri_w w p x p = 0.
  Proof. unfold tri_w. rewrite (w_same_a p), (anti p x). lra. Qed.
  Lemma tri_pa p x : tri_w w p p x = 0.
  Proof. unfold tri_w. rewrite (w_same_a p), (anti p x). lra. Qed.
  Lemma tri_anti_a p x y : tri_w w p y x = - tri_w w p x y.
  Proof. unfold tri_w. rewrite (anti p x), (anti p y), (anti x y). lra. Qed.
  Lemma pairs_fan_a p x l : fan_w w p (pairs (x :: l)) = w p x + along_w w (pairs (x :: l)) + w (last l x) p.
  Proof.
    revert x. induction l as [|y l IH]; intros x.
    - unfold fan_w, along_w. cbn. pose proof (anti p x). lra.
    - rewrite pairs_cons. unfold fan_w, along_w in *. cbn [map fst snd sumR fold_right]. specialize (IH y). unfold sumR in IH. rewrite IH. unfold tri_w. rewrite (anti p y).
      replace (last (y :: l) x) with (last l y); [lra|]. destruct l as [|z l]; [reflexivity|]. exact (last_any z l y x).
  Qed.
  Lemma loop_fan_a p Q : loop_w w Q = fan_w w p (edges_of Q).
  Proof.
    destruct Q as [|x l]; [reflexivity|]. unfold loop_w, edges_of. cbn [app]. rewrite (pairs_fan_a p). rewrite last_last, (anti p x). lra.
  Qed.
  Lemma along_rev_a es : along_w w (pairs (rev es)) = - along_w w (pairs es).
  Proof.
    induction es as [|x [|y es] IH]; [unfold along_w; cbn; lra|unfold along_w; cbn; lra|]. cbn [rev] in *. rewrite pairs_snoc, along_w_app, IH, pairs_cons. unfold along_w. cbn. rewrite (anti x y). lra.
  Qed.
  Lemma fan_rev_a p es : fan_w w p (pairs (rev es)) = - fan_w w p (pairs es).
  Proof.
    induction es as [|x [|y es] IH]; [unfold fan_w; cbn; lra|unfold fan_w; cbn; lra|]. cbn [rev] in *. rewrite pairs_snoc, fan_w_app, IH, pairs_cons. unfold fan_w. cbn. rewrite (tri_anti_a p x y). lra.
  Qed.
  Lemma loop_rev_a Q : loop_w w (rev Q) = - loop_w w Q.
  Proof.
    unfold loop_w, along_w. rewrite (sumR_perm _ _ (Permutation_map _ (edges_of_rev Q))), map_map. cbn [fst snd].
    induction (edges_of Q) as [|[x y] es IH]; [cbn; lra|]. cbn [map fst snd]. unfold sumR in *. cbn [fold_right] in *. rewrite (anti x y). lra.
  Qed.

  Lemma chain_loop_w_a P Q : strictly_convex P -> (forall x, In x P <-> In x Q) ->
    (forall x y, In (x, y) (edges_of Q) -> forall z, In z Q -> (0 <= orient x y z)%R) -> NoDup (filter moves (edges_of Q)) -> loop_w w P = loop_w w Q.
  Proof.
    intros SC S L ND. pose proof SC as (L3 & NP & ST).
    assert (E1 : forall x y, In (x, y) (edges_of Q) -> x <> y -> In (x, y) (edges_of P)).
    { intros x y H N. destruct (edge_in _ _ _ H) as [Ix Iy]. apply S in Ix. destruct (proj1 (in_edge_of P x Ix)) as (z & Hz).
      destruct (pair_eq_dec z y) as [->|NZ]; [exact Hz|]. exfalso. destruct (edge_in _ _ _ Hz) as [_ Iz].
      assert (A : (0 < orient x z y)%R) by (apply (ST x z y Hz); [apply S; exact Iy|congruence|congruence]).
      pose proof (L x y H z (proj1 (S z) Iz)) as B. unfold orient, vcross, vsub in *. cbn [fst snd] in *. lra. }
    assert (PE : Permutation (edges_of P) (filter moves (edges_of Q))).
    { apply NoDup_Permutation; [apply PContains.edges_nodup; exact SC|exact ND|]. intros [x y]. rewrite filter_In, moves_iff. cbn [fst snd]. split; [|intros [H N]; apply E1; assumption].
      intros H. pose proof (convex_edge P SC x y H) as N. split; [|exact N]. destruct (edge_in _ _ _ H) as [Ix Iy]. apply S in Ix. pose proof (proj1 (S y) Iy) as Iy'.
      destruct (leaves Q x y Ix Iy' N) as (z & Hz & NZ). pose proof (E1 x z Hz ltac:(congruence)) as K. rewrite (same_fst P SC x y z H K). exact Hz. }
    unfold loop_w, along_w. rewrite (sum_moves _ (edges_of Q)) by (intros a; apply w_same_a). apply sumR_perm, Permutation_map, PE.
  Qed.
  (** the cells of chains *)
  Section Cells.
    Variable p : pt.
    Variable h : Z -> pt.
    Lemma fan_closed_a x l : fan_w w p (edges_of (x :: l)) = fan_w w p (pairs (x :: l)) + tri_w w p (last l x) x.
    Proof.
      unfold edges_of. destruct l as [|y l] using rev_ind; [cbn; unfold fan_w; cbn; lra|]. clear IHl. rewrite last_last.
      change ((x :: l ++ [y]) ++ [x]) with (((x :: l) ++ [y]) ++ [x]). rewrite pairs_snoc, fan_w_app. unfold fan_w at 2. cbn. lra.
    Qed.
    Lemma chain_cell_w_a i l : stutters (i :: l) -> tri_w w p (h (last (i :: l) i)) (h i) = 0 ->
      loop_w w (map h (dedup (i :: l))) = fan_w w p (pairs (map h (i :: l))).
    Proof.
      intros S O. destruct (stutters_dedup h (fun e => tri_w w p (fst e) (snd e)) (i :: l) i (tri_same_a p) S) as [L E].
      rewrite (loop_fan_a p). pose proof (dedup_head i l) as HD. destruct (dedup (i :: l)) as [|j d]; [discriminate|]. injection HD as ->.
      cbn [map]. rewrite fan_closed_a. unfold fan_w in *. cbn [map] in E. rewrite E. rewrite (last_map_w _ _ h). replace (last d i) with (last (i :: l) i); [rewrite O; cbn [map]; lra|]. rewrite <- L. destruct d as [|y d]; [reflexivity|]. reflexivity.
    Qed.
    Lemma chain_cell_site_w_a i l r : stutters (i :: l) -> ~ In r (i :: l) -> h r = p -> loop_w w (map h (dedup ((i :: l) ++ [r]))) = fan_w w p (pairs (map h (i :: l))).
    Proof.
      intros S N HR. destruct (stutters_dedup h (fun e => tri_w w p (fst e) (snd e)) (i :: l) i (tri_same_a p) S) as [L E].
      rewrite dedup_snoc by exact N. rewrite (loop_fan_a p). pose proof (dedup_head i l) as HD. destruct (dedup (i :: l)) as [|j d]; [discriminate|]. injection HD as ->.
      rewrite map_app. cbn [map app]. rewrite fan_closed_a, last_last, HR, tri_pa.
      unfold fan_w in *. cbn [map] in E. rewrite <- E. destruct d as [|z d] using rev_ind; cbn [map app].
      - cbn. rewrite tri_p_a. lra.
      - clear IHd. rewrite map_app. cbn [map app]. change (h i :: (map h d ++ [h z]) ++ [p]) with ((((h i :: map h d) ++ [h z])) ++ [p]). rewrite pairs_snoc, map_app, sumR_app. cbn. rewrite tri_p_a. lra.
    Qed.
  End Cells.
End Anti.

(** the triangle on the left of a side *)
Fixpoint left_of (tris : list (Z * Z * Z)) (e : Z * Z) : option nat :=
  match tris with
  | [] => None
  | t :: l => if in_dec side_dec e (sides t) then Some 0%nat else option_map Datatypes.S (left_of l e)
  end.
Lemma left_of_some tris e k : left_of tris e = Some k -> exists t, nth_error tris k = Some t /\ In e (sides t).
Proof.
  revert k. induction tris as [|t l IH]; intros k H; [discriminate|]. cbn [left_of] in H. destruct (in_dec side_dec e (sides t)) as [I|N]; [injection H as <-; exists t; auto|].
  destruct (left_of l e) as [j|]; [|discriminate]. injection H as <-. exact (IH j eq_refl).
Qed.
Lemma left_of_none tris e : left_of tris e = None -> forall t, In t tris -> ~ In e (sides t).
Proof.
  induction tris as [|t l IH]; intros H t' Ht'; [destruct Ht'|]. cbn [left_of] in H. destruct (in_dec side_dec e (sides t)) as [I|N]; [discriminate|].
  destruct Ht' as [<-|Ht']; [exact N|]. apply IH; [|exact Ht']. destruct (left_of l e); [discriminate|reflexivity].
Qed.
Lemma left_of_is tris e k t : directed_once tris -> nth_error tris k = Some t -> In e (sides t) -> left_of tris e = Some k.
Proof.
  intros DO Hk S. destruct (left_of tris e) as [j|] eqn:E.
  - destruct (left_of_some _ _ _ E) as (t' & Hj & S'). rewrite (DO _ _ _ _ _ Hj Hk S' S). reflexivity.
  - exfalso. exact (left_of_none _ _ E t (nth_error_In _ _ Hk) S).
Qed.

Section Fans.
  Local Open Scope Z_scope.
  Notation Pt := (Point RNum).
  Variable o : trout RNum.
  Hypothesis T : triangulation (zlen (o_points o)) (map fst (o_edges o)) (o_tris o).
  Notation tris := (o_tris o).
  Notation mp := (map read_point (o_points o)).
  Notation sites := (map xy mp).
  Hypothesis DO : directed_once tris.
  Variable cc : list Pt.
  Variable ci : nat -> Z.
  Notation f := (at_index cc).
  Notation ctr := (fun k => f (ci k)).
  Variable w : pt -> pt -> R.
  Hypothesis W : turning w.
  (** where the step between the cells of [a] and [b] is cut: at one of its ends, the same one for both cells *)
  Definition cut (a b : Z) : pt :=
    match left_of tris (Z.min a b, Z.max a b), left_of tris (Z.max a b, Z.min a b) with
    | Some k, Some _ => f (ci k)
    | _, _ => midpoint (pos o (Z.min a b)) (pos o (Z.max a b))
    end.
  Lemma cut_sym a b : cut a b = cut b a.
  Proof. unfold cut. rewrite (Z.min_comm b a), (Z.max_comm b a). reflexivity. Qed.
  Lemma cut_border a b : border_side tris a b -> cut a b = midpoint (pos o a) (pos o b).
  Proof.
    intros [(t & Ht & S) N]. assert (L : left_of tris (b, a) = None).
    { destruct (left_of tris (b, a)) as [k|] eqn:E; [|reflexivity]. destruct (left_of_some _ _ _ E) as (t' & Hk & S'). destruct (N t' (nth_error_In _ _ Hk) S'). }
    unfold cut. destruct (Z.le_ge_cases a b) as [H|H].
    - rewrite Z.min_l, Z.max_r, L by exact H. destruct (left_of tris (a, b)); reflexivity.
    - rewrite Z.min_r, Z.max_l, L by exact H. apply mid_sym.
  Qed.
  Lemma cut_inner a b k k' t t' : nth_error tris k = Some t -> nth_error tris k' = Some t' -> In (b, a) (sides t) -> In (a, b) (sides t') -> cut a b = f (ci k) \/ cut a b = f (ci k').
  Proof.
    intros Hk Hk' S S'. unfold cut. destruct (Z.le_ge_cases a b) as [H|H].
    - rewrite Z.min_l, Z.max_r by exact H. rewrite (left_of_is _ _ _ _ DO Hk' S'), (left_of_is _ _ _ _ DO Hk S). right. reflexivity.
    - rewrite Z.min_r, Z.max_l by exact H. rewrite (left_of_is _ _ _ _ DO Hk' S'), (left_of_is _ _ _ _ DO Hk S). left. reflexivity.
  Qed.
  Definition piece (p m c m' : pt) : R := (tri_w w p m c + tri_w w p c m')%R.
  Definition quad_a (v : Z) (k : nat) : R :=
    match nth_error tris k with
    | Some (A, B, C) => (if v =? A then piece (pos o A) (cut A B) (f (ci k)) (cut A C) else 0) +
        (if v =? B then piece (pos o B) (cut B C) (f (ci k)) (cut B A) else 0) + (if v =? C then piece (pos o C) (cut C A) (f (ci k)) (cut C B) else 0)
    | None => 0
    end%R.
  Lemma quad_a_turn v a b k : turn_left tris v (a, b) k -> quad_a v k = piece (pos o v) (cut v a) (f (ci k)) (cut v b).
  Proof.
    intros (t & Hk & D). unfold quad_a. rewrite Hk. pose proof (tg_corners _ _ _ T t (nth_error_In _ _ Hk)) as ND. destruct t as [[A B] C]. cbn [corners] in ND.
    inversion_clear ND as [|? ? N1 N2]. inversion_clear N2 as [|? ? N3 _]. cbn [In] in *.
    assert (Q : (v = A /\ a = B /\ b = C) \/ (v = B /\ a = C /\ b = A) \/ (v = C /\ a = A /\ b = B)).
    { destruct D as (D1 & D2 & _). unfold sides in *. cbn [In fst snd] in *. destruct D1 as [D1|[D1|[D1|[]]]], D2 as [D2|[D2|[D2|[]]]]; inversion D1; inversion D2; subst; intuition congruence. }
    destruct Q as [(-> & -> & ->)|[(-> & -> & ->)|(-> & -> & ->)]];
    repeat match goal with |- context [?x =? ?y] => destruct (Z.eqb_spec x y); [try (exfalso; intuition congruence)|try (exfalso; intuition congruence)] end; lra.
  Qed.
  Lemma quad_a_outside v k t : nth_error tris k = Some t -> ~ In v (corners t) -> quad_a v k = 0%R.
  Proof.
    intros Hk N. unfold quad_a. rewrite Hk. destruct t as [[A B] C]. cbn [corners In] in N.
    repeat match goal with |- context [?x =? ?y] => destruct (Z.eqb_spec x y); [exfalso; intuition congruence|] end; lra.
  Qed.
  (** a side, with its cut *)
  Definition bent (e : Z * Z) : R := (w (pos o (fst e)) (cut (fst e) (snd e)) + w (cut (fst e) (snd e)) (pos o (snd e)))%R.
  Lemma bent_swap e : bent (swap e) = (- bent e)%R.
  Proof. destruct e as [a b]. unfold bent, swap. cbn [fst snd]. rewrite (cut_sym b a), (W (cut a b) (pos o b)), (W (pos o a) (cut a b)). lra. Qed.
  Lemma quad_a_total V k A B C : nth_error tris k = Some (A, B, C) -> NoDup V -> In A V -> In B V -> In C V ->
    sumR (map (fun v => quad_a v k) V) = sumR (map bent (sides (A, B, C))).
  Proof.
    intros Hk ND IA IB IC. unfold quad_a. rewrite Hk. rewrite !sumR_map_add, !sumR_delta by assumption.
    rewrite (cut_sym A C), (cut_sym B A), (cut_sym C B). unfold bent, sides, sumR. cbn [map fold_right fst snd].
    set (a := pos o A). set (b := pos o B). set (c := pos o C). set (x := f (ci k)). clearbody a b c x. unfold piece, tri_w.
    set (ab := cut A B). set (bc := cut B C). set (ca := cut C A).
    rewrite (W x ab), (W x bc), (W x ca), (W a x), (W b x), (W c x). lra.
  Qed.
  (** consecutive triangles around a point *)
  Lemma cut_step v a b d k k' : turn_left tris v (a, b) k -> turn_left tris v (b, d) k' ->
    (tri_w w (pos o v) (f (ci k)) (f (ci k')) = tri_w w (pos o v) (f (ci k)) (cut v b) + tri_w w (pos o v) (cut v b) (f (ci k')))%R.
  Proof.
    intros (t & Hk & C) (t' & Hk' & C'). cbn [fst snd] in *. destruct (cut_inner v b k k' t t' Hk Hk') as [-> | ->]; [apply C|apply C'| |]; rewrite (tri_same_a w W); lra.
  Qed.
  Lemma turns_ne v a us b : ~ Forall2 (turn_left tris v) (pairs (a :: us ++ [b])) [].
  Proof. intros H. destruct us; cbn in H; inversion H. Qed.
  Lemma turns_first v us a b k ks : Forall2 (turn_left tris v) (pairs (a :: us ++ [b])) (k :: ks) -> exists z, turn_left tris v (a, z) k.
  Proof. intros F. destruct us as [|u us]; cbn [app] in F; rewrite pairs_cons in F; inversion F; subst; eauto. Qed.
  Lemma turns_last v us : forall a b ks k, Forall2 (turn_left tris v) (pairs (a :: us ++ [b])) (ks ++ [k]) -> exists z, turn_left tris v (z, b) k.
  Proof.
    induction us as [|u us IH]; intros a b ks k F; cbn [app] in F; rewrite pairs_cons in F.
    - destruct ks as [|k0 ks]; [inversion F; subst; eauto|]. cbn [app] in F. inversion F as [|? ? ? ? _ F2]; subst. destruct ks; inversion F2.
    - destruct ks as [|k0 ks]; cbn [app] in F; inversion F as [|? ? ? ? _ F2]; subst; [destruct (turns_ne _ _ _ _ F2)|]. exact (IH u b ks k F2).
  Qed.
  Lemma turns_sum v us : forall a b k ks, Forall2 (turn_left tris v) (pairs (a :: us ++ [b])) (k :: ks) ->
    (tri_w w (pos o v) (cut v a) (f (ci k)) + fan_w w (pos o v) (pairs (map ctr (k :: ks))) + tri_w w (pos o v) (f (ci (last (k :: ks) k))) (cut v b) = sumR (map (quad_a v) (k :: ks)))%R.
  Proof.
    induction us as [|u us IH]; intros a b k ks F.
    - cbn [app] in F. rewrite pairs_cons in F. inversion F as [|? ? ? ? TE F2]; subst. inversion F2; subst. cbn [last map]. rewrite (quad_a_turn v a b k TE). unfold piece, fan_w, sumR. cbn. lra.
    - cbn [app] in F. rewrite pairs_cons in F. inversion F as [|? ? ? ? TE F2]; subst.
      destruct ks as [|k' ks]; [destruct (turns_ne _ _ _ _ F2)|]. specialize (IH u b k' ks F2). destruct (turns_first v us u b k' ks F2) as (z & TE').
      change (sumR (map (quad_a v) (k :: k' :: ks))) with (quad_a v k + sumR (map (quad_a v) (k' :: ks)))%R. rewrite <- IH, (quad_a_turn v a u k TE).
      cbn [map]. rewrite pairs_cons. unfold fan_w. cbn [map fst snd]. unfold sumR. cbn [fold_right]. rewrite (cut_step v a u z k k' TE TE').
      change (last (k :: k' :: ks) k) with (last (k' :: ks) k). rewrite (last_any k' ks k k'). unfold piece. lra.
  Qed.
  Lemma closed_sum v us u ts : Forall2 (turn_left tris v) (pairs (u :: us ++ [u])) ts -> loop_w w (map ctr ts) = sumR (map (quad_a v) ts).
  Proof.
    intros F. destruct ts as [|k ks]; [destruct (turns_ne _ _ _ _ F)|]. rewrite (loop_fan_a w W (pos o v)), <- (turns_sum v us u u k ks F). cbn [map]. rewrite (fan_closed_a w (pos o v)).
    destruct (turns_first v us u u k ks F) as (y & T1). destruct (exists_last (l := k :: ks) ltac:(discriminate)) as (r & z & E). rewrite E in F. destruct (turns_last v us u u r z F) as (y' & T2).
    replace (last (k :: ks) k) with z by (rewrite E, last_last; reflexivity). replace (last (map ctr ks) (f (ci k))) with (f (ci z)); [|symmetry].
    - rewrite (cut_step v y' u y z k T2 T1). lra.
    - transitivity (ctr (last ks k)); [exact (last_map_w _ _ ctr ks k)|]. cbn beta. f_equal. f_equal. replace z with (last (k :: ks) k) by (rewrite E, last_last; reflexivity). destruct ks as [|j ks]; [reflexivity|]. reflexivity.
  Qed.
  Lemma open_sum v us a b ts : Forall2 (turn_left tris v) (pairs (a :: us ++ [b])) ts ->
    fan_w w (pos o v) (pairs (cut v a :: map ctr ts ++ [cut v b])) = sumR (map (quad_a v) ts).
  Proof.
    intros F. destruct ts as [|k ks]; [destruct (turns_ne _ _ _ _ F)|]. rewrite <- (turns_sum v us a b k ks F).
    destruct (exists_last (l := k :: ks) ltac:(discriminate)) as (r & z & E). replace (last (k :: ks) k) with z by (rewrite E, last_last; reflexivity).
    cbn [map app]. rewrite pairs_cons. change (f (ci k) :: map ctr ks ++ [cut v b]) with (map ctr (k :: ks) ++ [cut v b]). change (f (ci k) :: map ctr ks) with (map ctr (k :: ks)). rewrite E, map_app. cbn [map]. rewrite pairs_snoc.
    unfold fan_w. cbn [map fst snd]. unfold sumR at 1. cbn [fold_right]. fold (sumR (map (fun e => tri_w w (pos o v) (fst e) (snd e)) (pairs (map ctr r ++ [f (ci z)]) ++ [(f (ci z), cut v b)]))). rewrite map_app, sumR_app. unfold sumR. cbn [map fold_right fst snd]. lra.
  Qed.
End Fans.
