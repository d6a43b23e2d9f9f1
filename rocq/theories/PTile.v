(** The areas of the Voronoi cells of a convex domain add up to the areas of the triangles. *)
From Coq Require Import Reals Lra Lia ZArith List Bool Permutation.
From Verif Require Import Base Spec MUtil MGeom MHull MPolygon MMaps MTriangle MGen MRegion MDelaunay MVoronoi Bridge.
From Verif Require Import PUtil PPoint PPoly PPoly2 PTri PMore PContains PDelaunay PVoronoi PFan PVorGeo PVorCell PConvex PVorConvex PWedge PBorderCell PVorBorder.
Import ListNotations.

(** * Sums *)
Section Sums.
  Local Open Scope R_scope.
  Lemma sumR_zero {A} (f : A -> R) l : (forall a, In a l -> f a = 0) -> sumR (map f l) = 0.
  Proof. induction l as [|a l IH]; intros H; cbn; [reflexivity|]. rewrite (H a) by (left; reflexivity). fold (sumR (map f l)). rewrite IH; [lra|]. intros b Hb. apply H. right. exact Hb. Qed.
  Lemma sumR_swap {A B} (f : A -> B -> R) l l' : sumR (map (fun a => sumR (map (f a) l')) l) = sumR (map (fun b => sumR (map (fun a => f a b) l)) l').
  Proof.
    induction l as [|a l IH]; cbn [map].
    - cbn. symmetry. apply sumR_zero. reflexivity.
    - cbn [sumR fold_right]. fold (sumR (map (fun a0 => sumR (map (f a0) l')) l)). rewrite IH.
      rewrite <- sumR_map_add. apply sumR_map_ext. reflexivity.
  Qed.
  Lemma sumR_delta V A x : NoDup V -> In A V -> sumR (map (fun v => if (v =? A)%Z then x else 0) V) = x.
  Proof.
    induction V as [|w V IH]; intros ND I; [destruct I|]. inversion_clear ND as [|? ? N1 N2]. cbn [map sumR fold_right]. fold (sumR (map (fun v => if (v =? A)%Z then x else 0) V)).
    destruct (Z.eqb_spec w A) as [->|NE].
    - rewrite sumR_zero; [lra|]. intros b Hb. destruct (Z.eqb_spec b A) as [->|_]; [contradiction|reflexivity].
    - rewrite IH; [lra|exact N2|]. destruct I as [I|I]; [contradiction|exact I].
  Qed.
  (** the sum over a list without the terms that vanish *)
  Lemma sumR_part (f : nat -> R) l l' : NoDup l -> NoDup l' -> incl l' l -> (forall k, In k l -> ~ In k l' -> f k = 0) -> sumR (map f l) = sumR (map f l').
  Proof.
    intros N1 N2 I Z.
    assert (P : Permutation l (l' ++ filter (fun k => if in_dec Nat.eq_dec k l' then false else true) l)).
    { apply NoDup_Permutation; [exact N1| |].
      - clear - N1 N2. set (q := filter _ l). assert (N3 : NoDup q) by (apply NoDup_filter; exact N1).
        assert (D : forall k, In k q -> ~ In k l') by (intros k Hk; apply filter_In in Hk as [_ Hk]; destruct (in_dec Nat.eq_dec k l'); [discriminate|assumption]).
        clearbody q. induction l' as [|a l' IH]; [exact N3|]. inversion_clear N2 as [|? ? M1 M2]. cbn [app]. constructor.
        + intros H. apply in_app_or in H as [H|H]; [contradiction|]. apply (D a H). left. reflexivity.
        + apply IH; [exact M2|]. intros k Hk H. apply (D k Hk). right. exact H.
      - intros k. rewrite in_app_iff, filter_In. destruct (in_dec Nat.eq_dec k l') as [H|H]; [split; [left; exact H|intros _; apply I, H]|]. intuition congruence. }
    rewrite (sumR_perm _ _ (Permutation_map f P)), map_app, sumR_app. rewrite (sumR_zero f (filter _ l)); [lra|].
    intros k Hk. apply filter_In in Hk as [H1 H2]. apply Z; [exact H1|]. destruct (in_dec Nat.eq_dec k l'); [discriminate|assumption].
  Qed.
End Sums.

(** * A closed chain around a strictly convex polygon *)
Definition moves (e : pt * pt) : bool := if pair_eq_dec (fst e) (snd e) then false else true.
Lemma moves_iff e : moves e = true <-> fst e <> snd e.
Proof. unfold moves. destruct (pair_eq_dec (fst e) (snd e)); split; congruence. Qed.
Lemma sum_moves (f : pt * pt -> R) es : (forall x, f (x, x) = 0%R) -> sumR (map f es) = sumR (map f (filter moves es)).
Proof.
  intros Z. induction es as [|[x y] es IH]; [reflexivity|]. cbn [filter map]. destruct (moves (x, y)) eqn:M; cbn [map sumR fold_right]; fold (sumR (map f es)); rewrite IH.
  - reflexivity.
  - unfold moves in M. cbn [fst snd] in M. destruct (pair_eq_dec x y) as [->|]; [|discriminate]. rewrite Z. lra.
Qed.
(** some step leaves an element of a closed list unless all elements are the same *)
Lemma leaves (Q : list pt) x y : In x Q -> In y Q -> x <> y -> exists z, In (x, z) (edges_of Q) /\ z <> x.
Proof.
  intros Hx Hy N. apply in_split in Hx as (l1 & l2 & ->).
  assert (G : exists z, In (x, z) (edges_of ((x :: l2) ++ l1)) /\ z <> x).
  2: { destruct G as (z & G & NZ). exists z. split; [|exact NZ]. apply (Permutation_in _ (edges_of_app_comm (x :: l2) l1)). exact G. }
  assert (Hy' : In y ((x :: l2) ++ l1)) by (rewrite in_app_iff in *; tauto). clear Hy. revert Hy'. cbn [app]. generalize (l2 ++ l1). clear l1 l2. intros l Hy.
  unfold edges_of. cbn [app]. destruct Hy as [Hy|Hy]; [congruence|].
  assert (G : forall l, In y l -> forall t, exists z, In (x, z) (pairs (x :: l ++ t)) /\ z <> x); [|apply G; exact Hy]. clear Hy l.
  induction l as [|b l IH]; intros Hy t; [destruct Hy|]. cbn [app]. rewrite pairs_cons. destruct (pair_eq_dec b x) as [->|NB].
  - destruct Hy as [->|Hy]; [congruence|]. destruct (IH Hy t) as (z & H & NZ). exists z. split; [right; exact H|exact NZ].
  - exists b. split; [left; reflexivity|exact NB].
Qed.
Lemma chain_area P Q : strictly_convex P -> (forall x, In x P <-> In x Q) ->
  (forall x y, In (x, y) (edges_of Q) -> forall z, In z Q -> (0 <= orient x y z)%R) -> NoDup (filter moves (edges_of Q)) -> shoelace P = shoelace Q.
Proof.
  intros SC S L ND. pose proof SC as (L3 & NP & ST).
  assert (E1 : forall x y, In (x, y) (edges_of Q) -> x <> y -> In (x, y) (edges_of P)).
  { intros x y H N. destruct (edge_in _ _ _ H) as [Ix Iy]. apply S in Ix. destruct (proj1 (in_edge_of P x Ix)) as (z & Hz).
    destruct (pair_eq_dec z y) as [->|NZ]; [exact Hz|]. exfalso. destruct (edge_in _ _ _ Hz) as [_ Iz].
    assert (A : (0 < orient x z y)%R) by (apply (ST x z y Hz); [apply S; exact Iy|congruence|congruence]).
    pose proof (L x y H z (proj1 (S z) Iz)) as B. unfold orient, vcross, vsub in *. cbn [fst snd] in *. lra. }
  assert (PE : Permutation (edges_of P) (filter moves (edges_of Q))).
  { apply NoDup_Permutation; [apply edges_nodup; exact SC|exact ND|]. intros [x y]. rewrite filter_In, moves_iff. cbn [fst snd]. split; [|intros [H N]; apply E1; assumption].
    intros H. pose proof (convex_edge P SC x y H) as N. split; [|exact N]. destruct (edge_in _ _ _ H) as [Ix Iy]. apply S in Ix. pose proof (proj1 (S y) Iy) as Iy'.
    destruct (leaves Q x y Ix Iy' N) as (z & Hz & NZ). pose proof (E1 x z Hz ltac:(congruence)) as K. rewrite (same_fst P SC x y z H K). exact Hz. }
  unfold shoelace. f_equal. rewrite (sum_moves _ (edges_of Q)) by (intros [a b]; unfold vcross; cbn [fst snd]; lra). apply sumR_perm, Permutation_map, PE.
Qed.

(** * Steps along bisectors *)
Section Bisect.
  Local Open Scope R_scope.
  Variable p : pt.
  Definition along (e : pt * pt) (w : pt) : Prop := w <> p /\ dist (fst e) p = dist (fst e) w /\ dist (snd e) p = dist (snd e) w.
  Lemma along_one e w w' : fst e <> snd e -> along e w -> along e w' -> w = w'.
  Proof.
    unfold along. destruct e as [[x1 x2] [y1 y2]], p as [p1 p2], w as [w1 w2], w' as [v1 v2]. cbn [fst snd]. intros N (N1 & A1 & A2) (N2 & B1 & B2).
    apply dist_eq in A1, A2, B1, B2. unfold vdot, vsub in *. cbn [fst snd] in *.
    set (a1 := w1 - p1) in *. set (a2 := w2 - p2) in *. set (b1 := v1 - p1) in *. set (b2 := v2 - p2) in *. set (d1 := y1 - x1). set (d2 := y2 - x2).
    assert (D : 0 < d1 * d1 + d2 * d2).
    { unfold d1, d2. destruct (Req_dec y1 x1) as [E1|E1], (Req_dec y2 x2) as [E2|E2]; [exfalso; apply N; congruence|nra|nra|nra]. }
    assert (P1 : a1 * d1 + a2 * d2 = 0) by (unfold d1, d2; lra). assert (P2 : b1 * d1 + b2 * d2 = 0) by (unfold d1, d2; lra).
    assert (NA : 0 < a1 * a1 + a2 * a2) by (unfold a1, a2; destruct (Req_dec w1 p1) as [E1|E1], (Req_dec w2 p2) as [E2|E2]; [exfalso; apply N1; congruence|nra|nra|nra]).
    assert (NB : 0 < b1 * b1 + b2 * b2) by (unfold b1, b2; destruct (Req_dec v1 p1) as [E1|E1], (Req_dec v2 p2) as [E2|E2]; [exfalso; apply N2; congruence|nra|nra|nra]).
    (* multiples of the normal *)
    set (D2 := d1 * d1 + d2 * d2) in *. set (s := (a2 * d1 - a1 * d2) / D2). set (t := (b2 * d1 - b1 * d2) / D2).
    assert (SD : s * D2 = a2 * d1 - a1 * d2) by (unfold s; field; lra). assert (TD : t * D2 = b2 * d1 - b1 * d2) by (unfold t; field; lra).
    assert (A1' : a1 = - s * d2). { apply (Rmult_eq_reg_l D2); [|lra]. replace (D2 * (- s * d2)) with (- (s * D2) * d2) by ring. rewrite SD. unfold D2. replace ((d1 * d1 + d2 * d2) * a1) with (d1 * (a1 * d1 + a2 * d2) + - (a2 * d1 - a1 * d2) * d2) by ring. rewrite P1. ring. }
    assert (A2' : a2 = s * d1). { apply (Rmult_eq_reg_l D2); [|lra]. replace (D2 * (s * d1)) with (s * D2 * d1) by ring. rewrite SD. unfold D2. replace ((d1 * d1 + d2 * d2) * a2) with (d2 * (a1 * d1 + a2 * d2) + (a2 * d1 - a1 * d2) * d1) by ring. rewrite P1. ring. }
    assert (B1' : b1 = - t * d2). { apply (Rmult_eq_reg_l D2); [|lra]. replace (D2 * (- t * d2)) with (- (t * D2) * d2) by ring. rewrite TD. unfold D2. replace ((d1 * d1 + d2 * d2) * b1) with (d1 * (b1 * d1 + b2 * d2) + - (b2 * d1 - b1 * d2) * d2) by ring. rewrite P2. ring. }
    assert (B2' : b2 = t * d1). { apply (Rmult_eq_reg_l D2); [|lra]. replace (D2 * (t * d1)) with (t * D2 * d1) by ring. rewrite TD. unfold D2. replace ((d1 * d1 + d2 * d2) * b2) with (d2 * (b1 * d1 + b2 * d2) + (b2 * d1 - b1 * d2) * d1) by ring. rewrite P2. ring. }
    set (c1 := x1 - p1). set (c2 := x2 - p2). set (q := 2 * (c2 * d1 - c1 * d2)).
    assert (Q1 : s * D2 = q).
    { assert (S0 : s <> 0) by (intros S0; rewrite A1', A2', S0 in NA; lra). apply (Rmult_eq_reg_l s); [|exact S0]. unfold q, D2.
      assert (K : a1 * a1 + a2 * a2 = 2 * (c1 * a1 + c2 * a2)) by (unfold c1, c2; lra). rewrite A1', A2' in K. nra. }
    assert (Q2 : t * D2 = q).
    { assert (S0 : t <> 0) by (intros S0; rewrite B1', B2', S0 in NB; lra). apply (Rmult_eq_reg_l t); [|exact S0]. unfold q, D2.
      assert (K : b1 * b1 + b2 * b2 = 2 * (c1 * b1 + c2 * b2)) by (unfold c1, c2; lra). rewrite B1', B2' in K. nra. }
    assert (ST : s = t) by (apply (Rmult_eq_reg_r D2); lra). unfold a1, a2, b1, b2 in *. f_equal; rewrite ST in *; lra.
  Qed.
  Lemma along_nodup es W : Forall2 along es W -> NoDup W -> NoDup (filter moves es).
  Proof.
    induction 1 as [|e w es W H F IH]; intros ND; [constructor|]. inversion_clear ND as [|? ? N1 N2]. cbn [filter]. destruct (moves e) eqn:M; [|apply IH, N2]. constructor; [|apply IH, N2].
    intros K. apply filter_In in K as [K _]. destruct (Forall2_in_left _ _ _ F e K) as (w' & Hw & A). apply N1. rewrite (along_one e w w'); [exact Hw|apply moves_iff, M|exact H|exact A].
  Qed.
  (** a center of a triangle p a b *)
  Definition equi (e : pt * pt) (c : pt) : Prop := fst e <> p /\ snd e <> p /\ dist c p = dist c (fst e) /\ dist c p = dist c (snd e).
  Lemma mid_equi w : dist (midpoint p w) p = dist (midpoint p w) w.
  Proof. unfold dist, midpoint. cbn [fst snd]. f_equal. field. Qed.
  Lemma cons_forall2 {A B} (P : A -> B -> Prop) x l ys : Forall2 P (x :: l) ys -> exists y ys', ys = y :: ys' /\ P x y /\ Forall2 P l ys'.
  Proof. intros H. inversion H; subst; eauto. Qed.
  Lemma equi_ne us a b : ~ Forall2 equi (pairs (a :: us ++ [b])) [].
  Proof. destruct us; cbn [app]; rewrite pairs_cons; intros H; inversion H. Qed.
  Lemma equi_first us a b c cs : Forall2 equi (pairs (a :: us ++ [b])) (c :: cs) -> exists z, equi (a, z) c.
  Proof. destruct us; cbn [app]; rewrite pairs_cons; intros H; inversion H; subst; eauto. Qed.
  Lemma equi_along us : forall a b cs, Forall2 equi (pairs (a :: us ++ [b])) cs -> Forall2 along (pairs cs) us.
  Proof.
    induction us as [|u us IH]; intros a b cs F.
    - cbn [app] in F. rewrite pairs_cons in F. inversion F as [|? c ? ? _ F2]; subst. inversion F2; subst. constructor.
    - cbn [app] in F. rewrite pairs_cons in F. apply cons_forall2 in F as (c & cs' & -> & F1 & F2). specialize (IH u b cs' F2).
      destruct cs' as [|c' cs']; [destruct (equi_ne _ _ _ F2)|]. rewrite pairs_cons. constructor; [|exact IH].
      destruct (equi_first us u b c' cs' F2) as (z & F3).
      unfold equi, along in *. cbn [fst snd] in *. tauto.
  Qed.
  Lemma equi_last us a b cs c : Forall2 equi (pairs (a :: us ++ [b])) (cs ++ [c]) -> exists z, equi (z, b) c.
  Proof. intros H. exact (chain_last equi a us b cs c H). Qed.
  Lemma snoc_pairs_fst {A} (l : list A) x : map fst (pairs (l ++ [x])) = l.
  Proof. induction l as [|a [|b l] IH]; [reflexivity|reflexivity|]. cbn [app] in *. rewrite pairs_cons. cbn [map fst]. f_equal. exact IH. Qed.

  (** ** Areas *)
  Definition kite (a b c : pt) : R := orient p (midpoint p a) c + orient p c (midpoint p b).
  Definition kites (l : list ((pt * pt) * pt)) : R := sumR (map (fun x => kite (fst (fst x)) (snd (fst x)) (snd x)) l).
  Definition around_p (es : list (pt * pt)) : R := sumR (map (fun e => orient p (fst e) (snd e)) es).
  Lemma along_cut x y w : along (x, y) w -> orient p x y = orient p x (midpoint p w) + orient p (midpoint p w) y.
  Proof.
    intros (N & A & B). cbn [fst snd] in *. apply dist_eq in A, B. destruct p as [p1 p2], x as [x1 x2], y as [y1 y2], w as [w1 w2]. unfold orient, vcross, vdot, vsub, midpoint in *. cbn [fst snd] in *.
    assert (Z : 0 < (w1 - p1) * (w1 - p1) + (w2 - p2) * (w2 - p2)) by (destruct (Req_dec w1 p1) as [E1|E1], (Req_dec w2 p2) as [E2|E2]; [exfalso; apply N; congruence|nra|nra|nra]).
    set (a1 := w1 - p1) in *. set (a2 := w2 - p2) in *.
    replace ((p1 + w1) / 2 - p1) with (a1 / 2) by (unfold a1; field). replace ((p2 + w2) / 2 - p2) with (a2 / 2) by (unfold a2; field).
    set (u1 := x1 - p1 - a1 / 2). set (u2 := x2 - p2 - a2 / 2). set (v1 := y1 - p1 - a1 / 2). set (v2 := y2 - p2 - a2 / 2).
    assert (U : a1 * u1 + a2 * u2 = 0) by (unfold u1, u2; lra). assert (V : a1 * v1 + a2 * v2 = 0) by (unfold v1, v2; lra).
    assert (K : (a1 * a1 + a2 * a2) * (u1 * v2 - u2 * v1) = (a1 * u1 + a2 * u2) * (a1 * v2 - a2 * v1) - (a1 * u2 - a2 * u1) * (a1 * v1 + a2 * v2)) by ring.
    rewrite U, V in K. assert (K0 : u1 * v2 - u2 * v1 = 0) by (apply (Rmult_eq_reg_l (a1 * a1 + a2 * a2)); lra). unfold u1, u2, v1, v2 in K0. lra.
  Qed.
  Lemma last_any {A} (x : A) l d d' : last (x :: l) d = last (x :: l) d'.
  Proof. revert x. induction l as [|y l IH]; intros x; [reflexivity|exact (IH y)]. Qed.
  Lemma equi_area us : forall a b c cs, Forall2 equi (pairs (a :: us ++ [b])) (c :: cs) ->
    orient p (midpoint p a) c + around_p (pairs (c :: cs)) + orient p (last (c :: cs) c) (midpoint p b) = kites (combine (pairs (a :: us ++ [b])) (c :: cs)).
  Proof.
    induction us as [|u us IH]; intros a b c cs F.
    - cbn [app] in *. rewrite pairs_cons in *. inversion F as [|? ? ? ? _ F2]; subst. inversion F2; subst. cbn. unfold kites, kite, around_p. cbn. lra.
    - cbn [app] in *. rewrite pairs_cons in *. apply cons_forall2 in F as (c0 & cs0 & E0 & F1 & F2). injection E0 as <- <-.
      destruct cs as [|c' cs]; [destruct (equi_ne _ _ _ F2)|].
      specialize (IH u b c' cs F2). destruct (equi_first us u b c' cs F2) as (z & F3).
      cbn [combine]. unfold kites in *. cbn [map fst snd sumR fold_right]. fold (sumR (map (fun x => kite (fst (fst x)) (snd (fst x)) (snd x)) (combine (pairs (u :: us ++ [b])) (c' :: cs)))).
      rewrite <- IH. rewrite (pairs_cons c c' cs). unfold around_p. cbn [map fst snd sumR fold_right]. fold (sumR (map (fun e => orient p (fst e) (snd e)) (pairs (c' :: cs)))).
      rewrite (along_cut c c' u) by (unfold equi, along in *; cbn [fst snd] in *; tauto).
      replace (last (c :: c' :: cs) c) with (last (c' :: cs) c'); [unfold kite; lra|].
      apply (last_any c' cs c' c).
  Qed.
  Lemma around_app es es' : around_p (es ++ es') = around_p es + around_p es'.
  Proof. unfold around_p. rewrite map_app. apply sumR_app. Qed.
  Lemma shoelace_around Q : shoelace Q = around_p (edges_of Q) / 2.
  Proof.
    rewrite (shoelace_fan p). unfold around_p. rewrite <- sumR_div. apply sumR_map_ext. intros e _. f_equal. unfold orient, vcross, vsub. cbn [fst snd]. lra.
  Qed.
  (** a closed fan *)
  Lemma closed_area us w cs : Forall2 equi (pairs (w :: us ++ [w])) cs -> shoelace cs = kites (combine (pairs (w :: us ++ [w])) cs) / 2.
  Proof.
    intros F. destruct cs as [|c cs]; [destruct (equi_ne _ _ _ F)|].
    rewrite shoelace_around. f_equal. rewrite <- (equi_area us w w c cs F).
    destruct (exists_last (l := c :: cs) ltac:(discriminate)) as (r & z & E). unfold edges_of.
    rewrite E, pairs_snoc, <- E, around_app. unfold around_p at 2. cbn [map fst snd sumR fold_right].
    replace (last (c :: cs) c) with z by (rewrite E, last_last; reflexivity).
    rewrite E in F. destruct (equi_last us w w r z F) as (y & F2). rewrite <- E in F. destruct (equi_first us w w c cs F) as (y' & F1).
    rewrite (along_cut z c w) by (unfold equi, along in *; cbn [fst snd] in *; tauto). lra.
  Qed.
  Lemma closed_nodup us w cs : Forall2 equi (pairs (w :: us ++ [w])) cs -> NoDup (w :: us) -> NoDup (filter moves (edges_of cs)).
  Proof.
    intros F ND. apply (along_nodup _ (us ++ [w])); [|apply (Permutation_NoDup (Permutation_cons_append us w)), ND].
    destruct cs as [|c cs]; [destruct (equi_ne _ _ _ F)|].
    destruct (exists_last (l := c :: cs) ltac:(discriminate)) as (r & z & E). unfold edges_of. rewrite E, pairs_snoc, <- E. apply Forall2_app; [exact (equi_along us w w _ F)|]. constructor; [|constructor].
    rewrite E in F. destruct (equi_last us w w r z F) as (y & F2). rewrite <- E in F. destruct (equi_first us w w c cs F) as (y' & F1). unfold equi, along in *; cbn [fst snd] in *; tauto.
  Qed.
  (** an open fan *)
  Section Open.
    Variables (a b : pt) (us cs : list pt).
    Hypothesis F : Forall2 equi (pairs (a :: us ++ [b])) cs.
    Hypothesis ND : NoDup (a :: us ++ [b]).
    Notation C := (midpoint p a :: cs ++ [midpoint p b]).
    Lemma open_along : Forall2 along (pairs C) (a :: us ++ [b]).
    Proof.
      destruct cs as [|c r]; [destruct (equi_ne _ _ _ F)|].
      destruct (exists_last (l := c :: r) ltac:(discriminate)) as (r' & z & E). cbn [app]. rewrite pairs_cons. constructor.
      - destruct (equi_first us a b c r F) as (y & H). pose proof (mid_equi a). unfold equi, along in *; cbn [fst snd] in *; tauto.
      - change (c :: r ++ [midpoint p b]) with ((c :: r) ++ [midpoint p b]). pose proof (equi_along us a b _ F) as G. rewrite E in *. rewrite pairs_snoc. apply Forall2_app; [exact G|]. constructor; [|constructor].
        destruct (equi_last us a b r' z F) as (y & H). pose proof (mid_equi b). unfold equi, along in *; cbn [fst snd] in *; tauto.
    Qed.
    Lemma open_pairs_area : around_p (pairs C) = kites (combine (pairs (a :: us ++ [b])) cs).
    Proof.
      destruct cs as [|c r]; [destruct (equi_ne _ _ _ F)|]. rewrite <- (equi_area us a b c r F).
      destruct (exists_last (l := c :: r) ltac:(discriminate)) as (r' & z & E). cbn [app]. rewrite pairs_cons.
      change (c :: r ++ [midpoint p b]) with ((c :: r) ++ [midpoint p b]). replace (last (c :: r) c) with z by (rewrite E, last_last; reflexivity). rewrite E, pairs_snoc, <- E. unfold around_p. cbn [map fst snd sumR fold_right]. fold (sumR (map (fun e => orient p (fst e) (snd e)) (pairs (c :: r) ++ [(z, midpoint p b)]))).
      rewrite map_app, sumR_app. cbn. lra.
    Qed.
    Lemma C_last l : l <> [] -> C = l ++ [midpoint p b] -> l = midpoint p a :: cs.
    Proof. intros _ E. change C with ((midpoint p a :: cs) ++ [midpoint p b]) in E. apply app_inj_tail in E as [E _]. congruence. Qed.
    Lemma proper_edges_of : edges_of (C ++ [p]) = pairs C ++ [(midpoint p b, p); (p, midpoint p a)].
    Proof.
      change (edges_of (C ++ [p])) with (pairs ((((midpoint p a :: cs) ++ [midpoint p b]) ++ [p]) ++ [midpoint p a])). rewrite pairs_snoc, pairs_snoc, <- app_assoc. reflexivity.
    Qed.
    Lemma flat_edges_of : edges_of C = pairs C ++ [(midpoint p b, midpoint p a)].
    Proof. change (edges_of C) with (pairs (((midpoint p a :: cs) ++ [midpoint p b]) ++ [midpoint p a])). rewrite pairs_snoc. reflexivity. Qed.
    Lemma proper_area : shoelace (C ++ [p]) = kites (combine (pairs (a :: us ++ [b])) cs) / 2.
    Proof. rewrite shoelace_around, proper_edges_of, around_app, open_pairs_area. unfold around_p. cbn. unfold orient, vcross, vsub. cbn [fst snd]. lra. Qed.
    Lemma flat_area : orient p a b = 0 -> shoelace C = kites (combine (pairs (a :: us ++ [b])) cs) / 2.
    Proof.
      intros O. rewrite shoelace_around, flat_edges_of, around_app, open_pairs_area. unfold around_p. cbn. replace (orient p (midpoint p b) (midpoint p a)) with (- (orient p a b / 4)); [rewrite O; lra|].
      unfold orient, vcross, vsub, midpoint. cbn [fst snd]. lra.
    Qed.
    Lemma nodup_snoc {A} (l : list A) x : NoDup l -> ~ In x l -> NoDup (l ++ [x]).
    Proof. intros N1 N2. apply (Permutation_NoDup (Permutation_cons_append l x)). constructor; assumption. Qed.
    Lemma proper_nodup : ~ In p C -> NoDup (filter moves (edges_of (C ++ [p]))).
    Proof.
      intros NP. rewrite proper_edges_of. change [(midpoint p b, p); (p, midpoint p a)] with ([(midpoint p b, p)] ++ [(p, midpoint p a)]). rewrite app_assoc, !filter_app.
      pose proof (along_nodup _ _ open_along ND) as N0.
      assert (S : forall e, In e (filter moves (pairs C)) -> fst e <> p /\ snd e <> p).
      { intros e He. apply filter_In in He as [He _]. destruct (pairs_in _ _ He) as [I1 I2]. split; intros E; apply NP; [rewrite E in I1; exact I1|rewrite E in I2; exact I2]. }
      assert (N1 : NoDup (filter moves (pairs C) ++ filter moves [(midpoint p b, p)])).
      { cbn [filter]. destruct (moves (midpoint p b, p)); [|rewrite app_nil_r; exact N0]. apply nodup_snoc; [exact N0|]. intros H. apply (proj2 (S _ H)). reflexivity. }
      cbn [filter] in *. destruct (moves (p, midpoint p a)); [|rewrite app_nil_r; exact N1]. apply nodup_snoc; [exact N1|]. intros H. apply in_app_or in H as [H|H].
      - apply (proj1 (S _ H)). reflexivity.
      - destruct (moves (midpoint p b, p)); [|destruct H]. destruct H as [H|[]]. injection H as H1 H2. apply NP. left. congruence.
    Qed.
    Lemma flat_nodup : orient p a b = 0 -> a <> b -> NoDup (filter moves (edges_of C)).
    Proof.
      intros O NAB. rewrite flat_edges_of, filter_app. pose proof (along_nodup _ _ open_along ND) as N0. cbn [filter]. destruct (moves _) eqn:M; [|rewrite app_nil_r; exact N0].
      apply nodup_snoc; [exact N0|]. intros H. apply filter_In in H as [H _]. destruct (Forall2_in_left _ _ _ open_along _ H) as (w & _ & NW & D1 & D2). cbn [fst snd] in *.
      apply dist_eq in D1, D2. apply NW. clear - O D1 D2 NAB. destruct p as [p1 p2], a as [a1 a2], b as [b1 b2], w as [w1 w2]. unfold orient, vcross, vdot, vsub, midpoint in *. cbn [fst snd] in *.
      set (A1 := a1 - p1) in *. set (A2 := a2 - p2) in *. set (B1 := b1 - p1) in *. set (B2 := b2 - p2) in *. set (W1 := w1 - p1) in *. set (W2 := w2 - p2) in *.
      replace ((p1 + b1) / 2 - p1) with (B1 / 2) in D1 by (unfold B1; field). replace ((p2 + b2) / 2 - p2) with (B2 / 2) in D1 by (unfold B2; field).
      replace ((p1 + a1) / 2 - p1) with (A1 / 2) in D2 by (unfold A1; field). replace ((p2 + a2) / 2 - p2) with (A2 / 2) in D2 by (unfold A2; field).
      set (n := W1 * W1 + W2 * W2) in *.
      (* W . A = W . B = |W|^2 with A, B parallel and different *)
      assert (X : W1 * (A1 - B1) + W2 * (A2 - B2) = 0) by lra.
      destruct (Req_dec n 0) as [Z|Z].
      - assert (W1 = 0 /\ W2 = 0) as [Z1 Z2] by (unfold n in Z; split; nra). unfold W1, W2 in *. f_equal; lra.
      - exfalso. assert (E1 : n * (A1 - B1) = 0).
        { replace (n * (A1 - B1)) with ((W1 * A1 + W2 * A2) * (A1 - B1)) by (replace (W1 * A1 + W2 * A2) with n by lra; ring).
          replace ((W1 * A1 + W2 * A2) * (A1 - B1)) with (A1 * (W1 * (A1 - B1) + W2 * (A2 - B2)) + W2 * (A1 * B2 - A2 * B1)) by ring. rewrite X, O. ring. }
        assert (E2 : n * (A2 - B2) = 0).
        { replace (n * (A2 - B2)) with ((W1 * A1 + W2 * A2) * (A2 - B2)) by (replace (W1 * A1 + W2 * A2) with n by lra; ring).
          replace ((W1 * A1 + W2 * A2) * (A2 - B2)) with (A2 * (W1 * (A1 - B1) + W2 * (A2 - B2)) - W1 * (A1 * B2 - A2 * B1)) by ring. rewrite X, O. ring. }
        apply Rmult_integral in E1 as [E1|E1]; [contradiction|]. apply Rmult_integral in E2 as [E2|E2]; [contradiction|]. unfold A1, B1, A2, B2 in *. apply NAB. f_equal; lra.
    Qed.
  End Open.
End Bisect.
