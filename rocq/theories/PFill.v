(** A triangulation that fills a convex outline is a convex domain, and its area is the area of the outline. *)
From Coq Require Import Reals Lra Lia ZArith List Bool Permutation.
From Verif Require Import Base Spec MUtil MGeom MHull MPolygon MMaps MTriangle MGen MRegion MDelaunay MVoronoi Bridge BridgeTile BridgeHist BridgeFill.
From Verif Require Import PUtil PPoint PPoly PPoly2 PTri PMore PDelaunay PVoronoi PFan PVorGeo PVorCell PConvex PVorConvex PWedge PTile PTile2 PTile3 PTile4 PTile5 PTile6.
Import ListNotations.

Section Strung.
  Local Open Scope R_scope.
  Lemma lerp_lerp a b s t : lerp (lerp a b s) b t = lerp a b (s + t * (1 - s)).
  Proof. unfold lerp. cbn [fst snd]. f_equal; lra. Qed.
  Lemma lerp_0 a b : lerp a b 0 = a.
  Proof. destruct a. unfold lerp. cbn [fst snd]. f_equal; lra. Qed.
  Lemma lerp_1 a b : lerp a b 1 = b.
  Proof. destruct b. unfold lerp. cbn [fst snd]. f_equal; lra. Qed.
  (** the pairs of a string lie along the segment *)
  Lemma strung_pairs b l : forall a, strung a b l -> forall x y, In (x, y) (pairs (a :: l ++ [b])) ->
    exists s t, 0 <= s < t /\ t <= 1 /\ x = lerp a b s /\ y = lerp a b t.
  Proof.
    induction l as [|c l IH]; intros a S x y H.
    - destruct H as [E|[]]. injection E as <- <-. exists 0, 1. rewrite lerp_0, lerp_1. repeat split; lra.
    - destruct S as [(u & U & ->) S]. change (pairs (a :: (lerp a b u :: l) ++ [b])) with ((a, lerp a b u) :: pairs (lerp a b u :: l ++ [b])) in H. destruct H as [E|H].
      + injection E as <- <-. exists 0, u. rewrite lerp_0. repeat split; lra.
      + destruct (IH _ S x y H) as (s & t & L1 & L2 & -> & ->). rewrite !lerp_lerp. exists (u + s * (1 - u)), (u + t * (1 - u)). repeat split; nra.
  Qed.
  Lemma pairs_app {A} (l : list A) x r : pairs (l ++ x :: r) = pairs (l ++ [x]) ++ pairs (x :: r).
  Proof.
    induction l as [|a l IH]; [reflexivity|]. destruct l as [|b l].
    - reflexivity.
    - change ((a :: b :: l) ++ x :: r) with (a :: b :: (l ++ x :: r)). change ((a :: b :: l) ++ [x]) with (a :: b :: (l ++ [x])).
      cbn [pairs]. cbn [app] in IH. cbn [app]. f_equal. exact IH.
  Qed.
  Lemma path_pairs vs r : strung_path vs r -> forall x y, In (x, y) (pairs r) ->
    exists P Q s t, In (P, Q) (pairs vs) /\ 0 <= s < t /\ t <= 1 /\ x = lerp P Q s /\ y = lerp P Q t.
  Proof.
    induction 1 as [a|a b vs l r S H IH]; intros x y K; [destruct K|].
    change (a :: l ++ b :: r) with ((a :: l) ++ b :: r) in K. rewrite pairs_app in K. apply in_app_or in K as [K|K].
    - destruct (strung_pairs b l a S x y K) as (s & t & L). exists a, b, s, t. split; [left; reflexivity|exact L].
    - destruct (IH x y K) as (P & Q & s & t & I & L). exists P, Q, s, t. split; [right; exact I|exact L].
  Qed.
  (** strings do not change the sum of the cross products *)
  Definition crosses (es : list (pt * pt)) : R := sumR (map (fun e => vcross (fst e) (snd e)) es).
  Lemma crosses_app es es' : crosses (es ++ es') = crosses es + crosses es'.
  Proof. unfold crosses. rewrite map_app. apply sumR_app. Qed.
  Lemma strung_crosses b l : forall a, strung a b l -> crosses (pairs (a :: l ++ [b])) = vcross a b.
  Proof.
    induction l as [|c l IH]; intros a S.
    - unfold crosses. cbn. lra.
    - destruct S as [(u & U & ->) S]. change (pairs (a :: (lerp a b u :: l) ++ [b])) with ((a, lerp a b u) :: pairs (lerp a b u :: l ++ [b])).
      change (crosses ((a, lerp a b u) :: pairs (lerp a b u :: l ++ [b]))) with (vcross a (lerp a b u) + crosses (pairs (lerp a b u :: l ++ [b]))).
      rewrite (IH _ S). unfold vcross, lerp. cbn [fst snd]. lra.
  Qed.
  Lemma path_crosses vs r : strung_path vs r -> crosses (pairs r) = crosses (pairs vs).
  Proof.
    induction 1 as [a|a b vs l r S H IH]; [reflexivity|].
    change (a :: l ++ b :: r) with ((a :: l) ++ b :: r). rewrite pairs_app, crosses_app. change ((a :: l) ++ [b]) with (a :: l ++ [b]). rewrite (strung_crosses b l a S), IH. reflexivity.
  Qed.
  Lemma path_head vs r : strung_path vs r -> exists a vs' r', vs = a :: vs' /\ r = a :: r'.
  Proof. destruct 1; eauto. Qed.
  Lemma subdivides_edges ring outline : subdivides ring outline -> exists a r, ring = a :: r /\ strung_path (outline ++ [a]) (ring ++ [a]) /\ edges_of outline = pairs (outline ++ [a]).
  Proof.
    unfold subdivides. destruct outline as [|a vs]; [contradiction|]. intros H. destruct (path_head _ _ H) as (b & vs' & r' & E1 & E2). cbn [app] in E1. injection E1 as <- <-.
    destruct ring as [|c r]; cbn [app] in E2.
    - injection E2 as <-. exfalso. cbn [app] in H. inversion H as [|x b vs0 l r S H' X Y]; subst.
      + destruct vs; discriminate.
      + destruct l; discriminate.
    - injection E2 as -> <-. exists a, r. split; [reflexivity|]. split; [exact H|reflexivity].
  Qed.
  Lemma ring_edge ring outline x y : subdivides ring outline -> In (x, y) (edges_of ring) ->
    exists P Q s t, In (P, Q) (edges_of outline) /\ 0 <= s < t /\ t <= 1 /\ x = lerp P Q s /\ y = lerp P Q t.
  Proof. intros S H. destruct (subdivides_edges _ _ S) as (a & r & -> & SP & E). rewrite E. apply (path_pairs _ _ SP). exact H. Qed.
  Lemma ring_area ring outline : subdivides ring outline -> shoelace ring = shoelace outline.
  Proof. intros S. destruct (subdivides_edges _ _ S) as (a & r & -> & SP & E). unfold shoelace. rewrite E. f_equal. exact (path_crosses _ _ SP). Qed.
  (** everything in the hull of a convex outline is on the left *)
  Lemma outline_left outline P Q x : convex_outline outline -> in_hull outline x -> In (P, Q) (edges_of outline) -> 0 <= orient P Q x.
  Proof.
    intros CO H I. destruct (H (snd Q - snd P, - (fst Q - fst P))) as (p & Hp & L). pose proof (CO P Q p I Hp) as O.
    unfold orient, vcross, vdot, vsub in *. cbn [fst snd] in *. lra.
  Qed.
  Lemma side_left ring outline A B x : convex_outline outline -> subdivides ring outline -> in_hull outline x -> In (A, B) (edges_of ring) -> 0 <= orient A B x.
  Proof.
    intros CO S H I. destruct (ring_edge _ _ _ _ S I) as (P & Q & s & t & J & L1 & L2 & -> & ->). pose proof (outline_left _ P Q x CO H J) as O.
    assert (E : orient (lerp P Q s) (lerp P Q t) x = (t - s) * orient P Q x) by (unfold orient, vcross, vsub, lerp; cbn [fst snd]; ring). rewrite E. apply Rmult_le_pos; lra.
  Qed.
  (** two Gabriel edges on one ray end at one point *)
  Lemma gabriel_dot sites a b q : gabriel_edge sites a b -> In q sites -> 0 <= vdot (vsub q a) (vsub q b).
  Proof. intros G H. specialize (G q H). apply dist_le in G. unfold vdot, vsub, midpoint in *. cbn [fst snd] in *. lra. Qed.
  Lemma gabriel_corner sites p a b : gabriel_edge sites p a -> gabriel_edge sites p b -> In a sites -> In b sites -> a <> p -> b <> p -> a <> b ->
    0 <= orient p a b -> convex_corner p a b.
  Proof.
    intros G1 G2 IA IB NA NB NAB O. destruct (Rle_lt_or_eq_dec _ _ O) as [L|E]; [left; exact L|]. right. split; [auto|]. symmetry in E.
    apply (gabriel_dot _ _ _ b) in G1; [|exact IB]. apply (gabriel_dot _ _ _ a) in G2; [|exact IA]. apply Rnot_le_lt. intros D.
    set (x := vdot (vsub a p) (vsub a p)). set (y := vdot (vsub b p) (vsub b p)). set (d := vdot (vsub a p) (vsub b p)) in *.
    assert (PX : 0 < x). { unfold x. clear - NA. destruct p as [p1 p2], a as [a1 a2]. unfold vdot, vsub. cbn [fst snd]. destruct (Req_dec a1 p1) as [E1|E1], (Req_dec a2 p2) as [E2|E2]; [subst; contradiction|nra|nra|nra]. }
    assert (PY : 0 < y). { unfold y. clear - NB. destruct p as [p1 p2], b as [a1 a2]. unfold vdot, vsub. cbn [fst snd]. destruct (Req_dec a1 p1) as [E1|E1], (Req_dec a2 p2) as [E2|E2]; [subst; contradiction|nra|nra|nra]. }
    assert (XY : x * y = d * d + orient p a b * orient p a b) by (unfold x, y, d, orient, vcross, vdot, vsub; cbn [fst snd]; ring). rewrite E in XY.
    assert (L1 : d <= y) by (unfold y, d, vdot, vsub in *; cbn [fst snd] in *; lra). assert (L2 : d <= x) by (unfold x, d, vdot, vsub in *; cbn [fst snd] in *; lra).
    assert (Y : y = d) by nra. assert (X : x = d) by nra.
    assert (Z : (fst a - fst b) * (fst a - fst b) + (snd a - snd b) * (snd a - snd b) = x + y - 2 * d) by (unfold x, y, d, vdot, vsub; cbn [fst snd]; ring).
    rewrite X, Y in Z. replace (d + d - 2 * d) with 0 in Z by ring. apply NAB. clear - Z. destruct a as [a1 a2], b as [b1 b2]. cbn [fst snd] in Z. apply (Rplus_sqr_eq_0 (a1 - b1) (a2 - b2)) in Z as [Z1 Z2]. f_equal; lra.
  Qed.
End Strung.
