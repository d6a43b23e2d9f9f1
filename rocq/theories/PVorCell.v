(** The cells of the Voronoi construction and the Voronoi regions, over the reals. *)
From Coq Require Import Reals Lra Lia ZArith List Bool.
From Verif Require Import Base Spec MUtil MGeom MHull MPolygon MMaps MTriangle MGen MRegion MDelaunay MVoronoi Bridge.
From Verif Require Import PUtil PPoint PTri PMore PDelaunay PVoronoi PFan PVorGeo.
Import ListNotations.
Local Open Scope Z_scope.

(** ** Fans turn one way *)
Definition ccw3 (x y z : Z) (t : Z * Z * Z) : Prop := In (x, y) (sides t) /\ In (y, z) (sides t) /\ In (z, x) (sides t).
Lemma two_ways v a b t : NoDup (corners t) -> has_side (v, a) t = true -> has_side (v, b) t = true -> a <> b -> ccw3 v a b t \/ ccw3 v b a t.
Proof.
  destruct t as [[p q] r]. rewrite !has_side_iff. cbn [corners]. intros ND. inversion_clear ND as [|? ? N1 N2]. inversion_clear N2 as [|? ? N3 _].
  cbn [In] in *. unfold ccw3, sides. cbn [In]. intros. assert (p <> q /\ p <> r /\ q <> r) as (? & ? & ?) by intuition congruence. clear N1 N3.
  repeat match goal with H : _ \/ _ |- _ => destruct H | H : _ /\ _ |- _ => destruct H end; subst; try congruence; auto 10.
Qed.
Lemma ccw3_sides x y z t : ccw3 x y z t -> has_side (x, y) t = true /\ has_side (x, z) t = true.
Proof.
  destruct t as [[p q] r]. rewrite !has_side_iff. unfold ccw3, sides. cbn [In]. intros ([H1|[H1|[H1|[]]]] & _ & H3); injection H1 as <- <-; intuition (try congruence).
  all: repeat match goal with H : (_, _) = (_, _) |- _ => injection H as ? ?; subst end; auto 10.
Qed.
Section Turn.
  Variable tris : list (Z * Z * Z).
  Variable v : Z.
  Hypothesis C : forall t, In t tris -> NoDup (corners t).
  Hypothesis DO : directed_once tris.
  Definition turn_left (e : Z * Z) (k : nat) : Prop := exists t, nth_error tris k = Some t /\ ccw3 v (fst e) (snd e) t.
  Definition turn_right (e : Z * Z) (k : nat) : Prop := exists t, nth_error tris k = Some t /\ ccw3 v (snd e) (fst e) t.
  Lemma simple_tail a W : simple (a :: W) -> simple W.
  Proof. intros S i j w L Hi Hj. exfalso. destruct (S (Datatypes.S i) (Datatypes.S j) w) as (X & _); [lia|exact Hi|exact Hj|]. lia. Qed.
  Lemma sector_turn W ts : sector tris v W ts -> simple W -> Forall2 turn_left (pairs W) ts \/ Forall2 turn_right (pairs W) ts.
  Proof.
    induction 1 as [w|w w' ws k ts t H1 H2 H3 H4 F IH]; intros S; [left; constructor|].
    specialize (IH (simple_tail _ _ S)). rewrite pairs_cons.
    assert (ND : NoDup (corners t)) by (apply C; eapply nth_error_In; eassumption).
    inversion F as [w0 E1 E2|w0 w'' ws' k' ts' t' K1 K2 K3 K4 F' E1 E2]; subst.
    - destruct (two_ways v w w' t ND H2 H3 H4) as [D|D]; [left|right]; (constructor; [exists t; split; assumption|constructor]).
    - rewrite pairs_cons in *.
      assert (B : k = k' -> False).
      { intros <-. rewrite H1 in K1. injection K1 as <-. destruct (two_sides v t w w' w'' ND H2 H3 H4 K3) as [->| ->]; [|congruence].
        destruct (S 0%nat 2%nat w) as (_ & X & Y); [lia|reflexivity|reflexivity|]. cbn [length] in *. lia. }
      assert (ND' : NoDup (corners t')) by (apply C; eapply nth_error_In; eassumption).
      destruct IH as [IH|IH].
      + destruct (two_ways v w w' t ND H2 H3 H4) as [D|D]; [left; constructor; [exists t; split; assumption|exact IH]|].
        exfalso. inversion IH as [|e0 k0 es0 ks0 (t0 & T1 & T2) R]; subst. cbn [fst snd] in *. rewrite K1 in T1. injection T1 as <-.
        apply B. apply (DO k k' t t' (v, w')); [assumption|assumption|apply D|apply T2].
      + destruct (two_ways v w w' t ND H2 H3 H4) as [D|D]; [|right; constructor; [exists t; split; assumption|exact IH]].
        exfalso. inversion IH as [|e0 k0 es0 ks0 (t0 & T1 & T2) R]; subst. cbn [fst snd] in *. rewrite K1 in T1. injection T1 as <-.
        apply B. apply (DO k k' t t' (w', v)); [assumption|assumption|apply D|apply T2].
  Qed.
  Lemma pairs_rev {A} (l : list A) : pairs (rev l) = rev (map (fun e => (snd e, fst e)) (pairs l)).
  Proof.
    induction l as [|a [|b l] IH]; [reflexivity|reflexivity|]. rewrite pairs_cons. cbn [map rev fst snd] in *. rewrite <- IH.
    apply pairs_snoc.
  Qed.
  Lemma turn_rev W ts : Forall2 turn_right (pairs W) ts -> Forall2 turn_left (pairs (rev W)) (rev ts).
  Proof.
    rewrite pairs_rev. intros H. revert ts H. assert (G : forall es ks, Forall2 turn_right es ks -> Forall2 turn_left (rev (map (fun e => (snd e, fst e)) es)) (rev ks)).
    2: { intros ts H. apply G, H. }
    intros es ks H. induction H as [|e k es ks (t & T1 & T2) _ IH]; [constructor|]. cbn [map rev]. apply Forall2_app; [exact IH|].
    constructor; [exists t; auto|constructor].
  Qed.
End Turn.

(** ** Every stored circumcenter is the circumcenter of a triangle *)
Lemma stored_centers {N : Num} (tol : nT N) (o : trout N) d :
  triangulation (zlen (o_points o)) (map fst (o_edges o)) (o_tris o) -> read_output tol o = Ok d ->
  forall c, In c (ul_list (dl_circumcenters d)) -> exists k, center_of o k c.
Proof.
  intros T H. unfold read_output in H. cbn zeta in H. inv_ok H. destruct v as [[es em] pd]. inv_ok H.
  destruct v as [[[ts rp] cs] es']. injection H as <-. apply read_edges_ok in E as (H1 & H2 & H3 & H4). subst es. cbn [dl_circumcenters].
  set (S := fun c : Point N => exists k, center_of o k c).
  assert (K : tris_ok tol (map read_point (o_points o)) (o_edges o) (o_tris o) (ts, rp, cs, es') /\ (forall c, In c (ul_list cs) -> S c)); [|exact (proj2 K)].
  revert E0. apply (foldM_prefix (read_tri tol (map read_point (o_points o)) em)
    (fun pre st => tris_ok tol (map read_point (o_points o)) (o_edges o) pre st /\ let '(ts, rp, cs, es') := st in forall c, In c (ul_list cs) -> S c)).
  - split; [apply tris_ok_init|]. intros c [].
  - intros pre t st st' Hi [HI HS] HR.
    assert (Ht : In t (o_tris o)) by (apply Hi, in_or_app; right; left; reflexivity).
    split; [eapply read_tri_char; eauto|].
    destruct st as [[[ts0 rp0] cs0] es0], t as [[a b] c]. destruct HI as (_ & _ & _ & _ & HRg).
    unfold read_tri in HR. cbn zeta in HR. inv_ok HR. destruct v as [tr cs']. inv_ok HR. injection HR as <-.
    unfold triangle_ctor_ul in E. inv_ok E. destruct v3 as [[A B] C]. inv_ok E.
    destruct (ul_push_back (pt_ltb tol) cs0 v3) as [cs1 i] eqn:Ep. injection E as <- <-.
    destruct (ul_push_ranged _ _ _ _ _ HRg Ep) as (_ & _ & R3). intros x Hx.
    destruct R3 as [->|[R3 _]]; [apply HS; exact Hx|]. rewrite R3 in Hx. apply in_app_or in Hx as [Hx|[<-|[]]]; [apply HS; exact Hx|].
    apply In_nth_error in Ht as (k & Hk). exists k, (a, b, c), A, B, C. split; [exact Hk|]. split; [apply tri_vertices_are; assumption|assumption].
Qed.

Lemma Forall2_in_left {A B} (P : A -> B -> Prop) l l' : Forall2 P l l' -> forall a, In a l -> exists b, In b l' /\ P a b.
Proof. induction 1 as [|x y l l' H _ IH]; intros a []; [subst; exists y; split; [left; reflexivity|assumption]|]. destruct (IH a H0) as (b & ? & ?). exists b. split; [right; assumption|assumption]. Qed.
Lemma Forall2_in_right {A B} (P : A -> B -> Prop) l l' : Forall2 P l l' -> forall b, In b l' -> exists a, In a l /\ P a b.
Proof. induction 1 as [|x y l l' H _ IH]; intros a []; [subst; exists x; split; [left; reflexivity|assumption]|]. destruct (IH a H0) as (b & ? & ?). exists b. split; [right; assumption|assumption]. Qed.

(** ** Cells and regions *)
Section Regions.
  Notation Pt := (Point RNum).
  Variable tol : R.
  Hypothesis tol_pos : (0 < tol)%R.
  Variable o : trout RNum.
  Hypothesis T : triangulation (zlen (o_points o)) (map fst (o_edges o)) (o_tris o).
  Notation tris := (o_tris o).
  Notation mp := (map read_point (o_points o)).
  Notation sites := (map xy mp).
  Hypothesis DO : directed_once tris.
  Hypothesis DT : forall t A B C, In t tris -> vertices_are mp (corners t) [A; B; C] -> delaunay_triangle sites (xy A) (xy B) (xy C).

  Definition pos (k : Z) : pt := match nth_error mp (Z.to_nat k) with Some q => xy q | None => (0, 0)%R end.
  Lemma at_pos k q : vertices_are mp [k] [q] -> pos k = xy q /\ In (xy q) sites.
  Proof. intros H. inversion_clear H as [|? ? ? ? [_ H1] _]. unfold pos. rewrite H1. split; [reflexivity|]. apply in_map. eapply nth_error_In; eassumption. Qed.
  Lemma orient_rot a b c : orient b c a = orient a b c.
  Proof. unfold orient, vcross, vsub; cbn [fst snd]. ring. Qed.
  (** a triangle with the corners [x], [y], [z] in this order *)
  Lemma corner_data k t x y z : nth_error tris k = Some t -> ccw3 x y z t ->
    (0 < orient (pos x) (pos y) (pos z))%R /\ In (pos x) sites /\ In (pos y) sites /\ In (pos z) sites /\
    forall c, center_of o k c -> dist (xy c) (pos x) = dist (xy c) (pos y) /\ dist (xy c) (pos x) = dist (xy c) (pos z) /\ voronoi_region sites (pos x) (xy c).
  Proof.
    intros Hk D. assert (Ht : In t tris) by (eapply nth_error_In; eassumption).
    assert (ND := tg_corners _ _ _ T t Ht).
    assert (exists A B C, vertices_are mp (corners t) [A; B; C]) as (A & B & C & V).
    { destruct t as [[a b] c]. cbn [corners].
      assert (G : forall i, In i [a; b; c] -> exists q, (0 <= i)%Z /\ nth_error mp (Z.to_nat i) = Some q).
      { intros i Hi. destruct (corner_range _ _ _ i T) as [L1 L2]; [apply in_flat_map; exists (a, b, c); split; [exact Ht|exact Hi]|].
        destruct (nth_get mp (Z.to_nat i)) as (q & Hq); [rewrite map_length; unfold zlen in L2; lia|]. exists q. auto. }
      destruct (G a) as (A & A1 & A2); [left; reflexivity|]. destruct (G b) as (B & B1 & B2); [right; left; reflexivity|]. destruct (G c) as (C & C1 & C2); [right; right; left; reflexivity|].
      exists A, B, C. do 3 (constructor; [split; assumption|]). constructor. }
    destruct (DT t A B C Ht V) as [OR EM].
    assert (CC : forall c, center_of o k c -> dist (xy c) (xy A) = dist (xy c) (xy B) /\ dist (xy c) (xy B) = dist (xy c) (xy C)).
    { intros c (t' & A' & B' & C' & H1 & H2 & H3). rewrite Hk in H1. injection H1 as <-.
      assert (E : [A'; B'; C'] = [A; B; C]).
      { clear - H2 V. revert H2 V. generalize [A'; B'; C'] [A; B; C]. intros l l' H2. revert l'. induction H2 as [|i q is qs [_ H] _ IH]; intros l' V; inversion V as [|? q' ? qs' [_ H'] V']; subst; [reflexivity|].
        rewrite H in H'. injection H' as <-. f_equal. apply IH, V'. }
      injection E as -> -> ->. destruct (proj1 (circumcenter_correct A B C) ltac:(lra)) as (c' & E' & D1 & D2 & _). rewrite H3 in E'. injection E' as <-. auto. }
    destruct t as [[a b] c]. cbn [corners] in *.
    assert (V' := V). inversion_clear V' as [|? ? ? ? H1 V1]. inversion_clear V1 as [|? ? ? ? H2 V2]. inversion_clear V2 as [|? ? ? ? H3 _].
    destruct (at_pos a A) as [Pa Sa]; [constructor; [exact H1|constructor]|]. destruct (at_pos b B) as [Pb Sb]; [constructor; [exact H2|constructor]|]. destruct (at_pos c C) as [Pc Sc]; [constructor; [exact H3|constructor]|].
    inversion_clear ND as [|? ? N1 N2]. inversion_clear N2 as [|? ? N3 _]. cbn [In] in *.
    assert (Q : (x = a /\ y = b /\ z = c) \/ (x = b /\ y = c /\ z = a) \/ (x = c /\ y = a /\ z = b)).
    { destruct D as (D1 & D2 & _). unfold sides in *. cbn [In] in *. destruct D1 as [D1|[D1|[D1|[]]]], D2 as [D2|[D2|[D2|[]]]]; inversion D1; inversion D2; subst; intuition congruence. }
    destruct Q as [(-> & -> & ->)|[(-> & -> & ->)|(-> & -> & ->)]]; rewrite Pa, Pb, Pc.
    - split; [exact OR|]. do 3 (split; [assumption|]). intros u Hu. destruct (CC u Hu) as [E1 E2]. split; [lra|]. split; [lra|]. intros q Hq. exact (EM (xy u) E1 E2 q Hq).
    - split; [rewrite orient_rot; exact OR|]. do 3 (split; [assumption|]). intros u Hu. destruct (CC u Hu) as [E1 E2]. split; [lra|]. split; [lra|]. intros q Hq. rewrite <- E1. exact (EM (xy u) E1 E2 q Hq).
    - split; [rewrite <- orient_rot; exact OR|]. do 3 (split; [assumption|]). intros u Hu. destruct (CC u Hu) as [E1 E2]. split; [lra|]. split; [lra|]. intros q Hq. rewrite <- E2, <- E1. exact (EM (xy u) E1 E2 q Hq).
  Qed.

  Definition centers (ts : list nat) (cs : list pt) : Prop := Forall2 (fun k z => exists c, center_of o k c /\ z = xy c) ts cs.
  Lemma centers_in ts cs k : centers ts cs -> In k ts -> exists c, center_of o k c /\ In (xy c) cs.
  Proof. induction 1 as [|k' z ts cs (c & H1 & ->) _ IH]; intros []; [subst; exists c; split; [assumption|left; reflexivity]|]. destruct (IH H) as (c' & ? & ?). exists c'. split; [assumption|right; assumption]. Qed.
  Lemma in_centers ts cs z : centers ts cs -> In z cs -> exists k c, In k ts /\ center_of o k c /\ z = xy c.
  Proof. induction 1 as [|k' z' ts cs (c & H1 & ->) _ IH]; intros []; [subst; exists k', c; split; [left; reflexivity|auto]|]. destruct (IH H) as (k & c' & ? & ? & ?). exists k, c'. split; [right; assumption|auto]. Qed.

  (** the centers of the triangles around a point *)
  Lemma fan_pairs v W ts cs : Forall2 (turn_left tris v) (pairs W) ts -> centers ts cs ->
    forall e, In e (pairs (map pos W)) -> (0 < orient (pos v) (fst e) (snd e))%R /\ exists z, In z cs /\ dist z (pos v) = dist z (fst e) /\ dist z (pos v) = dist z (snd e).
  Proof.
    rewrite pairs_map. intros F HC e He. apply in_map_iff in He as ([a b] & <- & He). cbn [fst snd].
    destruct (Forall2_in_left _ _ _ F (a, b) He) as (k & Hk & t & H1 & H2). cbn [fst snd] in H2.
    destruct (corner_data k t v a b H1 H2) as (O & _ & _ & _ & CD). split; [exact O|].
    destruct (centers_in ts cs k HC Hk) as (c & Hc & I). exists (xy c). split; [exact I|]. destruct (CD c Hc) as (D1 & D2 & _). auto.
  Qed.
  Lemma fan_sites v W ts : Forall2 (turn_left tris v) (pairs W) ts -> (2 <= length W)%nat -> incl (map pos W) sites /\ In (pos v) sites.
  Proof.
    intros F L. assert (G : forall e, In e (pairs W) -> In (pos (fst e)) sites /\ In (pos (snd e)) sites /\ In (pos v) sites).
    { intros [a b] He. destruct (Forall2_in_left _ _ _ F (a, b) He) as (k & Hk & t & H1 & H2). cbn [fst snd] in *.
      destruct (corner_data k t v a b H1 H2) as (_ & I1 & I2 & I3 & _). auto. }
    clear F. destruct W as [|a [|b W]]; [cbn in L; lia|cbn in L; lia|]. clear L. split; [|apply (G (a, b)); left; reflexivity].
    revert a b G. induction W as [|c W IH]; intros a b G x Hx.
    - destruct (G (a, b) (or_introl eq_refl)) as (I1 & I2 & _). cbn in Hx. destruct Hx as [<-|[<-|[]]]; assumption.
    - destruct Hx as [<-|Hx]; [apply (G (a, b)); left; reflexivity|]. apply (IH b c); [|exact Hx]. intros e He. apply G. rewrite pairs_cons. right. exact He.
  Qed.
  Lemma fan_regions v W ts cs : Forall2 (turn_left tris v) (pairs W) ts -> centers ts cs -> forall z, In z cs -> voronoi_region sites (pos v) z.
  Proof.
    intros F HC z Hz. destruct (in_centers ts cs z HC Hz) as (k & c & Hk & Hc & ->).
    destruct (Forall2_in_right _ _ _ F k Hk) as ([a b] & _ & t & H1 & H2). destruct (corner_data k t v a b H1 H2) as (_ & _ & _ & _ & CD). apply (CD c Hc).
  Qed.

  Lemma hull_mono cs cs' x : incl cs cs' -> in_hull cs x -> in_hull cs' x.
  Proof. intros I H u. destruct (H u) as (p & Hp & L). exists p. auto. Qed.
  Lemma locate (cc : list Pt) is : (forall i, In i is -> exists y, vertices_are cc [i] [y]) -> exists vs, vertices_are cc is vs.
  Proof.
    induction is as [|i is IH]; intros H; [exists []; constructor|]. destruct (H i (or_introl eq_refl)) as (y & Y). destruct IH as (vs & V); [intros k Hk; apply H; right; exact Hk|].
    inversion_clear Y as [|? ? ? ? Y1 _]. exists (y :: vs). constructor; assumption.
  Qed.
  Lemma located_in (cc : list Pt) is vs i y : vertices_are cc is vs -> In i is -> vertices_are cc [i] [y] -> In y vs.
  Proof.
    intros V Hi Y. inversion_clear Y as [|? ? ? ? [_ Y1] _]. destruct (Forall2_in_left _ _ _ V i Hi) as (z & Hz & _ & Z1). rewrite Y1 in Z1. injection Z1 as ->. exact Hz.
  Qed.
  Lemma in_located (cc : list Pt) is vs y : vertices_are cc is vs -> In y vs -> exists i, In i is /\ vertices_are cc [i] [y].
  Proof. intros V Hy. destruct (Forall2_in_right _ _ _ V y Hy) as (i & Hi & Z1). exists i. split; [exact Hi|]. constructor; [exact Z1|constructor]. Qed.
  Lemma located_det (cc : list Pt) is vs vs' : vertices_are cc is vs -> vertices_are cc is vs' -> vs = vs'.
  Proof.
    intros H. revert vs'. induction H as [|i q is qs [_ H] _ IH]; intros l' V; inversion V as [|? q' ? qs' [_ H'] V']; subst; [reflexivity|].
    rewrite H in H'. injection H' as <-. f_equal. apply IH, V'.
  Qed.
  Lemma center_det k c c' : center_of o k c -> center_of o k c' -> c = c'.
  Proof.
    intros (t & A & B & C & H1 & H2 & H3) (t' & A' & B' & C' & H1' & H2' & H3'). rewrite H1 in H1'. injection H1' as <-.
    pose proof (located_det _ _ _ _ H2 H2') as E. injection E as <- <- <-. congruence.
  Qed.

  (** how the stored points [cc] stand for the circumcenters *)
  Variable Q : pt -> pt -> Prop.
  Variable cc : list Pt.
  Variable ci : nat -> Z.
  Hypothesis CI : forall k t, nth_error tris k = Some t -> exists c y, center_of o k c /\ vertices_are cc [ci k] [y] /\ Q (xy y) (xy c).
  Definition matched (vs cs : list pt) : Prop := forall c, In c cs -> exists p, In p vs /\ Q p c.
  Definition matched' (cs vs : list pt) : Prop := forall p, In p vs -> exists c, In c cs /\ Q p c.

  Lemma have_centers v W ts : Forall2 (turn_left tris v) (pairs W) ts -> exists cs, centers ts cs.
  Proof.
    induction 1 as [|e k es ts (t & H1 & H2) _ (cs & IH)]; [exists []; constructor|]. destruct (CI k t H1) as (c & y & Hc & _). exists (xy c :: cs).
    constructor; [exists c; auto|exact IH].
  Qed.
  Lemma center_stored v W ts cs k : Forall2 (turn_left tris v) (pairs W) ts -> centers ts cs -> In k ts ->
    exists y z, vertices_are cc [ci k] [y] /\ In z cs /\ Q (xy y) z.
  Proof.
    intros F HC Hk. destruct (Forall2_in_right _ _ _ F k Hk) as (e & _ & t & H1 & _). destruct (CI k t H1) as (c & y & Hc & Y & q).
    destruct (centers_in _ _ _ HC Hk) as (c' & Hc' & I). rewrite (center_det _ _ _ Hc' Hc) in I. exists y, (xy c). auto.
  Qed.
  Lemma stored_center v W ts cs z : Forall2 (turn_left tris v) (pairs W) ts -> centers ts cs -> In z cs ->
    exists k y, In k ts /\ vertices_are cc [ci k] [y] /\ Q (xy y) z.
  Proof.
    intros F HC Hz. destruct (in_centers _ _ _ HC Hz) as (k & c & Hk & Hc & ->). destruct (Forall2_in_right _ _ _ F k Hk) as (e & _ & t & H1 & _).
    destruct (CI k t H1) as (c' & y & Hc' & Y & q). rewrite (center_det _ _ _ Hc' Hc) in q. exists k, y. auto.
  Qed.
  Lemma turned_in {A} (l l' : list A) x : turned l l' -> (In x l' <-> In x l).
  Proof. intros (a & b & -> & [-> | ->]); rewrite <- ?in_rev, !in_app_iff; tauto. Qed.
  Lemma site_of2 k t v : nth_error tris k = Some t -> In v (corners t) -> exists q, vertices_are mp [v] [q].
  Proof.
    intros H1 I. destruct (corner_range _ _ _ v T) as [L1 L2]; [apply in_flat_map; exists t; split; [eapply nth_error_In; eassumption|exact I]|].
    destruct (nth_get mp (Z.to_nat v)) as (q & Hq); [rewrite map_length; unfold zlen in L2; lia|]. exists q. constructor; [split; assumption|constructor].
  Qed.
  Definition a_chain (ci : nat -> Z) (a : Z) (l : list nat) (b : Z) : list Z := a :: map ci l ++ [b].
  Lemma site_of v W ts : Forall2 (turn_left tris v) (pairs W) ts -> ts <> [] -> exists q, vertices_are mp [v] [q].
  Proof.
    intros F N. destruct ts as [|k ts]; [congruence|]. inversion F as [|e ? es ? (t & H1 & H2) _]; subst.

    assert (I : In v (corners t)) by (destruct H2 as (H2 & _); destruct t as [[a b] c]; cbn [sides corners In] in *; intuition congruence).
    destruct (corner_range _ _ _ v T) as [L1 L2]; [apply in_flat_map; exists t; split; [eapply nth_error_In; eassumption|exact I]|].
    destruct (nth_get mp (Z.to_nat v)) as (q & Hq); [rewrite map_length; unfold zlen in L2; lia|]. exists q. constructor; [split; assumption|constructor].
  Qed.

  Lemma inner_region v ws ts pts segs : closed_fan (map fst (o_edges o)) tris v ws ts -> inner_cell ci ts pts segs ->
    exists site cs vs, vertices_are mp [v] [site] /\ vertices_are cc pts vs /\ (forall x, voronoi_region sites (xy site) x <-> in_hull cs x) /\
      matched (map xy vs) cs /\ matched' cs (map xy vs).
  Proof.
    intros (w & ws' & -> & SEC & ND & L3 & _) (l & TU & PT & _). cbn [app] in SEC.
    assert (exists w ws ts', Forall2 (turn_left tris v) (pairs (w :: ws ++ [w])) ts' /\ (forall k, In k ts' <-> In k ts) /\ ts' <> []) as (u & us & ts' & F & I & NE).
    { assert (NE : ts <> []) by (intros ->; inversion SEC as [E1 E2|]; destruct ws'; discriminate).
      destruct (sector_turn tris v (tg_corners _ _ _ T) DO _ _ SEC (closed_simple w ws' ND L3)) as [F|F]; [exists w, ws', ts; tauto|].
      apply turn_rev in F. cbn [rev] in F. rewrite rev_app_distr in F. exists w, (rev ws'), (rev ts). split; [exact F|]. split; [intros k; symmetry; apply in_rev|].
      intros E. apply NE. rewrite <- (rev_involutive ts), E. reflexivity. }
    clear SEC. destruct (site_of _ _ _ F NE) as (site & HS). destruct (have_centers _ _ _ F) as (cs & HC). exists site, cs.
    assert (PI : forall i, In i pts <-> exists k, In k ts' /\ i = ci k).
    { intros i. assert (E : In i pts <-> In i (map ci l)) by (destruct PT as [-> | ->]; rewrite <- ?in_rev, dedup_in; tauto). rewrite E, in_map_iff.
      split; [intros (k & <- & Hk); exists k; split; [apply I; apply (turned_in _ _ _ TU); exact Hk|reflexivity]|intros (k & Hk & ->); exists k; split; [reflexivity|apply (turned_in _ _ _ TU), I; exact Hk]]. }
    destruct (locate cc pts) as (vs & V).
    { intros i Hi. apply PI in Hi as (k & Hk & ->). destruct (center_stored _ _ _ _ k F HC Hk) as (y & z & Y & _). exists y; exact Y. }
    exists vs. split; [exact HS|]. split; [exact V|]. destruct (at_pos v site HS) as [P1 P2].
    split; [|split].
    - intros x. rewrite <- P1. split.
      + destruct (fan_sites v _ _ F) as [I1 _]; [cbn; rewrite app_length; cbn; lia|].
        cbn [map] in I1. rewrite map_app in I1. cbn [map] in I1.
        apply (closed_cell sites (pos v) (pos u) (map pos us) cs).
        * intros y [<-|Hy]; apply I1; [left; reflexivity|right; apply in_or_app; left; exact Hy].
        * pose proof (fan_pairs v _ _ cs F HC) as K. cbn [map] in K. rewrite map_app in K. exact K.
        * intros ->. inversion HC; subst. congruence.
      + apply hull_region. apply (fan_regions v _ _ cs F HC).
    - intros z Hz. destruct (stored_center _ _ _ _ z F HC Hz) as (k & y & Hk & Y & q). exists (xy y). split; [|exact q].
      apply in_map. eapply located_in; [exact V| |exact Y]. apply PI. exists k; auto.
    - intros p Hp. apply in_map_iff in Hp as (y & <- & Hy). destruct (in_located _ _ _ _ V Hy) as (i & Hi & Y). apply PI in Hi as (k & Hk & ->).
      destruct (center_stored _ _ _ _ k F HC Hk) as (y' & z & Y' & Hz & q). pose proof (located_det _ _ _ _ Y Y') as E. injection E as <-. exists z. auto.
  Qed.

  (** *** Cells at the border *)
  Lemma two_points W (ts : list nat) (P : Z * Z -> nat -> Prop) : Forall2 P (pairs W) ts -> (2 <= length W)%nat -> ts <> [].
  Proof. destruct W as [|a [|b W]]; cbn [length]; [lia|lia|]. rewrite pairs_cons. intros F _ ->. inversion F. Qed.
  Lemma orient_degenerate p a b : (0 < orient p a b)%R -> a <> p /\ b <> p.
  Proof. intros H. split; intros ->; unfold orient, vcross, vsub in H; cbn [fst snd] in H; lra. Qed.
  Lemma last_pair {A} (a : A) ws b : exists c, In (c, b) (pairs (a :: ws ++ [b])).
  Proof. revert a. induction ws as [|d ws IH]; intros a; [exists a; left; reflexivity|]. cbn [app]. rewrite pairs_cons. destruct (IH d) as (c & Hc). exists c. right. exact Hc. Qed.
  Lemma first_pair {A} (a : A) ws b : exists c, In (a, c) (pairs (a :: ws ++ [b])).
  Proof. destruct ws as [|d ws]; [exists b; left; reflexivity|exists d; left; reflexivity]. Qed.
  Hypothesis Qtol : forall a b, Q a b -> coincide tol a b.
  Lemma stands_coincide i x : stands_at (N := RNum) tol cc i x -> exists y, vertices_are cc [i] [y] /\ coincide tol (xy y) (xy x).
  Proof.
    intros (y & Y & [->|S0]); [exists x|exists y]; (split; [exact Y|]).
    - unfold coincide. split; rewrite Rminus_diag_eq, Rabs_R0; auto.
    - apply (incomparable_coincide tol tol_pos). exact S0.
  Qed.
  Lemma middle_stored v w i : middle_at (N := RNum) tol o cc v w i -> exists y, vertices_are cc [i] [y] /\ coincide tol (xy y) (midpoint (pos v) (pos w)).
  Proof.
    intros ([e' e3] & m & He & SS & M & ST). cbn [fst] in *. destruct (stands_coincide i _ ST) as (y & Y & C). exists y. split; [exact Y|].
    replace (midpoint (pos v) (pos w)) with (xy (setBoundary m)); [exact C|].
    unfold iseg_middle in M. destruct e' as [a b]. cbn [fst snd] in M. inv_ok M. injection M as <-.
    apply vget_ok in E as [A1 A2], E0 as [B1 B2].
    assert (PA : pos a = xy v0) by (unfold pos; rewrite A2; reflexivity). assert (PB : pos b = xy v1) by (unfold pos; rewrite B2; reflexivity).
    unfold same_side in SS. cbn [fst snd] in SS. apply orb_prop in SS as [SS|SS]; apply andb_prop in SS as [S1 S2]; apply Z.eqb_eq in S1, S2; subst; rewrite PA, PB;
    unfold midpoint, xy, setBoundary, mkP; cbn [px py fst snd]; rnum; f_equal; lra.
  Qed.

  Lemma border_region v w ws w' ts pts segs : open_fan (o_edges o) tris v w ws w' ts -> border_cell (N := RNum) tol o cc ci v w w' ts pts segs ->
    exists w1 w2 site a b cs vs, (w1 = w /\ w2 = w' \/ w1 = w' /\ w2 = w) /\ (exists t, In t tris /\ In (v, w1) (sides t)) /\
      vertices_are mp [v; w1; w2] [site; a; b] /\ vertices_are cc pts vs /\
      (gabriel_edge sites (xy site) (xy a) -> gabriel_edge sites (xy site) (xy b) ->
         forall x, in_hull (xy site :: midpoint (xy site) (xy a) :: midpoint (xy site) (xy b) :: cs) x -> voronoi_region sites (xy site) x) /\
      (convex_corner (xy site) (xy a) (xy b) -> forall x, voronoi_region sites (xy site) x -> wedge (xy site) (xy a) (xy b) x ->
         in_hull (xy site :: midpoint (xy site) (xy a) :: midpoint (xy site) (xy b) :: cs) x) /\
      (forall z, In z cs -> exists k c, In k ts /\ center_of o k c /\ z = xy c) /\
      represented tol (map xy vs) (midpoint (xy site) (xy a) :: midpoint (xy site) (xy b) :: cs) /\
      (represented tol (map xy vs) [xy site] \/ exists f z, In f (map xy vs) /\ In z (map xy vs) /\ (Rabs (orient f (xy site) z) < tol)%R) /\
      (forall p, In p (map xy vs) -> exists c, In c (xy site :: midpoint (xy site) (xy a) :: midpoint (xy site) (xy b) :: cs) /\ coincide tol p c).
  Proof.
    intros (SEC & ND & _) (u & u' & l & ia & ib & q & f & z & qf & qz & cell & UL & MA & MB & HQ & HF & HZ & VFZ & PT & CELL).
    assert (exists w1 us w2 ts', Forall2 (turn_left tris v) (pairs (w1 :: us ++ [w2])) ts' /\ (forall k, In k ts' <-> In k ts) /\ (w1 = w /\ w2 = w' \/ w1 = w' /\ w2 = w))
      as (w1 & us & w2 & ts' & F & I & WW).
    { destruct (sector_turn tris v (tg_corners _ _ _ T) DO _ _ SEC (NoDup_simple _ ND)) as [F|F]; [exists w, ws, w', ts; tauto|].
      apply turn_rev in F. cbn [rev] in F. rewrite rev_app_distr in F. cbn [rev app] in F. exists w', (rev ws), w, (rev ts). split; [exact F|]. split; [intros k; symmetry; apply in_rev|tauto]. }
    clear SEC. assert (NE : ts' <> []) by (apply (two_points _ _ _ F); cbn; rewrite app_length; cbn; lia).
    destruct (at_pos v q HQ) as [P1 P2].
    destruct (have_centers _ _ _ F) as (cs & HC).
    destruct (fan_sites v _ _ F) as [I1 _]; [cbn; rewrite app_length; cbn; lia|]. pose proof (fan_pairs v _ _ cs F HC) as K.
    assert (M1 : exists i y, In i pts /\ vertices_are cc [i] [y] /\ coincide tol (xy y) (midpoint (pos v) (pos w1))).
    { assert (B : In ia pts /\ In ib pts).
      { assert (In ia cell /\ In ib cell) as [B1 B2].
        { destruct CELL as [(_ & -> & _)|(_ & r & _ & -> & _)]; rewrite !dedup_in; split; rewrite ?in_app_iff; cbn [In]; rewrite ?in_app_iff; cbn [In]; tauto. }
        destruct PT as [-> | ->]; rewrite <- ?in_rev; auto. }
      destruct (middle_stored _ _ _ MA) as (ya & YA & CA), (middle_stored _ _ _ MB) as (yb & YB & CB).
      destruct UL as [(-> & -> & _)|(-> & -> & _)], WW as [[-> ->]|[-> ->]]; (exists ia, ya; tauto) || (exists ib, yb; tauto). }
    assert (M2 : exists i y, In i pts /\ vertices_are cc [i] [y] /\ coincide tol (xy y) (midpoint (pos v) (pos w2))).
    { assert (B : In ia pts /\ In ib pts).
      { assert (In ia cell /\ In ib cell) as [B1 B2].
        { destruct CELL as [(_ & -> & _)|(_ & r & _ & -> & _)]; rewrite !dedup_in; split; rewrite ?in_app_iff; cbn [In]; rewrite ?in_app_iff; cbn [In]; tauto. }
        destruct PT as [-> | ->]; rewrite <- ?in_rev; auto. }
      destruct (middle_stored _ _ _ MA) as (ya & YA & CA), (middle_stored _ _ _ MB) as (yb & YB & CB).
      destruct UL as [(-> & -> & _)|(-> & -> & _)], WW as [[-> ->]|[-> ->]]; (exists ia, ya; tauto) || (exists ib, yb; tauto). }
    assert (LI : forall k, In k l <-> In k ts') by (intros k; rewrite I; destruct UL as [(_ & _ & ->)|(_ & _ & ->)]; rewrite <- ?in_rev; tauto).
    assert (PI : forall i, In i (a_chain ci ia l ib) -> In i pts).
    { intros i Hi. assert (In i cell) by (destruct CELL as [(_ & -> & _)|(_ & r & _ & -> & _)]; rewrite dedup_in; [exact Hi|apply in_or_app; left; exact Hi]).
      destruct PT as [-> | ->]; rewrite <- ?in_rev; assumption. }
    (* every index of the cell *)
    assert (PO : forall i, In i pts -> exists y c, vertices_are cc [i] [y] /\ In c (pos v :: midpoint (pos v) (pos w1) :: midpoint (pos v) (pos w2) :: cs) /\ coincide tol (xy y) c).
    { intros i Hi. assert (Hc : In i cell) by (destruct PT as [-> | ->]; rewrite <- ?in_rev in Hi; assumption).
      assert (G : In i (a_chain ci ia l ib) -> exists y c, vertices_are cc [i] [y] /\ In c (pos v :: midpoint (pos v) (pos w1) :: midpoint (pos v) (pos w2) :: cs) /\ coincide tol (xy y) c).
      { intros Hj. unfold a_chain in Hj. cbn [In] in Hj. rewrite in_app_iff in Hj. cbn [In] in Hj.
        destruct (middle_stored _ _ _ MA) as (ya & YA & CA), (middle_stored _ _ _ MB) as (yb & YB & CB).
        destruct Hj as [<-|[Hj|[<-|[]]]].
        - exists ya, (midpoint (pos v) (pos u)). split; [exact YA|]. split; [|exact CA]. destruct UL as [(-> & -> & _)|(-> & -> & _)], WW as [[-> ->]|[-> ->]]; cbn [In]; tauto.
        - apply in_map_iff in Hj as (k & <- & Hk). destruct (center_stored _ _ _ _ k F HC (proj1 (LI k) Hk)) as (y & c & Y & Hc' & q'). exists y, c. split; [exact Y|]. split; [do 3 right; exact Hc'|apply Qtol; exact q'].
        - exists yb, (midpoint (pos v) (pos u')). split; [exact YB|]. split; [|exact CB]. destruct UL as [(-> & -> & _)|(-> & -> & _)], WW as [[-> ->]|[-> ->]]; cbn [In]; tauto. }
      destruct CELL as [(_ & -> & _)|(_ & r & ST & -> & _)]; rewrite dedup_in in Hc; [apply G; exact Hc|].
      apply in_app_or in Hc as [Hc|[<-|[]]]; [apply G; exact Hc|]. destruct (stands_coincide r _ ST) as (y & Y & C). exists y, (pos v). split; [exact Y|]. split; [left; reflexivity|].
      rewrite P1. exact C. }
    destruct (locate cc pts) as (vs & V).
    { intros i Hi. destruct (PO i Hi) as (y & c & Y & _). exists y; exact Y. }
    destruct (first_pair (pos w1) (map pos us) (pos w2)) as (n1 & N1). destruct (last_pair (pos w1) (map pos us) (pos w2)) as (n2 & N2).
    cbn [map] in I1, K. rewrite map_app in I1, K. cbn [map] in I1, K.
    pose proof (orient_degenerate _ _ _ (proj1 (K _ N1))) as [D1 _]. pose proof (orient_degenerate _ _ _ (proj1 (K _ N2))) as [_ D2]. cbn [fst snd] in D1, D2.
    assert (G1 : exists a, vertices_are mp [w1] [a]).
    { destruct (first_pair w1 us w2) as (x & Hx). destruct (Forall2_in_left _ _ _ F _ Hx) as (k & _ & t & T1 & T2). apply (site_of2 k t w1 T1). destruct T2 as (T2 & _). cbn [fst] in T2. destruct t as [[? ?] ?]. cbn [sides corners In] in *. intuition congruence. }
    assert (G2 : exists a, vertices_are mp [w2] [a]).
    { destruct (last_pair w1 us w2) as (x & Hx). destruct (Forall2_in_left _ _ _ F _ Hx) as (k & _ & t & T1 & T2). apply (site_of2 k t w2 T1). destruct T2 as (_ & T2 & _). cbn [fst snd] in T2. destruct t as [[? ?] ?]. cbn [sides corners In] in *. intuition congruence. }
    destruct G1 as (a & HA), G2 as (b & HB). destruct (at_pos w1 a HA) as [PA SA], (at_pos w2 b HB) as [PB SB].
    exists w1, w2, q, a, b, cs, vs. rewrite <- P1, <- PA, <- PB. split; [exact WW|].
    split. { destruct (first_pair w1 us w2) as (x & Hx). destruct (Forall2_in_left _ _ _ F _ Hx) as (k & _ & t & T1 & T2). exists t. split; [eapply nth_error_In; exact T1|apply T2]. }
    split. { inversion_clear HQ as [|? ? ? ? X1 _]. inversion_clear HA as [|? ? ? ? X2 _]. inversion_clear HB as [|? ? ? ? X3 _]. repeat (constructor; [assumption|]). constructor. }
    split; [exact V|]. split; [|split; [|split; [|split; [|split]]]].
    - intros GA GB. apply hull_region. intros c [<-|[<-|[<-|Hc]]].
      + intros s _. apply dist_le. unfold vdot, vsub; cbn [fst snd].
        pose proof (Rle_0_sqr (fst (pos v) - fst s)). pose proof (Rle_0_sqr (snd (pos v) - snd s)). unfold Rsqr in *. lra.
      + exact GA.
      + exact GB.
      + exact (fan_regions v _ _ cs F HC c Hc).
    - intros CV x RX [W1 W2]. apply (open_cell sites (pos v) (pos w1) (map pos us) (pos w2)); try assumption.
      + intros e He. destruct (K e He) as (O & c & Hc & E). split; [exact O|]. exists c. split; [do 3 right; exact Hc|exact E].
      + right; left; reflexivity.
      + do 2 right; left; reflexivity.
      + destruct CV as [CV|CV]; [left; split; [exact CV|left; reflexivity]|right; exact CV].
    - intros c Hc. destruct (in_centers _ _ _ HC Hc) as (k & c' & Hk & Hc' & ->). exists k, c'. split; [apply I; exact Hk|]. auto.
    - intros c [<-|[<-|Hc]].
      + destruct M1 as (i & y & Hi & Y & C). exists (xy y). split; [apply in_map; exact (located_in _ _ _ _ _ V Hi Y)|exact C].
      + destruct M2 as (i & y & Hi & Y & C). exists (xy y). split; [apply in_map; exact (located_in _ _ _ _ _ V Hi Y)|exact C].
      + destruct (stored_center _ _ _ _ c F HC Hc) as (k & y & Hk & Y & q'). exists (xy y). split; [|apply Qtol; exact q'].
        apply in_map. apply (located_in _ _ _ _ _ V) with (2 := Y). apply PI. right. apply in_or_app. left. apply in_map. apply LI. exact Hk.
    - destruct CELL as [(CO & _)|(_ & r & ST & CE & _)].
      + right. exists (xy qf), (xy qz). rewrite P1.
        assert (B : forall i, hd_error (dedup (ia :: map ci l ++ [ib])) = Some i \/ hd_error (rev (dedup (ia :: map ci l ++ [ib]))) = Some i -> In i pts).
        { intros i Hi. apply PI. apply (proj1 (dedup_in (ia :: map ci l ++ [ib]) i)). destruct Hi as [Hi|Hi]; [|apply in_rev]; revert Hi;
            [generalize (dedup (ia :: map ci l ++ [ib]))|generalize (rev (dedup (ia :: map ci l ++ [ib])))]; intros [|j js]; cbn; intros E; try discriminate; injection E as ->; left; reflexivity. }
        inversion_clear VFZ as [|? ? ? ? V1 VZ]. inversion_clear VZ as [|? ? ? ? V2 _].
        split; [apply in_map, (located_in _ _ _ f qf V); [apply B; left; exact HF|constructor; [exact V1|constructor]]|].
        split; [apply in_map, (located_in _ _ _ z qz V); [apply B; right; exact HZ|constructor; [exact V2|constructor]]|].
        apply collinear_orient. exact CO.
      + left. intros c [<-|[]]. destruct (stands_coincide r _ ST) as (y & Y & C). exists (xy y). split; [|rewrite P1; exact C].
        apply in_map. apply (located_in _ _ _ _ _ V) with (2 := Y).
        assert (In r cell) by (rewrite CE; apply dedup_in, in_or_app; right; left; reflexivity). destruct PT as [-> | ->]; rewrite <- ?in_rev; assumption.
    - intros p Hp. apply in_map_iff in Hp as (y & <- & Hy). destruct (in_located _ _ _ _ V Hy) as (i & Hi & Y).
      destruct (PO i Hi) as (y' & c & Y' & Hc & C). pose proof (located_det _ _ _ _ Y Y') as E. injection E as <-. exists c. auto.
  Qed.
End Regions.

Definition all_fans (o : trout RNum) : Prop :=
  forall v, In v (flat_map corners (o_tris o)) -> (exists ws ts, closed_fan (map fst (o_edges o)) (o_tris o) v ws ts) \/
     (exists w ws w' ts, open_fan (o_edges o) (o_tris o) v w ws w' ts).
Lemma Forall2_map_right {A B C} (P : A -> C -> Prop) (f : B -> C) l l' : Forall2 (fun a b => P a (f b)) l l' -> Forall2 P l (map f l').
Proof. induction 1; cbn; constructor; auto. Qed.
Lemma Forall2_weaken {A B} (P Q : A -> B -> Prop) l l' : (forall a b, P a b -> Q a b) -> Forall2 P l l' -> Forall2 Q l l'.
Proof. intros H. induction 1; constructor; auto. Qed.
Lemma ext_located {N : Num} (u u' : ulist (Point N)) i y : ext u u' -> vertices_are (ul_list u) [i] [y] -> vertices_are (ul_list u') [i] [y].
Proof.
  intros [l E] V. inversion_clear V as [|? ? ? ? [V1 V2] _]. constructor; [|constructor]. split; [exact V1|]. rewrite E, nth_error_app1; [exact V2|].
  apply nth_error_Some. congruence.
Qed.
Lemma regions_built (tol : R) fuel (o : trout RNum) d (Q : pt -> pt -> Prop) : (0 < tol)%R -> (forall a b, Q a b -> coincide tol a b) ->
  (forall c y, In y (ul_list (dl_circumcenters d)) -> (exists k, center_of o k c) -> coincide tol (xy y) (xy c) -> Q (xy y) (xy c)) ->
  triangulation (zlen (o_points o)) (map fst (o_edges o)) (o_tris o) -> delaunay_output o -> read_output (N := RNum) tol o = Ok d -> all_fans o ->
  (length (o_tris o) < fuel)%nat ->
  exists m ci gs, voronoi (N := RNum) tol fuel d = Ok m /\ map fst gs = ms_polygons m /\
    (forall k t, nth_error (o_tris o) k = Some t -> exists c y, center_of o k c /\ vertices_are (ul_list (ms_points m)) [ci k] [y] /\ Q (xy y) (xy c)) /\
    Forall2 (fun v gs =>
      (forall ws ts, closed_fan (map fst (o_edges o)) (o_tris o) v ws ts -> inner_cell ci ts (pg_points (fst gs)) (snd gs)) /\
      (forall w ws w' ts, open_fan (o_edges o) (o_tris o) v w ws w' ts ->
         border_cell (N := RNum) tol o (ul_list (ms_points m)) ci v w w' ts (pg_points (fst gs)) (snd gs)))
      (dedup (flat_map corners (o_tris o))) gs.
Proof.
  intros TP QT QC T D RO HF LF. destruct (voronoi_built (N := RNum) tol fuel o d T RO HF LF) as (m & ci & gs & V & C & X & E & _ & F).
  exists m, ci, gs. split; [exact V|]. split; [exact E|]. split; [|exact F].
  intros k t Hk. destruct (C k t Hk) as (A & B & C0 & c & H1 & H2 & (y & Y & S0)). exists c, y.
  assert (CO : center_of o k c) by (exists t, A, B, C0; auto). split; [exact CO|]. split; [exact (ext_located _ _ _ _ X Y)|].
  apply QC; [|exists k; exact CO|].
  - inversion_clear Y as [|? ? ? ? [_ Y1] _]. eapply nth_error_In; exact Y1.
  - destruct S0 as [->|S0]; [unfold coincide; split; rewrite Rminus_diag_eq, Rabs_R0; auto|]. apply (incomparable_coincide tol TP). exact S0.
Qed.
Lemma inner_regions (tol : R) fuel (o : trout RNum) d : (0 < tol)%R ->
  triangulation (zlen (o_points o)) (map fst (o_edges o)) (o_tris o) -> delaunay_output o -> read_output (N := RNum) tol o = Ok d ->
  (forall v, In v (flat_map corners (o_tris o)) -> (exists ws ts, closed_fan (map fst (o_edges o)) (o_tris o) v ws ts) \/
     (exists w ws w' ts, open_fan (o_edges o) (o_tris o) v w ws w' ts)) -> (length (o_tris o) < fuel)%nat ->
  exists m, voronoi (N := RNum) tol fuel d = Ok m /\
    Forall2 (fun v (g : polygon RNum) => forall ws ts, closed_fan (map fst (o_edges o)) (o_tris o) v ws ts ->
      exists site cs vs, vertices_are (map read_point (o_points o)) [v] [site] /\ vertices_are (ul_list (ms_points m)) (pg_points g) vs /\
        (forall x, voronoi_region (output_sites o) (xy site) x <-> in_hull cs x) /\ represented tol (map xy vs) cs /\
        (forall p, In p (map xy vs) -> exists c, In c cs /\ coincide tol p c))
      (dedup (flat_map corners (o_tris o))) (ms_polygons m).
Proof.
  intros TP T D RO HF LF. destruct (regions_built tol fuel o d (coincide tol) TP) as (m & ci & gs & V & E & CI & F); auto.
  exists m. split; [exact V|]. rewrite <- E. apply Forall2_map_right. eapply Forall2_weaken; [|exact F]. intros v g [H _] ws ts HC.
  destruct D as [DT DO]. exact (inner_region o T DO DT (coincide tol) _ ci CI v ws ts _ _ HC (H ws ts HC)).
Qed.
Lemma inner_regions_exact (tol : R) fuel (o : trout RNum) d : (0 < tol)%R -> centers_apart tol o ->
  triangulation (zlen (o_points o)) (map fst (o_edges o)) (o_tris o) -> delaunay_output o -> read_output (N := RNum) tol o = Ok d ->
  (forall v, In v (flat_map corners (o_tris o)) -> (exists ws ts, closed_fan (map fst (o_edges o)) (o_tris o) v ws ts) \/
     (exists w ws w' ts, open_fan (o_edges o) (o_tris o) v w ws w' ts)) -> (length (o_tris o) < fuel)%nat ->
  exists m, voronoi (N := RNum) tol fuel d = Ok m /\
    Forall2 (fun v (g : polygon RNum) => forall ws ts, closed_fan (map fst (o_edges o)) (o_tris o) v ws ts ->
      exists site vs, vertices_are (map read_point (o_points o)) [v] [site] /\ vertices_are (ul_list (ms_points m)) (pg_points g) vs /\
        forall x, voronoi_region (output_sites o) (xy site) x <-> in_hull (map xy vs) x)
      (dedup (flat_map corners (o_tris o))) (ms_polygons m).
Proof.
  intros TP CA T D RO HF LF. destruct (regions_built tol fuel o d eq TP) as (m & ci & gs & V & E & CI & F); auto.
  { intros a b ->. unfold coincide; split; rewrite Rminus_diag_eq, Rabs_R0; auto. }
  { intros c y Hy (k & Hk) C. destruct (stored_centers (N := RNum) tol o d T RO y Hy) as (k' & Hk'). exact (CA _ _ _ _ Hk' Hk C). }
  exists m. split; [exact V|]. rewrite <- E. apply Forall2_map_right. eapply Forall2_weaken; [|exact F]. intros v g [H _] ws ts HC.
  destruct D as [DT DO]. destruct (inner_region o T DO DT eq _ ci CI v ws ts _ _ HC (H ws ts HC)) as (site & cs & vs & S1 & S2 & S3 & S4 & S5).
  exists site, vs. split; [exact S1|]. split; [exact S2|]. intros x. rewrite S3. split; apply hull_mono; intros z Hz.
  - destruct (S4 z Hz) as (p & Hp & <-). exact Hp.
  - destruct (S5 z Hz) as (c & Hc & ->). exact Hc.
Qed.
Lemma border_regions (tol : R) fuel (o : trout RNum) d : (0 < tol)%R ->
  triangulation (zlen (o_points o)) (map fst (o_edges o)) (o_tris o) -> delaunay_output o -> read_output (N := RNum) tol o = Ok d ->
  (forall v, In v (flat_map corners (o_tris o)) -> (exists ws ts, closed_fan (map fst (o_edges o)) (o_tris o) v ws ts) \/
     (exists w ws w' ts, open_fan (o_edges o) (o_tris o) v w ws w' ts)) -> (length (o_tris o) < fuel)%nat ->
  exists m, voronoi (N := RNum) tol fuel d = Ok m /\
    Forall2 (fun v (g : polygon RNum) => forall w ws w' ts, open_fan (o_edges o) (o_tris o) v w ws w' ts ->
      exists w1 w2 site a b cs vs, (w1 = w /\ w2 = w' \/ w1 = w' /\ w2 = w) /\ (exists t, In t (o_tris o) /\ In (v, w1) (sides t)) /\
      vertices_are (map read_point (o_points o)) [v; w1; w2] [site; a; b] /\ vertices_are (ul_list (ms_points m)) (pg_points g) vs /\
      (gabriel_edge (output_sites o) (xy site) (xy a) -> gabriel_edge (output_sites o) (xy site) (xy b) ->
         forall x, in_hull (xy site :: midpoint (xy site) (xy a) :: midpoint (xy site) (xy b) :: cs) x -> voronoi_region (output_sites o) (xy site) x) /\
      (convex_corner (xy site) (xy a) (xy b) -> forall x, voronoi_region (output_sites o) (xy site) x -> wedge (xy site) (xy a) (xy b) x ->
         in_hull (xy site :: midpoint (xy site) (xy a) :: midpoint (xy site) (xy b) :: cs) x) /\
      (forall z, In z cs -> exists k c, In k ts /\ center_of o k c /\ z = xy c) /\
      represented tol (map xy vs) (midpoint (xy site) (xy a) :: midpoint (xy site) (xy b) :: cs) /\
      (represented tol (map xy vs) [xy site] \/ exists f z, In f (map xy vs) /\ In z (map xy vs) /\ (Rabs (orient f (xy site) z) < tol)%R) /\
      (forall p, In p (map xy vs) -> exists c, In c (xy site :: midpoint (xy site) (xy a) :: midpoint (xy site) (xy b) :: cs) /\ coincide tol p c))
      (dedup (flat_map corners (o_tris o))) (ms_polygons m).
Proof.
  intros TP T D RO HF LF. destruct (regions_built tol fuel o d (coincide tol) TP) as (m & ci & gs & V & E & CI & F); auto.
  exists m. split; [exact V|]. rewrite <- E. apply Forall2_map_right. eapply Forall2_weaken; [|exact F]. intros v g [_ H] w ws w' ts HC.
  destruct D as [DT DO]. exact (border_region tol TP o T DO DT (coincide tol) _ ci CI (fun _ _ h => h) v w ws w' ts _ _ HC (H w ws w' ts HC)).
Qed.

(** ** Cells of triangulations without obtuse angles *)
Lemma nonobtuse_cells (tol : R) fuel (o : trout RNum) d m : (0 < tol)%R ->
  triangulation (zlen (o_points o)) (map fst (o_edges o)) (o_tris o) -> read_output (N := RNum) tol o = Ok d ->
  (forall t A B C, In t (o_tris o) -> vertices_are (map read_point (o_points o)) (corners t) [A; B; C] -> nonobtuse (xy A) (xy B) (xy C)) ->
  voronoi (N := RNum) tol fuel d = Ok m ->
  Forall2 (fun v (g : polygon RNum) => Forall (fun i => exists y x, vertices_are (ul_list (ms_points m)) [i] [y] /\ coincide tol (xy y) x /\
      ((exists t A B C, In t (o_tris o) /\ In v (corners t) /\ vertices_are (map read_point (o_points o)) (corners t) [A; B; C] /\ in_hull [xy A; xy B; xy C] x) \/
       (exists e A B, In e (o_edges o) /\ touches v (fst e) = true /\ vertices_are (map read_point (o_points o)) [fst (fst e); snd (fst e)] [A; B] /\ x = midpoint (xy A) (xy B)) \/
       (exists q, vertices_are (map read_point (o_points o)) [v] [q] /\ x = xy q))) (pg_points g))
    (dedup (flat_map corners (o_tris o))) (ms_polygons m).
Proof.
  intros TP T RO NO V. destruct (voronoi_cells (N := RNum) tol fuel o d m T RO V) as (F & _ & _).
  eapply Forall2_weaken; [|exact F]. intros v g (_ & _ & G). eapply Forall_impl; [|exact G]. intros i (y & x & Y & ST & SRC). exists y, (xy x). split; [exact Y|].
  split. { destruct ST as [->|S0]; [unfold coincide; split; rewrite Rminus_diag_eq, Rabs_R0; auto|]. apply (incomparable_coincide tol TP). exact S0. }
  destruct SRC as [t A B C Ht Hv VA CC|e mm He Ht _ M ->|q VQ ->].
  - left. exists t, A, B, C. do 3 (split; [assumption|]). destruct (Req_dec (orient (xy A) (xy B) (xy C)) 0) as [Z0|NZ].
    + rewrite (proj2 (circumcenter_correct A B C) Z0) in CC. discriminate CC.
    + destruct (proj1 (circumcenter_correct A B C) NZ) as (c' & E' & D1 & D2 & _). rewrite CC in E'. injection E' as <-.
      apply nonobtuse_center; auto. apply (NO t); assumption.
  - right; left. destruct e as [[a b] mk]. cbn [fst snd] in *. unfold iseg_middle in M. cbn [fst snd] in M. inv_ok M. injection M as <-.
    apply vget_ok in E as [A1 A2], E0 as [B1 B2]. exists (a, b, mk), v0, v1. cbn [fst snd]. do 2 (split; [assumption|]).
    split; [repeat (constructor; [split; assumption|]); constructor|]. unfold midpoint, xy, setBoundary, mkP; cbn [px py fst snd]; rnum; f_equal; lra.
  - right; right. exists q. split; [exact VQ|reflexivity].
Qed.
