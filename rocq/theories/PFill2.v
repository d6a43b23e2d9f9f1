(** A triangulation that fills a convex outline: convexity of the domain, hull and total area. *)
From Coq Require Import Reals Lra Lia ZArith List Bool Permutation.
From Verif Require Import Base Spec MUtil MGeom MHull MPolygon MMaps MTriangle MGen MRegion MDelaunay MVoronoi Bridge BridgeTile BridgeHist BridgeFill.
From Verif Require Import PUtil PPoint PPoly PPoly2 PTri PMore PDelaunay PVoronoi PFan PVorGeo PVorCell PConvex PVorConvex PWedge PDual PHist PTile PTile2 PTile3 PTile4 PTile5 PTile6 PFill.
Import ListNotations.

(** sums over directed sides *)
Section Sums.
  Local Open Scope R_scope.
  Definition swap (e : Z * Z) : Z * Z := (snd e, fst e).
  Lemma swap_swap e : swap (swap e) = e. Proof. destruct e; reflexivity. Qed.
  Definition side_dec (a b : Z * Z) : {a = b} + {a <> b}.
  Proof. decide equality; apply Z.eq_dec. Defined.
  Definition both (S : list (Z * Z)) (e : Z * Z) : bool := if in_dec side_dec (swap e) S then true else false.
  Lemma split_sum {A} (f : A -> R) (g : A -> bool) l : sumR (map f l) = sumR (map f (filter g l)) + sumR (map f (filter (fun a => negb (g a)) l)).
  Proof. induction l as [|a l IH]; cbn [map filter]; [cbn; lra|]. destruct (g a); cbn [negb map]; unfold sumR in *; cbn [fold_right]; rewrite IH; lra. Qed.
  (** the sides used in both directions cancel *)
  Lemma cancel (f : Z * Z -> R) S : (forall e, f (swap e) = - f e) -> NoDup S -> sumR (map f (filter (both S) S)) = 0.
  Proof.
    intros AF ND. set (I := filter (both S) S). assert (P : Permutation I (map swap I)).
    { apply NoDup_Permutation; [apply NoDup_filter, ND| |].
      - apply FinFun.Injective_map_NoDup; [|apply NoDup_filter, ND]. intros x y E. rewrite <- (swap_swap x), E, swap_swap. reflexivity.
      - assert (K : forall e, In e I -> In (swap e) I). { intros e H. apply filter_In in H as [H1 H2]. apply filter_In. unfold both in *. destruct (in_dec side_dec (swap e) S) as [J|]; [|discriminate]. split; [exact J|]. rewrite swap_swap. destruct (in_dec side_dec e S); [reflexivity|contradiction]. }
        intros e. split; intros H; [rewrite <- (swap_swap e); apply in_map, K, H|]. apply in_map_iff in H as (x & <- & H). apply K, H. }
    pose proof (sumR_perm _ _ (Permutation_map f P)) as E. rewrite map_map in E. rewrite (map_ext _ (fun e => - f e) AF) in E.
    assert (O : sumR (map (fun e => - f e) I) = - sumR (map f I)). { clear. induction I as [|a l IH]; unfold sumR in *; cbn [map fold_right]; [lra|]. rewrite IH. lra. }
    lra.
  Qed.
  Lemma edges_nodup {A} (l : list A) : NoDup l -> NoDup (edges_of l).
  Proof. intros ND. destruct l as [|a l]; [constructor|]. apply (NoDup_map_inv fst). unfold edges_of. rewrite snoc_pairs_fst. exact ND. Qed.
  Lemma border_sum (f : Z * Z -> R) tris ring : (forall e, f (swap e) = - f e) -> NoDup (flat_map sides tris) -> NoDup ring ->
    (forall a b, border_side tris a b <-> In (a, b) (edges_of ring)) -> sumR (map f (flat_map sides tris)) = sumR (map f (edges_of ring)).
  Proof.
    intros AF ND NR H. rewrite (split_sum f (both (flat_map sides tris))), (cancel f _ AF ND), Rplus_0_l. apply sumR_perm, Permutation_map, NoDup_Permutation.
    - apply NoDup_filter, ND.
    - apply edges_nodup, NR.
    - intros [a b]. rewrite <- H. unfold border_side. rewrite filter_In. unfold both, swap. cbn [fst snd]. split.
      + intros [I J]. apply in_flat_map in I as (t & Ht & I). destruct (in_dec side_dec (b, a) (flat_map sides tris)) as [|N]; [discriminate|]. split; [eauto|].
        intros t' Ht' K. apply N. apply in_flat_map. eauto.
      + intros [(t & Ht & I) J]. split; [apply in_flat_map; eauto|]. destruct (in_dec side_dec (b, a) (flat_map sides tris)) as [K|]; [|reflexivity].
        exfalso. apply in_flat_map in K as (t' & Ht' & K). exact (J t' Ht' K).
  Qed.
  Lemma nodup_join {A} (l l' : list A) : NoDup l -> NoDup l' -> (forall x, In x l -> In x l' -> False) -> NoDup (l ++ l').
  Proof.
    induction 1 as [|a l N ND IH]; intros ND' H; [exact ND'|]. cbn [app]. constructor.
    - intros K. apply in_app_or in K as [K|K]; [contradiction|]. apply (H a (or_introl eq_refl) K).
    - apply IH; [exact ND'|]. intros x H1 H2. apply (H x (or_intror H1) H2).
  Qed.
  Lemma sides_nodup tris : (forall t, In t tris -> NoDup (corners t)) -> directed_once tris -> NoDup (flat_map sides tris).
  Proof.
    induction tris as [|t tris IH]; intros C DO; [constructor|]. cbn [flat_map]. apply nodup_join.
    - specialize (C t (or_introl eq_refl)). destruct t as [[a b] c]. cbn [corners sides] in *. clear - C. inversion_clear C as [|? ? N1 C']. inversion_clear C' as [|? ? N2 C'']. cbn [In] in *.
      repeat constructor; cbn [In]; intros K; repeat destruct K as [K|K]; try contradiction; injection K; intros; subst; auto.
    - apply IH; [intros t' Ht'; apply C; right; exact Ht'|]. intros k k' u u' s Hk Hk' S S'. assert (E : Datatypes.S k = Datatypes.S k') by (apply (DO (Datatypes.S k) (Datatypes.S k') u u' s); assumption). congruence.
    - intros s H1 H2. apply in_flat_map in H2 as (t' & Ht' & H2). apply In_nth_error in Ht' as (k & Hk). assert (E : 0%nat = Datatypes.S k) by (apply (DO 0%nat (Datatypes.S k) t t' s); auto). discriminate.
  Qed.
End Sums.

Section Fill.
  Local Open Scope Z_scope.
  Variable tol : R.
  Hypothesis tol_pos : (0 < tol)%R.
  Variables (outline given : list pt) (o : trout RNum).
  Notation tris := (o_tris o).
  Notation mp := (map read_point (o_points o)).
  Notation sites := (output_sites o).
  Hypothesis DA : delaunay_answer tol o.
  Hypothesis SA : sources_apart tol o.
  Hypothesis CO : convex_outline outline.
  Hypothesis FL : fills tol outline given o.
  Let T := da_triangulation _ _ DA.
  Let D := da_delaunay _ _ DA.
  Lemma fill_sites : NoDup sites.
  Proof.
    apply NoDup_nth_error. intros i j Hi E. destruct (Nat.eq_dec i j) as [|N]; [assumption|]. exfalso. unfold output_sites in *. rewrite map_length in Hi.
    destruct (nth_get mp i Hi) as (a & Ha). rewrite (map_nth_error xy _ _ Ha) in E. symmetry in E. destruct (nth_error mp j) as [b|] eqn:Hb; [|rewrite (proj2 (nth_error_None (map xy mp) j)) in E; [discriminate|rewrite map_length; apply nth_error_None, Hb]].
    rewrite (map_nth_error xy _ _ Hb) in E. assert (K : forall (x y : pt), Some x = Some y -> x = y) by congruence. apply K in E. apply (da_apart _ _ DA i j a b Ha Hb N). rewrite E. unfold coincide, Rminus. rewrite !Rplus_opp_r, Rabs_R0. auto.
  Qed.
  Lemma ring_pos ring rs : vertices_are mp ring rs -> map xy rs = map (pos o) ring.
  Proof. induction 1 as [|k q ks qs H V IH]; [reflexivity|]. cbn [map]. rewrite IH. f_equal. symmetry. apply (at_pos o k q). constructor; [exact H|constructor]. Qed.
  (** a side of the border has all sites on its left and none in its circle *)
  Lemma border_left a b : border_side tris a b -> (forall x, In x sites -> (0 <= orient (pos o a) (pos o b) x)%R).
  Proof.
    intros B x Hx. destruct (fl_ring _ _ _ _ FL) as (ring & rs & H & ND & V & S). apply H in B. apply (edges_map_in (pos o)) in B. rewrite <- (ring_pos _ _ V) in B.
    apply (side_left _ _ _ _ x CO S (fl_inside _ _ _ _ FL x Hx) B).
  Qed.
  Lemma rim_border v w1 w2 : border_corner o v w1 w2 -> border_side tris v w1 /\ border_side tris w2 v.
  Proof.
    intros BC. destruct (rim_sides o T v w1 w2 (corner_rim o T (proj2 D) v w1 w2 BC)) as (NO & S1 & S2).
    split; (split; [assumption|]); intros t Ht; apply (NO t Ht).
  Qed.
  Lemma fill_border : convex_border tol o.
  Proof.
    intros v w1 w2 site a b BC V. destruct (rim_border v w1 w2 BC) as [B1 B2].
    assert (NE : w1 <> w2). { destruct (corner_rim o T (proj2 D) v w1 w2 BC) as (us & ts & _ & ND & _). inversion_clear ND as [|? ? N _]. intros ->. apply N. apply in_or_app. right. left. reflexivity. }
    inversion_clear V as [|? ? ? ? Y1 V']. inversion_clear V' as [|? ? ? ? Y2 V'']. inversion_clear V'' as [|? ? ? ? Y3 _].
    assert (V1 : vertices_are mp [v] [site]) by (constructor; [exact Y1|constructor]). assert (V2 : vertices_are mp [w1] [a]) by (constructor; [exact Y2|constructor]). assert (V3 : vertices_are mp [w2] [b]) by (constructor; [exact Y3|constructor]).
    destruct (at_pos o v site V1) as [P1 I1], (at_pos o w1 a V2) as [P2 I2], (at_pos o w2 b V3) as [P3 I3]. fold (output_sites o) in I1, I2, I3.
    pose proof (border_left v w1 B1) as L1. pose proof (border_left w2 v B2) as L2. rewrite P1, P2 in L1. rewrite P3, P1 in L2.
    assert (G1 : gabriel_edge sites (xy site) (xy a)). { apply (fl_gabriel _ _ _ _ FL v w1); [exact B1|]. constructor; [exact Y1|exact V2]. }
    assert (G2 : gabriel_edge sites (xy site) (xy b)).
    { assert (G : gabriel_edge sites (xy b) (xy site)) by (apply (fl_gabriel _ _ _ _ FL w2 v); [exact B2|]; constructor; [exact Y3|exact V1]).
      intros q Hq. specialize (G q Hq). apply dist_le in G. apply dist_le. unfold vdot, vsub, midpoint in *. cbn [fst snd] in *. lra. }
    assert (INJ : forall i j p q, vertices_are mp [i] [p] -> vertices_are mp [j] [q] -> xy p = xy q -> i = j).
    { intros i j p q Vi Vj E. apply (pos_inj o (proj1 D) fill_sites i j p q Vi Vj). rewrite (proj1 (at_pos o i p Vi)), (proj1 (at_pos o j q Vj)). exact E. }
    assert (SN : forall x y t, In t tris -> In (x, y) (sides t) -> x <> y).
    { intros x y [[t1 t2] t3] Ht S. pose proof (tg_corners _ _ _ T _ Ht) as C. cbn [corners sides In] in C, S. inversion_clear C as [|? ? N1 C']. inversion_clear C' as [|? ? N2 C'']. cbn [In] in *. repeat destruct S as [S|S]; try contradiction; injection S as <- <-; auto. }
    assert (NA : xy a <> xy site). { intros E. destruct B1 as [(t & Ht & S) _]. apply (SN _ _ _ Ht S). symmetry. exact (INJ _ _ _ _ V2 V1 E). }
    assert (NB : xy b <> xy site). { intros E. destruct B2 as [(t & Ht & S) _]. apply (SN _ _ _ Ht S). exact (INJ _ _ _ _ V3 V1 E). }
    assert (NAB : xy a <> xy b) by (intros E; apply NE; exact (INJ _ _ _ _ V2 V3 E)).
    split; [exact G1|]. split; [exact G2|]. split; [apply (gabriel_corner sites); auto|]. split.
    - intros s Hs. split; [apply L1, Hs|]. specialize (L2 s Hs). unfold orient, vcross, vsub in *. cbn [fst snd] in *. lra.
    - assert (V4 : vertices_are mp [w2; v; w1] [b; site; a]) by (constructor; [exact Y3|]; constructor; [exact Y1|exact V2]).
      pose proof (fl_corners _ _ _ _ FL w2 v w1 b site a B2 B1 V4) as C. rewrite (orient_rot (xy b) (xy site) (xy a)). exact C.
  Qed.
  Lemma fill_domain : convex_domain tol o.
  Proof. constructor; [exact T|exact D|exact fill_sites|exact SA|exact (da_fans _ _ DA)|exact fill_border]. Qed.
  Lemma fill_hull x : incl outline given -> (in_hull sites x <-> in_hull outline x).
  Proof.
    intros I. split; apply hull_of_hull; intros v Hv; [apply (fl_inside _ _ _ _ FL), Hv|]. apply hull_member. apply (fl_given _ _ _ _ FL), I, Hv.
  Qed.
  Lemma fill_area tas : triangle_areas o tas -> sumR tas = shoelace outline.
  Proof.
    intros TA. destruct (fl_ring _ _ _ _ FL) as (ring & rs & H & ND & V & S). rewrite <- (ring_area _ _ S), (ring_pos _ _ V).
    set (f := fun e : Z * Z => vcross (pos o (fst e)) (pos o (snd e))).
    assert (E1 : shoelace (map (pos o) ring) = (sumR (map f (edges_of ring)) / 2)%R). { unfold shoelace. f_equal. f_equal. destruct ring as [|a l]; [reflexivity|]. unfold edges_of. cbn [map]. change (pos o a :: map (pos o) l) with (map (pos o) (a :: l)). change [pos o a] with (map (pos o) [a]). rewrite <- map_app, PVorGeo.pairs_map, map_map. reflexivity. }
    rewrite E1, <- (border_sum f tris ring); [| |apply sides_nodup; [exact (tg_corners _ _ _ T)|exact (proj2 D)]|exact ND|exact H].
    - clear - TA. induction TA as [|t a ts as_ (A & B & C & V & ->) F IH]; [cbn; lra|]. cbn [flat_map]. rewrite map_app, sumR_app.
      change (sumR (shoelace [xy A; xy B; xy C] :: as_)) with (shoelace [xy A; xy B; xy C] + sumR as_)%R. rewrite IH.
      assert (K : shoelace [xy A; xy B; xy C] = (sumR (map f (sides t)) / 2)%R); [|lra].
      destruct t as [[a b] c]. cbn [corners] in V. inversion_clear V as [|? ? ? ? Y1 V']. inversion_clear V' as [|? ? ? ? Y2 V'']. inversion_clear V'' as [|? ? ? ? Y3 _].
      assert (P1 : pos o a = xy A) by (apply (at_pos o); constructor; [exact Y1|constructor]). assert (P2 : pos o b = xy B) by (apply (at_pos o); constructor; [exact Y2|constructor]). assert (P3 : pos o c = xy C) by (apply (at_pos o); constructor; [exact Y3|constructor]).
      unfold shoelace. cbn [sides map]. unfold f. cbn [fst snd]. rewrite P1, P2, P3. reflexivity.
    - intros [a b]. unfold f, swap, vcross. cbn [fst snd]. ring.
  Qed.
End Fill.
