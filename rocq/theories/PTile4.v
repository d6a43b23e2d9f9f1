(** The border of a convex domain: its corners in order, and where the Voronoi vertices are. *)
From Coq Require Import Reals Lra Lia ZArith List Bool Permutation Classical_Prop.
From Verif Require Import Base Spec MUtil MGeom MHull MPolygon MMaps MTriangle MGen MRegion MDelaunay MVoronoi Bridge BridgeTile.
From Verif Require Import PUtil PPoint PPoly PPoly2 PTri PMore PContains PDelaunay PVoronoi PFan PVorGeo PVorCell PConvex PVorConvex PWedge PBorderCell PVorBorder PTile PTile2 PTile3.
Import ListNotations.

Lemma pairs_snd {A} (x : A) l : map snd (pairs (x :: l)) = l.
Proof. revert x. induction l as [|y l IH]; intros x; [reflexivity|]. rewrite pairs_cons. cbn [map snd]. rewrite IH. reflexivity. Qed.
Lemma ccw3_in x v a b t : NoDup (corners t) -> ccw3 v a b t -> In (x, v) (sides t) -> x = b.
Proof.
  destruct t as [[p q] r]. cbn [corners]. intros ND. inversion_clear ND as [|? ? N1 N2]. inversion_clear N2 as [|? ? N3 _]. unfold ccw3, sides. cbn [In] in *.
  intros (D1 & D2 & D3) H. assert (p <> q /\ p <> r /\ q <> r) as (? & ? & ?) by intuition congruence.
  destruct H as [H|[H|[H|[]]]], D3 as [D3|[D3|[D3|[]]]]; inversion H; inversion D3; subst; congruence.
Qed.
Lemma ccw3_out x v a b t : NoDup (corners t) -> ccw3 v a b t -> In (v, x) (sides t) -> x = a.
Proof.
  destruct t as [[p q] r]. cbn [corners]. intros ND. inversion_clear ND as [|? ? N1 N2]. inversion_clear N2 as [|? ? N3 _]. unfold ccw3, sides. cbn [In] in *.
  intros (D1 & D2 & D3) H. assert (p <> q /\ p <> r /\ q <> r) as (? & ? & ?) by intuition congruence.
  destruct H as [H|[H|[H|[]]]], D1 as [D1|[D1|[D1|[]]]]; inversion H; inversion D1; subst; congruence.
Qed.
Lemma side_corner x y t : In (x, y) (sides t) -> In x (corners t) /\ In y (corners t).
Proof. destruct t as [[p q] r]. unfold sides. cbn [In corners]. intros [H|[H|[H|[]]]]; inversion H; subst; auto. Qed.

Section Rim.
  Local Open Scope Z_scope.
  Variable tol : R.
  Variable o : trout RNum.
  Hypothesis T : triangulation (zlen (o_points o)) (map fst (o_edges o)) (o_tris o).
  Notation tris := (o_tris o).
  Notation mp := (map read_point (o_points o)).
  Notation sites := (output_sites o).
  Hypothesis DO : directed_once tris.
  Hypothesis DT : forall t A B C, In t tris -> vertices_are mp (corners t) [A; B; C] -> delaunay_triangle sites (xy A) (xy B) (xy C).
  Hypothesis HF : fans o.
  Hypothesis CB : convex_border tol o.

  Definition full v (ts : list nat) : Prop := forall k t, nth_error tris k = Some t -> In v (corners t) -> In k ts.
  Definition rim v w1 w2 : Prop := exists us ts, Forall2 (turn_left tris v) (pairs (w1 :: us ++ [w2])) ts /\ NoDup (w1 :: us ++ [w2]) /\ full v ts.
  Definition ring v : Prop := exists w us ts, Forall2 (turn_left tris v) (pairs (w :: us ++ [w])) ts /\ NoDup (w :: us) /\ full v ts.
  Lemma full_at v ts es t : Forall2 (turn_left tris v) es ts -> full v ts -> In t tris -> In v (corners t) -> exists a b, In (a, b) es /\ ccw3 v a b t.
  Proof.
    intros F FU Ht Hv. apply In_nth_error in Ht as (k & Hk). destruct (Forall2_in_right _ _ _ F k (FU k t Hk Hv)) as ([a b] & He & t' & Hk' & D). rewrite Hk in Hk'. injection Hk' as <-. exists a, b. auto.
  Qed.
  Lemma rim_sides v w1 w2 : rim v w1 w2 -> (forall t, In t tris -> ~ In (w1, v) (sides t) /\ ~ In (v, w2) (sides t)) /\
    (exists t, In t tris /\ In (v, w1) (sides t)) /\ (exists t, In t tris /\ In (w2, v) (sides t)).
  Proof.
    intros (us & ts & F & ND & FU). split; [|split].
    - intros t Ht. split; intros S.
      + destruct (full_at v ts _ t F FU Ht (proj2 (side_corner _ _ _ S))) as (a & b & He & D). pose proof (ccw3_in w1 v a b t (tg_corners _ _ _ T t Ht) D S) as <-.
        inversion_clear ND as [|? ? N _]. apply N. rewrite <- (pairs_snd w1 (us ++ [w2])). apply in_map_iff. exists (a, w1). auto.
      + destruct (full_at v ts _ t F FU Ht (proj1 (side_corner _ _ _ S))) as (a & b & He & D). pose proof (ccw3_out w2 v a b t (tg_corners _ _ _ T t Ht) D S) as <-.
        change (w1 :: us ++ [w2]) with ((w1 :: us) ++ [w2]) in *. apply NoDup_remove_2 in ND. rewrite app_nil_r in ND. apply ND. rewrite <- (snoc_pairs_fst (w1 :: us) w2). apply in_map_iff. exists (w2, b). auto.
    - destruct (first_pair w1 us w2) as (x & Hx). destruct (Forall2_in_left _ _ _ F _ Hx) as (k & _ & t & T1 & D). exists t. split; [eapply nth_error_In; exact T1|apply D].
    - destruct (PVorCell.last_pair w1 us w2) as (x & Hx). destruct (Forall2_in_left _ _ _ F _ Hx) as (k & _ & t & T1 & D). exists t. split; [eapply nth_error_In; exact T1|apply D].
  Qed.
  Lemma open_rim v w ws w' ts : open_fan (o_edges o) tris v w ws w' ts -> (rim v w w' \/ rim v w' w).
  Proof.
    intros (SEC & ND & (AR & _) & _). destruct (sector_turn tris v (tg_corners _ _ _ T) DO _ _ SEC (NoDup_simple _ ND)) as [F|F].
    - left. exists ws, ts. split; [exact F|]. split; [exact ND|exact AR].
    - right. apply turn_rev in F. apply NoDup_rev in ND. cbn [rev] in F, ND. rewrite rev_app_distr in F, ND. cbn [rev app] in F, ND. exists (rev ws), (rev ts). split; [exact F|]. split; [exact ND|].
      intros k t H1 H2. rewrite <- in_rev. exact (AR k t H1 H2).
  Qed.
  Lemma corner_rim v w1 w2 : border_corner o v w1 w2 -> rim v w1 w2.
  Proof.
    intros (w & ws & w' & ts & OF & E & t & Ht & S). destruct (open_rim v w ws w' ts OF) as [R|R], E as [[-> ->]|[-> ->]]; try exact R; exfalso; apply rim_sides in R as (R & _); apply (proj2 (R t Ht)), S.
  Qed.
  Lemma point_kind v : In v (flat_map corners tris) -> ring v \/ exists w1 w2, border_corner o v w1 w2 /\ rim v w1 w2.
  Proof.
    intros Hv. destruct (HF v Hv) as [(ws & ts & w & ws' & -> & SEC & ND & L3 & (AR & _))|(w & ws & w' & ts & OF)].
    - left. cbn [app] in SEC. destruct (sector_turn tris v (tg_corners _ _ _ T) DO _ _ SEC (closed_simple w ws' ND L3)) as [F|F]; [exists w, ws', ts; auto|].
      apply turn_rev in F. cbn [rev] in F. rewrite rev_app_distr in F. exists w, (rev ws'), (rev ts). split; [exact F|]. split.
      + inversion_clear ND as [|? ? N1 N2]. constructor; [rewrite <- in_rev; exact N1|apply NoDup_rev, N2].
      + intros k t H1 H2. rewrite <- in_rev. exact (AR k t H1 H2).
    - right. destruct (open_rim v w ws w' ts OF) as [R|R]; [exists w, w'|exists w', w]; (split; [|exact R]); exists w, ws, w', ts; (split; [exact OF|]); (split; [auto|]); apply (rim_sides _ _ _ R).
  Qed.
  Lemma in_corners v t : In t tris -> In v (corners t) -> In v (flat_map corners tris).
  Proof. intros H1 H2. apply in_flat_map. exists t. auto. Qed.
  (** the corner after the edge, and the corner before it *)
  Lemma rim_next v w1 w2 : rim v w1 w2 -> exists x, border_corner o w1 x v.
  Proof.
    intros R. destruct (rim_sides _ _ _ R) as (NO & (t & Ht & S) & _).
    destruct (point_kind w1 (in_corners w1 t Ht (proj2 (side_corner _ _ _ S)))) as [(w & us & ts & F & _ & FU)|(x1 & x2 & BC & us & ts & F & ND & FU)].
    - exfalso. destruct (full_at w1 ts _ t F FU Ht (proj2 (side_corner _ _ _ S))) as (a & b & He & D). pose proof (ccw3_in v w1 a b t (tg_corners _ _ _ T t Ht) D S) as <-.
      assert (Hv : In v (map snd (pairs (w :: us ++ [w])))) by (apply in_map_iff; exists (a, v); auto). rewrite pairs_snd in Hv.
      assert (Hv' : In v (map fst (pairs ((w :: us) ++ [w])))) by (rewrite snoc_pairs_fst; apply in_app_or in Hv as [Hv|[<-|[]]]; [right; exact Hv|left; reflexivity]).
      apply in_map_iff in Hv' as ([v' c] & E & He'). cbn in E. subst v'. destruct (Forall2_in_left _ _ _ F _ He') as (k & _ & t' & T1 & D'). apply (proj1 (NO t' (nth_error_In _ _ T1))). apply D'.
    - exists x1. destruct (full_at w1 ts _ t F FU Ht (proj2 (side_corner _ _ _ S))) as (a & b & He & D). pose proof (ccw3_in v w1 a b t (tg_corners _ _ _ T t Ht) D S) as <-.
      assert (Hv : In v (map snd (pairs (x1 :: us ++ [x2])))) by (apply in_map_iff; exists (a, v); auto). rewrite pairs_snd in Hv. apply in_app_or in Hv as [Hv|[<-|[]]]; [|exact BC]. exfalso.
      assert (Hv' : In v (map fst (pairs ((x1 :: us) ++ [x2])))) by (rewrite snoc_pairs_fst; right; exact Hv).
      apply in_map_iff in Hv' as ([v' c] & E & He'). cbn in E. subst v'. destruct (Forall2_in_left _ _ _ F _ He') as (k & _ & t' & T1 & D'). apply (proj1 (NO t' (nth_error_In _ _ T1))). apply D'.
  Qed.
  Lemma rim_prev v w1 w2 : rim v w1 w2 -> exists x, border_corner o w2 v x.
  Proof.
    intros R. destruct (rim_sides _ _ _ R) as (NO & _ & (t & Ht & S)).
    destruct (point_kind w2 (in_corners w2 t Ht (proj1 (side_corner _ _ _ S)))) as [(w & us & ts & F & _ & FU)|(x1 & x2 & BC & us & ts & F & ND & FU)].
    - exfalso. destruct (full_at w2 ts _ t F FU Ht (proj1 (side_corner _ _ _ S))) as (a & b & He & D). pose proof (ccw3_out v w2 a b t (tg_corners _ _ _ T t Ht) D S) as <-.
      assert (Hv : In v (map fst (pairs ((w :: us) ++ [w])))) by (apply in_map_iff; exists (v, b); auto). rewrite snoc_pairs_fst in Hv.
      assert (Hv' : In v (map snd (pairs (w :: us ++ [w])))) by (rewrite pairs_snd; destruct Hv as [<-|Hv]; apply in_or_app; [right; left; reflexivity|left; exact Hv]).
      apply in_map_iff in Hv' as ([c v'] & E & He'). cbn in E. subst v'. destruct (Forall2_in_left _ _ _ F _ He') as (k & _ & t' & T1 & D'). apply (proj2 (NO t' (nth_error_In _ _ T1))). apply D'.
    - exists x2. destruct (full_at w2 ts _ t F FU Ht (proj1 (side_corner _ _ _ S))) as (a & b & He & D). pose proof (ccw3_out v w2 a b t (tg_corners _ _ _ T t Ht) D S) as <-.
      assert (Hv : In v (map fst (pairs ((x1 :: us) ++ [x2])))) by (apply in_map_iff; exists (v, b); auto). rewrite snoc_pairs_fst in Hv. destruct Hv as [<-|Hv]; [exact BC|]. exfalso.
      assert (Hv' : In v (map snd (pairs (x1 :: us ++ [x2])))) by (rewrite pairs_snd; apply in_or_app; left; exact Hv).
      apply in_map_iff in Hv' as ([c v'] & E & He'). cbn in E. subst v'. destruct (Forall2_in_left _ _ _ F _ He') as (k & _ & t' & T1 & D'). apply (proj2 (NO t' (nth_error_In _ _ T1))). apply D'.
  Qed.
  Lemma used_site i : In i (flat_map corners tris) -> exists q, vertices_are mp [i] [q] /\ xy q = pos o i /\ In (pos o i) sites.
  Proof.
    intros Hi. destruct (corner_range _ _ _ i T Hi) as [L1 L2]. destruct (nth_get mp (Z.to_nat i)) as (q & Hq); [rewrite map_length; unfold zlen in L2; lia|].
    assert (V : vertices_are mp [i] [q]) by (constructor; [split; assumption|constructor]). exists q. destruct (at_pos o i q V) as [P1 P2]. rewrite P1. auto.
  Qed.
  Lemma turn_used v e k : turn_left tris v e k -> In v (flat_map corners tris) /\ In (fst e) (flat_map corners tris) /\ In (snd e) (flat_map corners tris) /\ (0 < orient (pos o v) (pos o (fst e)) (pos o (snd e)))%R.
  Proof.
    destruct e as [a b]. intros (t & Hk & D). cbn [fst snd] in *. pose proof (nth_error_In _ _ Hk) as Ht. destruct (corner_data o T DT k t v a b Hk D) as (O & _).
    destruct D as (D1 & D2 & _). destruct (side_corner _ _ _ D1), (side_corner _ _ _ D2). repeat split; [eapply in_corners; eassumption|eapply in_corners; eassumption|eapply in_corners; eassumption|exact O].
  Qed.
  (** what is known of a corner of the border *)
  Lemma corner_facts v w1 w2 : border_corner o v w1 w2 -> let p := pos o v in let a := pos o w1 in let b := pos o w2 in
    In v (flat_map corners tris) /\ In w1 (flat_map corners tris) /\ In w2 (flat_map corners tris) /\ a <> p /\ b <> p /\
    gabriel_edge sites p a /\ gabriel_edge sites p b /\ convex_corner p a b /\ (forall s, In s sites -> wedge p a b s) /\
    exists n, In n (flat_map corners tris) /\ (0 < orient p a (pos o n))%R.
  Proof.
    intros BC p a b. pose proof (corner_rim v w1 w2 BC) as (us & ts & F & ND & FU).
    destruct (first_pair w1 us w2) as (n & Hn). destruct (Forall2_in_left _ _ _ F _ Hn) as (k & _ & TE). destruct (turn_used v _ k TE) as (U1 & U2 & U3 & O1). cbn [fst snd] in *.
    destruct (PVorCell.last_pair w1 us w2) as (m & Hm). destruct (Forall2_in_left _ _ _ F _ Hm) as (k' & _ & TE'). destruct (turn_used v _ k' TE') as (_ & _ & U4 & O2). cbn [fst snd] in *.
    destruct (used_site v U1) as (q & HQ & EQ & _), (used_site w1 U2) as (qa & HA & EA & _), (used_site w2 U4) as (qb & HB & EB & _).
    assert (VA : vertices_are mp [v; w1; w2] [q; qa; qb]).
    { clear - HQ HA HB. inversion_clear HQ as [|? ? ? ? Y1 _]. inversion_clear HA as [|? ? ? ? Y2 _]. inversion_clear HB as [|? ? ? ? Y3 _]. repeat (constructor; [assumption|]). constructor. }
    destruct (CB v w1 w2 q qa qb BC VA) as (G1 & G2 & CV & WS & _). rewrite EQ, EA, EB in *. fold p a b in G1, G2, CV, WS, O1, O2 |- *.
    split; [exact U1|]. split; [exact U2|]. split; [exact U4|]. split; [apply (orient_degenerate _ _ _ O1)|]. split; [apply (orient_degenerate _ _ _ O2)|].
    split; [exact G1|]. split; [exact G2|]. split; [exact CV|]. split; [exact WS|]. exists n. auto.
  Qed.

  (** ** A point with three nearest sites that are not on a line *)
  Variables (c A B C : pt).
  Hypothesis IA : In A sites.
  Hypothesis IB : In B sites.
  Hypothesis IC : In C sites.
  Hypothesis NL : (0 < orient A B C)%R.
  Hypothesis NA : voronoi_region sites A c.
  Hypothesis NB : voronoi_region sites B c.
  Hypothesis NC : voronoi_region sites C c.
  Lemma center_wedge v w1 w2 : border_corner o v w1 w2 -> wedge (pos o v) (pos o w1) (pos o w2) c.
  Proof.
    intros BC0. apply NNPP. intros NW0.
    set (P := fun v => exists w1 w2, border_corner o v w1 w2 /\ ~ wedge (pos o v) (pos o w1) (pos o w2) c).
    destruct (least P (fun v => dist c (pos o v)) (flat_map corners tris)) as (x & Hx & (x1 & x2 & BC & NW) & M).
    { exists v. split; [apply (corner_facts _ _ _ BC0)|]. exists w1, w2. auto. }
    clear v w1 w2 BC0 NW0. pose proof (corner_rim _ _ _ BC) as RM.
    destruct (corner_facts x x1 x2 BC) as (U0 & U1 & U2 & N1 & N2 & G1 & G2 & CV & WS & _). set (p := pos o x) in *. set (a := pos o x1) in *. set (b := pos o x2) in *.
    destruct (used_site x U0) as (_ & _ & _ & Ip). destruct (used_site x1 U1) as (_ & _ & _ & Ia). destruct (used_site x2 U2) as (_ & _ & _ & Ib). fold p in Ip. fold a in Ia. fold b in Ib.
    destruct (outside_corner p a b c CV NW) as [[O D]|[[O D]|Q]].
    - destruct (Rle_dec (vdot (vsub a p) (vsub c p)) (vdot (vsub a p) (vsub a p))) as [L|L].
      + assert (K : forall s, In s sites -> voronoi_region sites s c -> orient p a s = 0%R).
        { intros s Hs R. apply (gabriel_cap p a c s); auto. apply (WS s Hs). }
        pose proof (not_flat p a A B C (K A IA NA) (K B IB NB) (K C IC NC) N1). lra.
      + destruct (rim_next x x1 x2 RM) as (y & BC'). assert (PX : P x1).
        { exists y, x. split; [exact BC'|]. fold a p. intros [_ W]. clear - O W. unfold orient, vcross, vsub in *. cbn [fst snd] in *. lra. }
        specialize (M x1 U1 PX). cbn beta in M. fold a p in M. apply dist_le in M. clear - M L. unfold vdot, vsub in *. pose proof (Rle_0_sqr (fst a - fst p)) as Q1. pose proof (Rle_0_sqr (snd a - snd p)) as Q2. unfold Rsqr in *. cbn [fst snd] in *. lra.
    - destruct (Rle_dec (vdot (vsub b p) (vsub c p)) (vdot (vsub b p) (vsub b p))) as [L|L].
      + assert (K : forall s, In s sites -> voronoi_region sites s c -> orient b p s = 0%R).
        { intros s Hs R. apply (gabriel_cap b p c s); auto.
          - clear - O. unfold orient, vcross, vsub in *. cbn [fst snd] in *. lra.
          - clear - D L. unfold vdot, vsub in *. cbn [fst snd] in *. split; lra.
          - destruct (WS s Hs) as [_ W]. clear - W. unfold orient, vcross, vsub in *. cbn [fst snd] in *. lra.
          - pose proof (G2 b Ib) as G0. pose proof (G2 s Hs) as G3. clear - G3. apply dist_le in G3. apply dist_le. clearbody p b. unfold midpoint, vdot, vsub in *. destruct p as [p1 p2], b as [b1 b2], s as [s1 s2]. cbn [fst snd] in *. lra. }
        pose proof (not_flat b p A B C (K A IA NA) (K B IB NB) (K C IC NC) (fun E => N2 (eq_sym E))). lra.
      + destruct (rim_prev x x1 x2 RM) as (y & BC'). assert (PX : P x2).
        { exists x, y. split; [exact BC'|]. fold b p. intros [W _]. clear - O W. unfold orient, vcross, vsub in *. cbn [fst snd] in *. lra. }
        specialize (M x2 U2 PX). cbn beta in M. fold b p in M. apply dist_le in M. clear - M L. unfold vdot, vsub in *. pose proof (Rle_0_sqr (fst b - fst p)) as Q1. pose proof (Rle_0_sqr (snd b - snd p)) as Q2. unfold Rsqr in *. cbn [fst snd] in *. lra.
    - pose proof (Q A (WS A IA) (NA p Ip)) as E1. pose proof (Q B (WS B IB) (NB p Ip)) as E2. clear - NL E1 E2. subst A B. unfold orient, vcross, vsub in NL. cbn [fst snd] in NL. lra.
  Qed.
  Lemma center_hull : flat_map corners tris <> [] -> in_hull sites c.
  Proof.
    intros NE u. destruct (Exists_dec (fun s => vdot u c <= vdot u s)%R sites (fun s => Rle_dec _ _)) as [X|X]; [apply Exists_exists in X; exact X|exfalso].
    assert (L : forall s, In s sites -> (vdot u s < vdot u c)%R) by (intros s Hs; apply Rnot_le_lt; intros K; apply X, Exists_exists; eauto). clear X.
    assert (U : u <> (0, 0)%R). { intros ->. specialize (L A IA). unfold vdot in L. cbn in L. lra. }
    destruct (least (fun _ => True) (fun v => - vdot u (pos o v))%R (flat_map corners tris)) as (x & Hx & _ & M).
    { destruct (flat_map corners tris) as [|v l]; [congruence|]. exists v. split; [left; reflexivity|exact I]. }
    destruct (used_site x Hx) as (_ & _ & _ & Ix).
    destruct (point_kind x Hx) as [(w & us & ts & F & _ & _)|(x1 & x2 & BC & _)].
    - destruct (ring_spread (pos o x) (pos o w) (map (pos o) us) u) as (n & Hn & Ln); [|exact U|].
      + replace (pos o w :: map (pos o) us ++ [pos o w]) with (map (pos o) (w :: us ++ [w])) by (cbn [map]; rewrite map_app; reflexivity). rewrite pairs_map.
        intros e He. apply in_map_iff in He as (e' & <- & He). cbn [fst snd]. destruct (Forall2_in_left _ _ _ F _ He) as (k & _ & TE). apply (turn_used x e' k TE).
      + change (pos o w :: map (pos o) us) with (map (pos o) (w :: us)) in Hn. apply in_map_iff in Hn as (i & <- & Hi).
        assert (Hi' : In i (map fst (pairs ((w :: us) ++ [w])))) by (rewrite snoc_pairs_fst; exact Hi). apply in_map_iff in Hi' as (e & <- & He).
        destruct (Forall2_in_left _ _ _ F _ He) as (k & _ & TE). destruct (turn_used x e k TE) as (_ & U1 & _). specialize (M _ U1 I). clear - M Ln. unfold vdot, vsub in *. cbn [fst snd] in *. lra.
    - destruct (corner_facts x x1 x2 BC) as (_ & U1 & U2 & _ & _ & _ & _ & CV & _ & n & Un & On).
      assert (G : forall i, In i (flat_map corners tris) -> (vdot u (vsub (pos o i) (pos o x)) <= 0)%R) by (intros i Hi; specialize (M i Hi I); clear - M; unfold vdot, vsub in *; cbn [fst snd] in *; lra).
      pose proof (corner_extreme (pos o x) (pos o x1) (pos o n) (pos o x2) u c CV On (G _ U1) (G _ U2) (G _ Un) (center_wedge x x1 x2 BC)) as K.
      specialize (L _ Ix). clear - K L. unfold vdot, vsub in *. cbn [fst snd] in *. lra.
  Qed.
End Rim.
