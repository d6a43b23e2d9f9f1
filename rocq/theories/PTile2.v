(** The areas of the Voronoi cells: one fan, and the sum over all. *)
From Coq Require Import Reals Lra Lia ZArith List Bool Permutation.
From Verif Require Import Base Spec MUtil MGeom MHull MPolygon MMaps MTriangle MGen MRegion MDelaunay MVoronoi Bridge.
From Verif Require Import PUtil PPoint PPoly PPoly2 PTri PMore PContains PDelaunay PVoronoi PFan PVorGeo PVorCell PConvex PVorConvex PWedge PBorderCell PVorBorder PTile.
Import ListNotations.

Section Fans.
  Local Open Scope Z_scope.
  Notation Pt := (Point RNum).
  Variable tol : R.
  Hypothesis tol_pos : (0 < tol)%R.
  Variable o : trout RNum.
  Hypothesis T : triangulation (zlen (o_points o)) (map fst (o_edges o)) (o_tris o).
  Notation tris := (o_tris o).
  Notation mp := (map read_point (o_points o)).
  Notation sites := (map xy mp).
  Hypothesis DO : directed_once tris.
  Hypothesis DT : forall t A B C, In t tris -> vertices_are mp (corners t) [A; B; C] -> delaunay_triangle sites (xy A) (xy B) (xy C).
  Hypothesis NS : NoDup sites.
  Variable cc : list Pt.
  Variable ci : nat -> Z.
  Hypothesis CI : forall k t, nth_error tris k = Some t -> exists c y, center_of o k c /\ vertices_are cc [ci k] [y] /\ xy y = xy c.
  Notation f := (at_index cc).
  Notation ctr := (fun k => f (ci k)).

  (** twice the part of the [k]-th triangle nearer to its corner [v], as it is cut at the center *)
  Definition quad (v : Z) (k : nat) : R :=
    match nth_error tris k with
    | Some (A, B, C) => (if v =? A then kite (pos o A) (pos o B) (pos o C) (f (ci k)) else 0) +
        (if v =? B then kite (pos o B) (pos o C) (pos o A) (f (ci k)) else 0) + (if v =? C then kite (pos o C) (pos o A) (pos o B) (f (ci k)) else 0)
    | None => 0
    end%R.
  Lemma quad_turn v a b k : turn_left tris v (a, b) k -> quad v k = kite (pos o v) (pos o a) (pos o b) (f (ci k)).
  Proof.
    intros (t & Hk & D). unfold quad. rewrite Hk. pose proof (tg_corners _ _ _ T t (nth_error_In _ _ Hk)) as ND. destruct t as [[A B] C]. cbn [corners] in ND.
    inversion_clear ND as [|? ? N1 N2]. inversion_clear N2 as [|? ? N3 _]. cbn [In] in *.
    assert (Q : (v = A /\ a = B /\ b = C) \/ (v = B /\ a = C /\ b = A) \/ (v = C /\ a = A /\ b = B)).
    { destruct D as (D1 & D2 & _). unfold sides in *. cbn [In fst snd] in *. destruct D1 as [D1|[D1|[D1|[]]]], D2 as [D2|[D2|[D2|[]]]]; inversion D1; inversion D2; subst; intuition congruence. }
    destruct Q as [(-> & -> & ->)|[(-> & -> & ->)|(-> & -> & ->)]];
    repeat match goal with |- context [?x =? ?y] => destruct (Z.eqb_spec x y); [try (exfalso; intuition congruence)|try (exfalso; intuition congruence)] end; lra.
  Qed.
  Lemma quad_outside v k t : nth_error tris k = Some t -> ~ In v (corners t) -> quad v k = 0%R.
  Proof.
    intros Hk N. unfold quad. rewrite Hk. destruct t as [[A B] C]. cbn [corners In] in N.
    repeat match goal with |- context [?x =? ?y] => destruct (Z.eqb_spec x y); [exfalso; intuition congruence|] end; lra.
  Qed.
  Lemma quad_total V k A B C : nth_error tris k = Some (A, B, C) -> NoDup V -> In A V -> In B V -> In C V ->
    sumR (map (fun v => quad v k) V) = orient (pos o A) (pos o B) (pos o C).
  Proof.
    intros Hk ND IA IB IC. unfold quad. rewrite Hk. rewrite !sumR_map_add, !sumR_delta by assumption.
    unfold kite, orient, vcross, vsub, midpoint. cbn [fst snd]. lra.
  Qed.
  Lemma pos_inj i j a b : vertices_are mp [i] [a] -> vertices_are mp [j] [b] -> pos o i = pos o j -> i = j.
  Proof.
    intros HA HB E. destruct (at_pos o i a HA) as [P1 _], (at_pos o j b HB) as [P2 _]. inversion_clear HA as [|? ? ? ? [A1 A2] _]. inversion_clear HB as [|? ? ? ? [B1 B2] _].
    assert (K : Z.to_nat i = Z.to_nat j); [|lia]. apply (proj1 (NoDup_nth_error sites) NS).
    - rewrite map_length. apply nth_error_Some. congruence.
    - rewrite (map_nth_error xy _ _ A2), (map_nth_error xy _ _ B2). congruence.
  Qed.
  Lemma turn_corner v e k : turn_left tris v e k -> exists t, nth_error tris k = Some t /\ In v (corners t) /\ In (fst e) (corners t) /\ In (snd e) (corners t).
  Proof. intros (t & H & D1 & D2 & _). exists t. split; [exact H|]. destruct t as [[A B] C]. destruct e as [a b]. cbn [sides corners In fst snd] in *. intuition congruence. Qed.
  Lemma turn_site v e k i : turn_left tris v e k -> i = v \/ i = fst e \/ i = snd e -> exists q, vertices_are mp [i] [q].
  Proof. intros H E. destruct (turn_corner v e k H) as (t & Hk & I1 & I2 & I3). apply (site_of2 o T DT eq cc ci CI k t i Hk). destruct E as [->|[->| ->]]; assumption. Qed.
  Lemma map_pos_nodup W : (forall i, In i W -> exists q, vertices_are mp [i] [q]) -> NoDup W -> NoDup (map (pos o) W).
  Proof.
    intros V. induction 1 as [|x W N _ IH]; [constructor|]. cbn [map]. constructor; [|apply IH; intros i Hi; apply V; right; exact Hi].
    intros H. apply in_map_iff in H as (y & E & Hy). destruct (V y (or_intror Hy)) as (a & HA), (V x (or_introl eq_refl)) as (b & HB). rewrite (pos_inj y x a b HA HB E) in Hy. contradiction.
  Qed.
  Lemma turn_same v e e' k : turn_left tris v e k -> turn_left tris v e' k -> fst e = fst e'.
  Proof.
    intros (t & H & D) (t' & H' & D'). rewrite H in H'. injection H' as <-. pose proof (tg_corners _ _ _ T t (nth_error_In _ _ H)) as ND. destruct t as [[A B] C]. cbn [corners] in ND.
    inversion_clear ND as [|? ? N1 N2]. inversion_clear N2 as [|? ? N3 _]. destruct D as (D & _), D' as (D' & _). destruct e as [a b], e' as [a' b']. cbn [sides In fst snd] in *. intuition congruence.
  Qed.
  Lemma turn_nodup v l x ts : Forall2 (turn_left tris v) (pairs (l ++ [x])) ts -> NoDup l -> NoDup ts.
  Proof.
    intros F ND. rewrite <- (snoc_pairs_fst l x) in ND. revert F ND. generalize (pairs (l ++ [x])). induction 1 as [|e k es ts H F IH]; intros ND; [constructor|]. cbn [map] in ND. inversion_clear ND as [|? ? N1 N2].
    constructor; [|apply IH, N2]. intros K. destruct (Forall2_in_right _ _ _ F k K) as (e' & He & H'). apply N1. rewrite (turn_same v e e' k H H'). apply in_map, He.
  Qed.
  Lemma turn_equi v a b k : turn_left tris v (a, b) k -> equi (pos o v) (pos o a, pos o b) (f (ci k)).
  Proof.
    intros H. destruct (fan_center o T DT cc ci CI v a b k H) as (c & _ & -> & O & _ & _ & D1 & D2 & _). apply orient_degenerate in O as [O1 O2]. unfold equi. cbn [fst snd]. auto.
  Qed.
  Lemma turns_equi v W ts : Forall2 (turn_left tris v) (pairs W) ts -> Forall2 (equi (pos o v)) (pairs (map (pos o) W)) (map ctr ts).
  Proof.
    intros F. rewrite pairs_map. revert F. generalize (pairs W). induction 1 as [|[a b] k es ts H F IH]; cbn [map]; constructor; [apply turn_equi; exact H|exact IH].
  Qed.
  Lemma turns_kites v W ts : Forall2 (turn_left tris v) (pairs W) ts -> kites (pos o v) (combine (pairs (map (pos o) W)) (map ctr ts)) = sumR (map (quad v) ts).
  Proof.
    intros F. rewrite pairs_map. revert F. generalize (pairs W). unfold kites. induction 1 as [|[a b] k es ts H F IH]; [reflexivity|]. cbn [map combine fst snd sumR fold_right] in *.
    rewrite (quad_turn v a b k H). f_equal. exact IH.
  Qed.
  (** the triangles of a fan are those at the point *)
  Definition all_at (v : Z) (ts : list nat) : Prop := NoDup ts /\ forall k, In k ts <-> exists t, nth_error tris k = Some t /\ In v (corners t).

  (** ** Inner cells *)
  Lemma inner_area v ws ts pts segs : closed_fan (map fst (o_edges o)) tris v ws ts -> inner_cell ci ts pts segs -> strictly_convex (map f pts) ->
    exists ts', all_at v ts' /\ shoelace (map f pts) = (sumR (map (quad v) ts') / 2)%R.
  Proof.
    intros (w & ws' & -> & SEC & ND & L3 & AR & _) (l & TU & PT & _) SC. cbn [app] in SEC.
    assert (exists us ts', Forall2 (turn_left tris v) (pairs (w :: us ++ [w])) ts' /\ (ts' = ts \/ ts' = rev ts) /\ NoDup (w :: us)) as (us & ts' & F & TS & NU).
    { destruct (sector_turn tris v (tg_corners _ _ _ T) DO _ _ SEC (closed_simple w ws' ND L3)) as [F|F]; [exists ws', ts; tauto|].
      apply turn_rev in F. cbn [rev] in F. rewrite rev_app_distr in F. exists (rev ws'), (rev ts). split; [exact F|]. split; [tauto|].
      inversion_clear ND as [|? ? N1 N2]. constructor; [rewrite <- in_rev; exact N1|apply NoDup_rev, N2]. }
    clear SEC. exists ts'.
    assert (IT : forall k, In k ts' <-> In k ts) by (intros k; destruct TS as [-> | ->]; [reflexivity|symmetry; apply in_rev]).
    split.
    { split; [exact (turn_nodup v (w :: us) w ts' F NU)|]. intros k. split.
      - intros H. destruct (Forall2_in_right _ _ _ F k H) as (e & _ & TE). destruct (turn_corner v e k TE) as (t & H1 & H2 & _). exists t. auto.
      - intros (t & H1 & H2). apply IT, (AR k t H1 H2). }
    pose proof (turns_equi v _ ts' F) as FE. cbn [map] in FE. rewrite map_app in FE. cbn [map] in FE.
    rewrite <- (turns_kites v _ ts' F). cbn [map]. rewrite map_app. cbn [map]. rewrite <- (closed_area (pos o v) (map (pos o) us) (pos o w) (map ctr ts') FE).
    apply chain_area; [exact SC| | |].
    - intros x. split.
      + intros H. apply in_map_iff in H as (i & <- & Hi). assert (Hl : In i (map ci l)) by (destruct PT as [-> | ->]; rewrite <- ?in_rev, dedup_in in Hi; exact Hi).
        apply in_map_iff in Hl as (k & <- & Hk). apply in_map_iff. exists k. split; [reflexivity|]. apply IT, (turned_in _ _ _ TU), Hk.
      + intros H. apply in_map_iff in H as (k & <- & Hk). apply in_map. assert (Hl : In (ci k) (map ci l)) by (apply in_map, (turned_in _ _ _ TU), IT, Hk).
        destruct PT as [-> | ->]; rewrite <- ?in_rev, dedup_in; exact Hl.
    - intros x y H z Hz. rewrite edges_of_map in H. apply in_map_iff in H as ([k k'] & E & H). cbn [fst snd] in E. injection E as <- <-.
      apply in_map_iff in Hz as (k2 & <- & Hk2). destruct (Forall2_in_right _ _ _ F k2 Hk2) as ([a2 b2] & _ & H2).
      destruct (fan_center o T DT cc ci CI v a2 b2 k2 H2) as (c2 & _ & -> & _ & _ & _ & _ & _ & R2).
      destruct (consecutive_closed _ _ _ _ F k k' H) as (a & b & d & H1 & H3).
      destruct (fan_center o T DT cc ci CI v a b k H1) as (c & _ & -> & O & I1 & I2 & D1 & D2 & _), (fan_center o T DT cc ci CI v b d k' H3) as (c' & _ & -> & _ & _ & _ & D3 & _ & R').
      apply (step_left sites (pos o v) (pos o a) (pos o b)); auto.
    - apply (closed_nodup (pos o v) (map (pos o) us) (pos o w)); [exact FE|]. change (pos o w :: map (pos o) us) with (map (pos o) (w :: us)). apply map_pos_nodup; [|exact NU].
      intros i Hi. assert (Hi' : In i (map fst (pairs ((w :: us) ++ [w])))) by (rewrite snoc_pairs_fst; exact Hi). apply in_map_iff in Hi' as (e & <- & He).
      destruct (Forall2_in_left _ _ _ F e He) as (k & _ & TE). apply (turn_site v e k); auto.
  Qed.

  (** ** Border cells *)
  Variable SRC : pt -> Prop.
  Hypothesis CS : forall k c, center_of o k c -> SRC (xy c).
  Notation kept := (kept cc SRC).
  Hypothesis INJ : forall i j x, kept i x -> kept j x -> i = j.
  Lemma border_area v w ws w' ts pts tst fi z : open_fan (o_edges o) tris v w ws w' ts -> chain_data o cc ci SRC v w w' ts pts tst fi z ->
    (forall u1 u2, u1 = w \/ u1 = w' -> u2 = w \/ u2 = w' -> kept fi (midpoint (pos o v) (pos o u1)) -> kept z (midpoint (pos o v) (pos o u2)) ->
       (orient (pos o v) (pos o u1) (pos o u2) = 0%R -> tst = true) /\ ((4 * tol <= Rabs (orient (pos o v) (pos o u1) (pos o u2)))%R -> tst = false)) ->
    exists w1 w2 site a b, (w1 = w /\ w2 = w' \/ w1 = w' /\ w2 = w) /\ (exists t, In t tris /\ In (v, w1) (sides t)) /\
      vertices_are mp [v; w1; w2] [site; a; b] /\
      (gabriel_edge sites (xy site) (xy a) -> gabriel_edge sites (xy site) (xy b) -> convex_corner (xy site) (xy a) (xy b) ->
       (forall s, In s sites -> wedge (xy site) (xy a) (xy b) s) ->
       (orient (xy site) (xy a) (xy b) = 0 \/ 4 * tol <= orient (xy site) (xy a) (xy b))%R -> strictly_convex (map f pts) ->
       exists ts', all_at v ts' /\ shoelace (map f pts) = (sumR (map (quad v) ts') / 2)%R).
  Proof.
    intros OF (u & u' & l & ia & ib & q & cell & UL & SA & SB & HQ & HF & HZ & PT & CELL) TST.
    destruct OF as (SEC & ND & (AR & _) & _).
    assert (exists w1 us w2 ts', Forall2 (turn_left tris v) (pairs (w1 :: us ++ [w2])) ts' /\
      ((w1 = w /\ w2 = w' /\ ts' = ts) \/ (w1 = w' /\ w2 = w /\ ts' = rev ts)) /\ NoDup (w1 :: us ++ [w2]))
      as (w1 & us & w2 & ts' & F & WW & NW).
    { destruct (sector_turn tris v (tg_corners _ _ _ T) DO _ _ SEC (NoDup_simple _ ND)) as [F|F]; [exists w, ws, w', ts; tauto|].
      apply turn_rev in F. apply NoDup_rev in ND. cbn [rev] in F, ND. rewrite rev_app_distr in F, ND. cbn [rev app] in F, ND. exists w', (rev ws), w, (rev ts). split; [exact F|tauto]. }
    clear SEC ND.
    destruct (at_pos o v q HQ) as [P1 P2].
    assert (exists i1 i2, kept i1 (midpoint (pos o v) (pos o w1)) /\ kept i2 (midpoint (pos o v) (pos o w2)) /\
      ((ia :: map ci l ++ [ib] = i1 :: map ci ts' ++ [i2]) \/ (ia :: map ci l ++ [ib] = rev (i1 :: map ci ts' ++ [i2])))) as (i1 & i2 & M1 & M2 & CH).
    { destruct UL as [(-> & -> & ->)|(-> & -> & ->)], WW as [(-> & -> & ->)|(-> & -> & ->)].
      - exists ia, ib. auto.
      - exists ib, ia. split; [exact SB|]. split; [exact SA|]. right. rewrite rev_C, rev_involutive. reflexivity.
      - exists ib, ia. split; [exact SB|]. split; [exact SA|]. right. rewrite rev_C. reflexivity.
      - exists ia, ib. auto. }
    clear SA SB.
    assert (IT : forall k, In k ts' <-> In k ts) by (intros k; destruct WW as [(_ & _ & ->)|(_ & _ & ->)]; [reflexivity|symmetry; apply in_rev]).
    assert (FC : forall a b k, turn_left tris v (a, b) k -> spoke sites (pos o v) (g_at cc (pos o v)) ci (pos o a, pos o b) k /\ kept (ci k) (f (ci k))).
    { intros a b k H. destruct (fan_center o T DT cc ci CI v a b k H) as (c & C & E & O & I1 & I2 & D1 & D2 & R). destruct H as (t & Ht & _).
      destruct (CI k t Ht) as (c' & y & C' & Y & E'). rewrite (center_det o k c' c C' C) in E'.
      assert (ST : kept (ci k) (f (ci k))) by (exists y; rewrite E; split; [exact Y|]; split; [exact E'|]; exact (CS k c C)).
      split; [|exact ST]. unfold spoke, g_at. pose proof (kept_nonneg _ _ _ _ ST) as NN. destruct (Z.eqb_spec (ci k) (-1)) as [Z0|_]; [lia|]. rewrite E. cbn [fst snd]. auto 10. }
    assert (SP : Forall2 (spoke sites (pos o v) (g_at cc (pos o v)) ci) (pairs (pos o w1 :: map (pos o) us ++ [pos o w2])) ts').
    { replace (pos o w1 :: map (pos o) us ++ [pos o w2]) with (map (pos o) (w1 :: us ++ [w2])) by (cbn [map]; rewrite map_app; reflexivity).
      apply (forall2_pairs_map (turn_left tris v)); [|exact F]. intros a b k H. apply FC, H. }
    assert (SK : forall k, In k ts' -> kept (ci k) (f (ci k))).
    { intros k Hk. destruct (Forall2_in_right _ _ _ F k Hk) as ([a b] & _ & H). exact (proj2 (FC a b k H)). }
    set (C := i1 :: map ci ts' ++ [i2]) in *.
    assert (SC : forall i, In i C -> kept i (f i)).
    { intros i [<-|H]; [rewrite (kept_at _ _ _ _ M1); exact M1|]. apply in_app_or in H as [H|[<-|[]]]; [|rewrite (kept_at _ _ _ _ M2); exact M2].
      apply in_map_iff in H as (k & <- & Hk). apply SK, Hk. }
    assert (No : ~ In (-1) C) by (intros H; pose proof (kept_nonneg _ _ _ _ (SC _ H)); lia).
    assert (GF : forall i, In i C -> g_at cc (pos o v) i = f i) by (intros i Hi; unfold g_at; destruct (Z.eqb_spec i (-1)) as [->|_]; [contradiction|reflexivity]).
    assert (I1C : In i1 C) by (left; reflexivity). assert (I2C : In i2 C) by (right; apply in_or_app; right; left; reflexivity).
    assert (G1 : g_at cc (pos o v) i1 = midpoint (pos o v) (pos o w1)) by (rewrite GF by assumption; apply (kept_at _ _ _ _ M1)).
    assert (G2 : g_at cc (pos o v) i2 = midpoint (pos o v) (pos o w2)) by (rewrite GF by assumption; apply (kept_at _ _ _ _ M2)).
    assert (G0 : g_at cc (pos o v) (-1) = pos o v) by reflexivity.
    assert (NP : forall i, In i C -> f i <> pos o v).
    { intros i [<-|H] E.
      - rewrite (kept_at _ _ _ _ M1) in E. destruct (first_pair (pos o w1) (map (pos o) us) (pos o w2)) as (n & Hn). destruct (Forall2_in_left _ _ _ SP _ Hn) as (k & _ & O & _). cbn [fst snd] in O.
        apply orient_degenerate in O as [O _]. apply O. unfold midpoint in E. destruct (pos o w1) as [x1 x2], (pos o v) as [y1 y2]. cbn [fst snd] in E. injection E as E1 E2. f_equal; lra.
      - apply in_app_or in H as [H|[<-|[]]].
        + apply in_map_iff in H as (k & <- & Hk). destruct (Forall2_in_right _ _ _ SP k Hk) as (e & _ & Q).
          apply (spoke_not_p sites (pos o v) (g_at cc (pos o v)) ci e k Q). rewrite GF; [exact E|]. right. apply in_or_app. left. apply in_map, Hk.
        + rewrite (kept_at _ _ _ _ M2) in E. destruct (PVorCell.last_pair (pos o w1) (map (pos o) us) (pos o w2)) as (n & Hn). destruct (Forall2_in_left _ _ _ SP _ Hn) as (k & _ & O & _). cbn [fst snd] in O.
          apply orient_degenerate in O as [_ O]. apply O. unfold midpoint in E. destruct (pos o w2) as [x1 x2], (pos o v) as [y1 y2]. cbn [fst snd] in E. injection E as E1 E2. f_equal; lra. }
    assert (GI : forall i j, In i (C ++ [-1]) -> In j (C ++ [-1]) -> g_at cc (pos o v) i = g_at cc (pos o v) j -> i = j).
    { intros i j Hi Hj E. apply in_app_or in Hi as [Hi|[<-|[]]]; apply in_app_or in Hj as [Hj|[<-|[]]]; auto.
      - rewrite !GF in E by assumption. apply (INJ i j (f i)); [apply SC, Hi|rewrite E; apply SC, Hj].
      - rewrite GF, G0 in E by assumption. destruct (NP i Hi E).
      - rewrite (GF j), G0 in E by assumption. destruct (NP j Hj). congruence. }
    set (chain := ia :: map ci l ++ [ib]) in *.
    assert (CI' : forall i, In i chain <-> In i C) by (intros i; destruct CH as [-> | ->]; rewrite <- ?in_rev; reflexivity).
    assert (X1 : exists a, vertices_are mp [w1] [a]).
    { destruct (first_pair w1 us w2) as (x & Hx). destruct (Forall2_in_left _ _ _ F _ Hx) as (k & _ & TE). apply (turn_site v _ k w1 TE). auto. }
    assert (X2 : exists a, vertices_are mp [w2] [a]).
    { destruct (PVorCell.last_pair w1 us w2) as (x & Hx). destruct (Forall2_in_left _ _ _ F _ Hx) as (k & _ & TE). apply (turn_site v _ k w2 TE). auto. }
    destruct X1 as (a & HA), X2 as (b & HB). destruct (at_pos o w1 a HA) as [PA _], (at_pos o w2 b HB) as [PB _].
    exists w1, w2, q, a, b. rewrite <- P1, <- PA, <- PB. split; [destruct WW as [(-> & -> & _)|(-> & -> & _)]; auto|].
    split. { destruct (first_pair w1 us w2) as (x & Hx). destruct (Forall2_in_left _ _ _ F _ Hx) as (k & _ & t & T1 & T2). exists t. split; [eapply nth_error_In; exact T1|apply T2]. }
    split. { clear - HQ HA HB. inversion_clear HQ as [|? ? ? ? Y1 _]. inversion_clear HA as [|? ? ? ? Y2 _]. inversion_clear HB as [|? ? ? ? Y3 _]. repeat (constructor; [assumption|]). constructor. }
    intros GA GB CV WS OR SCX. exists ts'.
    split.
    { split; [apply (turn_nodup v (w1 :: us) w2 ts' F); pose proof (NoDup_remove_1 (w1 :: us) [] w2 NW) as NW'; rewrite app_nil_r in NW'; exact NW'|]. intros k. split.
      - intros H. destruct (Forall2_in_right _ _ _ F k H) as (e & _ & TE). destruct (turn_corner v e k TE) as (t & H1 & H2 & _). exists t. auto.
      - intros (t & H1 & H2). apply IT, (AR k t H1 H2). }
    assert (HL : hd_error (rev (dedup C)) = Some i2).
    { destruct CV as [O|[O D]]; [exact (proper_last sites _ _ _ _ _ ci ts' i1 i2 SP G1 G2 G0 No GI (or_introl O) GA GB WS O)|exact (flat_last sites _ _ _ _ _ ci ts' i1 i2 SP G1 G2 G0 No GI (or_intror (conj O D)) GA GB WS O)]. }
    assert (HR : hd_error (rev (dedup (rev C))) = Some i1).
    { destruct CV as [O|[O D]]; [exact (proper_last_rev sites _ _ _ _ _ ci ts' i1 i2 SP G1 G2 G0 No GI (or_introl O) GA GB WS O)|exact (flat_last_rev sites _ _ _ _ _ ci ts' i1 i2 SP G1 G2 G0 No GI (or_intror (conj O D)) GA GB WS O)]. }
    assert (EF : fi = i1 /\ z = i2 \/ fi = i2 /\ z = i1).
    { destruct CH as [CH|CH]; rewrite CH in HF, HZ.
      - left. rewrite HL in HZ. unfold C in HF. rewrite dedup_head in HF. split; congruence.
      - right. rewrite HR in HZ. unfold C in HF. rewrite rev_C, dedup_head in HF. split; congruence. }
    assert (TT : (orient (pos o v) (pos o w1) (pos o w2) = 0%R -> tst = true) /\ ((4 * tol <= Rabs (orient (pos o v) (pos o w1) (pos o w2)))%R -> tst = false)).
    { assert (U1 : w1 = w \/ w1 = w') by tauto. assert (U2 : w2 = w \/ w2 = w') by tauto.
      destruct EF as [[-> ->]|[-> ->]]; [exact (TST _ _ U1 U2 M1 M2)|]. destruct (TST _ _ U2 U1 M2 M1) as [T1 T2].
      replace (orient (pos o v) (pos o w2) (pos o w1)) with (- orient (pos o v) (pos o w1) (pos o w2))%R in T1, T2 by (unfold orient, vcross, vsub; cbn [fst snd]; lra).
      rewrite Rabs_Ropp in T2. split; [intros H; apply T1; lra|exact T2]. }
    (* the closed chain of the points *)
    pose proof (turns_equi v _ ts' F) as FE. cbn [map] in FE. rewrite map_app in FE. cbn [map] in FE.
    assert (NDp : NoDup (pos o w1 :: map (pos o) us ++ [pos o w2])).
    { replace (pos o w1 :: map (pos o) us ++ [pos o w2]) with (map (pos o) (w1 :: us ++ [w2])) by (cbn [map]; rewrite map_app; reflexivity). apply map_pos_nodup; [|exact NW].
      intros i Hi. change (w1 :: us ++ [w2]) with ((w1 :: us) ++ [w2]) in Hi. apply in_app_or in Hi as [Hi|[<-|[]]]; [|exists b; exact HB].
      assert (Hi' : In i (map fst (pairs ((w1 :: us) ++ [w2])))) by (rewrite snoc_pairs_fst; exact Hi). apply in_map_iff in Hi' as (e & <- & He).
      destruct (Forall2_in_left _ _ _ F e He) as (k & _ & TE). apply (turn_site v e k); auto. }
    rewrite <- (turns_kites v _ ts' F). cbn [map]. rewrite map_app. cbn [map].
    assert (EC : map (g_at cc (pos o v)) C = midpoint (pos o v) (pos o w1) :: map ctr ts' ++ [midpoint (pos o v) (pos o w2)]).
    { unfold C. cbn [map]. rewrite map_app. cbn [map]. rewrite G1, G2, map_map. f_equal. f_equal. apply map_ext_on. intros k Hk. apply GF. right. apply in_or_app. left. apply in_map, Hk. }
    assert (IP : forall x, In x (map f pts) <-> In x (map f cell)) by (intros x; destruct PT as [-> | ->]; [reflexivity|rewrite map_rev, <- in_rev; reflexivity]).
    assert (IC : forall x, In x (map f (dedup chain)) <-> In x (map (g_at cc (pos o v)) C)).
    { intros x. rewrite !in_map_iff. split; intros (i & <- & Hi); exists i.
      - rewrite dedup_in in Hi. apply CI' in Hi. split; [apply GF, Hi|exact Hi].
      - split; [symmetry; apply GF, Hi|]. apply dedup_in, CI', Hi. }
    destruct OR as [OR|OR].
    - pose proof (proj1 TT OR) as CT. destruct CELL as [(_ & ->)|(CF & _)]; [|congruence].
      rewrite <- (flat_area (pos o v) (pos o w1) (pos o w2) (map (pos o) us) (map ctr ts') FE OR), <- EC. apply chain_area; [exact SCX| | |].
      + intros x. rewrite IP. apply IC.
      + intros x y H k Hk. rewrite edges_of_map in H. apply in_map_iff in H as ([i j] & E & H). cbn [fst snd] in E. injection E as <- <-. apply in_map_iff in Hk as (i' & <- & Hi').
        exact (flat_edges sites _ _ _ _ _ ci ts' i1 i2 SP G1 G2 G0 No GI CV GA GB WS OR i j H i' Hi').
      + rewrite EC. apply (flat_nodup (pos o v) (pos o w1) (pos o w2) (map (pos o) us)); [exact FE|exact NDp|exact OR|]. intros E. inversion_clear NDp as [|? ? N _]. apply N. rewrite E. apply in_or_app. right. left. reflexivity.
    - assert (OP : (0 < orient (pos o v) (pos o w1) (pos o w2))%R) by lra.
      assert (CT : tst = false) by (apply (proj2 TT); rewrite Rabs_pos_eq; lra).
      destruct CELL as [(CF & _)|(_ & r & SR & ->)]; [congruence|].
      assert (NR : ~ In r chain) by (intros H; apply (NP r); [apply CI', H|apply (kept_at _ _ _ _ SR)]).
      assert (ED : map (g_at cc (pos o v)) (C ++ [-1]) = map (g_at cc (pos o v)) C ++ [pos o v]) by (rewrite map_app; reflexivity).
      rewrite <- (proper_area (pos o v) (pos o w1) (pos o w2) (map (pos o) us) (map ctr ts') FE), <- EC, <- ED. apply chain_area; [exact SCX| | |].
      + intros x. rewrite IP, (dedup_snoc _ _ NR), ED, map_app, !in_app_iff, IC. cbn [map]. rewrite (kept_at _ _ _ _ SR). reflexivity.
      + intros x y H k Hk. rewrite edges_of_map in H. apply in_map_iff in H as ([i j] & E & H). cbn [fst snd] in E. injection E as <- <-. apply in_map_iff in Hk as (i' & <- & Hi').
        refine (proper_edges sites _ _ _ _ _ ci ts' i1 i2 SP _ _ _ _ _ _ _ _ _ i j H i' Hi'); assumption.
      + rewrite ED, EC. apply (proper_nodup (pos o v) (pos o w1) (pos o w2) (map (pos o) us)); [exact FE|exact NDp|]. rewrite <- EC. intros H. apply in_map_iff in H as (i & E & Hi).
        rewrite GF in E by exact Hi. exact (NP i Hi E).
  Qed.
End Fans.
