(** The inner Voronoi cells are strictly convex polygons listed counterclockwise. *)
From Coq Require Import Reals Lra Lia ZArith List Bool Permutation.
From Verif Require Import Base Spec MUtil MGeom MHull MPolygon MMaps MTriangle MGen MRegion MDelaunay MVoronoi Bridge.
From Verif Require Import PUtil PPoint PPoly PPoly2 PTri PMore PContains PDelaunay PVoronoi PFan PVorGeo PVorCell PConvex.
Import ListNotations.

(** * Geometry of one corner *)
Section Corner.
  Local Open Scope R_scope.
  Variable sites : list pt.
  Variable p : pt.
  Notation region := (voronoi_region sites p).

  (** the step from the center [c] of the triangle p a b to a center [c'] that is also equally far from [b] *)
  Lemma step_left a b c c' x : 0 < orient p a b -> In a sites -> In b sites ->
    dist c p = dist c a -> dist c p = dist c b -> dist c' p = dist c' b -> region c' -> region x -> 0 <= orient c c' x.
  Proof.
    intros O Ia Ib D1 D2 D3 R' RX. apply dist_eq in D1, D2, D3. pose proof (proj1 (dist_le _ _ _) (R' a Ia)) as L. pose proof (proj1 (dist_le _ _ _) (RX b Ib)) as LX.
    unfold orient, vcross, vdot, vsub in *. cbn [fst snd] in *. destruct p as [p1 p2], a as [a1 a2], b as [b1 b2], c as [c1 c2], c' as [d1 d2], x as [x1 x2]. cbn [fst snd] in *.
    set (A1 := a1 - p1) in *. set (A2 := a2 - p2) in *. set (B1 := b1 - p1) in *. set (B2 := b2 - p2) in *.
    set (E1 := d1 - c1). set (E2 := d2 - c2).
    assert (H1 : B1 * E1 + B2 * E2 = 0) by (unfold E1, E2; lra). assert (H2 : A1 * E1 + A2 * E2 <= 0) by (unfold E1, E2; lra).
    assert (BB : 0 < B1 * B1 + B2 * B2) by (destruct (Req_dec B1 0) as [Z1|Z1], (Req_dec B2 0) as [Z2|Z2]; [rewrite Z1, Z2 in O; lra|nra|nra|nra]).
    set (k := B1 * E2 - B2 * E1).
    assert (K1 : (B1 * B1 + B2 * B2) * E1 = - k * B2) by (unfold k; replace (- (B1 * E2 - B2 * E1) * B2) with ((B1 * B1 + B2 * B2) * E1 - B1 * (B1 * E1 + B2 * E2)) by ring; rewrite H1; ring).
    assert (K2 : (B1 * B1 + B2 * B2) * E2 = k * B1) by (unfold k; replace ((B1 * E2 - B2 * E1) * B1) with ((B1 * B1 + B2 * B2) * E2 - B2 * (B1 * E1 + B2 * E2)) by ring; rewrite H1; ring).
    assert (K3 : (B1 * B1 + B2 * B2) * (A1 * E1 + A2 * E2) = - k * (A1 * B2 - A2 * B1)) by (replace ((B1 * B1 + B2 * B2) * (A1 * E1 + A2 * E2)) with (A1 * ((B1 * B1 + B2 * B2) * E1) + A2 * ((B1 * B1 + B2 * B2) * E2)) by ring; rewrite K1, K2; ring).
    assert (K0 : 0 <= k) by nra.
    assert (G : (B1 * B1 + B2 * B2) * (E1 * (x2 - c2) - E2 * (x1 - c1)) = - k * (B1 * (x1 - c1) + B2 * (x2 - c2))).
    { replace ((B1 * B1 + B2 * B2) * (E1 * (x2 - c2) - E2 * (x1 - c1))) with ((B1 * B1 + B2 * B2) * E1 * (x2 - c2) - (B1 * B1 + B2 * B2) * E2 * (x1 - c1)) by ring. rewrite K1, K2. ring. }
    assert (LL : B1 * (x1 - c1) + B2 * (x2 - c2) <= 0) by lra. nra.
  Qed.
  (** the center of the triangle p a b is a corner of the region *)
  Lemma center_exposed a b c y : 0 < orient p a b -> In a sites -> In b sites -> dist c p = dist c a -> dist c p = dist c b -> region y -> y <> c ->
    vdot (vadd (vsub a p) (vsub b p)) y < vdot (vadd (vsub a p) (vsub b p)) c.
  Proof.
    intros O Ia Ib D1 D2 RY N. apply dist_eq in D1, D2. pose proof (proj1 (dist_le _ _ _) (RY a Ia)) as L1. pose proof (proj1 (dist_le _ _ _) (RY b Ib)) as L2.
    unfold orient, vcross, vdot, vsub, vadd in *. cbn [fst snd] in *. destruct p as [p1 p2], a as [a1 a2], b as [b1 b2], c as [c1 c2], y as [y1 y2]. cbn [fst snd] in *.
    set (A1 := a1 - p1) in *. set (A2 := a2 - p2) in *. set (B1 := b1 - p1) in *. set (B2 := b2 - p2) in *.
    set (E1 := y1 - c1). set (E2 := y2 - c2).
    assert (H1 : A1 * E1 + A2 * E2 <= 0) by (unfold E1, E2; lra). assert (H2 : B1 * E1 + B2 * E2 <= 0) by (unfold E1, E2; lra).
    destruct (Rlt_dec (A1 * E1 + A2 * E2 + (B1 * E1 + B2 * E2)) 0) as [G|G]; [unfold E1, E2 in G; lra|]. exfalso. apply N.
    assert (Z1 : A1 * E1 + A2 * E2 = 0) by lra. assert (Z2 : B1 * E1 + B2 * E2 = 0) by lra.
    assert (X1 : (A1 * B2 - A2 * B1) * E1 = 0) by (replace ((A1 * B2 - A2 * B1) * E1) with (B2 * (A1 * E1 + A2 * E2) - A2 * (B1 * E1 + B2 * E2)) by ring; rewrite Z1, Z2; ring).
    assert (X2 : (A1 * B2 - A2 * B1) * E2 = 0) by (replace ((A1 * B2 - A2 * B1) * E2) with (A1 * (B1 * E1 + B2 * E2) - B1 * (A1 * E1 + A2 * E2)) by ring; rewrite Z1, Z2; ring).
    apply Rmult_integral in X1 as [X1|X1]; [lra|]. apply Rmult_integral in X2 as [X2|X2]; [lra|]. unfold E1, E2 in *. f_equal; lra.
  Qed.
  (** the centers around [p] lie on all sides of it *)
  Lemma centers_spread w ws cs u : (forall e, In e (pairs (w :: ws ++ [w])) -> 0 < orient p (fst e) (snd e) /\ exists z, In z cs /\ dist z p = dist z (fst e) /\ dist z p = dist z (snd e)) ->
    u <> (0, 0) -> exists z, In z cs /\ 0 < vdot u (vsub z p).
  Proof.
    intros H U. destruct (cone_cover (vsub w p) (map (fun a => vsub a p) ws) u) as (e & al & be & He & A0 & B0 & E1 & E2); [|exact U|].
    - replace (vsub w p :: map (fun a => vsub a p) ws ++ [vsub w p]) with (map (fun a => vsub a p) (w :: ws ++ [w])) by (cbn [map]; rewrite map_app; reflexivity).
      rewrite pairs_map. intros e He. apply in_map_iff in He as ([a b] & <- & He). exact (proj1 (H _ He)).
    - replace (vsub w p :: map (fun a => vsub a p) ws ++ [vsub w p]) with (map (fun a => vsub a p) (w :: ws ++ [w])) in He by (cbn [map]; rewrite map_app; reflexivity).
      rewrite pairs_map in He. apply in_map_iff in He as ([a b] & <- & He). destruct (H _ He) as (O & z & Hz & D1 & D2). cbn [fst snd] in *. exists z. split; [exact Hz|].
      apply dist_eq in D1, D2. destruct u as [u1 u2], p as [p1 p2], a as [a1 a2], b as [b1 b2], z as [z1 z2]. unfold orient, vcross, vdot, vsub in *. cbn [fst snd] in *.
      set (A1 := a1 - p1) in *. set (A2 := a2 - p2) in *. set (B1 := b1 - p1) in *. set (B2 := b2 - p2) in *.
      assert (SA : 0 < A1 * A1 + A2 * A2) by (destruct (Req_dec A1 0) as [Z1|Z1], (Req_dec A2 0) as [Z2|Z2]; [rewrite Z1, Z2 in O; lra|nra|nra|nra]).
      assert (SB : 0 < B1 * B1 + B2 * B2) by (destruct (Req_dec B1 0) as [Z1|Z1], (Req_dec B2 0) as [Z2|Z2]; [rewrite Z1, Z2 in O; lra|nra|nra|nra]).
      assert (G : u1 * (z1 - p1) + u2 * (z2 - p2) = al * ((A1 * A1 + A2 * A2) / 2) + be * ((B1 * B1 + B2 * B2) / 2)).
      { rewrite E1, E2. rewrite <- D1, <- D2. field. }
      rewrite G. destruct (Rle_lt_or_eq_dec _ _ A0) as [A|A].
      + assert (0 < al * ((A1 * A1 + A2 * A2) / 2)) by (apply Rmult_lt_0_compat; lra). assert (0 <= be * ((B1 * B1 + B2 * B2) / 2)) by (apply Rmult_le_pos; lra). lra.
      + destruct (Rle_lt_or_eq_dec _ _ B0) as [B|B].
        * assert (0 < be * ((B1 * B1 + B2 * B2) / 2)) by (apply Rmult_lt_0_compat; lra). assert (0 <= al * ((A1 * A1 + A2 * A2) / 2)) by (apply Rmult_le_pos; lra). lra.
        * exfalso. apply U. rewrite E1, E2, <- A, <- B. f_equal; ring.
  Qed.
  Lemma spread_three cs : (forall u, u <> (0, 0) -> exists z, In z cs /\ 0 < vdot u (vsub z p)) -> forall x y, exists z, In z cs /\ z <> x /\ z <> y.
  Proof.
    intros H x y.
    assert (U : exists u, u <> (0, 0) /\ vdot u (vsub x p) <= 0 /\ vdot u (vsub y p) <= 0).
    { destruct x as [x1 x2], y as [y1 y2], p as [p1 p2]. unfold vdot, vsub. cbn [fst snd].
      set (k := (y2 - x2) * (x1 - p1) - (y1 - x1) * (x2 - p2)).
      destruct (Req_dec x1 y1) as [E1|E1]; [destruct (Req_dec x2 y2) as [E2|E2]|].
      - subst y1 y2. destruct (Req_dec (x1 - p1) 0) as [F1|F1]; [destruct (Req_dec (x2 - p2) 0) as [F2|F2]|].
        + exists (1, 0). cbn [fst snd]. split; [intros [= A]; lra|]. rewrite F1, F2. lra.
        + exists (0, - (x2 - p2)). cbn [fst snd]. split; [intros [= A]; lra|]. nra.
        + exists (- (x1 - p1), - (x2 - p2)). cbn [fst snd]. split; [intros [= A B]; lra|]. pose proof (Rle_0_sqr (x1 - p1)) as S1. pose proof (Rle_0_sqr (x2 - p2)) as S2. unfold Rsqr in *. split; lra.
      - destruct (Rle_dec k 0) as [K|K]; [exists (y2 - x2, - (y1 - x1))|exists (- (y2 - x2), y1 - x1)]; cbn [fst snd]; (split; [intros [= A B]; lra|]); unfold k in K; lra.
      - destruct (Rle_dec k 0) as [K|K]; [exists (y2 - x2, - (y1 - x1))|exists (- (y2 - x2), y1 - x1)]; cbn [fst snd]; (split; [intros [= A B]; lra|]); unfold k in K; lra. }
    destruct U as (u & U & L1 & L2). destruct (H u U) as (z & Hz & L). exists z. split; [exact Hz|]. split; intros ->; lra.
  Qed.
End Corner.

(** * Consecutive triangles of a fan *)
Lemma consecutive {A B} (P : A * A -> B -> Prop) W ts : Forall2 P (pairs W) ts -> forall k k', In (k, k') (pairs ts) -> exists a b d, P (a, b) k /\ P (b, d) k'.
Proof.
  revert ts. induction W as [|a [|b W] IH]; intros ts F k k' H; [inversion F; subst; destruct H|inversion F; subst; destruct H|].
  rewrite pairs_cons in F. remember (pairs (b :: W)) as PW. inversion F as [|? k0 ? ts' F1 F2]; subst. destruct ts' as [|k1 ts']; [destruct H|]. rewrite pairs_cons in H. destruct H as [H|H]; [|exact (IH _ F2 k k' H)].
  injection H as <- <-. destruct W as [|d W]; [inversion F2|]. rewrite pairs_cons in F2. inversion F2; subst. exists a, b, d. split; assumption.
Qed.
Lemma consecutive_closed {A B} (P : A * A -> B -> Prop) w ws ts : Forall2 P (pairs (w :: ws ++ [w])) ts -> forall k k', In (k, k') (edges_of ts) -> exists a b d, P (a, b) k /\ P (b, d) k'.
Proof.
  intros F k k' H. destruct ts as [|k0 ts]; [destruct H|]. unfold edges_of in H.
  assert (exists w1, P (w, w1) k0) as (w1 & P1).
  { destruct ws as [|x ws]; cbn [app] in F; rewrite pairs_cons in F; inversion F; subst; eauto. }
  apply (consecutive P ((w :: ws ++ [w]) ++ [w1]) ((k0 :: ts) ++ [k0])); [|exact H]. rewrite app_comm_cons, pairs_snoc. apply Forall2_app; [exact F|]. constructor; [exact P1|constructor].
Qed.
Lemma short_list {A} (l : list A) d : (length l <= 2)%nat -> forall x, In x l -> x = nth 0 l d \/ x = nth 1 l d.
Proof. destruct l as [|a [|b [|c l]]]; cbn; intros L x H; [destruct H|destruct H as [<-|[]]; auto|destruct H as [<-|[<-|[]]]; auto|lia]. Qed.

(** * Positions of stored points *)
Definition at_index (cc : list (Point RNum)) (i : Z) : pt := match nth_error cc (Z.to_nat i) with Some q => xy q | None => (0, 0)%R end.
Lemma at_index_ok cc i y : vertices_are (N := RNum) cc [i] [y] -> at_index cc i = xy y.
Proof. intros H. inversion_clear H as [|? ? ? ? [_ H1] _]. unfold at_index. rewrite H1. reflexivity. Qed.
Lemma at_index_map cc is vs : vertices_are (N := RNum) cc is vs -> map xy vs = map (at_index cc) is.
Proof. induction 1 as [|i y is vs H _ IH]; [reflexivity|]. cbn [map]. rewrite IH, (at_index_ok cc i y); [reflexivity|]. constructor; [exact H|constructor]. Qed.

Section Inner.
  Local Open Scope Z_scope.
  Notation Pt := (Point RNum).
  Variable o : trout RNum.
  Hypothesis T : triangulation (zlen (o_points o)) (map fst (o_edges o)) (o_tris o).
  Notation tris := (o_tris o).
  Notation mp := (map read_point (o_points o)).
  Notation sites := (map xy mp).
  Hypothesis DO : directed_once tris.
  Hypothesis DT : forall t A B C, In t tris -> vertices_are mp (corners t) [A; B; C] -> delaunay_triangle sites (xy A) (xy B) (xy C).
  Variable cc : list Pt.
  Variable ci : nat -> Z.
  Hypothesis CI : forall k t, nth_error tris k = Some t -> exists c y, center_of o k c /\ vertices_are cc [ci k] [y] /\ xy y = xy c.
  Hypothesis once : forall k k' c c', center_of o k c -> center_of o k' c' -> xy c = xy c' -> ci k = ci k'.
  Notation f := (at_index cc).

  (** a triangle of a fan around [v] *)
  Lemma fan_center v a b k : turn_left tris v (a, b) k -> exists c, center_of o k c /\ f (ci k) = xy c /\ (0 < orient (pos o v) (pos o a) (pos o b))%R /\
    In (pos o a) sites /\ In (pos o b) sites /\ dist (xy c) (pos o v) = dist (xy c) (pos o a) /\ dist (xy c) (pos o v) = dist (xy c) (pos o b) /\ voronoi_region sites (pos o v) (xy c).
  Proof.
    intros (t & H1 & H2). cbn [fst snd] in H2. destruct (corner_data o T DT k t v a b H1 H2) as (O & _ & I2 & I3 & CD). destruct (CI k t H1) as (c & y & Hc & Y & E).
    destruct (CD c Hc) as (D1 & D2 & RG). exists c. rewrite (at_index_ok _ _ _ Y), E. auto 10.
  Qed.
  Lemma inner_convex v ws ts pts segs : closed_fan (map fst (o_edges o)) tris v ws ts -> inner_cell ci ts pts segs ->
    (strictly_convex (map f pts) \/ strictly_convex (map f (rev pts))) /\ forall i, In i pts -> exists k c, In k ts /\ center_of o k c /\ f i = xy c.
  Proof.
    intros (w & ws' & -> & SEC & ND & L3 & _) (l & TU & PT & _). cbn [app] in SEC.
    assert (exists us ts', Forall2 (turn_left tris v) (pairs (w :: us ++ [w])) ts' /\ (ts' = ts \/ ts' = rev ts)) as (us & ts' & F & TS).
    { destruct (sector_turn tris v (tg_corners _ _ _ T) DO _ _ SEC (closed_simple w ws' ND L3)) as [F|F]; [exists ws', ts; tauto|].
      apply turn_rev in F. cbn [rev] in F. rewrite rev_app_distr in F. exists (rev ws'), (rev ts). tauto. }
    clear SEC.
    (* the list that was read, as the counterclockwise fan in one of the two directions *)
    assert (LT : forall k, In k l -> In k ts') by (intros k Hk; apply (turned_in _ _ _ TU) in Hk; destruct TS as [-> | ->]; rewrite <- ?in_rev; exact Hk).
    assert (TL : forall k, In k ts' -> In k l) by (intros k Hk; apply (turned_in _ _ _ TU); destruct TS as [-> | ->]; rewrite <- ?in_rev in Hk; exact Hk).
    assert (ED : (forall k k', In (k, k') (edges_of l) -> In (k, k') (edges_of ts')) \/ (forall k k', In (k, k') (edges_of l) -> In (k', k) (edges_of ts'))).
    { destruct TU as (x & y & -> & LL).
      assert (R1 : forall k k', In (k, k') (edges_of (y ++ x)) -> In (k, k') (edges_of (x ++ y))) by (intros k k'; apply Permutation_in, edges_of_app_comm).
      assert (RV : forall (m : list nat) k k', In (k, k') (edges_of (rev m)) <-> In (k', k) (edges_of m)).
      { intros m k k'. split; intros H.
        - apply (Permutation_in _ (edges_of_rev m)) in H. apply in_map_iff in H as ([a b] & E & H). cbn in E. injection E as <- <-. exact H.
        - apply (Permutation_in _ (Permutation_sym (edges_of_rev m))). apply in_map_iff. exists (k', k). auto. }
      destruct LL as [-> | ->], TS as [-> | ->].
      - left. exact R1.
      - right. intros k k' H. apply RV. apply R1. exact H.
      - right. intros k k' H. apply R1. apply RV. exact H.
      - left. intros k k' H. apply RV. apply R1. apply RV. exact H. }
    assert (FD : forall k, In k l -> exists a b, turn_left tris v (a, b) k).
    { intros k Hk. destruct (Forall2_in_right _ _ _ F k (LT k Hk)) as ([a b] & _ & H). exists a, b. exact H. }
    split; cycle 1.
    { intros i Hi. assert (Hl : In i (map ci l)) by (destruct PT as [-> | ->]; rewrite <- ?in_rev, dedup_in in Hi; exact Hi).
      apply in_map_iff in Hl as (k & <- & Hk). destruct (FD k Hk) as (a & b & H). destruct (fan_center v a b k H) as (c & C & E & _). exists k, c.
      split; [apply (turned_in _ _ _ TU); exact Hk|]. split; [exact C|exact E]. }
    assert (RG : forall i, In i (map ci l) -> voronoi_region sites (pos o v) (f i)).
    { intros i Hi. apply in_map_iff in Hi as (k & <- & Hk). destruct (FD k Hk) as (a & b & H). destruct (fan_center v a b k H) as (c & _ & E & _ & _ & _ & _ & _ & R). rewrite E. exact R. }
    assert (INJ : forall i j, In i (map ci l) -> In j (map ci l) -> f i = f j -> i = j).
    { intros i j Hi Hj E. apply in_map_iff in Hi as (k & <- & Hk). apply in_map_iff in Hj as (k' & <- & Hk'). destruct (FD k Hk) as (a & b & H), (FD k' Hk') as (a' & b' & H').
      destruct (fan_center v a b k H) as (c & C & EC & _), (fan_center v a' b' k' H') as (c' & C' & EC' & _). apply (once k k' c c' C C'). congruence. }
    assert (EXP : forall i, In i (map ci l) -> exists u, forall j, In j (map ci l) -> j <> i -> (vdot u (f j) < vdot u (f i))%R).
    { intros i Hi. pose proof Hi as Hi'. apply in_map_iff in Hi as (k & <- & Hk). destruct (FD k Hk) as (a & b & H).
      destruct (fan_center v a b k H) as (c & _ & E & O & I1 & I2 & D1 & D2 & R). exists (vadd (vsub (pos o a) (pos o v)) (vsub (pos o b) (pos o v))).
      intros j Hj N. rewrite E. apply (center_exposed sites); auto. rewrite <- E. intros X. apply N, INJ; auto. }
    assert (ST : forall k k' i, In (k, k') (edges_of ts') -> In i (map ci l) -> (0 <= orient (f (ci k)) (f (ci k')) (f i))%R).
    { intros k k' i H Hi. destruct (consecutive_closed _ _ _ _ F k k' H) as (a & b & d & H1 & H2).
      destruct (fan_center v a b k H1) as (c & _ & -> & O & I1 & I2 & D1 & D2 & _), (fan_center v b d k' H2) as (c' & _ & -> & _ & _ & _ & D3 & _ & R').
      apply (step_left sites (pos o v) (pos o a) (pos o b)); auto. }
    assert (L : (3 <= length (dedup (map ci l)))%nat).
    { destruct (le_lt_dec 3 (length (dedup (map ci l)))) as [G|G]; [exact G|]. exfalso.
      assert (SP : forall x y, exists z, In z (map (fun k => f (ci k)) ts') /\ z <> x /\ z <> y).
      { apply (spread_three (pos o v)). intros u U. apply (centers_spread (pos o v) (pos o w) (map (pos o) us)); [|exact U].
        replace (pos o w :: map (pos o) us ++ [pos o w]) with (map (pos o) (w :: us ++ [w])) by (cbn [map]; rewrite map_app; reflexivity).
        rewrite pairs_map. intros e He. apply in_map_iff in He as ([a b] & <- & He). cbn [fst snd].
        destruct (Forall2_in_left _ _ _ F _ He) as (k & Hk & H). destruct (fan_center v a b k H) as (c & _ & E & O & _ & _ & D1 & D2 & _). split; [exact O|].
        exists (f (ci k)). split; [apply in_map_iff; exists k; auto|]. rewrite E. auto. }
      destruct (SP (f (nth 0 (dedup (map ci l)) 0)) (f (nth 1 (dedup (map ci l)) 0))) as (z & Hz & N1 & N2). apply in_map_iff in Hz as (k & <- & Hk).
      destruct (short_list (dedup (map ci l)) 0 ltac:(lia) (ci k)) as [E|E]; [apply dedup_in, in_map, TL, Hk|apply N1; rewrite <- E; reflexivity|apply N2; rewrite <- E; reflexivity]. }
    assert (EM : forall i j, In (i, j) (edges_of (map ci l)) -> exists k k', i = ci k /\ j = ci k' /\ In (k, k') (edges_of l)).
    { intros i j H. rewrite edges_of_map in H. apply in_map_iff in H as ([k k'] & E & H). cbn [fst snd] in E. injection E as <- <-. exists k, k'. auto. }
    destruct ED as [ED|ED].
    - assert (G : strictly_convex (map f (dedup (map ci l)))).
      { apply chain_convex; auto. intros i j H k Hk. destruct (EM i j H) as (a & b & -> & -> & H'). apply ST; [apply ED; exact H'|exact Hk]. }
      destruct PT as [-> | ->]; [left; exact G|right; rewrite rev_involutive; exact G].
    - assert (G : strictly_convex (map f (rev (dedup (map ci l))))).
      { apply chain_convex_rev; auto. intros i j H k Hk. destruct (EM i j H) as (a & b & -> & -> & H'). apply ST; [apply ED; exact H'|exact Hk]. }
      destruct PT as [-> | ->]; [right; exact G|left; exact G].
  Qed.
End Inner.

(** * Where the centers are stored *)
Lemma stored_inv {N : Num} (tol : nT N) (o : trout N) d (S : Point N -> Prop) : triangulation (zlen (o_points o)) (map fst (o_edges o)) (o_tris o) -> read_output tol o = Ok d ->
  strict_weak_order_on S (pt_ltb tol) -> (forall k c, center_of o k c -> S c) -> ul_inv S (pt_ltb tol) (dl_circumcenters d).
Proof.
  intros T H W HS0. unfold read_output in H. cbn zeta in H. inv_ok H. destruct v as [[es em] pd]. inv_ok H.
  destruct v as [[[ts rp] cs] es']. injection H as <-. apply read_edges_ok in E as (H1 & H2 & H3 & H4). subst es. cbn [dl_circumcenters].
  assert (K : tris_ok tol (map read_point (o_points o)) (o_edges o) (o_tris o) (ts, rp, cs, es') /\ ul_inv S (pt_ltb tol) cs); [|exact (proj2 K)].
  revert E0. apply (foldM_prefix (read_tri tol (map read_point (o_points o)) em)
    (fun pre st => tris_ok tol (map read_point (o_points o)) (o_edges o) pre st /\ let '(ts, rp, cs, es') := st in ul_inv S (pt_ltb tol) cs)).
  - split; [apply tris_ok_init|]. apply ul_inv_empty.
  - intros pre t st st' Hi [HI HS] HR.
    assert (Ht : In t (o_tris o)) by (apply Hi, in_or_app; right; left; reflexivity).
    split; [eapply read_tri_char; eauto|].
    destruct st as [[[ts0 rp0] cs0] es0], t as [[a b] c].
    unfold read_tri in HR. cbn zeta in HR. inv_ok HR. destruct v as [tr cs']. inv_ok HR. injection HR as <-.
    unfold triangle_ctor_ul in E. inv_ok E. destruct v3 as [[A B] C]. inv_ok E.
    destruct (ul_push_back (pt_ltb tol) cs0 v3) as [cs1 i] eqn:Ep. injection E as <- <-.
    refine (proj1 (ul_push_back_spec S _ W cs0 v3 cs1 i HS _ Ep)).
    apply In_nth_error in Ht as (k & Hk). apply (HS0 k). exists (a, b, c), A, B, C. split; [exact Hk|]. split; [apply tri_vertices_are; assumption|assumption].
Qed.
Lemma centers_inv (tol : R) (o : trout RNum) d : (0 < tol)%R -> triangulation (zlen (o_points o)) (map fst (o_edges o)) (o_tris o) -> read_output (N := RNum) tol o = Ok d ->
  separated tol (fun c => exists k, center_of o k c) -> ul_inv (fun c => exists k, center_of o k c) (pt_ltb (N := RNum) tol) (dl_circumcenters d).
Proof. intros TP T H SE. apply (stored_inv (N := RNum) tol o d); auto; [apply pt_swo; assumption|]. intros k c Hc. exists k. exact Hc. Qed.

(** the diagram with exactly stored centers *)
Lemma regions_once (tol : R) fuel (o : trout RNum) d : (0 < tol)%R -> centers_apart tol o -> centers_stored_once tol o ->
  triangulation (zlen (o_points o)) (map fst (o_edges o)) (o_tris o) -> read_output (N := RNum) tol o = Ok d -> all_fans o -> (length (o_tris o) < fuel)%nat ->
  exists m ci gs, voronoi (N := RNum) tol fuel d = Ok m /\ map fst gs = ms_polygons m /\
    (forall k t, nth_error (o_tris o) k = Some t -> exists c y, center_of o k c /\ vertices_are (ul_list (ms_points m)) [ci k] [y] /\ xy y = xy c) /\
    (forall k k' c c', center_of o k c -> center_of o k' c' -> xy c = xy c' -> ci k = ci k') /\
    Forall2 (fun v gs =>
      (forall ws ts, closed_fan (map fst (o_edges o)) (o_tris o) v ws ts -> inner_cell ci ts (pg_points (fst gs)) (snd gs)) /\
      (forall w ws w' ts, open_fan (o_edges o) (o_tris o) v w ws w' ts ->
         border_cell (N := RNum) tol o (ul_list (ms_points m)) ci v w w' ts (pg_points (fst gs)) (snd gs)))
      (dedup (flat_map corners (o_tris o))) gs.
Proof.
  intros TP CA SO T RO HF LF. destruct (voronoi_built (N := RNum) tol fuel o d T RO HF LF) as (m & ci & gs & V & C & X & E & _ & F).
  exists m, ci, gs. split; [exact V|]. split; [exact E|].
  assert (C' : forall k t, nth_error (o_tris o) k = Some t -> exists c y, center_of o k c /\ vertices_are (ul_list (dl_circumcenters d)) [ci k] [y] /\ xy y = xy c).
  { intros k t Hk. destruct (C k t Hk) as (A & B & C0 & c & H1 & H2 & (y & Y & S0)). exists c, y.
    assert (CO : center_of o k c) by (exists t, A, B, C0; auto). split; [exact CO|]. split; [exact Y|].
    assert (Iy : In y (ul_list (dl_circumcenters d))) by (inversion_clear Y as [|? ? ? ? [_ Y1] _]; eapply nth_error_In; exact Y1).
    destruct (stored_centers (N := RNum) tol o d T RO y Iy) as (k' & Hk'). apply (CA _ _ _ _ Hk' CO).
    destruct S0 as [->|S0]; [unfold coincide; split; rewrite Rminus_diag_eq, Rabs_R0; auto|]. apply (incomparable_coincide tol TP). exact S0. }
  split. { intros k t Hk. destruct (C' k t Hk) as (c & y & H1 & H2 & H3). exists c, y. split; [exact H1|]. split; [exact (ext_located _ _ _ _ X H2)|exact H3]. }
  split; [|exact F]. intros k k' c c' H H' EQ. destruct SO as [SE|SO]; [|rewrite (SO _ _ _ _ H H' EQ); reflexivity].
  pose proof (centers_inv tol o d TP T RO SE) as IV.
  destruct H as (t & A & B & C0 & Hk & VA & CC), H' as (t' & A' & B' & C0' & Hk' & VA' & CC').
  destruct (C' k t Hk) as (c1 & y & K1 & Y & E1), (C' k' t' Hk') as (c1' & y' & K1' & Y' & E1').
  rewrite (center_det o k c1 c) in E1; [|exact K1|exists t, A, B, C0; auto]. rewrite (center_det o k' c1' c') in E1'; [|exact K1'|exists t', A', B', C0'; auto].
  inversion_clear Y as [|? ? ? ? [P1 Y1] _]. inversion_clear Y' as [|? ? ? ? [P1' Y1'] _].
  assert (EI : Z.to_nat (ci k) = Z.to_nat (ci k')); [|lia]. apply (ul_inv_distinct _ _ _ _ _ _ _ IV Y1 Y1').
  apply (incomparable_coincide tol TP). rewrite E1, E1', EQ. unfold coincide; split; rewrite Rminus_diag_eq, Rabs_R0; auto.
Qed.

(** * The orientation of the cells *)
Section Ccw.
  Local Open Scope Z_scope.
  Variable tol : R.
  Variable o : trout RNum.
  Variable d : delaunay RNum.
  Hypothesis T : triangulation (zlen (o_points o)) (map fst (o_edges o)) (o_tris o).
  Hypothesis O : output_ok (N := RNum) tol o d.
  Definition not_clockwise (cc : list (Point RNum)) (g : polygon RNum) : Prop :=
    exists vs, vertices_are cc (pg_points g) vs /\ (0 <= shoelace (map xy vs))%R.
  Lemma vertices_ext (u u' : ulist (Point RNum)) is vs : ext u u' -> vertices_are (ul_list u) is vs -> vertices_are (ul_list u') is vs.
  Proof.
    intros X H. induction H as [|i y is vs H _ IH]; constructor; [|exact IH]. pose proof (ext_located u u' i y X) as K.
    assert (V : vertices_are (ul_list u') [i] [y]) by (apply K; constructor; [exact H|constructor]). inversion_clear V. assumption.
  Qed.
  Lemma cell_ccw v cc past m pm fuel g s : ul_ranged cc -> ext (dl_circumcenters d) cc -> edges_linked past m ->
    0 <= v < zlen (o_points o) -> build_cell (N := RNum) tol fuel d (zlen past) v cc m pm = Ok (g, s) -> not_clockwise (ul_list (v_cc s)) g.
  Proof.
    intros R X L Hv B. destruct (build_cell_ok (N := RNum) tol o d T O v cc past m pm fuel g s R X L Hv B) as ([S1 S2 SK S3 S4 S5] & NE & P).
    unfold build_cell in B. cbn zeta in B.
    apply bind_ok in B as (center & _ & B). apply bind_ok in B as (pd & _ & B). apply bind_ok in B as (init & _ & B).
    apply bind_ok in B as ([cc1 i1] & _ & B). apply bind_ok in B as ([cc2 i2] & _ & B). apply bind_ok in B as (s0 & _ & B).
    apply bind_ok in B as (tr & _ & B). apply bind_ok in B as (k & _ & B). apply bind_ok in B as (e & _ & B). apply bind_ok in B as ([e' s1] & _ & B).
    apply bind_ok in B as (s2 & _ & B). apply bind_ok in B as (g0 & G & B). apply bind_ok in B as (g' & FC & B). injection B as <- <-.
    rewrite ctor_idx_ok in G. assert (EG : pg_points g0 = ul_list (v_cell s2)) by (inversion G; reflexivity). clear G.
    destruct (locate (ul_list (v_cc s2)) (ul_list (v_cell s2))) as (vs & VS).
    { intros i Hi. rewrite Forall_forall in S4. destruct (S4 i Hi) as (y & x & Y & _). exists y. exact Y. }
    rewrite <- EG in VS, NE. destruct (fixCCW_correct g0 (ul_list (v_cc s2)) vs VS NE) as (g1 & vs' & F1 & F2 & F3 & _).
    rewrite FC in F1. injection F1 as <-. exists vs'. split; [exact F2|]. rewrite F3. apply Rabs_pos.
  Qed.
  Lemma cells_ccw fuel vs : Forall (fun v => 0 <= v < zlen (o_points o)) vs -> forall past cc m pm gs cc' m' pm',
    ul_ranged cc -> ext (dl_circumcenters d) cc -> edges_linked past m -> build_cells (N := RNum) tol fuel d (zlen past) vs cc m pm = Ok (gs, cc', m', pm') ->
    Forall (not_clockwise (ul_list cc')) (map fst gs).
  Proof.
    induction 1 as [|v vs Hv Hvs IH]; intros past cc m pm gs cc' m' pm' R X L H; pose proof H as HH; cbn [build_cells] in H.
    - injection H as <- <- <- <-. constructor.
    - apply bind_ok in H as ([g s] & B & H). apply bind_ok in H as ([[[gs1 cc1] m1] pm1] & Q & H). injection H as <- <- <- <-.
      destruct (build_cell_ok (N := RNum) tol o d T O v cc past m pm fuel g s R X L Hv B) as ([S1 S2 SK S3 S4 S5] & NE & P).
      assert (PI : forall x, In x (pg_points g) <-> In x (ul_list (v_cell s))).
      { intros x. destruct P as [->| ->]; [reflexivity|]. rewrite <- in_rev. reflexivity. }
      assert (L' : edges_linked (past ++ [pg_points g]) (v_edges s)).
      { eapply linked_mono; [|exact S5]. intros k l. apply grow_last. intros x Hx. apply PI. assumption. }
      rewrite <- (Z.add_0_r (zlen past)) in Q. replace (zlen past + 0 + 1) with (zlen (past ++ [pg_points g])) in Q by (rewrite zlen_app; unfold zlen; cbn [length]; lia).
      destruct (build_cells_ok (N := RNum) tol o d T O fuel vs Hvs _ _ _ _ _ _ _ _ S1 (ext_trans _ _ _ X S2) L' Q) as (_ & X' & _).
      cbn [map fst]. constructor; [|exact (IH _ _ _ _ _ _ _ _ S1 (ext_trans _ _ _ X S2) L' Q)].
      destruct (cell_ccw v cc past m pm fuel g s R X L Hv B) as (ws & W1 & W2). exists ws. split; [exact (vertices_ext _ _ _ _ X' W1)|exact W2].
  Qed.
End Ccw.
Lemma voronoi_not_clockwise (tol : R) fuel (o : trout RNum) d m :
  triangulation (zlen (o_points o)) (map fst (o_edges o)) (o_tris o) -> read_output (N := RNum) tol o = Ok d -> voronoi (N := RNum) tol fuel d = Ok m ->
  Forall (fun g => exists vs, vertices_are (ul_list (ms_points m)) (pg_points g) vs /\ (0 <= shoelace (map xy vs))%R) (ms_polygons m).
Proof.
  intros T RO V. pose proof (read_output_ok (N := RNum) tol o d T RO) as O. unfold voronoi in V. apply bind_ok in V as ([[[gs cc] em] pm] & B & V). injection V as <-. cbn [ms_points ms_polygons].
  refine (cells_ccw tol o d T O fuel (ul_list (dl_realPoints d)) _ [] _ _ _ gs cc em pm (oo_cc _ _ _ O) _ _ B).
  - apply Forall_forall. intros v Hv. rewrite (oo_real _ _ _ O) in Hv. apply (corner_range _ _ _ _ T). apply (proj1 (dedup_in _ _)). exact Hv.
  - apply ext_refl.
  - constructor.
Qed.

(** * The inner cells *)
Lemma convex_either vs : (0 <= shoelace vs)%R -> strictly_convex vs \/ strictly_convex (rev vs) -> strictly_convex vs.
Proof. intros A [H|H]; [exact H|]. apply convex_area in H. rewrite shoelace_rev in H. lra. Qed.
Lemma pair_eq_dec (a b : pt) : {a = b} + {a <> b}.
Proof. destruct a as [a1 a2], b as [b1 b2]. destruct (Req_EM_T a1 b1) as [->|N]; [destruct (Req_EM_T a2 b2) as [->|N]; [left; reflexivity|right; congruence]|right; congruence]. Qed.
Lemma convex_edge vs : strictly_convex vs -> forall a b, In (a, b) (edges_of vs) -> a <> b.
Proof.
  intros (L & ND & H) a b Hab ->. assert (exists v, In v vs /\ v <> b) as (v & Hv & N).
  { destruct vs as [|x [|y vs]]; cbn [length] in L; try lia. inversion_clear ND as [|? ? N _]. destruct (pair_eq_dec x b) as [->|NE].
    - exists y. split; [right; left; reflexivity|]. intros ->. apply N. left. reflexivity.
    - exists x. split; [left; reflexivity|exact NE]. }
  pose proof (H b b v Hab Hv N N) as O. unfold orient, vcross, vsub in O. cbn [fst snd] in O. lra.
Qed.
Lemma inner_cells_convex (tol : R) fuel (o : trout RNum) d : (0 < tol)%R -> centers_apart tol o -> centers_stored_once tol o ->
  triangulation (zlen (o_points o)) (map fst (o_edges o)) (o_tris o) -> delaunay_output o -> read_output (N := RNum) tol o = Ok d ->
  (forall v, In v (flat_map corners (o_tris o)) -> (exists ws ts, closed_fan (map fst (o_edges o)) (o_tris o) v ws ts) \/
     (exists w ws w' ts, open_fan (o_edges o) (o_tris o) v w ws w' ts)) -> (length (o_tris o) < fuel)%nat ->
  exists m, voronoi (N := RNum) tol fuel d = Ok m /\
    Forall2 (fun v (g : polygon RNum) => forall ws ts, closed_fan (map fst (o_edges o)) (o_tris o) v ws ts ->
      exists vs, vertices_are (ul_list (ms_points m)) (pg_points g) vs /\ strictly_convex (map xy vs) /\ no_short_edge tol (map xy vs))
      (dedup (flat_map corners (o_tris o))) (ms_polygons m).
Proof.
  intros TP CA SO T D RO HF LF. destruct (regions_once tol fuel o d TP CA SO T RO HF LF) as (m & ci & gs & V & E & CI & ON & F).
  exists m. split; [exact V|]. pose proof (voronoi_not_clockwise tol fuel o d m T RO V) as NC. rewrite <- E in NC |- *.
  destruct D as [DT DO]. clear E V. induction F as [|v g l gs [H _] F IH]; cbn [map]; constructor; cbn [map] in NC; inversion_clear NC as [|? ? N1 N2].
  2: { apply IH. exact N2. }
  intros ws ts HC. destruct N1 as (vs & VS & A). exists vs. split; [exact VS|].
  destruct (inner_convex o T DO DT _ ci CI ON v ws ts _ _ HC (H ws ts HC)) as [CV ST].
  assert (SC : strictly_convex (map xy vs)).
  { apply convex_either; [exact A|]. rewrite <- map_rev, (at_index_map _ _ _ VS), (at_index_map _ _ _ (vertices_rev _ _ _ VS)). exact CV. }
  split; [exact SC|]. intros a b Hab C.
  assert (ST' : forall p, In p (map xy vs) -> exists k c, center_of o k c /\ p = xy c).
  { intros p Hp. rewrite (at_index_map _ _ _ VS) in Hp. apply in_map_iff in Hp as (i & <- & Hi). destruct (ST i Hi) as (k & c & _ & HK & E). exists k, c. auto. }
  destruct (edge_in _ _ _ Hab) as [Ia Ib]. destruct (ST' a Ia) as (k & c & K1 & E1), (ST' b Ib) as (k' & c' & K2 & E2).
  assert (EQ : a = b) by (rewrite E1, E2; apply (CA k k' c c' K1 K2); rewrite <- E1, <- E2; exact C). clear E1 E2. subst b. exact (convex_edge _ SC _ _ Hab eq_refl).
Qed.
