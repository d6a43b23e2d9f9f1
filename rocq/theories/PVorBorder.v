(** The Voronoi cells at convex corners of the border are strictly convex and are the regions cut off at the border. *)
From Coq Require Import Reals Lra Lia ZArith List Bool Permutation.
From Verif Require Import Base Spec MUtil MGeom MHull MPolygon MMaps MTriangle MGen MRegion MDelaunay MVoronoi Bridge.
From Verif Require Import PUtil PPoint PPoly PPoly2 PTri PMore PContains PDelaunay PVoronoi PFan PVorGeo PVorCell PConvex PVorConvex PVorLocate PWedge PBorderCell.
Import ListNotations.

Lemma map_ext_on {A B} (f g : A -> B) l : (forall x, In x l -> f x = g x) -> map f l = map g l.
Proof. induction l as [|x l IH]; intros H; [reflexivity|]. cbn [map]. rewrite (H x), IH; [reflexivity| |left; reflexivity]. intros y Hy. apply H. right. exact Hy. Qed.
Lemma hd_rev_in {A} (l : list A) x : hd_error (rev l) = Some x -> In x l.
Proof. intros H. apply in_rev. destruct (rev l) as [|y m]; [discriminate|]. injection H as ->. left. reflexivity. Qed.
Lemma center_source {N : Num} (o : trout N) k c : center_of o k c -> vertex_source o c.
Proof.
  intros (t & A & B & C & Hk & V & CC). destruct t as [[x y] z]. exists x. apply (src_triangle o x c (x, y, z) A B C); auto; [eapply nth_error_In; exact Hk|left; reflexivity].
Qed.
Lemma forall2_pairs_map {A B C} (P : A * A -> C -> Prop) (Q : B * B -> C -> Prop) (h : A -> B) W ts :
  (forall a b k, P (a, b) k -> Q (h a, h b) k) -> Forall2 P (pairs W) ts -> Forall2 Q (pairs (map h W)) ts.
Proof.
  intros H F. rewrite pairs_map. induction F as [|[a b] k es ts H1 F IH]; cbn [map]; constructor; [|exact IH]. apply H, H1.
Qed.

  (** the end edges of an open fan have one triangle *)
  Lemma end_incident (o : trout RNum) (T : triangulation (zlen (o_points o)) (map fst (o_edges o)) (o_tris o)) (v w : Z) ws (w' : Z) ts : open_fan (o_edges o) (o_tris o) v w ws w' ts -> forall u, u = w \/ u = w' -> (length (incident (o_tris o) (v, u)) <= 1)%nat.
  Proof.
    intros (SEC & ND & (A1 & A2) & _) u U.
    assert (Hl : length (w :: ws ++ [w']) = S (length ts)) by exact (fan_len _ _ _ _ SEC).
    assert (Hts : (0 < length ts)%nat) by (cbn [length] in Hl; rewrite app_length in Hl; cbn [length] in Hl; lia).
    destruct U as [-> | ->].
    - destruct (nth_get ts 0 Hts) as (k & Hk). rewrite (start_open (o_tris o) v (tg_corners _ _ _ T) _ ts SEC A1 w k ND eq_refl Hk). cbn; lia.
    - destruct (nth_get ts (length ts - 1) ltac:(lia)) as (k & Hk).
      rewrite (end_open (o_tris o) v (tg_corners _ _ _ T) _ ts SEC A1 (length ts - 1) w' k ND); [cbn; lia|lia| |exact Hk].
      replace (S (length ts - 1)) with (length (w :: ws)) by (cbn [length] in *; rewrite app_length in Hl; cbn [length] in Hl; lia).
      rewrite app_comm_cons, nth_error_app2, Nat.sub_diag by lia. reflexivity.
  Qed.

Section BorderOn.
  Local Open Scope Z_scope.
  Notation Pt := (Point RNum).
  Variable tol : R.
  Hypothesis tol_pos : (0 < tol)%R.
  Variable o : trout RNum.
  Hypothesis T : triangulation (zlen (o_points o)) (map fst (o_edges o)) (o_tris o).
  Notation tris := (o_tris o).
  Notation mp := (map read_point (o_points o)).
  Notation sites := (map xy mp).
  Hypothesis DO : directed_once tris.
  Hypothesis DT : forall t A B C, In t tris -> vertices_are mp (corners t) [A; B; C] -> delaunay_triangle sites (xy A) (xy B) (xy C).
  Variable cc : list Pt.
  Variable ci : nat -> Z.
  Variable SRC : pt -> Prop.
  Hypothesis CI : forall k t, nth_error tris k = Some t -> exists c y, center_of o k c /\ vertices_are cc [ci k] [y] /\ xy y = xy c.
  Hypothesis CS : forall k c, center_of o k c -> SRC (xy c).
  Definition kept (i : Z) (x : pt) : Prop := exists y, vertices_are cc [i] [y] /\ xy y = x /\ SRC x.
  Hypothesis INJ : forall i j x, kept i x -> kept j x -> i = j.
  Notation f := (at_index cc).

  Lemma kept_at i x : kept i x -> f i = x.
  Proof. intros (y & Y & E & _). rewrite (at_index_ok _ _ _ Y). exact E. Qed.
  Lemma kept_nonneg i x : kept i x -> 0 <= i.
  Proof. intros (y & Y & _). inversion_clear Y as [|? ? ? ? [H _] _]. exact H. Qed.

  (** the corner of the chain *)
  Lemma quarter p a b : (Rabs (orient (midpoint p a) p (midpoint p b)) = Rabs (orient p a b) / 4)%R.
  Proof.
    replace (orient (midpoint p a) p (midpoint p b)) with (- (orient p a b / 4))%R by (unfold orient, vcross, vsub, midpoint; cbn [fst snd]; lra).
    rewrite Rabs_Ropp. unfold Rdiv. rewrite Rabs_mult, (Rabs_pos_eq (/ 4)); [reflexivity|lra].
  Qed.
  Lemma orient_swap_mid p a b : (Rabs (orient (midpoint p b) p (midpoint p a)) = Rabs (orient p a b) / 4)%R.
  Proof. rewrite quarter. replace (orient p b a) with (- orient p a b)%R by (unfold orient, vcross, vsub; cbn [fst snd]; lra). rewrite Rabs_Ropp. reflexivity. Qed.

  Definition g_at (p : pt) (i : Z) : pt := if i =? -1 then p else f i.

  (** the indices of a cell: the chain from one middle to the other, with the site unless the test [tst] succeeds *)
  Definition chain_data (v w w' : Z) (ts : list nat) (pts : list Z) (tst : bool) (fi z : Z) : Prop :=
    exists u u' l ia ib q cell,
      ((u = w /\ u' = w' /\ l = ts) \/ (u = w' /\ u' = w /\ l = rev ts)) /\
      kept ia (midpoint (pos o v) (pos o u)) /\ kept ib (midpoint (pos o v) (pos o u')) /\ vertices_are mp [v] [q] /\
      hd_error (dedup (ia :: map ci l ++ [ib])) = Some fi /\ hd_error (rev (dedup (ia :: map ci l ++ [ib]))) = Some z /\
      (pts = cell \/ pts = rev cell) /\
      (tst = true /\ cell = dedup (ia :: map ci l ++ [ib]) \/
       tst = false /\ exists r, kept r (pos o v) /\ cell = dedup ((ia :: map ci l ++ [ib]) ++ [r])).

  Lemma border_convex_on v w ws w' ts pts tst fi z : open_fan (o_edges o) tris v w ws w' ts -> chain_data v w w' ts pts tst fi z ->
    (forall u1 u2, u1 = w \/ u1 = w' -> u2 = w \/ u2 = w' -> kept fi (midpoint (pos o v) (pos o u1)) -> kept z (midpoint (pos o v) (pos o u2)) ->
       (orient (pos o v) (pos o u1) (pos o u2) = 0%R -> tst = true) /\ ((4 * tol <= Rabs (orient (pos o v) (pos o u1) (pos o u2)))%R -> tst = false)) ->
    exists w1 w2 site a b, (w1 = w /\ w2 = w' \/ w1 = w' /\ w2 = w) /\ (exists t, In t tris /\ In (v, w1) (sides t)) /\
      vertices_are mp [v; w1; w2] [site; a; b] /\ (forall i, In i pts -> exists x, kept i x) /\
      (gabriel_edge sites (xy site) (xy a) -> gabriel_edge sites (xy site) (xy b) -> convex_corner (xy site) (xy a) (xy b) ->
       (forall s, In s sites -> wedge (xy site) (xy a) (xy b) s) ->
       (orient (xy site) (xy a) (xy b) = 0 \/ 4 * tol <= orient (xy site) (xy a) (xy b))%R ->
       (strictly_convex (map f pts) \/ strictly_convex (map f (rev pts))) /\
       forall x, in_hull (map f pts) x <-> voronoi_region sites (xy site) x /\ wedge (xy site) (xy a) (xy b) x).
  Proof.
    intros OF (u & u' & l & ia & ib & q & cell & UL & SA & SB & HQ & HF & HZ & PT & CELL) TST.
    destruct OF as (SEC & ND & _).
    assert (exists w1 us w2 ts', Forall2 (turn_left tris v) (pairs (w1 :: us ++ [w2])) ts' /\
      ((w1 = w /\ w2 = w' /\ ts' = ts) \/ (w1 = w' /\ w2 = w /\ ts' = rev ts)))
      as (w1 & us & w2 & ts' & F & WW).
    { destruct (sector_turn tris v (tg_corners _ _ _ T) DO _ _ SEC (NoDup_simple _ ND)) as [F|F]; [exists w, ws, w', ts; tauto|].
      apply turn_rev in F. cbn [rev] in F. rewrite rev_app_distr in F. cbn [rev app] in F. exists w', (rev ws), w, (rev ts). split; [exact F|tauto]. }
    clear SEC ND.
    destruct (at_pos o v q HQ) as [P1 P2].
    (* the chain in counterclockwise order *)
    assert (exists i1 i2, kept i1 (midpoint (pos o v) (pos o w1)) /\ kept i2 (midpoint (pos o v) (pos o w2)) /\
      ((ia :: map ci l ++ [ib] = i1 :: map ci ts' ++ [i2]) \/ (ia :: map ci l ++ [ib] = rev (i1 :: map ci ts' ++ [i2])))) as (i1 & i2 & M1 & M2 & CH).
    { destruct UL as [(-> & -> & ->)|(-> & -> & ->)], WW as [(-> & -> & ->)|(-> & -> & ->)].
      - exists ia, ib. auto.
      - exists ib, ia. split; [exact SB|]. split; [exact SA|]. right. rewrite rev_C, rev_involutive. reflexivity.
      - exists ib, ia. split; [exact SB|]. split; [exact SA|]. right. rewrite rev_C. reflexivity.
      - exists ia, ib. auto. }
    clear SA SB.
    assert (NE : ts' <> []) by (apply (two_points _ _ _ F); cbn; rewrite app_length; cbn; lia).
    assert (FC : forall a b k, turn_left tris v (a, b) k -> spoke sites (pos o v) (g_at (pos o v)) ci (pos o a, pos o b) k /\ kept (ci k) (f (ci k))).
    { intros a b k H. destruct (fan_center o T DT cc ci CI v a b k H) as (c & C & E & O & I1 & I2 & D1 & D2 & R). destruct H as (t & Ht & _).
      destruct (CI k t Ht) as (c' & y & C' & Y & E'). rewrite (center_det o k c' c C' C) in E'.
      assert (ST : kept (ci k) (f (ci k))) by (exists y; rewrite E; split; [exact Y|]; split; [exact E'|]; exact (CS k c C)).
      split; [|exact ST]. unfold spoke, g_at. pose proof (kept_nonneg _ _ ST) as NN. destruct (Z.eqb_spec (ci k) (-1)) as [Z0|_]; [lia|]. rewrite E. cbn [fst snd]. auto 10. }
    assert (SP : Forall2 (spoke sites (pos o v) (g_at (pos o v)) ci) (pairs (pos o w1 :: map (pos o) us ++ [pos o w2])) ts').
    { replace (pos o w1 :: map (pos o) us ++ [pos o w2]) with (map (pos o) (w1 :: us ++ [w2])) by (cbn [map]; rewrite map_app; reflexivity).
      apply (forall2_pairs_map (turn_left tris v)); [|exact F]. intros a b k H. apply FC, H. }
    assert (SK : forall k, In k ts' -> kept (ci k) (f (ci k))).
    { intros k Hk. destruct (Forall2_in_right _ _ _ F k Hk) as ([a b] & _ & H). exact (proj2 (FC a b k H)). }
    set (C := i1 :: map ci ts' ++ [i2]) in *.
    assert (SC : forall i, In i C -> kept i (f i)).
    { intros i [<-|H]; [rewrite (kept_at _ _ M1); exact M1|]. apply in_app_or in H as [H|[<-|[]]]; [|rewrite (kept_at _ _ M2); exact M2].
      apply in_map_iff in H as (k & <- & Hk). apply SK, Hk. }
    assert (No : ~ In (-1) C) by (intros H; pose proof (kept_nonneg _ _ (SC _ H)); lia).
    assert (GF : forall i, In i C -> g_at (pos o v) i = f i) by (intros i Hi; unfold g_at; destruct (Z.eqb_spec i (-1)) as [->|_]; [contradiction|reflexivity]).
    assert (I1C : In i1 C) by (left; reflexivity). assert (I2C : In i2 C) by (right; apply in_or_app; right; left; reflexivity).
    assert (G1 : g_at (pos o v) i1 = midpoint (pos o v) (pos o w1)) by (rewrite GF by assumption; apply kept_at, M1).
    assert (G2 : g_at (pos o v) i2 = midpoint (pos o v) (pos o w2)) by (rewrite GF by assumption; apply kept_at, M2).
    assert (G0 : g_at (pos o v) (-1) = pos o v) by reflexivity.
    (* no point of the chain is the site *)
    assert (NP : forall i, In i C -> f i <> pos o v).
    { intros i [<-|H] E.
      - rewrite (kept_at _ _ M1) in E. destruct (first_pair (pos o w1) (map (pos o) us) (pos o w2)) as (n & Hn). destruct (Forall2_in_left _ _ _ SP _ Hn) as (k & _ & O & _). cbn [fst snd] in O.
        apply orient_degenerate in O as [O _]. apply O. unfold midpoint in E. destruct (pos o w1) as [x1 x2], (pos o v) as [y1 y2]. cbn [fst snd] in E. injection E as E1 E2. f_equal; lra.
      - apply in_app_or in H as [H|[<-|[]]].
        + apply in_map_iff in H as (k & <- & Hk). destruct (Forall2_in_right _ _ _ SP k Hk) as (e & _ & Q).
          apply (spoke_not_p sites (pos o v) (g_at (pos o v)) ci e k Q). rewrite GF; [exact E|]. right. apply in_or_app. left. apply in_map, Hk.
        + rewrite (kept_at _ _ M2) in E. destruct (PVorCell.last_pair (pos o w1) (map (pos o) us) (pos o w2)) as (n & Hn). destruct (Forall2_in_left _ _ _ SP _ Hn) as (k & _ & O & _). cbn [fst snd] in O.
          apply orient_degenerate in O as [_ O]. apply O. unfold midpoint in E. destruct (pos o w2) as [x1 x2], (pos o v) as [y1 y2]. cbn [fst snd] in E. injection E as E1 E2. f_equal; lra. }
    assert (GI : forall i j, In i (C ++ [-1]) -> In j (C ++ [-1]) -> g_at (pos o v) i = g_at (pos o v) j -> i = j).
    { intros i j Hi Hj E. apply in_app_or in Hi as [Hi|[<-|[]]]; apply in_app_or in Hj as [Hj|[<-|[]]]; auto.
      - rewrite !GF in E by assumption. apply (INJ i j (f i)); [apply SC, Hi|rewrite E; apply SC, Hj].
      - rewrite GF, G0 in E by assumption. destruct (NP i Hi E).
      - rewrite (GF j), G0 in E by assumption. destruct (NP j Hj). congruence. }
    set (chain := ia :: map ci l ++ [ib]) in *.
    assert (CI' : forall i, In i chain <-> In i C) by (intros i; destruct CH as [-> | ->]; rewrite <- ?in_rev; reflexivity).
    (* the sites *)
    assert (X1 : exists a, vertices_are mp [w1] [a]).
    { destruct (first_pair w1 us w2) as (x & Hx). destruct (Forall2_in_left _ _ _ F _ Hx) as (k & _ & t & T1 & T2). apply (site_of2 o T DT eq cc ci CI k t w1 T1). destruct T2 as (T2 & _). cbn [fst] in T2. destruct t as [[? ?] ?]. cbn [sides corners In] in *. intuition congruence. }
    assert (X2 : exists a, vertices_are mp [w2] [a]).
    { destruct (PVorCell.last_pair w1 us w2) as (x & Hx). destruct (Forall2_in_left _ _ _ F _ Hx) as (k & _ & t & T1 & T2). apply (site_of2 o T DT eq cc ci CI k t w2 T1). destruct T2 as (_ & T2 & _). cbn [fst snd] in T2. destruct t as [[? ?] ?]. cbn [sides corners In] in *. intuition congruence. }
    destruct X1 as (a & HA), X2 as (b & HB). destruct (at_pos o w1 a HA) as [PA _], (at_pos o w2 b HB) as [PB _].
    exists w1, w2, q, a, b. rewrite <- P1, <- PA, <- PB. split; [destruct WW as [(-> & -> & _)|(-> & -> & _)]; auto|].
    split. { destruct (first_pair w1 us w2) as (x & Hx). destruct (Forall2_in_left _ _ _ F _ Hx) as (k & _ & t & T1 & T2). exists t. split; [eapply nth_error_In; exact T1|apply T2]. }
    split. { clear - HQ HA HB. inversion_clear HQ as [|? ? ? ? Y1 _]. inversion_clear HA as [|? ? ? ? Y2 _]. inversion_clear HB as [|? ? ? ? Y3 _]. repeat (constructor; [assumption|]). constructor. }
    split.
    { intros i Hi. assert (Hc : In i cell) by (destruct PT as [-> | ->]; rewrite <- ?in_rev in Hi; exact Hi).
      destruct CELL as [(_ & ->)|(_ & r & ST & ->)]; rewrite dedup_in in Hc; [exists (f i); apply SC, CI', Hc|].
      apply in_app_or in Hc as [Hc|[<-|[]]]; [exists (f i); apply SC, CI', Hc|]. exists (pos o v). exact ST. }
    intros GA GB CV WS OR.
    assert (HL : hd_error (rev (dedup C)) = Some i2).
    { destruct CV as [O|[O D]]; [exact (proper_last sites _ _ _ _ _ ci ts' i1 i2 SP G1 G2 G0 No GI (or_introl O) GA GB WS O)|exact (flat_last sites _ _ _ _ _ ci ts' i1 i2 SP G1 G2 G0 No GI (or_intror (conj O D)) GA GB WS O)]. }
    assert (HR : hd_error (rev (dedup (rev C))) = Some i1).
    { destruct CV as [O|[O D]]; [exact (proper_last_rev sites _ _ _ _ _ ci ts' i1 i2 SP G1 G2 G0 No GI (or_introl O) GA GB WS O)|exact (flat_last_rev sites _ _ _ _ _ ci ts' i1 i2 SP G1 G2 G0 No GI (or_intror (conj O D)) GA GB WS O)]. }
    assert (EF : fi = i1 /\ z = i2 \/ fi = i2 /\ z = i1).
    { destruct CH as [CH|CH]; rewrite CH in HF, HZ.
      - left. rewrite HL in HZ. unfold C in HF. rewrite dedup_head in HF. split; congruence.
      - right. rewrite HR in HZ. unfold C in HF. rewrite rev_C, dedup_head in HF. split; congruence. }
    assert (TT : (orient (pos o v) (pos o w1) (pos o w2) = 0%R -> tst = true) /\ ((4 * tol <= Rabs (orient (pos o v) (pos o w1) (pos o w2)))%R -> tst = false)).
    { assert (U1 : w1 = w \/ w1 = w') by tauto. assert (U2 : w2 = w \/ w2 = w') by tauto.
      destruct EF as [[-> ->]|[-> ->]]; [exact (TST _ _ U1 U2 M1 M2)|]. destruct (TST _ _ U2 U1 M2 M1) as [T1 T2].
      replace (orient (pos o v) (pos o w2) (pos o w1)) with (- orient (pos o v) (pos o w1) (pos o w2))%R in T1, T2 by (unfold orient, vcross, vsub; cbn [fst snd]; lra).
      rewrite Rabs_Ropp in T2. split; [intros H; apply T1; lra|exact T2]. }
    assert (K : exists cell', map f cell = map (g_at (pos o v)) cell' /\ (strictly_convex (map (g_at (pos o v)) cell') \/ strictly_convex (map (g_at (pos o v)) (rev cell'))) /\
      (forall i, In i cell' -> In i (C ++ [-1])) /\ (forall i, In i C -> In i cell') /\ ((0 < orient (pos o v) (pos o w1) (pos o w2))%R -> In (-1) cell')).
    { destruct OR as [OR|OR].
      - pose proof (proj1 TT OR) as CT.
        destruct CELL as [(_ & ->)|(CF & _)]; [|congruence]. exists (dedup chain).
        split; [apply map_ext_on; intros i Hi; symmetry; apply GF, CI', (proj1 (dedup_in chain i)), Hi|].
        split. { destruct CH as [-> | ->]; [left|right].
          - exact (flat_convex sites _ _ _ _ _ ci ts' i1 i2 SP G1 G2 G0 No GI CV GA GB WS OR).
          - exact (flat_convex_rev sites _ _ _ _ _ ci ts' i1 i2 SP G1 G2 G0 No GI CV GA GB WS OR). }
        split; [intros i Hi; apply in_or_app; left; apply CI', (proj1 (dedup_in chain i)), Hi|].
        split; [intros i Hi; apply dedup_in, CI', Hi|intros H; lra].
      - assert (OP : (0 < orient (pos o v) (pos o w1) (pos o w2))%R) by lra.
        assert (CT : tst = false) by (apply (proj2 TT); rewrite Rabs_pos_eq; lra).
        destruct CELL as [(CF & _)|(_ & r & SR & ->)]; [congruence|].
        assert (NR : ~ In r chain) by (intros H; apply (NP r); [apply CI', H|apply kept_at, SR]).
        assert (NO : ~ In (-1) chain) by (intros H; apply No, CI', H).
        exists (dedup (chain ++ [-1])).
        split. { rewrite (dedup_snoc _ _ NR), (dedup_snoc _ _ NO), !map_app. cbn [map]. rewrite (kept_at _ _ SR), G0. f_equal.
          apply map_ext_on. intros i Hi. symmetry. apply GF, CI', (proj1 (dedup_in chain i)), Hi. }
        split. { destruct CH as [-> | ->]; [left|right].
          - exact (proper_convex sites _ _ _ _ _ ci ts' i1 i2 SP G1 G2 G0 No GI CV GA GB WS OP).
          - exact (proper_convex_rev sites _ _ _ _ _ ci ts' i1 i2 SP G1 G2 G0 No GI CV GA GB WS OP). }
        split; [intros i Hi; apply (proj1 (dedup_in _ i)) in Hi; apply in_app_or in Hi as [Hi|Hi]; apply in_or_app; [left; apply CI', Hi|right; exact Hi]|].
        split; [intros i Hi; apply dedup_in, in_or_app; left; apply CI', Hi|intros _; apply dedup_in, in_or_app; right; left; reflexivity]. }
    destruct K as (cell' & EM & SCV & L1 & L2 & L3).
    split.
    - destruct PT as [-> | ->]; rewrite ?rev_involutive, !map_rev, !EM; rewrite map_rev in SCV; tauto.
    - intros x. rewrite <- (core_hull sites _ _ _ _ _ ci ts' i1 i2 SP G1 G2 G0 No GI CV GA GB WS cell' L1 L2 L3 x). rewrite <- EM.
      assert (IN : forall p, In p (map f pts) <-> In p (map f cell)) by (intros p; destruct PT as [-> | ->]; [reflexivity|rewrite map_rev, <- in_rev; reflexivity]).
      split; intros H d; destruct (H d) as (p & Hp & L); exists p; (split; [apply IN; exact Hp|exact L]).
  Qed.
End BorderOn.

Section Border.
  Local Open Scope Z_scope.
  Notation Pt := (Point RNum).
  Variable tol : R.
  Hypothesis tol_pos : (0 < tol)%R.
  Variable o : trout RNum.
  Hypothesis T : triangulation (zlen (o_points o)) (map fst (o_edges o)) (o_tris o).
  Notation tris := (o_tris o).
  Notation mp := (map read_point (o_points o)).
  Notation sites := (map xy mp).
  Hypothesis DO : directed_once tris.
  Hypothesis DT : forall t A B C, In t tris -> vertices_are mp (corners t) [A; B; C] -> delaunay_triangle sites (xy A) (xy B) (xy C).
  Variable cc : list Pt.
  Variable ci : nat -> Z.
  Hypothesis CI : forall k t, nth_error tris k = Some t -> exists c y, center_of o k c /\ vertices_are cc [ci k] [y] /\ xy y = xy c.
  Hypothesis STA : forall i x, vertex_source o x -> stands_at (N := RNum) tol cc i x -> exists y, vertices_are cc [i] [y] /\ xy y = xy x.
  Hypothesis INJ : forall i j y y', vertices_are cc [i] [y] -> vertices_are cc [j] [y'] -> xy y = xy y' -> i = j.
  Notation f := (at_index cc).
  Definition source_at (x : pt) : Prop := exists s, vertex_source o s /\ xy s = x.
  Definition stored (i : Z) (x : pt) : Prop := exists y s, vertices_are cc [i] [y] /\ xy y = x /\ vertex_source o s /\ xy s = x.
  Lemma stored_at i x : stored i x -> f i = x.
  Proof. intros (y & s & Y & E & _). rewrite (at_index_ok _ _ _ Y). exact E. Qed.
  Lemma stored_kept i x : stored i x -> kept cc source_at i x.
  Proof. intros (y & s & Y & E & S & E'). exists y. split; [exact Y|]. split; [exact E|]. exists s. auto. Qed.
  Lemma kept_stored i x : kept cc source_at i x -> stored i x.
  Proof. intros (y & Y & E & s & S & E'). exists y, s. auto. Qed.
  Lemma middle_exact v u i : (length (incident tris (v, u)) <= 1)%nat -> middle_at (N := RNum) tol o cc v u i -> stored i (midpoint (pos o v) (pos o u)).
  Proof.
    intros L ([e' e3] & m & He & SS & M & ST). cbn [fst] in *.
    assert (SR : vertex_source o (setBoundary m)).
    { exists v. apply (src_edge o v _ (e', e3) m); auto; cbn [fst].
      - rewrite <- (touches_cong _ _ _ SS). apply touches_iff. auto.
      - rewrite <- (incident_cong _ _ _ SS). exact L. }
    destruct (STA i _ SR ST) as (y & Y & E). exists y, (setBoundary m).
    replace (midpoint (pos o v) (pos o u)) with (xy (setBoundary m)); [auto|].
    unfold iseg_middle in M. destruct e' as [a b]. cbn [fst snd] in M. inv_ok M. injection M as <-.
    apply vget_ok in E0 as [A1 A2], E1 as [B1 B2].
    assert (PA : pos o a = xy v0) by (unfold pos; rewrite A2; reflexivity). assert (PB : pos o b = xy v1) by (unfold pos; rewrite B2; reflexivity).
    unfold same_side in SS. cbn [fst snd] in SS. apply orb_prop in SS as [SS|SS]; apply andb_prop in SS as [S1 S2]; apply Z.eqb_eq in S1, S2; subst; rewrite PA, PB;
    unfold midpoint, xy, setBoundary, mkP; cbn [px py fst snd]; rnum; f_equal; lra.
  Qed.

  Lemma border_convex v w ws w' ts pts segs : open_fan (o_edges o) tris v w ws w' ts -> border_cell (N := RNum) tol o cc ci v w w' ts pts segs ->
    exists w1 w2 site a b, (w1 = w /\ w2 = w' \/ w1 = w' /\ w2 = w) /\ (exists t, In t tris /\ In (v, w1) (sides t)) /\
      vertices_are mp [v; w1; w2] [site; a; b] /\ (forall i, In i pts -> exists x, stored i x) /\
      (gabriel_edge sites (xy site) (xy a) -> gabriel_edge sites (xy site) (xy b) -> convex_corner (xy site) (xy a) (xy b) ->
       (forall s, In s sites -> wedge (xy site) (xy a) (xy b) s) ->
       (orient (xy site) (xy a) (xy b) = 0 \/ 4 * tol <= orient (xy site) (xy a) (xy b))%R ->
       (strictly_convex (map f pts) \/ strictly_convex (map f (rev pts))) /\
       forall x, in_hull (map f pts) x <-> voronoi_region sites (xy site) x /\ wedge (xy site) (xy a) (xy b) x).
  Proof.
    intros OF (u & u' & l & ia & ib & q & fi & z & qf & qz & cell & UL & MA & MB & HQ & HF & HZ & VFZ & PT & CELL).
    pose proof (end_incident o T v w ws w' ts OF) as EI.
    assert (EU : u = w \/ u = w') by tauto. assert (EU' : u' = w \/ u' = w') by tauto.
    pose proof (middle_exact v u ia (EI u EU) MA) as SA. pose proof (middle_exact v u' ib (EI u' EU') MB) as SB. clear MA MB EI EU EU'.
    apply stored_kept in SA, SB. destruct (at_pos o v q HQ) as [P1 P2].
    destruct (border_convex_on tol tol_pos o T DO DT cc ci source_at CI) with (v := v) (w := w) (w' := w') (pts := pts) (ws := ws) (ts := ts) (tst := collinear (N := RNum) tol qf q qz) (fi := fi) (z := z)
      as (w1 & w2 & site & a & b & A1 & A2 & A3 & A4 & A5).
    - intros k c H. exists c. split; [exact (center_source o k c H)|reflexivity].
    - intros i j x (y & Y & E & _) (y' & Y' & E' & _). apply (INJ i j y y' Y Y'). congruence.
    - exact OF.
    - exists u, u', l, ia, ib, q, cell. do 7 (split; [assumption|]). destruct CELL as [(CO & CE & _)|(CO & r & ST & CE & _)]; [left; auto|right]. split; [exact CO|].
      exists r. split; [|exact CE]. assert (SR : vertex_source o (setBoundary q)) by (exists v; apply (src_self o v _ q); auto).
      destruct (STA r _ SR ST) as (y & Y & E). exists y. rewrite P1. split; [exact Y|]. split; [exact E|]. exists (setBoundary q). auto.
    - intros u1 u2 _ _ S1 S2. generalize dependent (pos o u2). intros p2 S2. generalize dependent (pos o u1). intros p1 S1. inversion_clear VFZ as [|? ? ? ? V1 VZ]. inversion_clear VZ as [|? ? ? ? V2 _].
      assert (E1 : xy qf = midpoint (pos o v) p1) by (rewrite <- (kept_at _ _ _ _ S1); symmetry; apply at_index_ok; constructor; [exact V1|constructor]).
      assert (E2 : xy qz = midpoint (pos o v) p2) by (rewrite <- (kept_at _ _ _ _ S2); symmetry; apply at_index_ok; constructor; [exact V2|constructor]).
      assert (CO : (Rabs (orient (xy qf) (xy q) (xy qz)) = Rabs (orient (pos o v) p1 p2) / 4)%R) by (rewrite E1, E2, <- P1; apply quarter).
      split; intros H.
      + apply collinear_orient. rewrite CO, H, Rabs_R0. lra.
      + destruct (collinear (N := RNum) tol qf q qz) eqn:EC; [|reflexivity]. exfalso. apply collinear_orient in EC. rewrite CO in EC. lra.
    - exists w1, w2, site, a, b. do 3 (split; [assumption|]). split; [|exact A5]. intros i Hi. destruct (A4 i Hi) as (x & K). exists x. exact (kept_stored _ _ K).
  Qed.
End Border.

(** the diagram with exactly stored points *)
Lemma sources_centers (tol : R) (o : trout RNum) : sources_apart tol o -> centers_apart tol o.
Proof. intros [_ H] k k' c c' H1 H2. apply H; eapply center_source; eassumption. Qed.
Lemma border_stored (tol : R) fuel (o : trout RNum) d m : (0 < tol)%R -> sources_apart tol o ->
  triangulation (zlen (o_points o)) (map fst (o_edges o)) (o_tris o) -> read_output (N := RNum) tol o = Ok d -> voronoi (N := RNum) tol fuel d = Ok m ->
  (forall i x, vertex_source o x -> stands_at (N := RNum) tol (ul_list (ms_points m)) i x -> exists y, vertices_are (ul_list (ms_points m)) [i] [y] /\ xy y = xy x) /\
  (forall i j y y', vertices_are (N := RNum) (ul_list (ms_points m)) [i] [y] -> vertices_are (N := RNum) (ul_list (ms_points m)) [j] [y'] -> xy y = xy y' -> i = j).
Proof.
  intros TP [SE AP] T RO V. pose proof (pt_swo tol TP _ SE) as W.
  assert (I : ul_inv (vertex_source o) (pt_ltb (N := RNum) tol) (ms_points m)).
  { apply (voronoi_keeps (N := RNum) tol fuel o d m T RO V); [exact W|intros v x H; exists v; exact H|].
    apply (stored_inv (N := RNum) tol o d _ T RO W). intros k c H. eapply center_source; exact H. }
  split.
  - intros i x SX (y & Y & S0). exists y. split; [exact Y|]. apply AP; [|exact SX|].
    + apply (ui_P _ _ _ I). inversion_clear Y as [|? ? ? ? [_ Y1] _]. eapply nth_error_In; exact Y1.
    + destruct S0 as [->|S0]; [unfold coincide; split; rewrite Rminus_diag_eq, Rabs_R0; auto|]. apply (incomparable_coincide tol TP). exact S0.
  - intros i j y y' Y Y' E. inversion_clear Y as [|? ? ? ? [P1 Y1] _]. inversion_clear Y' as [|? ? ? ? [P1' Y1'] _].
    assert (EI : Z.to_nat i = Z.to_nat j); [|lia]. apply (ul_inv_distinct _ _ _ _ _ _ _ I Y1 Y1').
    apply (incomparable_coincide tol TP). rewrite E. unfold coincide; split; rewrite Rminus_diag_eq, Rabs_R0; auto.
Qed.
Lemma border_cells_convex (tol : R) fuel (o : trout RNum) d : (0 < tol)%R -> sources_apart tol o ->
  triangulation (zlen (o_points o)) (map fst (o_edges o)) (o_tris o) -> delaunay_output o -> read_output (N := RNum) tol o = Ok d ->
  (forall v, In v (flat_map corners (o_tris o)) -> (exists ws ts, closed_fan (map fst (o_edges o)) (o_tris o) v ws ts) \/
     (exists w ws w' ts, open_fan (o_edges o) (o_tris o) v w ws w' ts)) -> (length (o_tris o) < fuel)%nat ->
  exists m, voronoi (N := RNum) tol fuel d = Ok m /\
    Forall2 (fun v (g : polygon RNum) => forall w ws w' ts, open_fan (o_edges o) (o_tris o) v w ws w' ts ->
      exists w1 w2 site a b vs, (w1 = w /\ w2 = w' \/ w1 = w' /\ w2 = w) /\ (exists t, In t (o_tris o) /\ In (v, w1) (sides t)) /\
        vertices_are (map read_point (o_points o)) [v; w1; w2] [site; a; b] /\ vertices_are (ul_list (ms_points m)) (pg_points g) vs /\
        (gabriel_edge (output_sites o) (xy site) (xy a) -> gabriel_edge (output_sites o) (xy site) (xy b) -> convex_corner (xy site) (xy a) (xy b) ->
         (forall s, In s (output_sites o) -> wedge (xy site) (xy a) (xy b) s) ->
         (orient (xy site) (xy a) (xy b) = 0 \/ 4 * tol <= orient (xy site) (xy a) (xy b))%R ->
         strictly_convex (map xy vs) /\ no_short_edge tol (map xy vs) /\
         forall x, in_hull (map xy vs) x <-> voronoi_region (output_sites o) (xy site) x /\ wedge (xy site) (xy a) (xy b) x))
      (dedup (flat_map corners (o_tris o))) (ms_polygons m).
Proof.
  intros TP SA T D RO HF LF.
  destruct (regions_built tol fuel o d (fun a b => coincide tol a b) TP ltac:(auto) ltac:(auto) T D RO HF LF) as (m & ci & gs & V & E & CI & F).
  exists m. split; [exact V|]. pose proof (voronoi_not_clockwise tol fuel o d m T RO V) as NC. rewrite <- E in NC |- *.
  destruct (border_stored tol fuel o d m TP SA T RO V) as [STA INJ]. destruct D as [DT DO].
  assert (CI' : forall k t, nth_error (o_tris o) k = Some t -> exists c y, center_of o k c /\ vertices_are (ul_list (ms_points m)) [ci k] [y] /\ xy y = xy c).
  { intros k t Hk. destruct (CI k t Hk) as (c & y & C & Y & Q). destruct (STA (ci k) c (center_source o k c C)) as (y' & Y' & E').
    - exists y. split; [exact Y|]. right. apply (incomparable_coincide tol TP). exact Q.
    - exists c, y'. auto. }
  clear E V CI. induction F as [|v g l gs [_ H] F IH]; cbn [map]; constructor; cbn [map] in NC; inversion_clear NC as [|? ? N1 N2].
  2: { apply IH. exact N2. }
  intros w ws w' ts HO. destruct N1 as (vs & VS & A).
  destruct (border_convex tol TP o T DO DT _ ci CI' STA INJ v w ws w' ts _ _ HO (H w ws w' ts HO)) as (w1 & w2 & site & a & b & K1 & K2 & K3 & ST & K).
  exists w1, w2, site, a, b, vs. split; [exact K1|]. split; [exact K2|]. split; [exact K3|]. split; [exact VS|].
  intros GA GB CV WS OR. destruct (K GA GB CV WS OR) as [CVX HU]. clear K.
  assert (SC : strictly_convex (map xy vs)).
  { apply convex_either; [exact A|]. rewrite <- map_rev, (at_index_map _ _ _ VS), (at_index_map _ _ _ (vertices_rev _ _ _ VS)). exact CVX. }
  split; [exact SC|]. split; [|rewrite (at_index_map _ _ _ VS); exact HU]. intros p q Hpq C.
  assert (ST' : forall p, In p (map xy vs) -> exists x, vertex_source o x /\ p = xy x).
  { intros r Hr. rewrite (at_index_map _ _ _ VS) in Hr. apply in_map_iff in Hr as (i & <- & Hi). destruct (ST i Hi) as (x & y & s & Y & E1 & S1 & E2). exists s. split; [exact S1|].
    rewrite (at_index_ok _ _ _ Y). congruence. }
  destruct (edge_in _ _ _ Hpq) as [Ip Iq]. destruct (ST' p Ip) as (x & S1 & E1), (ST' q Iq) as (x' & S2 & E2).
  assert (EQ : p = q) by (rewrite E1, E2; apply (proj2 SA); auto; rewrite <- E1, <- E2; exact C). clear E1 E2. subst q. exact (convex_edge _ SC _ _ Hpq eq_refl).
Qed.

(** * Point location *)
Section Near.
  Local Open Scope R_scope.
  Lemma strict_corner sites p a b vs x : strictly_convex vs -> (forall y, voronoi_region sites p y /\ wedge p a b y -> in_hull vs y) ->
    (forall q, In q sites -> q <> p -> dist x p < dist x q) -> 0 < orient p a x -> orient p b x < 0 -> forall c d, In (c, d) (edges_of vs) -> 0 < orient c d x.
  Proof.
    intros SC R H H1 H2 c d Hcd.
    set (n := (snd d - snd c, - (fst d - fst c))).
    set (S := map (fun q => (vsub q p, vdot (vsub q p) (vsub q p) / 2 + vdot (vsub q p) p)) (filter (fun q => if pair_eq_dec q p then false else true) sites)).
    destruct (room ((right_of (vsub a p), vdot (right_of (vsub a p)) p) :: (left_of (vsub b p), vdot (left_of (vsub b p)) p) :: S) x n) as (t & T & K).
    { intros e [<-|[<-|He]].
      - unfold orient, vcross, vdot, vsub, right_of in *. cbn [fst snd] in *. lra.
      - unfold orient, vcross, vdot, vsub, left_of in *. cbn [fst snd] in *. lra.
      - apply in_map_iff in He as (q & <- & Hq). apply filter_In in Hq as [Hq N]. destruct (pair_eq_dec q p) as [E|E]; [discriminate|].
        pose proof (proj1 (dist_lt _ _ _) (H q Hq E)) as L. unfold vdot, vsub in *. cbn [fst snd] in *. lra. }
    assert (RG : voronoi_region sites p (vadd x (vscale t n))).
    { intros q Hq. destruct (pair_eq_dec q p) as [->|E]; [lra|]. apply dist_le.
      assert (L := K (vsub q p, vdot (vsub q p) (vsub q p) / 2 + vdot (vsub q p) p)). cbn [fst snd] in L.
      assert (I : In (vsub q p, vdot (vsub q p) (vsub q p) / 2 + vdot (vsub q p) p) S).
      { apply in_map_iff. exists q. split; [reflexivity|]. apply filter_In. split; [exact Hq|]. destruct (pair_eq_dec q p); [contradiction|reflexivity]. }
      specialize (L (or_intror (or_intror I))). clear I K. unfold vdot, vsub, vadd, vscale in *. cbn [fst snd] in *. lra. }
    assert (WD : wedge p a b (vadd x (vscale t n))).
    { pose proof (K _ (or_introl eq_refl)) as L1. pose proof (K _ (or_intror (or_introl eq_refl))) as L2. clear K. unfold wedge, orient, vcross, vdot, vsub, vadd, vscale, right_of, left_of in *. cbn [fst snd] in *. split; lra. }
    pose proof (hull_left vs SC _ (R _ (conj RG WD)) c d Hcd) as O. pose proof (convex_edge vs SC c d Hcd) as NE.
    assert (P : 0 < (fst d - fst c) * (fst d - fst c) + (snd d - snd c) * (snd d - snd c)).
    { clear - NE. destruct c as [a1 a2], d as [b1 b2]. cbn [fst snd] in *. destruct (Req_dec b1 a1) as [E1|E1], (Req_dec b2 a2) as [E2|E2]; [subst; contradiction|nra|nra|nra]. }
    clear - T O P. unfold n, orient, vcross, vsub, vadd, vscale in *. cbn [fst snd] in *. nra.
  Qed.
End Near.
Lemma border_location (tol : R) fuel (o : trout RNum) d : (0 < tol)%R -> sources_apart tol o ->
  triangulation (zlen (o_points o)) (map fst (o_edges o)) (o_tris o) -> delaunay_output o -> read_output (N := RNum) tol o = Ok d ->
  (forall v, In v (flat_map corners (o_tris o)) -> (exists ws ts, closed_fan (map fst (o_edges o)) (o_tris o) v ws ts) \/
     (exists w ws w' ts, open_fan (o_edges o) (o_tris o) v w ws w' ts)) -> (length (o_tris o) < fuel)%nat ->
  exists m, voronoi (N := RNum) tol fuel d = Ok m /\
    Forall2 (fun v (g : polygon RNum) => forall w ws w' ts, open_fan (o_edges o) (o_tris o) v w ws w' ts ->
      exists w1 w2 site a b vs, (w1 = w /\ w2 = w' \/ w1 = w' /\ w2 = w) /\ (exists t, In t (o_tris o) /\ In (v, w1) (sides t)) /\
        vertices_are (map read_point (o_points o)) [v; w1; w2] [site; a; b] /\ vertices_are (ul_list (ms_points m)) (pg_points g) vs /\
        (gabriel_edge (output_sites o) (xy site) (xy a) -> gabriel_edge (output_sites o) (xy site) (xy b) -> convex_corner (xy site) (xy a) (xy b) ->
         (forall s, In s (output_sites o) -> wedge (xy site) (xy a) (xy b) s) ->
         (orient (xy site) (xy a) (xy b) = 0 \/ 4 * tol <= orient (xy site) (xy a) (xy b))%R ->
         forall q : Point RNum,
         ((forall s, In s (output_sites o) -> s <> xy site -> (dist (xy q) (xy site) < dist (xy q) s)%R) ->
            (0 < orient (xy site) (xy a) (xy q))%R -> (orient (xy site) (xy b) (xy q) < 0)%R ->
            containsPoint (N := RNum) tol (pg_points g) (ul_list (ms_points m)) q = Ok true) /\
         ((exists s, In s (output_sites o) /\ (dist (xy q) s < dist (xy q) (xy site))%R) \/ ~ wedge (xy site) (xy a) (xy b) (xy q) ->
            exists b, containsPoint (N := RNum) tol (pg_points g) (ul_list (ms_points m)) q = Ok b /\ (b = true <-> near_border tol (xy q) (map xy vs)))))
      (dedup (flat_map corners (o_tris o))) (ms_polygons m).
Proof.
  intros TP SA T D RO HF LF. destruct (border_cells_convex tol fuel o d TP SA T D RO HF LF) as (m & V & F). exists m. split; [exact V|].
  eapply Forall2_weaken; [|exact F]. clear F. intros v g H w ws w' ts HO. destruct (H w ws w' ts HO) as (w1 & w2 & site & a & b & vs & K1 & K2 & K3 & K4 & K).
  exists w1, w2, site, a, b, vs. split; [exact K1|]. split; [exact K2|]. split; [exact K3|]. split; [exact K4|].
  intros GA GB CV WS OR q. destruct (K GA GB CV WS OR) as (SC & NS & RG). clear K.
  destruct (contains_convex tol (pg_points g) (ul_list (ms_points m)) q vs TP K4 NS SC) as [CI CE]. split.
  - intros N O1 O2. apply CI. apply (strict_corner (output_sites o) (xy site) (xy a) (xy b)); auto. intros y. apply RG.
  - intros Q. apply CE.
    destruct (Exists_dec (fun e => (orient (fst e) (snd e) (xy q) < 0)%R) (edges_of (map xy vs)) (fun e => Rlt_dec _ _)) as [X|X].
    + apply Exists_exists in X as ([c d0] & Hcd & O). exists c, d0. auto.
    + exfalso. assert (R : voronoi_region (output_sites o) (xy site) (xy q) /\ wedge (xy site) (xy a) (xy b) (xy q)).
      { apply RG. apply (left_hull _ SC). intros c d0 Hcd. apply Rnot_lt_le. intros O. apply X, Exists_exists. exists (c, d0). auto. }
      destruct R as [R1 R2]. destruct Q as [(s & Hs & L)|Q]; [specialize (R1 s Hs); lra|contradiction].
Qed.
