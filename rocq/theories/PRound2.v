(** The steps around the true cells, for sums that only change their sign with the direction. *)
From Coq Require Import Reals Lra Lia ZArith List Bool Permutation.
From Verif Require Import Base Spec MUtil MGeom MHull MPolygon MMaps MTriangle MGen MRegion MDelaunay MVoronoi Bridge BridgeTile BridgeFill BridgeAny.
From Verif Require Import PUtil PPoint PPoly PPoly2 PTri PMore PContains PDelaunay PVoronoi PFan PVorGeo PVorCell PConvex PVorConvex PWedge PBorderCell PVorBorder PTile PTile2 PTile3 PTile4 PTile5 PTile6 PFill PAny PAny2 PAny3 PWind PAny4 PRound.
Import ListNotations.

Section Fans.
  Local Open Scope Z_scope.
  Notation Pt := (Point RNum).
  Variable tol : R.
  Hypothesis tol_pos : (0 < tol)%R.
  Variable o : trout RNum.
  Hypothesis T : triangulation (zlen (o_points o)) (map fst (o_edges o)) (o_tris o).
  Notation tris := (o_tris o).
  Notation mp := (map read_point (o_points o)).
  Notation sites := (map xy mp).
  Hypothesis DO : directed_once tris.
  Hypothesis DT : forall t A B C, In t tris -> vertices_are mp (corners t) [A; B; C] -> delaunay_triangle sites (xy A) (xy B) (xy C).
  Hypothesis NS : NoDup sites.
  Variable cc : list Pt.
  Variable ci : nat -> Z.
  Hypothesis CI : forall k t, nth_error tris k = Some t -> exists c y, center_of o k c /\ vertices_are cc [ci k] [y] /\ xy y = xy c.
  Notation f := (at_index cc).
  Notation ctr := (fun k => f (ci k)).
  (** ** Inner cells *)
  Lemma inner_loop_a v ws ts pts segs : closed_fan (map fst (o_edges o)) tris v ws ts -> inner_cell ci ts pts segs -> strictly_convex (map f pts) ->
    exists u us ts', Forall2 (turn_left tris v) (pairs (u :: us ++ [u])) ts' /\ all_at o v ts' /\ forall w, turning w -> loop_w w (map f pts) = loop_w w (map ctr ts').
  Proof.
    intros (u & ws' & -> & SEC & ND & L3 & AR & _) (l & TU & PT & _) SC. cbn [app] in SEC.
    assert (exists us ts', Forall2 (turn_left tris v) (pairs (u :: us ++ [u])) ts' /\ (ts' = ts \/ ts' = rev ts) /\ NoDup (u :: us)) as (us & ts' & F & TS & NU).
    { destruct (sector_turn tris v (tg_corners _ _ _ T) DO _ _ SEC (closed_simple u ws' ND L3)) as [F|F]; [exists ws', ts; tauto|].
      apply turn_rev in F. cbn [rev] in F. rewrite rev_app_distr in F. exists (rev ws'), (rev ts). split; [exact F|]. split; [tauto|].
      inversion_clear ND as [|? ? N1 N2]. constructor; [rewrite <- in_rev; exact N1|apply NoDup_rev, N2]. }
    clear SEC. exists u, us, ts'. split; [exact F|].
    assert (IT : forall k, In k ts' <-> In k ts) by (intros k; destruct TS as [-> | ->]; [reflexivity|symmetry; apply in_rev]).
    split.
    { split; [exact (turn_nodup o T v (u :: us) u ts' F NU)|]. intros k. split.
      - intros H. destruct (Forall2_in_right _ _ _ F k H) as (e & _ & TE). destruct (turn_corner o v e k TE) as (t & H1 & H2 & _). exists t. auto.
      - intros (t & H1 & H2). apply IT, (AR k t H1 H2). }
    pose proof (turns_equi o T DT cc ci CI v _ ts' F) as FE. cbn [map] in FE. rewrite map_app in FE. cbn [map] in FE.
    intros w W. apply (chain_loop_w_a w W); [exact SC| | |].
    - intros x. split.
      + intros H. apply in_map_iff in H as (i & <- & Hi). assert (Hl : In i (map ci l)) by (destruct PT as [-> | ->]; rewrite <- ?in_rev, dedup_in in Hi; exact Hi).
        apply in_map_iff in Hl as (k & <- & Hk). apply in_map_iff. exists k. split; [reflexivity|]. apply IT, (turned_in _ _ _ TU), Hk.
      + intros H. apply in_map_iff in H as (k & <- & Hk). apply in_map. assert (Hl : In (ci k) (map ci l)) by (apply in_map, (turned_in _ _ _ TU), IT, Hk).
        destruct PT as [-> | ->]; rewrite <- ?in_rev, dedup_in; exact Hl.
    - intros x y H z Hz. rewrite edges_of_map in H. apply in_map_iff in H as ([k k'] & E & H). cbn [fst snd] in E. injection E as <- <-.
      apply in_map_iff in Hz as (k2 & <- & Hk2). destruct (Forall2_in_right _ _ _ F k2 Hk2) as ([a2 b2] & _ & H2).
      destruct (fan_center o T DT cc ci CI v a2 b2 k2 H2) as (c2 & _ & -> & _ & _ & _ & _ & _ & R2).
      destruct (consecutive_closed _ _ _ _ F k k' H) as (a & b & d & H1 & H3).
      destruct (fan_center o T DT cc ci CI v a b k H1) as (c & _ & -> & O & I1 & I2 & D1 & D2 & _), (fan_center o T DT cc ci CI v b d k' H3) as (c' & _ & -> & _ & _ & _ & D3 & _ & R').
      apply (step_left sites (pos o v) (pos o a) (pos o b)); auto.
    - apply (closed_nodup (pos o v) (map (pos o) us) (pos o u)); [exact FE|]. change (pos o u :: map (pos o) us) with (map (pos o) (u :: us)). apply (map_pos_nodup o DT NS); [|exact NU].
      intros i Hi. assert (Hi' : In i (map fst (pairs ((u :: us) ++ [u])))) by (rewrite snoc_pairs_fst; exact Hi). apply in_map_iff in Hi' as (e & <- & He).
      destruct (Forall2_in_left _ _ _ F e He) as (k & _ & TE). apply (turn_site o T DT cc ci CI v e k); auto.
  Qed.
  (** ** Border cells *)
  Variable SRC : pt -> Prop.
  Hypothesis CS : forall k c, center_of o k c -> SRC (xy c).
  Notation kept := (kept cc SRC).
  Hypothesis INJ : forall i j x, kept i x -> kept j x -> i = j.
  Lemma border_cell_a v w ws w' ts pts tst fi z : open_fan (o_edges o) tris v w ws w' ts -> chain_data o cc ci SRC v w w' ts pts tst fi z ->
    (forall u1 u2, u1 = w \/ u1 = w' -> u2 = w \/ u2 = w' -> kept fi (midpoint (pos o v) (pos o u1)) -> kept z (midpoint (pos o v) (pos o u2)) ->
       (orient (pos o v) (pos o u1) (pos o u2) = 0%R -> tst = true) /\ ((4 * tol <= Rabs (orient (pos o v) (pos o u1) (pos o u2)))%R -> tst = false)) ->
    exists w1 w2 site a b, (w1 = w /\ w2 = w' \/ w1 = w' /\ w2 = w) /\ (exists t, In t tris /\ In (v, w1) (sides t)) /\
      vertices_are mp [v; w1; w2] [site; a; b] /\
      (gabriel_edge sites (xy site) (xy a) -> gabriel_edge sites (xy site) (xy b) ->
       (forall w x, vertices_are mp [w] [x] -> (exists t, In t tris /\ In v (corners t) /\ In w (corners t)) -> w <> v -> inner_side (xy site) (xy a) (xy b) (xy x)) ->
       (orient (xy site) (xy a) (xy b) = 0 \/ 4 * tol <= Rabs (orient (xy site) (xy a) (xy b)))%R -> (0 <= shoelace (map f pts))%R ->
       (0 < shoelace (map f pts))%R /\
       (exists us ts', Forall2 (turn_left tris v) (pairs (w1 :: us ++ [w2])) ts' /\ all_at o v ts' /\
         forall fw, turning fw -> (orient (pos o v) (pos o w1) (pos o w2) = 0%R -> tri_w fw (pos o v) (midpoint (pos o v) (pos o w1)) (midpoint (pos o v) (pos o w2)) = 0%R) ->
           loop_w fw (map f pts) = fan_w fw (pos o v) (pairs (midpoint (pos o v) (pos o w1) :: map ctr ts' ++ [midpoint (pos o v) (pos o w2)]))) /\
       (forall i, In i pts -> kept i (f i)) /\
       (forall x y, In (x, y) (edges_of (map f pts)) -> (0 <= orient (xy site) x y)%R) /\
       (forall x, In x (map f pts) -> voronoi_region sites (xy site) x)).
  Proof.
    intros OF (u & u' & l & ia & ib & q & cell & UL & SA & SB & HQ & HF & HZ & PT & CELL) TST.
    destruct OF as (SEC & ND & (AR & _) & _).
    assert (exists w1 us w2 ts', Forall2 (turn_left tris v) (pairs (w1 :: us ++ [w2])) ts' /\
      ((w1 = w /\ w2 = w' /\ ts' = ts) \/ (w1 = w' /\ w2 = w /\ ts' = rev ts)) /\ NoDup (w1 :: us ++ [w2]))
      as (w1 & us & w2 & ts' & F & WW & NW).
    { destruct (sector_turn tris v (tg_corners _ _ _ T) DO _ _ SEC (NoDup_simple _ ND)) as [F|F]; [exists w, ws, w', ts; tauto|].
      apply turn_rev in F. apply NoDup_rev in ND. cbn [rev] in F, ND. rewrite rev_app_distr in F, ND. cbn [rev app] in F, ND. exists w', (rev ws), w, (rev ts). split; [exact F|tauto]. }
    clear SEC ND.
    destruct (at_pos o v q HQ) as [P1 P2].
    assert (exists i1 i2, kept i1 (midpoint (pos o v) (pos o w1)) /\ kept i2 (midpoint (pos o v) (pos o w2)) /\
      ((ia :: map ci l ++ [ib] = i1 :: map ci ts' ++ [i2]) \/ (ia :: map ci l ++ [ib] = rev (i1 :: map ci ts' ++ [i2])))) as (i1 & i2 & M1 & M2 & CH).
    { destruct UL as [(-> & -> & ->)|(-> & -> & ->)], WW as [(-> & -> & ->)|(-> & -> & ->)].
      - exists ia, ib. auto.
      - exists ib, ia. split; [exact SB|]. split; [exact SA|]. right. rewrite rev_C, rev_involutive. reflexivity.
      - exists ib, ia. split; [exact SB|]. split; [exact SA|]. right. rewrite rev_C. reflexivity.
      - exists ia, ib. auto. }
    clear SA SB.
    assert (IT : forall k, In k ts' <-> In k ts) by (intros k; destruct WW as [(_ & _ & ->)|(_ & _ & ->)]; [reflexivity|symmetry; apply in_rev]).
    assert (FC : forall a b k, turn_left tris v (a, b) k -> spoke sites (pos o v) (g_at cc (pos o v)) ci (pos o a, pos o b) k /\ kept (ci k) (f (ci k))).
    { intros a b k H. destruct (fan_center o T DT cc ci CI v a b k H) as (c & C & E & O & I1 & I2 & D1 & D2 & R). destruct H as (t & Ht & _).
      destruct (CI k t Ht) as (c' & y & C' & Y & E'). rewrite (center_det o k c' c C' C) in E'.
      assert (ST : kept (ci k) (f (ci k))) by (exists y; rewrite E; split; [exact Y|]; split; [exact E'|]; exact (CS k c C)).
      split; [|exact ST]. unfold spoke, g_at. pose proof (kept_nonneg _ _ _ _ ST) as NN. destruct (Z.eqb_spec (ci k) (-1)) as [Z0|_]; [lia|]. rewrite E. cbn [fst snd]. auto 10. }
    assert (SP : Forall2 (spoke sites (pos o v) (g_at cc (pos o v)) ci) (pairs (pos o w1 :: map (pos o) us ++ [pos o w2])) ts').
    { replace (pos o w1 :: map (pos o) us ++ [pos o w2]) with (map (pos o) (w1 :: us ++ [w2])) by (cbn [map]; rewrite map_app; reflexivity).
      apply (forall2_pairs_map (turn_left tris v)); [|exact F]. intros a b k H. apply FC, H. }
    assert (SK : forall k, In k ts' -> kept (ci k) (f (ci k))).
    { intros k Hk. destruct (Forall2_in_right _ _ _ F k Hk) as ([a b] & _ & H). exact (proj2 (FC a b k H)). }
    set (C := i1 :: map ci ts' ++ [i2]) in *.
    assert (SC : forall i, In i C -> kept i (f i)).
    { intros i [<-|H]; [rewrite (kept_at _ _ _ _ M1); exact M1|]. apply in_app_or in H as [H|[<-|[]]]; [|rewrite (kept_at _ _ _ _ M2); exact M2].
      apply in_map_iff in H as (k & <- & Hk). apply SK, Hk. }
    assert (No : ~ In (-1) C) by (intros H; pose proof (kept_nonneg _ _ _ _ (SC _ H)); lia).
    assert (GF : forall i, In i C -> g_at cc (pos o v) i = f i) by (intros i Hi; unfold g_at; destruct (Z.eqb_spec i (-1)) as [->|_]; [contradiction|reflexivity]).
    assert (I1C : In i1 C) by (left; reflexivity). assert (I2C : In i2 C) by (right; apply in_or_app; right; left; reflexivity).
    assert (G1 : g_at cc (pos o v) i1 = midpoint (pos o v) (pos o w1)) by (rewrite GF by assumption; apply (kept_at _ _ _ _ M1)).
    assert (G2 : g_at cc (pos o v) i2 = midpoint (pos o v) (pos o w2)) by (rewrite GF by assumption; apply (kept_at _ _ _ _ M2)).
    assert (G0 : g_at cc (pos o v) (-1) = pos o v) by reflexivity.
    assert (NP : forall i, In i C -> f i <> pos o v).
    { intros i [<-|H] E.
      - rewrite (kept_at _ _ _ _ M1) in E. destruct (first_pair (pos o w1) (map (pos o) us) (pos o w2)) as (n & Hn). destruct (Forall2_in_left _ _ _ SP _ Hn) as (k & _ & O & _). cbn [fst snd] in O.
        apply orient_degenerate in O as [O _]. apply O. unfold midpoint in E. destruct (pos o w1) as [x1 x2], (pos o v) as [y1 y2]. cbn [fst snd] in E. injection E as E1 E2. f_equal; lra.
      - apply in_app_or in H as [H|[<-|[]]].
        + apply in_map_iff in H as (k & <- & Hk). destruct (Forall2_in_right _ _ _ SP k Hk) as (e & _ & Q).
          apply (spoke_not_p sites (pos o v) (g_at cc (pos o v)) ci e k Q). rewrite GF; [exact E|]. right. apply in_or_app. left. apply in_map, Hk.
        + rewrite (kept_at _ _ _ _ M2) in E. destruct (PVorCell.last_pair (pos o w1) (map (pos o) us) (pos o w2)) as (n & Hn). destruct (Forall2_in_left _ _ _ SP _ Hn) as (k & _ & O & _). cbn [fst snd] in O.
          apply orient_degenerate in O as [_ O]. apply O. unfold midpoint in E. destruct (pos o w2) as [x1 x2], (pos o v) as [y1 y2]. cbn [fst snd] in E. injection E as E1 E2. f_equal; lra. }
    assert (GI : forall i j, In i (C ++ [-1]) -> In j (C ++ [-1]) -> g_at cc (pos o v) i = g_at cc (pos o v) j -> i = j).
    { intros i j Hi Hj E. apply in_app_or in Hi as [Hi|[<-|[]]]; apply in_app_or in Hj as [Hj|[<-|[]]]; auto.
      - rewrite !GF in E by assumption. apply (INJ i j (f i)); [apply SC, Hi|rewrite E; apply SC, Hj].
      - rewrite GF, G0 in E by assumption. destruct (NP i Hi E).
      - rewrite (GF j), G0 in E by assumption. destruct (NP j Hj). congruence. }
    set (chain := ia :: map ci l ++ [ib]) in *.
    assert (CI' : forall i, In i chain <-> In i C) by (intros i; destruct CH as [-> | ->]; rewrite <- ?in_rev; reflexivity).
    assert (X1 : exists a, vertices_are mp [w1] [a]).
    { destruct (first_pair w1 us w2) as (x & Hx). destruct (Forall2_in_left _ _ _ F _ Hx) as (k & _ & TE). apply (turn_site o T DT cc ci CI v _ k w1 TE). auto. }
    assert (X2 : exists a, vertices_are mp [w2] [a]).
    { destruct (PVorCell.last_pair w1 us w2) as (x & Hx). destruct (Forall2_in_left _ _ _ F _ Hx) as (k & _ & TE). apply (turn_site o T DT cc ci CI v _ k w2 TE). auto. }
    destruct X1 as (a & HA), X2 as (b & HB). destruct (at_pos o w1 a HA) as [PA _], (at_pos o w2 b HB) as [PB _].
    exists w1, w2, q, a, b. rewrite <- P1, <- PA, <- PB. split; [destruct WW as [(-> & -> & _)|(-> & -> & _)]; auto|].
    split. { destruct (first_pair w1 us w2) as (x & Hx). destruct (Forall2_in_left _ _ _ F _ Hx) as (k & _ & t & T1 & T2). exists t. split; [eapply nth_error_In; exact T1|apply T2]. }
    split. { clear - HQ HA HB. inversion_clear HQ as [|? ? ? ? Y1 _]. inversion_clear HA as [|? ? ? ? Y2 _]. inversion_clear HB as [|? ? ? ? Y3 _]. repeat (constructor; [assumption|]). constructor. }
    intros GA GB IN OR SH.
    assert (AT : all_at o v ts').
    { split; [apply (turn_nodup o T v (w1 :: us) w2 ts' F); pose proof (NoDup_remove_1 (w1 :: us) [] w2 NW) as NW'; rewrite app_nil_r in NW'; exact NW'|]. intros k. split.
      - intros H. destruct (Forall2_in_right _ _ _ F k H) as (e & _ & TE). destruct (turn_corner o v e k TE) as (t & H1 & H2 & _). exists t. auto.
      - intros (t & H1 & H2). apply IT, (AR k t H1 H2). }
    assert (NDp : NoDup (pos o w1 :: map (pos o) us ++ [pos o w2])).
    { replace (pos o w1 :: map (pos o) us ++ [pos o w2]) with (map (pos o) (w1 :: us ++ [w2])) by (cbn [map]; rewrite map_app; reflexivity). apply (map_pos_nodup o DT NS); [|exact NW].
      intros i Hi. change (w1 :: us ++ [w2]) with ((w1 :: us) ++ [w2]) in Hi. apply in_app_or in Hi as [Hi|[<-|[]]]; [|exists b; exact HB].
      assert (Hi' : In i (map fst (pairs ((w1 :: us) ++ [w2])))) by (rewrite snoc_pairs_fst; exact Hi). apply in_map_iff in Hi' as (e & <- & He).
      destruct (Forall2_in_left _ _ _ F e He) as (k & _ & TE). apply (turn_site o T DT cc ci CI v e k); auto. }
    assert (INS : forall x, In x (map (pos o) us) -> inner_side (pos o v) (pos o w1) (pos o w2) x).
    { intros x Hx. apply in_map_iff in Hx as (i & <- & Hi). assert (Hi' : In i (map fst (pairs ((w1 :: us) ++ [w2])))) by (rewrite snoc_pairs_fst; right; exact Hi).
      apply in_map_iff in Hi' as (e & <- & He). destruct (Forall2_in_left _ _ _ F e He) as (k & _ & TE). destruct (turn_site o T DT cc ci CI v e k (fst e) TE) as (x & Hx); [auto|].
      destruct (at_pos o (fst e) x Hx) as [PX _]. rewrite PX. apply (IN (fst e) x Hx).
      - destruct (turn_corner o v e k TE) as (t & H1 & H2 & H3 & _). exists t. split; [exact (nth_error_In _ _ H1)|auto].
      - destruct TE as (t & H1 & TE). intros E. destruct e as [e1 e2]. cbn [fst snd] in *. subst e1. pose proof (tg_corners _ _ _ T t (nth_error_In _ _ H1)) as NC. destruct t as [[A B] D]. destruct TE as (D1 & _). cbn [corners sides In fst snd] in *.
        inversion_clear NC as [|? ? N1 N2]. inversion_clear N2 as [|? ? N3 _]. cbn [In] in *. intuition congruence. }
    pose proof (chain_stutters sites _ _ _ _ _ ci ts' i1 i2 SP G1 G2 G0 No GI GA GB NDp INS) as ST. fold C in ST.
    assert (STR : stutters chain) by (destruct CH as [-> | ->]; [exact ST|apply stutters_rev, ST]).
    assert (HL : hd_error (rev (dedup C)) = Some i2).
    { destruct (stutters_dedup f (fun _ => 0%R) C 0 ltac:(auto) ST) as [L _]. assert (LC : last C 0 = i2) by (unfold C; change (i1 :: map ci ts' ++ [i2]) with ((i1 :: map ci ts') ++ [i2]); apply last_snoc). rewrite LC in L.
      destruct (dedup C) as [|z0 D _] eqn:ED using rev_ind; [apply dedup_nil in ED; discriminate|]. rewrite last_snoc in L. rewrite rev_app_distr. cbn. congruence. }
    assert (HR : hd_error (rev (dedup (rev C))) = Some i1).
    { destruct (stutters_dedup f (fun _ => 0%R) (rev C) 0 ltac:(auto) (stutters_rev _ ST)) as [L _]. assert (LC : last (rev C) 0 = i1) by (unfold C; cbn [rev]; apply last_snoc). rewrite LC in L.
      destruct (dedup (rev C)) as [|z0 D _] eqn:ED using rev_ind; [apply dedup_nil in ED; unfold C in ED; cbn [rev] in ED; destruct (rev (map ci ts' ++ [i2])); discriminate|]. rewrite last_snoc in L. rewrite rev_app_distr. cbn. congruence. }
    assert (EF : fi = i1 /\ z = i2 \/ fi = i2 /\ z = i1).
    { destruct CH as [CH|CH]; rewrite CH in HF, HZ.
      - left. rewrite HL in HZ. unfold C in HF. rewrite dedup_head in HF. split; congruence.
      - right. rewrite HR in HZ. unfold C in HF. rewrite rev_C, dedup_head in HF. split; congruence. }
    assert (TT : (orient (pos o v) (pos o w1) (pos o w2) = 0%R -> tst = true) /\ ((4 * tol <= Rabs (orient (pos o v) (pos o w1) (pos o w2)))%R -> tst = false)).
    { assert (U1 : w1 = w \/ w1 = w') by tauto. assert (U2 : w2 = w \/ w2 = w') by tauto.
      destruct EF as [[-> ->]|[-> ->]]; [exact (TST _ _ U1 U2 M1 M2)|]. destruct (TST _ _ U2 U1 M2 M1) as [T1 T2].
      replace (orient (pos o v) (pos o w2) (pos o w1)) with (- orient (pos o v) (pos o w1) (pos o w2))%R in T1, T2 by (unfold orient, vcross, vsub; cbn [fst snd]; lra).
      rewrite Rabs_Ropp in T2. split; [intros H; apply T1; lra|exact T2]. }
    pose proof (turns_equi o T DT cc ci CI v _ ts' F) as FE. cbn [map] in FE. rewrite map_app in FE. cbn [map] in FE.
    assert (EC : map (g_at cc (pos o v)) C = midpoint (pos o v) (pos o w1) :: map ctr ts' ++ [midpoint (pos o v) (pos o w2)]).
    { unfold C. cbn [map]. rewrite map_app. cbn [map]. rewrite G1, G2, map_map. f_equal. f_equal. apply map_ext_on. intros k Hk. apply GF. right. apply in_or_app. left. apply in_map, Hk. }
    assert (EG : map f C = map (g_at cc (pos o v)) C) by (apply map_ext_on; intros i Hi; symmetry; apply GF, Hi).
    (* the part of the sum of the steps *)
    assert (KS : around_p (pos o v) (pairs (map f C)) = sumR (map (quad o cc ci v) ts')).
    { rewrite EG, EC, <- (turns_kites o T cc ci v _ ts' F). cbn [map]. rewrite map_app. cbn [map]. apply (open_pairs_area (pos o v) _ _ _ _ FE). }
    assert (KW : forall fw, fan_w fw (pos o v) (pairs (map f C)) = fan_w fw (pos o v) (pairs (midpoint (pos o v) (pos o w1) :: map ctr ts' ++ [midpoint (pos o v) (pos o w2)]))) by (intros fw; rewrite EG, EC; reflexivity).
    set (K := sumR (map (quad o cc ci v) ts')) in *. set (Kw := fun fw => fan_w fw (pos o v) (pairs (midpoint (pos o v) (pos o w1) :: map ctr ts' ++ [midpoint (pos o v) (pos o w2)]))). set (flat := fun fw => orient (pos o v) (pos o w1) (pos o w2) = 0%R -> tri_w fw (pos o v) (midpoint (pos o v) (pos o w1)) (midpoint (pos o v) (pos o w2)) = 0%R).
    assert (STEP : forall x y, In (x, y) (pairs (map f C)) -> (0 <= orient (pos o v) x y)%R).
    { intros x y H. rewrite EG, pairs_map in H. apply in_map_iff in H as ([i j] & E & H). cbn [fst snd] in E. injection E as <- <-.
      destruct (chain_pair_step sites _ _ _ _ _ ci ts' i1 i2 SP G1 G2 G0 No GI GA GB INS i j H) as [E|L]; [rewrite E; unfold orient, vcross, vsub; cbn [fst snd]; lra|lra]. }
    assert (KP : (0 < K)%R).
    { destruct (Rle_lt_dec K 0) as [L|L]; [|exact L]. exfalso.
      assert (Z : forall i j, In (i, j) (pairs C) -> f i = f j).
      { intros i j H. destruct (chain_pair_step sites _ _ _ _ _ ci ts' i1 i2 SP G1 G2 G0 No GI GA GB INS i j H) as [E|P].
        - destruct (PVorGeo.pairs_in _ _ H) as [H1 H2]. cbn [fst snd] in H1, H2. rewrite !GF in E by assumption. exact E.
        - exfalso. assert (P' : (orient (pos o v) (g_at cc (pos o v) i) (g_at cc (pos o v) j) <= K)%R); [|lra].
          rewrite <- KS, EG. unfold around_p. apply sumR_in_le.
          + intros x Hx. apply in_map_iff in Hx as ([x1 x2] & <- & Hx). rewrite <- EG in Hx. exact (STEP _ _ Hx).
          + apply in_map_iff. exists (g_at cc (pos o v) i, g_at cc (pos o v) j). split; [reflexivity|]. rewrite pairs_map. apply in_map_iff. exists (i, j). auto. }
      assert (EA : f i1 = f i2).
      { apply (chain_all (fun i => f i1 = f i) (fun i => f i1 = f i) i1 (map ci ts' ++ [i2])); auto; [|apply in_or_app; right; left; reflexivity].
        intros [i j] H E. cbn [fst snd] in *. rewrite E. apply Z, H. }
      rewrite (kept_at _ _ _ _ M1), (kept_at _ _ _ _ M2) in EA. inversion_clear NDp as [|? ? N _]. apply N. apply in_or_app. right. left. unfold midpoint in EA.
      destruct (pos o w1) as [x1 x2], (pos o w2) as [y1 y2]. cbn [fst snd] in EA. injection EA as E1 E2. f_equal; lra. }
    (* the signed area of the cell, and its steps *)
    assert (CA : exists sg : bool, shoelace (map f cell) = ((if sg then K else - K) / 2)%R /\
      (forall fw, turning fw -> flat fw -> loop_w fw (map f cell) = if sg then Kw fw else (- Kw fw)%R) /\
      forall x y, In (x, y) (edges_of (map f cell)) -> (if sg then 0 <= orient (pos o v) x y else orient (pos o v) x y <= 0)%R).
    { assert (AC : exists sg : bool, around_p (pos o v) (pairs (map f chain)) = (if sg then K else - K)%R /\
        (forall fw, turning fw -> fan_w fw (pos o v) (pairs (map f chain)) = if sg then Kw fw else (- Kw fw)%R) /\
        forall x y, In (x, y) (pairs (map f chain)) -> (if sg then 0 <= orient (pos o v) x y else orient (pos o v) x y <= 0)%R).
      { destruct CH as [-> | ->]; [exists true; split; [exact KS|split; [intros fw _; exact (KW fw)|exact STEP]]|exists false]. rewrite map_rev. split; [rewrite around_rev, KS; reflexivity|]. split; [intros fw W; rewrite (fan_rev_a fw W), KW; reflexivity|].
        intros x y H. rewrite <- map_rev, pairs_map in H. apply in_map_iff in H as ([i j] & E & H). cbn [fst snd] in E. injection E as <- <-. apply rev_pairs_in in H.
        assert (H' : In (f j, f i) (pairs (map f C))) by (rewrite pairs_map; apply in_map_iff; exists (j, i); auto). apply STEP in H'. unfold orient, vcross, vsub in *. cbn [fst snd] in *. lra. }
      destruct AC as (sg & AC & AW & AS). exists sg.
      assert (DS : forall x y, In (x, y) (pairs (map f (dedup chain))) -> (if sg then 0 <= orient (pos o v) x y else orient (pos o v) x y <= 0)%R).
      { intros x y H. apply AS. rewrite pairs_map in *. apply in_map_iff in H as (e & E & H). apply in_map_iff. exists e. split; [exact E|]. apply (stutters_pairs _ _ STR H). }
      assert (HFI : hd_error (dedup chain) = Some fi) by exact HF. assert (HLA : hd_error (rev (dedup chain)) = Some z) by exact HZ.
      assert (FL : exists D, dedup chain = fi :: D /\ last (fi :: D) fi = z).
      { destruct (dedup chain) as [|x0 D]; [discriminate|]. injection HFI as ->. exists D. split; [reflexivity|]. destruct (fi :: D) as [|z0 D' _] eqn:ED using rev_ind; [discriminate|]. rewrite rev_app_distr in HLA. cbn in HLA. rewrite last_snoc. congruence. }
      destruct FL as (D & ED & LD).
      destruct CELL as [(CT & ->)|(CT & r & SR & ->)].
      - assert (O0 : orient (pos o v) (pos o w1) (pos o w2) = 0%R) by (destruct OR as [OR|OR]; [exact OR|pose proof (proj2 TT OR); congruence]).
        assert (OC : orient (pos o v) (f z) (f fi) = 0%R).
        { destruct EF as [[-> ->]|[-> ->]]; rewrite (kept_at _ _ _ _ M1), (kept_at _ _ _ _ M2); unfold orient, vcross, vsub, midpoint in *; cbn [fst snd] in *; lra. }
        assert (LC : last chain fi = z). { destruct (stutters_dedup f (fun _ => 0%R) chain fi ltac:(auto) STR) as [L _]. rewrite <- L, ED. exact LD. }
        assert (IA : ia = fi) by (unfold chain in HFI; rewrite dedup_head in HFI; congruence).
        split; [|split].
        2: { intros fw W FL. rewrite <- (AW fw W). apply (chain_cell_w_a fw W (pos o v) f ia (map ci l ++ [ib])); [exact STR|]. fold chain. rewrite IA, LC. specialize (FL O0). destruct EF as [[-> ->]|[-> ->]]; rewrite (kept_at _ _ _ _ M1), (kept_at _ _ _ _ M2); [rewrite (tri_anti_a fw W), FL; lra|exact FL]. }
        + rewrite <- AC. apply (chain_cell (pos o v) f ia (map ci l ++ [ib])); [exact STR|]. fold chain. rewrite IA, LC. exact OC.
        + intros x y H. rewrite ED in H, DS. cbn [map] in H, DS. unfold edges_of in H. destruct (map f D) as [|y0 D0 _] eqn:EM using rev_ind.
          * destruct H as [H|[]]. injection H as <- <-. destruct sg; unfold orient, vcross, vsub; cbn [fst snd]; lra.
          * change ((f fi :: D0 ++ [y0]) ++ [f fi]) with (((f fi :: D0) ++ [y0]) ++ [f fi]) in H. rewrite pairs_snoc in H. apply in_app_or in H as [H|[H|[]]]; [apply DS, H|].
            injection H as <- <-. assert (EY : y0 = f z). { rewrite <- LD, <- (last_map _ _ f (fi :: D) fi). cbn [map]. rewrite EM. change (f fi :: D0 ++ [y0]) with ((f fi :: D0) ++ [y0]). rewrite last_last. reflexivity. }
            rewrite EY, OC. destruct sg; lra.
      - assert (NR : ~ In r chain) by (intros H; apply (NP r); [apply CI', H|apply (kept_at _ _ _ _ SR)]).
        split; [|split].
        2: { intros fw W _. rewrite <- (AW fw W). apply (chain_cell_site_w_a fw W (pos o v) f ia (map ci l ++ [ib]) r); [exact STR|exact NR|apply (kept_at _ _ _ _ SR)]. }
        + rewrite <- AC. apply (chain_cell_site (pos o v) f ia (map ci l ++ [ib]) r); [exact STR|exact NR|apply (kept_at _ _ _ _ SR)].
        + intros x y H. rewrite (dedup_snoc _ _ NR), map_app in H. cbn [map] in H. rewrite (kept_at _ _ _ _ SR) in H. rewrite ED in H, DS. cbn [map] in H, DS.
          change (edges_of ((f fi :: map f D) ++ [pos o v])) with (pairs (((f fi :: map f D) ++ [pos o v]) ++ [f fi])) in H. rewrite pairs_snoc in H. apply in_app_or in H as [H|[H|[]]].
          2: { injection H as <- <-. destruct sg; unfold orient, vcross, vsub; cbn [fst snd]; lra. }
          destruct (exists_last (l := f fi :: map f D) ltac:(discriminate)) as (D0 & y0 & EM). rewrite EM in H, DS. rewrite pairs_snoc in H. apply in_app_or in H as [H|[H|[]]]; [apply DS, H|].
          injection H as <- <-. destruct sg; unfold orient, vcross, vsub; cbn [fst snd]; lra. }
    assert (RG : forall x, In x (map f cell) -> voronoi_region sites (pos o v) x).
    { assert (RC : forall i, In i chain -> voronoi_region sites (pos o v) (f i)).
      { intros i Hi. apply CI' in Hi. rewrite <- (GF i Hi). apply (chain_region sites _ _ _ _ _ ci ts' i1 i2 SP G1 G2 GA GB i Hi). }
      intros x Hx. apply in_map_iff in Hx as (i & <- & Hi). destruct CELL as [(_ & ->)|(_ & r & SR & ->)]; apply (proj1 (dedup_in _ _)) in Hi; [apply RC, Hi|].
      apply in_app_or in Hi as [Hi|[<-|[]]]; [apply RC, Hi|]. rewrite (kept_at _ _ _ _ SR). apply p_region. }
    assert (KC : forall i, In i cell -> kept i (f i)).
    { intros i Hi. destruct CELL as [(_ & ->)|(_ & r & SR & ->)]; apply (proj1 (dedup_in _ _)) in Hi; [apply SC, CI', Hi|].
      apply in_app_or in Hi as [Hi|[<-|[]]]; [apply SC, CI', Hi|]. rewrite (kept_at _ _ _ _ SR). exact SR. }
    destruct CA as (sg & CA & CW & CST). destruct PT as [-> | ->].
    - rewrite CA in SH |- *. destruct sg; [|exfalso; lra]. split; [lra|]. split; [exists us, ts'; split; [exact F|split; [exact AT|exact CW]]|]. split; [exact KC|]. split; [exact CST|exact RG].
    - rewrite map_rev, shoelace_rev, CA in SH |- *. destruct sg; [exfalso; lra|]. split; [lra|]. split; [exists us, ts'; split; [exact F|split; [exact AT|intros fw W FL; rewrite (loop_rev_a fw W), (CW fw W FL); fold (Kw fw); lra]]|]. split; [intros i Hi; apply KC, in_rev, Hi|]. split; [|intros x Hx; apply RG, in_rev, Hx].
      intros x y H. apply edges_rev in H. specialize (CST y x H). unfold orient, vcross, vsub in *. cbn [fst snd] in *. lra.
  Qed.
End Fans.
