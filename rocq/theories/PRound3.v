(** The true cells behind the Voronoi cells on doubles, in a domain of any shape. *)
From Coq Require Import Reals Lra Lia ZArith SpecFloat List Bool Permutation.
From Flocq Require Import Core BinarySingleNaN.
From Verif Require Import Base Spec MUtil MGeom MHull MPolygon MMaps MTriangle MGen MRegion MDelaunay MVoronoi Bridge BridgeNum BridgeVor64 BridgeTile BridgeFill BridgeAny.
From Verif Require Import PUtil PPoint PFloat PGrid PGrid3 PGrid4 PGrid6 PGrid7 PCluster PCircum PPoly PPoly2 PTri PMore PContains PDelaunay PVoronoi PFan PVorGeo PVorCell PConvex PVorConvex PVorLocate PWedge PBorderCell PVorBorder PVorMap PTile PTile2 PTile3 PTile4 PTile5 PTile6 PDual PFill2 PPipe64 PVor64 PVor64b PWind PAny4 PRound PRound2.
Import ListNotations.
Local Open Scope Z_scope.

(** no change along lines between points of the grid *)
Definition straight (e : Z) (w : pt -> pt -> R) : Prop :=
  forall a b c, on_grid (e - 1) a -> on_grid (e - 1) b -> on_grid (e - 1) c -> orient a b c = 0%R -> tri_w w a b c = 0%R.

Lemma Forall2_impl_in : forall A B (P : A -> Prop) (R Q : A -> B -> Prop), (forall x y, P x -> R x y -> Q x y) -> forall l l', Forall P l -> Forall2 R l l' -> Forall2 Q l l'.
Proof. intros A B P R0 Q0 H l l' HP HR. induction HR as [|x y l l' H1 _ IH]; [constructor|]. inversion_clear HP. constructor; auto. Qed.

Section Cells.
  Variable e : Z.
  Hypothesis He : -199 <= e <= 200.
  Variable m : Z.
  Hypothesis Hm : 0 <= m <= 16.
  Variable tol : f64.
  Hypothesis Ht : tolerance64 tol.
  Variable o : trout F64.
  Hypothesis T : triangulation (zlen (o_points o)) (map fst (o_edges o)) (o_tris o).
  Hypothesis G : Forall (gpm e m) (map read_point (o_points o)).
  Hypothesis DL : delaunay_output64 o.
  Notation oR := (exact_output o).
  Notation mp := (map read_point (o_points o)).
  Hypothesis NS : NoDup (output_sites oR).
  Hypothesis AB : any_border (val tol) oR.
  Hypothesis SA : sources_apart64 tol o.
  Variable d : delaunay F64.
  Hypothesis RO : read_output (N := F64) tol o = Ok d.
  Hypothesis HF : forall v, In v (flat_map corners (o_tris o)) -> (exists ws ts, closed_fan (map fst (o_edges o)) (o_tris o) v ws ts) \/
    (exists w ws w' ts, open_fan (o_edges o) (o_tris o) v w ws w' ts).
  Variable fuel : nat.
  Hypothesis LF : (length (o_tris o) < fuel)%nat.

  (** a stored cell, the true cell, and the steps around it *)
  Definition part64 (mm : mesh F64 (polygon F64)) (ci : nat -> Z) (ccR : list (Point RNum)) (v : Z) (g : polygon F64) : Prop :=
    exists site pts vs ts, (pts = pg_points g \/ pts = rev (pg_points g)) /\ vertices_are mp [v] [site] /\ vertices_are (ul_list (ms_points mm)) pts vs /\
      map xyv vs = map rounded (map (at_index ccR) pts) /\ (forall z, In z (map (at_index ccR) pts) -> true_source o z) /\
      (0 < shoelace (map (at_index ccR) pts))%R /\
      (forall x y, In (x, y) (edges_of (map (at_index ccR) pts)) -> (0 <= orient (xyv site) x y)%R) /\
      (forall x, In x (map (at_index ccR) pts) -> voronoi_region (sites64 o) (xyv site) x) /\ all_at oR v ts /\
      forall w, turning w -> straight e w -> loop_w w (map (at_index ccR) pts) = sumR (map (quad_a oR ccR ci w v) ts).
  Lemma parts_built64 : exists mm ci ccR, voronoi (N := F64) tol fuel d = Ok mm /\ Forall2 (part64 mm ci ccR) (dedup (flat_map corners (o_tris o))) (ms_polygons mm).
  Proof.
    destruct (voronoi_built (N := F64) tol fuel o d T RO HF LF) as (mm & ci & gs & V & C & X & E & _ & F).
    pose proof (source_rounds e He m Hm o G DL) as RND. pose proof (sources_clustered e He m Hm tol o G DL SA) as CLU.
    pose proof (tol_pos tol Ht) as TP. pose proof (clustered_swo tol Ht _ CLU) as W.
    assert (I : ul_inv (vertex_source o) (pt_ltb (N := F64) tol) (ms_points mm)).
    { apply (voronoi_keeps (N := F64) tol fuel o d mm T RO V); [exact W|intros v x H; exists v; exact H|].
      apply (stored_inv (N := F64) tol o d _ T RO W). intros k c H. eapply center_source; exact H. }
    set (cc := ul_list (ms_points mm)) in *.
    assert (SRC : forall y, In y cc -> vertex_source o y) by (intros y Hy; apply (ui_P _ _ _ I); exact Hy).
    (* the true point of each index *)
    destruct (choose_list (length cc) (fun i (p : Point RNum) => forall y, nth_error cc i = Some y -> true_source o (xy p) /\ xyv y = rounded (xy p))) as (ccR & LR & HR).
    { intros i Hi. destruct (nth_get cc i Hi) as (y & Hy). destruct (RND y (SRC y (nth_error_In _ _ Hy))) as (z & Z1 & Z2 & _).
      exists (mkP (N := RNum) (fst z) (snd z)). intros y' Hy'. rewrite Hy in Hy'. injection Hy' as <-. unfold xy, mkP. cbn [px py]. rewrite <- surjective_pairing. auto. }
    assert (AT : forall i y, vertices_are cc [i] [y] -> exists p, vertices_are ccR [i] [p] /\ true_source o (xy p) /\ xyv y = rounded (xy p) /\ vertex_source o y).
    { intros i y Y. inversion_clear Y as [|? ? ? ? [Y0 Y1] _]. destruct (nth_get ccR (Z.to_nat i)) as (p & Hp); [rewrite LR; apply nth_error_Some; congruence|].
      exists p. split; [constructor; [auto|constructor]|]. destruct (HR _ _ Hp y Y1) as [K1 K2]. split; [exact K1|]. split; [exact K2|]. exact (SRC y (nth_error_In _ _ Y1)). }
    assert (STA : forall i x z, vertex_source o x -> true_source o z -> xyv x = rounded z -> stands_at (N := F64) tol cc i x -> kept ccR (true_source o) i z).
    { intros i x z SX SZ EX (y & Y & S0). destruct (AT i y Y) as (p & P1 & P2 & P3 & P4). exists p. split; [exact P1|].
      split; [|exact SZ]. apply (proj2 SA _ _ P2 SZ). rewrite <- P3, <- EX. destruct S0 as [->|S0]; [apply (coincide_self tol Ht)|].
      apply (INC_64 tol Ht _ CLU); assumption. }
    assert (KP : forall i x, kept ccR (true_source o) i x -> exists y, vertices_are cc [i] [y] /\ xyv y = rounded x /\ vertex_source o y).
    { intros i x (p & P1 & P2 & P3). inversion_clear P1 as [|? ? ? ? [P0 P4] _]. destruct (nth_get cc (Z.to_nat i)) as (y & Hy); [rewrite <- LR; apply nth_error_Some; congruence|].
      exists y. split; [constructor; [auto|constructor]|]. destruct (HR _ _ P4 y Hy) as [_ K]. rewrite K, P2. split; [reflexivity|]. exact (SRC y (nth_error_In _ _ Hy)). }
    assert (INJ : forall i j x, kept ccR (true_source o) i x -> kept ccR (true_source o) j x -> i = j).
    { intros i j x K1 K2. destruct (KP i x K1) as (y & Y & Ey & Sy), (KP j x K2) as (y' & Y' & Ey' & Sy').
      inversion_clear Y as [|? ? ? ? [P1 Y1] _]. inversion_clear Y' as [|? ? ? ? [P2 Y2] _].
      assert (EI : Z.to_nat i = Z.to_nat j); [|lia]. apply (ul_inv_distinct _ _ _ _ _ _ _ I Y1 Y2).
      apply (INC_64 tol Ht _ CLU); [assumption..|]. unfold near64. rewrite Ey, Ey'. apply (coincide_self tol Ht). }
    assert (CIR : forall k t, nth_error (o_tris oR) k = Some t -> exists c y, center_of oR k c /\ vertices_are ccR [ci k] [y] /\ xy y = xy c).
    { intros k t Hk. destruct (C k t Hk) as (A & B & C0 & c & H1 & H2 & H3).
      assert (CO : center_of o k c) by (exists t, A, B, C0; auto). destruct (center_rounds e (He' e He) m Hm o G DL k c CO) as (cR & K1 & K2 & K3 & K4).
      assert (ST' : stands_at (N := F64) tol cc (ci k) c) by (destruct H3 as (y & Y & S0); exists y; split; [exact (ext_located _ _ _ _ X Y)|exact S0]).
      destruct (STA (ci k) c (xy cR) (center_source o k c CO) (or_introl (ex_intro _ k K2)) K3 ST') as (p & P1 & P2 & _). exists cR, p. auto. }
    assert (CS : forall k c, center_of oR k c -> true_source o (xy c)).
    { intros k c Hc. left. exists k. destruct Hc as (t & A & B & C0 & H1 & H2 & H3). rewrite exact_points in H2. apply vertices_real in H2 as (vs & H2 & EV).
      destruct vs as [|A' [|B' [|C' [|? ?]]]]; try discriminate. injection EV as -> -> ->. exists t, A', B', C'. split; [exact H1|]. split; [exact H2|].
      pose proof (proj1 (proj1 DL t A' B' C' (nth_error_In _ _ H1) H2)) as OR.
      destruct (proj1 (circumcenter_correct (real_point A') (real_point B') (real_point C'))) as (c' & EC & D1 & D2 & _); [rewrite !real_xy; lra|].
      rewrite H3 in EC. injection EC as <-. rewrite !real_xy in D1, D2. auto. }
    destruct (exact_delaunay o DL) as [DT DO]. unfold output_sites in DT, NS.
    exists mm, ci, ccR. split; [exact V|]. rewrite <- E. apply Forall2_map_right.
    assert (US : Forall (fun v => In v (flat_map corners (o_tris o))) (dedup (flat_map corners (o_tris o)))) by (apply Forall_forall; intros v Hv; apply (proj1 (dedup_in _ _)), Hv).
    assert (STORED : forall pts, (forall i, In i pts -> exists x, kept ccR (true_source o) i x) ->
      exists vs, vertices_are cc pts vs /\ map xyv vs = map rounded (map (at_index ccR) pts) /\ forall x, In x (map (at_index ccR) pts) -> true_source o x).
    { clear - KP. induction pts as [|i is IH]; intros A4; [exists []; split; [constructor|]; split; [reflexivity|intros x []]|].
      destruct IH as (vs & W1 & W2 & W3); [intros j Hj; apply A4; right; exact Hj|]. destruct (A4 i (or_introl eq_refl)) as (x & K).
      destruct (KP i x K) as (y & Y & EY & _). pose proof (kept_at _ _ _ _ K) as EA. exists (y :: vs). inversion_clear Y as [|? ? ? ? Y1 _]. split; [constructor; assumption|].
      cbn [map]. rewrite W2, EA, EY. split; [reflexivity|]. intros x' [<-|Hx']; [|apply W3; exact Hx']. destruct K as (_ & _ & _ & K). exact K. }
    eapply (Forall2_impl_in _ _ (fun v => In v (flat_map corners (o_tris o)))); [|exact US|exact F]. intros v g UV [HI H].
    destruct (HF v UV) as [(ws & ts & HC)|(w & ws & w' & ts & OF)].
    { (* inner *) clear H. specialize (HI ws ts HC).
      assert (ON : forall k k' c c', center_of oR k c -> center_of oR k' c' -> xy c = xy c' -> ci k = ci k').
      { intros k k' c c' C1 C2 EQ. pose proof C1 as (t & _ & _ & _ & Hk & _). pose proof C2 as (t' & _ & _ & _ & Hk' & _).
        destruct (CIR k t Hk) as (c1 & y & K1 & Y & E1), (CIR k' t' Hk') as (c2 & y' & K2 & Y' & E2). rewrite (center_det oR k c1 c K1 C1) in E1. rewrite (center_det oR k' c2 c' K2 C2) in E2.
        apply (INJ (ci k) (ci k') (xy c)); [exists y; split; [exact Y|]; split; [exact E1|exact (CS k c C1)]|]. exists y'. split; [exact Y'|]. split; [congruence|exact (CS k c C1)]. }
      destruct (inner_convex oR (exact_triangulation o T) DO DT ccR ci CIR ON v ws ts _ _ HC HI) as [CV PI].
      assert (exists pts, (pts = pg_points (fst g) \/ pts = rev (pg_points (fst g))) /\ inner_cell ci ts pts (snd g) /\ strictly_convex (map (at_index ccR) pts)) as (pts & PE & IC & SC).
      { destruct CV as [CV|CV]; [exists (pg_points (fst g)); auto|]. exists (rev (pg_points (fst g))). split; [right; reflexivity|]. split; [|exact CV].
        destruct HI as (l & TU & PT & SG). exists l. split; [exact TU|]. split; [|exact SG]. destruct PT as [-> | ->]; [right; reflexivity|left; apply rev_involutive]. }
      destruct (inner_loop_a oR (exact_triangulation o T) DO DT NS ccR ci CIR v ws ts pts _ HC IC SC) as (u & us & ts' & FT & ALL & AW).
      destruct (inner_region oR (exact_triangulation o T) DO DT eq ccR ci CIR v ws ts pts _ HC IC) as (site & cs & vs' & S1 & S2 & S3 & S4 & S5).
      rewrite (at_index_map _ _ _ S2) in S4, S5. rewrite exact_points in S1. apply vertices_real in S1 as (ss & S1 & ES). destruct ss as [|site' [|? ?]]; try discriminate. injection ES as ->. rewrite exact_sites, real_xy in S3.
      destruct (STORED pts) as (vs & W1 & W2 & W3).
      { intros i Hi. assert (Hi' : In i (pg_points (fst g))) by (destruct PE as [-> | ->]; [exact Hi|apply in_rev, Hi]).
        destruct HI as (l & TU & PT & _). assert (Hl : In i (map ci l)) by (destruct PT as [PT|PT]; rewrite PT in Hi'; rewrite <- ?in_rev, dedup_in in Hi'; exact Hi').
        apply in_map_iff in Hl as (k' & <- & Hk'). apply (turned_in _ _ _ TU) in Hk'.
        assert (exists t, nth_error (o_tris o) k' = Some t) as (t & Ht').
        { destruct HC as (w9 & ws' & -> & SEC & _). clear - SEC Hk'. induction SEC as [w0|w0 w1 ws0 j ts0 t H1 H2 H3 H4 _ IH]; [destruct Hk'|]. destruct Hk' as [<-|Hk']; [exists t; auto|auto]. }
        destruct (CIR k' t Ht') as (c' & y & K1 & Y & E2). exists (xy c'). exists y. split; [exact Y|]. split; [exact E2|exact (CS _ _ K1)]. }
      exists site', pts, vs, ts'. split; [exact PE|]. split; [exact S1|]. split; [exact W1|]. split; [exact W2|]. split; [exact W3|]. split; [apply convex_area, SC|]. split; [|split; [|split; [exact ALL|]]].
      + intros x y HE. assert (HU : in_hull (map (at_index ccR) pts) (xyv site')).
        { apply (hull_mono cs); [intros z Hz; destruct (S4 z Hz) as (p & Hp & <-); exact Hp|]. apply S3. apply p_region. }
        pose proof (hull_left _ SC (xyv site') HU x y HE) as K. unfold orient, vcross, vsub in *. cbn [fst snd] in *. lra.
      + intros x Hx. destruct (S5 x Hx) as (c & Hc & <-). apply S3, hull_member, Hc.
      + intros fw W0 _. rewrite (AW fw W0). exact (closed_sum oR (exact_triangulation o T) DO ccR ci fw W0 v us u ts' FT). }
    (* border *) clear HI. specialize (H w ws w' ts OF).
    destruct H as (u & u' & l & ia & ib & q & fi & z & qf & qz & cell & UL & MA & MB & HQ & HFi & HZ & VFZ & PT & CELL).
    pose proof (end_incident oR (exact_triangulation o T) v w ws w' ts OF) as EI.
    assert (EU : u = w \/ u = w') by tauto. assert (EU' : u' = w \/ u' = w') by tauto.
    pose proof (pos_exact o v q HQ) as PV. pose proof (site_gpm e m o G _ _ HQ q (or_introl eq_refl)) as GQ.
    assert (MID : forall x i, x = w \/ x = w' -> middle_at (N := F64) tol o cc v x i -> kept ccR (true_source o) i (midpoint (pos oR v) (pos oR x)) /\ on_grid (e - 1) (midpoint (pos oR v) (pos oR x))).
    { intros x i Hx (ed & mi & He1 & SS & M & ST). destruct (middle64 e He m Hm o G _ _ M) as (A & B & VAB & F1 & F2 & EM).
      assert (SR : vertex_source o (setBoundary mi)).
      { exists v. apply (src_edge o v _ ed mi); auto.
        - rewrite <- (touches_cong _ _ _ SS). apply touches_iff. auto.
        - rewrite <- (incident_cong _ _ _ SS). exact (EI x Hx). }
      assert (OG : on_grid (e - 1) (midpoint (xyv A) (xyv B))) by (apply (gpm_midpoint e m); [exact Hm|..]; eapply (site_gpm e m o G); try exact VAB; cbn; tauto).
      assert (EP : midpoint (pos oR v) (pos oR x) = midpoint (xyv A) (xyv B)).
      { inversion_clear VAB as [|? ? ? ? VA VB]. inversion_clear VB as [|? ? ? ? VB' _].
        assert (PA : pos oR (fst (fst ed)) = xyv A) by (apply (pos_exact o); constructor; [exact VA|constructor]).
        assert (PB : pos oR (snd (fst ed)) = xyv B) by (apply (pos_exact o); constructor; [exact VB'|constructor]).
        unfold same_side in SS. cbn [fst snd] in SS. apply orb_prop in SS as [SS|SS]; apply andb_prop in SS as [S1 S2]; apply Z.eqb_eq in S1, S2; rewrite S1, S2, PA, PB; [reflexivity|].
        unfold midpoint. cbn [fst snd]. f_equal; lra. }
      rewrite EP. split; [|exact OG]. apply (STA i (setBoundary mi)); [exact SR| | |exact ST].
      - right; left. exists ed, A, B. split; [exact He1|]. split; [rewrite <- (incident_cong _ _ _ SS); exact (EI x Hx)|]. auto.
      - rewrite (on_grid_rounded (e - 1)) by (assumption || lia). exact EM. }
    destruct (MID u ia EU MA) as [KA OA], (MID u' ib EU' MB) as [KB OB].
    assert (OGW : forall x, x = w \/ x = w' -> on_grid (e - 1) (midpoint (pos oR v) (pos oR x))) by (intros x [->| ->]; destruct UL as [(-> & -> & _)|(-> & -> & _)]; assumption).
    assert (exists pts, (pts = pg_points (fst g) \/ pts = rev (pg_points (fst g))) /\ (pts = cell \/ pts = rev cell) /\ (0 <= shoelace (map (at_index ccR) pts))%R) as (pts & PE & PT' & SH).
    { destruct (Rle_lt_dec 0 (shoelace (map (at_index ccR) (pg_points (fst g))))) as [L|L]; [exists (pg_points (fst g)); auto|]. exists (rev (pg_points (fst g))). split; [right; reflexivity|].
      split; [destruct PT as [-> | ->]; [right; reflexivity|left; apply rev_involutive]|]. rewrite map_rev, shoelace_rev. lra. }
    destruct (border_cell_a (val tol) oR (exact_triangulation o T) DO DT NS ccR ci CIR (true_source o) CS INJ v w ws w' ts pts (collinear (N := F64) tol qf q qz) fi z OF)
      as (w1 & w2 & site & a & b & A1 & A2 & A3 & A5).
    - exists u, u', l, ia, ib, (real_point q), cell. split; [exact UL|]. split; [exact KA|]. split; [exact KB|].
      split; [rewrite exact_points; exact (real_vertices _ _ _ HQ)|]. split; [exact HFi|]. split; [exact HZ|]. split; [exact PT'|].
      destruct CELL as [(CO & CE & _)|(CO & r & ST & CE & _)]; [left; auto|right]. split; [exact CO|]. exists r. split; [|exact CE].
      rewrite PV. apply (STA r (setBoundary q)); [exists v; apply (src_self o v _ q); auto| | |exact ST].
      + right; right. unfold sites64. apply in_map, (vertex_in _ _ _ _ HQ). left; reflexivity.
      + change (xyv (setBoundary q)) with (xyv q). rewrite (on_grid_rounded e) by (lia || exact (gpm_on e m q Hm GQ)). reflexivity.
    - intros u1 u2 U1 U2 K1 K2. pose proof (OGW u1 U1) as O1. pose proof (OGW u2 U2) as O2.
      inversion_clear VFZ as [|? ? ? ? V1 VZ]. inversion_clear VZ as [|? ? ? ? V2 _].
      assert (Q1 : forall i y p, on_grid (e - 1) p -> vertices_are cc [i] [y] -> kept ccR (true_source o) i p -> xyv y = p /\ grid_point (e - 1) y).
      { intros i y p OP Y K. destruct (KP i p K) as (y' & Y' & EY & SY). pose proof (vertices_unique _ _ _ _ Y Y') as EE. injection EE as <-.
        rewrite (on_grid_rounded (e - 1)) in EY by (assumption || lia). split; [exact EY|]. destruct (RND y SY) as (_ & _ & _ & F1 & F2 & _).
        apply on_grid_point; [exact F1|exact F2|rewrite EY; exact OP]. }
      destruct (Q1 fi qf _ O1) as [E1 G1]; [constructor; [exact V1|constructor]|exact K1|]. destruct (Q1 z qz _ O2) as [E2 G2]; [constructor; [exact V2|constructor]|exact K2|].
      assert (GQ' : grid_point (e - 1) q) by (apply on_grid_point; [exact (proj1 (proj1 GQ))|exact (proj1 (proj2 GQ))|exact (gpm_on_half e m q Hm GQ)]).
      rewrite (collinear_grid (e - 1) ltac:(lia) tol (proj1 Ht) qf q qz G1 GQ' G2).
      assert (CO : (Rabs (orient (xyv qf) (xyv q) (xyv qz)) = Rabs (orient (pos oR v) (pos oR u1) (pos oR u2)) / 4)%R) by (rewrite E1, E2, <- PV; apply quarter).
      rewrite <- !real_xy in CO.
      split; intros HH.
      + apply collinear_orient. rewrite CO, HH, Rabs_R0. lra.
      + destruct (collinear (N := RNum) (val tol) (real_point qf) (real_point q) (real_point qz)) eqn:EC; [|reflexivity]. exfalso. apply collinear_orient in EC. rewrite CO in EC. lra.
    - assert (BC : border_corner oR v w1 w2) by (exists w, ws, w', ts; auto).
      destruct (AB v w1 w2 site a b BC A3) as (G1 & G2 & IN & OR). unfold output_sites in G1, G2. destruct (A5 G1 G2 IN OR SH) as (AP & (us & ts' & FT & ALL & AW) & KC & ST1 & ST2).
      destruct (STORED pts) as (vs & W1 & W2 & W3); [intros i Hi; eexists; exact (KC i Hi)|].
      pose proof (real_vertices _ _ _ HQ) as HQ'. rewrite <- exact_points in HQ'.
      assert (ES : site = real_point q). { inversion_clear A3 as [|? ? ? ? Y1 _]. assert (VS : vertices_are (map read_point (o_points oR)) [v] [site]) by (constructor; [exact Y1|constructor]). pose proof (located_det _ _ _ _ VS HQ') as K. injection K as ->. reflexivity. }
      subst site. rewrite real_xy in ST1, ST2. rewrite exact_sites in ST2.
      exists q, pts, vs, ts'. split; [exact PE|]. split; [exact HQ|]. split; [exact W1|]. split; [exact W2|]. split; [exact W3|]. split; [exact AP|]. split; [exact ST1|]. split; [exact ST2|]. split; [exact ALL|].
      intros fw W0 SW. destruct (rim_sides oR (exact_triangulation o T) v w1 w2 (corner_rim oR (exact_triangulation o T) DO v w1 w2 BC)) as (NO & S1 & S2).
      assert (B1 : border_side (o_tris oR) v w1) by (split; [exact S1|intros t Ht'; apply (NO t Ht')]). assert (B2 : border_side (o_tris oR) w2 v) by (split; [exact S2|intros t Ht'; apply (NO t Ht')]).
      rewrite AW.
      + rewrite <- (open_sum oR (exact_triangulation o T) DO ccR ci fw W0 v us w1 w2 ts' FT). rewrite (cut_border oR ccR ci v w1 B1), (cut_sym oR ccR ci v w2), (cut_border oR ccR ci w2 v B2), (mid_sym (pos oR w2) (pos oR v)). reflexivity.
      + exact W0.
      + intros OZ. assert (U1 : w1 = w \/ w1 = w') by (clear - A1; tauto). assert (U2 : w2 = w \/ w2 = w') by (clear - A1; tauto). apply SW; [rewrite PV; exact (gpm_on_half e m q Hm GQ)|exact (OGW w1 U1)|exact (OGW w2 U2)|]. unfold orient, vcross, vsub, midpoint in *. cbn [fst snd] in *. lra.
  Qed.
End Cells.
