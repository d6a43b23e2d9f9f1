(** Voronoi cells at the border, computed on doubles: the stored points are the rounded true points. *)
From Coq Require Import Reals Lra Lia ZArith SpecFloat List Bool Permutation.
From Flocq Require Import Core BinarySingleNaN.
From Verif Require Import Base Spec MUtil MGeom MHull MPolygon MMaps MTriangle MGen MRegion MDelaunay MVoronoi Bridge BridgeNum BridgeVor64.
From Verif Require Import PUtil PPoint PFloat PGrid PGrid3 PGrid4 PGrid6 PGrid7 PCluster PCircum PPoly PPoly2 PTri PMore PContains PDelaunay PVoronoi PFan PVorGeo PVorCell PConvex PVorConvex PVorBorder PVorMap PPipe64 PVor64.
Import ListNotations.
Local Open Scope Z_scope.

Lemma gpm_usual e m q : -200 <= e <= 200 -> 0 <= m <= 20 -> gpm e m q -> usual q.
Proof.
  intros He Hm [[F1 (k1 & B1 & V1)] [F2 (k2 & B2 & V2)]]. split; [exact F1|]. split; [exact F2|]. rewrite V1, V2.
  assert (K : forall k, Z.abs k <= 2 ^ m -> (Rabs (IZR k * bpow radix2 e) <= bpow radix2 1000)%R); [|split; apply K; assumption].
  intros k B. rewrite Rabs_mult, (Rabs_pos_eq (bpow radix2 e)) by apply bpow_ge_0. rewrite <- abs_IZR.
  apply Rle_trans with (bpow radix2 m * bpow radix2 e)%R.
  - apply Rmult_le_compat_r; [apply bpow_ge_0|]. change (bpow radix2 m) with (bpow radix2 m). rewrite <- IZR_Zpower by lia. apply IZR_le. exact B.
  - rewrite <- bpow_plus. apply bpow_le. lia.
Qed.
(** points of the grid are not rounded *)
Lemma grid_round e k : -201 <= e <= 200 -> Z.abs k <= 2 ^ 20 -> nearest (IZR k * bpow radix2 e) = (IZR k * bpow radix2 e)%R.
Proof. intros He Hk. rewrite nearest_rnd. apply rnd_scaled; [|unfold okexp; lia]. assert (2 ^ 20 <= 2 ^ 53) by (apply Z.pow_le_mono_r; lia). lia. Qed.
Definition on_grid (e : Z) (z : pt) : Prop := exists a b, Z.abs a <= 2 ^ 20 /\ Z.abs b <= 2 ^ 20 /\ z = (IZR a * bpow radix2 e, IZR b * bpow radix2 e)%R.
Lemma on_grid_rounded e z : -201 <= e <= 200 -> on_grid e z -> rounded z = z.
Proof. intros He (a & b & A & B & ->). unfold rounded. cbn [fst snd]. rewrite !grid_round by assumption. reflexivity. Qed.
Lemma on_grid_point e (q : Point F64) : fin (px q) -> fin (py q) -> on_grid e (xyv q) -> grid_point e q.
Proof. intros F1 F2 (a & b & A & B & E). unfold xyv in E. injection E as E1 E2. split; [split; [exact F1|exists a; auto]|split; [exact F2|exists b; auto]]. Qed.
Lemma gpm_midpoint e m a b : 0 <= m <= 16 -> gpm e m a -> gpm e m b -> on_grid (e - 1) (midpoint (xyv a) (xyv b)).
Proof.
  intros Hm [[_ (k1 & B1 & V1)] [_ (k2 & B2 & V2)]] [[_ (l1 & C1 & W1)] [_ (l2 & C2 & W2)]].
  assert (L : 2 ^ m + 2 ^ m <= 2 ^ 20) by (pose proof (Z.pow_le_mono_r 2 m 16 ltac:(lia) ltac:(lia)); lia).
  exists (k1 + l1), (k2 + l2). split; [lia|]. split; [lia|]. unfold midpoint, xyv. cbn [fst snd]. rewrite V1, V2, W1, W2, !plus_IZR.
  assert (E : bpow radix2 e = (2 * bpow radix2 (e - 1))%R) by (replace e with (1 + (e - 1)) at 1 by lia; rewrite bpow_plus; reflexivity).
  rewrite E. f_equal; field.
Qed.
Lemma gpm_on_half e m a : 0 <= m <= 16 -> gpm e m a -> on_grid (e - 1) (xyv a).
Proof. intros Hm G. replace (xyv a) with (midpoint (xyv a) (xyv a)); [apply (gpm_midpoint e m); assumption|]. unfold midpoint. destruct (xyv a); cbn [fst snd]. f_equal; field. Qed.
Lemma gpm_on e m a : 0 <= m <= 16 -> gpm e m a -> on_grid e (xyv a).
Proof.
  intros Hm [[_ (k1 & B1 & V1)] [_ (k2 & B2 & V2)]]. assert (L : 2 ^ m <= 2 ^ 20) by (apply Z.pow_le_mono_r; lia).
  exists k1, k2. unfold xyv. rewrite V1, V2. split; [lia|]. split; [lia|reflexivity].
Qed.
Lemma on_grid_usual e (q : Point F64) : -201 <= e <= 200 -> fin (px q) -> fin (py q) -> on_grid e (xyv q) -> usual q.
Proof.
  intros He F1 F2 (a & b & A & B & E). unfold xyv in E. injection E as E1 E2. split; [exact F1|]. split; [exact F2|]. rewrite E1, E2.
  assert (K : forall k, Z.abs k <= 2 ^ 20 -> (Rabs (IZR k * bpow radix2 e) <= bpow radix2 1000)%R); [|split; apply K; assumption].
  intros k Bk. rewrite Rabs_mult, (Rabs_pos_eq (bpow radix2 e)) by apply bpow_ge_0. rewrite <- abs_IZR.
  apply Rle_trans with (bpow radix2 20 * bpow radix2 e)%R.
  - apply Rmult_le_compat_r; [apply bpow_ge_0|]. change (bpow radix2 20) with (IZR (2 ^ 20)). apply IZR_le. exact Bk.
  - rewrite <- bpow_plus. apply bpow_le. lia.
Qed.

Section Cells.
  Variable e : Z.
  Hypothesis He : -199 <= e <= 200.
  Variable m : Z.
  Hypothesis Hm : 0 <= m <= 16.
  Variable tol : f64.
  Hypothesis Ht : tolerance64 tol.
  Variable o : trout F64.
  Hypothesis T : triangulation (zlen (o_points o)) (map fst (o_edges o)) (o_tris o).
  Hypothesis G : Forall (gpm e m) (map read_point (o_points o)).
  Hypothesis DL : delaunay_output64 o.
  Notation oR := (exact_output o).
  Notation mp := (map read_point (o_points o)).
  Lemma He' : -200 <= e <= 200. Proof. lia. Qed.
  Lemma site_gpm i q : vertices_are mp i q -> forall a, In a q -> gpm e m a.
  Proof. intros H a Ha. rewrite Forall_forall in G. apply G. exact (vertex_in _ _ _ _ H Ha). Qed.

  (** the middle of a segment is computed exactly *)
  Lemma middle64 s q : iseg_middle (N := F64) mp s = Ok q -> exists A B, vertices_are mp [fst s; snd s] [A; B] /\ fin (px q) /\ fin (py q) /\ xyv q = midpoint (xyv A) (xyv B).
  Proof.
    intros H. unfold iseg_middle in H. inv_ok H. injection H as <-. apply vget_ok in E as [A1 A2], E0 as [B1 B2].
    exists v, v0. assert (V : vertices_are mp [fst s; snd s] [v; v0]) by (constructor; [auto|]; constructor; [auto|constructor]). split; [exact V|].
    destruct (site_gpm _ _ V v (or_introl eq_refl)) as [X1 Y1]. destruct (site_gpm _ _ V v0 (or_intror (or_introl eq_refl))) as [X2 Y2].
    assert (L : 2 ^ m + 2 ^ m <= 2 ^ 53) by (pose proof (Z.pow_le_mono_r 2 m 16 ltac:(lia) ltac:(lia)); lia).
    assert (OK : okexp e) by (unfold okexp; lia). assert (OK' : okexp (e - 1)) by (unfold okexp; lia).
    destruct (grid_add e _ _ _ _ X1 X2 L OK) as [GX VX]. destruct (grid_add e _ _ _ _ Y1 Y2 L OK) as [GY VY].
    destruct (grid_half e _ _ GX L OK') as [GX' VX']. destruct (grid_half e _ _ GY L OK') as [GY' VY'].
    unfold mkP, xyv, midpoint. cbn [px py fst snd]. split; [eapply grid_fin; exact GX'|]. split; [eapply grid_fin; exact GY'|].
    rewrite VX in VX'. rewrite VY in VY'. f_equal; [exact VX'|exact VY'].
  Qed.
  (** every point the cells are made of is a rounded true point *)
  Lemma source_rounds x : vertex_source o x -> exists z, true_source o z /\ xyv x = rounded z /\ usual x.
  Proof.
    intros (v & H). destruct H as [t A B C Ht' Hv V CC|s q Hs Hv L M ->|q V ->].
    - apply In_nth_error in Ht' as (k & Hk). destruct (center_rounds e He' m Hm o G DL k x) as (cR & _ & K2 & K3 & K4); [exists t, A, B, C; auto|].
      exists (xy cR). split; [left; exists k; exact K2|]. auto.
    - destruct (middle64 _ _ M) as (A & B & V & F1 & F2 & E). exists (midpoint (xyv A) (xyv B)).
      assert (OG : on_grid (e - 1) (midpoint (xyv A) (xyv B))) by (apply (gpm_midpoint e m); [exact Hm|..]; eapply site_gpm; try exact V; cbn; tauto).
      split; [right; left; exists s, A, B; auto|]. rewrite (on_grid_rounded (e - 1)) by (assumption || lia). change (xyv (setBoundary q)) with (xyv q). split; [exact E|].
      apply (on_grid_usual (e - 1)); [lia|exact F1|exact F2|]. change (xyv (setBoundary q)) with (xyv q). rewrite E. exact OG.
    - pose proof (site_gpm _ _ V q (or_introl eq_refl)) as GQ. exists (xyv q). split; [right; right; unfold sites64; apply in_map, (vertex_in _ _ _ _ V); left; reflexivity|].
      rewrite (on_grid_rounded e) by (lia || exact (gpm_on e m q Hm GQ)). split; [reflexivity|]. exact (gpm_usual e m q ltac:(lia) ltac:(lia) GQ).
  Qed.

  Hypothesis SA : sources_apart64 tol o.
  Lemma sources_clustered : clustered tol (vertex_source o).
  Proof.
    split.
    - intros a H. destruct (source_rounds a H) as (_ & _ & _ & U). exact U.
    - intros a b H H'. destruct (source_rounds a H) as (z & Z1 & Z2 & _), (source_rounds b H') as (z' & Z1' & Z2' & _).
      pose proof (proj1 SA z z' Z1 Z1') as [K1 K2]. rewrite <- Z2, <- Z2' in K1, K2. split; assumption.
  Qed.
  Variable d : delaunay F64.
  Hypothesis RO : read_output (N := F64) tol o = Ok d.
  Hypothesis HF : forall v, In v (flat_map corners (o_tris o)) -> (exists ws ts, closed_fan (map fst (o_edges o)) (o_tris o) v ws ts) \/
    (exists w ws w' ts, open_fan (o_edges o) (o_tris o) v w ws w' ts).
  Variable fuel : nat.
  Hypothesis LF : (length (o_tris o) < fuel)%nat.

  Lemma coincide_self p : coincide (val tol) p p.
  Proof. pose proof (tol_pos tol Ht). unfold coincide. rewrite !Rminus_diag_eq, !Rabs_R0 by reflexivity. auto. Qed.
  Lemma pos_exact v q : vertices_are mp [v] [q] -> pos oR v = xyv q.
  Proof. intros H. apply real_vertices in H. rewrite <- exact_points in H. destruct (at_pos oR v _ H) as [E _]. rewrite E. apply real_xy. Qed.

  Lemma border_cells64 : exists mm, voronoi (N := F64) tol fuel d = Ok mm /\
    Forall2 (fun v (g : polygon F64) => forall w ws w' ts, open_fan (o_edges o) (o_tris o) v w ws w' ts ->
      exists w1 w2 site a b zs vs, (w1 = w /\ w2 = w' \/ w1 = w' /\ w2 = w) /\ (exists t, In t (o_tris o) /\ In (v, w1) (sides t)) /\
        vertices_are mp [v; w1; w2] [site; a; b] /\ vertices_are (ul_list (ms_points mm)) (pg_points g) vs /\
        map xyv vs = map rounded zs /\ (forall z, In z zs -> true_source o z) /\
        (gabriel_edge (sites64 o) (xyv site) (xyv a) -> gabriel_edge (sites64 o) (xyv site) (xyv b) -> convex_corner (xyv site) (xyv a) (xyv b) ->
         (forall s, In s (sites64 o) -> wedge (xyv site) (xyv a) (xyv b) s) ->
         (orient (xyv site) (xyv a) (xyv b) = 0 \/ 4 * val tol <= orient (xyv site) (xyv a) (xyv b))%R ->
         (strictly_convex zs \/ strictly_convex (rev zs)) /\
         forall x, in_hull zs x <-> voronoi_region (sites64 o) (xyv site) x /\ wedge (xyv site) (xyv a) (xyv b) x))
      (dedup (flat_map corners (o_tris o))) (ms_polygons mm).
  Proof.
    destruct (voronoi_built (N := F64) tol fuel o d T RO HF LF) as (mm & ci & gs & V & C & X & E & _ & F).
    exists mm. split; [exact V|]. rewrite <- E. apply Forall2_map_right.
    pose proof (tol_pos tol Ht) as TP. pose proof (clustered_swo tol Ht _ sources_clustered) as W.
    assert (I : ul_inv (vertex_source o) (pt_ltb (N := F64) tol) (ms_points mm)).
    { apply (voronoi_keeps (N := F64) tol fuel o d mm T RO V); [exact W|intros v x H; exists v; exact H|].
      apply (stored_inv (N := F64) tol o d _ T RO W). intros k c H. eapply center_source; exact H. }
    set (cc := ul_list (ms_points mm)) in *.
    assert (SRC : forall y, In y cc -> vertex_source o y) by (intros y Hy; apply (ui_P _ _ _ I); exact Hy).
    (* the true point of each index *)
    destruct (choose_list (length cc) (fun i (p : Point RNum) => forall y, nth_error cc i = Some y -> true_source o (xy p) /\ xyv y = rounded (xy p))) as (ccR & LR & HR).
    { intros i Hi. destruct (nth_get cc i Hi) as (y & Hy). destruct (source_rounds y (SRC y (nth_error_In _ _ Hy))) as (z & Z1 & Z2 & _).
      exists (mkP (N := RNum) (fst z) (snd z)). intros y' Hy'. rewrite Hy in Hy'. injection Hy' as <-. unfold xy, mkP. cbn [px py]. rewrite <- surjective_pairing. auto. }
    assert (AT : forall i y, vertices_are cc [i] [y] -> exists p, vertices_are ccR [i] [p] /\ true_source o (xy p) /\ xyv y = rounded (xy p) /\ vertex_source o y).
    { intros i y Y. inversion_clear Y as [|? ? ? ? [Y0 Y1] _]. destruct (nth_get ccR (Z.to_nat i)) as (p & Hp); [rewrite LR; apply nth_error_Some; congruence|].
      exists p. split; [constructor; [auto|constructor]|]. destruct (HR _ _ Hp y Y1) as [K1 K2]. split; [exact K1|]. split; [exact K2|]. exact (SRC y (nth_error_In _ _ Y1)). }
    assert (STA : forall i x z, vertex_source o x -> true_source o z -> xyv x = rounded z -> stands_at (N := F64) tol cc i x -> kept ccR (true_source o) i z).
    { intros i x z SX SZ EX (y & Y & S0). destruct (AT i y Y) as (p & P1 & P2 & P3 & P4). exists p. split; [exact P1|].
      split; [|exact SZ]. apply (proj2 SA _ _ P2 SZ). rewrite <- P3, <- EX. destruct S0 as [->|S0]; [apply coincide_self|].
      apply (INC_64 tol Ht _ sources_clustered); assumption. }
    assert (KP : forall i x, kept ccR (true_source o) i x -> exists y, vertices_are cc [i] [y] /\ xyv y = rounded x /\ vertex_source o y).
    { intros i x (p & P1 & P2 & P3). inversion_clear P1 as [|? ? ? ? [P0 P4] _]. destruct (nth_get cc (Z.to_nat i)) as (y & Hy); [rewrite <- LR; apply nth_error_Some; congruence|].
      exists y. split; [constructor; [auto|constructor]|]. destruct (HR _ _ P4 y Hy) as [_ K]. rewrite K, P2. split; [reflexivity|]. exact (SRC y (nth_error_In _ _ Hy)). }
    assert (INJ : forall i j x, kept ccR (true_source o) i x -> kept ccR (true_source o) j x -> i = j).
    { intros i j x K1 K2. destruct (KP i x K1) as (y & Y & Ey & Sy), (KP j x K2) as (y' & Y' & Ey' & Sy').
      inversion_clear Y as [|? ? ? ? [P1 Y1] _]. inversion_clear Y' as [|? ? ? ? [P2 Y2] _].
      assert (EI : Z.to_nat i = Z.to_nat j); [|lia]. apply (ul_inv_distinct _ _ _ _ _ _ _ I Y1 Y2).
      apply (INC_64 tol Ht _ sources_clustered); [assumption..|]. unfold near64. rewrite Ey, Ey'. apply coincide_self. }
    assert (CIR : forall k t, nth_error (o_tris oR) k = Some t -> exists c y, center_of oR k c /\ vertices_are ccR [ci k] [y] /\ xy y = xy c).
    { intros k t Hk. destruct (C k t Hk) as (A & B & C0 & c & H1 & H2 & H3).
      assert (CO : center_of o k c) by (exists t, A, B, C0; auto). destruct (center_rounds e He' m Hm o G DL k c CO) as (cR & K1 & K2 & K3 & K4).
      assert (ST' : stands_at (N := F64) tol cc (ci k) c) by (destruct H3 as (y & Y & S0); exists y; split; [exact (ext_located _ _ _ _ X Y)|exact S0]).
      destruct (STA (ci k) c (xy cR) (center_source o k c CO) (or_introl (ex_intro _ k K2)) K3 ST') as (p & P1 & P2 & _). exists cR, p. auto. }
    assert (CS : forall k c, center_of oR k c -> true_source o (xy c)).
    { intros k c Hc. left. exists k. destruct Hc as (t & A & B & C0 & H1 & H2 & H3). rewrite exact_points in H2. apply vertices_real in H2 as (vs & H2 & EV).
      destruct vs as [|A' [|B' [|C' [|? ?]]]]; try discriminate. injection EV as -> -> ->. exists t, A', B', C'. split; [exact H1|]. split; [exact H2|].
      pose proof (proj1 (proj1 DL t A' B' C' (nth_error_In _ _ H1) H2)) as OR.
      destruct (proj1 (circumcenter_correct (real_point A') (real_point B') (real_point C'))) as (c' & EC & D1 & D2 & _); [rewrite !real_xy; lra|].
      rewrite H3 in EC. injection EC as <-. rewrite !real_xy in D1, D2. auto. }
    destruct (exact_delaunay o DL) as [DT DO]. unfold output_sites in DT.
    eapply Forall2_weaken; [|exact F]. intros v g [_ H] w ws w' ts OF. specialize (H w ws w' ts OF).
    destruct H as (u & u' & l & ia & ib & q & fi & z & qf & qz & cell & UL & MA & MB & HQ & HFi & HZ & VFZ & PT & CELL).
    pose proof (end_incident oR (exact_triangulation o T) v w ws w' ts OF) as EI.
    assert (EU : u = w \/ u = w') by tauto. assert (EU' : u' = w \/ u' = w') by tauto.
    pose proof (pos_exact v q HQ) as PV. pose proof (site_gpm _ _ HQ q (or_introl eq_refl)) as GQ.
    assert (MID : forall x i, x = w \/ x = w' -> middle_at (N := F64) tol o cc v x i -> kept ccR (true_source o) i (midpoint (pos oR v) (pos oR x)) /\ on_grid (e - 1) (midpoint (pos oR v) (pos oR x))).
    { intros x i Hx (ed & mi & He1 & SS & M & ST). destruct (middle64 _ _ M) as (A & B & VAB & F1 & F2 & EM).
      assert (SR : vertex_source o (setBoundary mi)).
      { exists v. apply (src_edge o v _ ed mi); auto.
        - rewrite <- (touches_cong _ _ _ SS). apply touches_iff. auto.
        - rewrite <- (incident_cong _ _ _ SS). exact (EI x Hx). }
      assert (OG : on_grid (e - 1) (midpoint (xyv A) (xyv B))) by (apply (gpm_midpoint e m); [exact Hm|..]; eapply site_gpm; try exact VAB; cbn; tauto).
      assert (EP : midpoint (pos oR v) (pos oR x) = midpoint (xyv A) (xyv B)).
      { inversion_clear VAB as [|? ? ? ? VA VB]. inversion_clear VB as [|? ? ? ? VB' _].
        assert (PA : pos oR (fst (fst ed)) = xyv A) by (apply pos_exact; constructor; [exact VA|constructor]).
        assert (PB : pos oR (snd (fst ed)) = xyv B) by (apply pos_exact; constructor; [exact VB'|constructor]).
        unfold same_side in SS. cbn [fst snd] in SS. apply orb_prop in SS as [SS|SS]; apply andb_prop in SS as [S1 S2]; apply Z.eqb_eq in S1, S2; rewrite S1, S2, PA, PB; [reflexivity|].
        unfold midpoint. cbn [fst snd]. f_equal; lra. }
      rewrite EP. split; [|exact OG]. apply (STA i (setBoundary mi)); [exact SR| | |exact ST].
      - right; left. exists ed, A, B. split; [exact He1|]. split; [rewrite <- (incident_cong _ _ _ SS); exact (EI x Hx)|]. auto.
      - rewrite (on_grid_rounded (e - 1)) by (assumption || lia). exact EM. }
    destruct (MID u ia EU MA) as [KA OA], (MID u' ib EU' MB) as [KB OB].
    assert (OGW : forall x, x = w \/ x = w' -> on_grid (e - 1) (midpoint (pos oR v) (pos oR x))) by (intros x [->| ->]; destruct UL as [(-> & -> & _)|(-> & -> & _)]; assumption).
    destruct (border_convex_on (val tol) TP oR (exact_triangulation o T) DO DT ccR ci (true_source o) CIR CS INJ v w ws w' ts (pg_points (fst g)) (collinear (N := F64) tol qf q qz) fi z OF)
      as (w1 & w2 & site & a & b & A1 & A2 & A3 & A4 & A5).
    - exists u, u', l, ia, ib, (real_point q), cell. split; [exact UL|]. split; [exact KA|]. split; [exact KB|].
      split; [rewrite exact_points; exact (real_vertices _ _ _ HQ)|]. do 3 (split; [assumption|]).
      destruct CELL as [(CO & CE & _)|(CO & r & ST & CE & _)]; [left; auto|right]. split; [exact CO|]. exists r. split; [|exact CE].
      rewrite PV. apply (STA r (setBoundary q)); [exists v; apply (src_self o v _ q); auto| | |exact ST].
      + right; right. unfold sites64. apply in_map, (vertex_in _ _ _ _ HQ). left; reflexivity.
      + change (xyv (setBoundary q)) with (xyv q). rewrite (on_grid_rounded e) by (lia || exact (gpm_on e m q Hm GQ)). reflexivity.
    - intros u1 u2 U1 U2 K1 K2. pose proof (OGW u1 U1) as O1. pose proof (OGW u2 U2) as O2.
      inversion_clear VFZ as [|? ? ? ? V1 VZ]. inversion_clear VZ as [|? ? ? ? V2 _].
      assert (Q1 : forall i y p, on_grid (e - 1) p -> vertices_are cc [i] [y] -> kept ccR (true_source o) i p -> xyv y = p /\ grid_point (e - 1) y).
      { intros i y p OP Y K. destruct (KP i p K) as (y' & Y' & EY & SY). pose proof (vertices_unique _ _ _ _ Y Y') as EE. injection EE as <-.
        rewrite (on_grid_rounded (e - 1)) in EY by (assumption || lia). split; [exact EY|]. destruct (source_rounds y SY) as (_ & _ & _ & F1 & F2 & _).
        apply on_grid_point; [exact F1|exact F2|rewrite EY; exact OP]. }
      destruct (Q1 fi qf _ O1) as [E1 G1]; [constructor; [exact V1|constructor]|exact K1|]. destruct (Q1 z qz _ O2) as [E2 G2]; [constructor; [exact V2|constructor]|exact K2|].
      assert (GQ' : grid_point (e - 1) q) by (apply on_grid_point; [exact (proj1 (proj1 GQ))|exact (proj1 (proj2 GQ))|exact (gpm_on_half e m q Hm GQ)]).
      rewrite (collinear_grid (e - 1) ltac:(lia) tol (proj1 Ht) qf q qz G1 GQ' G2).
      assert (CO : (Rabs (orient (xyv qf) (xyv q) (xyv qz)) = Rabs (orient (pos oR v) (pos oR u1) (pos oR u2)) / 4)%R) by (rewrite E1, E2, <- PV; apply quarter).
      rewrite <- !real_xy in CO.
      split; intros HH.
      + apply collinear_orient. rewrite CO, HH, Rabs_R0. lra.
      + destruct (collinear (N := RNum) (val tol) (real_point qf) (real_point q) (real_point qz)) eqn:EC; [|reflexivity]. exfalso. apply collinear_orient in EC. rewrite CO in EC. lra.
    - rewrite exact_points in A3. apply vertices_real in A3 as (ss & A3 & ES). destruct ss as [|site' [|a' [|b' [|? ?]]]]; try discriminate. injection ES as -> -> ->.
      rewrite !real_xy in A5. rewrite exact_sites in A5.
      assert (exists vs, vertices_are cc (pg_points (fst g)) vs /\ map xyv vs = map rounded (map (at_index ccR) (pg_points (fst g))) /\ forall x, In x (map (at_index ccR) (pg_points (fst g))) -> true_source o x) as (vs & W1 & W2 & W3).
      { clear - A4 KP. induction (pg_points (fst g)) as [|i is IH]; [exists []; split; [constructor|]; split; [reflexivity|intros x []]|].
        destruct IH as (vs & W1 & W2 & W3); [intros j Hj; apply A4; right; exact Hj|]. destruct (A4 i (or_introl eq_refl)) as (x & K).
        destruct (KP i x K) as (y & Y & EY & _). pose proof (kept_at _ _ _ _ K) as EA. exists (y :: vs). inversion_clear Y as [|? ? ? ? Y1 _]. split; [constructor; assumption|].
        cbn [map]. rewrite W2, EA, EY. split; [reflexivity|]. intros x' [<-|Hx']; [|apply W3; exact Hx']. destruct K as (_ & _ & _ & K). exact K. }
      exists w1, w2, site', a', b', (map (at_index ccR) (pg_points (fst g))), vs. do 3 (split; [assumption|]). split; [exact W1|]. split; [exact W2|]. split; [exact W3|].
      rewrite <- map_rev. exact A5.
  Qed.
End Cells.
Lemma border_cells_exactly e m (tol : f64) fuel (o : trout F64) : -199 <= e <= 200 -> 0 <= m <= 16 -> tolerance64 tol ->
  triangulation (zlen (o_points o)) (map fst (o_edges o)) (o_tris o) -> Forall (gpm e m) (map read_point (o_points o)) -> delaunay_output64 o ->
  (forall v, In v (flat_map corners (o_tris o)) -> (exists ws ts, closed_fan (map fst (o_edges o)) (o_tris o) v ws ts) \/
     (exists w ws w' ts, open_fan (o_edges o) (o_tris o) v w ws w' ts)) -> (length (o_tris o) < fuel)%nat -> sources_apart64 tol o ->
  exists d mm, read_output (N := F64) tol o = Ok d /\ voronoi (N := F64) tol fuel d = Ok mm /\
    Forall2 (fun v (g : polygon F64) => forall w ws w' ts, open_fan (o_edges o) (o_tris o) v w ws w' ts ->
      exists w1 w2 site a b zs vs, (w1 = w /\ w2 = w' \/ w1 = w' /\ w2 = w) /\ (exists t, In t (o_tris o) /\ In (v, w1) (sides t)) /\
        vertices_are (map read_point (o_points o)) [v; w1; w2] [site; a; b] /\ vertices_are (ul_list (ms_points mm)) (pg_points g) vs /\
        map xyv vs = map rounded zs /\ (forall z, In z zs -> true_source o z) /\
        (gabriel_edge (sites64 o) (xyv site) (xyv a) -> gabriel_edge (sites64 o) (xyv site) (xyv b) -> convex_corner (xyv site) (xyv a) (xyv b) ->
         (forall s, In s (sites64 o) -> wedge (xyv site) (xyv a) (xyv b) s) ->
         (orient (xyv site) (xyv a) (xyv b) = 0 \/ 4 * val tol <= orient (xyv site) (xyv a) (xyv b))%R ->
         (strictly_convex zs \/ strictly_convex (rev zs)) /\
         forall x, in_hull zs x <-> voronoi_region (sites64 o) (xyv site) x /\ wedge (xyv site) (xyv a) (xyv b) x))
      (dedup (flat_map corners (o_tris o))) (ms_polygons mm).
Proof.
  intros He Hm Ht T G DL HF LF SA. destruct (output_read64 e m tol o ltac:(lia) Hm T G DL) as (d & RO). exists d.
  destruct (border_cells64 e He m Hm tol Ht o T G DL SA d RO HF fuel LF) as (mm & V & F). exists mm. auto.
Qed.
