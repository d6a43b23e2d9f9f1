(** Voronoi cells computed on doubles: their vertices are the rounded vertices of the true Voronoi cells. *)
From Coq Require Import Reals Lra Lia ZArith SpecFloat List Bool Permutation.
From Flocq Require Import Core BinarySingleNaN.
From Verif Require Import Base Spec MUtil MGeom MHull MPolygon MMaps MTriangle MGen MRegion MDelaunay MVoronoi Bridge BridgeNum BridgeVor64.
From Verif Require Import PUtil PPoint PFloat PGrid PGrid3 PGrid4 PGrid6 PCluster PCircum PPoly PPoly2 PTri PMore PContains PDelaunay PVoronoi PFan PVorGeo PVorCell PConvex PVorConvex PGrid7 PPipe64.
Import ListNotations.
Local Open Scope Z_scope.

Section Near.
  Variable tol : f64.
  Hypothesis Ht : tolerance64 tol.
  Notation PF := (Point F64).
  Definition usual (q : PF) : Prop := fin (px q) /\ fin (py q) /\ (Rabs (val (px q)) <= bpow radix2 1000)%R /\ (Rabs (val (py q)) <= bpow radix2 1000)%R.
  Lemma tol_pos : (0 < val tol)%R.
  Proof. destruct Ht as [_ H]. eapply Rlt_le_trans; [apply bpow_gt_0|exact H]. Qed.
  (** the computed test never takes points for close that are not *)
  Lemma close_value x y : fin x -> fin y -> (Rabs (val x) <= bpow radix2 1000)%R -> (Rabs (val y) <= bpow radix2 1000)%R ->
    @nltb F64 (@nabs F64 (@nsub F64 x y)) tol = Rltb (rnd (Rabs (val x - val y))) (val tol).
  Proof.
    intros Fx Fy Bx By. pose proof tol_pos as T. destruct Ht as [Ft _].
    assert (B : (Rabs (rnd (val x - val y)) < PFloat.big)%R).
    { assert (Rabs (val x - val y) <= bpow radix2 1001)%R.
      { change (bpow radix2 1001) with (bpow radix2 (1 + 1000)). rewrite bpow_plus. change (bpow radix2 1) with 2%R.
        pose proof (Rabs_triang (val x) (- val y)) as A. rewrite Rabs_Ropp in A. unfold Rminus. lra. }
      rewrite rnd_abs.
      apply Rle_lt_trans with (bpow radix2 1001).
      - unfold rnd. apply round_le_generic; [exact fexp64_valid|apply valid_rnd_N| |exact H]. apply generic_format_bpow. vm_compute. discriminate.
      - apply bpow_lt. lia. }
    destruct (sub_correct x y Fx Fy B) as [F1 V1]. destruct (abs_correct _ F1) as [F2 V2].
    rewrite (ltb_correct _ _ F2 Ft), V2, V1, rnd_abs. reflexivity.
  Qed.
  Lemma close_test x y : (Rltb (rnd (Rabs (x - y))) (val tol) = true -> (Rabs (x - y) < val tol)%R) /\
    (x = y -> Rltb (rnd (Rabs (x - y))) (val tol) = true).
  Proof.
    pose proof tol_pos as T. destruct Ht as [Ft _]. split.
    - destruct (Rltb_spec (rnd (Rabs (x - y))) (val tol)) as [H|H]; intros E; [|discriminate].
      apply Rnot_le_lt. intros C. apply rnd_mono in C. rewrite (rnd_val tol Ft) in C. lra.
    - intros ->. rewrite Rminus_diag_eq, Rabs_R0 by reflexivity. unfold rnd. rewrite round_0 by apply valid_rnd_N.
      destruct (Rltb_spec 0 (val tol)); [reflexivity|lra].
  Qed.
  Lemma incomparable_near a b : usual a -> usual b -> incomparable (pt_ltb (N := F64) tol) a b -> near64 tol a b.
  Proof.
    intros (Fx & Fy & Bx & By) (Gx & Gy & Cx & Cy) [H1 H2]. unfold pt_ltb in H1, H2.
    rewrite !close_value, (ltb_correct (px a) (px b) Fx Gx), (ltb_correct (py a) (py b) Fy Gy) in H1 by assumption.
    rewrite !close_value, (ltb_correct (px b) (px a) Gx Fx), (ltb_correct (py b) (py a) Gy Fy) in H2 by assumption.
    rewrite (Rabs_minus_sym (val (px b))), (Rabs_minus_sym (val (py b))) in H2.
    destruct (close_test (val (px a)) (val (px b))) as [X1 X2]. destruct (close_test (val (py a)) (val (py b))) as [Y1 Y2].
    assert (X : Rltb (rnd (Rabs (val (px a) - val (px b)))) (val tol) = true).
    { destruct (Rltb (rnd (Rabs (val (px a) - val (px b)))) (val tol)); [reflexivity|]. apply X2.
      destruct (Rltb_spec (val (px a)) (val (px b))); [discriminate|]. destruct (Rltb_spec (val (px b)) (val (px a))); [discriminate|]. lra. }
    rewrite X in H1, H2. split; [exact (X1 X)|]. apply Y1.
    destruct (Rltb (rnd (Rabs (val (py a) - val (py b)))) (val tol)); [reflexivity|]. apply Y2.
    destruct (Rltb_spec (val (py a)) (val (py b))); [discriminate|]. destruct (Rltb_spec (val (py b)) (val (py a))); [discriminate|]. lra.
  Qed.
  (** equal values are never told apart *)
  Lemma same_incomparable a b : usual a -> usual b -> xyv a = xyv b -> incomparable (pt_ltb (N := F64) tol) a b.
  Proof.
    intros (Fx & Fy & Bx & By) (Gx & Gy & Cx & Cy) E. unfold xyv in E. injection E as E1 E2.
    unfold incomparable, pt_ltb. rewrite !close_value by assumption. rewrite E1, E2.
    rewrite (proj2 (close_test (val (px b)) (val (px b))) eq_refl), (proj2 (close_test (val (py b)) (val (py b))) eq_refl). auto.
  Qed.
End Near.

(** * The exact reading of an output *)
Lemma vertex_in {N : Num} (mp : list (Point N)) is vs q : vertices_are mp is vs -> In q vs -> In q mp.
Proof. induction 1 as [|i v is vs [_ H] _ IH]; [intros []|]. intros [<-|Hq]; [eapply nth_error_In; exact H|auto]. Qed.
Definition exact_output (o : trout F64) : trout RNum :=
  mkTrout (N := RNum) (map (fun q : f64 * f64 * Z => (val (fst (fst q)), val (snd (fst q)), snd q)) (o_points o)) (o_edges o) (o_tris o).
Lemma exact_points (o : trout F64) : map read_point (o_points (exact_output o)) = map real_point (map read_point (o_points o)).
Proof.
  cbn [o_points exact_output]. rewrite !map_map. apply map_ext. intros [[x y] k]. unfold read_point. cbn [fst snd].
  destruct (k =? 1); reflexivity.
Qed.
Lemma real_xy q : xy (real_point q) = xyv q.
Proof. reflexivity. Qed.
Lemma exact_sites (o : trout F64) : map xy (map read_point (o_points (exact_output o))) = sites64 o.
Proof. rewrite exact_points, map_map. reflexivity. Qed.
Lemma real_vertices (mp : list (Point F64)) is vs : vertices_are mp is vs -> vertices_are (map real_point mp) is (map real_point vs).
Proof. induction 1 as [|i v is vs [H1 H2] _ IH]; cbn [map]; constructor; [|exact IH]. split; [exact H1|]. exact (map_nth_error _ _ _ H2). Qed.
Lemma vertices_real (mp : list (Point F64)) is ws : vertices_are (map real_point mp) is ws -> exists vs, vertices_are mp is vs /\ ws = map real_point vs.
Proof.
  induction 1 as [|i w is ws [H1 H2] _ (vs & IH & ->)]; [exists []; split; [constructor|reflexivity]|].
  rewrite nth_error_map in H2. destruct (nth_error mp (Z.to_nat i)) as [v|] eqn:E; [|discriminate]. injection H2 as <-.
  exists (v :: vs). split; [constructor; auto|reflexivity].
Qed.
Lemma exact_delaunay (o : trout F64) : delaunay_output64 o -> delaunay_output (exact_output o).
Proof.
  intros [H D]. split; [|exact D]. intros t A B C Ht V. rewrite exact_points in V. apply vertices_real in V as (vs & V & E).
  unfold output_sites. rewrite exact_sites. destruct vs as [|A' [|B' [|C' [|? ?]]]]; try discriminate. injection E as -> -> ->. exact (H t A' B' C' Ht V).
Qed.
Lemma exact_triangulation (o : trout F64) : triangulation (zlen (o_points o)) (map fst (o_edges o)) (o_tris o) ->
  triangulation (zlen (o_points (exact_output o))) (map fst (o_edges (exact_output o))) (o_tris (exact_output o)).
Proof. cbn [o_points o_edges o_tris exact_output]. unfold zlen. rewrite map_length. auto. Qed.

Lemma choose_list {A} n (P : nat -> A -> Prop) : (forall i, (i < n)%nat -> exists a, P i a) -> exists l, length l = n /\ forall i a, nth_error l i = Some a -> P i a.
Proof.
  induction n as [|n IH]; intros H; [exists []; split; [reflexivity|]; intros [|i] a E; discriminate|].
  destruct IH as (l & L & K); [intros i Hi; apply H; lia|]. destruct (H n) as (a & Ha); [lia|]. exists (l ++ [a]). split; [rewrite app_length; cbn; lia|].
  intros i b E. destruct (Nat.lt_ge_cases i n) as [LT|GE].
  - rewrite nth_error_app1 in E by lia. exact (K i b E).
  - rewrite nth_error_app2 in E by lia. destruct (i - length l)%nat as [|j] eqn:Ej; [|destruct j; discriminate]. injection E as <-. replace i with n by lia. exact Ha.
Qed.

Section Cells.
  Variable e : Z.
  Hypothesis He : -200 <= e <= 200.
  Variable m : Z.
  Hypothesis Hm : 0 <= m <= 16.
  Variable tol : f64.
  Hypothesis Ht : tolerance64 tol.
  Variable o : trout F64.
  Hypothesis T : triangulation (zlen (o_points o)) (map fst (o_edges o)) (o_tris o).
  Hypothesis G : Forall (gpm e m) (map read_point (o_points o)).
  Hypothesis DL : delaunay_output64 o.
  Notation oR := (exact_output o).

  (** computed, exact and true centers *)
  Lemma center_rounds k c : center_of o k c -> exists cR, center_of oR k cR /\ true_center o k (xy cR) /\ xyv c = rounded (xy cR) /\ usual c.
  Proof.
    intros (t & A & B & C & H1 & H2 & H3).
    assert (GG : forall q, In q [A; B; C] -> gpm e m q).
    { intros q Hq. rewrite Forall_forall in G. apply G. exact (vertex_in _ _ _ q H2 Hq). }
    assert (OR : (0 < orient (xyv A) (xyv B) (xyv C))%R) by (apply (proj1 DL t); [eapply nth_error_In; exact H1|exact H2]).
    destruct (circumcenter_rounded e He m Hm A B C) as (c' & z & E & D1 & D2 & U & F1 & F2 & R & B1 & B2); try (apply GG; cbn; tauto); [lra|].
    rewrite H3 in E. injection E as <-.
    destruct (proj1 (circumcenter_correct (real_point A) (real_point B) (real_point C))) as (cR & ER & D1' & D2' & _); [rewrite !real_xy; lra|].
    rewrite !real_xy in D1', D2'. assert (EZ : xy cR = z) by (apply U; assumption). exists cR. split; [|split; [|split]].
    - exists t, (real_point A), (real_point B), (real_point C). split; [exact H1|]. split; [|exact ER]. rewrite exact_points. exact (real_vertices _ _ _ H2).
    - exists t, A, B, C. auto.
    - rewrite EZ. exact R.
    - unfold xyv in R. injection R as R1 R2. split; [exact F1|]. split; [exact F2|]. rewrite R1, R2.
      assert (bpow radix2 (52 + e) <= bpow radix2 1000)%R as LE by (apply bpow_le; lia).
      rewrite !nearest_rnd, !rnd_abs.
      assert (K : forall r, (Rabs r <= bpow radix2 (52 + e) -> rnd (Rabs r) <= bpow radix2 1000)%R); [|split; apply K; assumption].
      intros r Hr. unfold rnd. apply round_le_generic; [exact fexp64_valid|apply valid_rnd_N| |lra]. apply generic_format_bpow. vm_compute. discriminate.
  Qed.

  Variable d : delaunay F64.
  Hypothesis RO : read_output (N := F64) tol o = Ok d.
  Lemma stored_usual y : In y (ul_list (dl_circumcenters d)) -> exists k, center_of o k y /\ usual y.
  Proof.
    intros Hy. destruct (stored_centers (N := F64) tol o d T RO y Hy) as (k & Hk). exists k. split; [exact Hk|].
    destruct (center_rounds k y Hk) as (_ & _ & _ & _ & U). exact U.
  Qed.
  Hypothesis HF : forall v, In v (flat_map corners (o_tris o)) -> (exists ws ts, closed_fan (map fst (o_edges o)) (o_tris o) v ws ts) \/
    (exists w ws w' ts, open_fan (o_edges o) (o_tris o) v w ws w' ts).
  Variable fuel : nat.
  Hypothesis LF : (length (o_tris o) < fuel)%nat.

  Lemma cells_built : exists mm ci gs, voronoi (N := F64) tol fuel d = Ok mm /\ map fst gs = ms_polygons mm /\
    (forall k t, nth_error (o_tris o) k = Some t -> exists c y cR k', center_of o k c /\ center_of oR k cR /\ center_of o k' y /\
       vertices_are (ul_list (dl_circumcenters d)) [ci k] [y] /\ vertices_are (ul_list (ms_points mm)) [ci k] [y] /\
       xyv c = rounded (xy cR) /\ near64 tol y c /\ usual y) /\
    Forall2 (fun v gs => forall ws ts, closed_fan (map fst (o_edges o)) (o_tris o) v ws ts -> inner_cell ci ts (pg_points (fst gs)) (snd gs))
      (dedup (flat_map corners (o_tris o))) gs.
  Proof.
    destruct (voronoi_built (N := F64) tol fuel o d T RO HF LF) as (mm & ci & gs & V & C & X & E & _ & F).
    exists mm, ci, gs. split; [exact V|]. split; [exact E|]. split.
    - intros k t Hk. destruct (C k t Hk) as (A & B & C0 & c & H1 & H2 & (y & Y & S0)).
      assert (CO : center_of o k c) by (exists t, A, B, C0; auto). destruct (center_rounds k c CO) as (cR & K1 & _ & K3 & K4).
      assert (IY : In y (ul_list (dl_circumcenters d))) by (inversion_clear Y as [|? ? ? ? [_ Y1] _]; eapply nth_error_In; exact Y1).
      destruct (stored_usual y IY) as (k' & Hk' & U). exists c, y, cR, k'.
      split; [exact CO|]. split; [exact K1|]. split; [exact Hk'|]. split; [exact Y|]. split; [exact (ext_located _ _ _ _ X Y)|]. split; [exact K3|]. split; [|exact U].
      destruct S0 as [->|S0]; [|exact (incomparable_near tol Ht y c U K4 S0)].
      pose proof (tol_pos tol Ht). unfold near64, coincide. rewrite !Rminus_diag_eq, !Rabs_R0 by reflexivity. auto.
    - eapply Forall2_weaken; [|exact F]. intros v g [H _]. exact H.
  Qed.

  (** the cells, without any assumption on how close their vertices are *)
  Lemma inner_cells64 : exists mm, voronoi (N := F64) tol fuel d = Ok mm /\
    Forall2 (fun v (g : polygon F64) => forall ws ts, closed_fan (map fst (o_edges o)) (o_tris o) v ws ts ->
      exists site zs vs, vertices_are (map read_point (o_points o)) [v] [site] /\ vertices_are (ul_list (ms_points mm)) (pg_points g) vs /\
        (forall x, voronoi_region (sites64 o) (xyv site) x <-> in_hull zs x) /\
        (forall z, In z zs -> exists q, In q vs /\ rounds_near tol q z) /\ (forall q, In q vs -> exists z, In z zs /\ rounds_near tol q z))
      (dedup (flat_map corners (o_tris o))) (ms_polygons mm).
  Proof.
    destruct cells_built as (mm & ci & gs & V & E & CI & F). exists mm. split; [exact V|]. rewrite <- E. apply Forall2_map_right.
    eapply Forall2_weaken; [|exact F]. intros v g H ws ts HC. specialize (H ws ts HC).
    destruct (exact_delaunay o DL) as [DT DO]. unfold output_sites in DT.
    destruct (inner_region oR (exact_triangulation o T) DO DT (fun p z => coincide (val tol) p (rounded z)) (map real_point (ul_list (ms_points mm))) ci) with (v := v) (ws := ws) (ts := ts) (pts := pg_points (fst g)) (segs := snd g)
      as (site & zs & vs & S1 & S2 & S3 & S4 & S5); [|exact HC|exact H|].
    { intros k t Hk. destruct (CI k t Hk) as (c & y & cR & k' & C1 & C2 & C3 & C4 & C5 & C6 & C7 & C8). exists cR, (real_point y).
      split; [exact C2|]. split; [exact (real_vertices _ _ _ C5)|]. rewrite real_xy, <- C6. exact C7. }
    rewrite exact_points in S1. apply vertices_real in S1 as (ss & S1 & ES). destruct ss as [|site' [|? ?]]; try discriminate. injection ES as ->.
    apply vertices_real in S2 as (vs' & S2 & ->). exists site', zs, vs'. split; [exact S1|]. split; [exact S2|]. split; [|split].
    - intros x. rewrite <- exact_sites, <- real_xy. apply S3.
    - intros z Hz. destruct (S4 z Hz) as (p & Hp & HQ). rewrite map_map in Hp. apply in_map_iff in Hp as (q & <- & Hq). exists q. split; [exact Hq|exact HQ].
    - intros q Hq. destruct (S5 (xyv q)) as (z & Hz & HQ); [rewrite map_map; apply (in_map (fun x => xy (real_point x)) vs' q Hq)|]. exists z. split; [exact Hz|exact HQ].
  Qed.

  Lemma center_true k c cR : center_of o k c -> center_of oR k cR -> true_center o k (xy cR) /\ xyv c = rounded (xy cR) /\ usual c.
  Proof. intros H HR. destruct (center_rounds k c H) as (cR' & K1 & K2 & K3 & K4). rewrite (center_det oR k cR cR' HR K1). auto. Qed.
  Lemma true_unique k z cR c : center_of o k c -> center_of oR k cR -> true_center o k z -> z = xy cR.
  Proof.
    intros H (t & A & B & C & H1 & H2 & H3) (t' & A' & B' & C' & H1' & H2' & D1 & D2). cbn [o_tris exact_output] in H1. rewrite H1' in H1. injection H1 as <-.
    pose proof (real_vertices _ _ _ H2') as H4. rewrite <- exact_points in H4. cbn [map] in H4. pose proof (located_det _ _ _ _ H4 H2) as E. injection E as <- <- <-.
    assert (OR : (0 < orient (xyv A') (xyv B') (xyv C'))%R) by (apply (proj1 DL t'); [eapply nth_error_In; exact H1'|exact H2']).
    destruct (proj1 (circumcenter_correct (real_point A') (real_point B') (real_point C'))) as (c' & E & _ & _ & U & _); [rewrite !real_xy; lra|].
    rewrite H3 in E. injection E as <-. apply U; rewrite !real_xy; assumption.
  Qed.

  Hypothesis AP : vertices_apart tol o.
  Hypothesis SO : vertices_stored_once tol o.
  Lemma inner_cells64_exactly : exists mm, voronoi (N := F64) tol fuel d = Ok mm /\
    Forall2 (fun v (g : polygon F64) => forall ws ts, closed_fan (map fst (o_edges o)) (o_tris o) v ws ts ->
      exists site zs vs, vertices_are (map read_point (o_points o)) [v] [site] /\ vertices_are (ul_list (ms_points mm)) (pg_points g) vs /\
        (strictly_convex zs \/ strictly_convex (rev zs)) /\ (forall x, voronoi_region (sites64 o) (xyv site) x <-> in_hull zs x) /\
        map xyv vs = map rounded zs)
      (dedup (flat_map corners (o_tris o))) (ms_polygons mm).
  Proof.
    destruct cells_built as (mm & ci & gs & V & E & CI & F). exists mm. split; [exact V|]. rewrite <- E. apply Forall2_map_right.
    eapply Forall2_weaken; [|exact F]. intros v g H ws ts HC. specialize (H ws ts HC).
    destruct (exact_delaunay o DL) as [DT DO]. unfold output_sites in DT.
    set (cc := ul_list (ms_points mm)) in *.
    (* the stored double and the true vertex of each triangle *)
    assert (ST : forall k t, nth_error (o_tris o) k = Some t -> exists y cR, center_of oR k cR /\ vertices_are cc [ci k] [y] /\ xyv y = rounded (xy cR) /\
      exists k' cR', center_of o k' y /\ center_of oR k' cR' /\ xy cR' = xy cR).
    { intros k t Hk. destruct (CI k t Hk) as (c & y & cR & k' & C1 & C2 & C3 & C4 & C5 & C6 & C7 & C8). exists y, cR.
      destruct (center_rounds k' y C3) as (cR' & K1 & K2 & K3 & K4). destruct (center_true k c cR C1 C2) as (K5 & _ & _).
      assert (EQ : xy cR' = xy cR) by (apply (AP k' k _ _ K2 K5); rewrite <- K3, <- C6; exact C7).
      split; [exact C2|]. split; [exact C5|]. split; [rewrite <- EQ; exact K3|]. exists k', cR'. auto. }
    destruct (choose_list (length cc) (fun i (p : Point RNum) => forall k t cR, nth_error (o_tris o) k = Some t -> Z.to_nat (ci k) = i -> center_of oR k cR -> xy p = xy cR)) as (ccR & LR & HR).
    { intros i Hi. destruct (Classical_Prop.classic (exists k t, nth_error (o_tris o) k = Some t /\ Z.to_nat (ci k) = i)) as [(k & t & Hk & EI)|N].
      - destruct (ST k t Hk) as (y & cR & C1 & Y & _ & k' & cR' & K1 & K2 & EQ). exists cR. intros k2 t2 cR2 Hk2 EI2 C2.
        destruct (ST k2 t2 Hk2) as (y2 & cR2' & C1' & Y2 & _ & k2' & cR2'' & K1' & K2' & EQ2). rewrite (center_det oR k2 cR2 cR2' C2 C1'), <- EQ, <- EQ2.
        assert (EY : y = y2). { inversion_clear Y as [|? ? ? ? [_ Y1] _]. inversion_clear Y2 as [|? ? ? ? [_ Y1'] _]. rewrite EI2, <- EI in Y1'. rewrite Y1 in Y1'. congruence. }
        subst y2. destruct (center_true k' y cR' K1 K2) as (T1 & R1 & _), (center_true k2' y cR2'' K1' K2') as (T2 & R2 & _).
        apply (AP k' k2' _ _ T1 T2). rewrite <- R1, <- R2. pose proof (tol_pos tol Ht). unfold coincide. rewrite !Rminus_diag_eq, !Rabs_R0 by reflexivity. auto.
      - exists (point0 (N := RNum)). intros k t cR Hk EI. exfalso. apply N. exists k, t. auto. }
    assert (CIR : forall k t, nth_error (o_tris oR) k = Some t -> exists c y, center_of oR k c /\ vertices_are ccR [ci k] [y] /\ xy y = xy c).
    { intros k t Hk. destruct (ST k t Hk) as (y & cR & C1 & Y & _). exists cR. inversion_clear Y as [|? ? ? ? [Y0 Y1] _].
      destruct (nth_get ccR (Z.to_nat (ci k))) as (p & Hp); [rewrite LR; apply nth_error_Some; congruence|]. exists p. split; [exact C1|].
      split; [constructor; [split; [exact Y0|exact Hp]|constructor]|]. exact (HR _ _ Hp k t cR Hk eq_refl C1). }
    assert (ON : forall k k' c c', center_of oR k c -> center_of oR k' c' -> xy c = xy c' -> ci k = ci k').
    { intros k k' c c' C1 C2 EQ. pose proof C1 as (t & _ & _ & _ & Hk & _). pose proof C2 as (t' & _ & _ & _ & Hk' & _). cbn [o_tris exact_output] in Hk, Hk'.
      destruct (CI k t Hk) as (d1 & y & cR & j & A1 & A2 & A3 & A4 & A5 & A6 & A7 & A8). destruct (CI k' t' Hk') as (d2 & y' & cR' & j' & B1 & B2 & B3 & B4 & B5 & B6 & B7 & B8).
      rewrite (center_det oR k c cR C1 A2), (center_det oR k' c' cR' C2 B2) in EQ.
      destruct (center_true k d1 cR A1 A2) as (T1 & R1 & U1), (center_true k' d2 cR' B1 B2) as (T2 & R2 & U2).
      destruct SO as [CL|SO']; [|rewrite <- EQ in T2; rewrite (SO' k k' _ T1 T2); reflexivity].
      assert (IV : ul_inv (fun c => exists k, center_of o k c) (pt_ltb (N := F64) tol) (dl_circumcenters d)).
      { apply (stored_inv (N := F64) tol o d); auto; [apply clustered_swo; assumption|]. intros k0 c0 Hc. exists k0. exact Hc. }
      inversion_clear A4 as [|? ? ? ? [P1 Y1] _]. inversion_clear B4 as [|? ? ? ? [P2 Y2] _].
      assert (EI : Z.to_nat (ci k) = Z.to_nat (ci k')); [|lia]. apply (ul_inv_distinct _ _ _ _ _ _ _ IV Y1 Y2).
      destruct (center_rounds j y A3) as (z & Z1 & Z2 & Z3 & _). destruct (center_rounds j' y' B3) as (z' & Z1' & Z2' & Z3' & _).
      apply same_incomparable; [exact Ht|exact A8|exact B8|]. rewrite Z3, Z3'. f_equal.
      rewrite (AP j k (xy z) (xy cR) Z2 T1); [|rewrite <- Z3, <- R1; exact A7]. rewrite (AP j' k' (xy z') (xy cR') Z2' T2); [exact EQ|rewrite <- Z3', <- R2; exact B7]. }
    destruct (inner_region oR (exact_triangulation o T) DO DT eq ccR ci CIR v ws ts (pg_points (fst g)) (snd g) HC H) as (site & cs & us & S1 & S2 & S3 & S4 & S5).
    destruct (inner_convex oR (exact_triangulation o T) DO DT ccR ci CIR ON v ws ts (pg_points (fst g)) (snd g) HC H) as [CV _].
    rewrite exact_points in S1. apply vertices_real in S1 as (ss & S1 & ES). destruct ss as [|site' [|? ?]]; try discriminate. injection ES as ->.
    assert (PI : forall i, In i (pg_points (fst g)) -> exists k t, nth_error (o_tris o) k = Some t /\ i = ci k).
    { destruct H as (l & TU & PT & _). intros i Hi. assert (Hl : In i (map ci l)) by (destruct PT as [PT|PT]; rewrite PT in Hi; rewrite <- ?in_rev, dedup_in in Hi; exact Hi).
      apply in_map_iff in Hl as (k & <- & Hk). apply (turned_in _ _ _ TU) in Hk. destruct HC as (w & ws' & -> & SEC & _). clear - SEC Hk.
      induction SEC as [w0|w0 w1 ws0 j ts0 t H1 H2 H3 H4 _ IH]; [destruct Hk|]. destruct Hk as [<-|Hk]; [exists j, t; auto|auto]. }
    assert (exists vs, vertices_are cc (pg_points (fst g)) vs /\ map xyv vs = map rounded (map (at_index ccR) (pg_points (fst g)))) as (vs & W1 & W2).
    { clear - PI ST CIR. induction (pg_points (fst g)) as [|i is IH]; [exists []; split; [constructor|reflexivity]|].
      destruct IH as (vs & W1 & W2); [intros j Hj; apply PI; right; exact Hj|]. destruct (PI i (or_introl eq_refl)) as (k & t & Hk & ->).
      destruct (ST k t Hk) as (y & cR & C1 & Y & R & _). destruct (CIR k t Hk) as (cR' & p & C1' & Y' & R'). exists (y :: vs).
      inversion_clear Y as [|? ? ? ? Y1 _]. split; [constructor; assumption|]. cbn [map]. rewrite W2, (at_index_ok _ _ _ Y'), R', R.
      rewrite (center_det oR k cR cR' C1 C1'). reflexivity. }
    exists site', (map (at_index ccR) (pg_points (fst g))), vs. split; [exact S1|]. split; [exact W1|].
    split; [rewrite <- map_rev; exact CV|]. split; [|exact W2].
    intros x. rewrite <- exact_sites, <- real_xy, S3. rewrite <- (at_index_map _ _ _ S2). split; apply hull_mono; intros z Hz.
    - destruct (S4 z Hz) as (p & Hp & <-). exact Hp.
    - destruct (S5 z Hz) as (c & Hc & ->). exact Hc.
  Qed.
End Cells.

(** * From the output to the cells *)
Lemma output_read64 e m tol (o : trout F64) : -200 <= e <= 200 -> 0 <= m <= 16 ->
  triangulation (zlen (o_points o)) (map fst (o_edges o)) (o_tris o) -> Forall (gpm e m) (map read_point (o_points o)) -> delaunay_output64 o ->
  exists d, read_output (N := F64) tol o = Ok d.
Proof.
  intros He Hm T G DL. apply (output_doubles e He); [exact T| |].
  - eapply Forall_impl; [|exact G]. intros q. apply gpm_gp. lia.
  - intros t A B C Ht V. pose proof (proj1 (proj1 DL t A B C Ht V)). lra.
Qed.
Lemma inner_cells_near e m (tol : f64) fuel (o : trout F64) : -200 <= e <= 200 -> 0 <= m <= 16 -> tolerance64 tol ->
  triangulation (zlen (o_points o)) (map fst (o_edges o)) (o_tris o) -> Forall (gpm e m) (map read_point (o_points o)) -> delaunay_output64 o ->
  (forall v, In v (flat_map corners (o_tris o)) -> (exists ws ts, closed_fan (map fst (o_edges o)) (o_tris o) v ws ts) \/
     (exists w ws w' ts, open_fan (o_edges o) (o_tris o) v w ws w' ts)) -> (length (o_tris o) < fuel)%nat ->
  exists d mm, read_output (N := F64) tol o = Ok d /\ voronoi (N := F64) tol fuel d = Ok mm /\
    Forall2 (fun v (g : polygon F64) => forall ws ts, closed_fan (map fst (o_edges o)) (o_tris o) v ws ts ->
      exists site zs vs, vertices_are (map read_point (o_points o)) [v] [site] /\ vertices_are (ul_list (ms_points mm)) (pg_points g) vs /\
        (forall x, voronoi_region (sites64 o) (xyv site) x <-> in_hull zs x) /\
        (forall z, In z zs -> exists q, In q vs /\ rounds_near tol q z) /\ (forall q, In q vs -> exists z, In z zs /\ rounds_near tol q z))
      (dedup (flat_map corners (o_tris o))) (ms_polygons mm).
Proof.
  intros He Hm Ht T G DL HF LF. destruct (output_read64 e m tol o He Hm T G DL) as (d & RO). exists d.
  destruct (inner_cells64 e He m Hm tol Ht o T G DL d RO HF fuel LF) as (mm & V & F). exists mm. auto.
Qed.
Lemma inner_cells_exactly e m (tol : f64) fuel (o : trout F64) : -200 <= e <= 200 -> 0 <= m <= 16 -> tolerance64 tol ->
  triangulation (zlen (o_points o)) (map fst (o_edges o)) (o_tris o) -> Forall (gpm e m) (map read_point (o_points o)) -> delaunay_output64 o ->
  (forall v, In v (flat_map corners (o_tris o)) -> (exists ws ts, closed_fan (map fst (o_edges o)) (o_tris o) v ws ts) \/
     (exists w ws w' ts, open_fan (o_edges o) (o_tris o) v w ws w' ts)) -> (length (o_tris o) < fuel)%nat ->
  vertices_apart tol o -> vertices_stored_once tol o ->
  exists d mm, read_output (N := F64) tol o = Ok d /\ voronoi (N := F64) tol fuel d = Ok mm /\
    Forall2 (fun v (g : polygon F64) => forall ws ts, closed_fan (map fst (o_edges o)) (o_tris o) v ws ts ->
      exists site zs vs, vertices_are (map read_point (o_points o)) [v] [site] /\ vertices_are (ul_list (ms_points mm)) (pg_points g) vs /\
        (strictly_convex zs \/ strictly_convex (rev zs)) /\ (forall x, voronoi_region (sites64 o) (xyv site) x <-> in_hull zs x) /\
        map xyv vs = map rounded zs)
      (dedup (flat_map corners (o_tris o))) (ms_polygons mm).
Proof.
  intros He Hm Ht T G DL HF LF AP SO. destruct (output_read64 e m tol o He Hm T G DL) as (d & RO). exists d.
  destruct (inner_cells64_exactly e He m Hm tol Ht o T G DL d RO HF fuel LF AP SO) as (mm & V & F). exists mm. auto.
Qed.
