(** Areas, orientation and Voronoi diagrams of doubles on no particular grid. *)
From Coq Require Import Reals Lra Psatz Lia ZArith SpecFloat List Bool.
From Flocq Require Import Core.
From Verif Require Import Base Spec MUtil MGeom MHull MPolygon MMaps MTriangle MGen MRegion MDelaunay MVoronoi Bridge BridgeNum BridgeVor64 BridgeErr.
From Verif Require Import PUtil PPoint PFloat PPoly PPoly2 PTri PDelaunay PVoronoi PFan PVorConvex PVorBorder PVorCell PCluster PGrid PGrid2 PGrid3 PGrid5 PGen64 PVor64 PVor64b PErr PErr2 PErr3.
Import ListNotations.
Local Open Scope R_scope.

Lemma len20 {A} (l : list A) : (zlen l <= 2 ^ 20)%Z -> (length l <= 2 ^ 20)%nat.
Proof. intros L. apply Nat2Z.inj_le. rewrite Nat2Z.inj_pow. exact L. Qed.
Lemma inr_zlen {A} (l : list A) : INR (length l) = IZR (zlen l).
Proof. unfold zlen. apply INR_IZR_INZ. Qed.

Section Any.
  Variable M : R.
  Hypothesis SM : scale M.

  Lemma all_within_vertices p idx vs : vertices_are p idx vs -> Forall (within M) vs -> all_within M p idx.
  Proof.
    unfold vertices_are. intros V F k q K E. apply vget_ok in E. destruct E as [E0 E]. revert F. induction V as [|k' v' idx' vs' [H1 H2] V IH]; intros F; [destruct K|].
    inversion F; subst. destruct K as [->|K]; [|auto]. rewrite E in H2. injection H2 as ->. assumption.
  Qed.
  Lemma area_any p idx vs : vertices_are p idx vs -> Forall (within M) vs -> (zlen idx <= 2 ^ 20)%Z ->
    exists a, geo_area (N := F64) p idx = Ok a /\ fin a /\ Rabs (val a - shoelace (map xyv vs)) <= 64 * (IZR (zlen idx) * IZR (zlen idx)) * u53 * (M * M).
  Proof.
    intros V F L. pose proof (geo_area_app M SM p idx (all_within_vertices _ _ _ V F) (len20 _ L)) as R0.
    rewrite (geo_area_shoelace _ _ _ (real_vertices _ _ _ V)), <- map_xyv, inr_zlen in R0. apply rel_ok_r in R0 as (a & E & F1 & B). exists a. auto.
  Qed.
  Lemma clockwise_any p idx vs : vertices_are p idx vs -> Forall (within M) vs -> idx <> [] -> (zlen idx <= 2 ^ 20)%Z ->
    12 * (IZR (zlen idx) * IZR (zlen idx)) * u53 * (M * M) < Rabs (shoelace (map xyv vs)) ->
    exists b, isClockwise (N := F64) idx p = Ok b /\ (b = true <-> shoelace (map xyv vs) < 0).
  Proof.
    intros V F Ne L S. pose proof (cwsum_app M SM p idx (all_within_vertices _ _ _ V F) (len20 _ L) Ne) as R0.
    rewrite (cwsum_real _ _ _ (real_vertices _ _ _ V) Ne), <- map_xyv, inr_zlen in R0. apply rel_ok_r in R0 as (s & E & A).
    rewrite cwsum_ok, E. cbn [bind]. eexists. split; [reflexivity|]. set (n := IZR (zlen idx)) in *. set (h := shoelace (map xyv vs)) in *.
    destruct A as (Fs & _ & D). destruct (ofZ_correct 0) as [F0 V0]; [lia|]. change (@nZ F64 0) with (F64_ofZ 0).
    rewrite ltb_correct, V0 by assumption. unfold u53 in S.
    pose proof Ep as PE. pose proof (M_pos M SM) as MP. assert (0 <= n) by (apply (IZR_le 0); unfold zlen; lia).
    assert (0 <= n * n * bpow radix2 (-53) * (M * M)) by (repeat apply Rmult_le_pos; lra).
    assert (D' : Rabs (val s - -2 * h) < 2 * Rabs h) by lra. apply Rabs_def2 in D' as [D1 D2].
    destruct (Rle_or_lt 0 h) as [Hh|Hh]; [rewrite Rabs_pos_eq in * by assumption|rewrite Rabs_left in * by assumption].
    - split; intros X; [apply Rltb_iff in X|]; lra.
    - split; intros X; [lra|apply Rltb_iff; lra].
  Qed.
  Lemma fixCCW_any (g : polygon F64) p vs : vertices_are p (pg_points g) vs -> Forall (within M) vs -> pg_points g <> [] -> (zlen (pg_points g) <= 2 ^ 20)%Z ->
    12 * (IZR (zlen (pg_points g)) * IZR (zlen (pg_points g))) * u53 * (M * M) < Rabs (shoelace (map xyv vs)) ->
    exists g' vs', fixCCW (N := F64) g p = Ok g' /\ vertices_are p (pg_points g') vs' /\
      (shoelace (map xyv vs) < 0 /\ pg_points g' = rev (pg_points g) /\ vs' = rev vs \/ 0 < shoelace (map xyv vs) /\ g' = g /\ vs' = vs) /\
      0 < shoelace (map xyv vs').
  Proof.
    intros V F Ne L S. destruct (clockwise_any p _ vs V F Ne L S) as (b & E & Hb). unfold fixCCW. rewrite E. cbn [bind].
    assert (N0 : shoelace (map xyv vs) <> 0).
    { intros X. rewrite X, Rabs_R0 in S. pose proof Ep. pose proof (M_pos M SM). unfold u53 in S.
      assert (0 <= IZR (zlen (pg_points g))) by (apply (IZR_le 0); unfold zlen; lia).
      assert (0 <= 12 * (IZR (zlen (pg_points g)) * IZR (zlen (pg_points g))) * bpow radix2 (-53) * (M * M)) by (repeat apply Rmult_le_pos; lra). lra. }
    destruct b.
    - pose proof (proj1 Hb eq_refl) as K. eexists. exists (rev vs). split; [reflexivity|]. cbn [pg_points]. split; [apply vertices_rev, V|]. split; [left; auto|].
      rewrite map_rev, shoelace_rev. lra.
    - assert (K : ~ shoelace (map xyv vs) < 0) by (intros K; apply Hb in K; discriminate). exists g, vs. split; [reflexivity|]. split; [exact V|]. split; [right; repeat split; lra|lra].
  Qed.

  Variable o : trout F64.
  Hypothesis W : Forall (within M) (map read_point (o_points o)).
  Hypothesis T : triangulation (zlen (o_points o)) (map fst (o_edges o)) (o_tris o).
  Hypothesis NT : forall t A B C, In t (o_tris o) -> vertices_are (map read_point (o_points o)) (corners t) [A; B; C] -> not_thin M (xyv A) (xyv B) (xyv C).

  Lemma in_within idx vs : vertices_are (map read_point (o_points o)) idx vs -> Forall (within M) vs.
  Proof.
    intros V. apply Forall_forall. intros q Hq. rewrite Forall_forall in W. apply W. apply (vertex_in _ _ _ _ V Hq).
  Qed.
  Lemma read_any tol : exists d, read_output (N := F64) tol o = Ok d.
  Proof.
    apply read_output_total_on; [exact T|]. intros t A B C Ht V. pose proof (in_within _ _ V) as F.
    inversion_clear F as [|? ? F1 F']. inversion_clear F' as [|? ? F2 F'']. inversion_clear F'' as [|? ? F3 _].
    destruct (circumcenter_any M SM A B C F1 F2 F3 (NT t A B C Ht V)) as (c & z & E & _). exists c. exact E.
  Qed.

  Lemma diagram_any tol fuel : tolerance64 tol -> clustered tol (vertex_source o) ->
    (forall v, In v (flat_map corners (o_tris o)) -> (exists ws ts, closed_fan (map fst (o_edges o)) (o_tris o) v ws ts) \/
      (exists w ws w' ts, open_fan (o_edges o) (o_tris o) v w ws w' ts)) ->
    (length (o_tris o) < fuel)%nat ->
    exists d m ci, read_output (N := F64) tol o = Ok d /\ voronoi (N := F64) tol fuel d = Ok m /\
      (forall k t, nth_error (o_tris o) k = Some t -> exists A B C y z, vertices_are (map read_point (o_points o)) (corners t) [A; B; C] /\
         vertices_are (ul_list (ms_points m)) [ci k] [y] /\
         dist z (xyv A) = dist z (xyv B) /\ dist z (xyv B) = dist z (xyv C) /\
         Rabs (val (px y) - fst z) < val tol + cc_slack M (orient (xyv A) (xyv B) (xyv C)) (fst z) /\
         Rabs (val (py y) - snd z) < val tol + cc_slack M (orient (xyv A) (xyv B) (xyv C)) (snd z)) /\
      Forall2 (fun v (g : polygon F64) => forall ws ts, closed_fan (map fst (o_edges o)) (o_tris o) v ws ts -> exists ss, inner_cell ci ts (pg_points g) ss)
        (dedup (flat_map corners (o_tris o))) (ms_polygons m).
  Proof.
    intros Ht CL HF Lf. destruct (read_any tol) as (d & RO). exists d.
    destruct (voronoi_built (N := F64) tol fuel o d T RO HF Lf) as (m & ci & gs & V & C & X & E & _ & F). exists m, ci. split; [exact RO|]. split; [exact V|].
    pose proof (tol_pos tol Ht) as TP. pose proof (clustered_swo tol Ht _ CL) as SW.
    assert (I : ul_inv (vertex_source o) (pt_ltb (N := F64) tol) (ms_points m)).
    { apply (voronoi_keeps (N := F64) tol fuel o d m T RO V); [exact SW|intros v x H; exists v; exact H|].
      apply (stored_inv (N := F64) tol o d _ T RO SW). intros k c H. eapply center_source; exact H. }
    split.
    - intros k t Hk. destruct (C k t Hk) as (A & B & C0 & c & H1 & H2 & (y & Y & S0)).
      pose proof (in_within _ _ H1) as FW. inversion_clear FW as [|? ? F1 F']. inversion_clear F' as [|? ? F2 F'']. inversion_clear F'' as [|? ? F3 _].
      destruct (circumcenter_any M SM A B C0 F1 F2 F3 (NT t A B C0 (nth_error_In _ _ Hk) H1)) as (c' & z & Ec & Fx & Fy & D1 & D2 & _ & E1 & E2).
      rewrite H2 in Ec. injection Ec as <-. exists A, B, C0, y, z. split; [exact H1|]. pose proof (ext_located _ _ _ _ X Y) as Y'. split; [exact Y'|].
      split; [exact D1|]. split; [exact D2|].
      assert (NR : coincide (val tol) (xyv y) (xyv c)).
      { assert (K : y = c \/ incomparable (pt_ltb (N := F64) tol) y c) by (destruct S0 as [->|S0]; [left; reflexivity|right; exact S0]). destruct K as [->|K].
        - unfold coincide. rewrite !Rminus_diag_eq, !Rabs_R0 by reflexivity. auto.
        - apply (INC_64 tol Ht _ CL) in K; [exact K| |].
          + apply (ui_P _ _ _ I). apply (vertex_in _ _ _ _ Y'). left; reflexivity.
          + apply (center_source o k). exists t, A, B, C0. auto. }
      destruct NR as [N1 N2]. unfold xyv in N1, N2. cbn [fst snd] in N1, N2.
      split; [replace (val (px y) - fst z) with ((val (px y) - val (px c)) + (val (px c) - fst z)) by ring|
              replace (val (py y) - snd z) with ((val (py y) - val (py c)) + (val (py c) - snd z)) by ring]; (eapply Rle_lt_trans; [apply Rabs_triang|]); lra.
    - rewrite <- E. apply Forall2_map_right. eapply Forall2_weaken; [|exact F]. intros v g [H _] ws ts CF. exists (snd g). exact (H ws ts CF).
  Qed.
End Any.
