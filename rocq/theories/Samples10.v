(** Example data for T_Vor64: the rectangle with an inner point on doubles. *)
From Coq Require Import Reals Lra Lia ZArith SpecFloat List Bool.
From Flocq Require Import Core BinarySingleNaN.
From Verif Require Import Base Spec MUtil MGeom MHull MPolygon MMaps MTriangle MGen MRegion MDelaunay MVoronoi Bridge BridgeNum BridgeVor64.
From Verif Require Import PUtil PPoint PFloat PGrid PGrid3 PGrid4 PTri PDelaunay PVoronoi PFan PVorGeo PVorCell PVor64 PVor64b Samples Samples4 Samples5 Samples6 Samples7.
Import ListNotations.
Local Open Scope Z_scope.

Lemma valZ k : Z.abs k <= 2 ^ 53 -> val (nZ (n := F64) k) = IZR k.
Proof. intros H. exact (proj2 (ofZ_correct k H)). Qed.
Lemma wheel_exact : exact_output (wheel_out F64) = wheel_out RNum.
Proof.
  unfold exact_output, wheel_out. cbn [o_points o_edges o_tris map fst snd]. rewrite !valZ by (cbn; lia). reflexivity.
Qed.
Lemma delaunay_exact (o : trout F64) : delaunay_output (exact_output o) -> delaunay_output64 o.
Proof.
  intros [H D]. split; [|exact D]. intros t A B C Ht V. specialize (H t (real_point A) (real_point B) (real_point C) Ht).
  unfold output_sites in H. rewrite exact_sites, exact_points in H. apply H. exact (real_vertices _ _ _ V).
Qed.
Lemma wheel_delaunay64 : delaunay_output64 (wheel_out F64).
Proof. apply delaunay_exact. rewrite wheel_exact. exact wheel_delaunay. Qed.
Lemma wheel_gpm : Forall (gpm 0 4) (map read_point (o_points (wheel_out F64))).
Proof.
  change (map read_point (o_points (wheel_out F64))) with [bz 0 0; bz 8 0; bz 8 6; bz 0 6; mkPoint (N := F64) (F64_ofZ 3) (F64_ofZ 2) false false].
  repeat first [apply Forall_cons|apply Forall_nil]; try (apply bz_gpm; cbn; lia).
  destruct (zpt_gpm 4 3 2) as [G1 G2]; [lia|cbn; lia..|]. split; assumption.
Qed.
Lemma true_center_exact (o : trout F64) k z : delaunay_output64 o -> true_center o k z -> exists c, center_of (exact_output o) k c /\ xy c = z.
Proof.
  intros DL (t & A & B & C & Hk & V & D1 & D2). pose proof (proj1 (proj1 DL t A B C (nth_error_In _ _ Hk) V)) as OR.
  destruct (proj1 (circumcenter_correct (real_point A) (real_point B) (real_point C))) as (c & E & _ & _ & U & _); [rewrite !real_xy; lra|].
  exists c. split; [|symmetry; apply U; rewrite !real_xy; assumption].
  exists t, (real_point A), (real_point B), (real_point C). split; [exact Hk|]. split; [|exact E]. rewrite exact_points. exact (real_vertices _ _ _ V).
Qed.
Lemma wheel_true k z : true_center (wheel_out F64) k z ->
  (k = 0%nat /\ z = (4, -11 / 4) \/ k = 1%nat /\ z = (63 / 10, 3) \/ k = 2%nat /\ z = (4, 47 / 8) \/ k = 3%nat /\ z = (1 / 6, 3))%R.
Proof.
  intros H. apply true_center_exact in H as (c & C & <-); [|exact wheel_delaunay64]. rewrite wheel_exact in C. exact (wheel_center k c C).
Qed.
Lemma nearest_small r : (Rabs r <= 16 -> Rabs (nearest r - r) <= / 8)%R.
Proof.
  intros H. destruct (rnd_error r 4) as [E _]; [lia|exact H|]. rewrite nearest_rnd. eapply Rle_trans; [exact E|].
  change (/ 8)%R with (bpow radix2 (-3)). apply bpow_le. lia.
Qed.
Lemma wheel_apart64 : vertices_apart tol64 (wheel_out F64).
Proof.
  intros k k' z z' H H' [C1 C2]. apply wheel_true in H, H'. pose proof tol64_lt1 as T. unfold rounded in C1, C2. cbn [fst snd] in C1, C2.
  pose proof tol64_range as [_ T'].
  assert (B : (Rabs (fst z) <= 16 /\ Rabs (snd z) <= 16)%R) by (destruct H as [[_ ->]|[[_ ->]|[[_ ->]|[_ ->]]]]; cbn [fst snd]; split; apply Rabs_le; lra).
  assert (B' : (Rabs (fst z') <= 16 /\ Rabs (snd z') <= 16)%R) by (destruct H' as [[_ ->]|[[_ ->]|[[_ ->]|[_ ->]]]]; cbn [fst snd]; split; apply Rabs_le; lra).
  destruct B as [B1 B2], B' as [B3 B4]. apply nearest_small, Rabs_le_inv in B1, B2, B3, B4. apply Rabs_def2 in C1, C2.
  assert (K : (-1 < fst z - fst z' < 1 /\ -1 < snd z - snd z' < 1)%R) by (split; lra). clear - H H' K. destruct K as [K1 K2].
  destruct H as [[_ ->]|[[_ ->]|[[_ ->]|[_ ->]]]], H' as [[_ ->]|[[_ ->]|[[_ ->]|[_ ->]]]]; cbn [fst snd] in K1, K2; try reflexivity; exfalso; lra.
Qed.
Lemma wheel_once64 : vertices_stored_once tol64 (wheel_out F64).
Proof.
  right. intros k k' z H H'. apply wheel_true in H, H'.
  destruct H as [[-> E]|[[-> E]|[[-> E]|[-> E]]]], H' as [[-> E']|[[-> E']|[[-> E']|[-> E']]]]; rewrite E in E'; try reflexivity; exfalso; injection E' as E1; lra.
Qed.

(** the square *)
Lemma sq_exact : exact_output (sq_out F64) = sq_out RNum.
Proof.
  unfold exact_output, sq_out. cbn [o_points o_edges o_tris map fst snd]. rewrite !valZ by (cbn; lia). reflexivity.
Qed.
Lemma sq_delaunay64 : delaunay_output64 (sq_out F64).
Proof. apply delaunay_exact. rewrite sq_exact. exact sq_delaunay. Qed.
Lemma sq_gpm : Forall (gpm 0 4) (map read_point (o_points (sq_out F64))).
Proof. rewrite sq_points_64. repeat first [apply Forall_cons|apply Forall_nil]; apply bz_gpm; cbn; lia. Qed.
Lemma sites_exact (o : trout F64) : sites64 o = output_sites (exact_output o).
Proof. unfold output_sites. symmetry. apply exact_sites. Qed.
Lemma sq_true z : true_source (sq_out F64) z -> exists a b, Z.abs a <= 16 /\ Z.abs b <= 16 /\ z = (IZR a, IZR b).
Proof.
  assert (K : forall v q, In q (map read_point (o_points (sq_out RNum))) -> v = xy q -> exists a b, Z.abs a <= 4 /\ Z.abs b <= 4 /\ v = (IZR (2 * a), IZR (2 * b))).
  { intros v q Hq ->. rewrite sq_points_R in Hq. cbn [In] in Hq. unfold xy.
    destruct Hq as [<-|[<-|[<-|[<-|[]]]]]; cbn [px py bp]; [exists 0, 0|exists 2, 0|exists 2, 2|exists 0, 2]; (split; [lia|]); (split; [lia|]); reflexivity. }
  intros [(k & H)|[(e & A & B & He & _ & V & ->)|H]].
  - apply true_center_exact in H as (c & C & <-); [|exact sq_delaunay64]. rewrite sq_exact in C. rewrite (sq_center k c C). exists 2, 2. split; [lia|]. split; [lia|reflexivity].
  - apply real_vertices in V. rewrite <- exact_points, sq_exact in V. cbn [map] in V. rewrite <- !real_xy.
    assert (IA : In (real_point A) (map read_point (o_points (sq_out RNum)))) by (inversion_clear V as [|? ? ? ? [_ V1] _]; eapply nth_error_In; exact V1).
    assert (IB : In (real_point B) (map read_point (o_points (sq_out RNum)))) by (inversion_clear V as [|? ? ? ? _ V1]; inversion_clear V1 as [|? ? ? ? [_ V2] _]; eapply nth_error_In; exact V2).
    destruct (K _ _ IA eq_refl) as (a1 & b1 & A1 & B1 & EA), (K _ _ IB eq_refl) as (a2 & b2 & A2 & B2 & EB). rewrite EA, EB.
    exists (a1 + a2), (b1 + b2). split; [lia|]. split; [lia|]. unfold midpoint. cbn [fst snd]. rewrite !plus_IZR, !mult_IZR. f_equal; field.
  - rewrite sites_exact, sq_exact in H. unfold output_sites in H. apply in_map_iff in H as (q & <- & Hq). destruct (K _ q Hq eq_refl) as (a & b & A & B & ->).
    exists (2 * a), (2 * b). split; [lia|]. split; [lia|reflexivity].
Qed.
Lemma int_rounded a b : Z.abs a <= 16 -> Z.abs b <= 16 -> rounded (IZR a, IZR b) = (IZR a, IZR b).
Proof.
  intros A B. apply (on_grid_rounded 0); [lia|]. exists a, b. split; [lia|]. split; [lia|]. change (bpow radix2 0) with 1%R. rewrite !Rmult_1_r. reflexivity.
Qed.
Lemma sq_apart_sources : sources_apart64 tol64 (sq_out F64).
Proof.
  pose proof tol64_lt1 as T. pose proof tol64_pos as T0.
  assert (D : forall a b : Z, a <> b -> (1 <= Rabs (IZR a - IZR b))%R).
  { intros a b N. rewrite <- minus_IZR, <- abs_IZR. apply IZR_le. lia. }
  split; intros z z' H H'; apply sq_true in H as (a & b & A & B & ->); apply sq_true in H' as (a' & b' & A' & B' & ->); rewrite !int_rounded by assumption; cbn [fst snd].
  - unfold clear_of. split.
    + destruct (Z.eq_dec a a') as [->|N]; [left; rewrite Rminus_diag_eq, Rabs_R0 by reflexivity; lra|right; specialize (D a a' N); lra].
    + destruct (Z.eq_dec b b') as [->|N]; [left; rewrite Rminus_diag_eq, Rabs_R0 by reflexivity; lra|right; specialize (D b b' N); lra].
  - intros [C1 C2]. cbn [fst snd] in C1, C2. destruct (Z.eq_dec a a') as [->|N]; [|specialize (D a a' N); lra]. destruct (Z.eq_dec b b') as [->|N]; [reflexivity|specialize (D b b' N); lra].
Qed.
Lemma sq_fans64 v : In v (flat_map corners (o_tris (sq_out F64))) ->
  (exists ws ts, closed_fan (map fst (o_edges (sq_out F64))) (o_tris (sq_out F64)) v ws ts) \/
  (exists w ws w' ts, open_fan (o_edges (sq_out F64)) (o_tris (sq_out F64)) v w ws w' ts).
Proof. exact (sq_fans v). Qed.
Lemma sq_corner64 : gabriel_edge (sites64 (sq_out F64)) (0, 0)%R (4, 0)%R /\ gabriel_edge (sites64 (sq_out F64)) (0, 0)%R (0, 4)%R /\
  convex_corner (0, 0)%R (4, 0)%R (0, 4)%R /\ (forall s, In s (sites64 (sq_out F64)) -> wedge (0, 0)%R (4, 0)%R (0, 4)%R s) /\
  (4 * val tol64 <= orient (0, 0) (4, 0) (0, 4))%R.
Proof.
  rewrite sites_exact, sq_exact. destruct sq_gabriel as (G1 & G2 & G3). split; [exact G1|]. split; [exact G2|]. split; [exact G3|]. split; [exact sq_wedge|].
  pose proof tol64_lt1. unfold orient, vcross, vsub; cbn [fst snd]. lra.
Qed.
