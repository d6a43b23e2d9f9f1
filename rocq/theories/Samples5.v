(** Example data for T_Pipe64: regions and triangulator outputs on doubles. *)
From Coq Require Import Reals Lra Lia ZArith SpecFloat List Bool.
From Flocq Require Import Core BinarySingleNaN.
From Verif Require Import Base Spec MUtil MGeom MHull MPolygon MMaps MTriangle MGen MRegion MDelaunay Bridge BridgeNum.
From Verif Require Import PUtil PFloat PGrid PPoly2 PRegion PDelaunay PCluster PCircum PPipe64 Samples Samples4.
Import ListNotations.
Local Open Scope Z_scope.

Lemma tol64_usable : tolerance64 tol64.
Proof.
  split; [exact tol64_fin|]. pose proof tol64_val. assert (bpow radix2 (-1000) <= bpow radix2 (-17))%R by (apply bpow_le; lia). lra.
Qed.
Lemma grid0_clustered : clustered tol64 (grid_point 0).
Proof. apply grid_clustered; [lia|exact tol64_one|exact tol64_pos]. Qed.

(** 2^-20, less than an eighth of the tolerance *)
Definition eps64 : f64 := S754_finite false 4503599627370496 (-72).
Definition neps64 : f64 := S754_finite true 4503599627370496 (-72).
Lemma eps64_fin : fin eps64 /\ fin neps64.
Proof. repeat split; vm_compute; reflexivity. Qed.
Lemma eps64_val : val eps64 = bpow radix2 (-20) /\ val neps64 = (- bpow radix2 (-20))%R.
Proof.
  unfold val, eps64, neps64. cbn [SF2R cond_Zopp]. unfold F2R; cbn [Fnum Fexp].
  replace (IZR 4503599627370496) with (bpow radix2 52) by (cbn [bpow]; f_equal; reflexivity).
  change (IZR (-4503599627370496)) with (IZR (- (4503599627370496))). rewrite opp_IZR.
  replace (IZR 4503599627370496) with (bpow radix2 52) by (cbn [bpow]; f_equal; reflexivity).
  rewrite Ropp_mult_distr_l_reverse, <- bpow_plus. split; reflexivity.
Qed.
Definition crowd : list (Point F64) := [zpt 0 0; mkP (N := F64) eps64 neps64; zpt 1 1; mkP (N := F64) (F64_ofZ 1) eps64].
Lemma crowd_clustered : clustered tol64 (fun q => In q crowd).
Proof.
  destruct eps64_fin as [F1 F2], eps64_val as [V1 V2]. pose proof tol64_val as T.
  assert (E : (bpow radix2 (-17) = 8 * bpow radix2 (-20))%R) by (change (-17) with (3 + -20); rewrite bpow_plus; reflexivity).
  assert (E' : (bpow radix2 (-16) = 16 * bpow radix2 (-20))%R) by (change (-16) with (4 + -20); rewrite bpow_plus; reflexivity).
  pose proof (bpow_gt_0 radix2 (-20)) as P.
  assert (S : (64 * bpow radix2 (-20) <= 1)%R).
  { change 1%R with (bpow radix2 0). change 64%R with (bpow radix2 6). rewrite <- bpow_plus. apply bpow_le. lia. }
  assert (B : (1 <= bpow radix2 1000)%R) by (change 1%R with (bpow radix2 0); apply bpow_le; lia).
  assert (Z0 : val (F64_ofZ 0) = 0%R) by reflexivity. assert (Z1 : val (F64_ofZ 1) = 1%R) by (apply (grid_int 1); lia).
  assert (K : forall q, In q crowd -> exists x y, px q = x /\ py q = y /\ fin x /\ fin y /\
    (val x = 0 \/ val x = bpow radix2 (-20) \/ val x = 1)%R /\ (val y = 0 \/ val y = - bpow radix2 (-20) \/ val y = 1 \/ val y = bpow radix2 (-20))%R).
  { intros q [<-|[<-|[<-|[<-|[]]]]]; cbn [zpt mkP px py]; do 2 eexists; (split; [reflexivity|]); (split; [reflexivity|]);
      (split; [first [exact F1|exact F2|apply grid_int; lia]|]); (split; [first [exact F1|exact F2|apply grid_int; lia]|]); auto 6. }
  split.
  - intros q Hq. destruct (K q Hq) as (x & y & -> & -> & Fx & Fy & Vx & Vy). split; [exact Fx|]. split; [exact Fy|].
    split; [destruct Vx as [->|[->| ->]]|destruct Vy as [->|[->|[->| ->]]]]; unfold Rabs; destruct Rcase_abs; lra.
  - intros a b Ha Hb. destruct (K a Ha) as (x & y & -> & -> & Fx & Fy & Vx & Vy). destruct (K b Hb) as (x' & y' & -> & -> & Fx' & Fy' & Vx' & Vy').
    unfold clear_of. split.
    + destruct Vx as [->|[->| ->]], Vx' as [->|[->| ->]]; unfold Rabs; destruct Rcase_abs; try (left; lra); right; lra.
    + destruct Vy as [->|[->|[->| ->]]], Vy' as [->|[->|[->| ->]]]; unfold Rabs; destruct Rcase_abs; try (left; lra); right; lra.
Qed.
(** the second point coincides with the first, without being equal to it *)
Lemma crowd_near : near64 tol64 (zpt 0 0) (mkP (N := F64) eps64 neps64) /\ ~ near64 tol64 (zpt 0 0) (zpt 1 1).
Proof.
  destruct eps64_val as [V1 V2]. pose proof tol64_val as T. pose proof tol64_lt1 as T1. pose proof (bpow_gt_0 radix2 (-20)) as P.
  assert (E : (bpow radix2 (-17) = 8 * bpow radix2 (-20))%R) by (change (-17) with (3 + -20); rewrite bpow_plus; reflexivity).
  unfold near64. split.
  - unfold coincide, xyv, zpt, mkP; cbn [px py fst snd]. rewrite V1, V2. change (val (F64_ofZ 0)) with 0%R. unfold Rabs; split; destruct Rcase_abs; lra.
  - rewrite !zpt_xyv by (cbn; lia). unfold coincide; cbn [fst snd]. intros [C _]. revert C. unfold Rabs; destruct Rcase_abs; lra.
Qed.

(** a region of doubles with a hole *)
Definition dart_hole : list (Point F64) := [zpt 1 1; zpt 2 1; zpt 1 2].
Definition r_dart0 : region F64 := ok_or r_none (region_ctor (N := F64) tol64 dart).
Definition h_dart : hole F64 := ok_or h_none (polygonalHole (N := F64) tol64 dart_hole).
Definition r_dart : region F64 := mkRegion (N := F64) (rg_poly r_dart0) (rg_p r_dart0) [h_dart] (rg_seeds r_dart0).
Lemma r_dart0_ok : region_ctor (N := F64) tol64 dart = Ok r_dart0.
Proof.
  unfold r_dart0. generalize r_none, dart. intros d l. unfold region_ctor. destruct (proj2 (ctors_never_throw F64 tol64 [] l)) as (g & -> & _). reflexivity.
Qed.
Lemma r_dart_p : rg_p r_dart = dart.
Proof. unfold r_dart, r_dart0; cbn [rg_p]. generalize r_none, dart. intros d l. unfold region_ctor. destruct (proj2 (ctors_never_throw F64 tol64 [] l)) as (g & -> & _). reflexivity. Qed.
Lemma h_dart_ok : polygonalHole (N := F64) tol64 dart_hole = Ok h_dart.
Proof. unfold h_dart. rewrite polygonalHole_ok. reflexivity. Qed.
Lemma h_dart_points : h_points h_dart = dart_hole.
Proof. unfold h_dart. rewrite polygonalHole_ok. reflexivity. Qed.
Lemma r_dart_made : region_made r_dart.
Proof.
  apply (rm_getHoles r_dart0 [h_dart]).
  - exact (rm_ctor _ _ _ r_dart0_ok).
  - constructor; [|constructor]. exact (built_polygonal _ _ _ h_dart_ok).
Qed.
Lemma r_dart_clustered :
  clustered tol64 (fun q => In q ([zpt 2 2; zpt 8 6] ++ getRegionPoints r_dart ++ flat_map (fun s : pseg F64 => [fst s; snd s]) [(zpt 2 2, zpt 8 6); (zpt 2 2, zpt 9 9)])).
Proof.
  apply (clustered_sub tol64 (grid_point 0)); [exact grid0_clustered|]. unfold getRegionPoints. rewrite r_dart_p.
  change (rg_holes r_dart) with [h_dart]. cbn [flat_map]. rewrite h_dart_points. intros q H.
  assert (A : Forall (grid_point 0) (dart ++ dart_hole ++ [zpt 2 2; zpt 8 6; zpt 9 9])).
  { repeat first [apply Forall_cons|apply Forall_nil]; apply zpt_grid; cbn; lia. }
  rewrite Forall_forall in A. apply A. revert H. generalize (zpt 2 2) (zpt 8 6) (zpt 9 9) dart dart_hole. intros a b c l l'.
  rewrite !in_app_iff. cbn [In fst snd app]. tauto.
Qed.

(** a square cut along a diagonal *)
Definition bz (a b : Z) : Point F64 := mkPoint (N := F64) (F64_ofZ a) (F64_ofZ b) true false.
Lemma sq_points_64 : map read_point (o_points (sq_out F64)) = [bz 0 0; bz 4 0; bz 4 4; bz 0 4].
Proof. reflexivity. Qed.
Lemma bz_grid a b : Z.abs a <= 2 ^ 20 -> Z.abs b <= 2 ^ 20 -> grid_point 0 (bz a b).
Proof. intros Ha Hb. destruct (zpt_grid a b Ha Hb) as [G1 G2]. split; assumption. Qed.
Lemma bz_gpm a b : Z.abs a <= 2 ^ 4 -> Z.abs b <= 2 ^ 4 -> gpm 0 4 (bz a b).
Proof. intros Ha Hb. destruct (zpt_gpm 4 a b) as [G1 G2]; [lia|exact Ha|exact Hb|]. split; assumption. Qed.
Lemma bz_xyv a b : Z.abs a <= 2 ^ 20 -> Z.abs b <= 2 ^ 20 -> xyv (bz a b) = (IZR a, IZR b).
Proof. exact (zpt_xyv a b). Qed.
Lemma sq_grid : Forall (grid_point 0) (map read_point (o_points (sq_out F64))).
Proof. rewrite sq_points_64. repeat first [apply Forall_cons|apply Forall_nil]; apply bz_grid; cbn; lia. Qed.
Lemma sq_clustered : clustered tol64 (fun q => In q (map read_point (o_points (sq_out F64)))).
Proof. apply (clustered_sub tol64 (grid_point 0)); [exact grid0_clustered|]. apply Forall_forall. exact sq_grid. Qed.
Lemma sq_vertices64 t A B C : In t (o_tris (sq_out F64)) -> vertices_are (map read_point (o_points (sq_out F64))) (corners t) [A; B; C] ->
  (A = bz 0 0 /\ B = bz 4 0 /\ C = bz 4 4) \/ (A = bz 0 0 /\ B = bz 4 4 /\ C = bz 0 4).
Proof.
  rewrite sq_points_64. generalize (bz 0 0) (bz 4 0) (bz 4 4) (bz 0 4). intros p1 p2 p3 p4.
  intros [<-|[<-|[]]] H; unfold vertices_are in H; cbn [corners] in H;
  inversion_clear H as [|? ? ? ? [_ H1] H2]; inversion_clear H2 as [|? ? ? ? [_ H3] H4]; inversion_clear H4 as [|? ? ? ? [_ H5] H6];
  injection H1 as <-; injection H3 as <-; injection H5 as <-; auto.
Qed.
Lemma sq_proper64 t A B C : In t (o_tris (sq_out F64)) -> vertices_are (map read_point (o_points (sq_out F64))) (corners t) [A; B; C] ->
  orient (xyv A) (xyv B) (xyv C) <> 0%R.
Proof.
  intros Ht H. destruct (sq_vertices64 t A B C Ht H) as [(-> & -> & ->)|(-> & -> & ->)];
  rewrite !bz_xyv by (cbn; lia); unfold orient, vcross, vsub; cbn [fst snd]; lra.
Qed.
Lemma sq_apart64 : apart_by (near64 tol64) (map read_point (o_points (sq_out F64))).
Proof.
  rewrite sq_points_64. intros i j a b Hi Hj D. unfold near64.
  assert (K : exists x y x' y' : Z, xyv a = (IZR x, IZR y) /\ xyv b = (IZR x', IZR y') /\ (x <> x' \/ y <> y')).
  { revert Hi Hj. assert (V := fun a b : Z => bz_xyv a b). revert V. generalize bz. intros f V Hi Hj.
    assert (V1 := V 0 0 ltac:(cbn; lia) ltac:(cbn; lia)). assert (V2 := V 4 0 ltac:(cbn; lia) ltac:(cbn; lia)).
    assert (V3 := V 4 4 ltac:(cbn; lia) ltac:(cbn; lia)). assert (V4 := V 0 4 ltac:(cbn; lia) ltac:(cbn; lia)). clear V.
    nth_cases; try (exfalso; apply D; reflexivity); do 4 eexists; (split; [eassumption|]); (split; [eassumption|]); lia. }
  destruct K as (x & y & x' & y' & -> & -> & K). unfold coincide; cbn [fst snd]. pose proof tol64_lt1 as T.
  rewrite <- !minus_IZR, <- !abs_IZR. intros [C1 C2].
  assert (L1 : Z.abs (x - x') < 1) by (apply lt_IZR; lra). assert (L2 : Z.abs (y - y') < 1) by (apply lt_IZR; lra). lia.
Qed.
Lemma sq_spread64 : Forall (fun t => spread_by (near64 tol64) (map read_point (o_points (sq_out F64))) (corners t)) (o_tris (sq_out F64)).
Proof.
  pose proof sq_apart64 as A. rewrite sq_points_64 in *. revert A. generalize (bz 0 0) (bz 4 0) (bz 4 4) (bz 0 4). intros p1 p2 p3 p4 A.
  constructor; [|constructor; [|constructor]].
  - exists p1, p2, p3. split; [do 3 (constructor; [split; [lia|reflexivity]|]); constructor|].
    split; [apply (A 0%nat 1%nat)|split; [apply (A 1%nat 2%nat)|apply (A 2%nat 0%nat)]]; try reflexivity; discriminate.
  - exists p1, p3, p4. split; [do 3 (constructor; [split; [lia|reflexivity]|]); constructor|].
    split; [apply (A 0%nat 2%nat)|split; [apply (A 2%nat 3%nat)|apply (A 3%nat 0%nat)]]; try reflexivity; discriminate.
Qed.
Lemma sq_read64 tol : exists d, read_output (N := F64) tol (sq_out F64) = Ok d.
Proof. apply (output_doubles 0); [lia|apply sq_triangulation|exact sq_grid|exact sq_proper64]. Qed.

(** under a tolerance of 9 everything coincides *)
Definition nine : f64 := F64_ofZ 9.
Lemma nine_val : val nine = 9%R. Proof. apply (grid_int 9). lia. Qed.
Lemma nine_usable : tolerance64 nine.
Proof.
  split; [apply grid_int; lia|]. rewrite nine_val. assert (bpow radix2 (-1000) <= bpow radix2 0)%R by (apply bpow_le; lia).
  change (bpow radix2 0) with 1%R in *. lra.
Qed.
Lemma sq_close64 : clustered nine (fun q => In q (map read_point (o_points (sq_out F64)))) /\
  Exists (fun t => ~ spread_by (near64 nine) (map read_point (o_points (sq_out F64))) (corners t)) (o_tris (sq_out F64)).
Proof.
  assert (K : forall q, In q (map read_point (o_points (sq_out F64))) -> exists a b, q = bz a b /\ 0 <= a <= 4 /\ 0 <= b <= 4).
  { rewrite sq_points_64. intros q [<-|[<-|[<-|[<-|[]]]]]; do 2 eexists; (split; [reflexivity|]); lia. }
  split.
  - split.
    + intros q Hq. pose proof (proj1 (Forall_forall _ _) sq_grid q Hq) as G.
      exact (proj1 (grid0_clustered) q G).
    + intros a b Ha Hb. destruct (K a Ha) as (x & y & -> & Hx & Hy). destruct (K b Hb) as (x' & y' & -> & Hx' & Hy').
      assert (V : forall u, 0 <= u <= 4 -> val (F64_ofZ u) = IZR u) by (intros; apply grid_int; lia).
      unfold bz; cbn [px py]. rewrite !V, nine_val by lia. rewrite <- !minus_IZR. unfold clear_of. rewrite <- !abs_IZR.
      assert (M : forall u, Z.abs u <= 4 -> (2 * IZR (Z.abs u) < 9)%R) by (intros u Hu; apply IZR_le in Hu; lra).
      split; left; apply M; lia.
  - apply Exists_cons_hd. intros (A & B & C & V & N & _). apply N.
    destruct (sq_vertices64 (0, 1, 2) A B C (or_introl eq_refl) V) as [(-> & -> & _)|(-> & -> & _)];
    unfold near64; rewrite !bz_xyv by (cbn; lia); rewrite nine_val; unfold coincide; cbn [fst snd]; unfold Rabs; split; destruct Rcase_abs; lra.
Qed.
