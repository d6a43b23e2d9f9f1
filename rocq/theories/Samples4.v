(** Example data for T_Grid: polygons of doubles with integer coordinates. *)
From Coq Require Import Reals Lra Lia ZArith SpecFloat List Bool.
From Flocq Require Import Core BinarySingleNaN.
From Verif Require Import Base Spec MUtil MGeom MPolygon Bridge BridgeNum PFloat PGrid Samples.
Import ListNotations.
Local Open Scope Z_scope.

Definition zpt (a b : Z) : Point F64 := mkP (N := F64) (F64_ofZ a) (F64_ofZ b).
Lemma zpt_gpm m a b : 0 <= m <= 20 -> Z.abs a <= 2 ^ m -> Z.abs b <= 2 ^ m -> gpm 0 m (zpt a b).
Proof.
  intros Hm Ha Hb. assert (M : 2 ^ m <= 2 ^ 20) by (apply Z.pow_le_mono_r; lia). assert (L : 2 ^ 20 <= 2 ^ 53) by (apply Z.pow_le_mono_r; lia).
  split; eapply grid_mono; [exact Ha|apply grid_int; lia|exact Hb|apply grid_int; lia].
Qed.
Lemma zpt_grid a b : Z.abs a <= 2 ^ 20 -> Z.abs b <= 2 ^ 20 -> grid_point 0 (zpt a b).
Proof. intros Ha Hb. apply (zpt_gpm 20); [lia|exact Ha|exact Hb]. Qed.
Lemma zpt_xyv a b : Z.abs a <= 2 ^ 20 -> Z.abs b <= 2 ^ 20 -> xyv (zpt a b) = (IZR a, IZR b).
Proof.
  intros Ha Hb. assert (L : 2 ^ 20 <= 2 ^ 53) by (apply Z.pow_le_mono_r; lia). unfold xyv, zpt, mkP; cbn [px py].
  f_equal; apply grid_int; lia.
Qed.

(** a simple polygon with a reflex vertex, a convex one, a crossing one, and a point *)
Definition dart : list (Point F64) := [zpt 0 0; zpt 8 0; zpt 8 6; zpt 3 2; zpt 0 6].
Definition kite : list (Point F64) := [zpt 0 0; zpt 6 1; zpt 5 7; zpt 1 5].
Definition bow : list (Point F64) := [zpt 0 0; zpt 4 4; zpt 4 0; zpt 0 4].
Lemma dart_gpm : Forall (gpm 0 3) dart.
Proof. repeat first [apply Forall_cons|apply Forall_nil]; apply zpt_gpm; cbn; lia. Qed.
Lemma kite_gpm : Forall (gpm 0 3) kite.
Proof. repeat first [apply Forall_cons|apply Forall_nil]; apply zpt_gpm; cbn; lia. Qed.
Lemma bow_gpm : Forall (gpm 0 3) bow.
Proof. repeat first [apply Forall_cons|apply Forall_nil]; apply zpt_gpm; cbn; lia. Qed.
Lemma gpm_grid vs : Forall (gpm 0 3) vs -> Forall (grid_point 0) vs.
Proof.
  apply Forall_impl. intros q [H1 H2]. assert (2 ^ 3 <= 2 ^ 20) by (cbn; lia). split; eapply grid_mono; eassumption.
Qed.
Lemma dart_grid : Forall (grid_point 0) dart. Proof. exact (gpm_grid _ dart_gpm). Qed.
Lemma kite_grid : Forall (grid_point 0) kite. Proof. exact (gpm_grid _ kite_gpm). Qed.
Lemma bow_grid : Forall (grid_point 0) bow. Proof. exact (gpm_grid _ bow_gpm). Qed.
Lemma dart_vertices : vertices_are dart [0; 1; 2; 3; 4] dart.
Proof. repeat constructor; cbn; lia. Qed.
Lemma kite_vertices : vertices_are kite [0; 1; 2; 3] kite.
Proof. repeat constructor; cbn; lia. Qed.
Lemma bow_vertices : vertices_are bow [0; 1; 2; 3] bow.
Proof. repeat constructor; cbn; lia. Qed.
Lemma dart_xyv : map xyv dart = [(0, 0); (8, 0); (8, 6); (3, 2); (0, 6)]%R.
Proof. unfold dart. cbn [map]. rewrite !zpt_xyv by (cbn; lia). reflexivity. Qed.
Lemma kite_xyv : map xyv kite = [(0, 0); (6, 1); (5, 7); (1, 5)]%R.
Proof. unfold kite. cbn [map]. rewrite !zpt_xyv by (cbn; lia). reflexivity. Qed.
Lemma bow_xyv : map xyv bow = [(0, 0); (4, 4); (4, 0); (0, 4)]%R.
Proof. unfold bow. cbn [map]. rewrite !zpt_xyv by (cbn; lia). reflexivity. Qed.

(** the default tolerance, 1e-5, as a double *)
Lemma tol64_shape : exists m ex, tol64 = S754_finite false m ex /\ Z.pos m = 5902958103587057 /\ ex = -69 /\ SpecFloat.valid_binary 53 1024 tol64 = true.
Proof. do 2 eexists. split; [vm_compute; reflexivity|]. split; [reflexivity|]. split; vm_compute; reflexivity. Qed.
Lemma tol64_fin : fin tol64.
Proof. destruct tol64_shape as (m & ex & E & _ & _ & V). split; [exact V|]. rewrite E. reflexivity. Qed.
Lemma tol64_val : (bpow radix2 (-17) < val tol64 < bpow radix2 (-16))%R.
Proof.
  destruct tol64_shape as (m & ex & E & M & X & _). unfold val. rewrite E. cbn [SF2R cond_Zopp]. unfold F2R; cbn [Fnum Fexp]. rewrite M, X.
  replace (bpow radix2 (-17)) with (bpow radix2 52 * bpow radix2 (-69))%R by (rewrite <- bpow_plus; reflexivity).
  replace (bpow radix2 (-16)) with (bpow radix2 53 * bpow radix2 (-69))%R by (rewrite <- bpow_plus; reflexivity).
  pose proof (bpow_gt_0 radix2 (-69)) as P. change (bpow radix2 52) with (IZR (2 ^ 52)). change (bpow radix2 53) with (IZR (2 ^ 53)).
  split; apply Rmult_lt_compat_r; try exact P; apply IZR_lt; lia.
Qed.
Lemma tol64_pos : (0 < val tol64)%R.
Proof. pose proof (bpow_gt_0 radix2 (-17)). pose proof tol64_val. lra. Qed.
Lemma tol64_range : (bpow radix2 (-50) <= val tol64 /\ val tol64 <= / 4)%R.
Proof.
  pose proof tol64_val. assert (bpow radix2 (-50) <= bpow radix2 (-17))%R by (apply bpow_le; lia).
  assert (bpow radix2 (-16) <= bpow radix2 (-2))%R by (apply bpow_le; lia). change (bpow radix2 (-2)) with (/ 4)%R in *. lra.
Qed.
Lemma tol64_sharp : (2 * val tol64 < bpow radix2 (- (2 * 3 + 3)))%R.
Proof.
  pose proof tol64_val. assert (bpow radix2 (-15) = 2 * bpow radix2 (-16))%R by (change (-15) with (1 + -16); rewrite bpow_plus; reflexivity).
  assert (bpow radix2 (-15) <= bpow radix2 (- (2 * 3 + 3)))%R by (apply bpow_le; lia). lra.
Qed.
Lemma tol64_one : (val tol64 <= bpow radix2 0)%R.
Proof. pose proof tol64_val. assert (bpow radix2 (-16) <= bpow radix2 0)%R by (apply bpow_le; lia). lra. Qed.
Lemma tol64_lt1 : (val tol64 < 1)%R.
Proof. pose proof tol64_range. lra. Qed.

Lemma dart_no_short : no_short_edge (val tol64) (map xyv dart).
Proof.
  rewrite dart_xyv. intros a b H [C1 C2]. pose proof tol64_lt1 as T. cbn in H.
  repeat destruct H as [H|H]; try (exact H); injection H as <- <-; cbn [fst snd] in C1, C2; revert C1 C2; unfold Rabs; repeat destruct Rcase_abs; intros; lra.
Qed.
Lemma kite_no_short : no_short_edge (val tol64) (map xyv kite).
Proof.
  rewrite kite_xyv. intros a b H [C1 C2]. pose proof tol64_lt1 as T. cbn in H.
  repeat destruct H as [H|H]; try (exact H); injection H as <- <-; cbn [fst snd] in C1, C2; revert C1 C2; unfold Rabs; repeat destruct Rcase_abs; intros; lra.
Qed.
Lemma kite_convex : strictly_convex (map xyv kite).
Proof.
  rewrite kite_xyv. split; [cbn; lia|]. split.
  - repeat constructor; cbn; intros H; repeat destruct H as [H|H]; try exact H; injection H; lra.
  - intros a b v Hab Hv Na Nb. cbn in Hab, Hv. unfold orient, vcross, vsub.
    repeat destruct Hab as [Hab|Hab]; try (exfalso; exact Hab); injection Hab as <- <-;
      repeat destruct Hv as [Hv|Hv]; try (exfalso; exact Hv); subst v; cbn [fst snd]; try (exfalso; congruence); lra.
Qed.
Lemma bow_crosses64 : crossing_within 0 (map xyv bow).
Proof.
  rewrite bow_xyv. exists 0%nat, 2%nat, (0, 0)%R, (4, 4)%R, (4, 0)%R, (0, 4)%R. split; [repeat split; cbn; lia|]. do 4 (split; [reflexivity|]).
  split; [unfold parallel, vcross, vsub; cbn [fst snd]; lra|]. exists (/ 2)%R, (/ 2)%R. split; [lra|]. split; [lra|]. unfold lerp; cbn [fst snd]. f_equal; lra.
Qed.
Lemma dart_simple : ~ crossing_within 0 (map xyv dart).
Proof.
  rewrite dart_xyv. intros (i & j & a & b & c & d & (Hi & Hj & H1 & H2 & H3) & A & B & C & D & _ & t & s & Ht & Hs & E). cbn [length] in *.
  do 5 (destruct i as [|i]; [do 5 (destruct j as [|j]; [try (exfalso; cbn in H1, H2, H3; lia);
    cbn in A, B, C, D; injection A as <-; injection B as <-; injection C as <-; injection D as <-;
    unfold lerp in E; cbn [fst snd] in E; injection E as E1 E2; lra|]); lia|]). lia.
Qed.
