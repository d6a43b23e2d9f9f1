(** Example data for T_Grid2: a plate with a hole on doubles with integer coordinates. *)
From Coq Require Import Reals Lra Lia ZArith SpecFloat List Bool.
From Flocq Require Import Core.
From Verif Require Import Base Spec MUtil MGeom MHull MPolygon MGen MRegion Bridge BridgeNum Bridge64 PUtil PPoly2 PRegion PFloat PGrid PGrid8 Samples Samples4.
Import ListNotations.
Local Open Scope Z_scope.

Definition plate : list (Point F64) := [zpt 0 0; zpt 8 0; zpt 8 8; zpt 0 8].
Definition cutout : list (Point F64) := [zpt 2 2; zpt 4 2; zpt 4 4; zpt 2 4].
Definition r_plain : region F64 := ok_or r_none (region_ctor (N := F64) tol64 plate).
Definition h_cutout : hole F64 := ok_or h_none (polygonalHole (N := F64) tol64 cutout).
Definition r_plate : region F64 := fst (addHole clip_inside cf64 r_plain h_cutout).
Lemma plate_grid : Forall (grid_point 0) plate.
Proof. repeat first [apply Forall_cons|apply Forall_nil]; apply zpt_grid; cbn; lia. Qed.
Lemma cutout_grid : Forall (grid_point 0) cutout.
Proof. repeat first [apply Forall_cons|apply Forall_nil]; apply zpt_grid; cbn; lia. Qed.
Lemma plate_xyv : map xyv plate = [(0, 0); (8, 0); (8, 8); (0, 8)]%R.
Proof. unfold plate. cbn [map]. rewrite !zpt_xyv by (cbn; lia). reflexivity. Qed.
Lemma cutout_xyv : map xyv cutout = [(2, 2); (4, 2); (4, 4); (2, 4)]%R.
Proof. unfold cutout. cbn [map]. rewrite !zpt_xyv by (cbn; lia). reflexivity. Qed.
Lemma plate_no_short : no_short_edge (val tol64) (map xyv plate).
Proof.
  rewrite plate_xyv. intros a b H [C1 C2]. pose proof tol64_lt1 as T. cbn in H.
  repeat destruct H as [H|H]; try (exact H); injection H as <- <-; cbn [fst snd] in C1, C2; revert C1 C2; unfold Rabs; repeat destruct Rcase_abs; intros; lra.
Qed.
Lemma cutout_no_short : no_short_edge (val tol64) (map xyv cutout).
Proof.
  rewrite cutout_xyv. intros a b H [C1 C2]. pose proof tol64_lt1 as T. cbn in H.
  repeat destruct H as [H|H]; try (exact H); injection H as <- <-; cbn [fst snd] in C1, C2; revert C1 C2; unfold Rabs; repeat destruct Rcase_abs; intros; lra.
Qed.

Lemma ctor_shape (tol : f64) pts d : is_ok (region_ctor (N := F64) tol pts) = true ->
  rg_p (ok_or d (region_ctor (N := F64) tol pts)) = pts /\ rg_holes (ok_or d (region_ctor (N := F64) tol pts)) = [] /\ rg_seeds (ok_or d (region_ctor (N := F64) tol pts)) = [].
Proof. unfold region_ctor. destruct (polygon_ctor_pts (N := F64) tol pts); [|discriminate]. intros _. cbn [bind ok_or rg_p rg_holes rg_seeds]. auto. Qed.
Lemma inside_shape {N : Num} cf (r : region N) (h : hole N) :
  is_ok (mapM (scalePoint (cf_scale cf)) (rg_p r)) = true -> is_ok (mapM (scalePoint (cf_scale cf)) (h_points h)) = true ->
  match region_containsPoint (cf_tol cf) r (h_center h) with Ok b => b | _ => false end = true ->
  fst (addHole clip_inside cf r h) = mkRegion (rg_poly r) (rg_p r) (rg_holes r ++ [h]) (rg_seeds r).
Proof.
  unfold addHole, region_containsPoint. intros E1 E2 E3.
  destruct (mapM _ (rg_p r)) as [s|]; [|discriminate]. destruct (mapM _ (h_points h)) as [c|]; [|discriminate]. cbn [clip_inside].
  destruct (containsPoint _ _ _ _) as [[|]|]; try discriminate. reflexivity.
Qed.
Lemma r_plain_shape : rg_p r_plain = plate /\ rg_holes r_plain = [] /\ rg_seeds r_plain = [].
Proof. apply (ctor_shape tol64 plate r_none). vm_compute. reflexivity. Qed.
Lemma r_plain_made : region_made r_plain.
Proof. apply made_ok_or; [apply rm_default|]. intros r E. exact (rm_ctor _ _ _ E). Qed.
Lemma h_cutout_built : hole_built h_cutout.
Proof. apply (built_polygonal (N := F64) tol64 cutout). unfold h_cutout. rewrite polygonalHole_ok. reflexivity. Qed.
Lemma h_cutout_points : h_points h_cutout = cutout.
Proof. unfold h_cutout. rewrite polygonalHole_ok. reflexivity. Qed.
Lemma r_plate_made : region_made r_plate.
Proof. apply rm_addHole; [apply r_plain_made|apply h_cutout_built]. Qed.
Lemma r_plate_shape : rg_p r_plate = plate /\ rg_holes r_plate = [h_cutout] /\ rg_seeds r_plate = [].
Proof.
  unfold r_plate. rewrite (inside_shape cf64 r_plain h_cutout) by (vm_compute; reflexivity). destruct r_plain_shape as (E1 & E2 & E3).
  cbn [rg_p rg_holes rg_seeds]. rewrite E1, E2, E3. auto.
Qed.
Lemma r_plate_grid : grid_region 0 r_plate.
Proof.
  destruct r_plate_shape as (E1 & E2 & _). unfold grid_region. rewrite E1, E2. split; [exact plate_grid|].
  constructor; [rewrite h_cutout_points; exact cutout_grid|constructor].
Qed.
Lemma r_plate_long : long_edges tol64 r_plate.
Proof.
  destruct r_plate_shape as (E1 & E2 & _). unfold long_edges. rewrite E1, E2. split; [exact plate_no_short|].
  constructor; [rewrite h_cutout_points; exact cutout_no_short|constructor].
Qed.
(** the sides of its box *)
Lemma r_plate_box : let b := getBox (N := F64) r_plate in
  val (bb_xMin b) = 0%R /\ val (bb_xMax b) = 8%R /\ val (bb_yMin b) = 0%R /\ val (bb_yMax b) = 8%R.
Proof.
  cbn zeta.
  assert (V : forall x k, x = F64_ofZ k -> Z.abs k <= 2 ^ 53 -> val x = IZR k) by (intros x k -> H; apply ofZ_correct; exact H).
  repeat split; (apply V; [vm_compute; reflexivity|cbn; lia]).
Qed.
