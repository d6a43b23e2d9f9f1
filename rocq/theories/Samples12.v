(** Example data for T_Hist64: a rectangle with one seed, and a triangle, on doubles. *)
From Coq Require Import Reals Lra Lia ZArith SpecFloat List Bool.
From Flocq Require Import Core.
From Verif Require Import Base Spec MUtil MGeom MHull MPolygon MMaps MTriangle MGen MRegion MDelaunay MVoronoi Bridge BridgeNum BridgeVor64 PUtil PRegion PDelaunay PFloat PGrid PPipe64 Samples Samples4 Samples5 Samples6 Samples7 Samples10 Samples11.
Import ListNotations.
Local Open Scope Z_scope.

Definition rect64 : list (Point F64) := [zpt 0 0; zpt 8 0; zpt 8 6; zpt 0 6].
Definition r_rect64 : region F64 := ok_or r_none (region_ctor (N := F64) tol64 rect64).
Lemma r_rect64_made : region_made r_rect64.
Proof. apply made_ok_or; [apply rm_default|]. intros r E. exact (rm_ctor _ _ _ E). Qed.
Lemma r_rect64_shape : rg_p r_rect64 = rect64 /\ rg_holes r_rect64 = [] /\ rg_seeds r_rect64 = [].
Proof. apply (ctor_shape tol64 rect64 r_none). vm_compute. reflexivity. Qed.
Lemma rect64_clustered : clustered tol64 (fun q => In q ([zpt 3 2] ++ getRegionPoints r_rect64)).
Proof.
  apply (clustered_sub tol64 (grid_point 0)); [exact grid0_clustered|]. unfold getRegionPoints.
  destruct r_rect64_shape as (E1 & E2 & _). rewrite E1, E2. cbn [flat_map]. intros q H.
  assert (A : Forall (grid_point 0) ([zpt 3 2] ++ rect64 ++ [])).
  { repeat first [apply Forall_cons|apply Forall_nil]; apply zpt_grid; cbn; lia. }
  rewrite Forall_forall in A. apply A. exact H.
Qed.
Lemma wheel_points_64 : map read_point (o_points (wheel_out F64)) = [bz 0 0; bz 8 0; bz 8 6; bz 0 6; mkPoint (N := F64) (F64_ofZ 3) (F64_ofZ 2) false false].
Proof. reflexivity. Qed.
Lemma wheel_clustered : clustered tol64 (fun q => In q (map read_point (o_points (wheel_out F64)))).
Proof.
  apply (clustered_sub tol64 (grid_point 0)); [exact grid0_clustered|]. apply Forall_forall. rewrite wheel_points_64.
  repeat first [apply Forall_cons|apply Forall_nil]; try (apply bz_grid; cbn; lia). exact (zpt_grid 3 2 ltac:(cbn; lia) ltac:(cbn; lia)).
Qed.
Lemma wheel_apart_by : apart_by (near64 tol64) (map read_point (o_points (wheel_out F64))).
Proof.
  intros i j a b Hi Hj D [C1 C2]. apply (map_nth_error xyv) in Hi, Hj. rewrite wheel_points_64 in Hi, Hj. cbn [map] in Hi, Hj.
  change (xyv (mkPoint (N := F64) (F64_ofZ 3) (F64_ofZ 2) false false)) with (xyv (zpt 3 2)) in Hi, Hj.
  rewrite zpt_xyv in Hi, Hj by (cbn; lia). rewrite !bz_xyv in Hi, Hj by (cbn; lia). pose proof tol64_lt1 as T.
  revert C1 C2 Hi Hj. generalize (xyv a) (xyv b). intros u w C1 C2 Hi Hj. apply Rabs_def2 in C1, C2.
  destruct i as [|[|[|[|[|i]]]]]; cbn [nth_error] in Hi; try (destruct i; discriminate);
  destruct j as [|[|[|[|[|j]]]]]; cbn [nth_error] in Hj; try (destruct j; discriminate);
  try (apply D; reflexivity); assert (EU := f_equal (fun x => match x with Some v => v | None => u end) Hi); assert (EW := f_equal (fun x => match x with Some v => v | None => w end) Hj); cbv iota beta in EU, EW; subst u w; cbn [fst snd] in C1, C2; lra.
Qed.
Lemma wheel_answer64 : delaunay_answer64 0 4 tol64 (wheel_out F64).
Proof. constructor; [apply wheel_triangulation|exact wheel_gpm|exact wheel_delaunay64|apply wheel_fans|exact wheel_clustered|exact wheel_apart_by]. Qed.
