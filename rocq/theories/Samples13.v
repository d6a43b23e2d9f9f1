(** Example data for T_Program: a rectangle seeded with one point, and the answer of Triangle. *)
From Coq Require Import Reals Lra Lia ZArith SpecFloat List Bool.
From Verif Require Import Base Spec MUtil MGeom MHull MPolygon MMaps MTriangle MGen MRegion MDelaunay MVoronoi MHist Bridge BridgeNum BridgeVor64 PUtil PRegion PDelaunay PFloat PGrid PPipe64 Samples Samples4 Samples5 Samples6 Samples7 Samples10 Samples11 Samples12.
Import ListNotations.
Local Open Scope Z_scope.

Lemma r_rect64_ctor : region_ctor (N := F64) tol64 rect64 = Ok r_rect64.
Proof. unfold r_rect64. destruct (region_ctor (N := F64) tol64 rect64) eqn:E; [reflexivity|]. exfalso.
  assert (K : (match region_ctor (N := F64) tol64 rect64 with Ok _ => true | Err _ => false end) = true) by (vm_compute; reflexivity). rewrite E in K. discriminate. Qed.
Definition seed_ops : list (region_op F64) := [OpSeeds [zpt 3 2]].
Definition r_seeded64 : region F64 := ok_or r_none (region_run (N := F64) tol64 r_rect64 seed_ops).
Lemma r_seeded64_run : region_run (N := F64) tol64 r_rect64 seed_ops = Ok r_seeded64.
Proof.
  unfold r_seeded64. destruct (region_run (N := F64) tol64 r_rect64 seed_ops) eqn:E; [reflexivity|]. exfalso.
  assert (K : (match region_run (N := F64) tol64 r_rect64 seed_ops with Ok _ => true | Err _ => false end) = true) by (vm_compute; reflexivity). rewrite E in K. discriminate.
Qed.
Lemma r_seeded64_clustered : clustered tol64 (fun q => In q (rg_seeds r_seeded64 ++ getRegionPoints r_seeded64)).
Proof.
  apply (clustered_sub tol64 _ _ rect64_clustered). pose proof r_seeded64_run as R. unfold seed_ops in R. cbn [region_run region_do] in R.
  destruct (seeding_char (N := F64) tol64 r_rect64 r_rect64_made) as (keep & _ & H1 & _). rewrite H1 in R. cbn [bind] in R. assert (K : forall (A : Type) (x y : A), Ok x = Ok y -> x = y) by congruence. apply K in R. rewrite <- R.
  unfold getRegionPoints, with_seeds. cbn [rg_seeds rg_p rg_holes]. intros q Hq. apply in_app_or in Hq as [Hq|Hq]; apply in_or_app; [left|right; exact Hq].
  apply filter_In in Hq. apply Hq.
Qed.
Lemma wheel_triangulated64 : triangulated64 0 tol64 (wheel_out F64).
Proof.
  destruct wheel_answer64 as [T G D F C A]. constructor; [exact T| |intros t a b c Ht Hv; destruct (proj1 D t a b c Ht Hv) as [K _]; apply Rgt_not_eq; exact K|exact C|exact A].
  rewrite wheel_points_64. repeat first [apply Forall_cons|apply Forall_nil]; try (apply bz_grid; cbn; lia). exact (zpt_grid 3 2 ltac:(cbn; lia) ltac:(cbn; lia)).
Qed.
