(** Example data for T_Simple64: an L on doubles, triangulated without further points. *)
From Coq Require Import Reals Lra Lia ZArith SpecFloat List Bool.
From Verif Require Import Base Spec MUtil MGeom MHull MPolygon MMaps MTriangle MGen MRegion MDelaunay MVoronoi MHist Bridge BridgeNum BridgeVor64 BridgeTile BridgeFill BridgeWind BridgeSimple BridgeSimple64 PUtil PContains PRegion PDelaunay PFloat PGrid PPipe64.
From Verif Require Import Samples Samples4 Samples5 Samples6 Samples7 Samples8 Samples10 Samples11 Samples12 Samples13 Samples16 Samples18.
Import ListNotations.
Local Open Scope Z_scope.

Definition ell64 : list (Point F64) := [zpt 0 0; zpt 2 0; zpt 2 1; zpt 1 1; zpt 1 2; zpt 0 2].
Definition r_ell64 : region F64 := ok_or r_none (region_ctor (N := F64) tol64 ell64).
Lemma r_ell64_ctor : region_ctor (N := F64) tol64 ell64 = Ok r_ell64.
Proof. unfold r_ell64. destruct (region_ctor (N := F64) tol64 ell64) eqn:E; [reflexivity|]. exfalso.
  assert (K : (match region_ctor (N := F64) tol64 ell64 with Ok _ => true | Err _ => false end) = true) by (vm_compute; reflexivity). rewrite E in K. discriminate. Qed.
Lemma r_ell64_made : region_made r_ell64.
Proof. exact (rm_ctor _ _ _ r_ell64_ctor). Qed.
Lemma r_ell64_shape : rg_p r_ell64 = ell64 /\ rg_holes r_ell64 = [] /\ rg_seeds r_ell64 = [].
Proof. apply (ctor_shape tol64 ell64 r_none). vm_compute. reflexivity. Qed.
Lemma r_ell64_run : region_run (N := F64) tol64 r_ell64 [] = Ok r_ell64.
Proof. reflexivity. Qed.
Lemma ell64_xyv : map xyv (rg_p r_ell64) = map xy ell.
Proof. rewrite (proj1 r_ell64_shape). unfold ell64. cbn [map]. rewrite !zpt_xyv by (cbn; lia). reflexivity. Qed.
Lemma ell64_grid : Forall (grid_point 0) ell64.
Proof. repeat first [apply Forall_cons|apply Forall_nil]; apply zpt_grid; cbn; lia. Qed.
Lemma ell64_clustered : clustered tol64 (fun q => In q (rg_seeds r_ell64 ++ getRegionPoints r_ell64)).
Proof.
  apply (clustered_sub tol64 (grid_point 0)); [exact grid0_clustered|]. unfold getRegionPoints. destruct r_ell64_shape as (E1 & E2 & E3). rewrite E1, E2, E3. cbn [flat_map app]. rewrite app_nil_r. intros q H.
  pose proof ell64_grid as A. rewrite Forall_forall in A. apply A. exact H.
Qed.
Lemma ell64_outer : (0 <= shoelace (map xyv (rg_p r_ell64)))%R.
Proof. rewrite ell64_xyv. pose proof ell_outer as H. rewrite (proj1 r_ell_points) in H. exact H. Qed.
Lemma ell64_plain : plain [map xyv (rg_p r_ell64)].
Proof. rewrite ell64_xyv. pose proof ell_plain as H. rewrite (proj1 r_ell_points) in H. exact H. Qed.
Lemma ell_points_64 : map read_point (o_points (ell_out F64)) = [bz 0 0; bz 2 0; bz 2 1; bz 1 1; bz 1 2; bz 0 2].
Proof. reflexivity. Qed.
Lemma ell_grid64 : Forall (grid_point 0) (map read_point (o_points (ell_out F64))).
Proof. rewrite ell_points_64. repeat first [apply Forall_cons|apply Forall_nil]; apply bz_grid; cbn; lia. Qed.
Lemma ell_ccw64 t A B C : In t (o_tris (ell_out F64)) -> vertices_are (map read_point (o_points (ell_out F64))) (corners t) [A; B; C] -> (0 < orient (xyv A) (xyv B) (xyv C))%R.
Proof.
  intros Ht H. rewrite ell_points_64 in H. cbn [ell_out o_tris In] in Ht. repeat destruct Ht as [<-|Ht]; try contradiction;
  inversion_clear H as [|? ? ? ? [_ H1] H']; inversion_clear H' as [|? ? ? ? [_ H2] H'']; inversion_clear H'' as [|? ? ? ? [_ H3] _]; cbn in H1, H2, H3; injection H1 as <-; injection H2 as <-; injection H3 as <-;
  rewrite !bz_xyv by (cbn; lia); unfold orient, vcross, vsub; cbn [fst snd]; lra.
Qed.
Lemma ell_triangulated64 : triangulated64 0 tol64 (ell_out F64).
Proof.
  constructor.
  - exact (ell_triangulation F64).
  - exact ell_grid64.
  - intros t A B C Ht V. apply Rgt_not_eq. exact (ell_ccw64 t A B C Ht V).
  - apply (clustered_sub tol64 (grid_point 0)); [exact grid0_clustered|]. intros q H. pose proof ell_grid64 as A. rewrite Forall_forall in A. apply A. exact H.
  - intros i j a b Hi Hj D [C1 C2]. apply (map_nth_error xyv) in Hi, Hj. rewrite ell_points_64 in Hi, Hj. cbn [map] in Hi, Hj.
    rewrite !bz_xyv in Hi, Hj by (cbn; lia). pose proof tol64_lt1 as T.
    revert C1 C2 Hi Hj. generalize (xyv a) (xyv b). intros u w C1 C2 Hi Hj. apply Rabs_def2 in C1, C2.
    destruct i as [|[|[|[|[|[|i]]]]]]; cbn [nth_error] in Hi; try (destruct i; discriminate);
    destruct j as [|[|[|[|[|[|j]]]]]]; cbn [nth_error] in Hj; try (destruct j; discriminate);
    try (apply D; reflexivity); assert (EU := f_equal (fun x => match x with Some v => v | None => u end) Hi); assert (EW := f_equal (fun x => match x with Some v => v | None => w end) Hj); cbv iota beta in EU, EW; subst u w; cbn [fst snd] in C1, C2; lra.
Qed.
Lemma ell_answer64 : triangle_answer64 0 tol64 [map xyv (rg_p r_ell64)] (ell_out F64).
Proof.
  constructor; [exact ell_triangulated64|exact ell_ccw64| |].
  - unfold directed_once. cbn [ell_out o_tris]. nodirected.
  - exists [[0; 1; 2; 3; 4; 5]]. split; [exact ell_border|]. split; [cbn [concat app]; nodup_ok|]. rewrite ell_points_64. constructor; [|constructor]. exists [bz 0 0; bz 2 0; bz 2 1; bz 1 1; bz 1 2; bz 0 2]. split; [repeat constructor; try lia|].
    cbn [map]. rewrite !bz_xyv by (cbn; lia). rewrite ell64_xyv. exact ell_strung.
Qed.
