(** Example data for T_VorMap and T_Hist: the vertices of the diagram of a square on doubles, and the cells listed at them. *)
From Coq Require Import Reals Lra Lia ZArith SpecFloat List Bool.
From Flocq Require Import Core BinarySingleNaN.
From Verif Require Import Base Spec MUtil MGeom MHull MPolygon MMaps MTriangle MGen MRegion MDelaunay MVoronoi MHist Bridge BridgeNum BridgeHist.
From Verif Require Import PUtil PFloat PGrid PPoly2 PDelaunay PCluster PPipe64 PFan PVorCell PHist Samples Samples4 Samples5 Samples6.
Import ListNotations.
Local Open Scope Z_scope.

Definition coords (r : res (Point F64)) : option (f64 * f64) := match r with Ok c => Some (px c, py c) | Err _ => None end.
Lemma coords_ok r (x : Point F64) a b : coords r = Some (F64_ofZ a, F64_ofZ b) -> r = Ok x -> px x = F64_ofZ a /\ py x = F64_ofZ b.
Proof. intros H ->. cbn in H. injection H as H1 H2. auto. Qed.
Lemma ofZ_grid (x : Point F64) a b : Z.abs a <= 2 ^ 20 -> Z.abs b <= 2 ^ 20 -> px x = F64_ofZ a /\ py x = F64_ofZ b -> grid_point 0 x.
Proof. intros Ha Hb [E1 E2]. destruct (zpt_grid a b Ha Hb) as [G1 G2]. split; [rewrite E1|rewrite E2]; assumption. Qed.
Lemma sq_sources64 x : vertex_source (sq_out F64) x -> grid_point 0 x.
Proof.
  intros (v & H). destruct H as [t A B C Ht Hv V CC|e m He TV LI M ->|q V ->].
  - destruct (sq_vertices64 t A B C Ht V) as [(-> & -> & ->)|(-> & -> & ->)]; (eapply (ofZ_grid x 2 2); [cbn; lia|cbn; lia|]); eapply coords_ok; [|exact CC| |exact CC]; vm_compute; reflexivity.
  - assert (K : exists a b, Z.abs a <= 2 ^ 20 /\ Z.abs b <= 2 ^ 20 /\ coords (iseg_middle (map read_point (o_points (sq_out F64))) (fst e)) = Some (F64_ofZ a, F64_ofZ b)).
    { cbn [sq_out o_edges In] in He. repeat destruct He as [<-|He]; try contradiction; cbn [fst];
      [exists 2, 0|exists 4, 2|exists 2, 4|exists 0, 2|exists 2, 2]; (split; [cbn; lia|]); (split; [cbn; lia|]); vm_compute; reflexivity. }
    destruct K as (a & b & Ka & Kb & K). pose proof (coords_ok _ _ _ _ K M) as [E1 E2]. apply (ofZ_grid _ a b Ka Kb). cbn [setBoundary px py]. auto.
  - inversion_clear V as [|? ? ? ? [_ H1] _]. apply nth_error_In in H1. pose proof sq_grid as G. rewrite Forall_forall in G. exact (G q H1).
Qed.
Lemma sq_vertices_clustered : clustered tol64 (vertex_source (sq_out F64)).
Proof. apply (clustered_sub tol64 (grid_point 0)); [exact grid0_clustered|exact sq_sources64]. Qed.

(** for each point of the diagram the cells listed at it *)
Definition lists64 (o : trout F64) (fuel : nat) : list (list Z) :=
  match (d <- read_output (N := F64) tol64 o ;; voronoi (N := F64) tol64 fuel d) with
  | Ok m => map (fun q => snd (pm_get (N := F64) tol64 (ms_pointMap m) q)) (ul_list (ms_points m))
  | Err _ => []
  end.
Lemma lists64_ok o fuel l ls : lists64 o fuel = ls -> In l ls ->
  exists d m q, read_output (N := F64) tol64 o = Ok d /\ voronoi (N := F64) tol64 fuel d = Ok m /\ In q (ul_list (ms_points m)) /\ snd (pm_get (N := F64) tol64 (ms_pointMap m) q) = l.
Proof.
  unfold lists64. intros <- H. destruct (read_output (N := F64) tol64 o) as [d|] eqn:R; cbn [bind] in H; [|destruct H].
  destruct (voronoi (N := F64) tol64 fuel d) as [m|] eqn:V; [|destruct H]. apply in_map_iff in H as (q & E & Hq). exists d, m, q. auto.
Qed.

Lemma listed_twice : exists (o : trout F64) (d : delaunay F64) (m : mesh F64 (polygon F64)) q,
  triangulation (zlen (o_points o)) (map fst (o_edges o)) (o_tris o) /\ read_output (N := F64) tol64 o = Ok d /\
  voronoi (N := F64) tol64 5 d = Ok m /\ In q (ul_list (ms_points m)) /\ ~ NoDup (snd (pm_get (N := F64) tol64 (ms_pointMap m) q)).
Proof.
  assert (E : lists64 (sq_out F64) 5 = [[0; 0; 0; 1; 1; 2; 2; 2; 3; 3]; [0; 3]; [0; 1]; [0]; [1; 2]; [1]; [2; 3]; [2]; [3]]) by (vm_compute; reflexivity).
  destruct (lists64_ok _ _ _ _ E (or_introl eq_refl)) as (d & m & q & H1 & H2 & H3 & H4). exists (sq_out F64), d, m, q. split; [apply sq_triangulation|].
  split; [exact H1|]. split; [exact H2|]. split; [exact H3|]. rewrite H4. intros K. inversion_clear K as [|? ? K1 _]. apply K1. left. reflexivity.
Qed.

(** a rectangle with one seed, whose conforming triangulation is the wheel *)
Definition rect : list (Point RNum) := ([mkP (N := RNum) 0 0; mkP (N := RNum) 8 0; mkP (N := RNum) 8 6; mkP (N := RNum) 0 6])%R.
Definition r_rect : region RNum := ok_or (mkRegion (N := RNum) poly_none [] [] []) (region_ctor (N := RNum) 1%R rect).
Lemma r_rect_ok : region_ctor (N := RNum) 1%R rect = Ok r_rect.
Proof. unfold r_rect, region_ctor. destruct (proj2 (ctors_never_throw RNum 1%R [] rect)) as (g & -> & _). reflexivity. Qed.
Lemma r_rect_made : region_made r_rect.
Proof. exact (rm_ctor _ _ _ r_rect_ok). Qed.
Lemma r_rect_parts : rg_p r_rect = rect /\ rg_holes r_rect = [].
Proof. unfold r_rect, region_ctor. destruct (proj2 (ctors_never_throw RNum 1%R [] rect)) as (g & -> & _). split; reflexivity. Qed.
Lemma r_rect_points : getRegionPoints r_rect = rect.
Proof. unfold getRegionPoints. destruct r_rect_parts as [-> ->]. reflexivity. Qed.
Lemma rect_separated : separated (1 / 100000)%R (fun q => In q ([mkP (N := RNum) 3%R 2%R] ++ getRegionPoints r_rect)).
Proof.
  rewrite r_rect_points. apply integer_separated; [lra|]. unfold rect. cbn [app In]. intros q H.
  repeat destruct H as [<-|H]; try contradiction; do 2 eexists; split; reflexivity.
Qed.
Lemma wheel_answer : delaunay_answer (1 / 100000)%R (wheel_out RNum).
Proof.
  constructor; [apply wheel_triangulation|exact wheel_delaunay|apply wheel_fans| | |exact wheel_centers_apart].
  - apply integer_separated; [lra|]. rewrite wheel_points_R. intros q H. cbn [In] in H. repeat destruct H as [<-|H]; try contradiction; do 2 eexists; split; reflexivity.
  - rewrite wheel_points_R. intros i j a b Hi Hj D [C1 C2]. unfold xy in C1, C2; cbn [fst snd] in C1, C2.
    nth_cases; try (apply D; reflexivity); cbn [px py bp] in C1, C2; clear D; apply Rabs_def2 in C1, C2; lra.
Qed.
Lemma r_quad_fine : plan_fine (1 / 100000)%R (plan_of r_quad).
Proof. destruct r_quad_edges as [H1 H2]. split; [exact H1|]. cbn [pl_holes plan_of]. apply Forall_map. exact H2. Qed.
