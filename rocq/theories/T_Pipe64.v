(** Order, maps, planar graph, circumcenters and mesh on doubles: properties C81, C82, C83, C84. *)
From Coq Require Import Reals Lra Lia ZArith SpecFloat List Bool.
From Flocq Require Import Core BinarySingleNaN.
From Verif Require Import Base Spec MUtil MGeom MHull MPolygon MMaps MTriangle MGen MRegion MDelaunay Bridge BridgeNum.
From Verif Require Import PCircum PPipe64 Samples Samples4 Samples5.
Import ListNotations.
Local Open Scope Z_scope.

(** C81: containers of points on doubles any two of which are clearly close or clearly apart. *)
Theorem C81_order_on_doubles : forall tol, tolerance64 tol -> forall P, clustered tol P ->
  strict_weak_order_on P (pt_ltb (N := F64) tol) /\
  (forall a b, P a -> P b -> (pt_eqb (N := F64) tol a b = true <-> near64 tol a b) /\ (equivb (pt_ltb (N := F64) tol) a b = true <-> near64 tol a b)) /\
  (forall a b, P a -> P b -> (pt_ltb (N := F64) tol a b = true <->
     (val (px a) + val tol <= val (px b) \/ Rabs (val (px a) - val (px b)) < val tol /\ val (py a) + val tol <= val (py b))%R)).
Proof. exact order_doubles. Qed.
Print Assumptions C81_order_on_doubles.

Theorem C81_unique_list_on_doubles : forall tol, tolerance64 tol -> forall P, clustered tol P ->
  forall h : list (set_op (Point F64)), (forall o, In o h -> forall x, In x (set_op_elems o) -> P x) ->
  exists u, ul_run (pt_ltb (N := F64) tol) h = Ok u /\ ul_list u = set_run (pt_eqb (N := F64) tol) h /\ apart_by (near64 tol) (ul_list u) /\
    (forall x, P x -> (ul_contains (pt_ltb (N := F64) tol) u x = true <-> exists y, In y (ul_list u) /\ near64 tol x y)).
Proof. exact unique_doubles. Qed.
Print Assumptions C81_unique_list_on_doubles.

Theorem C81_point_map_on_doubles : forall tol, tolerance64 tol -> forall P, clustered tol P ->
  forall h : list (pm_op F64), (forall o, In o h -> P (pm_op_point o)) ->
  (forall p, P p -> snd (pm_get (N := F64) tol (pm_run (N := F64) tol h) p) = pm_collected (pt_eqb (N := F64) tol) p h) /\
  pm_size (pm_run (N := F64) tol h) = zlen (fold_left (set_add (pt_eqb (N := F64) tol)) (map pm_op_point h) []).
Proof. exact pointmap_doubles. Qed.
Print Assumptions C81_point_map_on_doubles.

(** every grid whose step is at least the tolerance qualifies *)
Theorem C81_grids_qualify : forall e tol, -200 <= e <= 200 -> (val tol <= bpow radix2 e)%R -> (0 < val tol)%R -> clustered tol (grid_point e).
Proof. exact grid_clustered. Qed.
Print Assumptions C81_grids_qualify.

Example C81_hypotheses_met :
  tolerance64 tol64 /\ clustered tol64 (fun q => In q crowd) /\
  near64 tol64 (zpt 0 0) (mkP (N := F64) eps64 neps64) /\ ~ near64 tol64 (zpt 0 0) (zpt 1 1).
Proof. exact (conj tol64_usable (conj crowd_clustered crowd_near)). Qed.

(** C82: the planar graph handed to the triangulator. *)
Theorem C82_planar_graph_on_doubles : forall tol, tolerance64 tol ->
  forall (r : region F64) (seeds : list (Point F64)) (restricted : list (pseg F64)),
  region_made r -> clustered tol (fun q => In q (seeds ++ getRegionPoints r ++ flat_map (fun s : pseg F64 => [fst s; snd s]) restricted)) ->
  exists pl ssegs rsegs vs,
    build_pslg (N := F64) tol r seeds restricted =
      Ok (mkPslg (N := F64) (map xy64 pl) (ssegs ++ rsegs) (map (fun h : hole F64 => xy64 (h_center h)) (rg_holes r))) /\
    apart_by (near64 tol) pl /\ incl pl (seeds ++ getRegionPoints r) /\
    (forall q, In q (seeds ++ getRegionPoints r) -> exists y, In y pl /\ near64 tol y q) /\
    (vs = rg_p r \/ vs = rev (rg_p r)) /\
    Forall2 (denotes_by (near64 tol) pl) ssegs (edges_of vs ++ flat_map (fun h : hole F64 => edges_of (h_points h)) (rg_holes r)) /\
    Forall2 (fun s (e : pseg F64) => index_by (near64 tol) pl (fst e) (fst s) /\ index_by (near64 tol) pl (snd e) (snd s)) rsegs restricted.
Proof. exact pslg_doubles. Qed.
Print Assumptions C82_planar_graph_on_doubles.

Example C82_hypotheses_met :
  tolerance64 tol64 /\ region_made r_dart /\
  clustered tol64 (fun q => In q ([zpt 2 2; zpt 8 6] ++ getRegionPoints r_dart ++ flat_map (fun s : pseg F64 => [fst s; snd s]) [(zpt 2 2, zpt 8 6); (zpt 2 2, zpt 9 9)])).
Proof. exact (conj tol64_usable (conj r_dart_made r_dart_clustered)). Qed.

Example C82_computed :
  match build_pslg (N := F64) tol64 r_dart [zpt 2 2; zpt 8 6] [(zpt 2 2, zpt 8 6); (zpt 2 2, zpt 9 9)] with
  | Ok g => in_segments g = [(2, 3); (3, 1); (1, 4); (4, 5); (5, 2); (6, 7); (7, 8); (8, 6); (0, 1); (0, -1)] /\ zlen (in_points g) = 9
  | Err _ => False
  end.
Proof. vm_compute. auto. Qed.

(** C83: circumcenters. *)
Theorem C83_circumcenter_is_nearest : forall e, -200 <= e <= 200 -> forall m, 0 <= m <= 16 -> forall A B C : Point F64,
  gpm e m A -> gpm e m B -> gpm e m C -> orient (xyv A) (xyv B) (xyv C) <> 0%R ->
  exists c z, circumcenter (N := F64) A B C = Ok c /\
    dist z (xyv A) = dist z (xyv B) /\ dist z (xyv B) = dist z (xyv C) /\
    (forall q, dist q (xyv A) = dist q (xyv B) -> dist q (xyv B) = dist q (xyv C) -> q = z) /\
    fin (px c) /\ fin (py c) /\ xyv c = (nearest (fst z), nearest (snd z)) /\
    (Rabs (fst z) <= bpow radix2 (52 + e) /\ Rabs (snd z) <= bpow radix2 (52 + e))%R.
Proof. exact circumcenter_rounded. Qed.
Print Assumptions C83_circumcenter_is_nearest.

(** on the wider grid: finite exactly when the triangle is not flat *)
Theorem C83_flat_triangles_only : forall e, -200 <= e <= 200 -> forall A B C : Point F64,
  grid_point e A -> grid_point e B -> grid_point e C ->
  (orient (xyv A) (xyv B) (xyv C) <> 0%R -> exists c, circumcenter (N := F64) A B C = Ok c) /\
  (orient (xyv A) (xyv B) (xyv C) = 0%R -> circumcenter (N := F64) A B C = Err NonFinite).
Proof. exact circumcenter_total. Qed.
Print Assumptions C83_flat_triangles_only.

Example C83_hypotheses_met :
  gpm 0 4 (bz 0 0) /\ gpm 0 4 (bz 7 0) /\ gpm 0 4 (bz 2 3) /\ orient (xyv (bz 0 0)) (xyv (bz 7 0)) (xyv (bz 2 3)) <> 0%R /\
  grid_point 0 (bz 4 4) /\ orient (xyv (bz 0 0)) (xyv (bz 4 4)) (xyv (bz 9 9)) = 0%R.
Proof.
  do 3 (split; [apply bz_gpm; cbn; lia|]). split; [rewrite !bz_xyv by (cbn; lia); unfold orient, vcross, vsub; cbn [fst snd]; lra|].
  split; [apply bz_grid; cbn; lia|]. rewrite !bz_xyv by (cbn; lia); unfold orient, vcross, vsub; cbn [fst snd]; lra.
Qed.

(** C84: reading the triangulator's answer and building the mesh. *)
Theorem C84_output_is_read_on_doubles : forall e, -200 <= e <= 200 -> forall (tol : f64) (o : trout F64),
  triangulation (zlen (o_points o)) (map fst (o_edges o)) (o_tris o) -> Forall (grid_point e) (map read_point (o_points o)) ->
  (forall t A B C, In t (o_tris o) -> vertices_are (map read_point (o_points o)) (corners t) [A; B; C] -> orient (xyv A) (xyv B) (xyv C) <> 0%R) ->
  exists d, read_output (N := F64) tol o = Ok d.
Proof. exact output_doubles. Qed.
Print Assumptions C84_output_is_read_on_doubles.

Theorem C84_mesh_on_doubles : forall tol, tolerance64 tol -> forall (o : trout F64) (d : delaunay F64),
  triangulation (zlen (o_points o)) (map fst (o_edges o)) (o_tris o) -> read_output (N := F64) tol o = Ok d ->
  clustered tol (fun q => In q (map read_point (o_points o))) -> apart_by (near64 tol) (map read_point (o_points o)) ->
  exists m mt, initializeMesh (N := F64) tol (polygon_ctor_idx (N := F64) tol) d = Ok m /\ initializeMesh (N := F64) tol (triangle_ctor (N := F64) tol) d = Ok mt /\
    ul_list (ms_points m) = map read_point (o_points o) /\ ul_list (ms_points mt) = map read_point (o_points o) /\
    map (fun g : polygon F64 => pg_points g) (ms_polygons m) = map corners (o_tris o) /\
    map (fun g : triangle F64 => pg_points (tr_poly g)) (ms_polygons mt) = map corners (o_tris o) /\
    ms_edges m = dl_delaunayEdges d /\ ms_edges mt = dl_delaunayEdges d /\
    forall k q, nth_error (map read_point (o_points o)) k = Some q ->
      snd (pm_get (N := F64) tol (ms_pointMap m) q) = positions (fun t => existsb (Z.eqb (Z.of_nat k)) (corners t)) (o_tris o) 0 /\
      snd (pm_get (N := F64) tol (ms_pointMap mt) q) = positions (fun t => existsb (Z.eqb (Z.of_nat k)) (corners t)) (o_tris o) 0.
Proof. exact mesh_doubles. Qed.
Print Assumptions C84_mesh_on_doubles.

Theorem C84_coinciding_points_on_doubles : forall tol, tolerance64 tol -> forall (o : trout F64) (d : delaunay F64),
  triangulation (zlen (o_points o)) (map fst (o_edges o)) (o_tris o) -> read_output (N := F64) tol o = Ok d ->
  clustered tol (fun q => In q (map read_point (o_points o))) ->
  (Forall (fun t => spread_by (near64 tol) (map read_point (o_points o)) (corners t)) (o_tris o) ->
   exists m, initializeMesh (N := F64) tol (triangle_ctor (N := F64) tol) d = Ok m /\
     ul_list (ms_points m) = fold_left (set_add (pt_eqb (N := F64) tol)) (map read_point (o_points o)) [] /\
     ms_edges m = dl_delaunayEdges d /\
     Forall2 (fun t (g : triangle F64) => Forall2 (fun k i => exists q, nth_error (map read_point (o_points o)) (Z.to_nat k) = Some q /\
         index_by (near64 tol) (ul_list (ms_points m)) q i /\ 0 <= i) (corners t) (pg_points (tr_poly g))) (o_tris o) (ms_polygons m)) /\
  (Exists (fun t => ~ spread_by (near64 tol) (map read_point (o_points o)) (corners t)) (o_tris o) ->
   initializeMesh (N := F64) tol (triangle_ctor (N := F64) tol) d = Err (Throw integrity_msg)).
Proof. exact mesh_any_doubles. Qed.
Print Assumptions C84_coinciding_points_on_doubles.

Example C84_hypotheses_met :
  triangulation (zlen (o_points (sq_out F64))) (map fst (o_edges (sq_out F64))) (o_tris (sq_out F64)) /\
  Forall (grid_point 0) (map read_point (o_points (sq_out F64))) /\
  (forall t A B C, In t (o_tris (sq_out F64)) -> vertices_are (map read_point (o_points (sq_out F64))) (corners t) [A; B; C] -> orient (xyv A) (xyv B) (xyv C) <> 0%R) /\
  (tolerance64 tol64 /\ (exists d, read_output (N := F64) tol64 (sq_out F64) = Ok d) /\
   clustered tol64 (fun q => In q (map read_point (o_points (sq_out F64)))) /\ apart_by (near64 tol64) (map read_point (o_points (sq_out F64))) /\
   Forall (fun t => spread_by (near64 tol64) (map read_point (o_points (sq_out F64))) (corners t)) (o_tris (sq_out F64))) /\
  (tolerance64 nine /\ (exists d, read_output (N := F64) nine (sq_out F64) = Ok d) /\
   clustered nine (fun q => In q (map read_point (o_points (sq_out F64)))) /\
   Exists (fun t => ~ spread_by (near64 nine) (map read_point (o_points (sq_out F64))) (corners t)) (o_tris (sq_out F64))).
Proof.
  split; [apply sq_triangulation|]. split; [exact sq_grid|]. split; [exact sq_proper64|].
  split; [exact (conj tol64_usable (conj (sq_read64 tol64) (conj sq_clustered (conj sq_apart64 sq_spread64))))|].
  exact (conj nine_usable (conj (sq_read64 nine) sq_close64)).
Qed.
