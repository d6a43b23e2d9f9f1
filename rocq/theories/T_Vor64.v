(** Voronoi cells computed on doubles: properties C100, C101. *)
From Coq Require Import Reals Lra.
From Verif Require Import Base Spec SpecNum MUtil MGeom MHull MPolygon MMaps MTriangle MGen MRegion MDelaunay MVoronoi Bridge BridgeNum BridgeVor64.
From Verif Require Import PDelaunay PVor64 PVor64b Samples Samples5 Samples10.
Open Scope Z_scope.

(** C100 *)
Theorem C100_inner_cells_on_doubles : forall (e m : Z) (tol : f64) fuel (o : trout F64), -200 <= e <= 200 -> 0 <= m <= 16 -> tolerance64 tol ->
  triangulation (zlen (o_points o)) (map fst (o_edges o)) (o_tris o) -> Forall (gpm e m) (map read_point (o_points o)) -> delaunay_output64 o ->
  (forall v, In v (flat_map corners (o_tris o)) -> (exists ws ts, closed_fan (map fst (o_edges o)) (o_tris o) v ws ts) \/
     (exists w ws w' ts, open_fan (o_edges o) (o_tris o) v w ws w' ts)) -> (length (o_tris o) < fuel)%nat ->
  exists d mm, read_output (N := F64) tol o = Ok d /\ voronoi (N := F64) tol fuel d = Ok mm /\
    Forall2 (fun v (g : polygon F64) => forall ws ts, closed_fan (map fst (o_edges o)) (o_tris o) v ws ts ->
      exists site zs vs, vertices_are (map read_point (o_points o)) [v] [site] /\ vertices_are (ul_list (ms_points mm)) (pg_points g) vs /\
        (forall x, voronoi_region (sites64 o) (xyv site) x <-> in_hull zs x) /\
        (forall z, In z zs -> exists q, In q vs /\ rounds_near tol q z) /\ (forall q, In q vs -> exists z, In z zs /\ rounds_near tol q z))
      (dedup (flat_map corners (o_tris o))) (ms_polygons mm).
Proof. exact inner_cells_near. Qed.
Print Assumptions C100_inner_cells_on_doubles.

Theorem C100_inner_cells_exactly_on_doubles : forall (e m : Z) (tol : f64) fuel (o : trout F64), -200 <= e <= 200 -> 0 <= m <= 16 -> tolerance64 tol ->
  triangulation (zlen (o_points o)) (map fst (o_edges o)) (o_tris o) -> Forall (gpm e m) (map read_point (o_points o)) -> delaunay_output64 o ->
  (forall v, In v (flat_map corners (o_tris o)) -> (exists ws ts, closed_fan (map fst (o_edges o)) (o_tris o) v ws ts) \/
     (exists w ws w' ts, open_fan (o_edges o) (o_tris o) v w ws w' ts)) -> (length (o_tris o) < fuel)%nat ->
  vertices_apart tol o -> vertices_stored_once tol o ->
  exists d mm, read_output (N := F64) tol o = Ok d /\ voronoi (N := F64) tol fuel d = Ok mm /\
    Forall2 (fun v (g : polygon F64) => forall ws ts, closed_fan (map fst (o_edges o)) (o_tris o) v ws ts ->
      exists site zs vs, vertices_are (map read_point (o_points o)) [v] [site] /\ vertices_are (ul_list (ms_points mm)) (pg_points g) vs /\
        (strictly_convex zs \/ strictly_convex (rev zs)) /\ (forall x, voronoi_region (sites64 o) (xyv site) x <-> in_hull zs x) /\
        map xyv vs = map rounded zs)
      (dedup (flat_map corners (o_tris o))) (ms_polygons mm).
Proof. exact inner_cells_exactly. Qed.
Print Assumptions C100_inner_cells_exactly_on_doubles.

(** a rectangle with a point inside *)
Example C100_hypotheses_met :
  tolerance64 tol64 /\ triangulation (zlen (o_points (wheel_out F64))) (map fst (o_edges (wheel_out F64))) (o_tris (wheel_out F64)) /\
  Forall (gpm 0 4) (map read_point (o_points (wheel_out F64))) /\ delaunay_output64 (wheel_out F64) /\
  (forall v, In v (flat_map corners (o_tris (wheel_out F64))) ->
     (exists ws ts, closed_fan (map fst (o_edges (wheel_out F64))) (o_tris (wheel_out F64)) v ws ts) \/
     (exists w ws w' ts, open_fan (o_edges (wheel_out F64)) (o_tris (wheel_out F64)) v w ws w' ts)) /\
  vertices_apart tol64 (wheel_out F64) /\ vertices_stored_once tol64 (wheel_out F64) /\
  closed_fan (map fst (o_edges (wheel_out F64))) (o_tris (wheel_out F64)) 4 [0; 1; 2; 3] [0; 1; 2; 3]%nat /\
  cells64 (wheel_out F64) 5 = ([[6; 5; 0; 3; 4]; [7; 1; 0; 5; 8]; [3; 0; 1; 2]; [9; 2; 1; 7; 10]; [4; 3; 2; 9; 11]], 12).
Proof.
  split; [exact tol64_usable|]. split; [apply wheel_triangulation|]. split; [exact wheel_gpm|]. split; [exact wheel_delaunay64|]. split; [apply wheel_fans|].
  split; [exact wheel_apart64|]. split; [exact wheel_once64|]. split; [apply wheel_inner|]. vm_compute. reflexivity.
Qed.

(** C101 *)
Theorem C101_border_cells_on_doubles : forall (e m : Z) (tol : f64) fuel (o : trout F64), -199 <= e <= 200 -> 0 <= m <= 16 -> tolerance64 tol ->
  triangulation (zlen (o_points o)) (map fst (o_edges o)) (o_tris o) -> Forall (gpm e m) (map read_point (o_points o)) -> delaunay_output64 o ->
  (forall v, In v (flat_map corners (o_tris o)) -> (exists ws ts, closed_fan (map fst (o_edges o)) (o_tris o) v ws ts) \/
     (exists w ws w' ts, open_fan (o_edges o) (o_tris o) v w ws w' ts)) -> (length (o_tris o) < fuel)%nat -> sources_apart64 tol o ->
  exists d mm, read_output (N := F64) tol o = Ok d /\ voronoi (N := F64) tol fuel d = Ok mm /\
    Forall2 (fun v (g : polygon F64) => forall w ws w' ts, open_fan (o_edges o) (o_tris o) v w ws w' ts ->
      exists w1 w2 site a b zs vs, (w1 = w /\ w2 = w' \/ w1 = w' /\ w2 = w) /\ (exists t, In t (o_tris o) /\ In (v, w1) (sides t)) /\
        vertices_are (map read_point (o_points o)) [v; w1; w2] [site; a; b] /\ vertices_are (ul_list (ms_points mm)) (pg_points g) vs /\
        map xyv vs = map rounded zs /\ (forall z, In z zs -> true_source o z) /\
        (gabriel_edge (sites64 o) (xyv site) (xyv a) -> gabriel_edge (sites64 o) (xyv site) (xyv b) -> convex_corner (xyv site) (xyv a) (xyv b) ->
         (forall s, In s (sites64 o) -> wedge (xyv site) (xyv a) (xyv b) s) ->
         (orient (xyv site) (xyv a) (xyv b) = 0 \/ 4 * val tol <= orient (xyv site) (xyv a) (xyv b))%R ->
         (strictly_convex zs \/ strictly_convex (rev zs)) /\
         forall x, in_hull zs x <-> voronoi_region (sites64 o) (xyv site) x /\ wedge (xyv site) (xyv a) (xyv b) x))
      (dedup (flat_map corners (o_tris o))) (ms_polygons mm).
Proof. exact border_cells_exactly. Qed.
Print Assumptions C101_border_cells_on_doubles.

(** the corner (0, 0) of a square *)
Example C101_hypotheses_met :
  tolerance64 tol64 /\ triangulation (zlen (o_points (sq_out F64))) (map fst (o_edges (sq_out F64))) (o_tris (sq_out F64)) /\
  Forall (gpm 0 4) (map read_point (o_points (sq_out F64))) /\ delaunay_output64 (sq_out F64) /\
  (forall v, In v (flat_map corners (o_tris (sq_out F64))) ->
     (exists ws ts, closed_fan (map fst (o_edges (sq_out F64))) (o_tris (sq_out F64)) v ws ts) \/
     (exists w ws w' ts, open_fan (o_edges (sq_out F64)) (o_tris (sq_out F64)) v w ws w' ts)) /\
  sources_apart64 tol64 (sq_out F64) /\
  (gabriel_edge (sites64 (sq_out F64)) (0, 0)%R (4, 0)%R /\ gabriel_edge (sites64 (sq_out F64)) (0, 0)%R (0, 4)%R /\
   convex_corner (0, 0)%R (4, 0)%R (0, 4)%R /\ (forall s, In s (sites64 (sq_out F64)) -> wedge (0, 0)%R (4, 0)%R (0, 4)%R s) /\
   (4 * val tol64 <= orient (0, 0) (4, 0) (0, 4))%R) /\
  cells64 (sq_out F64) 5 = ([[3; 2; 0; 1]; [4; 0; 2; 5]; [6; 0; 4; 7]; [1; 0; 6; 8]], 9).
Proof.
  split; [exact tol64_usable|]. split; [apply sq_triangulation|]. split; [exact sq_gpm|]. split; [exact sq_delaunay64|]. split; [exact sq_fans64|].
  split; [exact sq_apart_sources|]. split; [exact sq_corner64|]. vm_compute. reflexivity.
Qed.
