(** The Voronoi generator and the center triangulation on doubles: properties C107, C108. *)
From Coq Require Import Reals Lra Lia ZArith List.
From Verif Require Import Base Spec SpecNum MUtil MGeom MHull MPolygon MMaps MTriangle MGen MRegion MDelaunay MVoronoi Bridge BridgeNum BridgeVor64.
From Verif Require Import PDelaunay PHist64 PCenter64 Samples Samples4 Samples5 Samples10 Samples12.
Import ListNotations.
Open Scope Z_scope.

(** C107 *)
Theorem C107_generator_on_doubles : forall (e m : Z) (tol : f64) fuel (triangulate : switches -> pslg F64 -> trout F64) (seeds : list (Point F64)) (r : region F64),
  -199 <= e <= 200 -> 0 <= m <= 16 -> tolerance64 tol -> region_made r -> clustered tol (fun q => In q (seeds ++ getRegionPoints r)) ->
  exists inp, build_pslg (N := F64) tol (region_copy r) seeds [] = Ok inp /\
    (forall q, In q (seeds ++ getRegionPoints r) -> exists y, In (xy64 y) (in_points inp) /\ near64 tol y q) /\
    let o := triangulate swConforming inp in
    delaunay_answer64 e m tol o -> (length (o_tris o) < fuel)%nat ->
    exists v mm, voronoiGenerator (N := F64) tol triangulate fuel seeds r = Ok (v, mm) /\
      ul_list (ms_points mm) = map read_point (o_points o) /\
      map (fun g : polygon F64 => pg_points g) (ms_polygons mm) = map corners (o_tris o) /\
      (vertices_apart tol o -> vertices_stored_once tol o ->
       Forall2 (fun k (g : polygon F64) => forall ws ts, closed_fan (map fst (o_edges o)) (o_tris o) k ws ts ->
        exists site zs vs, vertices_are (ul_list (ms_points mm)) [k] [site] /\ vertices_are (ul_list (ms_points v)) (pg_points g) vs /\
          (strictly_convex zs \/ strictly_convex (rev zs)) /\ (forall x, voronoi_region (map xyv (ul_list (ms_points mm))) (xyv site) x <-> in_hull zs x) /\
          map xyv vs = map rounded zs)
        (dedup (flat_map corners (o_tris o))) (ms_polygons v)) /\
      (sources_apart64 tol o ->
       Forall2 (fun k (g : polygon F64) => forall w ws w' ts, open_fan (o_edges o) (o_tris o) k w ws w' ts ->
        exists w1 w2 site a b zs vs, (w1 = w /\ w2 = w' \/ w1 = w' /\ w2 = w) /\ (exists t, In t (o_tris o) /\ In (k, w1) (sides t)) /\
          vertices_are (ul_list (ms_points mm)) [k; w1; w2] [site; a; b] /\ vertices_are (ul_list (ms_points v)) (pg_points g) vs /\
          map xyv vs = map rounded zs /\ (forall z, In z zs -> true_source o z) /\
          (gabriel_edge (map xyv (ul_list (ms_points mm))) (xyv site) (xyv a) -> gabriel_edge (map xyv (ul_list (ms_points mm))) (xyv site) (xyv b) ->
           convex_corner (xyv site) (xyv a) (xyv b) -> (forall s, In s (map xyv (ul_list (ms_points mm))) -> wedge (xyv site) (xyv a) (xyv b) s) ->
           (orient (xyv site) (xyv a) (xyv b) = 0 \/ 4 * val tol <= orient (xyv site) (xyv a) (xyv b))%R ->
           (strictly_convex zs \/ strictly_convex (rev zs)) /\
           forall x, in_hull zs x <-> voronoi_region (map xyv (ul_list (ms_points mm))) (xyv site) x /\ wedge (xyv site) (xyv a) (xyv b) x))
        (dedup (flat_map corners (o_tris o))) (ms_polygons v)).
Proof. exact generator64. Qed.
Print Assumptions C107_generator_on_doubles.

(** A rectangle with one seed; Triangle answers with four triangles around the seed. *)
Example C107_hypotheses_met :
  tolerance64 tol64 /\ region_made r_rect64 /\ clustered tol64 (fun q => In q ([zpt 3 2] ++ getRegionPoints r_rect64)) /\
  delaunay_answer64 0 4 tol64 (wheel_out F64) /\ vertices_apart tol64 (wheel_out F64) /\ vertices_stored_once tol64 (wheel_out F64) /\
  closed_fan (map fst (o_edges (wheel_out F64))) (o_tris (wheel_out F64)) 4 [0; 1; 2; 3] [0; 1; 2; 3]%nat /\
  match voronoiGenerator (N := F64) tol64 (fun _ _ => wheel_out F64) 5 [zpt 3 2] r_rect64 with
  | Ok (v, mm) => (map (fun g : polygon F64 => pg_points g) (ms_polygons v), map (fun g : polygon F64 => pg_points g) (ms_polygons mm))
  | Err _ => ([], [])
  end = ([[6; 5; 0; 3; 4]; [7; 1; 0; 5; 8]; [3; 0; 1; 2]; [9; 2; 1; 7; 10]; [4; 3; 2; 9; 11]], [[0; 1; 4]; [1; 2; 4]; [2; 3; 4]; [3; 0; 4]]).
Proof.
  split; [exact tol64_usable|]. split; [exact r_rect64_made|]. split; [exact rect64_clustered|]. split; [exact wheel_answer64|].
  split; [exact wheel_apart64|]. split; [exact wheel_once64|]. split; [apply wheel_inner|]. vm_compute. reflexivity.
Qed.

(** C108 *)
Theorem C108_center_triangulation_on_doubles : forall (e : Z) (tol : f64) (idx : list Z) (p vs : list (Point F64)),
  -200 <= e <= 200 -> vertices_are p idx vs -> Forall (grid_point e) vs -> (3 <= length idx <= 1024)%nat ->
  let turn := turn_at (map xyv vs) in let n := length vs in
  (turn 0%nat <> 0%R -> (exists i, (i < n)%nat /\ (turn 0%nat * turn i < 0)%R) ->
    exists msg, center_triangulate (N := F64) tol idx p = (p, Err (Throw msg))) /\
  ((forall i, (i < n)%nat -> 0 <= turn i)%R \/ (forall i, (i < n)%nat -> turn i <= 0)%R ->
    exists c ts, center_triangulate (N := F64) tol idx p = (p ++ [c], Ok ts) /\
      xyv c = rounded (sumR (map fst (map xyv vs)) / INR n, sumR (map snd (map xyv vs)) / INR n)%R /\
      map (fun t => pg_points (tr_poly t)) ts = map (fun s => [fst s; snd s; zlen p]) (edges_of idx) /\
      ((forall a b v, In (a, b) (edges_of vs) -> In v vs -> (0 <= orient (xyv a) (xyv b) (xyv v))%R) ->
       forall a b, In (a, b) (edges_of vs) -> (exists v, In v vs /\ (0 < orient (xyv a) (xyv b) (xyv v))%R) -> (0 < orient (xyv a) (xyv b) (xyv c))%R)).
Proof. exact center_triangulation64. Qed.
Print Assumptions C108_center_triangulation_on_doubles.

(** The average (5/3, 4/3) of this triangle is not a double. *)
Example C108_hypotheses_met :
  let vs := [zpt 0 0; zpt 4 0; zpt 1 4] in
  vertices_are vs [0; 1; 2] vs /\ Forall (grid_point 0) vs /\ (3 <= length vs <= 1024)%nat /\
  (forall i, (i < 3)%nat -> 0 <= turn_at (map xyv vs) i)%R /\
  (forall a b v, In (a, b) (edges_of vs) -> In v vs -> (0 <= orient (xyv a) (xyv b) (xyv v))%R) /\
  (forall a b, In (a, b) (edges_of vs) -> exists v, In v vs /\ (0 < orient (xyv a) (xyv b) (xyv v))%R) /\
  match center_triangulate (N := F64) tol64 [0; 1; 2] vs with
  | (p, Ok ts) => (length p, map (fun t => pg_points (tr_poly t)) ts)
  | (p, Err _) => (length p, [])
  end = (4%nat, [[0; 1; 3]; [1; 2; 3]; [2; 0; 3]]).
Proof.
  cbv zeta. split; [repeat constructor; cbn; lia|]. split; [repeat first [apply Forall_cons|apply Forall_nil]; apply zpt_grid; cbn; lia|]. split; [cbn; lia|].
  split; [|split; [|split]].
  - cbn [map]. rewrite !zpt_xyv by (cbn; lia). intros [|[|[|i]]] H; try lia; unfold turn_at, orient, vcross, vsub; cbn; lra.
  - unfold edges_of; cbn [app pairs In]. intros a b v H1 H2. repeat destruct H1 as [H1|H1]; try contradiction; injection H1 as <- <-;
    repeat destruct H2 as [<-|H2]; try contradiction; rewrite !zpt_xyv by (cbn; lia); unfold orient, vcross, vsub; cbn [fst snd]; lra.
  - unfold edges_of; cbn [app pairs In]. intros a b H1. repeat destruct H1 as [H1|H1]; try contradiction; injection H1 as <- <-;
    [exists (zpt 1 4)|exists (zpt 0 0)|exists (zpt 4 0)]; (split; [auto|]); rewrite !zpt_xyv by (cbn; lia); unfold orient, vcross, vsub; cbn [fst snd]; lra.
  - vm_compute. reflexivity.
Qed.
(** Polygon [dart] turns both ways: refused, the points unchanged. *)
Example C108_refused : exists msg, center_triangulate (N := F64) tol64 [0; 1; 2; 3; 4] dart = (dart, Err (Throw msg)).
Proof.
  apply (proj1 (C108_center_triangulation_on_doubles 0 tol64 [0; 1; 2; 3; 4] dart dart ltac:(lia) dart_vertices dart_grid ltac:(cbn; lia))).
  - rewrite dart_xyv. unfold turn_at, orient, vcross, vsub; cbn. lra.
  - exists 2%nat. rewrite dart_xyv. split; [cbn; lia|]. unfold turn_at, orient, vcross, vsub; cbn. lra.
Qed.
