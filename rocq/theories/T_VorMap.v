(** The cells around a vertex of the diagram: property C95. *)
From Coq Require Import Reals Lra.
From Verif Require Import Base Spec SpecNum MUtil MGeom MHull MPolygon MMaps MTriangle MGen MRegion MDelaunay MVoronoi Bridge BridgeNum.
From Verif Require Import PDelaunay PVorMap Samples Samples5 Samples7 Samples8.
Open Scope Z_scope.

(** C95 *)
Theorem C95_cells_at_a_vertex : forall (tol : R) fuel (o : trout RNum) (d : delaunay RNum) (m : mesh RNum (polygon RNum)), (0 < tol)%R ->
  separated tol (vertex_source o) -> triangulation (zlen (o_points o)) (map fst (o_edges o)) (o_tris o) ->
  read_output (N := RNum) tol o = Ok d -> voronoi (N := RNum) tol fuel d = Ok m ->
  forall i q, vertices_are (ul_list (ms_points m)) [i] [q] ->
  forall c, In c (snd (pm_get (N := RNum) tol (ms_pointMap m) q)) <->
    exists g : polygon RNum, 0 <= c /\ nth_error (ms_polygons m) (Z.to_nat c) = Some g /\ In i (pg_points g).
Proof. exact vertex_cells_real. Qed.
Print Assumptions C95_cells_at_a_vertex.

Theorem C95_cells_at_a_vertex_doubles : forall (tol : f64) fuel (o : trout F64) (d : delaunay F64) (m : mesh F64 (polygon F64)), tolerance64 tol ->
  clustered tol (vertex_source o) -> triangulation (zlen (o_points o)) (map fst (o_edges o)) (o_tris o) ->
  read_output (N := F64) tol o = Ok d -> voronoi (N := F64) tol fuel d = Ok m ->
  forall i q, vertices_are (ul_list (ms_points m)) [i] [q] ->
  forall c, In c (snd (pm_get (N := F64) tol (ms_pointMap m) q)) <->
    exists g : polygon F64, 0 <= c /\ nth_error (ms_polygons m) (Z.to_nat c) = Some g /\ In i (pg_points g).
Proof. exact vertex_cells_doubles. Qed.
Print Assumptions C95_cells_at_a_vertex_doubles.

(** but a cell may be listed several times at one vertex *)
Theorem C95_once_refuted : exists (o : trout F64) (d : delaunay F64) (m : mesh F64 (polygon F64)) q,
  triangulation (zlen (o_points o)) (map fst (o_edges o)) (o_tris o) /\ read_output (N := F64) tol64 o = Ok d /\
  voronoi (N := F64) tol64 5 d = Ok m /\ In q (ul_list (ms_points m)) /\ ~ NoDup (snd (pm_get (N := F64) tol64 (ms_pointMap m) q)).
Proof. exact listed_twice. Qed.
Print Assumptions C95_once_refuted.

Example C95_hypotheses_met :
  separated (1 / 100000)%R (vertex_source (wheel_out RNum)) /\
  triangulation (zlen (o_points (wheel_out RNum))) (map fst (o_edges (wheel_out RNum))) (o_tris (wheel_out RNum)) /\
  (exists d, read_output (N := RNum) (1 / 100000)%R (wheel_out RNum) = Ok d) /\
  tolerance64 tol64 /\ clustered tol64 (vertex_source (sq_out F64)) /\
  cells64 (sq_out F64) 5 = ([[3; 2; 0; 1]; [4; 0; 2; 5]; [6; 0; 4; 7]; [1; 0; 6; 8]], 9) /\
  lists64 (sq_out F64) 5 = [[0; 0; 0; 1; 1; 2; 2; 2; 3; 3]; [0; 3]; [0; 1]; [0]; [1; 2]; [1]; [2; 3]; [2]; [3]].
Proof.
  split; [exact (proj1 wheel_sources)|]. split; [apply wheel_triangulation|]. split; [apply read_output_total; [apply wheel_triangulation|exact wheel_proper]|].
  split; [exact tol64_usable|]. split; [exact sq_vertices_clustered|]. split; vm_compute; reflexivity.
Qed.
