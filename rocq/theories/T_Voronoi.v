(** Voronoi construction: properties C53, C54, C65. *)
From Coq Require Import Reals Lra.
From Verif Require Import Base Spec MUtil MGeom MHull MPolygon MMaps MTriangle MGen MRegion MDelaunay MVoronoi Bridge.
From Verif Require Import PDelaunay PVoronoi PFan Samples.
Open Scope Z_scope.

(** C53 *)
Theorem C53_cells : forall (N : Num) (tol : nT N) fuel (o : trout N) (d : delaunay N) (m : mesh N (polygon N)),
  triangulation (zlen (o_points o)) (map fst (o_edges o)) (o_tris o) -> read_output tol o = Ok d -> voronoi tol fuel d = Ok m ->
  Forall2 (fun v (g : polygon N) => NoDup (pg_points g) /\ pg_points g <> [] /\ Forall (cell_vertex tol o v (ul_list (ms_points m))) (pg_points g))
    (fold_left (set_add Z.eqb) (flat_map corners (o_tris o)) []) (ms_polygons m) /\
  (exists l, ul_list (ms_points m) = ul_list (dl_circumcenters d) ++ l) /\
  edges_linked (map (fun g : polygon N => pg_points g) (ms_polygons m)) (ms_edges m).
Proof. exact @voronoi_cells. Qed.
Print Assumptions C53_cells.

Example C53_hypotheses_met :
  triangulation (zlen (o_points (wheel_out F64))) (map fst (o_edges (wheel_out F64))) (o_tris (wheel_out F64)) /\
  cells64 (wheel_out F64) 5 = ([[6; 5; 0; 3; 4]; [7; 1; 0; 5; 8]; [3; 0; 1; 2]; [9; 2; 1; 7; 10]; [4; 3; 2; 9; 11]], 12).
Proof. split; [apply wheel_triangulation|vm_compute; reflexivity]. Qed.

(** C54 *)
Theorem C54_walk_around : forall (N : Num) (tol : nT N) fuel (o : trout N) (d : delaunay N) v ws ts,
  triangulation (zlen (o_points o)) (map fst (o_edges o)) (o_tris o) -> read_output tol o = Ok d ->
  closed_fan (map fst (o_edges o)) (o_tris o) v ws ts -> (length ts <= S fuel)%nat ->
  exists ci : nat -> Z, (forall k t, nth_error (o_tris o) k = Some t -> exists A B C c, vertices_are (map read_point (o_points o)) (corners t) [A; B; C] /\
       circumcenter A B C = Ok c /\ stands_at tol (ul_list (dl_circumcenters d)) (ci k) c) /\
    forall cell (cc : ulist (Point N)) m pm, (exists l, ul_list cc = ul_list (dl_circumcenters d) ++ l) ->
      exists (g : polygon N) (s : vstate), build_cell tol fuel d cell v cc m pm = Ok (g, s) /\ v_cc s = cc /\ inner_cell ci ts (pg_points g) (v_this s).
Proof. exact @closed_walk. Qed.
Print Assumptions C54_walk_around.

Example C54_hypotheses_met :
  triangulation (zlen (o_points (wheel_out RNum))) (map fst (o_edges (wheel_out RNum))) (o_tris (wheel_out RNum)) /\
  (exists d, read_output (N := RNum) (1 / 100000)%R (wheel_out RNum) = Ok d) /\
  closed_fan (map fst (o_edges (wheel_out RNum))) (o_tris (wheel_out RNum)) 4 [0; 1; 2; 3] [0; 1; 2; 3]%nat.
Proof. split; [apply wheel_triangulation|]. split; [apply read_output_total; [apply wheel_triangulation|exact wheel_proper]|apply wheel_inner]. Qed.

(** C65 *)
Theorem C65_diagram_is_built : forall (N : Num) (tol : nT N) fuel (o : trout N) (d : delaunay N),
  triangulation (zlen (o_points o)) (map fst (o_edges o)) (o_tris o) -> read_output tol o = Ok d ->
  (forall v, In v (flat_map corners (o_tris o)) -> (exists ws ts, closed_fan (map fst (o_edges o)) (o_tris o) v ws ts) \/
     (exists w ws w' ts, open_fan (o_edges o) (o_tris o) v w ws w' ts)) ->
  (length (o_tris o) < fuel)%nat ->
  exists (m : mesh N (polygon N)) (ci : nat -> Z) (gs : list (polygon N * list (Z * Z))), voronoi tol fuel d = Ok m /\
    (forall k t, nth_error (o_tris o) k = Some t -> exists A B C c, vertices_are (map read_point (o_points o)) (corners t) [A; B; C] /\
       circumcenter A B C = Ok c /\ stands_at tol (ul_list (ms_points m)) (ci k) c) /\
    map fst gs = ms_polygons m /\
    (forall nb s, um_find (iseg_match nb) s (ms_edges m) = spec_sm_run (cell_inserts 0 (map snd gs)) (canon s)) /\
    Forall2 (fun v gs =>
      (forall ws ts, closed_fan (map fst (o_edges o)) (o_tris o) v ws ts -> inner_cell ci ts (pg_points (fst gs)) (snd gs)) /\
      (forall w ws w' ts, open_fan (o_edges o) (o_tris o) v w ws w' ts ->
         border_cell tol o (ul_list (ms_points m)) ci v w w' ts (pg_points (fst gs)) (snd gs)))
      (dedup (flat_map corners (o_tris o))) gs.
Proof. exact @voronoi_total. Qed.
Print Assumptions C65_diagram_is_built.

Example C65_hypotheses_met :
  triangulation (zlen (o_points (wheel_out RNum))) (map fst (o_edges (wheel_out RNum))) (o_tris (wheel_out RNum)) /\
  (exists d, read_output (N := RNum) (1 / 100000)%R (wheel_out RNum) = Ok d) /\
  (forall v, In v (flat_map corners (o_tris (wheel_out RNum))) ->
     (exists ws ts, closed_fan (map fst (o_edges (wheel_out RNum))) (o_tris (wheel_out RNum)) v ws ts) \/
     (exists w ws w' ts, open_fan (o_edges (wheel_out RNum)) (o_tris (wheel_out RNum)) v w ws w' ts)).
Proof. split; [apply wheel_triangulation|]. split; [apply read_output_total; [apply wheel_triangulation|exact wheel_proper]|apply wheel_fans]. Qed.
