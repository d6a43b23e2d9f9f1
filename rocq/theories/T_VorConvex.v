(** The shape of the Voronoi cells and point location in them: properties C91, C92. *)
From Coq Require Import Reals Lra.
From Verif Require Import Base Spec MUtil MGeom MHull MPolygon MMaps MTriangle MGen MRegion MDelaunay MVoronoi Bridge.
From Verif Require Import PDelaunay PVoronoi PFan PVorCell PVorConvex PVorLocate Samples Samples6.
Open Scope Z_scope.

(** C91 *)
Theorem C91_cells_not_clockwise : forall (tol : R) fuel (o : trout RNum) (d : delaunay RNum) (m : mesh RNum (polygon RNum)),
  triangulation (zlen (o_points o)) (map fst (o_edges o)) (o_tris o) -> read_output (N := RNum) tol o = Ok d -> voronoi (N := RNum) tol fuel d = Ok m ->
  Forall (fun g => exists vs, vertices_are (ul_list (ms_points m)) (pg_points g) vs /\ (0 <= shoelace (map xy vs))%R) (ms_polygons m).
Proof. exact voronoi_not_clockwise. Qed.
Print Assumptions C91_cells_not_clockwise.

Theorem C91_inner_cells_convex : forall (tol : R) fuel (o : trout RNum) (d : delaunay RNum), (0 < tol)%R -> centers_apart tol o -> centers_stored_once tol o ->
  triangulation (zlen (o_points o)) (map fst (o_edges o)) (o_tris o) -> delaunay_output o -> read_output (N := RNum) tol o = Ok d ->
  (forall v, In v (flat_map corners (o_tris o)) -> (exists ws ts, closed_fan (map fst (o_edges o)) (o_tris o) v ws ts) \/
     (exists w ws w' ts, open_fan (o_edges o) (o_tris o) v w ws w' ts)) -> (length (o_tris o) < fuel)%nat ->
  exists m, voronoi (N := RNum) tol fuel d = Ok m /\
    Forall2 (fun v (g : polygon RNum) => forall ws ts, closed_fan (map fst (o_edges o)) (o_tris o) v ws ts ->
      exists vs, vertices_are (ul_list (ms_points m)) (pg_points g) vs /\ strictly_convex (map xy vs) /\ no_short_edge tol (map xy vs))
      (dedup (flat_map corners (o_tris o))) (ms_polygons m).
Proof. exact inner_cells_convex. Qed.
Print Assumptions C91_inner_cells_convex.

Example C91_hypotheses_met :
  centers_apart (1 / 100000)%R (wheel_out RNum) /\ centers_stored_once (1 / 100000)%R (wheel_out RNum) /\ delaunay_output (wheel_out RNum) /\
  triangulation (zlen (o_points (wheel_out RNum))) (map fst (o_edges (wheel_out RNum))) (o_tris (wheel_out RNum)) /\
  (exists d m, read_output (N := RNum) (1 / 100000)%R (wheel_out RNum) = Ok d /\ voronoi (N := RNum) (1 / 100000)%R 5 d = Ok m) /\
  (forall v, In v (flat_map corners (o_tris (wheel_out RNum))) ->
     (exists ws ts, closed_fan (map fst (o_edges (wheel_out RNum))) (o_tris (wheel_out RNum)) v ws ts) \/
     (exists w ws w' ts, open_fan (o_edges (wheel_out RNum)) (o_tris (wheel_out RNum)) v w ws w' ts)) /\
  closed_fan (map fst (o_edges (wheel_out RNum))) (o_tris (wheel_out RNum)) 4 [0; 1; 2; 3] [0; 1; 2; 3]%nat.
Proof.
  split; [exact wheel_centers_apart|]. split; [exact wheel_stored_once|]. split; [exact wheel_delaunay|]. split; [apply wheel_triangulation|].
  split; [|split; [apply wheel_fans|apply wheel_inner]].
  destruct (read_output_total (1 / 100000)%R (wheel_out RNum) (wheel_triangulation RNum) wheel_proper) as (d & RO).
  destruct (inner_regions (1 / 100000)%R 5 (wheel_out RNum) d ltac:(lra) (wheel_triangulation RNum) wheel_delaunay RO (wheel_fans RNum) ltac:(cbn; lia)) as (m & V & _).
  exists d, m. split; assumption.
Qed.

(** C92 *)
Theorem C92_nearest_site : forall (tol : R) fuel (o : trout RNum) (d : delaunay RNum), (0 < tol)%R -> centers_apart tol o -> centers_stored_once tol o ->
  triangulation (zlen (o_points o)) (map fst (o_edges o)) (o_tris o) -> delaunay_output o -> read_output (N := RNum) tol o = Ok d ->
  (forall v, In v (flat_map corners (o_tris o)) -> (exists ws ts, closed_fan (map fst (o_edges o)) (o_tris o) v ws ts) \/
     (exists w ws w' ts, open_fan (o_edges o) (o_tris o) v w ws w' ts)) -> (length (o_tris o) < fuel)%nat ->
  exists m, voronoi (N := RNum) tol fuel d = Ok m /\
    Forall2 (fun v (g : polygon RNum) => forall ws ts, closed_fan (map fst (o_edges o)) (o_tris o) v ws ts ->
      exists site vs, vertices_are (map read_point (o_points o)) [v] [site] /\ vertices_are (ul_list (ms_points m)) (pg_points g) vs /\ forall q : Point RNum,
        ((forall s, In s (output_sites o) -> s <> xy site -> (dist (xy q) (xy site) < dist (xy q) s)%R) ->
           containsPoint (N := RNum) tol (pg_points g) (ul_list (ms_points m)) q = Ok true) /\
        ((exists s, In s (output_sites o) /\ (dist (xy q) s < dist (xy q) (xy site))%R) ->
           exists b, containsPoint (N := RNum) tol (pg_points g) (ul_list (ms_points m)) q = Ok b /\ (b = true <-> near_border tol (xy q) (map xy vs))))
      (dedup (flat_map corners (o_tris o))) (ms_polygons m).
Proof. exact inner_location. Qed.
Print Assumptions C92_nearest_site.

(** the theorem applies to the wheel by the example of C91; a point on either side *)
Example C92_hypotheses_met :
  (forall s, In s (output_sites (wheel_out RNum)) -> s <> (3, 2)%R -> (dist (7 / 2, 5 / 2) (3, 2) < dist (7 / 2, 5 / 2) s)%R) /\
  (exists s, In s (output_sites (wheel_out RNum)) /\ (dist (1 / 4, 1 / 4) s < dist (1 / 4, 1 / 4) (3, 2))%R).
Proof. exact wheel_sides. Qed.
