(** The Voronoi cells at the border and point location in them: properties C93, C94. *)
From Coq Require Import Reals Lra.
From Verif Require Import Base Spec MUtil MGeom MHull MPolygon MMaps MTriangle MGen MRegion MDelaunay MVoronoi Bridge.
From Verif Require Import PDelaunay PVoronoi PFan PVorCell PVorBorder Samples Samples6 Samples7.
Open Scope Z_scope.

(** C93 *)
Theorem C93_border_cells_convex : forall (tol : R) fuel (o : trout RNum) (d : delaunay RNum), (0 < tol)%R -> sources_apart tol o ->
  triangulation (zlen (o_points o)) (map fst (o_edges o)) (o_tris o) -> delaunay_output o -> read_output (N := RNum) tol o = Ok d ->
  (forall v, In v (flat_map corners (o_tris o)) -> (exists ws ts, closed_fan (map fst (o_edges o)) (o_tris o) v ws ts) \/
     (exists w ws w' ts, open_fan (o_edges o) (o_tris o) v w ws w' ts)) -> (length (o_tris o) < fuel)%nat ->
  exists m, voronoi (N := RNum) tol fuel d = Ok m /\
    Forall2 (fun v (g : polygon RNum) => forall w ws w' ts, open_fan (o_edges o) (o_tris o) v w ws w' ts ->
      exists w1 w2 site a b vs, (w1 = w /\ w2 = w' \/ w1 = w' /\ w2 = w) /\ (exists t, In t (o_tris o) /\ In (v, w1) (sides t)) /\
        vertices_are (map read_point (o_points o)) [v; w1; w2] [site; a; b] /\ vertices_are (ul_list (ms_points m)) (pg_points g) vs /\
        (gabriel_edge (output_sites o) (xy site) (xy a) -> gabriel_edge (output_sites o) (xy site) (xy b) -> convex_corner (xy site) (xy a) (xy b) ->
         (forall s, In s (output_sites o) -> wedge (xy site) (xy a) (xy b) s) ->
         (orient (xy site) (xy a) (xy b) = 0 \/ 4 * tol <= orient (xy site) (xy a) (xy b))%R ->
         strictly_convex (map xy vs) /\ no_short_edge tol (map xy vs) /\
         forall x, in_hull (map xy vs) x <-> voronoi_region (output_sites o) (xy site) x /\ wedge (xy site) (xy a) (xy b) x))
      (dedup (flat_map corners (o_tris o))) (ms_polygons m).
Proof. exact border_cells_convex. Qed.
Print Assumptions C93_border_cells_convex.

(** the corner (0, 0) of a square *)
Example C93_hypotheses_met :
  sources_apart (1 / 100000)%R (sq_out RNum) /\ delaunay_output (sq_out RNum) /\
  triangulation (zlen (o_points (sq_out RNum))) (map fst (o_edges (sq_out RNum))) (o_tris (sq_out RNum)) /\
  (exists d, read_output (N := RNum) (1 / 100000)%R (sq_out RNum) = Ok d) /\
  (forall v, In v (flat_map corners (o_tris (sq_out RNum))) ->
     (exists ws ts, closed_fan (map fst (o_edges (sq_out RNum))) (o_tris (sq_out RNum)) v ws ts) \/
     (exists w ws w' ts, open_fan (o_edges (sq_out RNum)) (o_tris (sq_out RNum)) v w ws w' ts)) /\
  (gabriel_edge (output_sites (sq_out RNum)) (0, 0)%R (4, 0)%R /\ gabriel_edge (output_sites (sq_out RNum)) (0, 0)%R (0, 4)%R /\
   convex_corner (0, 0)%R (4, 0)%R (0, 4)%R) /\
  (forall s, In s (output_sites (sq_out RNum)) -> wedge (0, 0)%R (4, 0)%R (0, 4)%R s) /\ (4 * (1 / 100000) <= orient (0, 0) (4, 0) (0, 4))%R.
Proof.
  split; [exact sq_sources|]. split; [exact sq_delaunay|]. split; [apply sq_triangulation|]. split; [apply read_output_total; [apply sq_triangulation|exact sq_proper]|].
  split; [exact sq_fans|]. split; [exact sq_gabriel|]. split; [exact sq_wedge|]. unfold orient, vcross, vsub; cbn [fst snd]; lra.
Qed.

(** without the empty diametral circles the cell may cross itself *)
Theorem C93_wide_edges_refuted : exists (o : trout RNum) d m g vs a b c e, sources_apart (1 / 100000)%R o /\ triangulation (zlen (o_points o)) (map fst (o_edges o)) (o_tris o) /\ delaunay_output o /\
  read_output (N := RNum) (1 / 100000)%R o = Ok d /\ voronoi (N := RNum) (1 / 100000)%R 5 d = Ok m /\
  In g (ms_polygons m) /\ vertices_are (ul_list (ms_points m)) (pg_points g) vs /\
  In (a, b) (edges_of (map xy vs)) /\ In (c, e) (edges_of (map xy vs)) /\ crossing a b c e.
Proof. exact wheel_crosses. Qed.
Print Assumptions C93_wide_edges_refuted.

(** C94 *)
Theorem C94_nearest_corner_site : forall (tol : R) fuel (o : trout RNum) (d : delaunay RNum), (0 < tol)%R -> sources_apart tol o ->
  triangulation (zlen (o_points o)) (map fst (o_edges o)) (o_tris o) -> delaunay_output o -> read_output (N := RNum) tol o = Ok d ->
  (forall v, In v (flat_map corners (o_tris o)) -> (exists ws ts, closed_fan (map fst (o_edges o)) (o_tris o) v ws ts) \/
     (exists w ws w' ts, open_fan (o_edges o) (o_tris o) v w ws w' ts)) -> (length (o_tris o) < fuel)%nat ->
  exists m, voronoi (N := RNum) tol fuel d = Ok m /\
    Forall2 (fun v (g : polygon RNum) => forall w ws w' ts, open_fan (o_edges o) (o_tris o) v w ws w' ts ->
      exists w1 w2 site a b vs, (w1 = w /\ w2 = w' \/ w1 = w' /\ w2 = w) /\ (exists t, In t (o_tris o) /\ In (v, w1) (sides t)) /\
        vertices_are (map read_point (o_points o)) [v; w1; w2] [site; a; b] /\ vertices_are (ul_list (ms_points m)) (pg_points g) vs /\
        (gabriel_edge (output_sites o) (xy site) (xy a) -> gabriel_edge (output_sites o) (xy site) (xy b) -> convex_corner (xy site) (xy a) (xy b) ->
         (forall s, In s (output_sites o) -> wedge (xy site) (xy a) (xy b) s) ->
         (orient (xy site) (xy a) (xy b) = 0 \/ 4 * tol <= orient (xy site) (xy a) (xy b))%R ->
         forall q : Point RNum,
         ((forall s, In s (output_sites o) -> s <> xy site -> (dist (xy q) (xy site) < dist (xy q) s)%R) ->
            (0 < orient (xy site) (xy a) (xy q))%R -> (orient (xy site) (xy b) (xy q) < 0)%R ->
            containsPoint (N := RNum) tol (pg_points g) (ul_list (ms_points m)) q = Ok true) /\
         ((exists s, In s (output_sites o) /\ (dist (xy q) s < dist (xy q) (xy site))%R) \/ ~ wedge (xy site) (xy a) (xy b) (xy q) ->
            exists b, containsPoint (N := RNum) tol (pg_points g) (ul_list (ms_points m)) q = Ok b /\ (b = true <-> near_border tol (xy q) (map xy vs)))))
      (dedup (flat_map corners (o_tris o))) (ms_polygons m).
Proof. exact border_location. Qed.
Print Assumptions C94_nearest_corner_site.

(** the theorem applies to the square by the example of C93; a point on each side *)
Example C94_hypotheses_met :
  (forall s, In s (output_sites (sq_out RNum)) -> s <> (0, 0)%R -> (dist (1, 1) (0, 0) < dist (1, 1) s)%R) /\
  (0 < orient (0, 0) (4, 0) (1, 1))%R /\ (orient (0, 0) (0, 4) (1, 1) < 0)%R /\
  (exists s, In s (output_sites (sq_out RNum)) /\ (dist (3, 1) s < dist (3, 1) (0, 0))%R) /\ ~ wedge (0, 0)%R (4, 0)%R (0, 4)%R (1, -1)%R.
Proof. exact sq_points. Qed.
