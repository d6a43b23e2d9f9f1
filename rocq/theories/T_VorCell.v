(** Voronoi cells and Voronoi regions: properties C85, C86, C87, C88. *)
From Coq Require Import Reals Lra.
From Verif Require Import Base Spec MUtil MGeom MHull MPolygon MMaps MTriangle MGen MRegion MDelaunay MVoronoi Bridge.
From Verif Require Import PDelaunay PVoronoi PFan PVorCell PDual PDualR Samples Samples6.
Open Scope Z_scope.

(** C85 *)
Theorem C85_inner_cells_are_regions : forall (tol : R) fuel (o : trout RNum) (d : delaunay RNum), (0 < tol)%R ->
  triangulation (zlen (o_points o)) (map fst (o_edges o)) (o_tris o) -> delaunay_output o -> read_output (N := RNum) tol o = Ok d ->
  (forall v, In v (flat_map corners (o_tris o)) -> (exists ws ts, closed_fan (map fst (o_edges o)) (o_tris o) v ws ts) \/
     (exists w ws w' ts, open_fan (o_edges o) (o_tris o) v w ws w' ts)) -> (length (o_tris o) < fuel)%nat ->
  exists m, voronoi (N := RNum) tol fuel d = Ok m /\
    Forall2 (fun v (g : polygon RNum) => forall ws ts, closed_fan (map fst (o_edges o)) (o_tris o) v ws ts ->
      exists site cs vs, vertices_are (map read_point (o_points o)) [v] [site] /\ vertices_are (ul_list (ms_points m)) (pg_points g) vs /\
        (forall x, voronoi_region (output_sites o) (xy site) x <-> in_hull cs x) /\ represented tol (map xy vs) cs /\
        (forall p, In p (map xy vs) -> exists c, In c cs /\ coincide tol p c))
      (dedup (flat_map corners (o_tris o))) (ms_polygons m).
Proof. exact inner_regions. Qed.
Print Assumptions C85_inner_cells_are_regions.

Theorem C85_inner_cells_exactly : forall (tol : R) fuel (o : trout RNum) (d : delaunay RNum), (0 < tol)%R -> centers_apart tol o ->
  triangulation (zlen (o_points o)) (map fst (o_edges o)) (o_tris o) -> delaunay_output o -> read_output (N := RNum) tol o = Ok d ->
  (forall v, In v (flat_map corners (o_tris o)) -> (exists ws ts, closed_fan (map fst (o_edges o)) (o_tris o) v ws ts) \/
     (exists w ws w' ts, open_fan (o_edges o) (o_tris o) v w ws w' ts)) -> (length (o_tris o) < fuel)%nat ->
  exists m, voronoi (N := RNum) tol fuel d = Ok m /\
    Forall2 (fun v (g : polygon RNum) => forall ws ts, closed_fan (map fst (o_edges o)) (o_tris o) v ws ts ->
      exists site vs, vertices_are (map read_point (o_points o)) [v] [site] /\ vertices_are (ul_list (ms_points m)) (pg_points g) vs /\
        forall x, voronoi_region (output_sites o) (xy site) x <-> in_hull (map xy vs) x)
      (dedup (flat_map corners (o_tris o))) (ms_polygons m).
Proof. exact inner_regions_exact. Qed.
Print Assumptions C85_inner_cells_exactly.

Example C85_hypotheses_met :
  centers_apart (1 / 100000)%R (wheel_out RNum) /\ delaunay_output (wheel_out RNum) /\
  triangulation (zlen (o_points (wheel_out RNum))) (map fst (o_edges (wheel_out RNum))) (o_tris (wheel_out RNum)) /\
  (exists d, read_output (N := RNum) (1 / 100000)%R (wheel_out RNum) = Ok d) /\
  (forall v, In v (flat_map corners (o_tris (wheel_out RNum))) ->
     (exists ws ts, closed_fan (map fst (o_edges (wheel_out RNum))) (o_tris (wheel_out RNum)) v ws ts) \/
     (exists w ws w' ts, open_fan (o_edges (wheel_out RNum)) (o_tris (wheel_out RNum)) v w ws w' ts)) /\
  closed_fan (map fst (o_edges (wheel_out RNum))) (o_tris (wheel_out RNum)) 4 [0; 1; 2; 3] [0; 1; 2; 3]%nat.
Proof.
  split; [exact wheel_centers_apart|]. split; [exact wheel_delaunay|]. split; [apply wheel_triangulation|].
  split; [apply read_output_total; [apply wheel_triangulation|exact wheel_proper]|]. split; [apply wheel_fans|apply wheel_inner].
Qed.

(** C86 *)
Theorem C86_border_cells : forall (tol : R) fuel (o : trout RNum) (d : delaunay RNum), (0 < tol)%R ->
  triangulation (zlen (o_points o)) (map fst (o_edges o)) (o_tris o) -> delaunay_output o -> read_output (N := RNum) tol o = Ok d ->
  (forall v, In v (flat_map corners (o_tris o)) -> (exists ws ts, closed_fan (map fst (o_edges o)) (o_tris o) v ws ts) \/
     (exists w ws w' ts, open_fan (o_edges o) (o_tris o) v w ws w' ts)) -> (length (o_tris o) < fuel)%nat ->
  exists m, voronoi (N := RNum) tol fuel d = Ok m /\
    Forall2 (fun v (g : polygon RNum) => forall w ws w' ts, open_fan (o_edges o) (o_tris o) v w ws w' ts ->
      exists w1 w2 site a b cs vs, (w1 = w /\ w2 = w' \/ w1 = w' /\ w2 = w) /\ (exists t, In t (o_tris o) /\ In (v, w1) (sides t)) /\
      vertices_are (map read_point (o_points o)) [v; w1; w2] [site; a; b] /\ vertices_are (ul_list (ms_points m)) (pg_points g) vs /\
      (gabriel_edge (output_sites o) (xy site) (xy a) -> gabriel_edge (output_sites o) (xy site) (xy b) ->
         forall x, in_hull (xy site :: midpoint (xy site) (xy a) :: midpoint (xy site) (xy b) :: cs) x -> voronoi_region (output_sites o) (xy site) x) /\
      (convex_corner (xy site) (xy a) (xy b) -> forall x, voronoi_region (output_sites o) (xy site) x -> wedge (xy site) (xy a) (xy b) x ->
         in_hull (xy site :: midpoint (xy site) (xy a) :: midpoint (xy site) (xy b) :: cs) x) /\
      (forall z, In z cs -> exists k c, In k ts /\ center_of o k c /\ z = xy c) /\
      represented tol (map xy vs) (midpoint (xy site) (xy a) :: midpoint (xy site) (xy b) :: cs) /\
      (represented tol (map xy vs) [xy site] \/ exists f z, In f (map xy vs) /\ In z (map xy vs) /\ (Rabs (orient f (xy site) z) < tol)%R) /\
      (forall p, In p (map xy vs) -> exists c, In c (xy site :: midpoint (xy site) (xy a) :: midpoint (xy site) (xy b) :: cs) /\ coincide tol p c))
      (dedup (flat_map corners (o_tris o))) (ms_polygons m).
Proof. exact border_regions. Qed.
Print Assumptions C86_border_cells.

Example C86_hypotheses_met :
  delaunay_output (sq_out RNum) /\
  triangulation (zlen (o_points (sq_out RNum))) (map fst (o_edges (sq_out RNum))) (o_tris (sq_out RNum)) /\
  (exists d, read_output (N := RNum) (1 / 100000)%R (sq_out RNum) = Ok d) /\
  (forall v, In v (flat_map corners (o_tris (sq_out RNum))) ->
     (exists ws ts, closed_fan (map fst (o_edges (sq_out RNum))) (o_tris (sq_out RNum)) v ws ts) \/
     (exists w ws w' ts, open_fan (o_edges (sq_out RNum)) (o_tris (sq_out RNum)) v w ws w' ts)) /\
  gabriel_edge (output_sites (sq_out RNum)) (0, 0)%R (4, 0)%R /\ gabriel_edge (output_sites (sq_out RNum)) (0, 0)%R (0, 4)%R /\
  convex_corner (0, 0)%R (4, 0)%R (0, 4)%R.
Proof.
  split; [exact sq_delaunay|]. split; [apply sq_triangulation|]. split; [apply read_output_total; [apply sq_triangulation|exact sq_proper]|].
  split; [exact sq_fans|exact sq_gabriel].
Qed.

(** C87 *)
Theorem C87_nonobtuse_cells_stay_inside : forall (tol : R) fuel (o : trout RNum) (d : delaunay RNum) (m : mesh RNum (polygon RNum)), (0 < tol)%R ->
  triangulation (zlen (o_points o)) (map fst (o_edges o)) (o_tris o) -> read_output (N := RNum) tol o = Ok d ->
  (forall t A B C, In t (o_tris o) -> vertices_are (map read_point (o_points o)) (corners t) [A; B; C] -> nonobtuse (xy A) (xy B) (xy C)) ->
  voronoi (N := RNum) tol fuel d = Ok m ->
  Forall2 (fun v (g : polygon RNum) => Forall (fun i => exists y x, vertices_are (ul_list (ms_points m)) [i] [y] /\ coincide tol (xy y) x /\
      ((exists t A B C, In t (o_tris o) /\ In v (corners t) /\ vertices_are (map read_point (o_points o)) (corners t) [A; B; C] /\ in_hull [xy A; xy B; xy C] x) \/
       (exists e A B, In e (o_edges o) /\ touches v (fst e) = true /\ vertices_are (map read_point (o_points o)) [fst (fst e); snd (fst e)] [A; B] /\ x = midpoint (xy A) (xy B)) \/
       (exists q, vertices_are (map read_point (o_points o)) [v] [q] /\ x = xy q))) (pg_points g))
    (dedup (flat_map corners (o_tris o))) (ms_polygons m).
Proof. exact nonobtuse_cells. Qed.
Print Assumptions C87_nonobtuse_cells_stay_inside.

Example C87_hypotheses_met :
  triangulation (zlen (o_points (sq_out RNum))) (map fst (o_edges (sq_out RNum))) (o_tris (sq_out RNum)) /\
  (exists d m, read_output (N := RNum) (1 / 100000)%R (sq_out RNum) = Ok d /\ voronoi (N := RNum) (1 / 100000)%R 3 d = Ok m) /\
  (forall t A B C, In t (o_tris (sq_out RNum)) -> vertices_are (map read_point (o_points (sq_out RNum))) (corners t) [A; B; C] ->
     nonobtuse (xy A) (xy B) (xy C)).
Proof.
  split; [apply sq_triangulation|]. split; [|exact sq_nonobtuse].
  destruct (read_output_total (1 / 100000)%R (sq_out RNum) (sq_triangulation RNum) sq_proper) as (d & RO).
  destruct (inner_regions (1 / 100000)%R 3 (sq_out RNum) d ltac:(lra) (sq_triangulation RNum) sq_delaunay RO sq_fans ltac:(cbn; lia)) as (m & V & _).
  exists d, m. split; assumption.
Qed.

(** with an obtuse triangle at the border a cell leaves the triangulated rectangle *)
Theorem C87_cells_inside_refuted : exists (o : trout RNum) (d : delaunay RNum) (m : mesh RNum (polygon RNum)) (g : polygon RNum) (y : Point RNum),
  triangulation (zlen (o_points o)) (map fst (o_edges o)) (o_tris o) /\ delaunay_output o /\
  read_output (N := RNum) (1 / 100000)%R o = Ok d /\ voronoi (N := RNum) (1 / 100000)%R 5 d = Ok m /\
  In g (ms_polygons m) /\ (exists i, In i (pg_points g) /\ vertices_are (ul_list (ms_points m)) [i] [y]) /\ ~ in_hull (output_sites o) (xy y).
Proof. exact wheel_leaves. Qed.
Print Assumptions C87_cells_inside_refuted.

(** C88 *)
Theorem C88_dual_edges : forall (N : Num) (tol : nT N) fuel (o : trout N) d,
  triangulation (zlen (o_points o)) (map fst (o_edges o)) (o_tris o) -> read_output tol o = Ok d ->
  (forall v, In v (flat_map corners (o_tris o)) -> (exists ws ts, closed_fan (map fst (o_edges o)) (o_tris o) v ws ts) \/
     (exists w ws w' ts, open_fan (o_edges o) (o_tris o) v w ws w' ts)) ->
  (length (o_tris o) < fuel)%nat -> distinct_sources tol o ->
  exists m ci, voronoi tol fuel d = Ok m /\
    (forall k t, nth_error (o_tris o) k = Some t -> exists c, center_of o k c /\ stands_at tol (ul_list (ms_points m)) (ci k) c) /\
    forall k k' t t' v w, nth_error (o_tris o) k = Some t -> nth_error (o_tris o) k' = Some t' -> k <> k' ->
      has_side (v, w) t = true -> has_side (v, w) t' = true -> (forall x, In x (corners t) -> In x (corners t') -> x = v \/ x = w) ->
      exists iv iw, nth_error (dedup (flat_map corners (o_tris o))) iv = Some v /\ nth_error (dedup (flat_map corners (o_tris o))) iw = Some w /\
        forall nb, um_find (iseg_match nb) (ci k, ci k') (ms_edges m) = Some (mkNb (Some (Z.of_nat (Nat.min iv iw))) (Z.of_nat (Nat.max iv iw))).
Proof. exact @voronoi_duality. Qed.
Print Assumptions C88_dual_edges.

(** over the reals the sources are distinct when they are more than twice the tolerance apart *)
Theorem C88_sources_apart : forall (tol : R) (x x' : Point RNum), (0 < tol)%R -> ~ coincide (2 * tol) (xy x) (xy x') ->
  told_apart (N := RNum) tol x x'.
Proof. exact apart_told. Qed.
Print Assumptions C88_sources_apart.

Example C88_hypotheses_met :
  triangulation (zlen (o_points (wheel_out RNum))) (map fst (o_edges (wheel_out RNum))) (o_tris (wheel_out RNum)) /\
  (exists d, read_output (N := RNum) (1 / 100000)%R (wheel_out RNum) = Ok d) /\
  (forall v, In v (flat_map corners (o_tris (wheel_out RNum))) ->
     (exists ws ts, closed_fan (map fst (o_edges (wheel_out RNum))) (o_tris (wheel_out RNum)) v ws ts) \/
     (exists w ws w' ts, open_fan (o_edges (wheel_out RNum)) (o_tris (wheel_out RNum)) v w ws w' ts)) /\
  distinct_sources (N := RNum) (1 / 100000)%R (wheel_out RNum) /\
  has_side (1, 4) (0, 1, 4) = true /\ has_side (1, 4) (1, 2, 4) = true /\
  (forall x, In x (corners (0, 1, 4)) -> In x (corners (1, 2, 4)) -> x = 1 \/ x = 4).
Proof.
  split; [apply wheel_triangulation|]. split; [apply read_output_total; [apply wheel_triangulation|exact wheel_proper]|]. split; [apply wheel_fans|].
  split; [exact wheel_distinct|]. split; [reflexivity|]. split; [reflexivity|]. cbn. intros x H H'. intuition (subst; (discriminate || auto)).
Qed.
