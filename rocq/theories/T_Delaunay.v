(** Delaunay generator: properties C49, C50, C51, C52, C63. *)
From Coq Require Import Reals Lra.
From Verif Require Import Base Spec MUtil MGeom MHull MPolygon MMaps MTriangle MGen MRegion MDelaunay Bridge.
From Verif Require Import PPoly2 PRegion PDelaunay Samples.
Open Scope Z_scope.

(** C49 *)
Theorem C49_planar_graph : forall tol, (0 < tol)%R -> forall (r : region RNum) (seeds : list (Point RNum)) (restricted : list (pseg RNum)),
  region_made r -> separated tol (fun q => In q (seeds ++ getRegionPoints r)) ->
  exists pl ssegs rsegs vs,
    build_pslg (N := RNum) tol r seeds restricted =
      Ok (mkPslg (N := RNum) (map xy pl) (ssegs ++ rsegs) (map (fun h : hole RNum => xy (h_center h)) (rg_holes r))) /\
    pl = fold_left (set_add (pt_eqb (N := RNum) tol)) (seeds ++ getRegionPoints r) [] /\ all_apart tol pl /\
    incl pl (seeds ++ getRegionPoints r) /\
    (forall q, In q (seeds ++ getRegionPoints r) -> exists y, In y pl /\ coincide tol (xy y) (xy q)) /\
    (vs = rg_p r \/ vs = rev (rg_p r)) /\
    Forall2 (near_denotes tol pl) ssegs (edges_of vs ++ flat_map (fun h : hole RNum => edges_of (h_points h)) (rg_holes r)) /\
    Forall2 (fun s (e : pseg RNum) => index_near tol pl (fst e) (fst s) /\ index_near tol pl (snd e) (snd s)) rsegs restricted.
Proof. exact build_pslg_correct. Qed.
Print Assumptions C49_planar_graph.

(** a polygonal hole is always handed over with the marker (0, 0) *)
Theorem C49_polygonal_hole_marker : forall (N : Num) tol (p : list (Point N)),
  exists h, polygonalHole tol p = Ok h /\ h_points h = p /\ px (h_center h) = nZ 0 /\ py (h_center h) = nZ 0.
Proof. exact @polygonal_center. Qed.
Print Assumptions C49_polygonal_hole_marker.

Example C49_hypotheses_met :
  (0 < 1 / 100000)%R /\ region_made r_quad /\
  separated (1 / 100000)%R (fun q => In q ([mkP (N := RNum) 2%R 2%R; mkP (N := RNum) 0%R 0%R] ++ getRegionPoints r_quad)).
Proof. split; [lra|]. split; [exact r_quad_made|]. apply integer_separated; [lra|]. exact r_quad_integer. Qed.

Example C49_computed :
  match build_pslg (N := F64) tol64 r_holed [dpt 3 1 3 1; dpt (-4) 1 (-4) 1]
      [(dpt 3 1 3 1, dpt 4 1 4 1); (dpt 3 1 3 1, dpt 9 1 9 1)] with
  | Ok g => in_segments g = [(1, 2); (2, 3); (3, 4); (4, 1); (5, 6); (6, 7); (7, 8); (8, 5); (0, 3); (0, -1)] /\ zlen (in_points g) = 9
  | Err _ => False
  end.
Proof. vm_compute. auto. Qed.

(** C50 *)
Theorem C50_edges_know_triangles : forall (N : Num) (tol : nT N) (o : trout N) (d : delaunay N),
  triangulation (zlen (o_points o)) (map fst (o_edges o)) (o_tris o) -> read_output tol o = Ok d ->
  dl_edges d = map (fun e : Z * Z * Z => mkEdge (fst (fst e)) (snd (fst e)) (first_or (-1) (incident (o_tris o) (fst e)))
                                            (last_or (-1) (tl (incident (o_tris o) (fst e))))) (o_edges o) /\
  (forall nb (s : Z * Z) (e : Z * Z * Z), In e (o_edges o) -> same_side s (fst e) = true ->
     sm_get (iseg_match nb) (dl_delaunayEdges d) s =
     (dl_delaunayEdges d, mkNb (Some (first_or (-1) (incident (o_tris o) (fst e)))) (last_or (-1) (tl (incident (o_tris o) (fst e)))))) /\
  map pd_edge (dl_points d) = map (fun i => start_edge (o_edges o) (Z.of_nat i)) (seq 0 (length (o_points o))).
Proof. exact @edges_record. Qed.
Print Assumptions C50_edges_know_triangles.

(** in exact arithmetic an output without flat triangles is always read *)
Theorem C50_output_is_read : forall (tol : nT RNum) (o : trout RNum),
  triangulation (zlen (o_points o)) (map fst (o_edges o)) (o_tris o) ->
  (forall t A B C, In t (o_tris o) -> vertices_are (map read_point (o_points o)) (corners t) [A; B; C] ->
     orient (xy A) (xy B) (xy C) <> 0%R) ->
  exists d, read_output tol o = Ok d.
Proof. exact read_output_total. Qed.
Print Assumptions C50_output_is_read.

Example C50_hypotheses_met :
  triangulation (zlen (o_points (sq_out RNum))) (map fst (o_edges (sq_out RNum))) (o_tris (sq_out RNum)) /\
  (exists d, read_output (N := RNum) (1 / 100000)%R (sq_out RNum) = Ok d) /\
  map (incident (o_tris (sq_out RNum))) (map fst (o_edges (sq_out RNum))) = [[0]; [0]; [1]; [1]; [0; 1]] /\
  map (start_edge (o_edges (sq_out RNum))) [0; 1; 2; 3] = [3; 1; 2; 3].
Proof.
  split; [apply sq_triangulation|]. split; [apply read_output_total; [apply sq_triangulation|exact sq_proper]|]. split; reflexivity.
Qed.

(** C51 *)
Theorem C51_one_triangulation : forall (N : Num) (triangulate : switches -> pslg N -> trout N) (tol : nT N)
    (seeds : list (Point N)) (r : region N) c cs,
  let sw := match c with CallConforming | CallConformingInfo => swConforming | CallConstrained | CallConstrainedWith _ => swConstrained end in
  let restricted := match c with CallConstrainedWith s => s | _ => [] end in
  exists g os, gen_run triangulate tol (gen_ctor seeds r) (c :: cs) = (g, os) /\ (length (gn_log g) <= 1)%nat /\
  (forall inp, build_pslg tol (region_copy r) seeds restricted = Ok inp ->
     gn_log g = [(sw, inp)] /\
     Forall2 (answers tol (read_output tol (triangulate sw inp))) (c :: cs) os).
Proof. exact @histories. Qed.
Print Assumptions C51_one_triangulation.

(** the constrained triangulation after the conforming one, and restricted segments after none *)
Theorem C51_constrained_refuted : exists triangulate seeds r,
  map n_triangles (snd (gen_run (N := F64) triangulate tol64 (gen_ctor seeds r) [CallConstrained])) = [1] /\
  map n_triangles (snd (gen_run (N := F64) triangulate tol64 (gen_ctor seeds r) [CallConforming; CallConstrained])) = [2; 2].
Proof. exists by_switches, [], r_square. vm_compute. auto. Qed.
Print Assumptions C51_constrained_refuted.
Theorem C51_restricted_refuted : exists triangulate seeds r s,
  map n_triangles (snd (gen_run (N := F64) triangulate tol64 (gen_ctor seeds r) [CallConstrainedWith s])) = [1] /\
  map n_triangles (snd (gen_run (N := F64) triangulate tol64 (gen_ctor seeds r) [CallConstrained; CallConstrainedWith s])) = [2; 2].
Proof. exists by_segments, [], r_square, [(dpt 0 1 0 1, dpt 4 1 4 1)]. vm_compute. auto. Qed.
Print Assumptions C51_restricted_refuted.

Example C51_hypotheses_met :
  match build_pslg (N := F64) tol64 (region_copy r_holed) [dpt 1 1 1 1] [] with Ok i => zlen (in_segments i) = 8 | _ => False end /\
  length (gn_log (fst (gen_run (N := F64) by_switches tol64 (gen_ctor [dpt 1 1 1 1] r_holed) [CallConforming; CallConstrained; CallConformingInfo]))) = 1%nat.
Proof. vm_compute. auto. Qed.

(** C52 *)
Theorem C52_mesh_index_consistent : forall tol, (0 < tol)%R -> forall (o : trout RNum) (d : delaunay RNum),
  triangulation (zlen (o_points o)) (map fst (o_edges o)) (o_tris o) -> read_output (N := RNum) tol o = Ok d ->
  separated tol (fun q => In q (map read_point (o_points o))) -> all_apart tol (map read_point (o_points o)) ->
  exists m mt, initializeMesh (N := RNum) tol (polygon_ctor_idx (N := RNum) tol) d = Ok m /\
    initializeMesh (N := RNum) tol (triangle_ctor (N := RNum) tol) d = Ok mt /\
    ul_list (ms_points m) = map read_point (o_points o) /\ ul_list (ms_points mt) = map read_point (o_points o) /\
    map (fun g : polygon RNum => pg_points g) (ms_polygons m) = map corners (o_tris o) /\
    map (fun g : triangle RNum => pg_points (tr_poly g)) (ms_polygons mt) = map corners (o_tris o) /\
    ms_edges m = dl_delaunayEdges d /\ ms_edges mt = dl_delaunayEdges d /\
    forall k q, nth_error (map read_point (o_points o)) k = Some q ->
      snd (pm_get (N := RNum) tol (ms_pointMap m) q) = positions (fun t => existsb (Z.eqb (Z.of_nat k)) (corners t)) (o_tris o) 0 /\
      snd (pm_get (N := RNum) tol (ms_pointMap mt) q) = positions (fun t => existsb (Z.eqb (Z.of_nat k)) (corners t)) (o_tris o) 0.
Proof. exact delaunay_mesh. Qed.
Print Assumptions C52_mesh_index_consistent.

(** without assuming the points apart: the indices then refer to the list without repetitions,
    and a triangle two of whose corners coincide makes the construction throw *)
Theorem C52_coinciding_points : forall tol, (0 < tol)%R -> forall (o : trout RNum) (d : delaunay RNum),
  triangulation (zlen (o_points o)) (map fst (o_edges o)) (o_tris o) -> read_output (N := RNum) tol o = Ok d ->
  separated tol (fun q => In q (map read_point (o_points o))) ->
  (Forall (fun t => spread tol (map read_point (o_points o)) (corners t)) (o_tris o) ->
   exists m, initializeMesh (N := RNum) tol (triangle_ctor (N := RNum) tol) d = Ok m /\
     ul_list (ms_points m) = fold_left (set_add (pt_eqb (N := RNum) tol)) (map read_point (o_points o)) [] /\
     ms_edges m = dl_delaunayEdges d /\
     Forall2 (fun t (g : triangle RNum) => Forall2 (fun k i => exists q, nth_error (map read_point (o_points o)) (Z.to_nat k) = Some q /\
         index_near tol (ul_list (ms_points m)) q i /\ 0 <= i) (corners t) (pg_points (tr_poly g))) (o_tris o) (ms_polygons m)) /\
  (Exists (fun t => ~ spread tol (map read_point (o_points o)) (corners t)) (o_tris o) ->
   initializeMesh (N := RNum) tol (triangle_ctor (N := RNum) tol) d = Err (Throw integrity_msg)).
Proof. exact delaunay_mesh_any. Qed.
Print Assumptions C52_coinciding_points.

(** two output points 1e-7 apart: both triangles have the side 1-2 but the edge map says it has no
    triangle, and the edge map has a key outside the point list *)
Theorem C52_coinciding_points_refuted : exists o : trout F64,
  triangulation (zlen (o_points o)) (map fst (o_edges o)) (o_tris o) /\
  exists d m, read_output (N := F64) tol64 o = Ok d /\ initializeMesh (N := F64) tol64 (triangle_ctor (N := F64) tol64) d = Ok m /\
  map (fun g : triangle F64 => pg_points (tr_poly g)) (ms_polygons m) = [[0; 1; 2]; [1; 3; 2]] /\
  snd (sm_get (iseg_match 0) (ms_edges m) (1, 2)) = mkNb (Some (-1)) (-1) /\
  zlen (ul_list (ms_points m)) = 4 /\ In (2, 4) (map fst (ms_edges m)).
Proof. exact twin_refuted. Qed.
Print Assumptions C52_coinciding_points_refuted.

Example C52_hypotheses_met :
  (0 < 1 / 100000)%R /\
  triangulation (zlen (o_points (sq_out RNum))) (map fst (o_edges (sq_out RNum))) (o_tris (sq_out RNum)) /\
  (exists d, read_output (N := RNum) (1 / 100000)%R (sq_out RNum) = Ok d) /\
  separated (1 / 100000)%R (fun q => In q (map read_point (o_points (sq_out RNum)))) /\
  all_apart (1 / 100000)%R (map read_point (o_points (sq_out RNum))) /\
  Forall (fun t => spread (1 / 100000)%R (map read_point (o_points (sq_out RNum))) (corners t)) (o_tris (sq_out RNum)).
Proof.
  split; [lra|]. split; [apply sq_triangulation|]. split; [apply read_output_total; [apply sq_triangulation|exact sq_proper]|].
  split; [apply integer_separated; [lra|exact sq_integer]|]. split; [exact sq_apart|exact sq_spread].
Qed.
(** with the tolerance 5 the same output has a triangle with coinciding corners, and is still read *)
Example C52_throw_hypotheses_met :
  separated 5%R (fun q => In q (map read_point (o_points (sq_out RNum)))) /\
  (exists d, read_output (N := RNum) 5%R (sq_out RNum) = Ok d) /\
  Exists (fun t => ~ spread 5%R (map read_point (o_points (sq_out RNum))) (corners t)) (o_tris (sq_out RNum)).
Proof. exact sq_close. Qed.

(** C63 *)
Theorem C63_dangling_reference : forall (N : Num) (triangulate : switches -> pslg N -> trout N) (tol : nT N) g c g' h,
  gen_do triangulate tol g c = (g', Ok (OutMesh h)) ->
  match c with
  | CallConforming => use h = Err (UB "dangling reference")
  | CallConformingInfo => False
  | _ => exists m, use h = Ok m /\ held (Ok (OutMesh h)) = Ok (Some m)
  end.
Proof. exact @dangling. Qed.
Print Assumptions C63_dangling_reference.

Theorem C63_usable_refuted : exists triangulate seeds r, match snd (gen_do (N := F64) triangulate tol64 (gen_ctor seeds r) CallConforming) with
  | Ok (OutMesh h) => match use h with Err (UB _) => true | _ => false end | _ => false end = true.
Proof. exists by_switches, [], r_square. vm_compute. reflexivity. Qed.
Print Assumptions C63_usable_refuted.

Example C63_hypotheses_met :
  match snd (gen_do (N := F64) by_switches tol64 (gen_ctor [] r_square) CallConstrained) with
  | Ok (OutMesh h) => match use h with Ok m => zlen (ms_polygons m) | _ => -1 end | _ => -1 end = 1.
Proof. vm_compute. reflexivity. Qed.
