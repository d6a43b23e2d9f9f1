(** Histories of a region and the whole Voronoi generator: properties C96, C97. *)
From Coq Require Import Reals Lra.
From Verif Require Import Base Spec MUtil MGeom MHull MPolygon MMaps MTriangle MGen MRegion MDelaunay MVoronoi MHist Bridge BridgeHist.
From Verif Require Import PDelaunay PHist Samples Samples8.
Open Scope Z_scope.

(** C96 *)
Theorem C96_region_histories : forall tol, (0 < tol)%R -> forall (os : list (region_op RNum)) (r r' : region RNum),
  region_made r -> Forall op_built os -> region_run (N := RNum) tol r os = Ok r' ->
  region_made r' /\ plan_run tol (plan_of r) os (plan_of r').
Proof. exact region_history. Qed.
Print Assumptions C96_region_histories.

Theorem C96_only_generation_fails : forall tol, (0 < tol)%R -> forall (os : list (region_op RNum)) (r : region RNum),
  region_made r -> Forall op_built os -> (forall o, In o os -> match o with OpGenerate _ _ _ => False | _ => True end) ->
  exists r', region_run (N := RNum) tol r os = Ok r'.
Proof. exact history_total. Qed.
Print Assumptions C96_only_generation_fails.

Example C96_hypotheses_met :
  (0 < 1 / 100000)%R /\ region_made r_quad /\ plan_fine (1 / 100000)%R (plan_of r_quad) /\ length (rg_holes r_quad) = 1%nat /\
  Forall op_built [OpSeeds [mkP (N := RNum) 3%R 2%R]; OpCleanHoles; OpRead [mkP (N := RNum) 1%R 1%R]; OpHole (fun _ _ => []) (default_config (N := RNum)) h_quad; OpCopy].
Proof.
  split; [lra|]. split; [exact r_quad_made|]. split; [exact r_quad_fine|]. split; [reflexivity|].
  repeat (constructor; [try exact I; try exact (built_polygonal _ _ _ h_quad_ok)|]). constructor.
Qed.
(** the point 0, 0 of the boundary of the hole is refused, and taken once the holes are cleared *)
Example C96_computed :
  (match region_run (N := F64) tol64 r_holed [OpSeeds [dpt 3 1 3 1; dpt 0 1 0 1]; OpCleanHoles] with Ok r => (zlen (rg_seeds r), zlen (rg_holes r)) | _ => (-1, -1) end) = (1, 0) /\
  (match region_run (N := F64) tol64 r_holed [OpSeeds [dpt 3 1 3 1; dpt 0 1 0 1]; OpCleanHoles; OpSeeds [dpt 3 1 3 1; dpt 0 1 0 1]] with Ok r => (zlen (rg_seeds r), zlen (rg_holes r)) | _ => (-1, -1) end) = (2, 0).
Proof. split; vm_compute; reflexivity. Qed.

(** C97 *)
Theorem C97_generator : forall (tol : R) fuel (triangulate : switches -> pslg RNum -> trout RNum) (seeds : list (Point RNum)) (r : region RNum),
  (0 < tol)%R -> region_made r -> separated tol (fun q => In q (seeds ++ getRegionPoints r)) ->
  exists inp, build_pslg (N := RNum) tol (region_copy r) seeds [] = Ok inp /\
    (forall q, In q (seeds ++ getRegionPoints r) -> exists y, In y (in_points inp) /\ coincide tol y (xy q)) /\
    let o := triangulate swConforming inp in
    delaunay_answer tol o -> (length (o_tris o) < fuel)%nat ->
    exists v m, voronoiGenerator (N := RNum) tol triangulate fuel seeds r = Ok (v, m) /\
      ul_list (ms_points m) = map read_point (o_points o) /\
      map (fun g : polygon RNum => pg_points g) (ms_polygons m) = map corners (o_tris o) /\
      Forall2 (fun k (g : polygon RNum) => forall ws ts, closed_fan (map fst (o_edges o)) (o_tris o) k ws ts ->
        exists site vs, vertices_are (ul_list (ms_points m)) [k] [site] /\ vertices_are (ul_list (ms_points v)) (pg_points g) vs /\
          forall x, voronoi_region (map xy (ul_list (ms_points m))) (xy site) x <-> in_hull (map xy vs) x)
        (dedup (flat_map corners (o_tris o))) (ms_polygons v).
Proof. exact generator_diagram. Qed.
Print Assumptions C97_generator.

Example C97_hypotheses_met :
  (0 < 1 / 100000)%R /\ region_made r_rect /\ separated (1 / 100000)%R (fun q => In q ([mkP (N := RNum) 3%R 2%R] ++ getRegionPoints r_rect)) /\
  delaunay_answer (1 / 100000)%R (wheel_out RNum) /\ (length (o_tris (wheel_out RNum)) < 5)%nat /\
  closed_fan (map fst (o_edges (wheel_out RNum))) (o_tris (wheel_out RNum)) 4 [0; 1; 2; 3] [0; 1; 2; 3]%nat.
Proof.
  split; [lra|]. split; [exact r_rect_made|]. split; [exact rect_separated|]. split; [exact wheel_answer|]. split; [cbn; lia|apply wheel_inner].
Qed.
