(** The Voronoi mesh on doubles adds up to the region exactly, in spite of the rounding of its points: property C120. *)
From Coq Require Import Reals Lra Lia ZArith List Bool Permutation Ascii String.
From Verif Require Import Base Spec SpecNum MUtil MGeom MHull MPolygon MMaps MTriangle MGen MRegion MDelaunay MVoronoi MMesh MFormat MHist MFile MProgram.
From Verif Require Import Bridge BridgeNum BridgeHist BridgeVor64 Bridge64 BridgeProg BridgeTile BridgeFill BridgeWind BridgeSimple BridgeSimple64 BridgeJordan BridgeRound.
From Verif Require Import PRound5 Samples Samples4 Samples5 Samples7 Samples9 Samples10 Samples12 Samples13 Samples21.
Import ListNotations.
Open Scope Z_scope.

(** C120 *)
Theorem C120_generator_adds_up : forall (e m : Z) (tol : f64) fuel (triangulate : switches -> pslg F64 -> trout F64) (seeds : list (Point F64)) (r : region F64) outer inner,
  -199 <= e <= 200 -> 0 <= m <= 16 -> tolerance64 tol -> region_made r -> clustered tol (fun q => In q (seeds ++ getRegionPoints r)) ->
  (outer = map xyv (rg_p r) \/ outer = rev (map xyv (rg_p r))) -> (0 <= shoelace outer)%R ->
  Forall2 (fun (h : hole F64) l => (l = map xyv (h_points h) \/ l = rev (map xyv (h_points h))) /\ (shoelace l <= 0)%R) (rg_holes r) inner -> plain (outer :: inner) ->
  exists inp, build_pslg (N := F64) tol (region_copy r) seeds [] = Ok inp /\
    let o := triangulate swConforming inp in
    delaunay_answer64 e m tol o -> sources_apart64 tol o -> fills_region64 tol (outer :: inner) o -> (length (o_tris o) < fuel)%nat ->
    exists v mm, voronoiGenerator (N := F64) tol triangulate fuel seeds r = Ok (v, mm) /\ ul_list (ms_points mm) = map read_point (o_points o) /\ adds_up64 r o v.
Proof. exact generator_adds_up. Qed.
Print Assumptions C120_generator_adds_up.

Theorem C120_program_adds_up : forall (e m : Z) (tol : f64) fuel (triangulate : switches -> pslg F64 -> trout F64) (order : list iseg -> list iseg)
    (home : text) (d : disk) (name : text) (pts : list (Point F64)) (os : list (region_op F64)) (r0 r : region F64) outer inner,
  -199 <= e <= 200 -> 0 <= m <= 16 -> tolerance64 tol -> (forall l, Permutation (order l) l) ->
  Forall op_built64 os -> region_ctor (N := F64) tol pts = Ok r0 -> region_run (N := F64) tol r0 os = Ok r ->
  clustered tol (fun q => In q (rg_seeds r ++ getRegionPoints r)) -> dk_writable d (home ++ slash :: name) = true ->
  (outer = map xyv (rg_p r) \/ outer = rev (map xyv (rg_p r))) ->
  Forall2 (fun (h : hole F64) l => l = map xyv (h_points h) \/ l = rev (map xyv (h_points h))) (rg_holes r) inner -> simple_region outer inner ->
  exists inp, build_pslg (N := F64) tol (region_copy r) (rg_seeds r) [] = Ok inp /\
    let o := triangulate swConforming inp in
    delaunay_answer64 e m tol o -> sources_apart64 tol o -> fills_region64 tol (outer :: inner) o -> (length (o_tris o) < fuel)%nat ->
    exists d' v mm t, mesh_program (N := F64) tol print_double triangulate fuel order (Some home) d pts os name = Ok (d', (v, mm)) /\
      dk_text d' (home ++ slash :: name) = Some t /\
      (zlen (ul_list (ms_points v)) < 1000000 -> exists segs, lists_once (fun s => um_find iseg_eqb s (ms_edges v)) segs /\
        mesh_text (N := F64) print_double (ul_list (ms_points v)) segs (map (fun g : polygon F64 => pg_points g) (ms_polygons v)) t) /\
      adds_up64 r o v.
Proof. exact simple_program_adds_up. Qed.
Print Assumptions C120_program_adds_up.

(** An acute triangle without seeds: Triangle answers with one triangle, whose Voronoi vertex (3/2, 7/6) is rounded. *)
Example C120_hypotheses_met : exists d : disk,
  tolerance64 tol64 /\ region_ctor (N := F64) tol64 wedge64 = Ok r_wedge64 /\ region_made r_wedge64 /\ region_run (N := F64) tol64 r_wedge64 [] = Ok r_wedge64 /\
  clustered tol64 (fun q => In q (rg_seeds r_wedge64 ++ getRegionPoints r_wedge64)) /\ rg_holes r_wedge64 = [] /\ simple_region (map xyv (rg_p r_wedge64)) [] /\
  delaunay_answer64 0 4 tol64 (wedge_out F64) /\ sources_apart64 tol64 (wedge_out F64) /\ fills_region64 tol64 [map xyv (rg_p r_wedge64)] (wedge_out F64) /\
  dk_writable d (list_ascii_of_string "h" ++ slash :: list_ascii_of_string "v") = true /\
  match mesh_program (N := F64) tol64 print_double (fun _ _ => wedge_out F64) 2 (fun l => l) (Some (list_ascii_of_string "h")) d wedge64 [] (list_ascii_of_string "v") with
  | Ok (_, (v, _)) => map (fun g : polygon F64 => pg_points g) (ms_polygons v) = [[3; 2; 0; 1]; [4; 0; 2; 5]; [1; 0; 4; 6]] /\
      map (fun q : Point F64 => (string_of_list_ascii (print_double (px q)), string_of_list_ascii (print_double (py q)))) (ul_list (ms_points v)) =
        [("1.5", "1.16667"); ("0.5", "1.5"); ("1.5", "0"); ("0", "0"); ("2", "1.5"); ("3", "0"); ("1", "3")]%string
  | Err _ => False
  end.
Proof.
  exists dir.
  split; [exact tol64_usable|]. split; [exact r_wedge64_ctor|]. split; [exact r_wedge64_made|]. split; [exact r_wedge64_run|]. split; [exact wedge64_clustered|].
  split; [apply r_wedge64_shape|]. split; [exact wedge64_simple|]. split; [exact wedge_answer64|]. split; [exact wedge_sources|]. split; [exact wedge_fills64|]. split; [reflexivity|].
  vm_compute. split; reflexivity.
Qed.
