(** C117: the constrained Delaunay mesh on doubles tiles the region.  Statements only; the proofs are in PSimple64. *)
From Coq Require Import Reals ZArith SpecFloat List Bool String Ascii Permutation.
From Verif Require Import Base Spec SpecNum MUtil MGeom MPolygon MMaps MTriangle MGen MRegion MDelaunay MMesh MFormat MHist MFile MProgram Bridge Bridge64 BridgeNum BridgeProg BridgeVor64 BridgeTile BridgeFill BridgeWind BridgeSimple BridgeSimple64 PSimple64.
From Verif Require Import Samples Samples4 Samples5 Samples7 Samples9 Samples10 Samples12 Samples13 Samples18 Samples19.
Import ListNotations.
Local Open Scope Z_scope.

(** The constrained Delaunay mesh of a region of doubles: the exact sum of the areas getArea answers is the area of the region, and every point on the grid is in exactly one triangle or none. *)
Theorem C117_constrained_mesh_on_doubles : forall (e : Z) (tol : f64) triangulate seeds (r : region F64) (c : gen_call F64) restricted outer inner, -200 <= e <= 200 -> tolerance64 tol -> region_made r ->
  (c = CallConstrained /\ restricted = [] \/ c = CallConstrainedWith restricted) ->
  (outer = map xyv (rg_p r) \/ outer = rev (map xyv (rg_p r))) -> (0 <= shoelace outer)%R ->
  Forall2 (fun (h : hole F64) l => (l = map xyv (h_points h) \/ l = rev (map xyv (h_points h))) /\ (shoelace l <= 0)%R) (rg_holes r) inner ->
  plain (outer :: inner) -> clustered tol (fun q => In q (seeds ++ getRegionPoints r ++ flat_map (fun s : pseg F64 => [fst s; snd s]) restricted)) ->
  exists inp, build_pslg (N := F64) tol (region_copy r) seeds restricted = Ok inp /\ in_holes inp = map (fun h : hole F64 => xy64 (h_center h)) (rg_holes r) /\
    let o := triangulate swConstrained inp in triangle_answer64 e tol (outer :: inner) o ->
    exists g m, gen_do (N := F64) triangulate tol (gen_ctor seeds r) c = (g, Ok (OutMesh (ByValue m))) /\ ul_list (ms_points m) = map read_point (o_points o) /\ tiles64 e tol r m.
Proof. exact constrained_tiles64. Qed.
Print Assumptions C117_constrained_mesh_on_doubles.

(** The documented program that triangulates a domain, as compiled: the mesh it prints tiles the domain. *)
Theorem C117_triangulation_program_tiles : forall (e : Z) (tol : f64) (triangulate : switches -> pslg F64 -> trout F64) (order : list iseg -> list iseg)
    (home : text) (d : disk) (name : text) (pts : list (Point F64)) (os : list (region_op F64)) (r0 r : region F64) outer inner,
  -199 <= e <= 200 -> tolerance64 tol -> (forall l, Permutation (order l) l) ->
  Forall op_built64 os -> region_ctor (N := F64) tol pts = Ok r0 -> region_run (N := F64) tol r0 os = Ok r ->
  clustered tol (fun q => In q (rg_seeds r ++ getRegionPoints r)) -> dk_writable d (home ++ slash :: name) = true ->
  (outer = map xyv (rg_p r) \/ outer = rev (map xyv (rg_p r))) -> (0 <= shoelace outer)%R ->
  Forall2 (fun (h : hole F64) l => (l = map xyv (h_points h) \/ l = rev (map xyv (h_points h))) /\ (shoelace l <= 0)%R) (rg_holes r) inner -> plain (outer :: inner) ->
  exists inp, build_pslg (N := F64) tol (region_copy r) (rg_seeds r) [] = Ok inp /\
    let o := triangulate swConstrained inp in triangle_answer64 e tol (outer :: inner) o ->
    exists d' t f, triangulation_program (N := F64) tol print_double triangulate order (Some home) d pts os name = Ok (d', t) /\
      dk_text d' (home ++ slash :: name) = Some f /\ ul_list (ms_points t) = map read_point (o_points o) /\ tiles64 e tol r t.
Proof. exact program_tiles64. Qed.
Print Assumptions C117_triangulation_program_tiles.

(** An L, which is not convex, without seeds; Triangle answers with four triangles, two of area one and two of a half. *)
Example C117_hypotheses_met : exists d : disk,
  tolerance64 tol64 /\ region_ctor (N := F64) tol64 ell64 = Ok r_ell64 /\ region_made r_ell64 /\ region_run (N := F64) tol64 r_ell64 [] = Ok r_ell64 /\
  clustered tol64 (fun q => In q (rg_seeds r_ell64 ++ getRegionPoints r_ell64)) /\ (0 <= shoelace (map xyv (rg_p r_ell64)))%R /\ rg_holes r_ell64 = [] /\
  plain [map xyv (rg_p r_ell64)] /\ triangle_answer64 0 tol64 [map xyv (rg_p r_ell64)] (ell_out F64) /\
  dk_writable d (list_ascii_of_string "h" ++ slash :: list_ascii_of_string "t") = true /\
  match triangulation_program (N := F64) tol64 print_double (fun _ _ => ell_out F64) (fun l => l) (Some (list_ascii_of_string "h")) d ell64 [] (list_ascii_of_string "t") with
  | Ok (_, t) => length (ms_polygons t) = 4%nat /\
      map (fun g : triangle F64 => match getArea (N := F64) (tr_poly g) (ul_list (ms_points t)) with Ok (_, a) => Some (string_of_list_ascii (print_double a)) | Err _ => None end) (ms_polygons t) =
        [Some "1"; Some "0.5"; Some "1"; Some "0.5"]%string /\
      map (fun g : triangle F64 => containsPoint (N := F64) tol64 (pg_points (tr_poly g)) (ul_list (ms_points t)) (mkPoint (N := F64) (S754_finite false 4503599627370496 (-54)) (S754_finite false 4503599627370496 (-53)) false false)) (ms_polygons t) =
        [Ok false; Ok false; Ok true; Ok false]
  | Err _ => False
  end.
Proof.
  exists dir. split; [exact tol64_usable|]. split; [exact r_ell64_ctor|]. split; [exact r_ell64_made|]. split; [exact r_ell64_run|]. split; [exact ell64_clustered|]. split; [exact ell64_outer|].
  split; [exact (proj1 (proj2 r_ell64_shape))|]. split; [exact ell64_plain|]. split; [exact ell_answer64|]. split; [reflexivity|]. vm_compute. split; [reflexivity|split; reflexivity].
Qed.
