(** The documented programs, from the domain to the printed file: property C109. *)
From Coq Require Import Reals Lra Lia ZArith List Permutation Ascii String.
From Verif Require Import Base Spec SpecNum MUtil MGeom MHull MPolygon MMaps MTriangle MGen MRegion MDelaunay MVoronoi MMesh MFormat MHist MFile MProgram.
From Verif Require Import Bridge BridgeNum BridgeHist BridgeVor64 Bridge64 BridgeProg.
From Verif Require Import PDelaunay PProgram Samples Samples4 Samples5 Samples7 Samples9 Samples10 Samples12 Samples13.
Import ListNotations.
Open Scope Z_scope.

(** C109 *)
Theorem C109_voronoi_program : forall (e m : Z) (tol : f64) fuel (triangulate : switches -> pslg F64 -> trout F64) (order : list iseg -> list iseg)
    (home : text) (d : disk) (name : text) (pts : list (Point F64)) (os : list (region_op F64)) (r0 r : region F64),
  -199 <= e <= 200 -> 0 <= m <= 16 -> tolerance64 tol -> (forall l, Permutation (order l) l) ->
  Forall op_built64 os -> region_ctor (N := F64) tol pts = Ok r0 -> region_run (N := F64) tol r0 os = Ok r ->
  clustered tol (fun q => In q (rg_seeds r ++ getRegionPoints r)) -> dk_writable d (home ++ slash :: name) = true ->
  plan64_run tol (mkPlan64 pts [] []) os (plan64_of r) /\
  exists inp, build_pslg (N := F64) tol (region_copy r) (rg_seeds r) [] = Ok inp /\
    (forall q, In q (rg_seeds r ++ getRegionPoints r) -> exists y, In (xy64 y) (in_points inp) /\ near64 tol y q) /\
    let o := triangulate swConforming inp in
    delaunay_answer64 e m tol o -> (length (o_tris o) < fuel)%nat ->
    exists d' v mm t, mesh_program (N := F64) tol print_double triangulate fuel order (Some home) d pts os name = Ok (d', (v, mm)) /\
      dk_text d' (home ++ slash :: name) = Some t /\ (forall p, p <> home ++ slash :: name -> dk_text d' p = dk_text d p) /\
      (forall p, dk_writable d' p = dk_writable d p) /\
      voronoiGenerator (N := F64) tol triangulate fuel (rg_seeds r) r = Ok (v, mm) /\
      (zlen (ul_list (ms_points v)) < 1000000 -> exists segs, lists_once (fun s => um_find iseg_eqb s (ms_edges v)) segs /\
        mesh_text (N := F64) print_double (ul_list (ms_points v)) segs (map (fun g : polygon F64 => pg_points g) (ms_polygons v)) t) /\
      (vertices_apart tol o -> vertices_stored_once tol o ->
       Forall2 (fun k (g : polygon F64) => forall ws ts, closed_fan (map fst (o_edges o)) (o_tris o) k ws ts ->
        exists site zs vs, vertices_are (map read_point (o_points o)) [k] [site] /\ vertices_are (ul_list (ms_points v)) (pg_points g) vs /\
          (strictly_convex zs \/ strictly_convex (rev zs)) /\ (forall x, voronoi_region (sites64 o) (xyv site) x <-> in_hull zs x) /\
          map xyv vs = map rounded zs)
        (dedup (flat_map corners (o_tris o))) (ms_polygons v)).
Proof. exact mesh_program_correct64. Qed.
Print Assumptions C109_voronoi_program.

Theorem C109_triangulation_program : forall (e : Z) (tol : f64) (triangulate : switches -> pslg F64 -> trout F64) (order : list iseg -> list iseg)
    (home : text) (d : disk) (name : text) (pts : list (Point F64)) (os : list (region_op F64)) (r0 r : region F64),
  -199 <= e <= 200 -> tolerance64 tol -> (forall l, Permutation (order l) l) ->
  Forall op_built64 os -> region_ctor (N := F64) tol pts = Ok r0 -> region_run (N := F64) tol r0 os = Ok r ->
  clustered tol (fun q => In q (rg_seeds r ++ getRegionPoints r)) -> dk_writable d (home ++ slash :: name) = true ->
  exists inp, build_pslg (N := F64) tol (region_copy r) (rg_seeds r) [] = Ok inp /\
    (forall q, In q (rg_seeds r ++ getRegionPoints r) -> exists y, In (xy64 y) (in_points inp) /\ near64 tol y q) /\
    let o := triangulate swConstrained inp in
    triangulated64 e tol o ->
    exists d' t f, triangulation_program (N := F64) tol print_double triangulate order (Some home) d pts os name = Ok (d', t) /\
      dk_text d' (home ++ slash :: name) = Some f /\ (forall p, p <> home ++ slash :: name -> dk_text d' p = dk_text d p) /\
      (forall p, dk_writable d' p = dk_writable d p) /\
      ul_list (ms_points t) = map read_point (o_points o) /\
      (zlen (o_points o) < 1000000 -> exists segs, Permutation segs (map fst (o_edges o)) /\
        mesh_text (N := F64) print_double (map read_point (o_points o)) segs (map corners (o_tris o)) f).
Proof. exact triangulation_program_correct64. Qed.
Print Assumptions C109_triangulation_program.

Theorem C109_square_program : forall (e m : Z) (tol : f64) fuel (triangulate : switches -> pslg F64 -> trout F64) (order : list iseg -> list iseg)
    (home : text) (d : disk) (name name_t : text) (pts : list (Point F64)) (os : list (region_op F64)) (r0 r : region F64),
  -199 <= e <= 200 -> 0 <= m <= 16 -> tolerance64 tol -> (forall l, Permutation (order l) l) ->
  Forall op_built64 os -> region_ctor (N := F64) tol pts = Ok r0 -> region_run (N := F64) tol r0 os = Ok r ->
  clustered tol (fun q => In q (rg_seeds r ++ getRegionPoints r)) -> name <> name_t ->
  dk_writable d (home ++ slash :: name) = true -> dk_writable d (home ++ slash :: name_t) = true ->
  exists inp, build_pslg (N := F64) tol (region_copy r) (rg_seeds r) [] = Ok inp /\
    let o := triangulate swConforming inp in let c := triangulate swConstrained inp in
    delaunay_answer64 e m tol o -> (length (o_tris o) < fuel)%nat -> triangulated64 e tol c ->
    exists d' v mm t f g, square_program (N := F64) tol print_double triangulate fuel order (Some home) d pts os name name_t = Ok (d', (v, t)) /\
      voronoiGenerator (N := F64) tol triangulate fuel (rg_seeds r) r = Ok (v, mm) /\
      dk_text d' (home ++ slash :: name) = Some f /\ dk_text d' (home ++ slash :: name_t) = Some g /\
      (forall p, p <> home ++ slash :: name -> p <> home ++ slash :: name_t -> dk_text d' p = dk_text d p) /\
      (zlen (ul_list (ms_points v)) < 1000000 -> exists segs, lists_once (fun s => um_find iseg_eqb s (ms_edges v)) segs /\
        mesh_text (N := F64) print_double (ul_list (ms_points v)) segs (map (fun g : polygon F64 => pg_points g) (ms_polygons v)) f) /\
      (zlen (o_points c) < 1000000 -> exists segs, Permutation segs (map fst (o_edges c)) /\
        mesh_text (N := F64) print_double (map read_point (o_points c)) segs (map corners (o_tris c)) g).
Proof. exact square_program_correct64. Qed.
Print Assumptions C109_square_program.

(** A new line. *)
Local Notation nl := (String (ascii_of_nat 10) EmptyString).
(** A rectangle with one seed; Triangle answers with four triangles around the seed. *)
Example C109_hypotheses_met : exists d : disk,
  tolerance64 tol64 /\ Forall op_built64 seed_ops /\ region_ctor (N := F64) tol64 rect64 = Ok r_rect64 /\ region_run (N := F64) tol64 r_rect64 seed_ops = Ok r_seeded64 /\
  clustered tol64 (fun q => In q (rg_seeds r_seeded64 ++ getRegionPoints r_seeded64)) /\
  dk_writable d (list_ascii_of_string "h" ++ slash :: list_ascii_of_string "v") = true /\ dk_writable d (list_ascii_of_string "h" ++ slash :: list_ascii_of_string "t") = true /\
  delaunay_answer64 0 4 tol64 (wheel_out F64) /\ triangulated64 0 tol64 (wheel_out F64) /\
  vertices_apart tol64 (wheel_out F64) /\ vertices_stored_once tol64 (wheel_out F64) /\
  match square_program (N := F64) tol64 print_double (fun _ _ => wheel_out F64) 5 (fun l => l) (Some (list_ascii_of_string "h")) d rect64 seed_ops (list_ascii_of_string "v") (list_ascii_of_string "t") with
  | Ok (d', (v, t)) => zlen (ul_list (ms_points v)) = 12 /\
      option_map string_of_list_ascii (dk_text d' (list_ascii_of_string "h/t")) =
        Some ("5" ++ nl ++ "0 0" ++ nl ++ "8 0" ++ nl ++ "8 6" ++ nl ++ "0 6" ++ nl ++ "3 2" ++ nl ++
              "8" ++ nl ++ "0 1" ++ nl ++ "1 2" ++ nl ++ "2 3" ++ nl ++ "3 0" ++ nl ++ "0 4" ++ nl ++ "1 4" ++ nl ++ "2 4" ++ nl ++ "3 4" ++ nl ++
              "4" ++ nl ++ "3 0 1 4" ++ nl ++ "3 1 2 4" ++ nl ++ "3 2 3 4" ++ nl ++ "3 3 0 4" ++ nl)%string
  | Err _ => False
  end.
Proof.
  exists dir. split; [exact tol64_usable|]. split; [repeat constructor|]. split; [exact r_rect64_ctor|]. split; [exact r_seeded64_run|]. split; [exact r_seeded64_clustered|].
  split; [reflexivity|]. split; [reflexivity|]. split; [exact wheel_answer64|]. split; [exact wheel_triangulated64|]. split; [exact wheel_apart64|]. split; [exact wheel_once64|].
  vm_compute. split; reflexivity.
Qed.
