(** C119: regions whose outlines are simple polygons.  Statements only; the proofs are in PJordan to PJordan6. *)
From Coq Require Import Reals ZArith SpecFloat List Bool String Ascii Permutation.
From Verif Require Import Base Spec SpecNum MUtil MGeom MHull MPolygon MMaps MTriangle MGen MRegion MDelaunay MVoronoi MMesh MFormat MHist MFile MProgram.
From Verif Require Import Bridge Bridge64 BridgeNum BridgeHist BridgeProg BridgeVor64 BridgeTile BridgeFill BridgeAny BridgeWind BridgeSimple BridgeSimple64 BridgeJordan PJordan5 PJordan6.
From Verif Require Import Samples Samples4 Samples5 Samples7 Samples9 Samples10 Samples12 Samples13 Samples16 Samples17 Samples18 Samples19 Samples20.
Import ListNotations.
Local Open Scope Z_scope.

(** A simple polygon goes around the points in it once, in the direction its signed area says, and around the others not at all. *)
Theorem C119_simple_polygon_winds_once : forall vs : list pt, simple_outlines [vs] ->
  ((0 < shoelace vs)%R -> forall q, winding q vs = if even_odd q vs then 1 else 0) /\ ((shoelace vs < 0)%R -> forall q, winding q vs = if even_odd q vs then -1 else 0).
Proof. exact simple_winds. Qed.
Print Assumptions C119_simple_polygon_winds_once.

(** Holes of a simple region do not overlap and are in its outline; the points of the region are those in the outline and in no hole. *)
Theorem C119_inside_simple_region : forall (outer : list pt) (inner : list (list pt)), simple_region outer inner -> forall q,
  (count_occ bool_dec (map (even_odd q) inner) true <= if even_odd q outer then 1 else 0)%nat /\
  xorb (even_odd q outer) (parity (map (even_odd q) inner)) = even_odd q outer && negb (existsb (even_odd q) inner).
Proof. exact inside_region. Qed.
Print Assumptions C119_inside_simple_region.

(** The outlines of a simple region go around no point more than once. *)
Theorem C119_simple_region_plain : forall (outer : list pt) (inner : list (list pt)), simple_region outer inner -> plain (outer :: inner).
Proof. exact simple_region_plain. Qed.
Print Assumptions C119_simple_region_plain.

(** The Voronoi cells of a simple region tile it. *)
Theorem C119_cells_tile_simple_region : forall (tol : R) fuel triangulate seeds (r : region RNum) outer inner, (0 < tol)%R -> region_made r ->
  (outer = map xy (rg_p r) \/ outer = rev (map xy (rg_p r))) ->
  Forall2 (fun (h : hole RNum) l => l = map xy (h_points h) \/ l = rev (map xy (h_points h))) (rg_holes r) inner ->
  simple_region outer inner -> separated tol (fun q => In q (seeds ++ getRegionPoints r)) ->
  exists inp, build_pslg (N := RNum) tol (region_copy r) seeds [] = Ok inp /\ in_holes inp = map (fun h : hole RNum => xy (h_center h)) (rg_holes r) /\
    let o := triangulate swConforming inp in
    delaunay_answer tol o -> sources_apart tol o -> fills_region tol (outer :: inner) o -> (length (o_tris o) < fuel)%nat ->
    exists v m areas, voronoiGenerator (N := RNum) tol triangulate fuel seeds r = Ok (v, m) /\ ul_list (ms_points m) = map read_point (o_points o) /\
      Forall2 (fun k (g : polygon RNum) => exists site vs, vertices_are (ul_list (ms_points m)) [k] [site] /\
        vertices_are (ul_list (ms_points v)) (pg_points g) vs /\ (forall x y, In (x, y) (edges_of (map xy vs)) -> (0 <= orient (xy site) x y)%R) /\
        forall x, seen_part (xy site) (map xy vs) x -> voronoi_region (map xy (ul_list (ms_points m))) (xy site) x)
        (dedup (flat_map corners (o_tris o))) (ms_polygons v) /\
      Forall2 (fun g a => exists g', getArea (N := RNum) g (ul_list (ms_points v)) = Ok (g', a)) (ms_polygons v) areas /\
      sumR areas = (Rabs (shoelace (map xy (rg_p r))) - sumR (map (fun h : hole RNum => Rabs (shoelace (map xy (h_points h)))) (rg_holes r)))%R /\
      forall q : Point RNum, exists es ts, Forall2 (holds_point tol (ul_list (ms_points v)) q) (ms_polygons v) es /\ Forall2 (holds_point tol (ul_list (ms_points m)) q) (ms_polygons m) ts /\
        (count_occ bool_dec es true = if region_holds r (xy q) then 1%nat else 0%nat) /\ (count_occ bool_dec ts true = if region_holds r (xy q) then 1%nat else 0%nat) /\
        (region_holds r (xy q) = true -> exists k g site vs, In (k, g) (combine (dedup (flat_map corners (o_tris o))) (ms_polygons v)) /\ vertices_are (ul_list (ms_points m)) [k] [site] /\
          vertices_are (ul_list (ms_points v)) (pg_points g) vs /\ seen_part (xy site) (map xy vs) (xy q) /\ voronoi_region (map xy (ul_list (ms_points m))) (xy site) (xy q)).
Proof. exact simple_voronoi. Qed.
Print Assumptions C119_cells_tile_simple_region.

(** The triangles of the constrained Delaunay mesh of a simple region tile it. *)
Theorem C119_triangles_tile_simple_region : forall (tol : R) triangulate seeds (r : region RNum) (c : gen_call RNum) restricted outer inner, (0 < tol)%R -> region_made r ->
  (c = CallConstrained /\ restricted = [] \/ c = CallConstrainedWith restricted) ->
  (outer = map xy (rg_p r) \/ outer = rev (map xy (rg_p r))) ->
  Forall2 (fun (h : hole RNum) l => l = map xy (h_points h) \/ l = rev (map xy (h_points h))) (rg_holes r) inner ->
  simple_region outer inner -> separated tol (fun q => In q (seeds ++ getRegionPoints r)) ->
  exists inp, build_pslg (N := RNum) tol (region_copy r) seeds restricted = Ok inp /\ in_holes inp = map (fun h : hole RNum => xy (h_center h)) (rg_holes r) /\
    let o := triangulate swConstrained inp in triangle_answer tol (outer :: inner) o ->
    exists g m areas, gen_do (N := RNum) triangulate tol (gen_ctor seeds r) c = (g, Ok (OutMesh (ByValue m))) /\ ul_list (ms_points m) = map read_point (o_points o) /\
      Forall2 (fun (t : triangle RNum) a => exists g', getArea (N := RNum) (tr_poly t) (ul_list (ms_points m)) = Ok (g', a) /\ (0 < a)%R) (ms_polygons m) areas /\
      sumR areas = (Rabs (shoelace (map xy (rg_p r))) - sumR (map (fun h : hole RNum => Rabs (shoelace (map xy (h_points h)))) (rg_holes r)))%R /\
      forall q : Point RNum, exists es, Forall2 (fun (t : triangle RNum) e => holds_point tol (ul_list (ms_points m)) q (tr_poly t) e) (ms_polygons m) es /\
        count_occ bool_dec es true = if region_holds r (xy q) then 1%nat else 0%nat.
Proof. exact simple_constrained. Qed.
Print Assumptions C119_triangles_tile_simple_region.

(** The same on doubles. *)
Theorem C119_constrained_mesh_on_doubles : forall (e : Z) (tol : f64) triangulate seeds (r : region F64) (c : gen_call F64) restricted outer inner, -200 <= e <= 200 -> tolerance64 tol -> region_made r ->
  (c = CallConstrained /\ restricted = [] \/ c = CallConstrainedWith restricted) ->
  (outer = map xyv (rg_p r) \/ outer = rev (map xyv (rg_p r))) ->
  Forall2 (fun (h : hole F64) l => l = map xyv (h_points h) \/ l = rev (map xyv (h_points h))) (rg_holes r) inner ->
  simple_region outer inner -> clustered tol (fun q => In q (seeds ++ getRegionPoints r ++ flat_map (fun s : pseg F64 => [fst s; snd s]) restricted)) ->
  exists inp, build_pslg (N := F64) tol (region_copy r) seeds restricted = Ok inp /\ in_holes inp = map (fun h : hole F64 => xy64 (h_center h)) (rg_holes r) /\
    let o := triangulate swConstrained inp in triangle_answer64 e tol (outer :: inner) o ->
    exists g m, gen_do (N := F64) triangulate tol (gen_ctor seeds r) c = (g, Ok (OutMesh (ByValue m))) /\ ul_list (ms_points m) = map read_point (o_points o) /\ tiles64 e tol r m.
Proof. exact simple_constrained64. Qed.
Print Assumptions C119_constrained_mesh_on_doubles.

(** The documented program that triangulates a simple domain, as compiled. *)
Theorem C119_triangulation_program_tiles : forall (e : Z) (tol : f64) (triangulate : switches -> pslg F64 -> trout F64) (order : list iseg -> list iseg)
    (home : text) (d : disk) (name : text) (pts : list (Point F64)) (os : list (region_op F64)) (r0 r : region F64) outer inner,
  -199 <= e <= 200 -> tolerance64 tol -> (forall l, Permutation (order l) l) ->
  Forall op_built64 os -> region_ctor (N := F64) tol pts = Ok r0 -> region_run (N := F64) tol r0 os = Ok r ->
  clustered tol (fun q => In q (rg_seeds r ++ getRegionPoints r)) -> dk_writable d (home ++ slash :: name) = true ->
  (outer = map xyv (rg_p r) \/ outer = rev (map xyv (rg_p r))) ->
  Forall2 (fun (h : hole F64) l => l = map xyv (h_points h) \/ l = rev (map xyv (h_points h))) (rg_holes r) inner -> simple_region outer inner ->
  exists inp, build_pslg (N := F64) tol (region_copy r) (rg_seeds r) [] = Ok inp /\
    let o := triangulate swConstrained inp in triangle_answer64 e tol (outer :: inner) o ->
    exists d' t f, triangulation_program (N := F64) tol print_double triangulate order (Some home) d pts os name = Ok (d', t) /\
      dk_text d' (home ++ slash :: name) = Some f /\ ul_list (ms_points t) = map read_point (o_points o) /\ tiles64 e tol r t.
Proof. exact simple_program64. Qed.
Print Assumptions C119_triangulation_program_tiles.

(** a square with a square hole, an L, and the L on doubles *)
Example C119_hypotheses_met :
  (simple_outlines [map xy ell] /\ (0 < shoelace (map xy ell))%R) /\
  (region_made r_frame /\ Forall2 (fun (h : hole RNum) l => l = map xy (h_points h) \/ l = rev (map xy (h_points h))) (rg_holes r_frame) [map xy gap] /\ simple_region (map xy (rg_p r_frame)) [map xy gap] /\
   separated (1 / 100000)%R (fun q => In q (frame_seeds ++ getRegionPoints r_frame)) /\
   delaunay_answer (1 / 100000)%R (ring_out RNum) /\ sources_apart (1 / 100000)%R (ring_out RNum) /\ fills_region (1 / 100000)%R (map xy (rg_p r_frame) :: [map xy gap]) (ring_out RNum)) /\
  (region_made r_ell /\ rg_holes r_ell = [] /\ simple_region (map xy (rg_p r_ell)) [] /\ separated (1 / 100000)%R (fun q => In q ([] ++ getRegionPoints r_ell)) /\
   triangle_answer (1 / 100000)%R [map xy (rg_p r_ell)] (ell_out RNum)) /\
  (tolerance64 tol64 /\ region_ctor (N := F64) tol64 ell64 = Ok r_ell64 /\ region_made r_ell64 /\ region_run (N := F64) tol64 r_ell64 [] = Ok r_ell64 /\
   clustered tol64 (fun q => In q (rg_seeds r_ell64 ++ getRegionPoints r_ell64)) /\ rg_holes r_ell64 = [] /\ simple_region (map xyv (rg_p r_ell64)) [] /\
   triangle_answer64 0 tol64 [map xyv (rg_p r_ell64)] (ell_out F64)).
Proof.
  split; [split; [exact ell_simple|pose proof (sr_outer _ _ ell_region) as H; rewrite (proj1 r_ell_points) in H; exact H]|].
  split; [split; [exact r_frame_made|]; split; [exact frame_holes|]; split; [exact frame_region|]; split; [exact frame_separated|]; split; [exact ring_answer|]; split; [exact ring_sources|exact ring_region]|].
  split; [split; [exact r_ell_made|]; split; [exact (proj2 r_ell_points)|]; split; [exact ell_region|]; split; [exact ell_separated|exact ell_answer]|].
  split; [exact tol64_usable|]. split; [exact r_ell64_ctor|]. split; [exact r_ell64_made|]. split; [exact r_ell64_run|]. split; [exact ell64_clustered|].
  split; [exact (proj1 (proj2 r_ell64_shape))|]. split; [exact ell_region64|exact ell_answer64].
Qed.
