(** Voronoi meshes on doubles that add up in spite of rounding, used in the statements of the theorems. *)
From Coq Require Import Reals ZArith.
From Coq Require Import List Bool.
From Verif Require Import Base Spec MUtil MGeom MPolygon MMaps MTriangle MGen MRegion MDelaunay Bridge BridgeNum BridgeVor64 BridgeTile BridgeFill BridgeWind BridgeSimple BridgeSimple64.
Import ListNotations.

(** what a conforming triangulation of what the outlines bound is, on doubles: the sides of its border are the outlines with points strung on
    them, no site is inside a circle around a side of the border, and consecutive sides of the border are on one line or clearly not, all in exact
    arithmetic on the values of the coordinates *)
Record fills_region64 (tol : f64) (outlines : list (list pt)) (o : trout F64) : Prop := {
  fr64_rings : exists rings, (forall a b, border_side (o_tris o) a b <-> exists ring, In ring rings /\ In (a, b) (edges_of ring)) /\ NoDup (concat rings) /\
    Forall2 (fun ring outline => exists rs, vertices_are (map read_point (o_points o)) ring rs /\ subdivides (map xyv rs) outline) rings outlines;
  fr64_gabriel : forall a b A B, border_side (o_tris o) a b -> vertices_are (map read_point (o_points o)) [a; b] [A; B] ->
    gabriel_edge (sites64 o) (xyv A) (xyv B);
  fr64_corners : forall a b c A B C, border_side (o_tris o) a b -> border_side (o_tris o) b c -> vertices_are (map read_point (o_points o)) [a; b; c] [A; B; C] ->
    (orient (xyv A) (xyv B) (xyv C) = 0 \/ 4 * val tol <= Rabs (orient (xyv A) (xyv B) (xyv C)))%R
}.
(** [zs] is the true cell, counterclockwise, of which the cell [g] of site [k] stores the rounded corners: its corners are true Voronoi vertices,
    middles of edges and sites, its area is positive, all of its border is seen from its site, and it lies in the Voronoi region of its site *)
Definition rounded_cell (o : trout F64) (pts : list (Point F64)) (k : Z) (g : polygon F64) (zs : list pt) : Prop :=
  exists site vs, vertices_are (map read_point (o_points o)) [k] [site] /\ vertices_are pts (pg_points g) vs /\
    (map xyv vs = map rounded zs \/ map xyv vs = map rounded (rev zs)) /\ (forall z, In z zs -> true_source o z) /\ (0 < shoelace zs)%R /\
    (forall x y, In (x, y) (edges_of zs) -> (0 <= orient (xyv site) x y)%R) /\
    (forall x, In x zs -> voronoi_region (sites64 o) (xyv site) x).
(** the cells of the mesh, as they are stored, add up to the region: one cell for each site, whose areas, signed by the direction of the true
    cell, add up exactly to that of the region, and which go once around each point of the region and not around the others; so a point is in an
    odd number of cells if it is in the region, and in an even number if it is not *)
Definition adds_up64 (r : region F64) (o : trout F64) (v : mesh F64 (polygon F64)) : Prop :=
  let sites := dedup (flat_map corners (o_tris o)) in
  exists zss, length sites = length (ms_polygons v) /\
    Forall2 (fun kg zs => rounded_cell o (ul_list (ms_points v)) (fst kg) (snd kg) zs) (combine sites (ms_polygons v)) zss /\
    sumR (map (fun zs => shoelace (map rounded zs)) zss) =
      (Rabs (shoelace (map xyv (rg_p r))) - sumR (map (fun h : hole F64 => Rabs (shoelace (map xyv (h_points h)))) (rg_holes r)))%R /\
    forall q, fold_right Z.add 0%Z (map (fun zs => winding q (map rounded zs)) zss) = (if region_holds64 r q then 1 else 0)%Z /\
      exists es, Forall2 (fun (g : polygon F64) b => exists vs, vertices_are (ul_list (ms_points v)) (pg_points g) vs /\ b = even_odd q (map xyv vs)) (ms_polygons v) es /\
        parity es = region_holds64 r q.
