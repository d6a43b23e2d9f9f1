(** Triangulations of regions on doubles, used in the statements of the theorems. *)
From Coq Require Import Reals ZArith.
From Coq Require Import List Bool.
From Verif Require Import Base Spec MUtil MGeom MPolygon MMaps MTriangle MGen MRegion MDelaunay Bridge BridgeNum BridgeVor64 BridgeTile BridgeFill BridgeWind BridgeSimple.
Import ListNotations.

(** what a triangulation of what the outlines bound is, on doubles: its triangles are counterclockwise, no side is used twice in one direction
    and the sides of its border are the outlines with points strung on them, all in exact arithmetic on the values of the coordinates *)
Record triangle_answer64 (e : Z) (tol : f64) (outlines : list (list pt)) (o : trout F64) : Prop := {
  a64_triangulated : triangulated64 e tol o;
  a64_ccw : forall t A B C, In t (o_tris o) -> vertices_are (map read_point (o_points o)) (corners t) [A; B; C] -> (0 < orient (xyv A) (xyv B) (xyv C))%R;
  a64_once : directed_once (o_tris o);
  a64_rings : exists rings, (forall a b, border_side (o_tris o) a b <-> exists ring, In ring rings /\ In (a, b) (edges_of ring)) /\ NoDup (concat rings) /\
    Forall2 (fun ring outline => exists rs, vertices_are (map read_point (o_points o)) ring rs /\ subdivides (map xyv rs) outline) rings outlines
}.
(** the answer of containsPoint on doubles is the even-odd rule, or the point is near the border *)
Definition holds_point64 (tol : f64) (pts : list (Point F64)) (q : Point F64) (g : polygon F64) (e : bool) : Prop :=
  exists vs b, vertices_are pts (pg_points g) vs /\ e = even_odd (xyv q) (map xyv vs) /\
    containsPoint (N := F64) tol (pg_points g) pts q = Ok b /\ (b = true <-> e = true \/ near_border (val tol) (xyv q) (map xyv vs)).
(** the even-odd rule on the outline and the holes together *)
Definition region_holds64 (r : region F64) (q : pt) : bool :=
  xorb (even_odd q (map xyv (rg_p r))) (parity (map (fun h : hole F64 => even_odd q (map xyv (h_points h))) (rg_holes r))).
(** the mesh tiles the region: getArea answers positive areas that add up exactly to the area of the outline minus those of the holes, and
    containsPoint finds a point on the grid in exactly one triangle if it is in the region, and in none if it is not *)
Definition tiles64 (e : Z) (tol : f64) (r : region F64) (m : mesh F64 (triangle F64)) : Prop :=
  (exists areas, Forall2 (fun (t : triangle F64) a => exists g', getArea (N := F64) (tr_poly t) (ul_list (ms_points m)) = Ok (g', a) /\ fin a /\ (0 < val a)%R) (ms_polygons m) areas /\
    sumR (map val areas) = (Rabs (shoelace (map xyv (rg_p r))) - sumR (map (fun h : hole F64 => Rabs (shoelace (map xyv (h_points h)))) (rg_holes r)))%R) /\
  forall q : Point F64, grid_point e q -> exists es, Forall2 (fun (t : triangle F64) b => holds_point64 tol (ul_list (ms_points m)) q (tr_poly t) b) (ms_polygons m) es /\
    count_occ bool_dec es true = if region_holds64 r (xyv q) then 1%nat else 0%nat.
