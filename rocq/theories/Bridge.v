(** Readings of model values used in the statements of the theorems: which
    mathematical object a value of the model stands for. *)
From Coq Require Import Reals Floats.SpecFloat.
From Verif Require Import Base Spec MUtil MGeom MHull MPolygon MMaps MTriangle MGen MRegion MDelaunay.

(** the coordinates of a point *)
Definition xy (p : Point RNum) : pt := (px p, py p).

(** "within tolerance" is transitive on each coordinate of the points of P *)
Definition separated (tol : R) (P : Point RNum -> Prop) : Prop :=
  forall a b c, P a -> P b -> P c ->
    ((Rabs (px a - px b) < tol -> Rabs (px b - px c) < tol -> Rabs (px a - px c) < tol) /\
     (Rabs (py a - py b) < tol -> Rabs (py b - py c) < tol -> Rabs (py a - py c) < tol))%R.

(** neither infinite nor NaN *)
Definition finite64 (x : f64) : Prop := match x with S754_zero _ | S754_finite _ _ _ => True | _ => False end.
Definition finite_point (p : Point F64) : Prop := finite64 (px p) /\ finite64 (py p).

Definition xy64 (p : Point F64) : f64 * f64 := (px p, py p).
(** comparison of lists, used to state computed examples as booleans *)
Fixpoint list_eqb {A} (eqb : A -> A -> bool) (l1 l2 : list A) : bool :=
  match l1, l2 with
  | [], [] => true
  | a :: l1', b :: l2' => eqb a b && list_eqb eqb l1' l2'
  | _, _ => false
  end.
Definition dpt (nx dx ny dy : Z) : Point F64 := mkP (N := F64) (F64_dec nx dx) (F64_dec ny dy).

(** what each setter of the configuration sets *)
Section Setters.
  Context {N : Num}.
  Definition set_grade_of (o : config_op N) := match o with SetGrade d => Some d | _ => None end.
  Definition set_tol_of (o : config_op N) := match o with SetTolerance t => Some t | _ => None end.
  Definition set_scale_of (o : config_op N) := match o with SetScale s => Some s | _ => None end.
  Definition set_prec_of (o : config_op N) :=
    match o with
    | SetPrecisionInt p => Some p
    | SetPrecisionEnum prec_small => Some 6%Z
    | SetPrecisionEnum prec_mid => Some 10%Z
    | SetPrecisionEnum prec_large => Some 16%Z
    | _ => None
    end.
End Setters.

(** * Segment and point maps *)

(** the unordered pair *)
Definition canon (s : Z * Z) : Z * Z := (Z.min (fst s) (snd s), Z.max (fst s) (snd s)).
Definition pair_eqb (a b : Z * Z) : bool := (fst a =? fst b)%Z && (snd a =? snd b)%Z.

Definition sm_op_segment (o : sm_op) : iseg :=
  match o with SmInsert s _ => s | SmPut s _ => s | SmGet s => s end.

(** the abstract map from unordered pairs to the recorded neighbours *)
Definition spec_sm_step (f : Z * Z -> option nbseg) (o : sm_op) : Z * Z -> option nbseg :=
  fun k => if pair_eqb k (canon (sm_op_segment o)) then
    match o, f k with
    | SmInsert _ i, None => Some (mkNb (Some i) (-1))
    | SmInsert _ i, Some n => Some (mkNb (nb1 n) i)
    | SmPut _ n, _ => Some n
    | SmGet _, None => Some (mkNb None (-1))
    | SmGet _, Some n => Some n
    end else f k.
Definition spec_sm_run (h : list sm_op) : Z * Z -> option nbseg :=
  fold_left spec_sm_step h (fun _ => None).

(** the polygons inserted for the unordered segment [s] *)
Definition inserted_at (s : Z * Z) (h : list sm_op) : list Z :=
  flat_map (fun o => match o with
                     | SmInsert s' i => if pair_eqb (canon s') (canon s) then [i] else []
                     | _ => [] end) h.
Definition is_insert (o : sm_op) : bool := match o with SmInsert _ _ => true | _ => false end.

Section PointMapSpec.
  Context {N : Num}.
  Variable eqv : Point N -> Point N -> bool.
  Definition pm_op_point (o : pm_op N) : Point N :=
    match o with PmInsert p _ => p | PmInsertList p _ => p | PmGet p => p end.
  Definition pm_op_indices (o : pm_op N) : list Z :=
    match o with PmInsert _ i => [i] | PmInsertList _ is => is | PmGet _ => [] end.
  (** everything inserted for points equal to [p], in order *)
  Definition pm_collected (p : Point N) (h : list (pm_op N)) : list Z :=
    flat_map (fun o => if eqv (pm_op_point o) p then pm_op_indices o else []) h.
End PointMapSpec.

(** * Polygons *)

(** the vertices designated by the indices [idx] in the point vector [p]: every index is in
    range and denotes the corresponding vertex *)
Definition vertices_are {N : Num} (p : list (Point N)) (idx : list Z) (vs : list (Point N)) : Prop :=
  Forall2 (fun k v => (0 <= k)%Z /\ nth_error p (Z.to_nat k) = Some v) idx vs.
Definition in_range {A} (p : list A) (idx : list Z) : Prop := Forall (fun k => (0 <= k < zlen p)%Z) idx.

(** queries made on a polygon between two observations *)
Inductive pg_query (N : Num) := QArea (p : list (Point N)) | QDiameter (p : list (Point N)) | QCentroid (p : list (Point N)) | QCopy.
Arguments QArea {N}. Arguments QDiameter {N}. Arguments QCentroid {N}. Arguments QCopy {N}.
Definition pg_ask {N : Num} (g : polygon N) (q : pg_query N) : res (polygon N) :=
  match q with
  | QArea p => r <- getArea g p ;; Ok (fst r)
  | QDiameter p => r <- getDiameter g p ;; Ok (fst r)
  | QCentroid p => r <- getCentroid g p ;; Ok (fst r)
  | QCopy => Ok (polygon_copy g)
  end.
Definition pg_asks {N : Num} (qs : list (pg_query N)) (g : polygon N) : res (polygon N) := foldM pg_ask qs g.

Section PolygonReadings.
  Context {N : Num}.
  (** every way a polygon value is produced *)
  Inductive made (tol : nT N) : polygon N -> Prop :=
  | made_idx idx p g : polygon_ctor_idx tol idx p = Ok g -> made tol g
  | made_pts p g : polygon_ctor_pts tol p = Ok g -> made tol g
  | made_copy g : made tol g -> made tol (polygon_copy g)
  | made_mutate g p : made tol g -> made tol (fst (polygon_mutate tol g p))
  | made_area g p g' a : made tol g -> getArea g p = Ok (g', a) -> made tol g'
  | made_diam g p g' d : made tol g -> getDiameter g p = Ok (g', d) -> made tol g'
  | made_cen g p g' c : made tol g -> getCentroid g p = Ok (g', c) -> made tol g'
  | made_ccw g p g' : made tol g -> fixCCW g p = Ok g' -> made tol g'.

  (** the edges i and j of the closed chain are reported as intersecting *)
  Definition crossing_pair (tol : nT N) (vs : list (Point N)) (i j : nat) : Prop :=
    exists a b c d, nth_error vs i = Some a /\ nth_error vs ((i + 1) mod length vs) = Some b /\
      nth_error vs j = Some c /\ nth_error vs ((j + 1) mod length vs) = Some d /\
      fst (intersects tol a b c d point0) = true.
End PolygonReadings.

(** the cached area is unset or right *)
Definition consistent_area (g : polygon RNum) (vs : list (Point RNum)) : Prop :=
  pg_area g = (-1)%R \/ pg_area g = shoelace (map xy vs).

(** * Regions *)
Section RegionReadings.
  Context {N : Num}.
  (** the two ways a hole is produced *)
  Inductive hole_built : hole N -> Prop :=
  | built_polygonal tol p h : polygonalHole tol p = Ok h -> hole_built h
  | built_circular tol pts c h : circularHole tol pts c = Ok h -> hole_built h.

  (** every region reachable by a history of calls; the holes may also be changed through the
      reference returned by getHoles *)
  Inductive region_made : region N -> Prop :=
  | rm_default d a h : region_made (region_default d a h)
  | rm_ctor tol pts r : region_ctor tol pts = Ok r -> region_made r
  | rm_polygon tol g0 idx pts r : region_of_polygon tol g0 idx pts = Ok r -> region_made r
  | rm_mutate tol r pts : region_made r -> region_made (fst (region_mutate tol r pts))
  | rm_copy r : region_made r -> region_made (region_copy r)
  | rm_addHole clip cf r h : region_made r -> hole_built h -> region_made (fst (addHole clip cf r h))
  | rm_cleanHoles r : region_made r -> region_made (cleanInternalHoles r)
  | rm_getHoles r hs : region_made r -> Forall hole_built hs -> region_made (mkRegion (rg_poly r) (rg_p r) hs (rg_seeds r))
  | rm_cleanSeeds r : region_made r -> region_made (cleanSeedPoints r)
  | rm_addSeeds tol r s r' : region_made r -> addSeedPoints tol r s = Ok r' -> region_made r'
  | rm_generate tol r g nX nY r' g' : region_made r -> generateSeedPoints tol r g nX nY = Ok (r', g') -> region_made r'
  | rm_read tol r s r' : region_made r -> addSeedsRead tol r s = Ok r' -> region_made r'
  | rm_ask r q g : region_made r -> pg_ask (rg_poly r) q = Ok g -> region_made (mkRegion g (rg_p r) (rg_holes r) (rg_seeds r))
  | rm_fixCCW r p g : region_made r -> fixCCW (rg_poly r) p = Ok g -> region_made (mkRegion g (rg_p r) (rg_holes r) (rg_seeds r)).

  (** the segment of indices denotes the pair of points *)
  Definition denotes (P : list (Point N)) (s : Z * Z) (e : Point N * Point N) : Prop :=
    (0 <= fst s)%Z /\ nth_error P (Z.to_nat (fst s)) = Some (fst e) /\
    (0 <= snd s)%Z /\ nth_error P (Z.to_nat (snd s)) = Some (snd e).

  (** the answers of the code: in the outline and in no hole *)
  Definition in_domain (tol : nT N) (r : region N) (q : Point N) : Prop :=
    region_containsPoint tol r q = Ok true /\ Forall (fun h => hole_containsPoint tol h q = Ok false) (rg_holes r).
End RegionReadings.

(** inside the outline by the even-odd rule, or near it *)
Definition inside_or_near (tol : R) (q : pt) (vs : list pt) : Prop := even_odd q vs = true \/ near_border tol q vs.
Definition region_no_short_edge (tol : R) (r : region RNum) : Prop :=
  no_short_edge tol (map xy (rg_p r)) /\ Forall (fun h => no_short_edge tol (map xy (h_points h))) (rg_holes r).

(** the integer grid used for clipping *)
Section Grid.
  Local Open Scope R_scope.
  Definition on_grid (scale : Z) (v : Point RNum) (k : Z * Z) : Prop :=
    truncates (IZR scale * px v) (fst k) /\ truncates (IZR scale * py v) (snd k).
  Definition off_grid (scale : Z) (k : Z * Z) : Point RNum := mkP (N := RNum) (IZR (fst k) / IZR scale) (IZR (snd k) / IZR scale).
  (** the scaled coordinates truncate to values of int *)
  Definition fits (scale : Z) (v : Point RNum) : Prop :=
    (-2147483649 < IZR scale * px v < 2147483648) /\ (-2147483649 < IZR scale * py v < 2147483648).
  Definition self_crossing_outline (tol : R) (vs : list (Point RNum)) : Prop :=
    exists i j, non_adjacent (length vs) i j /\ crossing_pair (N := RNum) tol vs i j.
End Grid.

(** LLONG_MAX as a double *)
Definition big : R := 9223372036854775808%R.

(** * Triangulator input and output *)
(** both ends of the segment coincide with the ends of [e] *)
Definition near_denotes (tol : R) (pl : list (Point RNum)) (s : Z * Z) (e : Point RNum * Point RNum) : Prop :=
  exists a b, denotes pl s (a, b) /\ coincide tol (xy a) (xy (fst e)) /\ coincide tol (xy b) (xy (snd e)).
(** [k] is the first position of a point coinciding with [q], or -1 when there is none *)
Definition index_near (tol : R) (pl : list (Point RNum)) (q : Point RNum) (k : Z) : Prop :=
  (k = (-1)%Z /\ forall y, In y pl -> ~ coincide tol (xy y) (xy q)) \/
  ((0 <= k)%Z /\ (exists y, nth_error pl (Z.to_nat k) = Some y /\ coincide tol (xy y) (xy q)) /\
   forall j y, (j < Z.to_nat k)%nat -> nth_error pl j = Some y -> ~ coincide tol (xy y) (xy q)).
(** no two of the points coincide *)
Definition all_apart (tol : R) (pl : list (Point RNum)) : Prop :=
  forall i j a b, nth_error pl i = Some a -> nth_error pl j = Some b -> i <> j -> ~ coincide tol (xy a) (xy b).
(** the mesh a call gave, however it was handed back *)
Definition held {N : Num} (o : res (gen_out N)) : res (option (mesh N (triangle N))) :=
  match o with
  | Ok (OutMesh (ByValue m)) | Ok (OutMesh (RefToLocal m)) => Ok (Some m)
  | Ok (OutInfo _) => Ok None
  | Err e => Err e
  end.
(** three different vertices *)
Definition three_distinct (t : list Z) : Prop := exists a b c, t = [a; b; c] /\ NoDup [a; b; c].
Definition integrity_msg : string := "Invalid triangle detected. Stopping meshing.".
(** [y] is [x] or cannot be told from it by the order *)
Definition stands_for {A} (lt : A -> A -> bool) (y x : A) : Prop := y = x \/ (lt y x = false /\ lt x y = false).
(** three vertices, no two of which coincide *)
Definition spread (tol : R) (mp : list (Point RNum)) (t : list Z) : Prop :=
  exists A B C, vertices_are mp t [A; B; C] /\ ~ coincide tol (xy A) (xy B) /\ ~ coincide tol (xy B) (xy C) /\ ~ coincide tol (xy C) (xy A).
(** the same four readings for any number system, [same] telling which points coincide *)
Section By.
  Context {N : Num} (same : Point N -> Point N -> Prop).
  Definition denotes_by (pl : list (Point N)) (s : Z * Z) (e : Point N * Point N) : Prop :=
    exists a b, denotes pl s (a, b) /\ same a (fst e) /\ same b (snd e).
  Definition index_by (pl : list (Point N)) (q : Point N) (k : Z) : Prop :=
    (k = (-1)%Z /\ forall y, In y pl -> ~ same y q) \/
    ((0 <= k)%Z /\ (exists y, nth_error pl (Z.to_nat k) = Some y /\ same y q) /\
     forall j y, (j < Z.to_nat k)%nat -> nth_error pl j = Some y -> ~ same y q).
  Definition apart_by (pl : list (Point N)) : Prop :=
    forall i j a b, nth_error pl i = Some a -> nth_error pl j = Some b -> i <> j -> ~ same a b.
  Definition spread_by (mp : list (Point N)) (t : list Z) : Prop :=
    exists A B C, vertices_are mp t [A; B; C] /\ ~ same A B /\ ~ same B C /\ ~ same C A.
End By.
(** the call gives what reading [rd] gives *)
Definition answers {N : Num} (tol : nT N) (rd : res (delaunay N)) (c : gen_call N) (o : res (gen_out N)) : Prop :=
  match c with
  | CallConformingInfo => o = (x <- rd ;; Ok (OutInfo x))
  | _ => held o = (x <- rd ;; m <- initializeMesh tol (triangle_ctor tol) x ;; Ok (Some m))
  end.

(** * Voronoi cells *)
(** where a vertex of the cell of the point [v] comes from: the circumcenter of a triangle with corner [v], the middle
    of an edge at [v] with at most one triangle, or the point itself *)
Inductive cell_source {N : Num} (o : trout N) (v : Z) (x : Point N) : Prop :=
| src_triangle t A B C : In t (o_tris o) -> In v (corners t) -> vertices_are (map read_point (o_points o)) (corners t) [A; B; C] ->
    circumcenter A B C = Ok x -> cell_source o v x
| src_edge e m : In e (o_edges o) -> touches v (fst e) = true -> (length (incident (o_tris o) (fst e)) <= 1)%nat ->
    iseg_middle (map read_point (o_points o)) (fst e) = Ok m -> x = setBoundary m -> cell_source o v x
| src_self q : vertices_are (map read_point (o_points o)) [v] [q] -> x = setBoundary q -> cell_source o v x.
(** the index [i] of the point list stands for a vertex of the cell of [v] *)
Definition cell_vertex {N : Num} (tol : nT N) (o : trout N) (v : Z) (cc : list (Point N)) (i : Z) : Prop :=
  exists y x, vertices_are cc [i] [y] /\ stands_for (pt_ltb tol) y x /\ cell_source o v x.
(** the [c]-th list has both ends of [s] *)
Definition joins (cells : list (list Z)) (c : Z) (s : Z * Z) : Prop :=
  exists l, (0 <= c)%Z /\ nth_error cells (Z.to_nat c) = Some l /\ In (fst s) l /\ In (snd s) l.
(** every entry of the edge map names cells having both ends of the edge *)
Definition edges_linked (cells : list (list Z)) (m : segmap) : Prop :=
  Forall (fun e : iseg * nbseg => exists c, nb1 (snd e) = Some c /\ joins cells c (fst e) /\ (nb2 (snd e) = (-1)%Z \/ joins cells (nb2 (snd e)) (fst e))) m.

(** the index [i] of the point list stands for the point [x] *)
Definition stands_at {N : Num} (tol : nT N) (cc : list (Point N)) (i : Z) (x : Point N) : Prop :=
  exists y, vertices_are cc [i] [y] /\ stands_for (pt_ltb tol) y x.
(** the different ends of consecutive pairs *)
Definition different (es : list (Z * Z)) : list (Z * Z) := filter (fun e => negb (fst e =? snd e)%Z) es.
(** the cell of a point with a closed fan [ts]: the circumcenters of its triangles in turn; [ci] gives the index of the
    circumcenter of a triangle, [pts] is the polygon and [segs] are the edges registered for it *)
Definition inner_cell (ci : nat -> Z) (ts : list nat) (pts : list Z) (segs : list (Z * Z)) : Prop :=
  exists l, turned ts l /\ (pts = dedup (map ci l) \/ pts = rev (dedup (map ci l))) /\ segs = different (edges_of (map ci l)).
(** the index [i] stands for the middle of the edge between [v] and [w] *)
Definition middle_at {N : Num} (tol : nT N) (o : trout N) (cc : list (Point N)) (v w i : Z) : Prop :=
  exists e m, In e (o_edges o) /\ same_side (v, w) (fst e) = true /\ iseg_middle (map read_point (o_points o)) (fst e) = Ok m /\
    stands_at tol cc i (setBoundary m).
(** the cell of a point [v] with an open fan from [w] to [w']: the middle of one outer edge, the circumcenters in turn, the
    middle of the other outer edge, and [v] itself unless it lies on the line through the ends of this chain *)
Definition border_cell {N : Num} (tol : nT N) (o : trout N) (cc : list (Point N)) (ci : nat -> Z) (v w w' : Z) (ts : list nat)
    (pts : list Z) (segs : list (Z * Z)) : Prop :=
  exists u u' l a b q f z qf qz cell,
    ((u = w /\ u' = w' /\ l = ts) \/ (u = w' /\ u' = w /\ l = rev ts)) /\
    middle_at tol o cc v u a /\ middle_at tol o cc v u' b /\ vertices_are (map read_point (o_points o)) [v] [q] /\
    hd_error (dedup (a :: map ci l ++ [b])) = Some f /\ hd_error (rev (dedup (a :: map ci l ++ [b]))) = Some z /\
    vertices_are cc [f; z] [qf; qz] /\ (pts = cell \/ pts = rev cell) /\
    ((collinear tol qf q qz = true /\ cell = dedup (a :: map ci l ++ [b]) /\
        segs = different (pairs (a :: map ci l ++ [b])) ++ [(z, f)]) \/
     (collinear tol qf q qz = false /\ exists r, stands_at tol cc r (setBoundary q) /\ cell = dedup ((a :: map ci l ++ [b]) ++ [r]) /\
        segs = different (pairs (a :: map ci l ++ [b])) ++ [(z, r); (r, f)])).
(** [c] is the circumcenter of the [k]-th triangle of an output *)
Definition center_of {N : Num} (o : trout N) (k : nat) (c : Point N) : Prop :=
  exists t A B C, nth_error (o_tris o) k = Some t /\ vertices_are (map read_point (o_points o)) (corners t) [A; B; C] /\ circumcenter A B C = Ok c.
Definition output_sites (o : trout RNum) : list pt := map xy (map read_point (o_points o)).
(** every triangle is counterclockwise with no site inside its circumscribed circle, and no side is used twice in one direction *)
Definition delaunay_output (o : trout RNum) : Prop :=
  (forall t A B C, In t (o_tris o) -> vertices_are (map read_point (o_points o)) (corners t) [A; B; C] ->
     delaunay_triangle (output_sites o) (xy A) (xy B) (xy C)) /\ directed_once (o_tris o).
(** circumcenters that coincide within the tolerance are equal *)
Definition centers_apart (tol : R) (o : trout RNum) : Prop :=
  forall k k' c c', center_of o k c -> center_of o k' c' -> coincide tol (xy c) (xy c') -> xy c = xy c'.
(** a circumcenter shared by several triangles is stored once: it is not shared, or the tolerance does not confuse the centers *)
Definition centers_stored_once (tol : R) (o : trout RNum) : Prop :=
  separated tol (fun c => exists k, center_of o k c) \/
  forall k k' c c', center_of o k c -> center_of o k' c' -> xy c = xy c' -> k = k'.
(** a point the cells are made of *)
Definition vertex_source {N : Num} (o : trout N) (x : Point N) : Prop := exists v, cell_source o v x.
(** such points that coincide within the tolerance are equal, and the tolerance does not confuse them in the container *)
Definition sources_apart (tol : R) (o : trout RNum) : Prop :=
  separated tol (vertex_source o) /\ forall x x', vertex_source o x -> vertex_source o x' -> coincide tol (xy x) (xy x') -> xy x = xy x'.
(** no point of the list stands for both *)
Definition told_apart {N : Num} (tol : nT N) (x x' : Point N) : Prop :=
  forall y, ~ (stands_for (pt_ltb tol) y x /\ stands_for (pt_ltb tol) y x').
(** circumcenters of different triangles, middles of boundary edges of other triangles, and boundary sites *)
Record distinct_sources {N : Num} (tol : nT N) (o : trout N) : Prop := {
  ds_centers : forall k k' c c', center_of o k c -> center_of o k' c' -> k <> k' -> told_apart tol c c';
  ds_middles : forall k t c e m, nth_error (o_tris o) k = Some t -> center_of o k c -> In e (o_edges o) -> snd e = 1%Z ->
    has_side (fst e) t = false -> iseg_middle (map read_point (o_points o)) (fst e) = Ok m -> told_apart tol (setBoundary m) c;
  ds_sites : forall k c e v q, center_of o k c -> In e (o_edges o) -> snd e = 1%Z -> touches v (fst e) = true ->
    vertices_are (map read_point (o_points o)) [v] [q] -> told_apart tol (setBoundary q) c
}.
(** the insertions made for the cells from number [c] on *)
Fixpoint cell_inserts (c : Z) (segs : list (list (Z * Z))) : list sm_op :=
  match segs with [] => [] | l :: rest => map (fun s => SmInsert s c) l ++ cell_inserts (c + 1)%Z rest end.

(** * Text files.  [fmt] prints a coordinate and [atof] reads one. *)
Definition reread {N : Num} (atof : text -> nT N) (fmt : nT N -> text) (q : Point N) : Point N :=
  mkP (atof (fmt (px q))) (atof (fmt (py q))).
Definition printable {N : Num} (fmt : nT N -> text) (q : Point N) : Prop :=
  field (fmt (px q)) /\ field (fmt (py q)).

(** * Point generators *)
(** the nodes of the grid over a box, row by row *)
Definition grid_nodes {N : Num} (box : bbox N) (nX nY : Z) : list (nT N * nT N) :=
  flat_map (fun i => map (fun j => (nadd (bb_xMin box) (nmul (nZ (Z.of_nat j)) (ndiv (bb_width box) (nZ (nX - 1)%Z))),
                                    nadd (bb_yMin box) (nmul (nZ (Z.of_nat i)) (ndiv (bb_height box) (nZ (nY - 1)%Z)))))
                         (seq 0 (Z.to_nat nX))) (seq 0 (Z.to_nat nY)).

(** every number in a call on a segment map has at most six digits *)
Definition six_digits (n : Z) : Prop := Z.abs n < 1000000.
Definition sm_op_short (o : sm_op) : Prop :=
  six_digits (fst (sm_op_segment o)) /\ six_digits (snd (sm_op_segment o)) /\
  match o with
  | SmInsert _ i => six_digits i
  | SmPut _ n => (forall i, nb1 n = Some i -> six_digits i) /\ six_digits (nb2 n)
  | SmGet _ => True
  end.
