(** Text files and copies of meshes: properties C55, C56, C57. *)
From Coq Require Import Reals Lra.
From Verif Require Import Base Spec MUtil MGeom MHull MPolygon MMaps MTriangle MGen MRegion MDelaunay MVoronoi MMesh Bridge.
From Verif Require Import PMesh Samples.
Open Scope Z_scope.

(** C55: the edge section of a printed mesh is read as its polygon section: one polygon with a
    single vertex for every edge, so a mesh with a proper polygon is never read back. *)
Theorem C55_printed_mesh_is_misread : forall (N : Num) (tol : nT N) (atof : text -> nT N) (fmt : nT N -> text)
    (pts : list (Point N)) (es : list iseg) (polys : list (list Z)),
  Forall (printable fmt) pts -> zlen pts <= int_max -> zlen es <= int_max ->
  Forall (fun e => Z.abs (fst e) < 1000000 /\ Z.abs (snd e) < 1000000) es ->
  exists m, createFromStream atof tol (polygon_ctor_idx tol) (@pg_points N) mesh_new (printInStream fmt pts es polys) 0 = Ok m /\
    map (@pg_points N) (ms_polygons m) = map (fun e => [snd e]) es /\
    (forall nb s, um_find (iseg_match nb) s (ms_edges m) =
       spec_sm_run (cell_inserts 0 (map (fun e => [(snd e, snd e)]) es)) (canon s)) /\
    ((exists ks, In ks polys /\ (2 <= length ks)%nat) -> map (@pg_points N) (ms_polygons m) <> polys).
Proof. exact @printed_read. Qed.
Print Assumptions C55_printed_mesh_is_misread.

Example C55_printed_case :
  match createFromStream (N := F64) atof_int tol64 (polygon_ctor_idx (N := F64) tol64) (@pg_points F64) mesh_new
          (printInStream (N := F64) fmt_int house house_edges house_polys) 0 with
  | Ok m => map (@pg_points F64) (ms_polygons m) = [[1]; [2]; [3]; [0]; [4]; [3]]
  | Err _ => False
  end.
Proof. vm_compute. reflexivity. Qed.

(** C55: a file with a point section and a polygon section is read back: points, polygons, and the
    neighbours of every edge. *)
Theorem C55_points_and_polygons_are_read : forall (N : Num) (tol : nT N) (atof : text -> nT N) (fmt : nT N -> text)
    (pts : list (Point N)) (kss : list (list Z)) start,
  Forall (printable fmt) pts -> zlen pts <= int_max -> zlen kss <= int_max ->
  Forall (fun ks => zlen ks < 1000000 /\ Forall (fun k => Z.abs (k + start) < 1000000) ks) kss ->
  strict_weak_order_on (fun q => In q (map (reread atof fmt) pts)) (pt_ltb tol) ->
  (forall i j a b, nth_error (map (reread atof fmt) pts) i = Some a -> nth_error (map (reread atof fmt) pts) j = Some b ->
     equivb (pt_ltb tol) a b = true -> i = j) ->
  exists m, createFromStream atof tol (polygon_ctor_idx tol) (@pg_points N) mesh_new
      (unlines (print_int (zlen pts) :: map (point_string fmt) pts ++
                print_int (zlen kss) :: map (fun ks => polygon_string (map (fun k => k + start) ks)) kss)) start = Ok m /\
    ul_list (ms_points m) = map (reread atof fmt) pts /\ map (@pg_points N) (ms_polygons m) = kss /\
    forall nb s, um_find (iseg_match nb) s (ms_edges m) = spec_sm_run (cell_inserts 0 (map edges_of kss)) (canon s).
Proof. exact @read_back. Qed.
Print Assumptions C55_points_and_polygons_are_read.

(** C55: reading into a mesh with elements appends the polygons, but numbers them from 0 in the
    edge map. *)
Theorem C55_second_file_restarts_numbering : forall (N : Num) (tol : nT N) (atof : text -> nT N) (fmt : nT N -> text)
    (m0 : mesh N (polygon N)) (h : list (Z * sm_op)) (pts : list (Point N)) (kss : list (list Z)) start,
  Forall (printable fmt) pts -> zlen pts <= int_max -> zlen kss <= int_max ->
  Forall (fun ks => zlen ks < 1000000 /\ Forall (fun k => Z.abs (k + start) < 1000000) ks) kss ->
  ms_edges m0 = sm_run h ->
  exists m gs, createFromStream atof tol (polygon_ctor_idx tol) (@pg_points N) m0
      (unlines (print_int (zlen pts) :: map (point_string fmt) pts ++
                print_int (zlen kss) :: map (fun ks => polygon_string (map (fun k => k + start) ks)) kss)) start = Ok m /\
    ms_polygons m = ms_polygons m0 ++ gs /\ map (@pg_points N) gs = kss /\
    forall nb s, um_find (iseg_match nb) s (ms_edges m) = spec_sm_run (map snd h ++ cell_inserts 0 (map edges_of kss)) (canon s).
Proof. exact @read_into. Qed.
Print Assumptions C55_second_file_restarts_numbering.

Example C55_hypotheses_met :
  Forall (printable (N := F64) fmt_int) house /\ zlen house <= int_max /\ zlen house_polys <= int_max /\
  Forall (fun ks => zlen ks < 1000000 /\ Forall (fun k => Z.abs (k + 1) < 1000000) ks) house_polys /\
  strict_weak_order_on (fun q => In q (map (reread (N := F64) atof_int fmt_int) house)) (pt_ltb (N := F64) tol64) /\
  (forall i j a b, nth_error (map (reread (N := F64) atof_int fmt_int) house) i = Some a ->
     nth_error (map (reread (N := F64) atof_int fmt_int) house) j = Some b -> equivb (pt_ltb (N := F64) tol64) a b = true -> i = j) /\
  ms_edges (@mesh_new F64 (polygon F64)) = sm_run [].
Proof.
  split; [exact house_printable|]. split; [vm_compute; discriminate|]. split; [vm_compute; discriminate|].
  split; [repeat constructor|]. split; [apply swo_checked; vm_compute; reflexivity|].
  split; [apply distinct_checked; vm_compute; reflexivity|reflexivity].
Qed.

(** C56: indices below a million survive printing and reading. *)
Theorem C56_small_indices_survive : forall n, Z.abs n < 1000000 -> print_g n = print_int n /\ atoi (print_g n) = Ok n.
Proof. exact (fun n H => conj (print_g_small n H) (small_roundtrip n H)). Qed.
Print Assumptions C56_small_indices_survive.

Example C56_small_case : print_g 999999 = list_ascii_of_string "999999" /\ atoi (print_g (-42)) = Ok (-42).
Proof. vm_compute. split; reflexivity. Qed.

(** C56: from a million on an index is printed as a literal with at most six digits of mantissa
    within one part in 200000, and read back as a single digit. *)
Theorem C56_large_indices_are_lost : forall n, 1000000 <= n ->
  exists m e, literal (print_g n) m e /\ 0 < m < 1000000 /\ 0 <= e /\ 200000 * Z.abs (n - m * 10 ^ e) <= n /\
    exists d, 1 <= d <= 9 /\ atoi (print_g n) = Ok d.
Proof. exact large_print. Qed.
Print Assumptions C56_large_indices_are_lost.

Example C56_large_case :
  print_g 1234567 = list_ascii_of_string "1.23457e+06" /\ atoi (print_g 1234567) = Ok 1 /\
  print_g 1000000 = list_ascii_of_string "1e+06" /\ print_g 9999996 = list_ascii_of_string "1e+07" /\ atoi (print_g 2000000) = Ok 2.
Proof. vm_compute. repeat split; reflexivity. Qed.

(** C57: after any history of operations on a mesh and its copy both have the same neighbour maps,
    while the points and polygons of each depend on its own operations only. *)
Theorem C57_copies_share_their_maps : forall (N : Num) (T : Type) (tol : nT N) (atof : text -> nT N)
    (ctor : list Z -> list (Point N) -> res T) (segs_of : T -> list Z) (h : heap N) (o : mobj N T) m ops h' o1 o2,
  mesh_view h o = Ok m -> foldM (pair_step atof tol ctor segs_of) ops (h, o, mesh_copy o) = Ok (h', o1, o2) ->
  exists m1 m2, mesh_view h' o1 = Ok m1 /\ mesh_view h' o2 = Ok m2 /\
    ms_edges m1 = ms_edges m2 /\ ms_pointMap m1 = ms_pointMap m2 /\
    (exists k, foldM (pair_step atof tol ctor segs_of) (filter fst ops) (h, o, mesh_copy o) = Ok (k, o1, mesh_copy o)) /\
    (exists k, foldM (pair_step atof tol ctor segs_of) (filter (fun op => negb (fst op)) ops) (h, o, mesh_copy o) = Ok (k, o, o2)).
Proof. exact @copies_share. Qed.
Print Assumptions C57_copies_share_their_maps.

(** C57: reading a file into a copy replaces the edges of the original by the edges read. *)
Theorem C57_reading_into_a_copy : forall (N : Num) (T : Type) (tol : nT N) (atof : text -> nT N)
    (ctor : list Z -> list (Point N) -> res T) (segs_of : T -> list Z) (h : heap N) (o : mobj N T) m file start h' o' m',
  mesh_view h o = Ok m -> obj_createFromStream atof tol ctor segs_of h (mesh_copy o) file start = Ok (h', o') ->
  mesh_view h' o' = Ok m' ->
  mesh_view h' o = Ok (mkMesh (ms_points m) (ms_polygons m) (ms_edges m') (ms_pointMap m)) /\
  createFromStream atof tol ctor segs_of m file start = Ok m'.
Proof. exact @read_into_copy. Qed.
Print Assumptions C57_reading_into_a_copy.

(** C57: a copied empty mesh gets neighbours of polygons it does not have. *)
Theorem C57_copy_is_independent_refuted :
  exists h o1 o2 m1, house_run = Ok (h, o1, o2) /\ mesh_view h o1 = Ok m1 /\
    zlen (ms_polygons m1) = 0 /\ sm_size (ms_edges m1) = 7 /\
    um_find (iseg_match 13) (2, 3) (ms_edges m1) = Some (mkNb (Some 0) 1).
Proof. exact house_shared. Qed.
Print Assumptions C57_copy_is_independent_refuted.
