(** Debug output and the remaining constructors of triangles: properties C89, C90. *)
From Coq Require Import Permutation.
From Verif Require Import Base Spec MUtil MGeom MHull MPolygon MMaps MTriangle MGen MRegion MDelaunay MVoronoi MMesh MFormat MDump Bridge.
From Verif Require Import PDump PDump2 PFormat Samples.
Open Scope Z_scope.

(** C89: the file of a segment map, for every history and every iteration order [es] *)
Theorem C89_segment_map_file : forall (h : list (Z * sm_op)) es, Permutation es (sm_run h) ->
  ((exists s n, spec_sm_run (map snd h) (canon s) = Some n /\ nb1 n = None) -> exists w, segmap_print es = Err (UB w)) /\
  ((forall s n, spec_sm_run (map snd h) (canon s) = Some n -> nb1 n <> None) -> exists t, segmap_print es = Ok t /\
    (Forall sm_op_short (map snd h) -> exists rows, text_rows t rows /\ zlen rows = sm_size (sm_run h) /\
      (forall row, In row rows -> exists a b i j, Forall2 integer_text row [a; b; i; j] /\ spec_sm_run (map snd h) (canon (a, b)) = Some (mkNb (Some i) j)) /\
      (forall s i j, spec_sm_run (map snd h) (canon s) = Some (mkNb (Some i) j) ->
         exists row a b, In row rows /\ canon (a, b) = canon s /\ Forall2 integer_text row [a; b; i; j]))).
Proof. exact segmap_dump. Qed.
Print Assumptions C89_segment_map_file.

(** the numbers are determined by the texts *)
Theorem C89_texts_determine_numbers : forall t n m, integer_text t n -> integer_text t m -> n = m.
Proof. exact integer_text_unique. Qed.
Print Assumptions C89_texts_determine_numbers.

Example C89_segments_case :
  segmap_print (sm_run [(7, SmInsert (3, 1) 4); (7, SmInsert (1, 2) 4); (7, SmInsert (1, 3) 5)]) =
    Ok (unlines [list_ascii_of_string "3 1 4 5"; list_ascii_of_string "1 2 4 -1"]) /\
  Forall sm_op_short [SmInsert (3, 1) 4; SmInsert (1, 2) 4; SmInsert (1, 3) 5] /\
  segmap_print (sm_run [(7, SmInsert (3, 1) 4); (7, SmGet (2, 5))]) = Err (UB "uninitialised n1").
Proof. split; [vm_compute; reflexivity|]. split; [repeat constructor|vm_compute; reflexivity]. Qed.

(** C89: the file of a point map: coordinates and neighbours of every point, in the order of the map *)
Theorem C89_point_map_file : forall (N : Num) (fmt : nT N -> text), (forall x, field (fmt x)) -> forall m : pmap N,
  exists rows, text_rows (pointmap_print fmt m) rows /\
    Forall2 (fun (e : Point N * list Z) row => exists ns, row = fmt (px (fst e)) :: fmt (py (fst e)) :: ns /\ Forall2 integer_text ns (snd e)) m rows.
Proof. exact @pointmap_dump. Qed.
Print Assumptions C89_point_map_file.

(** C89: the input file for Triangle describes the graph handed to Triangle, without the restricted segments *)
Theorem C89_triangle_input_file : forall (N : Num) (fmt : nT N -> text), (forall x, field (fmt x)) ->
  forall (tol : nT N) (r : region N) seeds restricted g pl idx,
  build_pslg tol r seeds restricted = Ok g -> ul_push_list (pt_ltb tol) (fst (ul_push_list (pt_ltb tol) ul_empty seeds)) (getRegionPoints r) = (pl, idx) ->
  exists t ss rss h1 ps h2 sr h3 hs, writeTriangleInputFile fmt pl r idx = Ok t /\ in_segments g = ss ++ rss /\ length rss = length restricted /\
    text_rows t (h1 :: ps ++ h2 :: sr ++ h3 :: hs) /\
    Forall2 integer_text h1 [zlen (in_points g); 2; 0; 0] /\ Forall2 integer_text h2 [zlen ss; 0] /\ Forall2 integer_text h3 [zlen (in_holes g)] /\
    Forall2 (fun (kp : nat * (nT N * nT N)) row => exists k, row = [k; fmt (fst (snd kp)); fmt (snd (snd kp))] /\ integer_text k (Z.of_nat (fst kp)))
      (combine (seq 0 (length (in_points g))) (in_points g)) ps /\
    Forall2 (fun (ks : nat * (Z * Z)) row => Forall2 integer_text row [Z.of_nat (fst ks); fst (snd ks); snd (snd ks)]) (combine (seq 0 (length ss)) ss) sr /\
    Forall2 (fun (kp : nat * (nT N * nT N)) row => exists k, row = [k; fmt (fst (snd kp)); fmt (snd (snd kp))] /\ integer_text k (Z.of_nat (fst kp)))
      (combine (seq 0 (length (in_holes g))) (in_holes g)) hs.
Proof. exact @poly_file. Qed.
Print Assumptions C89_triangle_input_file.

Example C89_file_case :
  (forall x, field (print_double x)) /\
  match build_pslg (N := F64) tol64 r_holed [dpt 3 1 3 1] [] with Ok i => zlen (in_segments i) = 8 /\ zlen (in_holes i) = 1 | _ => False end /\
  match writeTriangleInputFile (N := F64) print_double
     (fst (ul_push_list (pt_ltb (N := F64) tol64) (fst (ul_push_list (pt_ltb (N := F64) tol64) ul_empty [dpt 3 1 3 1])) (getRegionPoints r_holed))) r_holed
     (snd (ul_push_list (pt_ltb (N := F64) tol64) (fst (ul_push_list (pt_ltb (N := F64) tol64) ul_empty [dpt 3 1 3 1])) (getRegionPoints r_holed))) with
  | Ok t => firstn 8 t = list_ascii_of_string "9 2 0 0" ++ [newline] | Err _ => False end.
Proof. split; [exact print_double_field|]. split; vm_compute; repeat split; reflexivity. Qed.

(** C89: the text of an edge lists its two points, that of a pair of neighbours the two cells *)
Theorem C89_edge_text : forall e, six_digits (e_p1 e) -> six_digits (e_p2 e) ->
  exists f g, fields_of blank (edge_string e) [f; g] /\ integer_text f (e_p1 e) /\ integer_text g (e_p2 e).
Proof. exact edge_text. Qed.
Print Assumptions C89_edge_text.

Theorem C89_neighbours_text : forall n, (nb1 n = None -> exists w, nb_string n = Err (UB w)) /\
  forall i, nb1 n = Some i -> six_digits i -> six_digits (nb2 n) ->
  exists t f g, nb_string n = Ok t /\ fields_of blank t [f; g] /\ integer_text f i /\ integer_text g (nb2 n).
Proof. exact nb_text. Qed.
Print Assumptions C89_neighbours_text.

(** C89: the text of a segment of points lists the four coordinates *)
Theorem C89_point_segment_text : forall (N : Num) (fmt : nT N -> text), (forall x, field (fmt x)) -> forall s : pseg N,
  fields_of blank (pseg_string fmt s) [fmt (px (fst s)); fmt (py (fst s)); fmt (px (snd s)); fmt (py (snd s))].
Proof. exact @pseg_text. Qed.
Print Assumptions C89_point_segment_text.

Example C89_texts_case : edge_string (mkEdge 12 7 0 (-1)) = list_ascii_of_string "12 7" /\ six_digits 12 /\ six_digits 7 /\
  nb_string (mkNb (Some 3) (-1)) = Ok (list_ascii_of_string "3 -1") /\ nb_string (mkNb None 4) = Err (UB "uninitialised n1") /\
  pseg_string (N := F64) print_double (dpt 3 1 1 2, dpt 0 1 7 1) = list_ascii_of_string "3 0.5 0 7" /\ (forall x, field (print_double x)).
Proof. do 6 (split; [vm_compute; reflexivity|]). exact print_double_field. Qed.

(** C90: triangles built one after the other with a vector of circumcenters *)
Theorem C90_circumcenter_vector : forall (N : Num) (tol : nT N) ts (p : list (Point N)) cs trs cs', triangles_vec tol ts p cs = Ok (trs, cs') ->
  length trs = length ts /\ (exists l, cs' = cs ++ l /\ length l = length ts) /\
  forall k tr, nth_error trs k = Some tr -> exists idx A B C, nth_error ts k = Some idx /\ pg_points (tr_poly tr) = idx /\ vertices_are p (firstn 3 idx) [A; B; C] /\
    tr_cc tr = circumcenter A B C /\ tr_cci tr = Some (zlen cs + Z.of_nat k) /\ nth_error cs' (length cs + k) = Some (tr_cc tr).
Proof. exact @triangles_vec_ok. Qed.
Print Assumptions C90_circumcenter_vector.

Theorem C90_built_triangles_are_not_null : forall (N : Num) (tol : nT N) idx (p : list (Point N)) t,
  triangle_ctor tol idx p = Ok t -> triangle_isNull t = false.
Proof. exact @built_not_null. Qed.
Print Assumptions C90_built_triangles_are_not_null.

(** two triangles of a square: one circumcenter, two entries *)
Example C90_hypotheses_met :
  match triangles_vec (N := F64) tol64 [[0; 1; 2]; [0; 2; 3]] [dpt 0 1 0 1; dpt 4 1 0 1; dpt 4 1 4 1; dpt 0 1 4 1] [] with
  | Ok (trs, cs) => length cs = 2%nat /\ map (@tr_cci F64) trs = [Some 0; Some 1] | Err _ => False end /\
  match triangle_ctor (N := F64) tol64 [0; 1; 2] [dpt 0 1 0 1; dpt 4 1 0 1; dpt 4 1 4 1] with Ok t => triangle_isNull t = false | Err _ => False end.
Proof. split; vm_compute; repeat split; reflexivity. Qed.
