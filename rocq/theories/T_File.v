(** Files, random functors and scaling on doubles: properties C98, C99 and C42. *)
From Coq Require Import Reals Lra Ascii String SpecFloat Permutation.
From Flocq Require Import Core BinarySingleNaN.
From Verif Require Import Base Spec SpecNum MUtil MGeom MHull MPolygon MMaps MTriangle MGen MRegion MDelaunay MMesh MFormat MDump MFile MRandom Bridge BridgeNum BridgeHist BridgeFile.
From Verif Require Import PFloat PMesh PFormat PDecimal PFile PRandom Samples Samples2 Samples3 Samples9.
Open Scope Z_scope.

(** C98: regions printed to and seeds read from the files of one directory. *)
Theorem C98_file_histories : forall (N : Num) (atof : text -> nT N) (fmt : nT N -> text) (tol : nT N), (forall x, field (fmt x)) ->
  forall (home : text) (os : list file_op) (d : disk) (rs : list (region N)) (d' : disk) (rs' : list (region N)) (bs : list bool),
  Forall region_made rs -> (forall n, dk_text d (home ++ slash :: n) = None) ->
  file_run atof fmt tol (Some home) (d, rs) os = Ok (d', rs', bs) ->
  exists st', store_run tol (reread atof fmt) (fun n => dk_writable d (home ++ slash :: n)) (fun _ => None) rs os st' rs' bs.
Proof. exact @file_history. Qed.
Print Assumptions C98_file_histories.

Theorem C98_calls_succeed : forall (N : Num) (atof : text -> nT N) (fmt : nT N -> text) (tol : nT N), (forall x, field (fmt x)) ->
  forall (home : text) (d : disk) (rs : list (region N)) (i : nat) (name : text) (r : region N), region_made r -> nth_error rs i = Some r ->
  (exists t d', region_print fmt r = Ok t /\ file_do atof fmt tol (Some home) (d, rs) (FilePrint i name) = Ok (d', rs, false) /\
    dk_text d' (home ++ slash :: name) = (if dk_writable d (home ++ slash :: name) then Some t else dk_text d (home ++ slash :: name)) /\
    forall p, p <> home ++ slash :: name -> dk_text d' p = dk_text d p) /\
  (forall r0 t, region_made r0 -> region_print fmt r0 = Ok t -> zlen (getRegionPoints r0 ++ rg_seeds r0) <= int_max -> dk_text d (home ++ slash :: name) = Some t ->
    exists rs', file_do atof fmt tol (Some home) (d, rs) (FileRead i name) = Ok (d, rs', false)) /\
  (dk_text d (home ++ slash :: name) = None -> file_do atof fmt tol (Some home) (d, rs) (FileRead i name) = Ok (d, rs, true)).
Proof. exact @file_calls. Qed.
Print Assumptions C98_calls_succeed.

Theorem C98_home_unset : forall (N : Num) (atof : text -> nT N) (fmt : nT N -> text) (tol : nT N) (d : disk) (rs : list (region N)) (o : file_op),
  (exists r, nth_error rs (match o with FilePrint i _ | FileRead i _ => i end) = Some r) ->
  exists m, file_do atof fmt tol None (d, rs) o = Err (UB m).
Proof. exact @no_home. Qed.
Print Assumptions C98_home_unset.

Theorem C98_mesh_through_a_file : forall (N : Num) (tol : nT N) (atof : text -> nT N) (fmt : nT N -> text)
    (pts : list (Point N)) (es : list iseg) (polys : list (list Z)) (home : text) (d : disk) (name : text),
  Forall (printable fmt) pts -> zlen pts <= int_max -> zlen es <= int_max ->
  Forall (fun e => Z.abs (fst e) < 1000000 /\ Z.abs (snd e) < 1000000) es -> dk_writable d (home ++ slash :: name) = true ->
  exists d' m, mesh_printInFile fmt (Some home) d pts es polys name = Ok d' /\
    createFromFile atof tol (polygon_ctor_idx tol) (@pg_points N) (Some home) d' mesh_new name 0 = Ok m /\
    map (@pg_points N) (ms_polygons m) = map (fun e => [snd e]) es /\
    (forall p, p <> home ++ slash :: name -> dk_text d' p = dk_text d p).
Proof. exact @mesh_through_a_file. Qed.
Print Assumptions C98_mesh_through_a_file.

Theorem C98_mesh_files_are_read : forall (N : Num) (tol : nT N) (atof : text -> nT N) (fmt : nT N -> text)
    (pts : list (Point N)) (kss : list (list Z)) (start : Z) (home : text) (d : disk) (name : text),
  Forall (printable fmt) pts -> zlen pts <= int_max -> zlen kss <= int_max ->
  Forall (fun ks => zlen ks < 1000000 /\ Forall (fun k => Z.abs (k + start) < 1000000) ks) kss ->
  strict_weak_order_on (fun q => In q (map (reread atof fmt) pts)) (pt_ltb tol) ->
  (forall i j a b, nth_error (map (reread atof fmt) pts) i = Some a -> nth_error (map (reread atof fmt) pts) j = Some b -> equivb (pt_ltb tol) a b = true -> i = j) ->
  dk_text d (home ++ slash :: name) = Some (unlines (print_int (zlen pts) :: map (point_string fmt) pts ++
                print_int (zlen kss) :: map (fun ks => polygon_string (map (fun k => k + start) ks)) kss)) ->
  (exists m, createFromFile atof tol (polygon_ctor_idx tol) (@pg_points N) (Some home) d mesh_new name start = Ok m /\
    ul_list (ms_points m) = map (reread atof fmt) pts /\ map (@pg_points N) (ms_polygons m) = kss) /\
  forall other : text, dk_text d (home ++ slash :: other) = None -> forall m : mesh N (polygon N),
    exists msg, createFromFile atof tol (polygon_ctor_idx tol) (@pg_points N) (Some home) d m other start = Err (Throw msg).
Proof. exact @mesh_file_read. Qed.
Print Assumptions C98_mesh_files_are_read.

Theorem C98_map_files : forall (home : text) (d : disk) (name : text), dk_writable d (home ++ slash :: name) = true ->
  (forall (N : Num) (fmt : nT N -> text), (forall x, field (fmt x)) -> forall m : pmap N,
    exists d' t rows, pointmap_printInFile fmt (Some home) d m name = Ok d' /\ dk_text d' (home ++ slash :: name) = Some t /\
      (forall p, p <> home ++ slash :: name -> dk_text d' p = dk_text d p) /\ text_rows t rows /\
      Forall2 (fun (e : Point N * list Z) row => exists ns, row = fmt (px (fst e)) :: fmt (py (fst e)) :: ns /\ Forall2 integer_text ns (snd e)) m rows) /\
  (forall (h : list (Z * sm_op)) es, Permutation es (sm_run h) -> Forall sm_op_short (map snd h) ->
    (forall s n, spec_sm_run (map snd h) (canon s) = Some n -> nb1 n <> None) ->
    exists d' t rows, segmap_printInFile (Some home) d es name = Ok d' /\ dk_text d' (home ++ slash :: name) = Some t /\
      (forall p, p <> home ++ slash :: name -> dk_text d' p = dk_text d p) /\ text_rows t rows /\ zlen rows = sm_size (sm_run h) /\
      (forall row, In row rows -> exists a b i j, Forall2 integer_text row [a; b; i; j] /\ spec_sm_run (map snd h) (canon (a, b)) = Some (mkNb (Some i) j)) /\
      (forall s i j, spec_sm_run (map snd h) (canon s) = Some (mkNb (Some i) j) ->
         exists row a b, In row rows /\ canon (a, b) = canon s /\ Forall2 integer_text row [a; b; i; j])).
Proof. exact map_files. Qed.
Print Assumptions C98_map_files.

Example C98_hypotheses_met : (forall x : f64, field (print_double x)) /\ Forall region_made [r_seeded; r_holed] /\
  (forall n, dk_text dir (list_ascii_of_string "h" ++ slash :: n) = None) /\ dk_writable dir (list_ascii_of_string "h" ++ slash :: name_a) = true /\
  zlen (getRegionPoints r_seeded ++ rg_seeds r_seeded) <= int_max /\ Forall (printable (N := F64) print_double) house /\
  Forall (fun e => Z.abs (fst e) < 1000000 /\ Z.abs (snd e) < 1000000) house_edges.
Proof.
  split; [exact print_double_field|]. split; [constructor; [exact r_seeded_made|constructor; [exact r_holed_made|constructor]]|]. split; [reflexivity|].
  split; [vm_compute; reflexivity|]. split; [vm_compute; discriminate|]. split; [apply points_printable|].
  repeat (constructor; [vm_compute; split; reflexivity|]). constructor.
Qed.
Example C98_mesh_hypotheses_met :
  strict_weak_order_on (fun q => In q (map (reread (N := F64) atof64 print_double) house)) (pt_ltb (N := F64) tol64) /\
  (forall i j a b, nth_error (map (reread (N := F64) atof64 print_double) house) i = Some a -> nth_error (map (reread (N := F64) atof64 print_double) house) j = Some b ->
     equivb (pt_ltb (N := F64) tol64) a b = true -> i = j) /\
  Forall (fun ks => zlen ks < 1000000 /\ Forall (fun k => Z.abs (k + 1) < 1000000) ks) house_polys /\
  Forall sm_op_short [SmInsert (3, 1) 4; SmInsert (1, 2) 4; SmInsert (1, 3) 5].
Proof.
  rewrite (reread_points house house_six_digit).
  split; [apply swo_checked; vm_compute; reflexivity|]. split; [apply distinct_checked; vm_compute; reflexivity|].
  split; [|repeat constructor]. repeat (constructor; [split; [vm_compute; reflexivity|repeat (constructor; [vm_compute; reflexivity|]); constructor]|]). constructor.
Qed.
(** the second region, with a hole, takes what the hole leaves of the six points written by the first; the name "b" stays missing *)
Example C98_computed :
  match file_run (N := F64) atof64 print_double tol64 (Some (list_ascii_of_string "h")) (dir, [r_seeded; r_holed])
    [FileRead 1 name_a; FilePrint 0 name_a; FilePrint 0 name_b; FileRead 1 name_a; FileRead 1 name_b; FilePrint 1 name_a; FileRead 0 name_a] with
  | Ok (_, rs, bs) => (map (fun r : region F64 => zlen (rg_seeds r)) rs, bs)
  | Err _ => ([], [])
  end = ([16; 6], [true; false; false; false; true; false; false]).
Proof. vm_compute. reflexivity. Qed.

(** C99: what a random integer functor draws. *)
Theorem C99_random_integers : forall min max : R,
  (exists kl kh, truncates min kl /\ truncates max kh /\
    ((exists b, random_integer_bounds (N := RNum) min max = Ok b) <-> int_min <= kl /\ kh <= int_max /\ kl <= kh) /\
    ((exists b, random_integer_bounds (N := RNum) min max = Ok b) \/ exists m, random_integer_bounds (N := RNum) min max = Err (UB m))) /\
  forall lo hi, random_integer_bounds (N := RNum) min max = Ok (lo, hi) -> forall k, lo <= k <= hi ->
    (min - 1 < IZR k < max + 1)%R /\
    ((min <= 0)%R \/ (exists m : Z, min = IZR m) -> (min <= IZR k)%R) /\
    ((0 <= max)%R \/ (exists m : Z, max = IZR m) -> (IZR k <= max)%R).
Proof. exact (fun min max => integer_bounds RNum (fun x => x) (fun _ => True) reads_R min max I I). Qed.
Print Assumptions C99_random_integers.

Theorem C99_random_integers_on_doubles : forall min max : f64, fin min -> fin max ->
  (exists kl kh, truncates (val min) kl /\ truncates (val max) kh /\
    ((exists b, random_integer_bounds (N := F64) min max = Ok b) <-> int_min <= kl /\ kh <= int_max /\ kl <= kh) /\
    ((exists b, random_integer_bounds (N := F64) min max = Ok b) \/ exists m, random_integer_bounds (N := F64) min max = Err (UB m))) /\
  forall lo hi, random_integer_bounds (N := F64) min max = Ok (lo, hi) -> forall k, lo <= k <= hi ->
    (val min - 1 < IZR k < val max + 1)%R /\
    ((val min <= 0)%R \/ (exists m : Z, val min = IZR m) -> (val min <= IZR k)%R) /\
    ((0 <= val max)%R \/ (exists m : Z, val max = IZR m) -> (IZR k <= val max)%R).
Proof. exact (integer_bounds F64 val fin reads_F). Qed.
Print Assumptions C99_random_integers_on_doubles.

Theorem C99_random_doubles : forall min max : f64, fin min -> fin max ->
  ((val min <= val max)%R -> random_double_bounds (N := F64) min max = Ok (min, max)) /\
  ((val max < val min)%R -> exists m, random_double_bounds (N := F64) min max = Err (UB m)).
Proof. exact double_bounds. Qed.
Print Assumptions C99_random_doubles.

(** between one half and three quarters only zero is drawn; between minus three quarters and minus one half too *)
Theorem C99_outside_the_bounds_refuted :
  random_integer_bounds (N := F64) (F64_dec 1 2) (F64_dec 3 4) = Ok (0, 0) /\ nltb (n := F64) (F64_ofZ 0) (F64_dec 1 2) = true /\
  random_integer_bounds (N := F64) (F64_dec (-3) 4) (F64_dec (-1) 2) = Ok (0, 0) /\ nltb (n := F64) (F64_dec (-1) 2) (F64_ofZ 0) = true.
Proof. repeat split; vm_compute; reflexivity. Qed.
Print Assumptions C99_outside_the_bounds_refuted.

Theorem C99_random_points : forall (N : Num) (box : bbox N) (nX nY : Z) (ox oy : nat -> nT N) (pts : list (Point N)),
  neqb (nZ (n := N) (nX - 1)) (nZ 0) = false -> neqb (nZ (n := N) (nY - 1)) (nZ 0) = false ->
  exists g', generate (GBoth (random_double ox) (random_double oy)) pts box nX nY =
    Ok (g', pts ++ map (fun k => mkP (ox k) (oy k)) (seq 0 (Z.to_nat nX * Z.to_nat nY))).
Proof. exact random_points. Qed.
Print Assumptions C99_random_points.

Theorem C99_random_integer_points : forall (N : Num) (box : bbox N) (nX nY : Z) (ox oy : nat -> Z) (pts : list (Point N)),
  neqb (nZ (n := N) (nX - 1)) (nZ 0) = false -> neqb (nZ (n := N) (nY - 1)) (nZ 0) = false ->
  exists g', generate (GBoth (random_integer ox) (random_integer oy)) pts box nX nY =
    Ok (g', pts ++ map (fun k => mkP (nZ (ox k)) (nZ (oy k))) (seq 0 (Z.to_nat nX * Z.to_nat nY))).
Proof. exact random_integer_points. Qed.
Print Assumptions C99_random_integer_points.

Example C99_hypotheses_met : fin (F64_ofZ (-3)) /\ fin (F64_ofZ 8) /\ random_integer_bounds (N := F64) (F64_ofZ (-3)) (F64_ofZ 8) = Ok (-3, 8) /\
  (val (F64_ofZ (-3)) <= 0)%R /\ neqb (n := F64) (nZ (4 - 1)) (nZ 0) = false /\ neqb (n := F64) (nZ (0 - 1)) (nZ 0) = false.
Proof.
  destruct (ofZ_correct (-3)) as [A VA]; [lia|]. destruct (ofZ_correct 8) as [B VB]; [lia|].
  split; [exact A|]. split; [exact B|]. split; [vm_compute; reflexivity|]. split; [rewrite VA; lra|]. split; vm_compute; reflexivity.
Qed.

(** C42 on doubles: the round trip through the integers of the clipping library. *)
Theorem C42_on_doubles : forall (scale : Z) (v : Point F64), 0 < scale <= 2 ^ 30 -> fin (px v) -> fin (py v) ->
  (Rabs (IZR scale * val (px v)) <= IZR (2 ^ 30))%R -> (Rabs (IZR scale * val (py v)) <= IZR (2 ^ 30))%R ->
  exists k v', scalePoint (N := F64) scale v = Ok k /\ unscalePoint (N := F64) scale k = Ok v' /\ fin (px v') /\ fin (py v') /\
    (Rabs (val (px v') - val (px v)) < (1 + / IZR (2 ^ 20)) / IZR scale)%R /\ (Rabs (val (py v') - val (py v)) < (1 + / IZR (2 ^ 20)) / IZR scale)%R /\
    (forall m : Z, (IZR scale * val (px v) = IZR m)%R -> val (px v') = val (px v)) /\ (forall m : Z, (IZR scale * val (py v) = IZR m)%R -> val (py v') = val (py v)).
Proof. exact roundtrip64. Qed.
Print Assumptions C42_on_doubles.

Example C42_on_doubles_met : 0 < 100000 <= 2 ^ 30 /\ fin (px (mkP (N := F64) (F64_ofZ 7) (F64_ofZ (-3)))) /\
  (Rabs (IZR 100000 * val (px (mkP (N := F64) (F64_ofZ 7) (F64_ofZ (-3))))) <= IZR (2 ^ 30))%R /\
  (Rabs (IZR 100000 * val (py (mkP (N := F64) (F64_ofZ 7) (F64_ofZ (-3))))) <= IZR (2 ^ 30))%R.
Proof.
  destruct (ofZ_correct 7) as [A VA]; [lia|]. destruct (ofZ_correct (-3)) as [B VB]; [lia|]. cbn [px py mkP].
  split; [lia|]. split; [exact A|]. change (2 ^ 30) with 1073741824. rewrite VA, VB, <- !mult_IZR, <- !abs_IZR. split; apply IZR_le; lia.
Qed.
