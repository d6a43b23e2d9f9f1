(** The text form of doubles and what survives a file: properties C55, C56, C66. *)
From Coq Require Import Reals ZArith QArith Qreals List Ascii String SpecFloat.
From Flocq Require Import Core BinarySingleNaN.
From Verif Require Import Base Spec SpecNum MUtil MGeom MHull MPolygon MMaps MTriangle MGen MRegion MDelaunay MVoronoi MMesh MFormat Bridge BridgeNum.
From Verif Require Import PMesh PFormat PDecimal Samples Samples2.
Import ListNotations.
Open Scope Z_scope.

(** C56: a finite coordinate is printed as a decimal literal: its value rounded to six
    significant digits. *)
Theorem C56_coordinates_have_six_digits : forall (s : bool) (m : positive) (e : Z),
  exists body M E, print_double (S754_finite s m e) = (if s then ["-"%char] else []) ++ body /\
    literal body M E /\ 0 < M /\ rounded_to 6 (scaled 2 (Zpos m) e) (scaled 10 M E).
Proof. exact print_double_spec. Qed.
Print Assumptions C56_coordinates_have_six_digits.

Example C56_coordinate_texts :
  map (fun x => string_of_list_ascii (print_double x))
    [F64_dec 1 3; F64_dec (-1) 10; F64_dec 123456789 1000; F64_dec 1 100000; F64_dec 9999995 10; F64_dec 2 1]
  = ["0.333333"; "-0.1"; "123457"; "1e-05"; "1e+06"; "2"]%string.
Proof. vm_compute. reflexivity. Qed.

(** C56: an index is printed like the double it is converted to. *)
Theorem C56_index_is_printed_as_a_double : forall n, Z.abs n <= 2 ^ 53 -> print_double (F64_ofZ n) = print_g n.
Proof. exact print_double_of_int. Qed.
Print Assumptions C56_index_is_printed_as_a_double.

Example C56_index_text : string_of_list_ascii (print_double (F64_ofZ (-1234567))) = "-1.23457e+06"%string.
Proof. vm_compute. reflexivity. Qed.

(** C56: reading a decimal gives the nearest double. *)
Theorem C56_reading_is_nearest : forall (s : bool) (t : text) m e, literal t m e -> 0 < m ->
  (Rabs (nearest (Q2R (scaled 10 m e))) < bpow radix2 1024)%R ->
  let x := atof64 ((if s then ["-"%char] else []) ++ t) in
  fin x /\ val x = if s then (- nearest (Q2R (scaled 10 m e)))%R else nearest (Q2R (scaled 10 m e)).
Proof. exact atof_nearest. Qed.
Print Assumptions C56_reading_is_nearest.

Example C56_reading_case : literal (list_ascii_of_string "12.5e-01") 125 (-2) /\
  SFeqb (atof64 (list_ascii_of_string "-12.5e-01")) (F64_dec (-125) 100) = true.
Proof.
  split; [|vm_compute; reflexivity].
  apply (lit_exp_minus (list_ascii_of_string "12.5") 125 (-1) (list_ascii_of_string "01")).
  - apply (lit_frac (list_ascii_of_string "12") (list_ascii_of_string "5")); [discriminate|discriminate|].
    repeat constructor; vm_compute; auto with arith.
  - vm_compute. intuition congruence.
  - discriminate.
  - repeat constructor; vm_compute; auto with arith.
Qed.

(** C56: a coordinate printed and read again is the double nearest to its six digits. *)
Theorem C56_reread_coordinate : forall (s : bool) (m : positive) (e : Z),
  exists M E, 0 < M /\ rounded_to 6 (scaled 2 (Zpos m) e) (scaled 10 M E) /\
    atof64 (print_double (S754_finite s m e)) = decimal64 s M E.
Proof. exact reread_spec. Qed.
Print Assumptions C56_reread_coordinate.

(** C56: the coordinates with at most six digits are the ones that survive. *)
Theorem C56_six_digit_coordinates_survive : forall x, six_digit x -> atof64 (print_double x) = x.
Proof. exact six_digit_reread. Qed.
Print Assumptions C56_six_digit_coordinates_survive.

Example C56_six_digit_cases :
  six_digit (F64_dec 1 10) /\ SFeqb (atof64 (print_double (F64_dec 1 10))) (F64_dec 1 10) = true /\
  SFeqb (atof64 (print_double (F64_dec 1 3))) (F64_dec 1 3) = false.
Proof.
  split; [|vm_compute; split; reflexivity].
  right. exists false, 1, (-1). split; [split; reflexivity|]. split; [split; discriminate|]. vm_compute. reflexivity.
Qed.

(** C55: with six-digit coordinates and indices below a million a file with a point section and a
    polygon section is read back exactly, coordinates included (boundary marks are not stored). *)
Theorem C55_six_digit_mesh_is_read : forall (tol : f64) (pts : list (Point F64)) (kss : list (list Z)) start,
  Forall (fun q => six_digit (@px F64 q) /\ six_digit (@py F64 q)) pts ->
  zlen pts <= int_max -> zlen kss <= int_max ->
  Forall (fun ks => zlen ks < 1000000 /\ Forall (fun k => Z.abs (k + start) < 1000000) ks) kss ->
  strict_weak_order_on (fun q => In q (map unmarked pts)) (pt_ltb (N := F64) tol) ->
  (forall i j a b, nth_error (map unmarked pts) i = Some a -> nth_error (map unmarked pts) j = Some b ->
     equivb (pt_ltb (N := F64) tol) a b = true -> i = j) ->
  exists m, createFromStream (N := F64) atof64 tol (polygon_ctor_idx (N := F64) tol) (@pg_points F64) mesh_new
      (unlines (print_int (zlen pts) :: map (point_string (N := F64) print_double) pts ++
                print_int (zlen kss) :: map (fun ks => polygon_string (map (fun k => k + start) ks)) kss)) start = Ok m /\
    ul_list (ms_points m) = map unmarked pts /\ map (@pg_points F64) (ms_polygons m) = kss /\
    forall nb s, um_find (iseg_match nb) s (ms_edges m) = spec_sm_run (cell_inserts 0 (map edges_of kss)) (canon s).
Proof. exact double_file. Qed.
Print Assumptions C55_six_digit_mesh_is_read.

Example C55_six_digit_case :
  Forall (fun q => six_digit (@px F64 q) /\ six_digit (@py F64 q)) house /\
  strict_weak_order_on (fun q => In q (map unmarked house)) (pt_ltb (N := F64) tol64) /\
  (forall i j a b, nth_error (map unmarked house) i = Some a -> nth_error (map unmarked house) j = Some b ->
     equivb (pt_ltb (N := F64) tol64) a b = true -> i = j).
Proof.
  split; [exact house_six_digit|].
  split; [apply swo_checked; vm_compute; reflexivity|apply distinct_checked; vm_compute; reflexivity].
Qed.

(** C66: fixed notation: the value rounded to the given number of decimals, all of them written. *)
Theorem C66_fixed_notation : forall (s : bool) (m : positive) (e prec : Z), 0 <= prec ->
  exists body M, toStringWithPrecision (S754_finite s m e) prec = (if s then ["-"%char] else []) ++ body /\
    literal body M (- prec) /\ rounded_decimals prec (scaled 2 (Zpos m) e) (scaled 10 M (- prec)).
Proof. exact with_precision_spec. Qed.
Print Assumptions C66_fixed_notation.

Example C66_fixed_case :
  map (fun x => string_of_list_ascii (toStringWithPrecision x 3)) [F64_dec 1 3; F64_dec (-123456) 10; F64_dec 9999996 10000; F64_dec 1 16]
  = ["0.333"; "-12345.600"; "1000.000"; "0.062"]%string.
Proof. vm_compute. reflexivity. Qed.
