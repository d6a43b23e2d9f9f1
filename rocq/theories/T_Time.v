(** Constant grids over rectangles of doubles, and the program that measures time: property C129. *)
From Coq Require Import Reals Lra Lia ZArith List Ascii String.
From Flocq Require Import Core.
From Verif Require Import Base Spec MUtil MGeom MHull MPolygon MMaps MTriangle MGen MRegion MDelaunay MVoronoi MMesh MFormat MHist MFile MTime.
From Verif Require Import Bridge BridgeNum Bridge64 BridgeErr BridgeProg BridgeTime.
From Verif Require Import PFloat PTime PTime2 Samples Samples4 Samples5 Samples9 Samples29.
Import ListNotations.
Open Scope Z_scope.

(** C129 *)
Theorem C129_grid_kept : forall (k : Z) (tol x0 x1 y0 y1 : f64) (r : region F64) (nX nY : Z),
  -100 <= k <= 60 -> fin tol -> (forall c, In c [x0; x1; y0; y1] -> fin c /\ (Rabs (val c) <= bpow radix2 k)%R) ->
  (val x0 < val x1)%R -> (val y0 < val y1)%R -> (2 * contain_slack (bpow radix2 (k + 1)) < val tol)%R ->
  (val tol <= val x1 - val x0)%R -> (val tol <= val y1 - val y0)%R ->
  region_ctor (N := F64) tol (rectangle64 x0 x1 y0 y1) = Ok r -> 2 <= nX <= 2 ^ 31 -> 2 <= nY <= 2 ^ 31 ->
  let g := GBoth (N := F64) f_constant f_constant in
  exists qs, generateSeedPoints (N := F64) tol r g nX nY = Ok (with_seeds r qs, g) /\ length qs = (Z.to_nat nX * Z.to_nat nY)%nat /\
    forall i j, (i < Z.to_nat nY)%nat -> (j < Z.to_nat nX)%nat -> exists q, nth_error qs (i * Z.to_nat nX + j) = Some q /\
      close_point (bpow radix2 (k - 48)) q
        (val x0 + INR j * ((val x1 - val x0) / IZR (nX - 1)), val y0 + INR i * ((val y1 - val y0) / IZR (nY - 1)))%R.
Proof. exact rect_seeding. Qed.
Print Assumptions C129_grid_kept.

(** A rectangle of doubles on no grid of small integers. *)
Example C129_grid_met : fin tol64 /\ (forall c, In c [side_a; side_b] -> fin c /\ (Rabs (val c) <= bpow radix2 1)%R) /\ (val side_a < val side_b)%R /\
  (2 * contain_slack (bpow radix2 2) < val tol64)%R /\ (val tol64 <= val side_b - val side_a)%R /\
  exists r, region_ctor (N := F64) tol64 (rectangle64 side_a side_b side_a side_b) = Ok r.
Proof. exact sides_usable. Qed.

Theorem C129_time_files : forall (N : Num) (tol : nT N) (fmt : nT N -> text) (triangulate : switches -> pslg N -> trout N) (fuel : nat)
    (order : list iseg -> list iseg) (clock : nat -> Z) (home : text) (d : disk) (ns : list Z) (st : time_state),
  time_program tol fmt triangulate fuel order clock (Some home) d ns = Ok st ->
  (exists t rows, left_in d (ti_disk st) (log_path home) t /\ text_rows t rows /\ Forall2 (log_row clock) (combine (seq 0 (List.length ns)) ns) rows) /\
  (forall i n, nth_error ns i = Some n -> n * n <= int_max /\ exists v t path f, time_meshes tol triangulate fuel n = Ok (v, t) /\ run_path home i path /\
     left_in d (ti_disk st) path f /\ (printable fmt order t -> mesh_text fmt (ul_list (ms_points t)) (order (map fst (ms_edges t))) (map (fun g : polygon N => pg_points g) (ms_polygons t)) f)) /\
  (forall path, path <> log_path home -> (forall i, (i < List.length ns)%nat -> ~ run_path home i path) -> dk_text (ti_disk st) path = dk_text d path) /\
  (forall path, dk_writable (ti_disk st) path = dk_writable d path).
Proof. exact @time_files. Qed.
Print Assumptions C129_time_files.

Theorem C129_time_runs : forall (N : Num) (tol : nT N) (fmt : nT N -> text) (triangulate : switches -> pslg N -> trout N) (fuel : nat)
    (order : list iseg -> list iseg) (clock : nat -> Z) (d : disk) (ns : list Z),
  (forall home, (forall n, In n ns -> n * n <= int_max /\ exists m, time_meshes tol triangulate fuel n = Ok m) ->
     exists st, time_program tol fmt triangulate fuel order clock (Some home) d ns = Ok st) /\
  (exists m, time_program tol fmt triangulate fuel order clock None d ns = Err (UB m)).
Proof. exact @time_ends. Qed.
Print Assumptions C129_time_runs.

(** A new line. *)
Local Notation nl := (String (ascii_of_nat 10) EmptyString).
(** Two runs; Triangle answers with four triangles around a point. *)
Example C129_time_met : (forall n, In n [2; 3] -> n * n <= int_max /\ exists m, time_meshes (N := F64) tol64 (fun _ _ => fan10) 5 n = Ok m) /\
  match time_program (N := F64) tol64 print_double (fun _ _ => fan10) 5 (fun l => l) clock_sample (Some (list_ascii_of_string "h")) dir [2; 3] with
  | Ok st => map (fun p => option_map string_of_list_ascii (dk_text (ti_disk st) (list_ascii_of_string p))) ["h/time_results.txt"; "h/triangle_1.txt"; "h/triangle_2.txt"]%string =
      [Some ("Numero de puntos: 4 Tiempo: 17" ++ nl ++ "Numero de puntos: 9 Tiempo: 23" ++ nl)%string;
       Some ("5" ++ nl ++ "0 0" ++ nl ++ "10 0" ++ nl ++ "10 10" ++ nl ++ "0 10" ++ nl ++ "4 5" ++ nl ++
             "8" ++ nl ++ "0 1" ++ nl ++ "1 2" ++ nl ++ "2 3" ++ nl ++ "3 0" ++ nl ++ "0 4" ++ nl ++ "1 4" ++ nl ++ "2 4" ++ nl ++ "3 4" ++ nl ++
             "4" ++ nl ++ "3 0 1 4" ++ nl ++ "3 1 2 4" ++ nl ++ "3 2 3 4" ++ nl ++ "3 3 0 4" ++ nl)%string; None]
  | Err _ => False
  end.
Proof. exact time_sample. Qed.

Theorem C129_time_count : forall (tol : f64) (n : Z), fin tol -> (2 * contain_slack (bpow radix2 5) < val tol <= 10)%R -> 2 <= n -> n * n <= int_max ->
  exists r, time_domain (N := F64) tol n = Ok r /\ zlen (rg_seeds r) = n * n /\
    forall i j, (i < Z.to_nat n)%nat -> (j < Z.to_nat n)%nat -> exists q, nth_error (rg_seeds r) (i * Z.to_nat n + j) = Some q /\
      close_point (bpow radix2 (-44)) q (INR j * (10 / IZR (n - 1)), INR i * (10 / IZR (n - 1)))%R.
Proof. exact time_count. Qed.
Print Assumptions C129_time_count.

Example C129_count_met : fin tol64 /\ (2 * contain_slack (bpow radix2 5) < val tol64 <= 10)%R.
Proof. exact tol64_time. Qed.
