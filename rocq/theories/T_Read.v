(** Seed files of any layout, and the program that reads one: property C130. *)
From Coq Require Import Reals Lra Lia ZArith List Ascii String.
From Verif Require Import Base Spec MUtil MGeom MHull MPolygon MMaps MTriangle MGen MRegion MDelaunay MVoronoi MMesh MFormat MHist MFile MProgram MRead.
From Verif Require Import Bridge BridgeNum BridgeSeed PRead Samples Samples5 Samples7 Samples10 Samples12 Samples13 Samples30.
Import ListNotations.
Open Scope Z_scope.

(** C130 *)
Theorem C130_every_text_has_lines : forall t : text, exists ls, laid_out t ls /\ forall ls', laid_out t ls' -> ls = ls'.
Proof. exact lines_of_text. Qed.
Print Assumptions C130_every_text_has_lines.

Theorem C130_seed_file : forall (N : Num) (atof : text -> nT N) (t : text) (ls : list text) (n : Z), laid_out t ls -> announces (line_at ls 0) n ->
  (n <= int_max -> (forall i, (1 <= i <= Z.to_nat n)%nat -> exists q, gives atof (line_at ls i) q) ->
     exists qs, read_seed_file atof t = Ok qs /\ Forall2 (fun i q => gives atof (line_at ls i) q) (seq 1 (Z.to_nat n)) qs) /\
  (forall i, (1 <= i <= Z.to_nat n)%nat -> (forall q, ~ gives atof (line_at ls i) q) -> exists m, read_seed_file atof t = Err (UB m)) /\
  (int_max < n -> exists m, read_seed_file atof t = Err (UB m)).
Proof. exact @seed_file. Qed.
Print Assumptions C130_seed_file.

(** Blanks before the number, several blanks, a tabulator, an unused word, no line end at the end. *)
Example C130_file_met : laid_out uneven uneven_lines /\ announces (line_at uneven_lines 0) 3 /\
  (forall i, (1 <= i <= 3)%nat -> exists q, gives (N := F64) atof64 (line_at uneven_lines i) q).
Proof. split; [exact uneven_laid_out|]. split; [exact uneven_announces|exact uneven_gives]. Qed.

Theorem C130_seeds_of_the_region : forall (N : Num) (atof : text -> nT N) (tol : nT N) (t : text) (r : region N) (qs : list (Point N)),
  region_made r -> read_seed_file atof t = Ok qs ->
  exists keep : Point N -> bool, (forall q, keep q = true <-> in_domain tol r q) /\
    addSeedsFromFile atof tol r t = Ok (with_seeds r (filter keep (rg_seeds r ++ qs))).
Proof. exact @seed_file_region. Qed.
Print Assumptions C130_seeds_of_the_region.

(** The third point lies outside. *)
Example C130_region_met : region_made r_rect64 /\ match addSeedsFromFile (N := F64) atof64 tol64 r_rect64 uneven with Ok r => Nat.eqb (List.length (rg_seeds r)) 2 | Err _ => false end = true.
Proof. split; [exact (rm_ctor _ _ _ r_rect64_ctor)|exact uneven_kept]. Qed.

Theorem C130_program : forall (N : Num) (atof : text -> nT N) (tol : nT N) (fmt : nT N -> text) (triangulate : switches -> pslg N -> trout N) (fuel : nat)
    (order : list iseg -> list iseg) (home : text) (d : disk) (pts : list (Point N)) (r0 : region N) (source name : text), region_ctor tol pts = Ok r0 ->
  (forall t qs, dk_text d (home ++ slash :: source) = Some t -> read_seed_file atof t = Ok qs ->
     read_program tol atof fmt triangulate fuel order (Some home) d pts source name = mesh_program tol fmt triangulate fuel order (Some home) d pts [OpRead qs] name) /\
  (forall t m, dk_text d (home ++ slash :: source) = Some t -> read_seed_file atof t = Err (UB m) ->
     read_program tol atof fmt triangulate fuel order (Some home) d pts source name = Err (UB m)) /\
  (dk_text d (home ++ slash :: source) = None -> exists m, read_program tol atof fmt triangulate fuel order (Some home) d pts source name = Err (Throw m)) /\
  (exists m, read_program tol atof fmt triangulate fuel order None d pts source name = Err (UB m)).
Proof. exact @read_program_char. Qed.
Print Assumptions C130_program.

Example C130_program_met : region_ctor (N := F64) tol64 rect64 = Ok r_rect64 /\
  match read_program (N := F64) tol64 atof64 print_double (fun _ _ => wheel_out F64) 5 (fun l => l) (Some (list_ascii_of_string "h")) seed_disk rect64
    (list_ascii_of_string "points_file.txt") (list_ascii_of_string "ReadFromFileMesh.txt") with
  | Ok (d', (v, _)) => (zlen (ul_list (ms_points v)) =? 12) && match dk_text d' (list_ascii_of_string "h/ReadFromFileMesh.txt") with Some _ => true | None => false end
  | Err _ => false end = true.
Proof. split; [exact r_rect64_ctor|exact read_sample]. Qed.
