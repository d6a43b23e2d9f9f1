(** Model of the program that measures the time of several meshes of a square. *)
From Coq Require Import Ascii String.
From Verif Require Import Base MUtil MGeom MHull MPolygon MMaps MTriangle MGen MRegion MDelaunay MVoronoi MMesh MHist MFile.

Section Time.
  Context {N : Num}.
  Notation Point := (Point N).
  Variables (tol : nT N) (fmt : nT N -> text).
  Variable triangulate : switches -> pslg N -> trout N.
  Variable fuel : nat.
  (** The order in which the edge map is iterated (delynoi/include/delynoi/models/Mesh.h:239-242). *)
  Variable order : list iseg -> list iseg.
  (** test/TimeSquareTestMain.cpp:24, 30, 32: the microseconds measured in each run, an arbitrary number. *)
  Variable clock : nat -> Z.

  (** test/TimeSquareTestMain.cpp:18 *)
  Definition time_square : list Point := [mkP (nZ 0) (nZ 0); mkP (nZ 10) (nZ 0); mkP (nZ 10) (nZ 10); mkP (nZ 0) (nZ 10)].
  (** test/TimeSquareTestMain.cpp:18-22: the domain with its seeds, a constant grid of [n] by [n] points. *)
  Definition time_domain (n : Z) : res (region N) :=
    r <- region_ctor tol time_square ;;
    '(r', _) <- generateSeedPoints tol r (GBoth f_constant f_constant) n n ;; Ok r'.
  (** test/TimeSquareTestMain.cpp:18-28: and its diagram and triangulation. *)
  Definition time_meshes (n : Z) : res (mesh N (polygon N) * mesh N (polygon N)) :=
    r <- time_domain n ;; voronoiGenerator tol triangulate fuel (rg_seeds r) r.

  (** test/TimeSquareTestMain.cpp:12 *)
  Definition results_name : text := list_ascii_of_string "time_results.txt".
  (** test/TimeSquareTestMain.cpp:40-41 *)
  Definition triangle_name (i : nat) : text := list_ascii_of_string "triangle_" ++ print_int (Z.of_nat i) ++ list_ascii_of_string ".txt".
  (** test/TimeSquareTestMain.cpp:35 *)
  Definition time_line (n us : Z) : text :=
    list_ascii_of_string "Numero de puntos: " ++ print_int (n * n) ++ list_ascii_of_string " Tiempo: " ++ print_int us ++ [newline].

  (** What the program changes: the files, the text sent to the open stream so far, the text on the console
      (test/TimeSquareTestMain.cpp:14-15, 33). *)
  Record time_state := mkTime { ti_disk : disk; ti_log : text; ti_console : text }.
  (** test/TimeSquareTestMain.cpp:17-44: one run of the loop.  n*n is an int; std::endl flushes, so that the whole log so far is
      in the file when the mesh is printed.  The names at 37-38 are not used. *)
  Definition time_step (home : option text) (st : time_state) (run : nat * Z) : res time_state :=
    let '(i, n) := run in
    '(v, t) <- time_meshes n ;;
    p <- getPath home ;;
    if (int_max <? n * n)%Z then Err (UB "signed overflow")
    else
      let log := ti_log st ++ time_line n (clock i) in
      d <- mesh_printInFile fmt home (disk_write (ti_disk st) (p ++ results_name) log)
             (ul_list (ms_points t)) (order (map fst (ms_edges t))) (map (fun g : polygon N => pg_points g) (ms_polygons t)) (triangle_name i) ;;
      Ok (mkTime d log (ti_console st ++ print_int (clock i) ++ list_ascii_of_string ",")).
  (** test/TimeSquareTestMain.cpp:8-47; [ns] is the list at line 9. *)
  Definition time_program (home : option text) (d : disk) (ns : list Z) : res time_state :=
    p <- getPath home ;;
    foldM (time_step home) (combine (seq 0 (length ns)) ns) (mkTime (disk_write d (p ++ results_name) []) [] []).
End Time.
