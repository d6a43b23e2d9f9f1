(** Model of test/AllTests.cpp: several regions, calls on them, and test functions that print meshes. *)
From Coq Require Import Ascii String.
From Verif Require Import Base MUtil MGeom MHull MPolygon MMaps MTriangle MGen MRegion MDelaunay MVoronoi MMesh MHist MFile.

Section Script.
  Context {N : Num}.
  Notation Point := (Point N).
  Variables (tol : nT N) (fmt : nT N -> text).
  Variable triangulate : switches -> pslg N -> trout N.
  Variable fuel : nat.
  (** The order in which the edge map is iterated (delynoi/include/delynoi/models/Mesh.h:239-242). *)
  Variable order : list iseg -> list iseg.

  (** test/AllTests.cpp:9-14: generateTest_Polygon; region and points are passed by value. *)
  Definition generateTest_Polygon (home : option text) (d : disk) (testName : text) (r : region N) (points : list Point) : res disk :=
    let r := region_copy r in
    '(v, _) <- voronoiGenerator tol triangulate fuel points r ;;
    mesh_printInFile fmt home d (ul_list (ms_points v)) (order (map fst (ms_edges v))) (map (fun g : polygon N => pg_points g) (ms_polygons v))
      (testName ++ list_ascii_of_string ".txt").
  (** test/AllTests.cpp:16-21: generateTest_Triangle; the mesh is copied from the reference the generator answers. *)
  Definition generateTest_Triangle (home : option text) (d : disk) (testName : text) (r : region N) (points : list Point) : res disk :=
    let r := region_copy r in
    out <- snd (gen_do triangulate tol (gen_ctor points r) CallConforming) ;;
    match out with
    | OutMesh h =>
        t <- use h ;;
        mesh_printInFile fmt home d (ul_list (ms_points t)) (order (map fst (ms_edges t))) (map (fun g : triangle N => pg_points (tr_poly g)) (ms_polygons t))
          (testName ++ list_ascii_of_string "_triangle.txt")
    | OutInfo _ => Err (Throw "not a mesh")
    end.

  (** The statements of main() after the regions are made (AllTests.cpp:45-290), on region number [i]: a call, an assignment of a
      new region (AllTests.cpp:224), the two test functions with the seeds of the region, and printInFile. *)
  Inductive statement :=
  | DoCall (i : nat) (o : region_op N)
  | DoAssign (i : nat) (pts : list Point)
  | TestPolygon (i : nat) (name : text)
  | TestTriangle (i : nat) (name : text)
  | PrintRegion (i : nat) (name : text).

  (** AllTests.cpp:45-290: one statement on the files and the regions. *)
  Definition script_do (home : option text) (w : disk * list (region N)) (s : statement) : res (disk * list (region N)) :=
    match s with
    | DoCall i o => r <- vgetn (snd w) i ;; r' <- region_do tol r o ;; Ok (fst w, put i r' (snd w))
    | DoAssign i pts => _ <- vgetn (snd w) i ;; r' <- region_ctor tol pts ;; Ok (fst w, put i r' (snd w))
    | TestPolygon i name => r <- vgetn (snd w) i ;; d <- generateTest_Polygon home (fst w) name r (rg_seeds r) ;; Ok (d, snd w)
    | TestTriangle i name => r <- vgetn (snd w) i ;; d <- generateTest_Triangle home (fst w) name r (rg_seeds r) ;; Ok (d, snd w)
    | PrintRegion i name => r <- vgetn (snd w) i ;; d <- region_printInFile fmt home (fst w) r name ;; Ok (d, snd w)
    end.
  (** AllTests.cpp:45-290: one after the other. *)
  Definition script_run (home : option text) (w : disk * list (region N)) (ss : list statement) : res (disk * list (region N)) := foldM (script_do home) ss w.
  (** AllTests.cpp:23-293: main(): the regions, then the statements. *)
  Definition script_main (home : option text) (d : disk) (outlines : list (list Point)) (ss : list statement) : res (disk * list (region N)) :=
    rs <- mapM (region_ctor tol) outlines ;; script_run home (d, rs) ss.
End Script.
Arguments statement : clear implicits.
