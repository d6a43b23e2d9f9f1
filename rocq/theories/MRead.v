(** Model of the program that reads its seeds from a file. *)
From Coq Require Import Ascii String.
From Verif Require Import Base MUtil MGeom MHull MPolygon MMaps MTriangle MGen MRegion MDelaunay MVoronoi MMesh MHist MFile.

Section Read.
  Context {N : Num}.
  Variables (tol : nT N) (atof : text -> nT N) (fmt : nT N -> text).
  Variable triangulate : switches -> pslg N -> trout N.
  Variable fuel : nat.
  (** The order in which the edge map is iterated (delynoi/include/delynoi/models/Mesh.h:239-242). *)
  Variable order : list iseg -> list iseg.

  (** test/ReadPointsFromFileTestMain.cpp:6-18; the outline and the two names are parameters.  An exception that leaves main
      ends the program. *)
  Definition read_program (home : option text) (d : disk) (pts : list (Point N)) (source name : text)
    : res (disk * (mesh N (polygon N) * mesh N (polygon N))) :=
    r0 <- region_ctor tol pts ;;
    let '(r, outcome) := region_readFile atof tol home d r0 source in
    _ <- outcome ;;
    '(v, m) <- voronoiGenerator tol triangulate fuel (rg_seeds r) r ;;
    d' <- mesh_printInFile fmt home d (ul_list (ms_points v)) (order (map fst (ms_edges v))) (map (fun g : polygon N => pg_points g) (ms_polygons v)) name ;;
    Ok (d', (v, m)).
End Read.
