(** Model of the programs that README.md documents and test/ contains: make a domain, seed it, generate, print. *)
From Coq Require Import Ascii.
From Verif Require Import Base MUtil MGeom MHull MPolygon MMaps MTriangle MGen MRegion MDelaunay MVoronoi MMesh MHist MFile.

Section Program.
  Context {N : Num}.
  Notation Point := (Point N).
  Variables (tol : nT N) (fmt : nT N -> text).
  Variable triangulate : switches -> pslg N -> trout N.
  Variable fuel : nat.
  (** The order in which the edge map is iterated (delynoi/include/delynoi/models/Mesh.h:239-242). *)
  Variable order : list iseg -> list iseg.

  (** README.md:38-57, test/SimpleSquareTestMain.cpp:8-11, test/LShapeTestMain.cpp:7-10: the domain and the calls that
      change it ([os]: seeds, holes and so on; the text of a seed file is already read, see MHist.region_op). *)
  Definition make_domain (pts : list Point) (os : list (region_op N)) : res (region N) :=
    r <- region_ctor tol pts ;; region_run tol r os.

  (** README.md:59-64, 74-75, test/LShapeTestMain.cpp:11-15: the generator gets the seeds of the domain and the domain, the
      Voronoi diagram is printed under a name.  The result is what the disk holds, and the two meshes of the generator. *)
  Definition mesh_program (home : option text) (d : disk) (pts : list Point) (os : list (region_op N)) (name : text)
    : res (disk * (mesh N (polygon N) * mesh N (polygon N))) :=
    r <- make_domain pts os ;;
    '(v, m) <- voronoiGenerator tol triangulate fuel (rg_seeds r) r ;;
    d' <- mesh_printInFile fmt home d (ul_list (ms_points v)) (order (map fst (ms_edges v))) (map (fun g : polygon N => pg_points g) (ms_polygons v)) name ;;
    Ok (d', (v, m)).

  (** README.md:65-68, 74-75, test/SimpleSquareTestMain.cpp:13, 16, 18: the same with the constrained Delaunay triangulation. *)
  Definition triangulation_program (home : option text) (d : disk) (pts : list Point) (os : list (region_op N)) (name : text)
    : res (disk * mesh N (triangle N)) :=
    r <- make_domain pts os ;;
    out <- snd (gen_do triangulate tol (gen_ctor (rg_seeds r) r) CallConstrained) ;;
    match out with
    | OutMesh h =>
        t <- use h ;;
        d' <- mesh_printInFile fmt home d (ul_list (ms_points t)) (order (map fst (ms_edges t))) (map (fun g : triangle N => pg_points (tr_poly g)) (ms_polygons t)) name ;;
        Ok (d', t)
    | OutInfo _ => Err (Throw "not a mesh")
    end.

  (** test/SimpleSquareTestMain.cpp:7-21: both, one after the other, on one domain. *)
  Definition square_program (home : option text) (d : disk) (pts : list Point) (os : list (region_op N)) (name name_t : text)
    : res (disk * (mesh N (polygon N) * mesh N (triangle N))) :=
    '(d1, (v, _)) <- mesh_program home d pts os name ;;
    '(d2, t) <- triangulation_program home d1 pts os name_t ;;
    Ok (d2, (v, t)).
End Program.
