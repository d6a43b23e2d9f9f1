(** Model of the debug output: getString of the neighbour classes, SegmentMap::printInFile, PointMap::printInFile,
    TriangleDelaunayGenerator::writeTriangleInputFile; and the parts of Triangle.cpp not in MTriangle.  A file is its text
    (opening, closing and getPath are not modelled). *)
From Verif Require Import Base MUtil MGeom MHull MPolygon MMaps MTriangle MGen MRegion MDelaunay MMesh.

(** delynoi/src/models/neighbourhood/NeighboursBySegment.cpp:31-33, through toString<double> on ints; an uninitialised
    [n1] (NeighboursBySegment.h:16) is undefined behaviour. *)
Definition nb_string (n : nbseg) : res text :=
  match nb1 n with
  | None => Err (UB "uninitialised n1")
  | Some i => Ok (print_g i ++ space :: print_g (nb2 n))
  end.
(** delynoi/src/models/neighbourhood/EdgeData.cpp:19-21 *)
Definition edge_string (e : edge) : text := print_g (e_p1 e) ++ space :: print_g (e_p2 e).
(** delynoi/src/models/neighbourhood/SegmentMap.cpp:37-50.  [es] are the entries in the (unspecified) iteration order. *)
Definition segmap_print (es : list (iseg * nbseg)) : res text :=
  ls <- mapM (fun e : iseg * nbseg => n <- nb_string (snd e) ;; Ok (iseg_string (fst e) ++ space :: n)) es ;;
  Ok (unlines ls).

(** the lines of a loop with a counter, TriangleDelaunayGenerator.cpp:163-181 *)
Fixpoint numbered {A} (f : A -> text) (i : Z) (l : list A) : list text :=
  match l with
  | [] => []
  | a :: l' => (print_int i ++ space :: f a) :: numbered f (i + 1) l'
  end.

Section Dump.
  Context {N : Num}.
  Notation Point := (Point N).
  (** operator<<(double) on coordinates (external). *)
  Variable fmt : nT N -> text.

  (** delynoi/src/models/basic/PointSegment.cpp:15-17 *)
  Definition pseg_string (s : pseg N) : text := point_string fmt (fst s) ++ space :: point_string fmt (snd s).
  (** delynoi/src/models/neighbourhood/PointMap.cpp:49-58: a blank after the point and after every neighbour. *)
  Definition pm_line (e : Point * list Z) : text :=
    point_string fmt (fst e) ++ [space] ++ flat_map (fun i => print_int i ++ [space]) (snd e).
  (** PointMap.cpp:41-61, in the order of the map. *)
  Definition pointmap_print (m : pmap N) : text := unlines (map pm_line m).

  (** delynoi/src/voronoi/TriangleDelaunayGenerator.cpp:154-185; the region is passed by value (copy constructor). *)
  Definition writeTriangleInputFile (pl : ulist Point) (r : region N) (regionIndex : list Z) : res text :=
    let r' := region_copy r in
    segs <- region_getSegments r' [] ;;
    ss <- mapM (fun s => a <- vget regionIndex (fst s) ;; b <- vget regionIndex (snd s) ;; Ok (a, b)) segs ;;
    Ok (unlines ((print_int (zlen (ul_list pl)) ++ space :: print_int 2 ++ space :: print_int 0 ++ space :: print_int 0)
      :: numbered (point_string fmt) 0 (ul_list pl)
      ++ (print_int (zlen segs) ++ space :: print_int 0)
      :: numbered (fun s : Z * Z => print_int (fst s) ++ space :: print_int (snd s)) 0 ss
      ++ print_int (zlen (rg_holes r'))
      :: numbered (fun h => point_string fmt (h_center h)) 0 (rg_holes r'))).

  (** delynoi/src/models/polygon/Triangle.cpp:67-69 *)
  Definition triangle_isNull (t : triangle N) : bool := (zlen (pg_points (tr_poly t)) =? 0)%Z.
  (** Triangle.cpp:15-19: the circumcenter is appended; a non-finite one is appended too and marked. *)
  Definition triangle_ctor_vec (tol : nT N) (idx : list Z) (p : list Point) (cs : list (res Point))
    : res (triangle N * list (res Point)) :=
    g <- polygon_ctor_idx tol idx p ;;
    ' abc <- tri_vertices idx p ;;
    let '(A, B, C) := abc in
    let c := circumcenter A B C in
    Ok (mkTri g c (Some (zlen cs)), cs ++ [c]).
  (** A client building the triangles one after the other (Triangle.cpp:15-19). *)
  Fixpoint triangles_vec (tol : nT N) (ts : list (list Z)) (p : list Point) (cs : list (res Point))
    : res (list (triangle N) * list (res Point)) :=
    match ts with
    | [] => Ok ([], cs)
    | idx :: ts' =>
        ' tc <- triangle_ctor_vec tol idx p cs ;;
        ' rest <- triangles_vec tol ts' p (snd tc) ;;
        Ok (fst tc :: fst rest, snd rest)
    end.
End Dump.
