(** Model of the memory of callTriangle: the arrays of the two triangulateio structs, allocated with malloc, written, read
    and given back with free (delynoi/src/voronoi/TriangleDelaunayGenerator.cpp:14-142).  MDelaunay models the same
    function with lists in place of arrays. *)
From Verif Require Import Base MUtil MGeom MHull MPolygon MMaps MTriangle MGen MRegion MDelaunay.

Section Heap.
  Context {N : Num}.
  Notation Point := (Point N).

  (** An element of an array of REAL or of int; malloc leaves it indeterminate
      (TriangleDelaunayGenerator.cpp:26,28,43,63). *)
  Inductive cell := CReal (x : nT N) | CInt (z : Z) | Indet.

  (** The allocated blocks by address (TriangleDelaunayGenerator.cpp:26,28,43,63).  An address may be bound twice; the first
      binding counts. *)
  Definition heap := list (Z * list cell).

  (** The value of a pointer: NULL, the start of a block, or not initialised (the fields of the structs of
      TriangleDelaunayGenerator.cpp:18 that are never assigned). *)
  Inductive ptr := Null | Ptr (b : Z) | Wild.

  (** The block at an address, if it is allocated (used by the accesses of TriangleDelaunayGenerator.cpp:32-138). *)
  Fixpoint hp_get (h : heap) (b : Z) : option (list cell) :=
    match h with
    | [] => None
    | (b', l) :: h' => if (b =? b')%Z then Some l else hp_get h' b
    end.
  (** Changing a block (TriangleDelaunayGenerator.cpp:32-34). *)
  Definition hp_set (h : heap) (b : Z) (l : list cell) : heap := (b, l) :: h.
  (** Giving a block back (TriangleDelaunayGenerator.cpp:126-141). *)
  Definition hp_drop (h : heap) (b : Z) : heap := filter (fun e => negb (fst e =? b)%Z) h.

  (** What the allocator answers to the n-th request in a given heap, for a number of elements: an address or NULL
      (TriangleDelaunayGenerator.cpp:26,28,43,63). *)
  Variable alloc : nat -> heap -> Z -> option Z.

  (** malloc(n * sizeof(...)): TriangleDelaunayGenerator.cpp:26,28,43,63.  Simplification: sizes are numbers of elements. *)
  Definition malloc (k : nat) (h : heap) (n : Z) : heap * ptr :=
    match alloc k h n with
    | Some b => (hp_set h b (repeat Indet (Z.to_nat n)), Ptr b)
    | None => (h, Null)
    end.

  (** p[i] = v: TriangleDelaunayGenerator.cpp:32-34, 47-48, 54-55, 65-66. *)
  Definition store (h : heap) (p : ptr) (i : Z) (v : cell) : res heap :=
    match p with
    | Ptr b =>
        match hp_get h b with
        | Some l => _ <- vget l i ;; Ok (hp_set h b (upd_nth (Z.to_nat i) (fun _ => v) l))
        | None => Err (UB "write to freed memory")
        end
    | _ => Err (UB "write through an invalid pointer")
    end.
  (** p[i]: TriangleDelaunayGenerator.cpp:85-86, 92-96, 100-111. *)
  Definition load (h : heap) (p : ptr) (i : Z) : res cell :=
    match p with
    | Ptr b =>
        match hp_get h b with
        | Some l => vget l i
        | None => Err (UB "read of freed memory")
        end
    | _ => Err (UB "read through an invalid pointer")
    end.
  (** The same in an array of REAL: TriangleDelaunayGenerator.cpp:85. *)
  Definition loadR (h : heap) (p : ptr) (i : Z) : res (nT N) :=
    c <- load h p i ;; match c with CReal x => Ok x | _ => Err (UB "indeterminate value") end.
  (** The same in an array of int: TriangleDelaunayGenerator.cpp:86, 92-96, 100-111. *)
  Definition loadZ (h : heap) (p : ptr) (i : Z) : res Z :=
    c <- load h p i ;; match c with CInt z => Ok z | _ => Err (UB "indeterminate value") end.
  (** free(p): TriangleDelaunayGenerator.cpp:126-141.  free(NULL) does nothing. *)
  Definition free (h : heap) (p : ptr) : res heap :=
    match p with
    | Null => Ok h
    | Ptr b => match hp_get h b with Some _ => Ok (hp_drop h b) | None => Err (UB "double free") end
    | Wild => Err (UB "free of an uninitialised pointer")
    end.

  (** int arithmetic of sizes and indices: TriangleDelaunayGenerator.cpp:26,28,43,63 and the indices of 32-111. *)
  Definition int_of (z : Z) : res Z := if in_int z then Ok z else Err (UB "signed overflow").

  (** The pointers of struct triangulateio (delynoi/include/delynoi/voronoi/lib/triangle.h:257-286). *)
  Inductive field := pointlist | pointattributelist | pointmarkerlist | trianglelist | triangleattributelist | trianglearealist | neighborlist
    | segmentlist | segmentmarkerlist | holelist | regionlist | edgelist | edgemarkerlist | normlist.
  (** The numbers of struct triangulateio (triangle.h:257-286). *)
  Inductive number := numberofpoints | numberofpointattributes | numberoftriangles | numberofcorners | numberoftriangleattributes
    | numberofsegments | numberofholes | numberofregions | numberofedges.
  (** struct triangulateio (triangle.h:257-286); a number that is not initialised is [None]. *)
  Record tio := mkTio { io_ptr : field -> ptr; io_num : number -> option Z }.

  (** TriangleDelaunayGenerator.cpp:18: a local struct, not initialised. *)
  Definition tio_new : tio := mkTio (fun _ => Wild) (fun _ => None).
  (** Whether a field of the output struct is set to NULL (TriangleDelaunayGenerator.cpp:71-79). *)
  Definition is_out (f : field) : bool :=
    match f with trianglearealist | neighborlist | holelist | regionlist | normlist => false | _ => true end.
  (** TriangleDelaunayGenerator.cpp:71-79: the output struct handed to triangulate(). *)
  Definition tio_cleared : tio := mkTio (fun f => if is_out f then Null else Wild) (fun _ => None).

  (** TriangleDelaunayGenerator.cpp:31-36: the loop over the points; [i] is the loop index, [points] the running index. *)
  Fixpoint fill_points (pl pal : ptr) (i points : Z) (ps : list Point) (h : heap) : res heap :=
    match ps with
    | [] => Ok h
    | q :: ps' =>
        h1 <- store h pl points (CReal (px q)) ;;
        p1 <- int_of (points + 1) ;;
        h2 <- store h1 pl p1 (CReal (py q)) ;;
        h3 <- store h2 pal i (CReal (nZ 0)) ;;
        p2 <- int_of (points + 2) ;;
        fill_points pl pal (i + 1) p2 ps' h3
    end.
  (** TriangleDelaunayGenerator.cpp:46-49 *)
  Fixpoint fill_segments (sl : ptr) (regionIndex : list Z) (k : Z) (segs : list iseg) (h : heap) : res (heap * Z) :=
    match segs with
    | [] => Ok (h, k)
    | s :: segs' =>
        a <- vget regionIndex (fst s) ;;
        k0 <- int_of (2 * k) ;;
        h1 <- store h sl k0 (CInt a) ;;
        b <- vget regionIndex (snd s) ;;
        k1 <- int_of (2 * k + 1) ;;
        h2 <- store h1 sl k1 (CInt b) ;;
        fill_segments sl regionIndex (k + 1) segs' h2
    end.
  (** TriangleDelaunayGenerator.cpp:51-57 *)
  Fixpoint fill_restricted (tol : nT N) (pl : ulist Point) (sl : ptr) (k : Z) (segs : list (pseg N)) (h : heap) : res heap :=
    match segs with
    | [] => Ok h
    | s :: segs' =>
        k0 <- int_of (2 * k) ;;
        h1 <- store h sl k0 (CInt (ul_indexOf (pt_eqb tol) pl (fst s))) ;;
        k1 <- int_of (2 * k + 1) ;;
        h2 <- store h1 sl k1 (CInt (ul_indexOf (pt_eqb tol) pl (snd s))) ;;
        fill_restricted tol pl sl (k + 1) segs' h2
    end.
  (** TriangleDelaunayGenerator.cpp:64-67 *)
  Fixpoint fill_holes (hl : ptr) (i : Z) (hs : list (hole N)) (h : heap) : res heap :=
    match hs with
    | [] => Ok h
    | x :: hs' =>
        i0 <- int_of (2 * i) ;;
        h1 <- store h hl i0 (CReal (px (h_center x))) ;;
        i1 <- int_of (2 * i + 1) ;;
        h2 <- store h1 hl i1 (CReal (py (h_center x))) ;;
        fill_holes hl (i + 1) hs' h2
    end.

  (** TriangleDelaunayGenerator.cpp:20-69: the input struct. *)
  Definition build_input (tol : nT N) (r : region N) (seeds : list Point) (restricted : list (pseg N)) (h : heap) : res (heap * tio) :=
    let regionPoints := getRegionPoints r in
    let '(u1, _) := ul_push_list (pt_ltb tol) ul_empty seeds in
    let '(pl, regionIndex) := ul_push_list (pt_ltb tol) u1 regionPoints in
    let n := zlen (ul_list pl) in
    n2 <- int_of (n * 2) ;;
    let '(h1, ppl) := malloc 0 h n2 in
    let '(h2, ppal) := malloc 1 h1 n in
    h3 <- fill_points ppl ppal 0 0 (ul_list pl) h2 ;;
    segs <- region_getSegments r [] ;;
    ns <- int_of (zlen segs + zlen restricted) ;;
    ns2 <- int_of (ns * 2) ;;
    let '(h4, psl) := malloc 2 h3 ns2 in
    '(h5, k) <- fill_segments psl regionIndex 0 segs h4 ;;
    h6 <- fill_restricted tol pl psl k restricted h5 ;;
    let nh := zlen (rg_holes r) in
    nh2 <- int_of (nh * 2) ;;
    let '(h7, phl) := malloc 3 h6 nh2 in
    h8 <- fill_holes phl 0 (rg_holes r) h7 ;;
    Ok (h8, mkTio (fun f => match f with
                            | pointlist => ppl | pointattributelist => ppal | pointmarkerlist => Null
                            | segmentlist => psl | segmentmarkerlist => Null | holelist => phl | _ => Wild end)
                  (fun m => match m with
                            | numberofpoints => Some n | numberofpointattributes => Some 1 | numberofsegments => Some ns
                            | numberofholes => Some nh | numberofregions => Some 0 | _ => None end)).

  (** Reading a number that must be initialised (TriangleDelaunayGenerator.cpp:82,91,99). *)
  Definition get_num (io : tio) (m : number) : res Z :=
    match io_num io m with Some z => Ok z | None => Err (UB "indeterminate value") end.
  (** for (int i = 0; i < n; i++) over a loop state: TriangleDelaunayGenerator.cpp:82, 91, 99. *)
  Definition for_loop {S} (n : Z) (body : S -> Z -> res S) (s : S) : res S :=
    foldM (fun st i => body st (Z.of_nat i)) (seq 0 (Z.to_nat n)) s.

  (** TriangleDelaunayGenerator.cpp:82-89: state (points, meshPoints). *)
  Definition load_point (h : heap) (out : tio) (st : list pdata * list Point) (i : Z) : res (list pdata * list Point) :=
    let '(pd, mp) := st in
    i0 <- int_of (i * 2) ;;
    x <- loadR h (io_ptr out pointlist) i0 ;;
    i1 <- int_of (i * 2 + 1) ;;
    y <- loadR h (io_ptr out pointlist) i1 ;;
    m <- loadZ h (io_ptr out pointmarkerlist) i ;;
    Ok (pd ++ [pdata_new i], mp ++ [read_point (x, y, m)]).
  (** TriangleDelaunayGenerator.cpp:91-97; the array elements are read more than once in the code, with the same value. *)
  Definition load_edge (h : heap) (out : tio) (st : list edge * umap key Z * list pdata) (i : Z) : res (list edge * umap key Z * list pdata) :=
    i0 <- int_of (2 * i) ;;
    a <- loadZ h (io_ptr out edgelist) i0 ;;
    i1 <- int_of (2 * i + 1) ;;
    b <- loadZ h (io_ptr out edgelist) i1 ;;
    m <- loadZ h (io_ptr out edgemarkerlist) i ;;
    read_edge st (a, b, m).
  (** TriangleDelaunayGenerator.cpp:99-116 *)
  Definition load_tri (tol : nT N) (h : heap) (out : tio) (mp : list Point) (em : umap key Z)
      (st : list (triangle N) * ulist Z * ulist Point * list edge) (i : Z) : res (list (triangle N) * ulist Z * ulist Point * list edge) :=
    i0 <- int_of (3 * i) ;;
    a <- loadZ h (io_ptr out trianglelist) i0 ;;
    i1 <- int_of (3 * i + 1) ;;
    b <- loadZ h (io_ptr out trianglelist) i1 ;;
    i2 <- int_of (3 * i + 2) ;;
    c <- loadZ h (io_ptr out trianglelist) i2 ;;
    read_tri tol mp em st (a, b, c).
  (** TriangleDelaunayGenerator.cpp:82-124 on a fresh generator. *)
  Definition load_output (tol : nT N) (h : heap) (out : tio) : res (delaunay N) :=
    np <- get_num out numberofpoints ;;
    '(pd, mp) <- for_loop np (load_point h out) ([], []) ;;
    ne <- get_num out numberofedges ;;
    '(es, em, pd') <- for_loop ne (load_edge h out) ([], [], pd) ;;
    nt <- get_num out numberoftriangles ;;
    '(ts, rp, cs, es') <- for_loop nt (load_tri tol h out mp em) ([], ul_empty, ul_empty, es) ;;
    Ok (mkDel ts mp (delaunay_edges es') pd' rp es' cs em).

  (** TriangleDelaunayGenerator.cpp:126-141: what is given back, in this order. *)
  Definition freed (io out : tio) : list ptr :=
    map (io_ptr io) [pointlist; pointattributelist; pointmarkerlist; segmentlist; segmentmarkerlist; holelist] ++
    map (io_ptr out) [pointlist; pointattributelist; pointmarkerlist; trianglelist; triangleattributelist; segmentmarkerlist; segmentlist; edgelist; edgemarkerlist].

  (** Triangle (external): switches, heap, input struct and output struct to the heap and the output struct after it
      (triangle.h:288, called at TriangleDelaunayGenerator.cpp:81). *)
  Variable triangle : switches -> heap -> tio -> tio -> res (heap * tio).

  (** TriangleDelaunayGenerator.cpp:14-142: callTriangle, with its memory. *)
  Definition callTriangle_mem (tol : nT N) (r : region N) (seeds : list Point) (sw : switches) (restricted : list (pseg N)) (h : heap)
    : res (heap * delaunay N) :=
    '(h1, io) <- build_input tol r seeds restricted h ;;
    '(h2, out) <- triangle sw h1 io tio_cleared ;;
    d <- load_output tol h2 out ;;
    h3 <- foldM free (freed io out) h2 ;;
    Ok (h3, d).
End Heap.
Arguments cell : clear implicits.
Arguments heap : clear implicits.
