(** Model of TriangleDelaunayGenerator (cpp and header) and of Mesh construction. *)
From Verif Require Import Base MUtil MGeom MHull MPolygon MMaps MTriangle MGen MRegion.

Section Delaunay.
  Context {N : Num}.
  Local Open Scope num_scope.
  Notation Point := (Point N).

  (** The fields of struct triangulateio (vendored triangle.h) filled in by
      delynoi/src/voronoi/TriangleDelaunayGenerator.cpp:25-68. *)
  Record pslg := mkPslg {
    in_points : list (nT N * nT N);
    in_segments : list (Z * Z);
    in_holes : list (nT N * nT N)
  }.

  (** TriangleDelaunayGenerator.cpp:20-66 *)
  Definition build_pslg (tol : nT N) (r : region N) (seeds : list Point) (restricted : list (pseg N))
    : res pslg :=
    let regionPoints := getRegionPoints r in
    let '(u1, _) := ul_push_list (pt_ltb tol) ul_empty seeds in
    let '(pl, regionIndex) := ul_push_list (pt_ltb tol) u1 regionPoints in
    segs <- region_getSegments r [] ;;
    ssegs <- mapM (fun s => a <- vget regionIndex (fst s) ;; b <- vget regionIndex (snd s) ;; Ok (a, b)) segs ;;
    let rsegs := map (fun s : pseg N =>
      (ul_indexOf (pt_eqb tol) pl (fst s), ul_indexOf (pt_eqb tol) pl (snd s))) restricted in
    Ok (mkPslg (map (fun q => (px q, py q)) (ul_list pl)) (ssegs ++ rsegs)
               (map (fun h => (px (h_center h), py (h_center h))) (rg_holes r))).

  (** The fields of struct triangulateio read back (82-116).
      TriangleDelaunayGenerator.cpp:82-116. *)
  Record trout := mkTrout {
    o_points : list (nT N * nT N * Z);     (* x, y, marker *)
    o_edges : list (Z * Z * Z);            (* p1, p2, marker *)
    o_tris : list (Z * Z * Z)
  }.

  (** TriangleDelaunayGenerator.h:23-41 (fields filled by callTriangle). *)
  Record delaunay := mkDel {
    dl_triangles : list (triangle N);
    dl_meshPoints : list Point;
    dl_delaunayEdges : segmap;
    dl_points : list pdata;
    dl_realPoints : ulist Z;
    dl_edges : list edge;
    dl_circumcenters : ulist Point;
    dl_edgeMap : umap key Z
  }.

  (** operator< on int, the key order of UniqueList<int> realPoints (DelaunayInfo.h:36, TriangleDelaunayGenerator.cpp:99-100). *)
  Definition zltb (a b : Z) : bool := (a <? b)%Z.

  (** TriangleDelaunayGenerator.cpp:82-89 *)
  Definition read_point (q : nT N * nT N * Z) : Point :=
    let '(x, y, m) := q in if (m =? 1)%Z then setBoundary (mkP x y) else mkP x y.

  (** TriangleDelaunayGenerator.cpp:91-97; state (edges, edgeMap, points). *)
  Definition read_edge (st : list edge * umap key Z * list pdata) (e : Z * Z * Z)
    : res (list edge * umap key Z * list pdata) :=
    let '(es, em, pd) := st in
    let '(a, b, m) := e in
    let i := zlen es in
    pd1 <- vupd pd a (pdata_setEdge i m) ;;
    pd2 <- vupd pd1 b (pdata_setEdge i m) ;;
    Ok (es ++ [edge_new a b], um_insert key_eqb (a, b) i em, pd2).

  (** TriangleDelaunayGenerator.cpp:99-116; state (triangles, realPoints, circumcenters, edges). *)
  Definition read_tri (tol : nT N) (mp : list Point) (em : umap key Z)
      (st : list (triangle N) * ulist Z * ulist Point * list edge) (t : Z * Z * Z)
    : res (list (triangle N) * ulist Z * ulist Point * list edge) :=
    let '(ts, rp, cs, es) := st in
    let '(a, b, c) := t in
    let i := zlen ts in
    let rp1 := fst (ul_push_back zltb rp a) in
    let rp2 := fst (ul_push_back zltb rp1 b) in
    let rp3 := fst (ul_push_back zltb rp2 c) in
    '(tr, cs') <- triangle_ctor_ul tol [a; b; c] mp cs ;;
    let i1 := edgeMap_get em a b in
    let i2 := edgeMap_get em b c in
    let i3 := edgeMap_get em c a in
    es1 <- vupd es i1 (edge_setTriangle i) ;;
    es2 <- vupd es1 i2 (edge_setTriangle i) ;;
    es3 <- vupd es2 i3 (edge_setTriangle i) ;;
    Ok (ts ++ [tr], rp3, cs', es3).

  (** TriangleDelaunayGenerator.cpp:118-124 *)
  Definition delaunay_edges (es : list edge) : segmap :=
    fold_left (fun m e => sm_put iseg_eqb m (e_p1 e, e_p2 e) (nb_two (e_t1 e) (e_t2 e))) es [].

  (** TriangleDelaunayGenerator.cpp:82-124, on a fresh generator. *)
  Definition read_output (tol : nT N) (o : trout) : res delaunay :=
    let mp := map read_point (o_points o) in
    let pd := map (fun i => pdata_new (Z.of_nat i)) (seq 0 (length (o_points o))) in
    '(es, em, pd') <- foldM read_edge (o_edges o) ([], [], pd) ;;
    '(ts, rp, cs, es') <- foldM (read_tri tol mp em) (o_tris o) ([], ul_empty, ul_empty, es) ;;
    Ok (mkDel ts mp (delaunay_edges es') pd' rp es' cs em).

  (** * Mesh<T> (delynoi/include/delynoi/models/Mesh.h:15-33), T kept abstract through its index lists.
      The maps are held by value here; see MMesh for the sharing of the pointers. *)
  Record mesh (T : Type) := mkMesh {
    ms_points : ulist Point;
    ms_polygons : list T;
    ms_edges : segmap;
    ms_pointMap : pmap N
  }.
  Arguments mkMesh {T}. Arguments ms_points {T}. Arguments ms_polygons {T}.
  Arguments ms_edges {T}. Arguments ms_pointMap {T}.

  (** TriangleDelaunayGenerator.h:94-116.  [ctor] is the constructor T(newPoints, meshPoints). *)
  Definition initializeMesh {T} (tol : nT N) (ctor : list Z -> list Point -> res T) (d : delaunay) : res (mesh T) :=
    let '(points, indexes) := ul_push_list (pt_ltb tol) ul_empty (dl_meshPoints d) in
    '(polys, pm) <- foldM (fun (st : list T * pmap N) (t : triangle N) =>
      let '(polys, pm) := st in
      let i := zlen polys in
      newPoints <- mapM (vget indexes) (pg_points (tr_poly t)) ;;
      pm' <- foldM (fun m k => q <- vget (dl_meshPoints d) k ;; Ok (pm_insert tol m q i)) newPoints pm ;;
      _ <- checkTriangleIntegrity newPoints ;;
      g <- ctor newPoints (dl_meshPoints d) ;;
      Ok (polys ++ [g], pm')) (dl_triangles d) ([], []) ;;
    Ok (mkMesh points polys (dl_delaunayEdges d) pm).

  (** Two sets of switches: "pzejDQ" (conforming) and "pzejQ" (TriangleDelaunayGenerator.cpp:146,188,197,207). *)
  Inductive switches := swConforming | swConstrained.

  (** * The generator object: region, seeds, and the result of the first callTriangle
      ([None] while [empty] is false; TriangleDelaunayGenerator.h:41 names the flag [empty] and
      callTriangle sets it to true before doing anything else, so also when it goes wrong).
      [gn_log] is ghost: the calls made to triangulate(). *)
  Record gen := mkGen {
    gn_region : region N; gn_seeds : list Point;
    gn_data : option (res delaunay);
    gn_log : list (switches * pslg) }.

  (** TriangleDelaunayGenerator.cpp:3-7: the region is passed by value (copy constructor). *)
  Definition gen_ctor (seeds : list Point) (r : region N) : gen := mkGen (region_copy r) seeds None [].

  (** Triangle itself (external): switches and input to output. *)
  Variable triangulate : switches -> pslg -> trout.

  (** TriangleDelaunayGenerator.cpp:9-142: callTriangle. *)
  Definition callTriangle (tol : nT N) (g : gen) (sw : switches) (restricted : list (pseg N)) : gen * res delaunay :=
    match build_pslg tol (gn_region g) (gn_seeds g) restricted with
    | Err e => (mkGen (gn_region g) (gn_seeds g) (Some (Err e)) (gn_log g), Err e)
    | Ok inp =>
        let d := read_output tol (triangulate sw inp) in
        (mkGen (gn_region g) (gn_seeds g) (Some d) (gn_log g ++ [(sw, inp)]), d)
    end.

  (** TriangleDelaunayGenerator.cpp:145-148,187-190,196-199,206-209: every public method first does this. *)
  Definition ensure (tol : nT N) (g : gen) (sw : switches) (restricted : list (pseg N)) : gen * res delaunay :=
    match gn_data g with
    | Some d => (g, d)
    | None => callTriangle tol g sw restricted
    end.

  (** The public methods of TriangleDelaunayGenerator.h:62-84. *)
  Inductive gen_call := CallConforming | CallConformingInfo | CallConstrained | CallConstrainedWith (s : list (pseg N)).
  (** The switch strings: TriangleDelaunayGenerator.cpp:147,189,198,208. *)
  Definition call_switches (c : gen_call) : switches :=
    match c with CallConforming | CallConformingInfo => swConforming | _ => swConstrained end.
  (** TriangleDelaunayGenerator.cpp:205-209: only this overload passes segments. *)
  Definition call_restricted (c : gen_call) : list (pseg N) :=
    match c with CallConstrainedWith s => s | _ => [] end.

  (** What a call hands back: a value, or a reference to an object that is
      destroyed when the call returns (TriangleDelaunayGenerator.cpp:144-152 returns [mesh], a local, by reference). *)
  Inductive handle (A : Type) := ByValue (a : A) | RefToLocal (a : A).
  Arguments ByValue {A}. Arguments RefToLocal {A}.
  (** Using the handle after the call.
      TriangleDelaunayGenerator.cpp:144-152 returns a reference to a local. *)
  Definition use {A} (h : handle A) : res A :=
    match h with ByValue a => Ok a | RefToLocal _ => Err (UB "dangling reference") end.

  (** A triangulation or the data for the Voronoi diagram (DelaunayInfo.h).
      TriangleDelaunayGenerator.h:62-84. *)
  Inductive gen_out := OutMesh (h : handle (mesh (triangle N))) | OutInfo (d : delaunay).

  (** TriangleDelaunayGenerator.cpp:144-152, 186-193, 195-202, 204-212 *)
  Definition gen_do (tol : nT N) (g : gen) (c : gen_call) : gen * res gen_out :=
    let '(g', r) := ensure tol g (call_switches c) (call_restricted c) in
    (g', d <- r ;;
         match c with
         | CallConformingInfo => Ok (OutInfo d)
         | CallConforming => m <- initializeMesh tol (triangle_ctor tol) d ;; Ok (OutMesh (RefToLocal m))
         | _ => m <- initializeMesh tol (triangle_ctor tol) d ;; Ok (OutMesh (ByValue m))
         end).

  (** A sequence of calls on one generator: the final state and what each call gave.
      TriangleDelaunayGenerator.cpp:144-213. *)
  Fixpoint gen_run (tol : nT N) (g : gen) (cs : list gen_call) : gen * list (res gen_out) :=
    match cs with
    | [] => (g, [])
    | c :: cs' =>
        let '(g1, o) := gen_do tol g c in
        let '(g2, os) := gen_run tol g1 cs' in (g2, o :: os)
    end.
End Delaunay.
Arguments pslg : clear implicits.
Arguments trout : clear implicits.
Arguments delaunay : clear implicits.
Arguments mesh : clear implicits.
Arguments gen : clear implicits.
Arguments gen_call : clear implicits.
Arguments gen_out : clear implicits.
Arguments mkMesh {N T}. Arguments ms_points {N T}. Arguments ms_polygons {N T}.
Arguments ms_edges {N T}. Arguments ms_pointMap {N T}.
Arguments ByValue {A}. Arguments RefToLocal {A}.
