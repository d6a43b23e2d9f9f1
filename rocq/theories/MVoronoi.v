(** Model of delynoi/src/voronoi/DelaunayToVoronoi.cpp. *)
From Verif Require Import Base MUtil MGeom MHull MPolygon MMaps MTriangle MGen MRegion MDelaunay.

Section Voronoi.
  Context {N : Num}.
  Variable tol : nT N.
  Local Open Scope num_scope.
  Notation Point := (Point N).

  (** The mutable data of the constructor: del.circumcenters, voronoiEdges,
      pointMap (4-5), and per cell thisEdges (10) and cellPoints (13).
      DelaunayToVoronoi.cpp:4-14. *)
  Record vstate := mkV {
    v_cc : ulist Point;
    v_edges : segmap;
    v_pm : pmap N;
    v_this : list iseg;
    v_cell : ulist Z
  }.

  (** DelaunayToVoronoi.cpp:108-119 *)
  Definition getCircumcenter (d : delaunay N) (cc : ulist Point) (t e : Z) : res (ulist Point * Z) :=
    if negb (t =? -1)%Z then
      tr <- vget (dl_triangles d) t ;;
      match tr_cci tr with Some i => Ok (cc, i) | None => Err (UB "uninitialised read") end
    else
      ed <- vget (dl_edges d) e ;;
      m <- iseg_middle (dl_meshPoints d) (e_p1 ed, e_p2 ed) ;;
      Ok (ul_push_back (pt_ltb tol) cc (setBoundary m)).

  (** DelaunayToVoronoi.cpp:23-33 and 46-57: registering the edge (index2,index1) and the two points. *)
  Definition add_step (cell : Z) (i1 i2 : Z) (s : vstate) : res vstate :=
    s1 <- (if negb (i1 =? i2)%Z then
             q2 <- ul_get (v_cc s) i2 ;;
             Ok (mkV (v_cc s) (sm_insert iseg_eqb (v_edges s) (i2, i1) cell) (pm_insert tol (v_pm s) q2 cell)
                     (v_this s ++ [(i2, i1)]) (fst (ul_push_back zltb (v_cell s) i2)))
           else Ok s) ;;
    q1 <- ul_get (v_cc s1) i1 ;;
    Ok (mkV (v_cc s1) (v_edges s1) (pm_insert tol (v_pm s1) q1 cell) (v_this s1)
            (fst (ul_push_back zltb (v_cell s1) i1))).

  (** The writes to del.circumcenters: DelaunayToVoronoi.cpp:108-119. *)
  Definition with_cc (s : vstate) (cc : ulist Point) : vstate :=
    mkV cc (v_edges s) (v_pm s) (v_this s) (v_cell s).

  (** DelaunayToVoronoi.cpp:37-64: the walk.  State: [t1], current edge; returns the
      last edge and the state. *)
  Fixpoint walk (fuel : nat) (d : delaunay N) (cell index : Z) (init : edge) (t1 : Z) (e : edge) (s : vstate)
    : res (edge * vstate) :=
    if edge_eqb e init then Ok (e, s)
    else match fuel with
    | O => Err Fuel
    | S fuel' =>
        let t2 := t1 in
        let t1' := if negb (e_t1 e =? t2)%Z then e_t1 e else e_t2 e in
        let cur := edgeMap_get (dl_edgeMap d) (e_p1 e) (e_p2 e) in
        '(cc1, i1) <- getCircumcenter d (v_cc s) t1' cur ;;
        '(cc2, i2) <- getCircumcenter d cc1 t2 cur ;;
        s' <- add_step cell i1 i2 (with_cc s cc2) ;;
        if negb (t1' =? -1)%Z then
          tr <- vget (dl_triangles d) t1' ;;
          k <- nextEdge (pg_points (tr_poly tr)) index e (dl_edgeMap d) ;;
          e' <- vget (dl_edges d) k ;;
          walk fuel' d cell index init t1' e' s'
        else Ok (e, s')
    end.

  (** DelaunayToVoronoi.cpp:66-91: closing a boundary cell. *)
  Definition close_cell (cell : Z) (center : Point) (e : edge) (s : vstate) : res vstate :=
    if (e_t2 e =? -1)%Z then
      first <- ul_get (v_cell s) 0 ;;
      last <- ul_get (v_cell s) (ul_size (v_cell s) - 1) ;;
      qf <- ul_get (v_cc s) first ;; ql <- ul_get (v_cc s) last ;;
      if collinear tol qf center ql then
        Ok (mkV (v_cc s) (sm_insert iseg_eqb (v_edges s) (last, first) cell) (v_pm s)
                (v_this s ++ [(last, first)]) (v_cell s))
      else
        let '(cc', ri) := ul_push_back (pt_ltb tol) (v_cc s) (setBoundary center) in
        q <- ul_get cc' ri ;;
        let m1 := sm_insert iseg_eqb (v_edges s) (last, ri) cell in
        let m2 := sm_insert iseg_eqb m1 (ri, first) cell in
        Ok (mkV cc' m2 (pm_insert tol (v_pm s) q cell) (v_this s ++ [(last, ri); (ri, first)])
                (fst (ul_push_back zltb (v_cell s) ri)))
    else Ok s.

  (** DelaunayToVoronoi.cpp:9-99: one cell; returns also the edges registered for it. *)
  Definition build_cell (fuel : nat) (d : delaunay N) (cell index : Z)
      (cc : ulist Point) (m : segmap) (pm : pmap N) : res (polygon N * vstate) :=
    center <- vget (dl_meshPoints d) index ;;
    pd <- vget (dl_points d) index ;;
    init <- vget (dl_edges d) (pd_edge pd) ;;
    let t1 := e_t1 init in
    let t2 := e_t2 init in
    '(cc1, i1) <- getCircumcenter d cc t1 (pd_edge pd) ;;
    '(cc2, i2) <- getCircumcenter d cc1 t2 (pd_edge pd) ;;
    s0 <- add_step cell i1 i2 (mkV cc2 m pm [] ul_empty) ;;
    tr <- vget (dl_triangles d) t1 ;;
    k <- nextEdge (pg_points (tr_poly tr)) index init (dl_edgeMap d) ;;
    e <- vget (dl_edges d) k ;;
    '(e', s1) <- walk fuel d cell index init t1 e s0 ;;
    s2 <- close_cell cell center e' s1 ;;
    g <- polygon_ctor_idx tol (ul_list (v_cell s2)) (ul_list (v_cc s2)) ;;
    g' <- fixCCW g (ul_list (v_cc s2)) ;;
    Ok (g', s2).

  (** DelaunayToVoronoi.cpp:8-104: all cells; also returns, per cell, the edges registered (ghost). *)
  Fixpoint build_cells (fuel : nat) (d : delaunay N) (cell : Z) (indices : list Z)
      (cc : ulist Point) (m : segmap) (pm : pmap N)
    : res (list (polygon N * list iseg) * ulist Point * segmap * pmap N) :=
    match indices with
    | [] => Ok ([], cc, m, pm)
    | index :: rest =>
        '(g, s) <- build_cell fuel d cell index cc m pm ;;
        '(gs, cc', m', pm') <- build_cells fuel d (cell + 1)%Z rest (v_cc s) (v_edges s) (v_pm s) ;;
        Ok ((g, v_this s) :: gs, cc', m', pm')
    end.

  (** DelaunayToVoronoi.cpp:3-105 *)
  Definition voronoi (fuel : nat) (d : delaunay N) : res (mesh N (polygon N)) :=
    '(gs, cc, m, pm) <- build_cells fuel d 0 (ul_list (dl_realPoints d)) (dl_circumcenters d) [] [] ;;
    Ok (mkMesh cc (map fst gs) m pm).

  (** delynoi/src/voronoi/TriangleVoronoiGenerator.cpp:5-11: the diagram and the triangulation. *)
  Definition voronoiGenerator (triangulate : switches -> pslg N -> trout N) (fuel : nat)
      (seeds : list Point) (r : region N) : res (mesh N (polygon N) * mesh N (polygon N)) :=
    let '(_, r) := ensure triangulate tol (gen_ctor seeds r) swConforming [] in
    d <- r ;;
    m <- initializeMesh tol (polygon_ctor_idx tol) d ;;
    v <- voronoi fuel d ;;
    Ok (v, m).
End Voronoi.
