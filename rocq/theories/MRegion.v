(** Model of Hole.h, PolygonalHole.cpp, CircularHole.cpp, Region.cpp and ClipperWrapper.cpp. *)
From Verif Require Import Base MUtil MGeom MHull MPolygon MGen.

Section Region.
  Context {N : Num}.
  Local Open Scope num_scope.
  Notation Point := (Point N).

  (** * Hole (delynoi/include/delynoi/models/hole/Hole.h:12-42). *)
  Record hole := mkHole { h_points : list Point; h_center : Point; h_segs : list iseg }.

  (** Hole.h:56-60 *)
  Definition hole_getSegments (h : hole) (s : list iseg) (offset : Z) : list iseg :=
    s ++ map (fun sg => iseg_add sg offset) (h_segs h).

  (** Hole.h:73-97: same loop as Polygon::containsPoint on the points themselves. *)
  Definition hole_crossing (tol : nT N) (hp : list Point) (q : Point) : res (nat * bool) :=
    foldM (fun (st : nat * bool) i =>
      pI <- vgetn hp i ;; pJ <- vgetn hp (fst st) ;;
      if pt_eqb tol pI pJ then Ok st
      else Ok (i, xorb (snd st) (crosses q pI pJ)))
      (seq 0 (length hp)) ((length hp - 1)%nat, false).
  (** Hole.h:99-109: the last segment containing the point, (-1,-1) if none. *)
  Definition hole_container (tol : nT N) (h : hole) (q : Point) : res iseg :=
    foldM (fun (c : iseg) s =>
      b <- iseg_contains tol (h_points h) s q ;; Ok (if b : bool then s else c))
      (hole_getSegments h [] 0) (-1, -1)%Z.
  (** Hole.h:73-110 *)
  Definition hole_containsPoint (tol : nT N) (h : hole) (q : Point) : res bool :=
    st <- hole_crossing tol (h_points h) q ;;
    if snd st then Ok true
    else c <- hole_container tol h q ;; Ok (negb (fst c =? -1)%Z && negb (snd c =? -1)%Z).

  (** delynoi/src/models/hole/PolygonalHole.cpp:3-9 *)
  Definition polygonalHole (tol : nT N) (p : list Point) : res hole :=
    g <- polygon_ctor_pts tol p ;;
    '(g1, c) <- getCentroid g p ;;
    segs <- getSegments (pg_points g1) [] ;;
    Ok (mkHole p c segs).

  (** delynoi/src/models/hole/CircularHole.cpp:3-15, from the discretised circle
      [pts] (Circle.cpp:10-27, modelled in MTrig). *)
  Definition circularHole (tol : nT N) (pts : list Point) (center : Point) : res hole :=
    g <- polygon_ctor_idx tol (trivialIndex (length pts)) pts ;;
    segs <- getSegments (pg_points g) [] ;;
    Ok (mkHole pts center segs).

  (** * Region (delynoi/src/models/Region.cpp, delynoi/include/delynoi/models/Region.h:21-36). *)
  Record region := mkRegion {
    rg_poly : polygon N;          (* the Polygon base object *)
    rg_p : list Point;            (* p *)
    rg_holes : list hole;         (* holes *)
    rg_seeds : list Point         (* seedPoints *)
  }.

  (** Region.cpp:3-5 *)
  Definition region_ctor (tol : nT N) (pts : list Point) : res region :=
    g <- polygon_ctor_pts tol pts ;; Ok (mkRegion g pts [] []).

  (** Region.cpp:12 and Polygon.cpp:53: diameter [d], area [a] and hash [h] are uninitialised, so arbitrary. *)
  Definition region_default (d a : nT N) (h : Z) : region := mkRegion (mkPoly [] d a point0 h) [] [] [].

  (** Region.cpp:7-10: state after the call, also when it throws, and outcome. *)
  Definition region_mutate (tol : nT N) (r : region) (pts : list Point) : region * res unit :=
    let '(g, o) := polygon_mutate tol (rg_poly r) pts in
    (mkRegion g pts (rg_holes r) (rg_seeds r), o).

  (** Region.cpp:14-22.  The base is default-constructed (uninitialised area and
      diameter, here [g0]); mutate sets every field or throws. *)
  Definition region_of_polygon (tol : nT N) (g0 : polygon N) (idx : list Z) (pts : list Point) : res region :=
    ps <- mapM (fun i => vpt pts idx i) (seq 0 (length idx)) ;;
    let '(g, o) := polygon_mutate tol g0 ps in
    _ <- o ;; Ok (mkRegion g ps [] []).

  (** Region.cpp:25-28: the copy constructor. *)
  Definition region_copy (r : region) : region :=
    mkRegion (polygon_copy (rg_poly r)) (rg_p r) (rg_holes r) [].
  (** The implicitly generated copy assignment: member-wise.
      Region.h:21. *)
  Definition region_assign (r : region) : region := r.

  (** * Clipping (vendored library, external): difference of two integer paths. *)
  Variable clip_difference : list (Z * Z) -> list (Z * Z) -> list (list (Z * Z)).

  (** Region.cpp:46-47 and delynoi/src/models/hole/clipper/ClipperWrapper.cpp:23-25 *)
  Definition scalePoint (scale : Z) (q : Point) : res (Z * Z) :=
    x <- to_int (nZ scale * px q) ;; y <- to_int (nZ scale * py q) ;; Ok (x, y).
  (** Region.cpp:66-67 *)
  Definition unscalePoint (scale : Z) (q : Z * Z) : res Point :=
    x <- divr (nZ (fst q)) (nZ 1 * nZ scale) ;; y <- divr (nZ (snd q)) (nZ 1 * nZ scale) ;; Ok (mkP x y).

  (** Region.cpp:38-80: state after the call and outcome. *)
  Definition addHole (cf : config N) (r : region) (h : hole) : region * res unit :=
    match mapM (scalePoint (cf_scale cf)) (rg_p r) with
    | Err e => (r, Err e)
    | Ok subject =>
        match mapM (scalePoint (cf_scale cf)) (h_points h) with
        | Err e => (r, Err e)
        | Ok clip =>
            match clip_difference subject clip with
            | [path] =>
                match mapM (unscalePoint (cf_scale cf)) path with
                | Err e => (r, Err e)
                | Ok newPoints => region_mutate (cf_tol cf) r newPoints
                end
            | _ =>
                match containsPoint (cf_tol cf) (pg_points (rg_poly r)) (rg_p r) (h_center h) with
                | Err e => (r, Err e)
                | Ok true => (mkRegion (rg_poly r) (rg_p r) (rg_holes r ++ [h]) (rg_seeds r), Ok tt)
                | Ok false => (r, Err (Throw "Hole lies completely outside of domain region"))
                end
            end
        end
    end.

  (** ClipperWrapper.cpp:3-21.  [clip] is the library's Execute for a clip type. *)
  Inductive clip_type := ctIntersection | ctUnion | ctDifference | ctXor.
  (** ClipperWrapper.cpp:3-21. *)
  Definition polyIntersection (clip : clip_type -> list (Z * Z) -> list (Z * Z) -> list (list (Z * Z)))
      (parent child : list Point) (maxScale : Z) : res (list (list (Z * Z))) :=
    s <- mapM (scalePoint maxScale) parent ;;
    c <- mapM (scalePoint maxScale) child ;;
    Ok (clip ctDifference s c).

  (** Region.cpp:82-84 *)
  Definition cleanInternalHoles (r : region) : region := mkRegion (rg_poly r) (rg_p r) [] (rg_seeds r).
  (** Region.cpp:193-195 *)
  Definition cleanSeedPoints (r : region) : region := mkRegion (rg_poly r) (rg_p r) (rg_holes r) [].

  (** Region.cpp:116-130; LLONG_MAX and LLONG_MIN converted to double (2^63 and
      -2^63: 2^63-1 rounds up). *)
  Definition getBox (r : region) : bbox N :=
    let big := nZ 9223372036854775808 in
    let small := nZ (-9223372036854775808) in
    let '(x0, x1, y0, y1) :=
      fold_left (fun '(x0, x1, y0, y1) (v : Point) =>
        (if px v <? x0 then px v else x0, if px v >? x1 then px v else x1,
         if py v <? y0 then py v else y0, if py v >? y1 then py v else y1))
        (rg_p r) (big, small, big, small) in
    mkBox (mkP x0 y0) (mkP x1 y1).

  (** Region.cpp:138-142: [keep && !...] stops evaluating once false. *)
  Definition seed_kept (tol : nT N) (r : region) (q : Point) : res bool :=
    inside <- containsPoint tol (pg_points (rg_poly r)) (rg_p r) q ;;
    if inside : bool then
      foldM (fun (keep : bool) h =>
        if keep then b <- hole_containsPoint tol h q ;; Ok (negb b) else Ok false) (rg_holes r) true
    else Ok false.

  (** Region.cpp:136-155 *)
  Fixpoint filterM {A} (f : A -> res bool) (l : list A) : res (list A) :=
    match l with
    | [] => Ok []
    | a :: l' => b <- f a ;; rest <- filterM f l' ;; Ok (if b : bool then a :: rest else rest)
    end.
  (** Region.cpp:132-157. *)
  Definition clean (tol : nT N) (r : region) : res region :=
    seeds <- filterM (seed_kept tol r) (rg_seeds r) ;;
    Ok (mkRegion (rg_poly r) (rg_p r) (rg_holes r) seeds).

  (** The writes to this->seeds: Region.cpp:86-114. *)
  Definition with_seeds (r : region) (s : list Point) : region :=
    mkRegion (rg_poly r) (rg_p r) (rg_holes r) s.

  (** Region.cpp:86-90 *)
  Definition generateSeedPoints (tol : nT N) (r : region) (g : generator N) (nX nY : Z)
    : res (region * generator N) :=
    '(g', pts) <- generate g (rg_seeds r) (getBox r) nX nY ;;
    r' <- clean tol (with_seeds r pts) ;; Ok (r', g').

  (** Region.cpp:92-95 *)
  Definition addSeedPoints (tol : nT N) (r : region) (seeds : list Point) : res region :=
    clean tol (with_seeds r seeds).

  (** Region.cpp:97-114, after reading: the points of the file are appended
      (the reading itself is modelled in MMesh, same code as Mesh::createFromStream). *)
  Definition addSeedsRead (tol : nT N) (r : region) (read : list Point) : res region :=
    clean tol (with_seeds r (rg_seeds r ++ read)).

  (** Region.cpp:159-169 *)
  Definition getRegionPoints (r : region) : list Point :=
    rg_p r ++ flat_map h_points (rg_holes r).

  (** Region.cpp:171-179 *)
  Definition region_getSegments (r : region) (s : list iseg) : res (list iseg) :=
    s1 <- getSegments (pg_points (rg_poly r)) s ;;
    Ok (fst (fold_left (fun '(acc, off) h =>
               (hole_getSegments h acc off, (off + zlen (h_points h))%Z))
             (rg_holes r) (s1, zlen (rg_p r)))).

  (** Region.cpp:181-185 *)
  Definition region_containsPoint (tol : nT N) (r : region) (q : Point) : res bool :=
    containsPoint tol (pg_points (rg_poly r)) (rg_p r) q.
  (** Region.cpp:187-191 *)
  Definition region_inEdges (tol : nT N) (r : region) (q : Point) : res bool :=
    inEdges tol (pg_points (rg_poly r)) (rg_p r) q.
End Region.
Arguments hole : clear implicits.
Arguments region : clear implicits.
