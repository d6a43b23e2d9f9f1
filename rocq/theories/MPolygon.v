(** Model of delynoi/src/models/polygon/Polygon.cpp. *)
From Verif Require Import Base MUtil MGeom MHull.

Section Polygon.
  Context {N : Num}.
  Local Open Scope num_scope.
  Notation Point := (Point N).

  (** delynoi/include/delynoi/models/polygon/Polygon.h:25-32,197.  The default
      constructor (Polygon.cpp:53), which leaves diameter and area uninitialised, is modelled in MPolyLife.v. *)
  Record polygon := mkPoly {
    pg_points : list Z;
    pg_diam : nT N;
    pg_area : nT N;
    pg_cen : Point;
    pg_hash : Z
  }.

  (** The sub-expression p[points[i]] of most methods.
      For instance Polygon.cpp:112. *)
  Definition vpt (p : list Point) (idx : list Z) (i : nat) : res Point :=
    k <- vgetn idx i ;; vget p k.

  (** Polygon.cpp:260-268; int values are added to a size_t, arithmetic modulo 2^64. *)
  Definition calculateHash (idx : list Z) : Z :=
    fold_left (fun h k => to_size (h + hash32 k)) idx 0.

  (** Polygon.cpp:118-125: getSegments applied to a vector holding [segs]. *)
  Definition getSegments (idx : list Z) (segs : list iseg) : res (list iseg) :=
    let n := length idx in
    foldM (fun acc i =>
      a <- vgetn idx (i mod n) ;; b <- vgetn idx ((i + 1) mod n) ;; Ok (acc ++ [(a, b)]))
      (seq 0 n) segs.

  (** Short-circuit loop used by the boolean searches below.
      For instance Polygon.cpp:176-187. *)
  Fixpoint existsM {A} (f : A -> res bool) (l : list A) : res bool :=
    match l with
    | [] => Ok false
    | a :: l' => b <- f a ;; if b : bool then Ok true else existsM f l'
    end.

  (** Polygon.cpp:291-311 for the index list [idx]; [(i-1+n)%n] on ints. *)
  Definition isSelfIntersecting (tol : nT N) (idx : list Z) (p : list Point) : res bool :=
    segs <- getSegments idx [] ;;
    let n := length segs in
    existsM (fun i =>
      s <- vgetn segs i ;;
      existsM (fun j =>
        if (Nat.eqb i j || Nat.eqb j ((i + n - 1) mod n) || Nat.eqb j ((i + 1) mod n))%bool
        then Ok false
        else o <- vgetn segs j ;; r <- iseg_intersection tol p s o point0 ;; Ok (fst r))
        (seq 0 n))
      (seq 0 n).

  (** Polygon.cpp:8-19: the guard runs while [this->points] is still empty. *)
  Definition polygon_ctor_idx (tol : nT N) (idx : list Z) (p : list Point) : res polygon :=
    b <- isSelfIntersecting tol [] p ;;
    if b : bool then Err (Throw "Self intersecting polygons are not supported")
    else Ok (mkPoly idx (nZ (-1)) (nZ (-1)) point0 (calculateHash idx)).

  (** Polygon.cpp:35-51: the exception object of line 37 is built but not thrown;
      [this_points] is built and dropped (its reads are in range by construction). *)
  Definition polygon_ctor_pts (tol : nT N) (p : list Point) : res polygon :=
    b <- isSelfIntersecting tol [] p ;;
    let idx := trivialIndex (length p) in
    _ <- mapM (vpt p idx) (seq 0 (length idx)) ;;
    Ok (mkPoly idx (nZ (-1)) (nZ (-1)) point0 (calculateHash idx)).

  (** Polygon.cpp:55-62: the copy constructor. *)
  Definition polygon_copy (o : polygon) : polygon :=
    mkPoly (pg_points o) (pg_diam o) (pg_area o) (pg_cen o) (calculateHash (pg_points o)).

  (** Polygon.cpp:21-33.  The pair holds the state after the call (also when it
      throws) and the outcome. *)
  Definition polygon_mutate (tol : nT N) (g : polygon) (p : list Point) : polygon * res unit :=
    let idx := trivialIndex (length p) in
    let g1 := mkPoly idx (pg_diam g) (pg_area g) (pg_cen g) (pg_hash g) in
    match isSelfIntersecting tol idx p with
    | Err e => (g1, Err e)
    | Ok true => (g1, Err (Throw "Self intersecting polygons are not supported"))
    | Ok false => (mkPoly idx (nZ (-1)) (nZ (-1)) point0 (calculateHash idx), Ok tt)
    end.

  (** Polygon.cpp:277-285 *)
  Definition getPoints (idx : list Z) (p : list Point) : res (list Point) :=
    mapM (vpt p idx) (seq 0 (length idx)).

  (** delynoi/src/utilities/geometryFunctions.cpp:29-39 *)
  Definition geo_area (p : list Point) (idx : list Z) : res (nT N) :=
    let n := length idx in
    foldM (fun acc i =>
      a <- vpt p idx (i mod n) ;; b <- vpt p idx ((i + 1) mod n) ;; o <- vpt p idx 0 ;;
      Ok (acc + triangleArea a b o)) (seq 0 n) (nZ 0).
  (** geometryFunctions.cpp:41-50 *)
  Definition geo_area_pts (p : list Point) : res (nT N) :=
    let n := length p in
    foldM (fun acc i =>
      a <- vgetn p (i mod n) ;; b <- vgetn p ((i + 1) mod n) ;; o <- vgetn p 0 ;;
      Ok (acc + triangleArea a b o)) (seq 0 n) (nZ 0).

  (** Polygon.cpp:78-80 *)
  Definition calculateArea (p : list Point) (idx : list Z) : res (nT N) := geo_area p idx.

  (** Polygon.cpp:82-88: new state and result. *)
  Definition getArea (g : polygon) (p : list Point) : res (polygon * nT N) :=
    if pg_area g =? nZ (-1) then
      a <- calculateArea p (pg_points g) ;;
      Ok (mkPoly (pg_points g) (pg_diam g) a (pg_cen g) (pg_hash g), a)
    else Ok (g, pg_area g).

  (** Polygon.cpp:64-76 *)
  Definition calculateDiameter (pts : list Point) : res (nT N) :=
    prs <- rotatingCalipers pts ;;
    Ok (fold_left (fun mx (pr : Point * Point) =>
          let d := norm (pt_sub (fst pr) (snd pr)) in if d >? mx then d else mx) prs (nZ (-1))).

  (** Polygon.cpp:90-97 *)
  Definition getDiameter (g : polygon) (p : list Point) : res (polygon * nT N) :=
    if pg_diam g <? nZ 0 then
      pts <- getPoints (pg_points g) p ;;
      d <- calculateDiameter pts ;;
      Ok (mkPoly (pg_points g) d (pg_area g) (pg_cen g) (pg_hash g), d)
    else Ok (g, pg_diam g).

  (** Polygon.cpp:107-116 *)
  Definition signedArea (p : list Point) (idx : list Z) : res (nT N) :=
    let n := length idx in
    s <- foldM (fun acc i =>
      a <- vpt p idx i ;; b <- vpt p idx ((i + 1) mod n) ;;
      Ok (acc + (px a * py b - px b * py a))) (seq 0 n) (nZ 0) ;;
    Ok (nZ 1 / nZ 2 * s).

  (** Polygon.cpp:127-145 *)
  Definition calculateCentroid (p : list Point) (idx : list Z) : res Point :=
    let n := length idx in
    '(sx, sy) <- foldM (fun (acc : nT N * nT N) i =>
      a <- vpt p idx i ;; b <- vpt p idx ((i + 1) mod n) ;;
      Ok (fst acc + (px a + px b) * (px a * py b - px b * py a),
          snd acc + (py a + py b) * (px a * py b - px b * py a))) (seq 0 n) (nZ 0, nZ 0) ;;
    A <- signedArea p idx ;;
    x <- divr sx (nZ 6 * A) ;; y <- divr sy (nZ 6 * A) ;;
    Ok (mkP x y).

  (** Polygon.cpp:99-105 *)
  Definition getCentroid (g : polygon) (p : list Point) : res (polygon * Point) :=
    if negb (isValid (pg_cen g)) then
      c <- calculateCentroid p (pg_points g) ;;
      Ok (mkPoly (pg_points g) (pg_diam g) (pg_area g) c (pg_hash g), c)
    else Ok (g, pg_cen g).

  (** Polygon.cpp:176-187 *)
  Definition containerEdge (tol : nT N) (idx : list Z) (p : list Point) (q : Point) : res iseg :=
    segs <- getSegments idx [] ;;
    (fix go (l : list iseg) : res iseg :=
       match l with
       | [] => Ok (-1, -1)%Z
       | s :: l' => b <- iseg_contains tol p s q ;; if b : bool then Ok s else go l'
       end) segs.

  (** Polygon.cpp:189-193 *)
  Definition inEdges (tol : nT N) (idx : list Z) (p : list Point) (q : Point) : res bool :=
    c <- containerEdge tol idx p q ;;
    Ok (negb (fst c =? -1)%Z && negb (snd c =? -1)%Z).

  (** Polygon.cpp:159-165: the body of the crossing test for the edge (pI,pJ). *)
  Definition crosses (q pI pJ : Point) : bool :=
    ((py pI <=? py q) && (py pJ >? py q) || (py pJ <=? py q) && (py pI >? py q))
    && (px pI + (py q - py pI) / (py pJ - py pI) * (px pJ - px pI) <? px q).

  (** Polygon.cpp:147-174; loop state (j, oddNodes). *)
  Definition crossing_loop (tol : nT N) (idx : list Z) (p : list Point) (q : Point) : res (nat * bool) :=
    foldM (fun (st : nat * bool) i =>
      pI <- vpt p idx i ;; pJ <- vpt p idx (fst st) ;;
      if pt_eqb tol pI pJ then Ok st
      else Ok (i, xorb (snd st) (crosses q pI pJ)))
      (seq 0 (length idx)) ((length idx - 1)%nat, false).
  (** Polygon.cpp:147-174. *)
  Definition containsPoint (tol : nT N) (idx : list Z) (p : list Point) (q : Point) : res bool :=
    st <- crossing_loop tol idx p q ;;
    if snd st then Ok true else inEdges tol idx p q.

  (** Polygon.cpp:195-209 *)
  Definition isConvex (idx : list Z) (p : list Point) : res bool :=
    let n := length idx in
    a <- vpt p idx 0 ;; b <- vpt p idx 1 ;; c <- vpt p idx 2 ;;
    let d := orientation a b c in
    bad <- existsM (fun i =>
      x <- vpt p idx i ;; y <- vpt p idx ((i + 1) mod n) ;; z <- vpt p idx ((i + 2) mod n) ;;
      Ok (d * orientation x y z <? nZ 0)) (seq 1 (n - 1)) ;;
    Ok (negb bad).

  (** Polygon.cpp:224-240 *)
  Definition isClockwise (idx : list Z) (p : list Point) : res bool :=
    let n := length idx in
    pI <- vpt p idx 0 ;; pI1 <- vpt p idx (n - 1) ;;
    s <- foldM (fun acc i =>
      b <- vpt p idx ((i + 1) mod n) ;; a <- vpt p idx i ;;
      Ok (acc + (px b - px a) * (py b + py a)))
      (seq 0 (n - 1)) ((px pI - px pI1) * (py pI + py pI1)) ;;
    Ok (s >? nZ 0).

  (** Polygon.cpp:242-244, 287-289 *)
  Definition polygon_eqb (a b : polygon) : bool := (pg_hash a =? pg_hash b)%Z.
  (** Polygon.cpp:287-289. *)
  Definition polygon_ltb (a b : polygon) : bool := (pg_hash a <? pg_hash b)%Z.

  (** Polygon.cpp:256-258 *)
  Definition isVertex (idx : list Z) (k : Z) : bool := existsb (fun v => (v =? k)%Z) idx.

  (** Polygon.cpp:270-275; the hash is not recomputed. *)
  Definition fixCCW (g : polygon) (p : list Point) : res polygon :=
    b <- isClockwise (pg_points g) p ;;
    Ok (if b : bool then mkPoly (rev (pg_points g)) (pg_diam g) (nZ (-1)) (pg_cen g) (pg_hash g) else g).

  (** Polygon.cpp:313-320 *)
  Definition containsEdge (idx : list Z) (s : iseg) : bool :=
    let n := zlen idx in
    let i := indexOf Z.eqb idx (fst s) in
    let j := indexOf Z.eqb idx (snd s) in
    (negb (i =? -1) && negb (j =? -1) && ((Z.abs (i - j) =? 1) || (Z.abs (i - j) =? n - 1)))%Z%bool.

  (** Polygon.cpp:322-336 *)
  Definition getAverage (idx : list Z) (p : list Point) : res Point :=
    '(x, y) <- foldM (fun (acc : nT N * nT N) v =>
      a <- vget p v ;; Ok (fst acc + px a, snd acc + py a)) idx (nZ 0, nZ 0) ;;
    x' <- divr x (nZ (zlen idx)) ;; y' <- divr y (nZ (zlen idx)) ;;
    Ok (mkP x' y').

  (** Polygon.cpp:338-351; LLONG_MIN converted to double. *)
  Definition getMaxDistance (idx : list Z) (p : list Point) : res (nT N) :=
    let n := length idx in
    foldM (fun mx i =>
      a <- vgetn idx i ;; b <- vgetn idx ((i + 1) mod n) ;;
      d <- iseg_length p (a, b) ;;
      Ok (if d >? mx then d else mx)) (seq 0 n) (nZ (-9223372036854775808)).
End Polygon.
Arguments polygon : clear implicits.
