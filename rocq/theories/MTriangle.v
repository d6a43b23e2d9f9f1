(** Model of Triangle.cpp, CenterTriangulationGenerator.cpp and EarTriangulationGenerator.cpp. *)
From Verif Require Import Base MUtil MGeom MHull MPolygon MMaps.

Section Triangle.
  Context {N : Num}.
  Local Open Scope num_scope.
  Notation Point := (Point N).

  (** delynoi/include/delynoi/models/polygon/Triangle.h:12-19.  [tr_cc] is the circumcenter, an error when the
      C++ value is not finite; [tr_cci] is its index ([None]: uninitialised). *)
  Record triangle := mkTri { tr_poly : polygon N; tr_cc : res Point; tr_cci : option Z }.

  (** delynoi/src/models/polygon/Triangle.cpp:29-40 on the three vertices. *)
  Definition circumcenter (A B C : Point) : res Point :=
    let d := nZ 2 * (px A * (py B - py C) + px B * (py C - py A) + px C * (py A - py B)) in
    uX <- divr (squareNorm A * (py B - py C) + squareNorm B * (py C - py A) + squareNorm C * (py A - py B)) d ;;
    uY <- divr (squareNorm A * (px C - px B) + squareNorm B * (px A - px C) + squareNorm C * (px B - px A)) d ;;
    Ok (mkP uX uY).

  (** Triangle.cpp:30-32: reading the vertices. *)
  Definition tri_vertices (idx : list Z) (p : list Point) : res (Point * Point * Point) :=
    A <- vpt p idx 0 ;; B <- vpt p idx 1 ;; C <- vpt p idx 2 ;; Ok (A, B, C).

  (** Triangle.cpp:6-8; a non-finite circumcenter is stored, not reported. *)
  Definition triangle_ctor (tol : nT N) (idx : list Z) (p : list Point) : res triangle :=
    g <- polygon_ctor_idx tol idx p ;;
    '(A, B, C) <- tri_vertices idx p ;;
    Ok (mkTri g (circumcenter A B C) None).

  (** Triangle.cpp:10-13; a non-finite circumcenter would be put in the list
      (NaN breaks the ordering): the model stops. *)
  Definition triangle_ctor_ul (tol : nT N) (idx : list Z) (p : list Point) (cs : ulist Point)
    : res (triangle * ulist Point) :=
    g <- polygon_ctor_idx tol idx p ;;
    '(A, B, C) <- tri_vertices idx p ;;
    c <- circumcenter A B C ;;
    let '(cs', i) := ul_push_back (pt_ltb tol) cs c in
    Ok (mkTri g (Ok c) (Some i), cs').

  (** Triangle.cpp:48-65 *)
  Definition thirdPoint (idx : list Z) (e1 e2 : Z) : res Z :=
    a <- vgetn idx 0 ;;
    if (a =? e1)%Z then
      b <- vgetn idx 1 ;; if (b =? e2)%Z then vgetn idx 2 else Ok b
    else
      b <- vgetn idx 1 ;;
      if (b =? e1)%Z then
        if (a =? e2)%Z then vgetn idx 2 else Ok a
      else
        if (a =? e2)%Z then Ok b else Ok a.

  (** edgeMap[Key(a,b)] (Triangle.cpp:45, delynoi/src/voronoi/DelaunayToVoronoi.cpp:41,
      delynoi/src/voronoi/TriangleDelaunayGenerator.cpp:107-109): an absent key yields 0.
      Simplification: the entry (key,0) that operator[] then adds is not
      recorded; later lookups of the key give 0 either way. *)
  Definition edgeMap_get (em : umap key Z) (a b : Z) : Z :=
    match um_find key_eqb (a, b) em with Some i => i | None => 0%Z end.

  (** Triangle.cpp:42-46 *)
  Definition nextEdge (idx : list Z) (center : Z) (e : edge) (em : umap key Z) : res Z :=
    t <- thirdPoint idx (e_p1 e) (e_p2 e) ;; Ok (edgeMap_get em center t).

  (** * delynoi/src/triangulation/CenterTriangulationGenerator.cpp:3-24.
      State after the call (the point vector) and outcome. *)
  Definition center_triangulate (tol : nT N) (idx : list Z) (p : list Point)
    : list Point * res (list triangle) :=
    match isConvex idx p with
    | Err e => (p, Err e)
    | Ok false => (p, Err (Throw "Can not use a center triangulation scheme on a non convex polygon"))
    | Ok true =>
        match getAverage idx p with
        | Err e => (p, Err e)
        | Ok c =>
            let p' := p ++ [c] in
            let ci := (zlen p' - 1)%Z in
            let n := length idx in
            (p', mapM (fun i =>
               a <- vgetn idx i ;; b <- vgetn idx ((i + 1) mod n) ;;
               triangle_ctor tol [a; b; ci] p') (seq 0 n))
        end
    end.

  (** * delynoi/src/triangulation/EarTriangulationGenerator.cpp *)

  (** EarTriangulationGenerator.cpp:22-26: the loop over j is not cut short. *)
  Definition ear_blocked (tol : nT N) (p : list Point) (l tri : list Z) : res bool :=
    foldM (fun test k =>
      if negb (isVertex tri k) then
        q <- vget p k ;; b <- containsPoint tol tri p q ;; Ok (if b : bool then true else test)
      else Ok test) l false.

  (** EarTriangulationGenerator.cpp:17-34 from position [i] on, [k] positions left. *)
  Fixpoint ear_search (tol : nT N) (p : list Point) (l : list Z) (i k : nat)
    : res (option (triangle * list Z)) :=
    match k with
    | O => Ok None
    | S k' =>
        let size := length l in
        a <- vgetn l ((size + i - 1) mod size) ;;
        b <- vgetn l (i mod size) ;;
        c <- vgetn l ((size + i + 1) mod size) ;;
        t <- triangle_ctor tol [a; b; c] p ;;
        cv <- isConvex [a; b; c] p ;;
        if cv : bool then
          blocked <- ear_blocked tol p l [a; b; c] ;;
          if blocked : bool then ear_search tol p l (i + 1) k'
          else Ok (Some (t, remove_nth i l))
        else ear_search tol p l (i + 1) k'
    end.

  (** EarTriangulationGenerator.cpp:3-38; [None] is the null triangle. *)
  Definition getEar (tol : nT N) (p : list Point) (l : list Z) : res (option (triangle * list Z)) :=
    match l with
    | [] | [_] | [_; _] => Ok None
    | [a; b; c] => t <- triangle_ctor tol [a; b; c] p ;; Ok (Some (t, []))
    | _ => ear_search tol p l 0 (length l)
    end.

  (** EarTriangulationGenerator.cpp:44-50; also returns the vertices left over.
      Every iteration removes a vertex, so length-of-list iterations suffice. *)
  Fixpoint ear_loop (fuel : nat) (tol : nT N) (p : list Point) (l : list Z) : res (list triangle * list Z) :=
    if Nat.ltb (length l) 3 then Ok ([], l)
    else match fuel with
    | O => Err Fuel
    | S fuel' =>
        e <- getEar tol p l ;;
        match e with
        | None => Ok ([], l)
        | Some (t, l') =>
            '(ts, rest) <- ear_loop fuel' tol p l' ;; Ok (t :: ts, rest)
        end
    end.

  (** EarTriangulationGenerator.cpp:40-53 *)
  Definition ear_triangulate (tol : nT N) (idx : list Z) (p : list Point) : res (list triangle) :=
    '(ts, _) <- ear_loop (length idx) tol p idx ;; Ok ts.
End Triangle.
Arguments triangle : clear implicits.
