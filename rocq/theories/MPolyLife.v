(** Model of one Polygon object over its whole life, delynoi/src/models/polygon/Polygon.cpp,
    with members that can be uninitialised. *)
From Coq Require Import ZArith List Bool.
From Verif Require Import Base MUtil MGeom MHull MPolygon.
Import ListNotations.

Section Life.
  Context {N : Num}.
  Local Open Scope num_scope.
  Notation Point := (Point N).

  (** delynoi/include/delynoi/models/polygon/Polygon.h:25-32,197: as [polygon] of MPolygon.v, but
      [None] is a double that was never written. *)
  Record pobj := mkObj {
    o_idx : list Z;
    o_diam : option (nT N);
    o_area : option (nT N);
    o_cen : Point;
    o_hash : Z
  }.

  (** Reading a double of the object, for instance Polygon.cpp:83; undefined when it was never written. *)
  Definition rd (x : option (nT N)) : res (nT N) :=
    match x with Some v => Ok v | None => Err (UB "uninitialised double") end.

  (** The three ways to make a polygon other than by copying: Polygon.cpp:8-19, 35-51 and 53. *)
  Inductive birth := FromIndices (idx : list Z) (p : list Point) | FromPoints (p : list Point) | FromNothing.

  (** A polygon of MPolygon.v, all of whose members are written.
      For instance Polygon.cpp:15-18. *)
  Definition obj_of (g : polygon N) : pobj := mkObj (pg_points g) (Some (pg_diam g)) (Some (pg_area g)) (pg_cen g) (pg_hash g).

  (** Polygon.cpp:8-19, 35-51, 53; Polygon.h:197 sets the hash of a default-constructed polygon. *)
  Definition born (tol : nT N) (b : birth) : res pobj :=
    match b with
    | FromIndices idx p => g <- polygon_ctor_idx tol idx p ;; Ok (obj_of g)
    | FromPoints p => g <- polygon_ctor_pts tol p ;; Ok (obj_of g)
    | FromNothing => Ok (mkObj [] None None point0 0)
    end.

  (** Calls of a program on the object.  [Rewrite l] stands for any use of the reference given
      by getPoints() (Polygon.cpp:215-217, Polygon.h:106) that leaves the list [l]; [Copied] goes on with
      a copy of the object (Polygon.cpp:55-62). *)
  Inductive pcall :=
  | AskArea (p : list Point) | AskDiam (p : list Point) | AskCen (p : list Point)
  | Fix (p : list Point) | Mutate (p : list Point) | Rewrite (l : list Z) | Copied.

  (** What the program sees of a call.  [Fixed b] says whether the list was reversed;
      [Refused] is the exception of Polygon.cpp:26, caught by the program. *)
  Inductive pseen := Area (a : nT N) | Diam (d : nT N) | Cen (c : Point) | Fixed (reversed : bool) | Mutated | Refused | Rewritten | Copy.

  (** One call: Polygon.cpp:82-88, 90-97, 99-105, 270-275, 21-33, 55-62. *)
  Definition pcall_do (tol : nT N) (o : pobj) (c : pcall) : res (pobj * pseen) :=
    match c with
    | AskArea p =>
        v <- rd (o_area o) ;;
        if v =? nZ (-1) then
          a <- calculateArea p (o_idx o) ;;
          Ok (mkObj (o_idx o) (o_diam o) (Some a) (o_cen o) (o_hash o), Area a)
        else Ok (o, Area v)
    | AskDiam p =>
        v <- rd (o_diam o) ;;
        if v <? nZ 0 then
          pts <- getPoints (o_idx o) p ;; d <- calculateDiameter pts ;;
          Ok (mkObj (o_idx o) (Some d) (o_area o) (o_cen o) (o_hash o), Diam d)
        else Ok (o, Diam v)
    | AskCen p =>
        if negb (isValid (o_cen o)) then
          c <- calculateCentroid p (o_idx o) ;;
          Ok (mkObj (o_idx o) (o_diam o) (o_area o) c (o_hash o), Cen c)
        else Ok (o, Cen (o_cen o))
    | Fix p =>
        b <- isClockwise (o_idx o) p ;;
        if b : bool then Ok (mkObj (rev (o_idx o)) (o_diam o) (Some (nZ (-1))) (o_cen o) (o_hash o), Fixed true)
        else Ok (o, Fixed false)
    | Mutate p =>
        let idx := trivialIndex (length p) in
        b <- isSelfIntersecting tol idx p ;;
        if b : bool then Ok (mkObj idx (o_diam o) (o_area o) (o_cen o) (o_hash o), Refused)
        else Ok (mkObj idx (Some (nZ (-1))) (Some (nZ (-1))) point0 (calculateHash idx), Mutated)
    | Rewrite l => Ok (mkObj l (o_diam o) (o_area o) (o_cen o) (o_hash o), Rewritten)
    | Copied =>
        a <- rd (o_area o) ;; d <- rd (o_diam o) ;;
        Ok (mkObj (o_idx o) (Some d) (Some a) (o_cen o) (calculateHash (o_idx o)), Copy)
    end.

  (** A sequence of calls (Polygon.cpp), with what is seen of each. *)
  Definition pcalls (tol : nT N) (cs : list pcall) (o : pobj) : res (pobj * list pseen) :=
    foldM (fun st c => '(o', s) <- pcall_do tol (fst st) c ;; Ok (o', snd st ++ [s])) cs (o, []).

  (** A life: construction and calls (Polygon.cpp). *)
  Definition life (tol : nT N) (b : birth) (cs : list pcall) : res (pobj * list pseen) :=
    o <- born tol b ;; pcalls tol cs o.

  (** Polygon.cpp:242-244 *)
  Definition pobj_eqb (a b : pobj) : bool := (o_hash a =? o_hash b)%Z.
End Life.
Arguments pobj : clear implicits.
Arguments birth : clear implicits.
Arguments pcall : clear implicits.
Arguments pseen : clear implicits.
