(** Model of delynoi/src/utilities/convexHull.cpp. *)
From Verif Require Import Base MUtil MGeom.

Section Hull.
  Context {N : Num}.
  Local Open Scope num_scope.
  Notation Point := (Point N).

  (** convexHull.cpp:7-15 *)
  Definition hull_ltb (a b : Point) : bool :=
    if px a =? px b then py a <? py b else px a <? px b.

  (** convexHull.cpp:18: std::sort, modelled by insertion sort.  The comparator
      only ties points with equal coordinates, so the sorted coordinate
      sequence is the same for every sorting algorithm. *)
  Fixpoint hull_ins (a : Point) (l : list Point) : list Point :=
    match l with
    | [] => [a]
    | b :: l' => if hull_ltb a b then a :: l else b :: hull_ins a l'
    end.
  (** convexHull.cpp:18. *)
  Definition hull_sort (l : list Point) : list Point := fold_left (fun acc a => hull_ins a acc) l [].

  (** convexHull.cpp:21-23; the vector is kept as a stack, last element first. *)
  Fixpoint pop_upper (p : Point) (st : list Point) : list Point :=
    match st with
    | b :: ((a :: _) as r) => if orientation a b p >=? nZ 0 then pop_upper p r else st
    | _ => st
    end.
  (** convexHull.cpp:25-27 *)
  Fixpoint pop_lower (p : Point) (st : list Point) : list Point :=
    match st with
    | b :: ((a :: _) as r) => if orientation a b p <=? nZ 0 then pop_lower p r else st
    | _ => st
    end.

  (** convexHull.cpp:17-32 on empty [upper] and [lower]: (upper, lower), first element first. *)
  Definition chain (pop : Point -> list Point -> list Point) (pts : list Point) : list Point :=
    rev (fold_left (fun st p => p :: pop p st) pts []).
  (** convexHull.cpp:17-32. *)
  Definition convexHull (pts : list Point) : list Point * list Point :=
    let s := hull_sort pts in (chain pop_upper s, chain pop_lower s).

  (** convexHull.cpp:42-55. [u.size()-1] on an empty vector wraps to 2^64-1 and the
      first iteration reads u[0]: undefined. *)
  Fixpoint calipers (fuel : nat) (u l : list Point) (i j : nat) : res (list (Point * Point)) :=
    match fuel with
    | O => Err Fuel
    | S fuel' =>
        if (Nat.ltb i (length u - 1) || Nat.ltb 0 j)%bool then
          a <- vgetn u i ;; b <- vgetn l j ;;
          '(i', j') <-
            (if Nat.eqb i (length u - 1) then Ok (i, j - 1)%nat
             else if Nat.eqb j 0 then Ok (i + 1, j)%nat
             else
               a1 <- vgetn u (i + 1) ;; b1 <- vgetn l (j - 1) ;;
               if (py a1 - py a) * (px b - px b1) >? (py b - py b1) * (px a1 - px a)
               then Ok (i + 1, j)%nat else Ok (i, j - 1)%nat) ;;
          rest <- calipers fuel' u l i' j' ;; Ok ((a, b) :: rest)
        else Ok []
    end.

  (** convexHull.cpp:34-58; the loop runs at most u.size()+l.size() times. *)
  Definition rotatingCalipers (pts : list Point) : res (list (Point * Point)) :=
    let '(u, l) := convexHull pts in
    match u with
    | [] => Err (UB "vector index out of range")
    | _ => calipers (length u + length l) u l 0 (length l - 1)
    end.
End Hull.
