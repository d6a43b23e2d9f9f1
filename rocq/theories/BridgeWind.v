(** The winding number, used in the statements of the theorems. *)
From Coq Require Import Reals ZArith List Bool.
From Verif Require Import Spec.
Import ListNotations.

(** how an edge passes to the left of a point, at the height of the point: downwards (+1), upwards (-1) or not at all *)
Definition passes (q a b : pt) : Z :=
  if rises q a b && ltR (orient a b q) 0 then (-1)%Z else if falls q a b && ltR 0 (orient a b q) then 1%Z else 0%Z.
(** how many times a closed chain goes around a point counterclockwise *)
Definition winding (q : pt) (vs : list pt) : Z := fold_right Z.add 0%Z (map (fun e => passes q (fst e) (snd e)) (edges_of vs)).
