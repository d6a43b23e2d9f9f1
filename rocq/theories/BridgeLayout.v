(** Two layouts of one mesh file. *)
From Coq Require Import ZArith List Ascii.
From Verif Require Import Base Spec MGeom BridgeSeed.
Import ListNotations.

(** both files announce [n] points and [k] polygons, have the same first two words on the lines of points, and the same words after
    the first one on the lines of polygons *)
Definition same_mesh_data (ls ls' : list (list ascii)) (n k : nat) : Prop :=
  announces (line_at ls 0) (Z.of_nat n) /\ announces (line_at ls' 0) (Z.of_nat n) /\
  announces (line_at ls (n + 1)) (Z.of_nat k) /\ announces (line_at ls' (n + 1)) (Z.of_nat k) /\
  (forall i, (1 <= i <= n)%nat -> exists x y more more', fields_of blank (line_at ls i) (x :: y :: more) /\ fields_of blank (line_at ls' i) (x :: y :: more')) /\
  (forall i, (n + 2 <= i <= n + 1 + k)%nat -> exists w w' ws, fields_of blank (line_at ls i) (w :: ws) /\ fields_of blank (line_at ls' i) (w' :: ws)).
(** the lines are a mesh file with the points [qs] and the polygons [kss], whose indices start at [start]; the first word on the line
    of a polygon may be anything *)
Definition mesh_file {N : Num} (atof : list ascii -> nT N) (ls : list (list ascii)) (qs : list (Point N)) (kss : list (list Z)) (start : Z) : Prop :=
  announces (line_at ls 0) (Z.of_nat (length qs)) /\ announces (line_at ls (length qs + 1)) (Z.of_nat (length kss)) /\
  (forall i q, nth_error qs i = Some q -> gives atof (line_at ls (S i)) q) /\
  (forall i ks, nth_error kss i = Some ks -> exists w ws, fields_of blank (line_at ls (length qs + 2 + i)) (w :: ws) /\
     Forall2 (fun k v => announces v (k + start) /\ (k + start <= 2147483647)%Z) ks ws).
