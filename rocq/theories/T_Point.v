(** The life of a Point object: property C118. *)
From Coq Require Import Reals Lra List Bool ZArith.
From Verif Require Import Base Spec MGeom MPoint Bridge PPointLife.
Import ListNotations.

(** C118: after any sequence of calls the coordinates are the last ones set, the mark is there exactly if it was set, and isValid answers whether the point was built without coordinates. *)
Theorem C118_life_of_a_point : forall (N : Num) (c : point_ctor N) (os : list (point_op N)), let p := point_run c os in
  (forall os1 x os2, os = os1 ++ PSetX x :: os2 -> (forall x', ~ In (PSetX x') os2) -> px p = x) /\ ((forall x', ~ In (PSetX x') os) -> px p = px (point_new c)) /\
  (forall os1 y os2, os = os1 ++ PSetY y :: os2 -> (forall y', ~ In (PSetY y') os2) -> py p = y) /\ ((forall y', ~ In (PSetY y') os) -> py p = py (point_new c)) /\
  (isInBoundary p = true <-> In PSetBoundary os) /\ (isValid p = true <-> c = PointDefault).
Proof. exact (@life). Qed.
Print Assumptions C118_life_of_a_point.

(** A difference of points is a new point without marks, whatever happened to the two points. *)
Theorem C118_difference : forall (N : Num) (c c' : point_ctor N) (os os' : list (point_op N)), let d := pt_sub (point_run c os) (point_run c' os') in
  px d = nsub (px (point_run c os)) (px (point_run c' os')) /\ py d = nsub (py (point_run c os)) (py (point_run c' os')) /\ isInBoundary d = false /\ isValid d = false.
Proof. exact (@difference). Qed.
Print Assumptions C118_difference.

(** The comparisons do not look at the marks. *)
Theorem C118_marks_ignored : forall (N : Num) (tol : nT N) (p q p' q' : Point N), px p = px p' -> py p = py p' -> px q = px q' -> py q = py q' ->
  pt_eqb tol p q = pt_eqb tol p' q' /\ pt_ltb tol p q = pt_ltb tol p' q'.
Proof. exact (@marks_ignored). Qed.
Print Assumptions C118_marks_ignored.

(** The square of the norm. *)
Theorem C118_square_norm : forall p : Point RNum,
  squareNorm (N := RNum) p = vdot (xy p) (xy p) /\ (0 <= squareNorm (N := RNum) p)%R /\ (squareNorm (N := RNum) p = 0%R <-> xy p = (0, 0)%R).
Proof. exact square_norm. Qed.
Print Assumptions C118_square_norm.

(** The documentation says that isValid tells whether the point is valid; a point built with coordinates answers false. *)
Theorem C118_isValid_refuted : exists (c : point_ctor RNum) (os : list (point_op RNum)), c <> PointDefault /\ isValid (point_run c os) = false.
Proof. exact invalid. Qed.
Print Assumptions C118_isValid_refuted.

(** A point with some calls. *)
Example C118_case : let p := point_run (N := F64) PointDefault [PSetX (nZ (n := F64) 3); PSetBoundary; PSetY (nZ (n := F64) 4); PSetX (nZ (n := F64) 5)] in
  px p = nZ (n := F64) 5 /\ py p = nZ (n := F64) 4 /\ isInBoundary p = true /\ isValid p = true /\ isInBoundary (pt_sub p p) = false.
Proof. repeat split. Qed.
