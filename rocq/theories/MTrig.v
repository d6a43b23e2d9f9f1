(** Model of the trigonometric code, on the exact reals only. *)
From Verif Require Import Base MUtil MGeom.
From Coq Require Import Reals.
Local Open Scope R_scope.

(** lib/utilities/src/utilities.cpp:50-52; M_PI is the real number PI. *)
Definition radian (a : R) : R := a * PI / 180.
(** utilities.cpp:54-58 *)
Definition degrees (a : R) : R := (if Rltb 0 a then a else 2 * PI + a) * 180 / PI.

(** The C library function atan2 (result in (-PI, PI]), signed zeros not distinguished.
    Called at Segment.cpp:45. *)
Definition atan2 (y x : R) : R :=
  if Rltb 0 x then atan (y / x)
  else if Rltb x 0 then (if Rleb 0 y then atan (y / x) + PI else atan (y / x) - PI)
  else if Rltb 0 y then PI / 2
  else if Rltb y 0 then - PI / 2
  else 0.

(** delynoi/src/models/basic/Segment.cpp:40-46 *)
Definition cartesianAngle (p1 p2 : Point RNum) : R :=
  degrees (atan2 (py p2 - py p1) (px p2 - px p1)).

(** delynoi/include/delynoi/models/basic/Angle.h:19-26: the stored angle. *)
Definition angle_ctor (a : R) : res R :=
  k <- to_int (N := RNum) (a / 360) ;;
  let a' := a - 360 * IZR k in
  Ok (if Rleb 0 a' && Rltb a' 180 then a' else a' - 180).
(** Angle.h:33-41 *)
Definition angle_ltb (tol a b : R) : bool := if Rltb (Rabs (a - b)) tol then false else Rltb a b.

(** delynoi/src/utilities/delynoi_utilities.cpp:39-44 and
    delynoi/src/models/polygon/Circle.cpp:18-21: the point of the circle at an angle in degrees. *)
Definition circle_point (c : Point RNum) (r angle : R) : Point RNum :=
  mkP (N := RNum) (px c + r * cos (radian angle)) (py c + r * sin (radian angle)).

(** delynoi_utilities.cpp:32-49; a grade of 0 divides by zero, negative grades give no point. *)
Definition generateArcPoints (cf : config RNum) (c : Point RNum) (r a0 a1 : R) : res (list (Point RNum)) :=
  let steps := cf_grade cf in
  if (steps <? 0)%Z then Ok [] else
  delta <- divr (N := RNum) (a1 - a0) (IZR steps) ;;
  Ok (map (fun i => circle_point c r (a0 + delta * INR i)) (seq 0 (S (Z.to_nat steps)))).

(** Circle.cpp:16-24: the angles visited.  They are integers below 2^53 in
    absolute value, hence exact as doubles; kept as integers here. *)
Fixpoint circle_angles (fuel : nat) (delta angle : Z) : res (list Z) :=
  match fuel with
  | O => Err Fuel
  | S fuel' =>
      if (angle <? 360)%Z then rest <- circle_angles fuel' delta (angle + delta) ;; Ok (angle :: rest)
      else Ok []
  end.

(** Circle.cpp:10-27; [360 / grade] is the int division (truncating), undefined for 0. *)
Definition discretizeCircle (fuel : nat) (cf : config RNum) (c : Point RNum) (r : R) : res (list (Point RNum)) :=
  if (cf_grade cf =? 0)%Z then Err (UB "integer division by zero") else
  angles <- circle_angles fuel (Z.quot 360 (cf_grade cf)) 0 ;;
  Ok (map (fun a => circle_point c r (IZR a)) angles).
