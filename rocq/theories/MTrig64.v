(** Model of the trigonometric code on doubles: the constant M_PI and the functions sin and cos of the C library are parameters. *)
From Coq Require Import SpecFloat.
From Verif Require Import Base MUtil MGeom MHull MPolygon MMaps MTriangle MGen MRegion.

(** M_PI of <math.h>, 3.14159265358979323846 as a double; lib/utilities/src/utilities.cpp:51. *)
Definition M_PI64 : f64 := S754_finite false 7074237752028440 (-51).

Section Trig.
  Context {N : Num}.
  Local Open Scope num_scope.
  Notation Point := (Point N).
  Variables (pi : nT N) (cosN sinN : nT N -> nT N).

  (** lib/utilities/src/utilities.cpp:50-52 *)
  Definition radianN (a : nT N) : nT N := a * pi / nZ 180.
  (** delynoi/src/utilities/delynoi_utilities.cpp:41-44, delynoi/src/models/polygon/Circle.cpp:18-21 *)
  Definition circle_pointN (c : Point) (r angle : nT N) : Point :=
    mkP (px c + r * cosN (radianN angle)) (py c + r * sinN (radianN angle)).
  (** delynoi_utilities.cpp:32-49; a grade of 0 divides by zero, negative grades give no point. *)
  Definition generateArcPointsN (cf : config N) (c : Point) (r a0 a1 : nT N) : res (list Point) :=
    let steps := cf_grade cf in
    if (steps <? 0)%Z then Ok [] else
    delta <- divr (a1 - a0) (nZ steps) ;;
    Ok (map (fun i => circle_pointN c r (a0 + delta * nZ (Z.of_nat i))) (seq 0 (S (Z.to_nat steps)))).
  (** Circle.cpp:16-24: the loop from a given angle. *)
  Fixpoint circle_loop (fuel : nat) (c : Point) (r delta angle : nT N) : res (list Point) :=
    match fuel with
    | O => Err Fuel
    | S fuel' =>
        if angle <? nZ 360 then rest <- circle_loop fuel' c r delta (angle + delta) ;; Ok (circle_pointN c r angle :: rest)
        else Ok []
    end.
  (** Circle.cpp:10-27; [360 / grade] is the int division (truncating), undefined for 0. *)
  Definition discretizeCircleN (fuel : nat) (cf : config N) (c : Point) (r : nT N) : res (list Point) :=
    if (cf_grade cf =? 0)%Z then Err (UB "integer division by zero")
    else circle_loop fuel c r (nZ (Z.quot 360 (cf_grade cf))) (nZ 0).
  (** delynoi/src/models/hole/CircularHole.cpp:3-15 *)
  Definition circularHole_at (fuel : nat) (cf : config N) (p : Point) (r : nT N) : res (hole N) :=
    pts <- discretizeCircleN fuel cf p r ;; circularHole (cf_tol cf) pts p.
  (** delynoi/src/models/generator/functions/FunctorClasses.cpp:33-35 *)
  Definition sineN (a f p x : nT N) : nT N := a * sinN (radianN (f * x * nZ 180) + radianN p).
  (** FunctorClasses.cpp:50-52 *)
  Definition cosineN (a f p x : nT N) : nT N := a * cosN (radianN (f * x * nZ 180) + radianN p).
End Trig.
