(** Model of the mutating calls on a Point object. *)
From Coq Require Import ZArith List Bool.
From Verif Require Import Base MGeom.
Import ListNotations.

Section PointObject.
  Context {N : Num}.

  (** delynoi/src/models/basic/Point.cpp:56-58 *)
  Definition setX (p : Point N) (x : nT N) : Point N := mkPoint x (py p) (pbd p) (pempty p).
  (** Point.cpp:60-62 *)
  Definition setY (p : Point N) (y : nT N) : Point N := mkPoint (px p) y (pbd p) (pempty p).
  (** Point.cpp:48-50 *)
  Definition isInBoundary (p : Point N) : bool := pbd p.

  (** The two constructors, Point.cpp:4-7 and Point.cpp:9-14. *)
  Inductive point_ctor := PointAt (x y : nT N) | PointDefault.
  (** Point.cpp:4-14 *)
  Definition point_new (c : point_ctor) : Point N := match c with PointAt x y => mkP x y | PointDefault => point0 end.
  (** The calls that change a point, Point.cpp:52-62. *)
  Inductive point_op := PSetX (x : nT N) | PSetY (y : nT N) | PSetBoundary.
  (** Point.cpp:52-62 *)
  Definition point_do (p : Point N) (o : point_op) : Point N :=
    match o with PSetX x => setX p x | PSetY y => setY p y | PSetBoundary => setBoundary p end.
  (** A point object after a sequence of calls on it, Point.cpp:4-14 and 52-62. *)
  Definition point_run (c : point_ctor) (os : list point_op) : Point N := fold_left point_do os (point_new c).
End PointObject.
Arguments point_ctor : clear implicits.
Arguments point_op : clear implicits.
