(** Model of the construction of the random functors. *)
From Verif Require Import Base MUtil MGeom MGen.

Section Random.
  Context {N : Num}.
  Local Open Scope num_scope.

  (** delynoi/src/models/generator/functions/RandomInteger.cpp:6-10: the bounds are converted to int by the constructor of
      std::uniform_int_distribution<int>, whose precondition is that they are in order.
      Also delynoi/src/models/generator/noise/RandomIntegerNoise.cpp:6-11. *)
  Definition random_integer_bounds (min max : nT N) : res (Z * Z) :=
    lo <- to_int min ;; hi <- to_int max ;;
    if (lo <=? hi)%Z then Ok (lo, hi) else Err (UB "bounds of uniform_int_distribution").
  (** RandomInteger.cpp:12-14: what the distribution draws, converted to double; the draws are arbitrary ints. *)
  Definition random_integer (draws : nat -> Z) : functor N := FRandom (fun i => nZ (draws i)) 0.
  (** delynoi/src/models/generator/functions/RandomDouble.cpp:6-14 (the precondition of std::uniform_real_distribution is that the
      bounds are in order; simplified: that their difference is finite is not checked). *)
  Definition random_double_bounds (min max : nT N) : res (nT N * nT N) :=
    if min <=? max then Ok (min, max) else Err (UB "bounds of uniform_real_distribution").
  (** RandomDouble.cpp:12-14 *)
  Definition random_double (draws : nat -> nT N) : functor N := FRandom draws 0.
End Random.
