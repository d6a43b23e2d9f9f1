(** Specifications about numbers and their decimal texts.  Nothing here refers to the model files. *)
From Coq Require Import ZArith QArith Qabs.
Local Open Scope Q_scope.

(** The rational [m * b^e]. *)
Definition scaled (b m e : Z) : Q := inject_Z m * inject_Z b ^ e.

(** [d] is a positive [v] rounded to [p] significant decimal digits: a whole number of units of
    the last of [p] digits of [v], at most half a unit away from [v]. *)
Definition rounded_to (p : Z) (v d : Q) : Prop :=
  exists x n : Z, scaled 10 1 (x + p - 1) <= v < scaled 10 1 (x + p) /\
                  d == scaled 10 n x /\ Qabs (v - d) <= (1#2) * scaled 10 1 x.

(** [d] is [v] rounded to [p] digits after the decimal point. *)
Definition rounded_decimals (p : Z) (v d : Q) : Prop :=
  (exists n : Z, d == scaled 10 n (- p)) /\ Qabs (v - d) <= (1#2) * scaled 10 1 (- p).
