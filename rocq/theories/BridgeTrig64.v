(** The sine and cosine of the C library on doubles. *)
From Coq Require Import Reals ZArith SpecFloat List.
From Flocq Require Import Core.
From Verif Require Import Base Spec MGeom Bridge BridgeNum.
Local Open Scope R_scope.

(** finite on finite arguments, within [-1,1], and at most [2^-52] off *)
Definition accurate (f64' : f64 -> f64) (f : R -> R) : Prop :=
  forall x, fin x -> fin (f64' x) /\ Rabs (val (f64' x)) <= 1 /\ Rabs (val (f64' x) - f (val x)) <= bpow radix2 (-52).
(** how far a computed point may be from the exact one, for a center [c], a radius [r] and a factor [k] *)
Definition slack (c : pt) (r k : R) : R := (Rmax (Rabs (fst c)) (Rabs (snd c)) + k * Rabs r) * bpow radix2 (-53) + bpow radix2 (-1073).
(** at most [2^900] *)
Definition moderate (x : f64) : Prop := fin x /\ Rabs (val x) <= bpow radix2 900.
