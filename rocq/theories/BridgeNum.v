(** Readings of doubles used in the statements of the theorems. *)
From Coq Require Import Reals ZArith SpecFloat.
From Flocq Require Import Core BinarySingleNaN.
From Coq Require Import List.
From Verif Require Import Base Spec MGeom MFormat Bridge.
Local Open Scope Z_scope.

(** A valid finite double, and the real number it denotes (Flocq). *)
Definition fin (x : f64) : Prop := SpecFloat.valid_binary 53 1024 x = true /\ is_finite_SF x = true.
Definition val (x : f64) : R := SF2R radix2 x.
Definition fin2 (p : f64 * f64) : Prop := fin (fst p) /\ fin (snd p).
(** The nearest double, ties to even (Flocq). *)
Definition nearest (r : R) : R := round radix2 (FLT_exp (-1074) 53) ZnearestE r.

(** A double that is the nearest one to a decimal number of at most six digits (or a zero). *)
Definition six_digit (x : f64) : Prop :=
  (exists s, x = S754_zero s) \/
  exists s M E, 0 < M < 1000000 /\ -300 <= E <= 300 /\ x = decimal64 s M E.
(** A point without its marks. *)
Definition unmarked (q : Point F64) : Point F64 := mkP (px q) (py q).

(** The double is an integer multiple [k * 2^e] with [|k| <= n]. *)
Definition grid (e n : Z) (x : f64) : Prop := fin x /\ exists k, Z.abs k <= n /\ val x = (IZR k * bpow radix2 e)%R.
(** Both coordinates are multiples of [2^e] by integers up to [2^20]. *)
Definition grid_point (e : Z) (q : Point F64) : Prop := grid e (2 ^ 20) (px q) /\ grid e (2 ^ 20) (py q).
(** The real coordinates a point of doubles denotes. *)
Definition xyv (q : Point F64) : R * R := (val (px q), val (py q)).

(** two edges of the outline that are not neighbours and not parallel have a
    common point, each edge being prolonged at both ends by [d] times its length *)
Definition crossing_within (d : R) (vs : list pt) : Prop :=
  exists i j a b c e, non_adjacent (length vs) i j /\
    nth_error vs i = Some a /\ nth_error vs ((i + 1) mod length vs) = Some b /\
    nth_error vs j = Some c /\ nth_error vs ((j + 1) mod length vs) = Some e /\
    ~ parallel a b c e /\
    exists t s, (- d <= t <= 1 + d)%R /\ (- d <= s <= 1 + d)%R /\ lerp a b t = lerp c e s.
(** both coordinates are within [d] of [z] *)
Definition close_point (d : R) (q : Point F64) (z : pt) : Prop :=
  fin (px q) /\ fin (py q) /\ (Rabs (val (px q) - fst z) <= d)%R /\ (Rabs (val (py q) - snd z) <= d)%R.
(** Both coordinates are multiples of [2^e] by integers up to [2^m]. *)
Definition gpm (e m : Z) (q : Point F64) : Prop := grid e (2 ^ m) (px q) /\ grid e (2 ^ m) (py q).
(** lexicographic order *)
Definition lex (a b : pt) : Prop := (fst a < fst b \/ fst a = fst b /\ snd a < snd b)%R.
(** a difference is either less than half the tolerance or at least the tolerance *)
Definition clear_of (t d : R) : Prop := (2 * Rabs d < t \/ t <= Rabs d)%R.
(** finite coordinates up to [2^1000], any two of which are clearly close or clearly apart *)
Definition clustered (tol : f64) (P : Point F64 -> Prop) : Prop :=
  (forall a, P a -> fin (px a) /\ fin (py a) /\ (Rabs (val (px a)) <= bpow radix2 1000)%R /\ (Rabs (val (py a)) <= bpow radix2 1000)%R) /\
  forall a b, P a -> P b -> clear_of (val tol) (val (px a) - val (px b)) /\ clear_of (val tol) (val (py a) - val (py b)).
(** a usable tolerance *)
Definition tolerance64 (tol : f64) : Prop := fin tol /\ (bpow radix2 (-1000) <= val tol)%R.
(** coincidence of two points of doubles *)
Definition near64 (tol : f64) (a b : Point F64) : Prop := coincide (val tol) (xyv a) (xyv b).
