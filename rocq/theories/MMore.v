(** Model of the remaining small functions: Pair, sign, the segment overloads of contains and collinear,
    the sine and cosine functors, the random noise, DelaunayTriangulationGenerator. *)
From Coq Require Import Reals.
From Verif Require Import Base Spec MUtil MGeom MTrig MHull MPolygon MMaps MTriangle MGen MRegion MDelaunay.

Section MoreGeneric.
  Context {N : Num}.
  Local Open Scope num_scope.
  Notation Point := (Point N).

  (** lib/utilities/include/utilities/utilities.h:29-32 on a double; a comparison with NaN is false. *)
  Definition sign_num (x : nT N) : Z :=
    Z.sub (if x >? nZ 0 then 1%Z else 0%Z) (if x <? nZ 0 then 1%Z else 0%Z).

  (** Pair<double> (lib/utilities/include/utilities/Pair.h:6-19) is the pair of its fields.
      Pair.h:37-40. *)
  Definition pair_dot (a b : nT N * nT N) : nT N := fst a * fst b + snd a * snd b.
  (** Pair.h:42-45 *)
  Definition pair_mul (a : nT N * nT N) (k : nT N) : nT N * nT N := (fst a * k, snd a * k).
  (** Pair.h:47-50 *)
  Definition pair_add (a b : nT N * nT N) : nT N * nT N := (fst a + fst b, snd a + snd b).
  (** Pair.h:32-35 *)
  Definition pairn_eqb (a b : nT N * nT N) : bool := (fst a =? fst b) && (snd a =? snd b).
  (** Pair.h:52-59 *)
  Definition pairn_ltb (a b : nT N * nT N) : bool :=
    if fst a =? fst b then snd a <? snd b else fst a <? fst b.

  (** delynoi/src/models/basic/IndexSegment.cpp:20-22: the operand of && is evaluated only when needed, and
      the two ends of this segment are read by each call of contains. *)
  Definition iseg_contains_seg (tol : nT N) (p : list Point) (s o : iseg) : res bool :=
    a <- vget p (fst o) ;; x <- iseg_contains tol p s a ;;
    if x : bool then b <- vget p (snd o) ;; iseg_contains tol p s b else Ok false.
  (** delynoi/src/utilities/geometryFunctions.cpp:20-23 *)
  Definition collinear_segs (tol : nT N) (s1 s2 : pseg N) : bool :=
    collinear tol (fst s1) (snd s1) (fst s2) && collinear tol (fst s1) (snd s1) (snd s2).

  (** * Noise.
      One draw [n] of uni and one draw [k] of the integer distribution.  The remainder of a C++ int is the
      truncated one; any non-zero value is true.
      delynoi/src/models/generator/noise/RandomDoubleNoise.cpp:15-17 (the draw n is a double) and
      RandomIntegerNoise.cpp:13-15 (an int, converted by the addition). *)
  Definition noise_term (n : nT N) (k : Z) : nT N := n * nZ (if (Z.rem k 2 =? 0)%Z then -1 else 1).
  (** RandomDoubleNoise.cpp:15-17: the functor applied, then the noise added; the stream of the [FNoise] of MGen is the
      sequence of the noise terms. *)
  Definition noise_functor (f : functor N) (ns : nat -> nT N) (ks : nat -> Z) : functor N :=
    FNoise f (fun i => noise_term (ns i) (ks i)) 0.

  (** * DelaunayTriangulationGenerator (delynoi/src/triangulation/DelaunayTriangulationGenerator.cpp:3-10).
      [g0] is the value of the polygon fields the constructor of Region leaves unset. *)
  Definition delaunayTriangulate (triangulate : switches -> pslg N -> trout N) (tol : nT N) (g0 : polygon N) (idx : list Z)
      (points : list Point) : res (list (triangle N)) :=
    r <- region_of_polygon tol g0 idx points ;;
    o <- snd (gen_do triangulate tol (gen_ctor points r) CallConstrained) ;;
    match o with
    | OutMesh h => m <- use h ;; Ok (ms_polygons m)
    | OutInfo _ => Err (UB "not reached")
    end.
End MoreGeneric.

Section MoreReal.
  Local Open Scope R_scope.
  (** delynoi/src/models/generator/functions/FunctorClasses.cpp:33-35, exact reals. *)
  Definition sine_apply (a f p x : R) : R := a * sin (radian (f * x * 180) + radian p).
  (** FunctorClasses.cpp:50-52 *)
  Definition cosine_apply (a f p x : R) : R := a * cos (radian (f * x * 180) + radian p).
End MoreReal.
