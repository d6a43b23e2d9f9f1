(** Model of the point generators: FunctorClasses.cpp, noise, PointGenerator.cpp. *)
From Verif Require Import Base MUtil MGeom.

Section Gen.
  Context {N : Num}.
  Local Open Scope num_scope.
  Notation Point := (Point N).

  (** The functor objects of delynoi/src/models/generator/functions/FunctorClasses.cpp with their state.
      Sine and Cosine (21-53) are the stateless [FPure]; the random functors
      (RandomDouble.cpp, RandomInteger.cpp) draw from an arbitrary stream [o], and the
      noise wrappers (noise/RandomDoubleNoise.cpp:15-17, RandomIntegerNoise.cpp:13-15)
      add an arbitrary stream to another functor. *)
  Inductive functor :=
  | FPure (f : nT N -> nT N)                                (* 7-11, 21-53 *)
  | FUniform (delta : nT N)                                 (* 13-19 *)
  | FDisplace (delta : nT N) (alternating : bool)           (* 55-73 *)
  | FAlternating (visited : ulist (nT N)) (delta : option (nT N)) (alternating : bool) (* 75-101 *)
  | FRandom (o : nat -> nT N) (k : nat)
  | FNoise (f : functor) (o : nat -> nT N) (k : nat).

  (** FunctorClasses.cpp:82-99 (ConstantAlternating::apply). *)
  Definition alternating_apply (v : ulist (nT N)) (d : option (nT N)) (alt : bool) (x : nT N)
    : res (functor * nT N) :=
    d1 <- (if (ul_size v =? 1)%Z then v0 <- ul_get v 0 ;; Ok (Some (nabs (v0 - x))) else Ok d) ;;
    let '(v1, index) := ul_push_back nltb v x in
    let '(v2, alt1) :=
      if (index <? ul_size v1 - 1)%Z then (ul_clear v1, negb alt) else (v1, alt) in
    if alt1 : bool then
      match d1 with
      | Some dd => Ok (FAlternating v2 d1 alt1, x + dd / nZ 2)
      | None => Err (UB "uninitialised read")
      end
    else Ok (FAlternating v2 d1 alt1, x).

  (** Functor::apply: new state and result.
      FunctorClasses.cpp:7-101. *)
  Fixpoint apply (f : functor) (x : nT N) : res (functor * nT N) :=
    match f with
    | FPure g => Ok (f, g x)
    | FUniform d => Ok (f, x * d)                             (* FunctorClasses.cpp:18 *)
    | FDisplace d alt =>                                      (* FunctorClasses.cpp:64-72 *)
        let alt' := negb alt in
        Ok (FDisplace d alt', if alt' then x + d / nZ 2 else x)
    | FAlternating v d alt => alternating_apply v d alt x
    | FRandom o k => Ok (FRandom o (S k), o k)
    | FNoise g o k => '(g', y) <- apply g x ;; Ok (FNoise g' o (S k), y + o k)
    end.

  (** delynoi/src/models/generator/functions/functions.cpp:7-21 *)
  Definition f_constant : functor := FUniform (nZ 1).
  (** functions.cpp:11-13. *)
  Definition f_displace_points (d : nT N) : functor := FDisplace d false.
  (** functions.cpp:15-17. *)
  Definition f_constantAlternating : functor := FAlternating ul_empty None false.
  (** functions.cpp:19-21. *)
  Definition f_uniform (d : nT N) : functor := FUniform d.

  (** Repeated application.
      As made by PointGenerator.cpp:31-38. *)
  Fixpoint apply_all (f : functor) (xs : list (nT N)) : res (functor * list (nT N)) :=
    match xs with
    | [] => Ok (f, [])
    | x :: xs' =>
        '(f1, y) <- apply f x ;; '(f2, ys) <- apply_all f1 xs' ;; Ok (f2, y :: ys)
    end.

  (** delynoi/src/models/generator/PointGenerator.cpp:5-25.  The functors are shared
      pointers: generate returns their new state.  [GBoth] assumes two
      different functor objects (the order in which the two are applied is unspecified in C++). *)
  Inductive generator :=
  | GX (lY : functor)
  | GY (lX : functor)
  | GBoth (lX lY : functor).

  (** PointGenerator.cpp:41-51 *)
  Definition result (g : generator) (x y : nT N) : res (generator * Point) :=
    match g with
    | GX f => '(f', v) <- apply f x ;; Ok (GX f', mkP x (y + v))
    | GY f => '(f', v) <- apply f y ;; Ok (GY f', mkP (x + v) y)
    | GBoth fx fy =>
        '(fx', vx) <- apply fx x ;; '(fy', vy) <- apply fy y ;; Ok (GBoth fx' fy', mkP vx vy)
    end.

  (** PointGenerator.cpp:27-39: the index pairs in the order visited. *)
  Definition grid_indices (nX nY : Z) : list (Z * Z) :=
    flat_map (fun i => map (fun j => (Z.of_nat i, Z.of_nat j)) (seq 0 (Z.to_nat nX))) (seq 0 (Z.to_nat nY)).

  (** PointGenerator.cpp:27-39.  The spacings are computed once before the loop in
      C++; the model computes them where they are used so that a zero divisor
      (inf, then 0*inf = NaN) only matters if a point is generated.  nX - 1 and nY - 1
      are taken without overflow (as ints they overflow for INT_MIN, where no point is generated). *)
  Definition generate (g : generator) (pts : list Point) (box : bbox N) (nX nY : Z)
    : res (generator * list Point) :=
    foldM (fun (st : generator * list Point) (ij : Z * Z) =>
      dX <- divr (bb_width box) (nZ (nX - 1)) ;;
      dY <- divr (bb_height box) (nZ (nY - 1)) ;;
      let x := bb_xMin box + nZ (snd ij) * dX in
      let y := bb_yMin box + nZ (fst ij) * dY in
      '(g', q) <- result (fst st) x y ;; Ok (g', snd st ++ [q]))
      (grid_indices nX nY) (g, pts).
End Gen.
Arguments functor : clear implicits.
Arguments generator : clear implicits.
