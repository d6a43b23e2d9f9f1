(** Model of functors as objects behind pointers: several generators, wrappers and calls in one program. *)
From Verif Require Import Base MUtil MGeom MGen MFile.

Section Functors.
  Context {N : Num}.
  Local Open Scope num_scope.
  Notation Point := (Point N).

  (** What a Functor* points to: an object without pointers (delynoi/src/models/generator/functions/functions.cpp:7-39, a
      [functor] of MGen.v), or a noise object, which holds a pointer to another functor
      (delynoi/include/delynoi/models/generator/noise/RandomDoubleNoise.h:23, RandomIntegerNoise.h:22).
      [o] are the numbers this object will draw; objects of one class share their engine, so that a run of a program is
      described by some choice of these streams. *)
  Inductive fobj := Plain (f : functor N) | Noise (p : nat) (o : nat -> nT N) (k : nat).

  (** A virtual call of apply through pointer [i]: FunctorClasses.cpp:7-101, RandomDoubleNoise.cpp:15-17,
      RandomIntegerNoise.cpp:13-15.  A noise object is made after the functor it points to, so [S i] calls are enough.
      Simplification: the draw and the call of the inner functor are in a fixed order; they touch different objects. *)
  Fixpoint papply (fuel : nat) (h : list fobj) (i : nat) (x : nT N) : res (list fobj * nT N) :=
    match fuel with
    | O => Err Fuel
    | S fuel' =>
        c <- vgetn h i ;;
        match c with
        | Plain f => '(f', y) <- apply f x ;; Ok (put i (Plain f') h, y)
        | Noise p o k => '(h', y) <- papply fuel' h p x ;; Ok (put i (Noise p o (S k)) h', y + o k)
        end
    end.
  (** RandomDoubleNoise.cpp:15-17, FunctorClasses.cpp:7-101: one call. *)
  Definition fcall (h : list fobj) (i : nat) (x : nT N) : res (list fobj * nT N) := papply (S i) h i x.

  (** delynoi/src/models/generator/PointGenerator.cpp:5-25: a generator holds pointers. *)
  Inductive pgen := PX (lY : nat) | PY (lX : nat) | PBoth (lX lY : nat).

  (** PointGenerator.cpp:41-51.  In line 48 the two calls are arguments of one constructor call; their order is unspecified:
      [lr] tells whether this evaluation is from left to right. *)
  Definition presult (lr : bool) (h : list fobj) (g : pgen) (x y : nT N) : res (list fobj * Point) :=
    match g with
    | PX i => '(h', v) <- fcall h i x ;; Ok (h', mkP x (y + v))
    | PY i => '(h', v) <- fcall h i y ;; Ok (h', mkP (x + v) y)
    | PBoth i j =>
        if lr then '(h1, vx) <- fcall h i x ;; '(h2, vy) <- fcall h1 j y ;; Ok (h2, mkP vx vy)
        else '(h1, vy) <- fcall h j y ;; '(h2, vx) <- fcall h1 i x ;; Ok (h2, mkP vx vy)
    end.

  (** PointGenerator.cpp:27-39; [ord] gives the order of evaluation at each place of the grid (see MGen.v on the spacings). *)
  Definition pgenerate (ord : Z * Z -> bool) (h : list fobj) (g : pgen) (pts : list Point) (box : bbox N) (nX nY : Z)
    : res (list fobj * list Point) :=
    foldM (fun (st : list fobj * list Point) (ij : Z * Z) =>
      dX <- divr (bb_width box) (nZ (nX - 1)) ;;
      dY <- divr (bb_height box) (nZ (nY - 1)) ;;
      let x := bb_xMin box + nZ (snd ij) * dX in
      let y := bb_yMin box + nZ (fst ij) * dY in
      '(h', q) <- presult (ord ij) (fst st) g x y ;; Ok (h', snd st ++ [q]))
      (grid_indices nX nY) (h, pts).

  (** What a program does: functions.cpp:7-39 (a functor), delynoi/src/models/generator/noise/noise.cpp:6-12 (noise around an
      existing functor), PointGenerator.cpp:5-25 (a generator on existing functors), PointGenerator.cpp:27-39 (points). *)
  Inductive fact := MakeFunctor (f : functor N) | MakeNoise (p : nat) (o : nat -> nT N) | MakeGen (g : pgen)
  | Generate (k : nat) (ord : Z * Z -> bool) (box : bbox N) (nX nY : Z).
  (** functors, generators, and the points each Generate gave (PointGenerator.cpp:5-39). *)
  Record fworld := mkFW { fw_heap : list fobj; fw_gens : list pgen; fw_out : list (list Point) }.
  (** The pointers a generator holds (PointGenerator.cpp:5-25). *)
  Definition pgen_ptrs (g : pgen) : list nat := match g with PX i => [i] | PY i => [i] | PBoth i j => [i; j] end.
  (** PointGenerator.cpp:5-39, noise.cpp:6-12, functions.cpp:7-39.  A pointer to nothing is not a program. *)
  Definition fact_do (w : fworld) (a : fact) : res fworld :=
    match a with
    | MakeFunctor f => Ok (mkFW (fw_heap w ++ [Plain f]) (fw_gens w) (fw_out w))
    | MakeNoise p o => _ <- vgetn (fw_heap w) p ;; Ok (mkFW (fw_heap w ++ [Noise p o 0]) (fw_gens w) (fw_out w))
    | MakeGen g => _ <- mapM (vgetn (fw_heap w)) (pgen_ptrs g) ;; Ok (mkFW (fw_heap w) (fw_gens w ++ [g]) (fw_out w))
    | Generate k ord box nX nY =>
        g <- vgetn (fw_gens w) k ;; '(h, q) <- pgenerate ord (fw_heap w) g [] box nX nY ;; Ok (mkFW h (fw_gens w) (fw_out w ++ [q]))
    end.
  (** PointGenerator.cpp:5-39: a program that starts without objects. *)
  Definition fact_run (acts : list fact) : res fworld := foldM fact_do acts (mkFW [] [] []).
End Functors.
Arguments fobj : clear implicits.
Arguments fact : clear implicits.
Arguments fworld : clear implicits.
