(** Model of the configuration, points, segments and basic geometric functions. *)
From Verif Require Import Base MUtil.

(** * DelynoiConfig (delynoi/src/config/DelynoiConfig.cpp:5-54).
    The singleton is modelled by passing the configuration explicitly. *)
Section Config.
  Context {N : Num}.

  (** delynoi/include/delynoi/config/DelynoiConfig.h:9-27 (fields) *)
  Record config := mkConfig {
    cf_grade : Z;        (* circle_discretization_grade *)
    cf_tol : nT N;       (* double_comparison_tolerance *)
    cf_scale : Z;        (* scale_for_clipper *)
    cf_prec : Z          (* precision *)
  }.

  (** DelynoiConfig.cpp:5-10; the literal 0.00001 is written 1/100000. *)
  Definition default_config : config :=
    mkConfig 12 (ndiv (nZ 1) (nZ 100000)) 100000 6.

  (** DelynoiConfig.cpp:12-30, the five setters ([Precision::precision] is the
      enum of lib/utilities/include/utilities/Precision.h:5 with values 6, 10, 16). *)
  Inductive precision_enum := prec_small | prec_mid | prec_large.
  (** lib/utilities/include/utilities/Precision.h:5. *)
  Definition precision_value (p : precision_enum) : Z :=
    match p with prec_small => 6 | prec_mid => 10 | prec_large => 16 end.
  (** DelynoiConfig.cpp:12-30. *)
  Inductive config_op :=
  | SetGrade (d : Z) | SetTolerance (t : nT N) | SetScale (s : Z)
  | SetPrecisionEnum (p : precision_enum) | SetPrecisionInt (p : Z).
  (** DelynoiConfig.cpp:12-30. *)
  Definition config_step (c : config) (o : config_op) : config :=
    match o with
    | SetGrade d => mkConfig d (cf_tol c) (cf_scale c) (cf_prec c)
    | SetTolerance t => mkConfig (cf_grade c) t (cf_scale c) (cf_prec c)
    | SetScale s => mkConfig (cf_grade c) (cf_tol c) s (cf_prec c)
    | SetPrecisionEnum p => mkConfig (cf_grade c) (cf_tol c) (cf_scale c) (precision_value p)
    | SetPrecisionInt p => mkConfig (cf_grade c) (cf_tol c) (cf_scale c) p
    end.

  (** DelynoiConfig.cpp:48-54: instance() creates the object on first use; the
      state is [None] until then.  Every call goes through instance(). *)
  Definition instance (s : option config) : config :=
    match s with None => default_config | Some c => c end.
  (** DelynoiConfig.cpp:48-54: a setter called through instance(). *)
  Definition config_call (s : option config) (o : config_op) : option config :=
    Some (config_step (instance s) o).
End Config.
Arguments config : clear implicits.
Arguments config_op : clear implicits.

(** * Point (delynoi/src/models/basic/Point.cpp, delynoi/include/delynoi/models/basic/Point.h). *)
Section Point.
  Context {N : Num}.
  Local Open Scope num_scope.

  (** Point.h:18-29 *)
  Record Point := mkPoint { px : nT N; py : nT N; pbd : bool; pempty : bool }.

  (** Point.cpp:4-7 with the in-class initialisers Point.h:24,29. *)
  Definition mkP (x y : nT N) : Point := mkPoint x y false false.
  (** Point.cpp:9-14 *)
  Definition point0 : Point := mkPoint (nZ 0) (nZ 0) false true.
  (** Point.cpp:16-18 *)
  Definition isValid (p : Point) : bool := pempty p.
  (** Point.cpp:32-34 and delynoi/src/utilities/delynoi_utilities.cpp:20-22; pow(x,2) is x*x. *)
  Definition squareNorm (p : Point) : nT N := px p * px p + py p * py p.
  (** delynoi_utilities.cpp:24-26 *)
  Definition norm (p : Point) : nT N := nsqrt (squareNorm p).
  (** Point.cpp:36-41 *)
  Definition pt_eqb (tol : nT N) (a b : Point) : bool :=
    (nabs (px a - px b) <? tol) && (nabs (py a - py b) <? tol).
  (** Point.cpp:44-46 *)
  Definition pt_sub (a b : Point) : Point := mkP (px a - px b) (py a - py b).
  (** Point.cpp:52-54 *)
  Definition setBoundary (p : Point) : Point := mkPoint (px p) (py p) true (pempty p).
  (** Point.cpp:56-62 (setX then setY) *)
  Definition setXY (p : Point) (x y : nT N) : Point := mkPoint x y (pbd p) (pempty p).
  (** Point.cpp:64-75 *)
  Definition pt_ltb (tol : nT N) (a b : Point) : bool :=
    if nabs (px a - px b) <? tol then
      if nabs (py a - py b) <? tol then false else py a <? py b
    else px a <? px b.

  (** delynoi_utilities.cpp:16-18 *)
  Definition crossProduct (a b : Point) : nT N := px a * py b - py a * px b.
  (** delynoi_utilities.cpp:28-30 *)
  Definition orientation (p q r : Point) : nT N := crossProduct (pt_sub q p) (pt_sub r p).
  (** delynoi_utilities.cpp:10-14 *)
  Definition trivialIndex (n : nat) : list Z := map Z.of_nat (seq 0 n).
  (** delynoi_utilities.cpp:51-58 *)
  Definition checkTriangleIntegrity (t : list Z) : res unit :=
    match t with
    | [a; b; c] =>
        if ((a =? b) || (b =? c) || (c =? a))%Z%bool
        then Err (Throw "Invalid triangle detected. Stopping meshing.") else Ok tt
    | _ => Err (Throw "Invalid triangle detected. Stopping meshing.")
    end.

  (** delynoi/src/utilities/geometryFunctions.cpp:7-12 *)
  Definition area2 (p1 p2 p3 : Point) : nT N := crossProduct (pt_sub p2 p1) (pt_sub p3 p1).
  (** geometryFunctions.cpp:14-18 *)
  Definition collinear (tol : nT N) (p1 p2 p3 : Point) : bool := nabs (area2 p1 p2 p3) <? tol.
  (** geometryFunctions.cpp:25-27 *)
  Definition triangleArea (p1 p2 o : Point) : nT N := area2 p1 p2 o / nZ 2.

  (** lib/utilities/src/utilities.cpp:44-48 *)
  Definition normalize (v : nT N * nT N) : res (nT N * nT N) :=
    let nrm := nsqrt (fst v * fst v + snd v * snd v) in
    x <- divr (fst v) nrm ;; y <- divr (snd v) nrm ;; Ok (x, y).

  (** * Segment<T> (delynoi/src/models/basic/Segment.cpp). *)

  (** The sub-expression [std::abs(a-b)<tolerance] of Segment.cpp:26-29. *)
  Definition near (tol a b : nT N) : bool := nabs (a - b) <? tol.
  (** Segment.cpp:26-27 (test1), and 28-29 (test2) on the other coordinate. *)
  Definition between (tol v a b : nT N) : bool :=
    (((v >=? a) || near tol v a) && ((v <=? b) || near tol v b))
    || (((v >=? b) || near tol v b) && ((v <=? a) || near tol v a)).
  (** Segment.cpp:22-33 *)
  Definition seg_contains (tol : nT N) (q p1 p2 : Point) : bool :=
    between tol (px q) (px p1) (px p2) && between tol (py q) (py p1) (py p2) &&
    (nabs (px p1 * (py p2 - py q) + px p2 * (py q - py p1) + px q * (py p1 - py p2)) <? tol).

  (** Segment.cpp:53-58: common denominator and the two quotients, before division. *)
  Definition inter_den (p1 p2 o1 o2 : Point) : nT N :=
    - (px o2 - px o1) * (py p2 - py p1) + (px p2 - px p1) * (py o2 - py o1).
  (** Segment.cpp:57. *)
  Definition inter_snum (p1 p2 o1 o2 : Point) : nT N :=
    - (py p2 - py p1) * (px p1 - px o1) + (px p2 - px p1) * (py p1 - py o1).
  (** Segment.cpp:58. *)
  Definition inter_tnum (p1 p2 o1 o2 : Point) : nT N :=
    (px o2 - px o1) * (py p1 - py o1) - (py o2 - py o1) * (px p1 - px o1).

  (** Segment.cpp:48-71, literally.  The result is the returned boolean and the
      new value of the output argument [inter]. *)
  Definition intersects_raw (tol : nT N) (p1 p2 o1 o2 inter : Point) : bool * Point :=
    let s := inter_snum p1 p2 o1 o2 / inter_den p1 p2 o1 o2 in
    let t := inter_tnum p1 p2 o1 o2 / inter_den p1 p2 o1 o2 in
    if (s >=? nZ 0 - tol) && (s <=? nZ 1 + tol) && (t >=? nZ 0 - tol) && (t <=? nZ 1 + tol)
    then (true, setXY inter (px p1 + t * (px p2 - px p1)) (py p1 + t * (py p2 - py p1)))
    else (false, inter).

  (** Segment.cpp:48-71 with the zero denominator made explicit: in IEEE
      arithmetic the quotients are then inf or NaN and one comparison fails
      (theorem [C20_guard_matches_ieee]), in exact arithmetic there is no quotient. *)
  Definition intersects (tol : nT N) (p1 p2 o1 o2 inter : Point) : bool * Point :=
    if inter_den p1 p2 o1 o2 =? nZ 0 then (false, inter)
    else intersects_raw tol p1 p2 o1 o2 inter.

  (** Segment.cpp:73-96 (s is computed and not used); zero denominator as above. *)
  Definition intersectionInfinite_raw (tol : nT N) (p1 p2 o1 o2 inter : Point) : bool * Point :=
    let t := inter_tnum p1 p2 o1 o2 / inter_den p1 p2 o1 o2 in
    if (t <=? nZ 1 + tol) && (t >=? nZ 0 - tol)
    then (true, setXY inter (px p1 + t * (px p2 - px p1)) (py p1 + t * (py p2 - py p1)))
    else (false, inter).
  (** Segment.cpp:74-96; a zero denominator gives inf or NaN, for which both comparisons fail. *)
  Definition intersectionInfinite (tol : nT N) (p1 p2 o1 o2 inter : Point) : bool * Point :=
    if inter_den p1 p2 o1 o2 =? nZ 0 then (false, inter)
    else intersectionInfinite_raw tol p1 p2 o1 o2 inter.

  (** Segment.cpp:98-101 *)
  Definition seg_length (p1 p2 : Point) : nT N :=
    nsqrt ((px p1 - px p2) * (px p1 - px p2) + (py p1 - py p2) * (py p1 - py p2)).

  (** * PointSegment (delynoi/src/models/basic/PointSegment.cpp).
      PointSegment.cpp:3. *)
  Definition pseg : Type := Point * Point.
  (** PointSegment.cpp:23-26 *)
  Definition pseg_eqb (tol : nT N) (a b : pseg) : bool :=
    (pt_eqb tol (fst a) (fst b) && pt_eqb tol (snd a) (snd b))
    || (pt_eqb tol (fst a) (snd b) && pt_eqb tol (snd a) (fst b)).

  (** * IndexSegment (delynoi/src/models/basic/IndexSegment.cpp), a pair of ints.
      The stored hash is a function of the pair: every constructor computes it
      from the end points (IndexSegment.cpp:4,11); see [iseg_hash] in MMaps. *)
  Definition iseg : Type := Z * Z.
  (** IndexSegment.cpp:16-18 *)
  Definition iseg_contains (tol : nT N) (p : list Point) (s : iseg) (q : Point) : res bool :=
    a <- vget p (fst s) ;; b <- vget p (snd s) ;; Ok (seg_contains tol q a b).
  (** IndexSegment.cpp:24-26 *)
  Definition iseg_middle (p : list Point) (s : iseg) : res Point :=
    a <- vget p (fst s) ;; b <- vget p (snd s) ;;
    Ok (mkP ((px a + px b) / nZ 2) ((py a + py b) / nZ 2)).
  (** IndexSegment.cpp:36-38 *)
  Definition iseg_intersection (tol : nT N) (p : list Point) (s o : iseg) (inter : Point) : res (bool * Point) :=
    a <- vget p (fst s) ;; b <- vget p (snd s) ;; c <- vget p (fst o) ;; d <- vget p (snd o) ;;
    Ok (intersects tol a b c d inter).
  (** IndexSegment.cpp:48-53 *)
  Definition iseg_isCCW (p : list Point) (s : iseg) (c : Point) : res bool :=
    a <- vget p (fst s) ;; b <- vget p (snd s) ;; Ok (orientation a b c >? nZ 0).
  (** IndexSegment.cpp:40-46 *)
  Definition iseg_orderCCW (p : list Point) (s : iseg) (c : Point) : res iseg :=
    b <- iseg_isCCW p s c ;; Ok (if b : bool then s else (snd s, fst s)).
  (** IndexSegment.cpp:72-74 *)
  Definition iseg_length (p : list Point) (s : iseg) : res (nT N) :=
    a <- vget p (fst s) ;; b <- vget p (snd s) ;; Ok (seg_length a b).
  (** IndexSegment.cpp:80-82 (int overflow not considered) *)
  Definition iseg_add (s : iseg) (o : Z) : iseg := (fst s + o, snd s + o)%Z.
  (** IndexSegment.cpp:76-78 *)
  Definition iseg_isContained (tol : nT N) (p : list Point) (s : iseg) (ps : pseg) : res bool :=
    a <- vget p (fst s) ;;
    if seg_contains tol a (fst ps) (snd ps) then
      b <- vget p (snd s) ;; Ok (seg_contains tol b (fst ps) (snd ps))
    else Ok false.

  (** * BoundingBox (delynoi/src/models/polygon/BoundingBox.cpp).
      BoundingBox.cpp:3-6. *)
  Record bbox := mkBox { bb1 : Point; bb2 : Point }.
  (** std::min(a,b) is (b<a)?b:a and std::max(a,b) is (a<b)?b:a.
      Used at BoundingBox.cpp:24-30. *)
  Definition nmin (a b : nT N) : nT N := if b <? a then b else a.
  (** Used at BoundingBox.cpp:32-38. *)
  Definition nmax (a b : nT N) : nT N := if a <? b then b else a.
  (** BoundingBox.cpp:16-38 *)
  Definition bb_width (b : bbox) : nT N := nabs (px (bb1 b) - px (bb2 b)).
  (** BoundingBox.cpp:20-22. *)
  Definition bb_height (b : bbox) : nT N := nabs (py (bb1 b) - py (bb2 b)).
  (** BoundingBox.cpp:24-26. *)
  Definition bb_xMin (b : bbox) : nT N := nmin (px (bb1 b)) (px (bb2 b)).
  (** BoundingBox.cpp:28-30. *)
  Definition bb_yMin (b : bbox) : nT N := nmin (py (bb1 b)) (py (bb2 b)).
  (** BoundingBox.cpp:32-34. *)
  Definition bb_xMax (b : bbox) : nT N := nmax (px (bb1 b)) (px (bb2 b)).
  (** BoundingBox.cpp:36-38. *)
  Definition bb_yMax (b : bbox) : nT N := nmax (py (bb1 b)) (py (bb2 b)).
  (** BoundingBox.cpp:40-43 *)
  Definition bb_eqb (tol : nT N) (a b : bbox) : bool :=
    (pt_eqb tol (bb1 a) (bb1 b) && pt_eqb tol (bb2 a) (bb2 b))
    || (pt_eqb tol (bb2 a) (bb1 b) && pt_eqb tol (bb1 a) (bb2 b)).
  (** BoundingBox.cpp:45-53 *)
  Definition bb_segments (b : bbox) (segs : list pseg) : list pseg :=
    let p1 := bb1 b in let p2 := bb2 b in
    let p3 := mkP (px p2) (py p1) in
    let p4 := mkP (px p1) (py p2) in
    segs ++ [(p1, p3); (p3, p2); (p2, p4); (p4, p1)].
  (** BoundingBox.cpp:55-57 *)
  Definition bb_contains (b : bbox) (p : Point) : bool :=
    (px p >=? bb_xMin b) && (px p <=? bb_xMax b) && (py p >=? bb_yMin b) && (py p <=? bb_yMax b).
End Point.
Arguments Point : clear implicits.
Arguments pseg : clear implicits.
Arguments bbox : clear implicits.

(** IndexSegment.cpp:59-62 *)
Definition iseg_eqb (a b : iseg) : bool :=
  (((fst a =? fst b) && (snd a =? snd b)) || ((fst a =? snd b) && (snd a =? fst b)))%Z%bool.
(** IndexSegment.cpp:64-70 *)
Definition iseg_ltb (a b : iseg) : bool :=
  if (fst a =? fst b)%Z then (snd a <? snd b)%Z else (fst a <? fst b)%Z.
