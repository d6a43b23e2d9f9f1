(** Property theorems: points, segments, boxes, configuration
    (C04, C05, C19, C20, C21, C48, C60, C61). *)
From Coq Require Import Reals Lra Psatz Floats.SpecFloat.
From Verif Require Import Base Spec MUtil MGeom Bridge PUtil PPoint PSegment.
Local Open Scope R_scope.

(** C04, exact coordinates *)
Theorem C04_point_trichotomy :
  forall tol, 0 < tol -> forall a b : Point RNum,
  let lt := pt_ltb (N := RNum) tol in let eq := pt_eqb (N := RNum) tol in
  ((lt a b = true /\ lt b a = false /\ eq a b = false) \/
   (lt a b = false /\ lt b a = true /\ eq a b = false) \/
   (lt a b = false /\ lt b a = false /\ eq a b = true)) /\
  eq a a = true /\ eq a b = eq b a.
Proof. exact (fun tol H a b => conj (pt_trichotomy tol H a b) (conj (pt_eqb_refl tol H a) (pt_eqb_sym tol a b))). Qed.
Print Assumptions C04_point_trichotomy.

(** C04, all finite doubles *)
Theorem C04_point_trichotomy_binary64 :
  forall tol, SFltb (S754_zero false) tol = true -> forall a b : Point F64, finite_point a -> finite_point b ->
  let lt := pt_ltb (N := F64) tol in let eq := pt_eqb (N := F64) tol in
  ((lt a b = true /\ lt b a = false /\ eq a b = false) \/
   (lt a b = false /\ lt b a = true /\ eq a b = false) \/
   (lt a b = false /\ lt b a = false /\ eq a b = true)) /\
  eq a a = true /\ eq a b = eq b a.
Proof. exact (fun tol H a b Ha Hb => conj (pt64_trichotomy tol H a b Ha Hb) (conj (pt64_eqb_refl tol H a Ha) (pt64_eqb_sym tol a b Ha Hb))). Qed.
Print Assumptions C04_point_trichotomy_binary64.

Example C04_hypotheses_met :
  let tol := F64_dec 1 100000 in let p := mkP (N := F64) (F64_dec 1 10) (F64_ofZ 3) in
  SFltb (S754_zero false) tol = true /\ finite_point p /\
  pt_ltb (N := F64) tol (mkP (N := F64) (F64_ofZ 0) (F64_ofZ 7)) p = true.
Proof. vm_compute. repeat split; reflexivity. Qed.

(** C05, the positive part *)
Theorem C05_point_order_on_separated_sets :
  forall tol, 0 < tol -> forall P, separated tol P ->
  strict_weak_order_on P (pt_ltb (N := RNum) tol) /\
  (forall a b, equivb (pt_ltb (N := RNum) tol) a b = pt_eqb (N := RNum) tol a b).
Proof. exact (fun tol H P S => conj (pt_swo tol H P S) (fun a b => eq_sym (pt_eqb_equivb tol H a b))). Qed.
Print Assumptions C05_point_order_on_separated_sets.

Example C05_hypotheses_met :
  separated (1 / 100000) (fun p => exists i j : Z, px p = IZR i /\ py p = IZR j).
Proof.
  apply separated_grid. intros a b (i & j & -> & ->) (k & l & -> & ->).
  assert (A : forall m n : Z, IZR m = IZR n \/ 1 / 100000 <= Rabs (IZR m - IZR n)).
  { intros m n. rewrite <- minus_IZR. destruct (Z.eq_dec m n) as [->|H]; [auto|right].
    rewrite <- abs_IZR. assert (1 <= Z.abs (m - n))%Z as H1 by lia. apply IZR_le in H1. lra. }
  split; apply A.
Qed.

(** C05, the expectation is refuted for doubles and the default tolerance: == is not
    transitive, and the unique points kept depend on the insertion order. *)
Theorem C05_point_order_refuted :
  let tol := F64_dec 1 100000 in
  exists a b c : Point F64,
    pt_eqb (N := F64) tol a b = true /\ pt_eqb (N := F64) tol b c = true /\ pt_ltb (N := F64) tol a c = true /\
    map xy64 (ul_list (fst (ul_push_list (pt_ltb (N := F64) tol) ul_empty [a; b; c]))) = [xy64 a; xy64 c] /\
    map xy64 (ul_list (fst (ul_push_list (pt_ltb (N := F64) tol) ul_empty [b; a; c]))) = [xy64 b].
Proof.
  exists (dpt 0 1 0 1), (dpt 6 1000000 0 1), (dpt 12 1000000 0 1).
  split; [|split; [|split; [|split]]]; vm_compute; reflexivity.
Qed.
Print Assumptions C05_point_order_refuted.

(** C19 *)
Theorem C19_intersection_correct :
  forall tol (p1 p2 o1 o2 inter : Point RNum), 0 <= tol ->
  (forall q, intersects (N := RNum) tol p1 p2 o1 o2 inter = (true, q) ->
     ~ parallel (xy p1) (xy p2) (xy o1) (xy o2) /\
     on_line (xy p1) (xy p2) (xy q) /\ on_line (xy o1) (xy o2) (xy q) /\
     (exists t s, - tol <= t <= 1 + tol /\ - tol <= s <= 1 + tol /\
        xy q = lerp (xy p1) (xy p2) t /\ xy q = lerp (xy o1) (xy o2) s) /\
     (tol = 0 -> on_segment (xy p1) (xy p2) (xy q) /\ on_segment (xy o1) (xy o2) (xy q))) /\
  (forall z, ~ parallel (xy p1) (xy p2) (xy o1) (xy o2) ->
     on_segment (xy p1) (xy p2) z -> on_segment (xy o1) (xy o2) z ->
     exists q, intersects (N := RNum) tol p1 p2 o1 o2 inter = (true, q) /\ xy q = z) /\
  (forall q, intersects (N := RNum) tol p1 p2 o1 o2 inter = (false, q) -> q = inter) /\
  (forall inter2, let r1 := intersects (N := RNum) tol p1 p2 o1 o2 inter in
     let r2 := intersects (N := RNum) tol o1 o2 p1 p2 inter2 in
     fst r1 = fst r2 /\ (fst r1 = true -> xy (snd r1) = xy (snd r2))).
Proof. exact intersects_correct. Qed.
Print Assumptions C19_intersection_correct.

Example C19_hypotheses_met :
  ~ parallel (0, 0) (2, 2) (0, 2) (2, 0) /\ on_segment (0, 0) (2, 2) (1, 1) /\ on_segment (0, 2) (2, 0) (1, 1).
Proof.
  unfold parallel, on_segment, vcross, vsub, lerp; cbn [fst snd]. split; [lra|].
  split; exists (1 / 2); (split; [lra | f_equal; lra]).
Qed.

(** C20: parallel lines *)
Theorem C20_parallel_never_intersect :
  forall tol (p1 p2 o1 o2 inter : Point RNum), parallel (xy p1) (xy p2) (xy o1) (xy o2) ->
  intersects (N := RNum) tol p1 p2 o1 o2 inter = (false, inter) /\
  intersectionInfinite (N := RNum) tol p1 p2 o1 o2 inter = (false, inter).
Proof. exact intersects_parallel. Qed.
Print Assumptions C20_parallel_never_intersect.

(** C20: intersectionInfinite is limited to the first segment *)
Theorem C20_infinite_is_bounded :
  forall tol (p1 p2 o1 o2 inter : Point RNum) t s, ~ parallel (xy p1) (xy p2) (xy o1) (xy o2) ->
  lerp (xy p1) (xy p2) t = lerp (xy o1) (xy o2) s ->
  (- tol <= t <= 1 + tol ->
     exists q, intersectionInfinite (N := RNum) tol p1 p2 o1 o2 inter = (true, q) /\ xy q = lerp (xy p1) (xy p2) t) /\
  (~ (- tol <= t <= 1 + tol) -> intersectionInfinite (N := RNum) tol p1 p2 o1 o2 inter = (false, inter)).
Proof. exact infinite_char. Qed.
Print Assumptions C20_infinite_is_bounded.

(** every pair of non-parallel lines has such parameters *)
Theorem C20_lines_meet :
  forall (p1 p2 o1 o2 : Point RNum), ~ parallel (xy p1) (xy p2) (xy o1) (xy o2) ->
  exists t s, lerp (xy p1) (xy p2) t = lerp (xy o1) (xy o2) s.
Proof. exact lines_meet. Qed.
Print Assumptions C20_lines_meet.

Example C20_refuted :
  exists p1 p2 o1 o2 i : Point F64, let tol := F64_dec 1 100000 in
    fst (intersects (N := F64) tol p1 p2 p1 p2 i) = false /\
    fst (intersectionInfinite (N := F64) tol p1 p2 o1 o2 i) = false /\
    fst (intersectionInfinite (N := F64) tol o1 o2 p1 p2 i) = true.
Proof.
  set (m x y := mkP (N := F64) (F64_ofZ x) (F64_ofZ y)).
  exists (m 0 0)%Z, (m 1 0)%Z, (m 5 (-1))%Z, (m 5 1)%Z, (m 9 9)%Z. vm_compute. auto.
Qed.

(** C20: the explicit zero test of the model is what IEEE division does *)
Theorem C20_guard_matches_ieee :
  forall (tol : f64) (p1 p2 o1 o2 inter : Point F64),
  finite64 (SFsub f64_prec f64_emax (F64_ofZ 0) tol) -> finite64 (SFadd f64_prec f64_emax (F64_ofZ 1) tol) ->
  intersects_raw (N := F64) tol p1 p2 o1 o2 inter = intersects (N := F64) tol p1 p2 o1 o2 inter /\
  intersectionInfinite_raw (N := F64) tol p1 p2 o1 o2 inter = intersectionInfinite (N := F64) tol p1 p2 o1 o2 inter.
Proof. exact intersects_guard_ieee. Qed.
Print Assumptions C20_guard_matches_ieee.

Example C20_guard_hypotheses_met :
  finite64 (SFsub f64_prec f64_emax (F64_ofZ 0) (F64_dec 1 100000)) /\
  finite64 (SFadd f64_prec f64_emax (F64_ofZ 1) (F64_dec 1 100000)).
Proof. vm_compute. auto. Qed.

(** C21 *)
Theorem C21_segment_contains :
  forall tol (p1 p2 q : Point RNum), 0 < tol ->
  (on_segment (xy p1) (xy p2) (xy q) -> seg_contains (N := RNum) tol q p1 p2 = true) /\
  seg_contains (N := RNum) tol q p1 p2 = seg_contains (N := RNum) tol q p2 p1 /\
  (seg_contains (N := RNum) tol q p1 p2 = true ->
     Rmin (px p1) (px p2) - tol < px q < Rmax (px p1) (px p2) + tol /\
     Rmin (py p1) (py p2) - tol < py q < Rmax (py p1) (py p2) + tol /\
     Rabs (orient (xy p1) (xy p2) (xy q)) < tol).
Proof. exact (fun tol p1 p2 q H => conj (seg_contains_segment tol p1 p2 q H) (conj (seg_contains_sym tol p1 p2 q) (seg_contains_near tol p1 p2 q H))). Qed.
Print Assumptions C21_segment_contains.

Example C21_hypotheses_met : on_segment (0, 0) (4, 2) (2, 1).
Proof. exists (1 / 2). split; [lra|]. unfold lerp; cbn [fst snd]. f_equal; lra. Qed.

(** C21: it is not a distance test, for every tolerance below 1/4 *)
Theorem C21_not_a_distance_test :
  forall tol, 0 < tol < 1 / 4 ->
  exists p1 p2 q : Point RNum, seg_contains (N := RNum) tol q p1 p2 = true /\
    forall z, on_segment (xy p1) (xy p2) z -> dist (xy q) z > tol.
Proof. exact seg_contains_far. Qed.
Print Assumptions C21_not_a_distance_test.

(** C48 *)
Theorem C48_configuration_history :
  forall (N : Num) (h : list (config_op N)),
  let c := instance (fold_left config_call h None) in
  cf_grade c = last_of set_grade_of 12%Z h /\
  cf_tol c = last_of set_tol_of (ndiv (nZ 1) (nZ 100000)) h /\
  cf_scale c = last_of set_scale_of 100000%Z h /\
  cf_prec c = last_of set_prec_of 6%Z h.
Proof. exact @config_history. Qed.
Print Assumptions C48_configuration_history.

Example C48_case :
  let c := instance (fold_left config_call [SetGrade 5%Z; SetPrecisionInt 3%Z; SetGrade 8%Z; SetPrecisionEnum prec_mid] None) in
  (@cf_grade F64 c, cf_scale c, cf_prec c) = (8, 100000, 10)%Z.
Proof. reflexivity. Qed.

(** C60 *)
Theorem C60_bounding_box :
  forall (b : bbox RNum),
  bb_width b = Rmax (px (bb1 b)) (px (bb2 b)) - Rmin (px (bb1 b)) (px (bb2 b)) /\ 0 <= bb_width b /\
  bb_height b = Rmax (py (bb1 b)) (py (bb2 b)) - Rmin (py (bb1 b)) (py (bb2 b)) /\ 0 <= bb_height b /\
  bb_xMin b = Rmin (px (bb1 b)) (px (bb2 b)) /\ bb_xMax b = Rmax (px (bb1 b)) (px (bb2 b)) /\
  bb_yMin b = Rmin (py (bb1 b)) (py (bb2 b)) /\ bb_yMax b = Rmax (py (bb1 b)) (py (bb2 b)) /\
  (forall p, bb_contains b p = true <->
     (Rmin (px (bb1 b)) (px (bb2 b)) <= px p <= Rmax (px (bb1 b)) (px (bb2 b)) /\
      Rmin (py (bb1 b)) (py (bb2 b)) <= py p <= Rmax (py (bb1 b)) (py (bb2 b)))) /\
  (forall tol c, bb_eqb (N := RNum) tol (mkBox (bb2 b) (bb1 b)) c = bb_eqb (N := RNum) tol b c).
Proof. exact bbox_normalised. Qed.
Print Assumptions C60_bounding_box.

Theorem C60_bounding_box_segments :
  forall (b : bbox RNum) segs,
  exists p1 p2 p3 p4, bb_segments b segs = segs ++ [(p1, p2); (p2, p3); (p3, p4); (p4, p1)] /\
    xy p1 = (px (bb1 b), py (bb1 b)) /\ xy p2 = (px (bb2 b), py (bb1 b)) /\
    xy p3 = (px (bb2 b), py (bb2 b)) /\ xy p4 = (px (bb1 b), py (bb2 b)).
Proof. exact bbox_segments. Qed.
Print Assumptions C60_bounding_box_segments.

Example C60_case :
  let b := mkBox (mkP (N := F64) (F64_ofZ 3) (F64_ofZ 0)) (mkP (N := F64) (F64_ofZ 1) (F64_ofZ 5)) in
  bb_width b = F64_ofZ 2 /\ bb_contains b (mkP (N := F64) (F64_ofZ 2) (F64_ofZ 5)) = true.
Proof. vm_compute. auto. Qed.

(** C61 *)
Theorem C61_length_is_a_metric :
  forall a b c : Point RNum,
  0 <= seg_length (N := RNum) a b /\ seg_length (N := RNum) a b = seg_length (N := RNum) b a /\
  (seg_length (N := RNum) a b = 0 <-> xy a = xy b) /\
  seg_length (N := RNum) a c <= seg_length (N := RNum) a b + seg_length (N := RNum) b c.
Proof. exact seg_length_metric. Qed.
Print Assumptions C61_length_is_a_metric.

Theorem C61_middle_point :
  forall (p : list (Point RNum)) (s : iseg) a b, vget p (fst s) = Ok a -> vget p (snd s) = Ok b ->
  exists m, iseg_middle (N := RNum) p s = Ok m /\ on_segment (xy a) (xy b) (xy m) /\
    dist (xy a) (xy m) = dist (xy a) (xy b) / 2 /\ dist (xy m) (xy b) = dist (xy a) (xy b) / 2 /\
    iseg_length (N := RNum) p s = Ok (dist (xy a) (xy b)).
Proof. exact middle_point. Qed.
Print Assumptions C61_middle_point.

Theorem C61_normalize :
  (forall x y : R, (x, y) <> (0, 0) ->
   exists u v, normalize (N := RNum) (x, y) = Ok (u, v) /\ u * u + v * v = 1 /\
     0 < sqrt (x * x + y * y) /\ x = sqrt (x * x + y * y) * u /\ y = sqrt (x * x + y * y) * v) /\
  normalize (N := RNum) (0, 0) = Err NonFinite.
Proof. exact (conj normalize_unit normalize_zero). Qed.
Print Assumptions C61_normalize.

Theorem C61_orderCCW :
  forall (p : list (Point RNum)) (s : iseg) (c a b : Point RNum),
  vget p (fst s) = Ok a -> vget p (snd s) = Ok b ->
  exists s', iseg_orderCCW (N := RNum) p s c = Ok s' /\ (s' = s \/ s' = (snd s, fst s)) /\
    (orient (xy a) (xy b) (xy c) <> 0 -> iseg_isCCW (N := RNum) p s' c = Ok true).
Proof. exact orderCCW_spec. Qed.
Print Assumptions C61_orderCCW.

Example C61_hypotheses_met :
  let p := [mkP (N := RNum) 0 0; mkP (N := RNum) 4 0] in
  vget p 1%Z = Ok (mkP (N := RNum) 4 0) /\ vget p 0%Z = Ok (mkP (N := RNum) 0 0) /\ orient (4, 0) (0, 0) (1, 1) <> 0.
Proof. split; [reflexivity|]. split; [reflexivity|]. unfold orient, vcross, vsub; cbn [fst snd]. lra. Qed.
