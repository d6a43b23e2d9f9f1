(** Circles, arcs and waves on doubles. *)
From Coq Require Import Reals Lra Lia ZArith SpecFloat List.
From Flocq Require Import Core.
From Verif Require Import Base Spec MUtil MGeom MHull MPolygon MMaps MTriangle MGen MRegion MTrig MTrig64 Bridge BridgeNum BridgeTrig64 PFloat PTrig64 Samples23.
Import ListNotations.
Local Open Scope R_scope.

(** C123: the points of a circle. *)
Theorem C123_circle : forall cos64 sin64, accurate cos64 cos -> accurate sin64 sin ->
  forall (cf : config F64) (c : Point F64) (r : f64), (1 <= cf_grade cf <= 360)%Z -> moderate (px c) -> moderate (py c) -> moderate r ->
  exists ps, (forall fuel, (361 <= fuel)%nat -> discretizeCircleN (N := F64) M_PI64 cos64 sin64 fuel cf c r = Ok ps) /\
    (zlen ps = (360 + 360 / cf_grade cf - 1) / (360 / cf_grade cf))%Z /\
    (forall i q, nth_error ps i = Some q -> close_point (slack (xyv c) (val r) 32) q (at_angle (xyv c) (val r) (IZR (360 / cf_grade cf * Z.of_nat i)))).
Proof. exact circle64. Qed.
Print Assumptions C123_circle.

(** C123: other grades. *)
Theorem C123_bad_grades : forall (cos64 sin64 : f64 -> f64) (cf : config F64) (c : Point F64) (r : f64),
  ((cf_grade cf < 0 \/ 360 < cf_grade cf)%Z -> forall fuel, discretizeCircleN (N := F64) M_PI64 cos64 sin64 fuel cf c r = Err Fuel) /\
  (cf_grade cf = 0%Z -> forall fuel, exists m, discretizeCircleN (N := F64) M_PI64 cos64 sin64 fuel cf c r = Err (UB m)).
Proof. exact bad_grades64. Qed.
Print Assumptions C123_bad_grades.

(** C123: a circular hole. *)
Theorem C123_circular_hole : forall cos64 sin64, accurate cos64 cos -> accurate sin64 sin ->
  forall (cf : config F64) (c : Point F64) (r : f64), (1 <= cf_grade cf <= 360)%Z -> moderate (px c) -> moderate (py c) -> moderate r ->
  exists h, (forall fuel, (361 <= fuel)%nat -> circularHole_at (N := F64) M_PI64 cos64 sin64 fuel cf c r = Ok h) /\ hole_built h /\ h_center h = c /\
    (zlen (h_points h) = (360 + 360 / cf_grade cf - 1) / (360 / cf_grade cf))%Z /\
    (forall i q, nth_error (h_points h) i = Some q -> close_point (slack (xyv c) (val r) 32) q (at_angle (xyv c) (val r) (IZR (360 / cf_grade cf * Z.of_nat i)))).
Proof. exact circular_hole64. Qed.
Print Assumptions C123_circular_hole.

(** C123: the points of an arc. *)
Theorem C123_arc : forall cos64 sin64, accurate cos64 cos -> accurate sin64 sin ->
  forall (cf : config F64) (c : Point F64) (r a0 a1 : f64) (A : R), (1 <= cf_grade cf <= 2 ^ 30)%Z -> moderate (px c) -> moderate (py c) -> moderate r ->
  fin a0 -> fin a1 -> Rabs (val a0) <= A -> Rabs (val a1) <= A -> 1 <= A <= 1073741824 / 2 ->
  exists ps, generateArcPointsN (N := F64) M_PI64 cos64 sin64 cf c r a0 a1 = Ok ps /\ (zlen ps = cf_grade cf + 1)%Z /\
    (forall i q, nth_error ps i = Some q ->
      close_point (slack (xyv c) (val r) (A / 2 + 8)) q (at_angle (xyv c) (val r) (val a0 + INR i * (val a1 - val a0) / IZR (cf_grade cf)))).
Proof. exact arc64. Qed.
Print Assumptions C123_arc.

(** C123: the values of the sine and cosine functors. *)
Theorem C123_waves : forall cos64 sin64, accurate cos64 cos -> accurate sin64 sin -> forall (a f p x : f64) (A : R), moderate a -> fin f -> fin p -> fin x ->
  Rabs (180 * (val f * val x)) <= A -> Rabs (val p) <= A -> 1 <= A <= 1073741824 ->
  let s := sineN (N := F64) M_PI64 sin64 a f p x in let c := cosineN (N := F64) M_PI64 cos64 a f p x in
  (fin s /\ Rabs (val s) <= Rabs (val a) /\
   Rabs (val s - val a * sin (PI * val f * val x + val p * PI / 180)) <= Rabs (val a) * (3 + A / 4) * bpow radix2 (-53) + bpow radix2 (-1075)) /\
  (fin c /\ Rabs (val c) <= Rabs (val a) /\
   Rabs (val c - val a * cos (PI * val f * val x + val p * PI / 180)) <= Rabs (val a) * (3 + A / 4) * bpow radix2 (-53) + bpow radix2 (-1075)).
Proof. exact waves64. Qed.
Print Assumptions C123_waves.

(** C123: on the reals the same text is the exact model. *)
Theorem C123_exact : forall (cf : config RNum) (c : Point RNum) (r a0 a1 : R),
  generateArcPointsN (N := RNum) PI cos sin cf c r a0 a1 = generateArcPoints cf c r a0 a1 /\
  (forall fuel, discretizeCircleN (N := RNum) PI cos sin fuel cf c r = discretizeCircle fuel cf c r).
Proof. exact exact_instance. Qed.
Print Assumptions C123_exact.

(** there are such functions *)
Example C123_library_met : accurate (grid52 cos) cos /\ accurate (grid52 sin) sin.
Proof. split; [exact cos52_accurate|exact sin52_accurate]. Qed.
(** a circle of radius 2 about (5,10) with the default grade, a quarter of it, and a wave *)
Example C123_hypotheses_met : let cf := mkConfig (N := F64) 20 (@nZ F64 0) 1 6 in let c := mkP (N := F64) (@nZ F64 5) (@nZ F64 10) in
  (1 <= cf_grade cf <= 360)%Z /\ moderate (px c) /\ moderate (py c) /\ moderate (@nZ F64 2) /\
  (fin (@nZ F64 0) /\ fin (@nZ F64 90) /\ Rabs (val (@nZ F64 0)) <= 90 /\ Rabs (val (@nZ F64 90)) <= 90) /\
  Rabs (180 * (val (@nZ F64 2) * val (@nZ F64 3))) <= 1080.
Proof.
  cbv zeta. cbn [cf_grade px py mkP]. split; [lia|]. split; [apply moderate_int; lia|]. split; [apply moderate_int; lia|]. split; [apply moderate_int; lia|].
  destruct (ofZ_correct 0) as [F0 V0]; [lia|]. destruct (ofZ_correct 90) as [F9 V9]; [lia|]. destruct (ofZ_correct 2) as [F2 V2]; [lia|]. destruct (ofZ_correct 3) as [F3 V3]; [lia|]. change F64_ofZ with (@nZ F64) in *.
  rewrite V0, V9, V2, V3. split; [split; [exact F0|]; split; [exact F9|]; split; apply Rabs_le; lra|]. apply Rabs_le. lra.
Qed.
