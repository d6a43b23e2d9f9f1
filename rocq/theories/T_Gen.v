(** Property theorems: circles, point generators, angles (C43, C45, C46, C47, C58, C59). *)
From Coq Require Import Reals Lra Psatz Permutation Floats.SpecFloat.
From Verif Require Import Base Spec MUtil MGeom MGen MTrig Bridge PUtil PPoint PSegment PTrig PGen.
Local Open Scope R_scope.

(** C43 *)
Theorem C43_discretizeCircle : forall (cf : config RNum) (c : Point RNum) r,
  let g := cf_grade cf in let d := (360 / g)%Z in
  (1 <= g <= 360 -> exists ps, (forall fuel, (361 <= fuel)%nat -> discretizeCircle fuel cf c r = Ok ps) /\
     zlen ps = ((360 + d - 1) / d)%Z /\ (zlen ps = g <-> (g | 360)) /\ (g <= zlen ps) /\
     (forall q, In q ps -> dist (xy c) (xy q) = Rabs r) /\
     (forall i q, nth_error ps i = Some q -> xy q = at_angle (xy c) r (IZR (d * Z.of_nat i))))%Z /\
  ((g < 0 \/ 360 < g)%Z -> forall fuel, discretizeCircle fuel cf c r = Err Fuel) /\
  ((g = 0)%Z -> forall fuel, discretizeCircle fuel cf c r = Err (UB "integer division by zero")).
Proof. exact discretizeCircle_correct. Qed.
Print Assumptions C43_discretizeCircle.

Example C43_instance : ~ (100 | 360)%Z /\ ((360 + 360 / 100 - 1) / (360 / 100) = 120)%Z /\
  circle_angles 10 (Z.quot 360 4) 0 = Ok [0; 90; 180; 270]%Z.
Proof. split; [intros [k Hk]; lia|]. split; reflexivity. Qed.

(** C45: for every rule and arithmetic, the points generated and the states of the rule. *)
Theorem C45_row_major_grid : forall (N : Num) (g g' : generator N) pts pts' box nX nY,
  generate g pts box nX nY = Ok (g', pts') ->
  exists (gs : nat -> generator N) qs, pts' = pts ++ qs /\ gs 0%nat = g /\ gs (length qs) = g' /\
    length qs = (Z.to_nat nX * Z.to_nat nY)%nat /\
    forall i j, (i < Z.to_nat nY)%nat -> (j < Z.to_nat nX)%nat ->
      let k := (i * Z.to_nat nX + j)%nat in
      exists q, nth_error qs k = Some q /\
        result (gs k) (nadd (bb_xMin box) (nmul (nZ (Z.of_nat j)) (ndiv (bb_width box) (nZ (nX - 1)))))
                      (nadd (bb_yMin box) (nmul (nZ (Z.of_nat i)) (ndiv (bb_height box) (nZ (nY - 1))))) = Ok (gs (S k), q).
Proof. exact @generate_grid. Qed.
Print Assumptions C45_row_major_grid.

Theorem C45_nothing_for_empty_grids : forall (N : Num) (g : generator N) pts box nX nY, (nX <= 0 \/ nY <= 0)%Z ->
  generate g pts box nX nY = Ok (g, pts).
Proof. exact @generate_empty. Qed.
Print Assumptions C45_nothing_for_empty_grids.

Theorem C45_constant_rule_grid : forall (pts : list (Point RNum)) (box : bbox RNum) nX nY, (2 <= nX)%Z -> (2 <= nY)%Z ->
  let g := GBoth (N := RNum) f_constant f_constant in
  exists qs, generate g pts box nX nY = Ok (g, pts ++ qs) /\ length qs = (Z.to_nat nX * Z.to_nat nY)%nat /\
    (forall i j, (i < Z.to_nat nY)%nat -> (j < Z.to_nat nX)%nat -> exists q, nth_error qs (i * Z.to_nat nX + j) = Some q /\
       xy q = (bb_xMin box + INR j * ((bb_xMax box - bb_xMin box) / IZR (nX - 1)),
               bb_yMin box + INR i * ((bb_yMax box - bb_yMin box) / IZR (nY - 1)))) /\
    (forall q, In q qs -> bb_xMin box <= px q <= bb_xMax box /\ bb_yMin box <= py q <= bb_yMax box) /\
    (forall x y, (x = bb_xMin box \/ x = bb_xMax box) -> (y = bb_yMin box \/ y = bb_yMax box) -> exists q, In q qs /\ xy q = (x, y)).
Proof. exact generate_constant. Qed.
Print Assumptions C45_constant_rule_grid.

(** one row or one column: no finite coordinates; in binary64 the coordinate is NaN *)
Theorem C45_single_row_or_column : forall (g : generator RNum) pts (box : bbox RNum) nX nY,
  (1 <= nX)%Z -> (1 <= nY)%Z -> (nX = 1 \/ nY = 1)%Z -> generate g pts box nX nY = Err NonFinite.
Proof. exact generate_single. Qed.
Print Assumptions C45_single_row_or_column.

Theorem C45_single_column_nan : forall x w : f64,
  nadd (n := F64) x (nmul (n := F64) (nZ 0) (ndiv (n := F64) w (nZ 0))) = S754_nan.
Proof. exact single_column_nan. Qed.
Print Assumptions C45_single_column_nan.

(** each functor is applied to its coordinate of the nodes, row by row; a functor for one axis displaces the other coordinate *)
Theorem C45_functors_applied : forall (N : Num) (box : bbox N) nX nY, neqb (nZ (n := N) (nX - 1)) (nZ 0) = false -> neqb (nZ (n := N) (nY - 1)) (nZ 0) = false ->
  forall (pts pts' : list (Point N)) (g' : generator N),
  (forall f, generate (GX f) pts box nX nY = Ok (g', pts') <->
    exists f' vs, g' = GX f' /\ apply_all f (map fst (grid_nodes box nX nY)) = Ok (f', vs) /\
      pts' = pts ++ map (fun e : nT N * nT N * nT N => mkP (fst (fst e)) (nadd (snd (fst e)) (snd e))) (combine (grid_nodes box nX nY) vs)) /\
  (forall f, generate (GY f) pts box nX nY = Ok (g', pts') <->
    exists f' vs, g' = GY f' /\ apply_all f (map snd (grid_nodes box nX nY)) = Ok (f', vs) /\
      pts' = pts ++ map (fun e : nT N * nT N * nT N => mkP (nadd (fst (fst e)) (snd e)) (snd (fst e))) (combine (grid_nodes box nX nY) vs)) /\
  (forall fx fy, generate (GBoth fx fy) pts box nX nY = Ok (g', pts') <->
    exists fx' fy' us vs, g' = GBoth fx' fy' /\ apply_all fx (map fst (grid_nodes box nX nY)) = Ok (fx', us) /\
      apply_all fy (map snd (grid_nodes box nX nY)) = Ok (fy', vs) /\
      pts' = pts ++ map (fun e : nT N * nT N => mkP (fst e) (snd e)) (combine us vs)).
Proof. exact generate_axes. Qed.
Print Assumptions C45_functors_applied.

Theorem C45_stateless_functors : forall (N : Num) (f : nT N -> nT N) (d : nT N) xs,
  apply_all (FPure f) xs = Ok (FPure f, map f xs) /\ apply_all (f_uniform d) xs = Ok (f_uniform d, map (fun x => nmul x d) xs).
Proof. exact apply_all_pure. Qed.
Print Assumptions C45_stateless_functors.

(** a row of three nodes twice, displaced along y by x doubled *)
Example C45_axis_instance : neqb (nZ (n := F64) (3 - 1)) (nZ 0) = false /\ neqb (nZ (n := F64) (2 - 1)) (nZ 0) = false /\
  (match generate (N := F64) (GX (f_uniform (nZ 2))) [] (mkBox (dpt 0 1 0 1) (dpt 4 1 2 1)) 3 2 with
   | Ok (_, ps) => list_eqb (fun a b : Point F64 => neqb (px a) (px b) && neqb (py a) (py b))
                     ps [dpt 0 1 0 1; dpt 2 1 4 1; dpt 4 1 8 1; dpt 0 1 2 1; dpt 2 1 6 1; dpt 4 1 10 1]
   | _ => false end) = true.
Proof. vm_compute. auto. Qed.

Example C45_instance :
  (match generate (N := F64) (GBoth f_constant f_constant) [] (mkBox (dpt 0 1 0 1) (dpt 4 1 2 1)) 3 2 with
   | Ok (_, ps) => list_eqb (fun a b : Point F64 => neqb (px a) (px b) && neqb (py a) (py b))
                     ps [dpt 0 1 0 1; dpt 2 1 0 1; dpt 4 1 0 1; dpt 0 1 2 1; dpt 2 1 2 1; dpt 4 1 2 1]
   | _ => false end) = true.
Proof. vm_compute. reflexivity. Qed.

(** C46 *)
Theorem C46_displace_points_alternates : forall (N : Num) (d : nT N) (xs : list (nT N)), exists f ys,
  apply_all (f_displace_points d) xs = Ok (f, ys) /\ length ys = length xs /\
  forall k x, nth_error xs k = Some x ->
    nth_error ys k = Some (if Nat.even k then nadd x (ndiv d (nZ 2)) else x).
Proof. exact displace_alternates. Qed.
Print Assumptions C46_displace_points_alternates.

Example C46_instance :
  (match apply_all (N := F64) (f_displace_points (nZ (n := F64) 4)) (map (nZ (n := F64)) [1; 1; 5]%Z) with
   | Ok (_, ys) => list_eqb (fun a b : f64 => neqb (n := F64) a b) ys (map (nZ (n := F64)) [3; 1; 7]%Z) | _ => false end) = true.
Proof. vm_compute. reflexivity. Qed.

(** C47: the values are displaced in blocks of n+1, not of n. *)
Theorem C47_displaced_in_blocks : forall (xs : list R), NoDup xs -> (2 <= length xs)%nat ->
  forall rows : nat, let n := length xs in let s m := nth (m mod n) xs 0 in
  exists f ys, apply_all (N := RNum) f_constantAlternating (concat (repeat xs rows)) = Ok (f, ys) /\ length ys = (rows * n)%nat /\
    forall m, (m < rows * n)%nat ->
      nth_error ys m = Some (if Nat.odd ((m + 1) / (n + 1))
                             then let b := ((m - 1) / (n + 1) * (n + 1))%nat in s m + Rabs (s b - s (b + 1)%nat) / 2
                             else s m).
Proof. exact constantAlternating_law. Qed.
Print Assumptions C47_displaced_in_blocks.

Theorem C47_first_three_rows : forall (x0 x1 : R) (rest : list R), NoDup (x0 :: x1 :: rest) ->
  let xs := x0 :: x1 :: rest in
  exists f ys b2 z0 z1 b3, apply_all (N := RNum) f_constantAlternating (xs ++ xs ++ xs) = Ok (f, ys) /\
    ys = xs ++ b2 ++ z0 :: z1 :: b3 /\ length b2 = length xs /\
    (forall j, (j < 2)%nat -> nth j b2 0 = nth j xs 0 + Rabs (x0 - x1) / 2) /\
    (forall j, (2 <= j < length xs)%nat -> nth j b2 0 = nth j xs 0 + Rabs (x1 - nth 2 xs 0) / 2) /\
    x0 < z0 /\ z1 = x1.
Proof. exact constantAlternating_rows. Qed.
Print Assumptions C47_first_three_rows.

(** in binary64: 0,2,4 three times *)
Example C47_instance : NoDup [0; 2; 4] /\
  (match apply_all (N := F64) f_constantAlternating (map (nZ (n := F64)) [0; 2; 4; 0; 2; 4; 0; 2; 4]%Z) with
   | Ok (_, ys) => list_eqb (fun a b : f64 => neqb (n := F64) a b) ys (map (nZ (n := F64)) [0; 2; 4; 1; 3; 5; 1; 2; 4]%Z) | _ => false end) = true.
Proof.
  split; [|vm_compute; reflexivity]. repeat constructor; cbn; intros H; repeat destruct H as [H|H]; try lra; exact H.
Qed.

(** C58 *)
Theorem C58_radian_degrees : forall a,
  (0 < a -> degrees (radian a) = a /\ radian (degrees a) = a) /\
  (a <= 0 -> degrees (radian a) = a + 360 /\ radian (degrees a) = a + 2 * PI) /\
  cos (radian (degrees a)) = cos a /\ sin (radian (degrees a)) = sin a.
Proof. exact radian_degrees_inverse. Qed.
Print Assumptions C58_radian_degrees.

Theorem C58_cartesianAngle : forall p1 p2 : Point RNum, xy p1 <> xy p2 ->
  let a := cartesianAngle p1 p2 in
  0 < a <= 360 /\
  dist (xy p1) (xy p2) * cos (radian a) = px p2 - px p1 /\
  dist (xy p1) (xy p2) * sin (radian a) = py p2 - py p1 /\
  (a = 360 <-> py p2 = py p1 /\ px p1 < px p2).
Proof. exact cartesianAngle_correct. Qed.
Print Assumptions C58_cartesianAngle.

Theorem C58_Angle : forall a : R, Rabs a < 360 * 2147483648 ->
  exists b, angle_ctor a = Ok b /\ (exists k : Z, a = b + 180 * IZR k) /\
    (0 <= a -> 0 <= b < 180) /\
    (a < 0 -> (forall k : Z, a <> 360 * IZR k) -> -540 < b < -180) /\
    (forall k : Z, a = 360 * IZR k -> b = 0).
Proof. exact angle_ctor_correct. Qed.
Print Assumptions C58_Angle.

Theorem C58_Angle_overflow : forall a : R, 360 * 2147483649 <= Rabs a -> exists m, angle_ctor a = Err (UB m).
Proof. exact angle_ctor_overflow. Qed.
Print Assumptions C58_Angle_overflow.

(** one angle is before another when it is smaller by at least the tolerance, which is no weak order: being near is not transitive *)
Theorem C58_Angle_order : forall tol a b : R, 0 < tol -> angle_ltb tol a b = true <-> tol <= b - a.
Proof. exact angle_ltb_iff. Qed.
Print Assumptions C58_Angle_order.

Theorem C58_Angle_weak_order_refuted : exists tol a b c : R, 0 < tol /\
  angle_ltb tol a b = false /\ angle_ltb tol b a = false /\ angle_ltb tol b c = false /\ angle_ltb tol c b = false /\ angle_ltb tol a c = true.
Proof. exact angle_incomparable. Qed.
Print Assumptions C58_Angle_weak_order_refuted.

Example C58_instance : Rabs (-90) < 360 * 2147483648 /\ (forall k : Z, -90 <> 360 * IZR k) /\
  xy (mkP (N := RNum) 1 1) <> xy (mkP (N := RNum) 1 3).
Proof.
  split; [rewrite Rabs_left; lra|]. split.
  - intros k Hk. assert (E : IZR (-90) = IZR (360 * k)) by (rewrite mult_IZR; lra). apply eq_IZR in E. lia.
  - unfold xy; cbn. intros [= E]. lra.
Qed.

(** C59 *)
Theorem C59_arc_points : forall (cf : config RNum) (c : Point RNum) r a0 a1, (0 < cf_grade cf)%Z ->
  exists ps, generateArcPoints cf c r a0 a1 = Ok ps /\ zlen ps = (cf_grade cf + 1)%Z /\
    (forall q, In q ps -> dist (xy c) (xy q) = Rabs r) /\
    (forall i q, nth_error ps i = Some q -> xy q = at_angle (xy c) r (a0 + INR i * (a1 - a0) / IZR (cf_grade cf))) /\
    (exists q, nth_error ps 0 = Some q /\ xy q = at_angle (xy c) r a0) /\
    (exists q, nth_error ps (Z.to_nat (cf_grade cf)) = Some q /\ xy q = at_angle (xy c) r a1).
Proof. exact arc_points_correct. Qed.
Print Assumptions C59_arc_points.

(** the default configuration has a positive grade *)
Example C59_instance : (0 < cf_grade (N := RNum) default_config)%Z.
Proof. reflexivity. Qed.
