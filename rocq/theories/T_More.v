(** Property theorems C67 to C73. *)
From Coq Require Import Reals Lra ZArith SpecFloat.
From Verif Require Import Base Spec MUtil MGeom MTrig MHull MPolygon MMaps MTriangle MGen MRegion MDelaunay MVoronoi MMesh MFormat MMore Bridge BridgeNum.
From Verif Require Import PUtil PFloat PDecimal PMore PMore2 PMore3 Samples Samples3.
Open Scope Z_scope.

(** C67: the query functions of a UniqueList after any history. *)
Theorem C67_queries :
  forall (A : Type) (P : A -> Prop) (ltb eqb : A -> A -> bool), strict_weak_order_on P ltb ->
  (forall x y, P x -> P y -> eqb x y = equivb ltb x y) ->
  forall h1 h2 u1 u2,
  (forall o, In o h1 -> forall x, In x (set_op_elems o) -> P x) ->
  (forall o, In o h2 -> forall x, In x (set_op_elems o) -> P x) ->
  ul_run ltb h1 = Ok u1 -> ul_run ltb h2 = Ok u2 ->
  let l1 := set_run (equivb ltb) h1 in let l2 := set_run (equivb ltb) h2 in
  (ul_hasCommon ltb u1 u2 = true <-> exists x y, In x l1 /\ In y l2 /\ equivb ltb x y = true) /\
  (forall x, P x -> ul_indexOf eqb u1 x = -1 <-> set_mem (equivb ltb) x l1 = false) /\
  (forall x, P x -> set_mem (equivb ltb) x l1 = true ->
     ul_push_back ltb u1 x = (u1, ul_indexOf eqb u1 x) /\
     exists y, vget l1 (ul_indexOf eqb u1 x) = Ok y /\ equivb ltb y x = true) /\
  (ul_eqb eqb u1 u2 = true <-> Forall2 (fun a b => equivb ltb a b = true) l1 l2) /\
  ul_size u1 = zlen l1 /\
  (forall i, ul_get u1 i = vget l1 i).
Proof. exact @queries. Qed.
Print Assumptions C67_queries.

Example C67_hypotheses_met :
  strict_weak_order_on (fun _ : Z => True) Z.ltb /\ (forall x y, True -> True -> Z.eqb x y = equivb Z.ltb x y) /\
  exists u1 u2, ul_run Z.ltb [AddListOp [5; 3; 9]; RemoveOp 5] = Ok u1 /\ ul_run Z.ltb [AddOp 9; AddOp 7] = Ok u2 /\
    ul_hasCommon Z.ltb u1 u2 = true /\ ul_indexOf Z.eqb u1 9 = 1 /\ ul_indexOf Z.eqb u1 7 = -1 /\ ul_eqb Z.eqb u1 u2 = false.
Proof.
  split; [exact zltb_swo|]. split; [intros x y _ _; unfold equivb; destruct (Z.ltb_spec x y), (Z.ltb_spec y x), (Z.eqb_spec x y); cbn; lia|].
  do 2 eexists. repeat split; reflexivity.
Qed.
(** equal as sets, unequal as lists *)
Example C67_set_equality_refuted : exists u1 u2, ul_run Z.ltb [AddOp 1; AddOp 2] = Ok u1 /\ ul_run Z.ltb [AddOp 2; AddOp 1] = Ok u2 /\
  (forall x, ul_contains Z.ltb u1 x = ul_contains Z.ltb u2 x) /\ ul_eqb Z.eqb u1 u2 = false.
Proof.
  exists (mkUL [1; 2] [(1, 0); (2, 1)]), (mkUL [2; 1] [(1, 1); (2, 0)]). split; [reflexivity|]. split; [reflexivity|]. split; [|reflexivity].
  intros x. unfold ul_contains. cbn [ul_map om_find]. destruct (1 <? x), (2 <? x), (x <? 1), (x <? 2); reflexivity.
Qed.

(** C68 *)
Theorem C68_segment_in_segment : forall tol (p : list (Point RNum)) (s : Z * Z) (a b : Point RNum) (ps : pseg RNum),
  (0 < tol)%R -> vertices_are p [fst s; snd s] [a; b] ->
  exists r, iseg_isContained (N := RNum) tol p s ps = Ok r /\
    (r = true <-> forall t, (0 <= t <= 1)%R -> near_segment tol (xy (fst ps)) (xy (snd ps)) (lerp (xy a) (xy b) t)).
Proof. exact isContained_iff. Qed.
Print Assumptions C68_segment_in_segment.

Theorem C68_index_segment_in_segment : forall tol (p : list (Point RNum)) (s o : Z * Z) (a b c d : Point RNum),
  (0 < tol)%R -> vertices_are p [fst s; snd s; fst o; snd o] [a; b; c; d] ->
  exists r, iseg_contains_seg (N := RNum) tol p s o = Ok r /\
    (r = true <-> forall t, (0 <= t <= 1)%R -> near_segment tol (xy a) (xy b) (lerp (xy c) (xy d) t)).
Proof. exact contains_seg_iff. Qed.
Print Assumptions C68_index_segment_in_segment.

Example C68_hypotheses_met : (0 < 1 / 100000)%R /\ vertices_are sq_pts [0; 1] [bp 0 0; bp 4 0] /\
  vertices_are sq_pts [0; 1; 1; 2] [bp 0 0; bp 4 0; bp 4 0; bp 4 4].
Proof. split; [lra|]. split; repeat constructor; cbn; lia. Qed.

Theorem C68_collinear_segments : forall tol (s1 s2 : pseg RNum), collinear_segs (N := RNum) tol s1 s2 = true <->
  forall t, (0 <= t <= 1)%R -> (Rabs (orient (xy (fst s1)) (xy (snd s1)) (lerp (xy (fst s2)) (xy (snd s2)) t)) < tol)%R.
Proof. exact collinear_segs_iff. Qed.
Print Assumptions C68_collinear_segments.

Theorem C68_collinear_is_not_symmetric : forall tol, (0 < tol)%R -> exists s1 s2 : pseg RNum,
  collinear_segs (N := RNum) tol s1 s2 = true /\ collinear_segs (N := RNum) tol s2 s1 = false.
Proof. exact collinear_segs_asym. Qed.
Print Assumptions C68_collinear_is_not_symmetric.

Theorem C68_segment_equality : forall tol (s1 s2 : pseg RNum),
  (pseg_eqb (N := RNum) tol s1 s2 = true <->
    (coincide tol (xy (fst s1)) (xy (fst s2)) /\ coincide tol (xy (snd s1)) (xy (snd s2))) \/
    (coincide tol (xy (fst s1)) (xy (snd s2)) /\ coincide tol (xy (snd s1)) (xy (fst s2)))) /\
  pseg_eqb (N := RNum) tol s1 s2 = pseg_eqb (N := RNum) tol s2 s1 /\
  pseg_eqb (N := RNum) tol s1 s2 = pseg_eqb (N := RNum) tol (snd s1, fst s1) s2 /\
  ((0 < tol)%R -> pseg_eqb (N := RNum) tol s1 s1 = true).
Proof. exact pseg_eqb_iff. Qed.
Print Assumptions C68_segment_equality.

Example C68_computed :
  let p := square 0 4 in let P := dpt (-5) 1 (-4) 1 in let Q := dpt 5 1 (-4) 1 in
  map (fun r => match r with Ok b => b | Err _ => false end)
    [iseg_isContained (N := F64) tol64 p (0, 1) (P, Q); iseg_isContained (N := F64) tol64 p (1, 2) (P, Q);
     iseg_contains_seg (N := F64) tol64 (P :: Q :: p) (0, 1) (3, 2); iseg_contains_seg (N := F64) tol64 (P :: Q :: p) (2, 3) (0, 1)]
  = [true; false; true; false].
Proof. vm_compute. reflexivity. Qed.
Example C68_equality_not_transitive_refuted : let q n := dpt 0 1 n 1000000 in
  pseg_eqb (N := F64) tol64 (q 0, q 0) (q 8, q 8) = true /\ pseg_eqb (N := F64) tol64 (q 8, q 8) (q 16, q 16) = true /\
  pseg_eqb (N := F64) tol64 (q 0, q 0) (q 16, q 16) = false.
Proof. vm_compute. repeat split; reflexivity. Qed.

(** C69 *)
Theorem C69_sign_of_int : forall x, sign_int x = Z.sgn x.
Proof. exact sign_int_sgn. Qed.
Print Assumptions C69_sign_of_int.

Theorem C69_sign_of_double : forall x : f64,
  (fin x -> (IZR (sign_num (N := F64) x) * Rabs (val x))%R = val x /\ (sign_num (N := F64) x = 0 <-> val x = 0%R)) /\
  (x = S754_nan -> sign_num (N := F64) x = 0) /\
  (forall s, x = S754_infinity s -> sign_num (N := F64) x = if s then -1 else 1).
Proof. exact sign_num_F64. Qed.
Print Assumptions C69_sign_of_double.

Theorem C69_pair_order :
  strict_weak_order_on fin2 (pairn_ltb (N := F64)) /\
  forall a b, fin2 a -> fin2 b ->
    (pairn_ltb (N := F64) a b = true <->
       (val (fst a) < val (fst b))%R \/ (val (fst a) = val (fst b) /\ (val (snd a) < val (snd b))%R)) /\
    (pairn_eqb (N := F64) a b = true <-> val (fst a) = val (fst b) /\ val (snd a) = val (snd b)) /\
    pairn_eqb (N := F64) a b = equivb (pairn_ltb (N := F64)) a b.
Proof. exact pair_order. Qed.
Print Assumptions C69_pair_order.

Example C69_hypotheses_met : fin (F64_dec (-7) 3) /\ fin2 (F64_dec 1 3, F64_dec 2 1).
Proof. repeat split; vm_compute; reflexivity. Qed.
Example C69_computed :
  map (sign_num (N := F64)) [F64_dec (-7) 3; F64_dec 0 1; F64_dec 1 1000000; S754_nan] = [-1; 0; 1; 0] /\
  pairn_ltb (N := F64) (F64_dec 1 3, F64_dec 2 1) (F64_dec 1 3, F64_dec 5 2) = true /\
  pairn_ltb (N := F64) (F64_dec 1 3, F64_dec 2 1) (F64_dec 1 4, F64_dec 5 2) = false.
Proof. vm_compute. repeat split; reflexivity. Qed.
(** a pair with a NaN is equivalent to itself in the order and not equal to itself *)
Example C69_nan_refuted : let a := (S754_nan, S754_nan) in
  equivb (pairn_ltb (N := F64)) a a = true /\ pairn_eqb (N := F64) a a = false.
Proof. vm_compute. split; reflexivity. Qed.

Theorem C69_pair_arithmetic : forall a b c d k : Z,
  Z.abs a <= 2 ^ 25 -> Z.abs b <= 2 ^ 25 -> Z.abs c <= 2 ^ 25 -> Z.abs d <= 2 ^ 25 -> Z.abs k <= 2 ^ 25 ->
  let f := F64_ofZ in
  val (pair_dot (N := F64) (f a, f b) (f c, f d)) = IZR (a * c + b * d) /\
  (val (fst (pair_mul (N := F64) (f a, f b) (f k))) = IZR (a * k) /\ val (snd (pair_mul (N := F64) (f a, f b) (f k))) = IZR (b * k)) /\
  (val (fst (pair_add (N := F64) (f a, f b) (f c, f d))) = IZR (a + c) /\ val (snd (pair_add (N := F64) (f a, f b) (f c, f d))) = IZR (b + d)).
Proof. exact pair_integers. Qed.
Print Assumptions C69_pair_arithmetic.
Example C69_dot_computed : SFeqb (pair_dot (N := F64) (F64_ofZ 3, F64_ofZ (-5)) (F64_ofZ 7, F64_ofZ 2)) (F64_ofZ 11) = true.
Proof. vm_compute. reflexivity. Qed.

(** C70: a printed region read as a seed file. *)
Theorem C70_region_as_seed_file : forall (N : Num) (atof : text -> nT N) (fmt : nT N -> text) (tol : nT N) (r r' : region N),
  region_made r -> region_made r' ->
  Forall (printable fmt) (getRegionPoints r ++ rg_seeds r) -> zlen (getRegionPoints r ++ rg_seeds r) <= int_max ->
  exists txt (keep : Point N -> bool), region_print fmt r = Ok txt /\ (forall q, keep q = true <-> in_domain tol r' q) /\
    addSeedsFromFile atof tol r' txt =
      Ok (with_seeds r' (filter keep (rg_seeds r' ++ map (reread atof fmt) (getRegionPoints r ++ rg_seeds r)))).
Proof. exact @region_file. Qed.
Print Assumptions C70_region_as_seed_file.

Theorem C70_six_digit_seeds : forall (tol : f64) (r r' : region F64), region_made r -> region_made r' ->
  Forall (fun q => six_digit (@px F64 q) /\ six_digit (@py F64 q)) (getRegionPoints r ++ rg_seeds r) ->
  zlen (getRegionPoints r ++ rg_seeds r) <= int_max ->
  exists txt (keep : Point F64 -> bool), region_print (N := F64) print_double r = Ok txt /\
    (forall q, keep q = true <-> in_domain (N := F64) tol r' q) /\
    addSeedsFromFile (N := F64) atof64 tol r' txt =
      Ok (with_seeds r' (filter keep (rg_seeds r' ++ map unmarked (getRegionPoints r ++ rg_seeds r)))).
Proof. exact double_seed_file. Qed.
Print Assumptions C70_six_digit_seeds.

Example C70_hypotheses_met : region_made r_seeded /\
  Forall (fun q => six_digit (@px F64 q) /\ six_digit (@py F64 q)) (getRegionPoints r_seeded ++ rg_seeds r_seeded) /\
  zlen (getRegionPoints r_seeded ++ rg_seeds r_seeded) = 6 /\ Forall (printable (N := F64) print_double) (getRegionPoints r_seeded ++ rg_seeds r_seeded).
Proof.
  split; [exact r_seeded_made|]. split; [exact r_seeded_six|]. split; [vm_compute; reflexivity|apply points_printable].
Qed.

(** the file announces more points than it has *)
Theorem C70_short_file : forall (N : Num) (atof : text -> nT N) (fmt : nT N -> text) (pts : list (Point N)) (q : Point N) n,
  Forall (printable fmt) (pts ++ [q]) -> zlen (pts ++ [q]) <= n <= int_max ->
  read_seed_file atof (unlines (print_int n :: map (point_string fmt) pts) ++ point_string fmt q) =
    Ok (map (reread atof fmt) pts ++ repeat (reread atof fmt q) (Z.to_nat n - length pts)) /\
  (zlen (pts ++ [q]) < n -> exists msg,
    read_seed_file atof (unlines (print_int n :: map (point_string fmt) (pts ++ [q]))) = Err (UB msg)).
Proof. exact @short_file. Qed.
Print Assumptions C70_short_file.
Example C70_short_hypotheses_met : Forall (printable (N := F64) print_double) ([dpt 1 1 2 1] ++ [dpt 1 3 1 1]) /\
  zlen ([dpt 1 1 2 1] ++ [dpt 1 3 1 1]) < 5 <= int_max.
Proof. split; [apply points_printable|split; reflexivity || discriminate]. Qed.

(** C71: DelaunayTriangulationGenerator. *)
Theorem C71_polygon_triangulation : forall tol, (0 < tol)%R -> forall triangulate (g0 : polygon RNum) idx points (vs : list (Point RNum)),
  vertices_are points idx vs -> separated tol (fun q => In q points) -> all_apart tol points ->
  (self_crossing_outline tol vs ->
     delaunayTriangulate (N := RNum) triangulate tol g0 idx points = Err (Throw "Self intersecting polygons are not supported")) /\
  (~ self_crossing_outline tol vs ->
     let o := triangulate swConstrained (mkPslg (N := RNum) (map xy points) (edges_of idx) []) in
     map fst (o_points o) = map xy points ->
     triangulation (zlen (o_points o)) (map fst (o_edges o)) (o_tris o) ->
     (forall t A B C, In t (o_tris o) -> vertices_are points (corners t) [A; B; C] -> orient (xy A) (xy B) (xy C) <> 0%R) ->
     exists ts, delaunayTriangulate (N := RNum) triangulate tol g0 idx points = Ok ts /\
       map (fun t : triangle RNum => pg_points (tr_poly t)) ts = map corners (o_tris o)).
Proof. exact delaunay_triangulate. Qed.
Print Assumptions C71_polygon_triangulation.

Example C71_hypotheses_met :
  vertices_are sq_pts [0; 1; 2; 3] sq_pts /\ (separated (1 / 100000)%R (fun q => In q sq_pts) /\ all_apart (1 / 100000)%R sq_pts) /\
  ~ self_crossing_outline (1 / 100000)%R sq_pts /\ map fst (o_points (sq_out RNum)) = map xy sq_pts /\
  triangulation (zlen (o_points (sq_out RNum))) (map fst (o_edges (sq_out RNum))) (o_tris (sq_out RNum)) /\
  (forall t A B C, In t (o_tris (sq_out RNum)) -> vertices_are sq_pts (corners t) [A; B; C] -> orient (xy A) (xy B) (xy C) <> 0%R).
Proof.
  split; [exact sq_pts_vertices|]. split; [apply integer_pts_apart; left; reflexivity|]. split; [exact sq_simple|].
  split; [reflexivity|]. split; [apply sq_triangulation|]. exact sq_proper.
Qed.
Example C71_crossing_hypotheses_met :
  vertices_are bow_pts [0; 1; 2; 3] bow_pts /\ (separated (1 / 100000)%R (fun q => In q bow_pts) /\ all_apart (1 / 100000)%R bow_pts) /\
  self_crossing_outline (1 / 100000)%R bow_pts.
Proof. split; [exact bow_pts_vertices|]. split; [apply integer_pts_apart; right; reflexivity|exact bow_crosses]. Qed.

(** C72: noise. *)
Theorem C72_noise : forall (f : functor RNum) (ns : nat -> R) (ks : nat -> Z) xs g zs, apply_all (N := RNum) f xs = Ok (g, zs) ->
  exists F ys, apply_all (N := RNum) (noise_functor (N := RNum) f ns ks) xs = Ok (F, ys) /\ length ys = length xs /\
    (forall i y z, nth_error ys i = Some y -> nth_error zs i = Some z ->
       (y - z = if Z.odd (ks i) then ns i else - ns i)%R /\
       (forall lo hi, (forall j, lo <= ns j <= hi)%R -> (Rabs (y - z) <= Rmax (Rabs lo) (Rabs hi))%R)).
Proof. exact noise_history. Qed.
Print Assumptions C72_noise.

Example C72_hypotheses_met : exists g zs, apply_all (N := RNum) (FPure (N := RNum) (fun _ => 5%R)) [1; 2; 3]%R = Ok (g, zs) /\ zs = [5; 5; 5]%R.
Proof. do 2 eexists. split; reflexivity. Qed.
(** noise asked to lie between 1 and 2 *)
Example C72_documented_range_refuted : exists (ns : nat -> R) (ks : nat -> Z) F y,
  (forall j, 1 <= ns j <= 2)%R /\ apply (N := RNum) (noise_functor (N := RNum) (FPure (N := RNum) (fun _ => 0%R)) ns ks) 0%R = Ok (F, y) /\ ~ (1 <= y - 0 <= 2)%R.
Proof.
  exists (fun _ => 1%R), (fun _ => 0%Z). do 2 eexists. split; [intros _; lra|]. split; [reflexivity|].
  unfold noise_term; cbn. lra.
Qed.

(** C73: sine and cosine. *)
Theorem C73_sine_and_cosine : forall a f p x : R,
  (sine_apply a f p x = a * sin (PI * f * x + p * PI / 180) /\
  cosine_apply a f p x = sine_apply a f (p + 90) x /\
  Rabs (sine_apply a f p x) <= Rabs a /\ Rabs (cosine_apply a f p x) <= Rabs a /\
  (f <> 0 -> sine_apply a f p (x + 1 / f) = - sine_apply a f p x /\ sine_apply a f p (x + 2 / f) = sine_apply a f p x))%R.
Proof. exact sine_facts. Qed.
Print Assumptions C73_sine_and_cosine.

Theorem C73_documented_form_refuted : exists a f p x : R, (sine_apply a f p x <> a * sin (f * x + p))%R.
Proof. exact sine_doc_refuted. Qed.
Print Assumptions C73_documented_form_refuted.
