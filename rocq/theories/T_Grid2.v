(** Property theorems C102 to C106: boxes, lengths, segments, regions, generated points and holes on IEEE doubles. *)
From Coq Require Import Reals Lra Lia ZArith SpecFloat List Bool.
From Flocq Require Import Core.
From Verif Require Import Base Spec MUtil MGeom MHull MPolygon MGen MRegion MMore MHist Bridge BridgeNum BridgeHist Bridge64.
From Verif Require Import PRegion PGrid8 PGen64 PReg64 Samples Samples4 Samples11.
Import ListNotations.
Open Scope Z_scope.

(** C102 *)
Theorem C102_bounding_box_on_doubles : forall (b : bbox F64), 
  bounded_point (bb1 b) -> bounded_point (bb2 b) ->
  let x0 := Rmin (val (px (bb1 b))) (val (px (bb2 b))) in let x1 := Rmax (val (px (bb1 b))) (val (px (bb2 b))) in
  let y0 := Rmin (val (py (bb1 b))) (val (py (bb2 b))) in let y1 := Rmax (val (py (bb1 b))) (val (py (bb2 b))) in
  (val (bb_xMin b) = x0 /\ val (bb_xMax b) = x1 /\ val (bb_yMin b) = y0 /\ val (bb_yMax b) = y1) /\
  (fin (bb_width b) /\ val (bb_width b) = nearest (x1 - x0) /\ fin (bb_height b) /\ val (bb_height b) = nearest (y1 - y0)) /\
  (forall q, finite_point q -> bb_contains b q = true <-> (x0 <= val (px q) <= x1 /\ y0 <= val (py q) <= y1)%R).
Proof. exact bbox_doubles. Qed.
Print Assumptions C102_bounding_box_on_doubles.

Theorem C102_region_box_on_doubles : forall (r : region F64), 
  Forall finite_point (rg_p r) ->
  let b := getBox (N := F64) r in
  (fin (bb_xMin b) /\ fin (bb_xMax b) /\ fin (bb_yMin b) /\ fin (bb_yMax b)) /\
  (forall v, In v (rg_p r) -> val (bb_xMin b) <= val (px v) <= val (bb_xMax b) /\ val (bb_yMin b) <= val (py v) <= val (bb_yMax b))%R /\
  (rg_p r <> [] -> (forall v, In v (rg_p r) -> - Bridge.big <= val (px v) <= Bridge.big /\ - Bridge.big <= val (py v) <= Bridge.big)%R ->
   (exists v, In v (rg_p r) /\ val (px v) = val (bb_xMin b)) /\ (exists v, In v (rg_p r) /\ val (px v) = val (bb_xMax b)) /\
   (exists v, In v (rg_p r) /\ val (py v) = val (bb_yMin b)) /\ (exists v, In v (rg_p r) /\ val (py v) = val (bb_yMax b))) /\
  (rg_p r <> [] -> (forall v, In v (rg_p r) -> (Bridge.big < val (px v))%R) -> val (bb_xMin b) = Bridge.big).
Proof. exact getBox_doubles. Qed.
Print Assumptions C102_region_box_on_doubles.

Theorem C102_length_on_doubles : forall e, -200 <= e <= 200 -> forall (a b c d : (Point F64)), 
  grid_point e a -> grid_point e b -> grid_point e c -> grid_point e d ->
  fin (seg_length (N := F64) a b) /\ val (seg_length (N := F64) a b) = nearest (dist (xyv a) (xyv b)) /\
  val (seg_length (N := F64) a b) = val (seg_length (N := F64) b a) /\ (val (seg_length (N := F64) a b) = 0%R <-> xyv a = xyv b) /\
  ((dist (xyv a) (xyv b) <= dist (xyv c) (xyv d))%R -> nltb (n := F64) (seg_length (N := F64) c d) (seg_length (N := F64) a b) = false).
Proof. exact length_doubles. Qed.
Print Assumptions C102_length_on_doubles.

Theorem C102_middle_on_doubles : forall e, -200 <= e <= 200 -> forall (p : list (Point F64)) (s : iseg) a b, 
  vget p (fst s) = Ok a -> vget p (snd s) = Ok b -> grid_point e a -> grid_point e b ->
  exists m, iseg_middle (N := F64) p s = Ok m /\ finite_point m /\ is_middle (xyv a) (xyv b) (xyv m) /\
  exists d, iseg_length (N := F64) p s = Ok d /\ fin d /\ val d = nearest (dist (xyv a) (xyv b)).
Proof. exact middle_doubles. Qed.
Print Assumptions C102_middle_on_doubles.

Theorem C102_longest_edge_on_doubles : forall e, -200 <= e <= 200 -> forall (p : list (Point F64)) idx vs, 
  vertices_are p idx vs -> Forall (grid_point e) vs -> idx <> [] ->
  exists m M, getMaxDistance (N := F64) idx p = Ok m /\ fin m /\ val m = nearest M /\
  (forall a b, In (a, b) (edges_of (map xyv vs)) -> (dist a b <= M)%R) /\ (exists a b, In (a, b) (edges_of (map xyv vs)) /\ M = dist a b).
Proof. exact maxDistance_doubles. Qed.
Print Assumptions C102_longest_edge_on_doubles.

Theorem C102_turn_on_doubles : forall e, -200 <= e <= 200 -> forall (p : list (Point F64)) (s : iseg) a b c, 
  vget p (fst s) = Ok a -> vget p (snd s) = Ok b -> grid_point e a -> grid_point e b -> grid_point e c ->
  (exists r, iseg_isCCW (N := F64) p s c = Ok r /\ (r = true <-> (0 < orient (xyv a) (xyv b) (xyv c))%R)) /\
  exists s', iseg_orderCCW (N := F64) p s c = Ok s' /\ (s' = s \/ s' = (snd s, fst s)) /\
  (orient (xyv a) (xyv b) (xyv c) <> 0%R -> iseg_isCCW (N := F64) p s' c = Ok true).
Proof. exact isCCW_doubles. Qed.
Print Assumptions C102_turn_on_doubles.

Example C102_hypotheses_met :
  (bounded_point (zpt 3 4) /\ bounded_point (zpt 0 0)) /\ (Forall finite_point (rg_p r_plate) /\ rg_p r_plate <> [] /\
    forall v, In v (rg_p r_plate) -> - Bridge.big <= val (px v) <= Bridge.big /\ - Bridge.big <= val (py v) <= Bridge.big)%R /\
  grid_point 0 (zpt 3 4) /\ grid_point 0 (zpt 0 0) /\ (vertices_are dart [0; 1; 2; 3; 4] dart /\ Forall (grid_point 0) dart) /\
  (vget dart 0 = Ok (zpt 0 0) /\ vget dart 1 = Ok (zpt 8 0) /\ grid_point 0 (zpt 8 0) /\ orient (xyv (zpt 0 0)) (xyv (zpt 8 0)) (xyv (zpt 3 4)) <> 0%R).
Proof.
  assert (B : forall q, grid_point 0 q -> bounded_point q) by (exact (grid_bounded 0 ltac:(lia))).
  split; [split; apply B, zpt_grid; cbn; lia|]. split.
  - destruct r_plate_shape as (-> & _). split; [|split; [discriminate|]].
    + eapply Forall_impl; [|exact plate_grid]. intros q Hq. apply B in Hq. apply Hq.
    + intros v Hv. pose proof (in_map xyv _ _ Hv) as K. rewrite plate_xyv in K. unfold xyv in K. unfold Bridge.big.
      cbn [In] in K. repeat destruct K as [K|K]; try contradiction; injection K as <- <-; lra.
  - split; [apply zpt_grid; cbn; lia|]. split; [apply zpt_grid; cbn; lia|]. split; [exact (conj dart_vertices dart_grid)|].
    split; [reflexivity|]. split; [reflexivity|]. split; [apply zpt_grid; cbn; lia|].
    rewrite !zpt_xyv by (cbn; lia). unfold orient, vcross, vsub; cbn [fst snd]. lra.
Qed.
(** the distance from (0, 0) to (3, 4) *)
Example C102_computed : neqb (n := F64) (seg_length (N := F64) (zpt 0 0) (zpt 3 4)) (nZ 5) = true.
Proof. vm_compute. reflexivity. Qed.

(** C103 *)
Theorem C103_segment_contains_on_doubles : forall e, -200 <= e <= 200 -> forall tol, fin tol -> (0 < val tol)%R -> forall (q a b : (Point F64)), 
  grid_point e q -> grid_point e a -> grid_point e b ->
  seg_contains (N := F64) tol q a b = true <-> near_segment (val tol) (xyv a) (xyv b) (xyv q).
Proof. exact seg_contains_doubles. Qed.
Print Assumptions C103_segment_contains_on_doubles.

Theorem C103_contained_in_point_segment_on_doubles : forall e, -200 <= e <= 200 -> forall tol, fin tol -> (0 < val tol)%R -> forall (p : list (Point F64)) (s : Z * Z) (a b : (Point F64)) (ps : pseg F64), 
  vertices_are p [fst s; snd s] [a; b] ->
  Forall (grid_point e) [a; b; fst ps; snd ps] ->
  exists r, iseg_isContained (N := F64) tol p s ps = Ok r /\
  (r = true <-> forall t, (0 <= t <= 1)%R -> near_segment (val tol) (xyv (fst ps)) (xyv (snd ps)) (lerp (xyv a) (xyv b) t)).
Proof. exact isContained_doubles. Qed.
Print Assumptions C103_contained_in_point_segment_on_doubles.

Theorem C103_contains_segment_on_doubles : forall e, -200 <= e <= 200 -> forall tol, fin tol -> (0 < val tol)%R -> forall (p : list (Point F64)) (s o : Z * Z) (a b c d : (Point F64)), 
  vertices_are p [fst s; snd s; fst o; snd o] [a; b; c; d] ->
  Forall (grid_point e) [a; b; c; d] ->
  exists r, iseg_contains_seg (N := F64) tol p s o = Ok r /\
  (r = true <-> forall t, (0 <= t <= 1)%R -> near_segment (val tol) (xyv a) (xyv b) (lerp (xyv c) (xyv d) t)).
Proof. exact contains_seg_doubles. Qed.
Print Assumptions C103_contains_segment_on_doubles.

Theorem C103_collinear_segments_on_doubles : forall e, -200 <= e <= 200 -> forall tol, fin tol -> forall (s1 s2 : pseg F64), 
  Forall (grid_point e) [fst s1; snd s1; fst s2; snd s2] ->
  collinear_segs (N := F64) tol s1 s2 = true <->
  forall t, (0 <= t <= 1)%R -> (Rabs (orient (xyv (fst s1)) (xyv (snd s1)) (lerp (xyv (fst s2)) (xyv (snd s2)) t)) < val tol)%R.
Proof. exact collinear_segs_doubles. Qed.
Print Assumptions C103_collinear_segments_on_doubles.

Theorem C103_equal_segments_on_doubles : forall e, -200 <= e <= 200 -> forall tol, fin tol -> forall (s1 s2 : pseg F64), 
  Forall (grid_point e) [fst s1; snd s1; fst s2; snd s2] ->
  pseg_eqb (N := F64) tol s1 s2 = true <->
  (near64 tol (fst s1) (fst s2) /\ near64 tol (snd s1) (snd s2)) \/ (near64 tol (fst s1) (snd s2) /\ near64 tol (snd s1) (fst s2)).
Proof. exact pseg_eqb_doubles. Qed.
Print Assumptions C103_equal_segments_on_doubles.

Theorem C103_container_edge_on_doubles : forall e, -200 <= e <= 200 -> forall tol, fin tol -> (0 < val tol)%R -> forall (idx : list Z) (p : list (Point F64)) (q : (Point F64)) vs, 
  vertices_are p idx vs -> Forall (grid_point e) vs -> grid_point e q ->
  exists s b, containerEdge (N := F64) tol idx p q = Ok s /\ inEdges (N := F64) tol idx p q = Ok b /\
  (b = true <-> near_border (val tol) (xyv q) (map xyv vs)) /\
  (b = false -> s = (-1, -1)%Z) /\
  (b = true -> exists k A B, nth_error (edges_of idx) k = Some s /\ nth_error (edges_of (map xyv vs)) k = Some (A, B) /\ near_segment (val tol) A B (xyv q) /\
  forall j A' B', (j < k)%nat -> nth_error (edges_of (map xyv vs)) j = Some (A', B') -> ~ near_segment (val tol) A' B' (xyv q)).
Proof. exact container_doubles. Qed.
Print Assumptions C103_container_edge_on_doubles.

Example C103_hypotheses_met :
  (fin tol64 /\ (0 < val tol64)%R) /\ vertices_are dart [0; 1; 2; 3] [zpt 0 0; zpt 8 0; zpt 8 6; zpt 3 2] /\
  Forall (grid_point 0) [zpt 0 0; zpt 8 0; zpt 8 6; zpt 3 2] /\ (vertices_are dart [0; 1; 2; 3; 4] dart /\ Forall (grid_point 0) dart /\ grid_point 0 (zpt 4 0)) /\
  near_segment (val tol64) (xyv (zpt 0 0)) (xyv (zpt 8 0)) (xyv (zpt 4 0)).
Proof.
  split; [exact (conj tol64_fin tol64_pos)|]. split; [repeat constructor; cbn; lia|].
  split; [repeat first [apply Forall_cons|apply Forall_nil]; apply zpt_grid; cbn; lia|].
  split; [split; [exact dart_vertices|split; [exact dart_grid|apply zpt_grid; cbn; lia]]|].
  rewrite !zpt_xyv by (cbn; lia). pose proof tol64_pos as T. unfold near_segment, orient, vcross, vsub; cbn [fst snd].
  rewrite Rmin_left, Rmax_right, Rmin_left, Rmax_right by lra. split; [lra|]. split; [lra|].
  match goal with |- (Rabs ?x < _)%R => replace x with 0%R by lra end. rewrite Rabs_R0. exact T.
Qed.

(** C104 *)
Theorem C104_region_contains_on_doubles : forall e, -200 <= e <= 200 -> forall tol, fin tol -> (0 < val tol)%R -> forall (r : region F64) (q : (Point F64)), 
  region_made r -> grid_region e r -> grid_point e q -> no_short_edge (val tol) (map xyv (rg_p r)) ->
  (exists b, region_containsPoint (N := F64) tol r q = Ok b /\ (b = true <-> inside_or_near (val tol) (xyv q) (map xyv (rg_p r)))) /\
  exists b, region_inEdges (N := F64) tol r q = Ok b /\ (b = true <-> near_border (val tol) (xyv q) (map xyv (rg_p r))).
Proof. exact region_contains_doubles. Qed.
Print Assumptions C104_region_contains_on_doubles.

Theorem C104_domain_on_doubles : forall e, -200 <= e <= 200 -> forall tol, fin tol -> (0 < val tol)%R -> forall (r : region F64) (q : (Point F64)), 
  region_made r -> grid_region e r -> grid_point e q -> long_edges tol r ->
  in_domain (N := F64) tol r q <-> inside_domain tol r q.
Proof. exact domain_doubles. Qed.
Print Assumptions C104_domain_on_doubles.

Theorem C104_seeding_on_doubles : forall e, -200 <= e <= 200 -> forall tol, fin tol -> (0 < val tol)%R -> forall (r : region F64) (s : list (Point F64)), 
  region_made r -> grid_region e r -> long_edges tol r -> Forall (grid_point e) s ->
  exists kept, addSeedPoints (N := F64) tol r s = Ok (with_seeds r kept) /\
  (forall q, In q kept <-> In q s /\ inside_domain tol r q) /\
  (Forall (grid_point e) (rg_seeds r) -> exists kept', addSeedsRead (N := F64) tol r s = Ok (with_seeds r kept') /\
  forall q, In q kept' <-> In q (rg_seeds r ++ s) /\ inside_domain tol r q).
Proof. exact seeding_doubles. Qed.
Print Assumptions C104_seeding_on_doubles.

Theorem C104_generated_seeds_on_doubles : forall e (tol : f64) (r : region F64) nX nY dX dY, 
  -200 <= e <= 40 -> fin tol -> (0 < val tol)%R ->
  region_made r -> grid_region e r -> long_edges tol r -> rg_p r <> [] -> Forall (grid_point e) (rg_seeds r) ->
  2 <= nX <= 2 ^ 31 -> 2 <= nY <= 2 ^ 31 ->
  let box := getBox (N := F64) r in
  let x0 := val (bb_xMin box) in let x1 := val (bb_xMax box) in let y0 := val (bb_yMin box) in let y1 := val (bb_yMax box) in
  (x1 - x0 = IZR (dX * (nX - 1)) * bpow radix2 e)%R -> (y1 - y0 = IZR (dY * (nY - 1)) * bpow radix2 e)%R ->
  let g := GBoth (N := F64) f_constant f_constant in
  exists new seeds, generateSeedPoints (N := F64) tol r g nX nY = Ok (with_seeds r seeds, g) /\
  kept (inside_domain tol r) (rg_seeds r ++ new) seeds /\ length new = (Z.to_nat nX * Z.to_nat nY)%nat /\
  forall i j, (i < Z.to_nat nY)%nat -> (j < Z.to_nat nX)%nat -> exists q, nth_error new (i * Z.to_nat nX + j) = Some q /\
  xyv q = (x0 + INR j * ((x1 - x0) / IZR (nX - 1)), y0 + INR i * ((y1 - y0) / IZR (nY - 1)))%R.
Proof. exact generated_seeds. Qed.
Print Assumptions C104_generated_seeds_on_doubles.

Theorem C104_histories_on_doubles : forall tol, fin tol -> (0 < val tol)%R -> forall (os : list (region_op F64)) (r r' : region F64),
  region_made r -> Forall op_built64 os -> region_run (N := F64) tol r os = Ok r' ->
  region_made r' /\ plan64_run tol (plan64_of r) os (plan64_of r').
Proof. exact region_history64. Qed.
Print Assumptions C104_histories_on_doubles.

Example C104_hypotheses_met :
  (fin tol64 /\ (0 < val tol64)%R) /\ region_made r_plate /\ grid_region 0 r_plate /\ long_edges tol64 r_plate /\ rg_p r_plate <> [] /\ length (rg_holes r_plate) = 1%nat /\
  Forall (grid_point 0) [zpt 1 1; zpt 3 3; zpt 9 9] /\
  (let box := getBox (N := F64) r_plate in
   (val (bb_xMax box) - val (bb_xMin box) = IZR (2 * (5 - 1)) * bpow radix2 0)%R /\ (val (bb_yMax box) - val (bb_yMin box) = IZR (4 * (3 - 1)) * bpow radix2 0)%R) /\
  plan64_fine 0 tol64 (plan64_of r_plate) /\ Forall op_built64 [OpSeeds [zpt 1 1; zpt 3 3; zpt 9 9]; OpHole clip_inside cf64 h_cutout; OpCopy].
Proof.
  split; [exact (conj tol64_fin tol64_pos)|]. split; [exact r_plate_made|]. split; [exact r_plate_grid|]. split; [exact r_plate_long|].
  destruct r_plate_shape as (E1 & E2 & E3). split; [rewrite E1; discriminate|]. split; [rewrite E2; reflexivity|].
  split; [repeat first [apply Forall_cons|apply Forall_nil]; apply zpt_grid; cbn; lia|]. split.
  - cbn zeta. destruct r_plate_box as (-> & -> & -> & ->). change (bpow radix2 0) with 1%R. cbn [Z.mul Z.sub Z.add Z.opp Pos.mul Z.pos_sub]. split; lra.
  - split.
    + destruct r_plate_grid as [G1 G2], r_plate_long as [L1 L2]. split; split; cbn [plan64_of p64_outline p64_holes]; rewrite ?Forall_map; assumption.
    + repeat (constructor; [try exact I; exact h_cutout_built|]). constructor.
Qed.
(** the point inside the hole and the point outside the plate are refused; thirteen of the fifteen nodes of the
    5 x 3 grid are kept, the nodes (2, 4) and (4, 4) being corners of the hole *)
Example C104_computed :
  (match addSeedPoints (N := F64) tol64 r_plate [zpt 1 1; zpt 3 3; zpt 9 9] with Ok r => zlen (rg_seeds r) | _ => -1 end) = 1 /\
  (match generateSeedPoints (N := F64) tol64 r_plate (GBoth (N := F64) f_constant f_constant) 5 3 with Ok (r, _) => zlen (rg_seeds r) | _ => -1 end) = 13.
Proof. split; vm_compute; reflexivity. Qed.

(** C105 *)
Theorem C105_nodes_close_on_doubles : forall k (pts : list (Point F64)) (box : bbox F64) nX nY, 
  -900 <= k <= 900 ->
  (forall c, In c [px (bb1 box); py (bb1 box); px (bb2 box); py (bb2 box)] -> fin c /\ (Rabs (val c) <= bpow radix2 k)%R) ->
  2 <= nX <= 2 ^ 31 -> 2 <= nY <= 2 ^ 31 ->
  let g := GBoth (N := F64) f_constant f_constant in
  let x0 := val (bb_xMin box) in let x1 := val (bb_xMax box) in let y0 := val (bb_yMin box) in let y1 := val (bb_yMax box) in
  exists qs, generate (N := F64) g pts box nX nY = Ok (g, pts ++ qs) /\ length qs = (Z.to_nat nX * Z.to_nat nY)%nat /\
  forall i j, (i < Z.to_nat nY)%nat -> (j < Z.to_nat nX)%nat -> exists q, nth_error qs (i * Z.to_nat nX + j) = Some q /\
  close_point (bpow radix2 (k - 48)) q (x0 + INR j * ((x1 - x0) / IZR (nX - 1)), y0 + INR i * ((y1 - y0) / IZR (nY - 1)))%R.
Proof. exact generate_near. Qed.
Print Assumptions C105_nodes_close_on_doubles.

Theorem C105_nodes_exact_on_doubles : forall e (pts : list (Point F64)) (box : bbox F64) nX nY dX dY, 
  -200 <= e <= 200 -> grid_point e (bb1 box) -> grid_point e (bb2 box) ->
  2 <= nX <= 2 ^ 31 -> 2 <= nY <= 2 ^ 31 ->
  let g := GBoth (N := F64) f_constant f_constant in
  let x0 := val (bb_xMin box) in let x1 := val (bb_xMax box) in let y0 := val (bb_yMin box) in let y1 := val (bb_yMax box) in
  (x1 - x0 = IZR (dX * (nX - 1)) * bpow radix2 e)%R -> (y1 - y0 = IZR (dY * (nY - 1)) * bpow radix2 e)%R ->
  exists qs, generate (N := F64) g pts box nX nY = Ok (g, pts ++ qs) /\ length qs = (Z.to_nat nX * Z.to_nat nY)%nat /\ Forall (grid_point e) qs /\
  forall i j, (i < Z.to_nat nY)%nat -> (j < Z.to_nat nX)%nat -> exists q, nth_error qs (i * Z.to_nat nX + j) = Some q /\
  xyv q = (x0 + INR j * ((x1 - x0) / IZR (nX - 1)), y0 + INR i * ((y1 - y0) / IZR (nY - 1)))%R.
Proof. exact generate_exact. Qed.
Print Assumptions C105_nodes_exact_on_doubles.

(** the last column of 26 constant points of the box from (0, 0) to (7, 7) lies outside the box *)
Theorem C105_refuted : exists (box : bbox F64) (g' : generator F64) (qs : list (Point F64)),
  generate (N := F64) (GBoth (N := F64) f_constant f_constant) [] box 26 2 = Ok (g', qs) /\
  exists q, In q qs /\ nltb (n := F64) (bb_xMax box) (px q) = true /\ bb_contains box q = false.
Proof. exact constant_outside. Qed.
Print Assumptions C105_refuted.

Example C105_hypotheses_met :
  (forall c, In c [px (zpt 0 0); py (zpt 0 0); px (zpt 7 7); py (zpt 7 7)] -> fin c /\ (Rabs (val c) <= bpow radix2 3)%R) /\
  grid_point 0 (zpt 0 0) /\ grid_point 0 (zpt 7 7) /\
  (let box := mkBox (N := F64) (zpt 0 0) (zpt 7 7) in (val (bb_xMax box) - val (bb_xMin box) = IZR (1 * (8 - 1)) * bpow radix2 0)%R).
Proof.
  assert (V : forall k, Z.abs k <= 2 ^ 3 -> fin (F64_ofZ k) /\ val (F64_ofZ k) = IZR k) by (intros k Hk; apply PFloat.ofZ_correct; cbn in *; lia).
  split.
  - intros c Hc. assert (K : exists k, c = F64_ofZ k /\ 0 <= k <= 7) by (unfold zpt, mkP in Hc; cbn [px py In] in Hc; repeat destruct Hc as [<-|Hc]; try contradiction; eexists; (split; [reflexivity|lia])).
    destruct K as (k & -> & Hk). destruct (V k) as [F E]; [cbn; lia|]. split; [exact F|]. rewrite E. change (bpow radix2 3) with 8%R.
    rewrite Rabs_pos_eq by (apply (IZR_le 0); lia). apply IZR_le. lia.
  - split; [apply zpt_grid; cbn; lia|]. split; [apply zpt_grid; cbn; lia|]. cbn zeta. change (bpow radix2 0) with 1%R.
    assert (W : forall x k, x = F64_ofZ k -> Z.abs k <= 2 ^ 3 -> val x = IZR k) by (intros x k -> H; apply V; exact H).
    rewrite (W (bb_xMax (mkBox (N := F64) (zpt 0 0) (zpt 7 7))) 7), (W (bb_xMin (mkBox (N := F64) (zpt 0 0) (zpt 7 7))) 0) by (vm_compute; first [reflexivity|discriminate]).
    cbn [Z.mul Z.sub Z.add Z.opp Pos.mul Z.pos_sub Pos.pred_double]. lra.
Qed.

(** C106: addHole *)
Theorem C106_add_hole_on_doubles : forall clip (cf : config F64) (r : region F64) (h : hole F64), 
  0 < Z.abs (cf_scale cf) <= 2 ^ 31 -> region_made r ->
  Forall (fits64 (cf_scale cf)) (rg_p r ++ h_points h) ->
  exists S H, Forall2 (on_grid64 (cf_scale cf)) (rg_p r) S /\ Forall2 (on_grid64 (cf_scale cf)) (h_points h) H /\
  let r' := fst (addHole clip cf r h) in let o := snd (addHole clip cf r h) in
  (forall path, clip S H = [path] -> Forall (fun k : Z * Z => Z.abs (fst k) <= 2 ^ 53 /\ Z.abs (snd k) <= 2 ^ 53) path ->
  Forall2 (off_grid64 (cf_scale cf)) path (rg_p r') /\ pg_points (rg_poly r') = trivialIndex (length path) /\
  rg_holes r' = rg_holes r /\ rg_seeds r' = rg_seeds r /\
  ((exists i j, non_adjacent (length path) i j /\ crossing_pair (N := F64) (cf_tol cf) (rg_p r') i j) -> o = Err (Throw "Self intersecting polygons are not supported")) /\
  (~ (exists i j, non_adjacent (length path) i j /\ crossing_pair (N := F64) (cf_tol cf) (rg_p r') i j) -> o = Ok tt)) /\
  (length (clip S H) <> 1%nat ->
  (region_containsPoint (N := F64) (cf_tol cf) r (h_center h) = Ok true ->
  o = Ok tt /\ r' = mkRegion (rg_poly r) (rg_p r) (rg_holes r ++ [h]) (rg_seeds r)) /\
  (region_containsPoint (N := F64) (cf_tol cf) r (h_center h) = Ok false ->
  o = Err (Throw "Hole lies completely outside of domain region") /\ r' = r)).
Proof. exact addHole_outcomes64. Qed.
Print Assumptions C106_add_hole_on_doubles.

Theorem C106_out_of_range_on_doubles : forall clip (cf : config F64) (r : region F64) (h : hole F64), 
  Z.abs (cf_scale cf) <= 2 ^ 31 ->
  Forall canonical_point (rg_p r ++ h_points h) -> ~ Forall (fits64 (cf_scale cf)) (rg_p r ++ h_points h) ->
  exists m, addHole clip cf r h = (r, Err (UB m)).
Proof. exact addHole_range64. Qed.
Print Assumptions C106_out_of_range_on_doubles.

Example C106_hypotheses_met :
  0 < Z.abs (cf_scale cf64) <= 2 ^ 31 /\ region_made r_plate /\ Forall (fits64 (cf_scale cf64)) (rg_p r_plate ++ h_points h_cutout) /\
  (canonical_point (zpt 21475 0) /\ ~ fits64 (cf_scale cf64) (zpt 21475 0)).
Proof.
  split; [cbn; lia|]. split; [exact r_plate_made|].
  assert (K : forall a b, Z.abs a <= 2 ^ 20 -> Z.abs b <= 2 ^ 20 -> nearest (IZR 100000 * val (px (zpt a b))) = IZR (100000 * a) /\ nearest (IZR 100000 * val (py (zpt a b))) = IZR (100000 * b)).
  { intros a b Ha Hb. pose proof (zpt_xyv a b Ha Hb) as E. injection E as E1 E2. change (px (zpt a b)) with (F64_ofZ a). change (py (zpt a b)) with (F64_ofZ b). rewrite E1, E2, <- !mult_IZR. change nearest with PFloat.rnd.
    split; apply PFloat.rnd_int; change (2 ^ 53) with 9007199254740992; change (2 ^ 20) with 1048576 in *; lia. }
  assert (F : forall a b, Z.abs a <= 2 ^ 20 -> Z.abs b <= 2 ^ 20 -> finite_point (zpt a b)).
  { intros a b Ha Hb. apply (grid_bounded 0 ltac:(lia)). apply zpt_grid; assumption. }
  change (cf_scale cf64) with 100000. split.
  - destruct r_plate_shape as (-> & _). rewrite h_cutout_points. unfold plate, cutout. cbn [app].
    repeat first [apply Forall_cons|apply Forall_nil];
    (split; [apply F; cbn; lia|]; match goal with |- context [zpt ?a ?b] => destruct (K a b) as [-> ->]; [cbn; lia|cbn; lia|] end; split; split; apply IZR_lt; lia).
  - destruct (F 21475 0) as [[V1 F1] [V2 F2]]; [cbn; lia|cbn; lia|]. split; [split; assumption|]. intros [_ [[_ B] _]].
    destruct (K 21475 0) as [E _]; [cbn; lia|cbn; lia|]. rewrite E in B. apply lt_IZR in B. lia.
Qed.
