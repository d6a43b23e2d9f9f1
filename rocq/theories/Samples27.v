(** Example data for T_Err: points with decimal coordinates, which lie on no coarse grid. *)
From Coq Require Import Reals Lra Lia ZArith SpecFloat List Bool.
From Flocq Require Import Core BinarySingleNaN.
From Verif Require Import Base Spec MUtil MGeom MHull MPolygon MMaps MTriangle MGen MRegion MDelaunay MVoronoi Bridge BridgeNum BridgeVor64 BridgeErr.
From Verif Require Import PUtil PFloat PPoly PVor64 PErr2 PErr4 Samples Samples4 Samples5 Samples6.
Import ListNotations.
Local Open Scope Z_scope.

(** tenths *)
Definition dec (a : Z) : f64 := @ndiv F64 (F64_ofZ a) (F64_ofZ 10).
Definition dpt (a b : Z) : Point F64 := mkPoint (N := F64) (dec a) (dec b) false false.

(** ** Doubles as integers over 2^200 *)
Definition zv (x : f64) : option Z :=
  match x with
  | S754_zero _ => Some 0
  | S754_finite s m e => if (-200 <=? e) && SpecFloat.valid_binary 53 1024 x then Some (cond_Zopp s (Z.pos m) * 2 ^ (e + 200)) else None
  | _ => None
  end.
Lemma zv_val x k : zv x = Some k -> fin x /\ val x = (IZR k * bpow radix2 (-200))%R.
Proof.
  destruct x as [s|s| |s m e]; try discriminate; cbn [zv].
  - intros H; injection H as <-. split; [split; reflexivity|]. unfold val, SF2R. lra.
  - destruct (-200 <=? e) eqn:Ee; [|discriminate]. destruct (SpecFloat.valid_binary 53 1024 (S754_finite s m e)) eqn:V; [|discriminate]. cbn [andb]. intros H; injection H as <-.
    split; [split; [exact V|reflexivity]|]. apply Z.leb_le in Ee. unfold val, SF2R, F2R. cbn [Fnum Fexp]. rewrite mult_IZR, (IZR_Zpower radix2) by lia.
    rewrite Rmult_assoc, <- bpow_plus. do 2 f_equal. lia.
Qed.
Definition zp (q : Point F64) : option (Z * Z) := match zv (px q), zv (py q) with Some a, Some b => Some (a, b) | _, _ => None end.
Definition zr (k : Z * Z) : R * R := (IZR (fst k) * bpow radix2 (-200), IZR (snd k) * bpow radix2 (-200))%R.
Lemma zp_val q k : zp q = Some k -> fin (px q) /\ fin (py q) /\ xyv q = zr k.
Proof.
  unfold zp. destruct (zv (px q)) as [a|] eqn:A; [|discriminate]. destruct (zv (py q)) as [b|] eqn:B; [|discriminate]. intros H; injection H as <-.
  apply zv_val in A as [A1 A2], B as [B1 B2]. split; [exact A1|]. split; [exact B1|]. unfold xyv, zr. cbn [fst snd]. rewrite A2, B2. reflexivity.
Qed.
Lemma zabs k (b : Z) e : Z.abs k <= b * 2 ^ (e + 200) -> -200 <= e -> (Rabs (IZR k * bpow radix2 (-200)) <= IZR b * bpow radix2 e)%R.
Proof.
  intros H He. rewrite Rabs_mult, (Rabs_pos_eq (bpow _ _)) by apply bpow_ge_0. rewrite <- abs_IZR.
  replace (bpow radix2 e) with (bpow radix2 (e + 200) * bpow radix2 (-200))%R by (rewrite <- bpow_plus; f_equal; lia).
  rewrite <- Rmult_assoc. apply Rmult_le_compat_r; [apply bpow_ge_0|]. rewrite <- (IZR_Zpower radix2) by lia. rewrite <- mult_IZR. apply IZR_le. exact H.
Qed.
(** coordinates up to 16 *)
Definition within16b (q : Point F64) : bool := match zp q with Some (a, b) => (Z.abs a <=? 2 ^ 204) && (Z.abs b <=? 2 ^ 204) | None => false end.
Lemma within16 q : within16b q = true -> within 16 q.
Proof.
  unfold within16b. destruct (zp q) as [[a b]|] eqn:E; [|discriminate]. intros H. apply andb_prop in H as [H1 H2]. apply Z.leb_le in H1, H2.
  apply zp_val in E as (F1 & F2 & E). unfold xyv, zr in E. cbn [fst snd] in E. injection E as E1 E2. split; [exact F1|]. split; [exact F2|]. rewrite E1, E2.
  assert (E16 : (IZR 1 * bpow radix2 4 = 16)%R) by (change (bpow radix2 4) with 16%R; lra). rewrite <- E16. split; apply zabs; try exact H1; try exact H2; lia.
Qed.
Lemma scale16 : scale 16.
Proof. unfold scale. change 16%R with (bpow radix2 4). split; apply bpow_le; lia. Qed.
Definition zorient (a b c : Z * Z) : Z := (fst b - fst a) * (snd c - snd a) - (snd b - snd a) * (fst c - fst a).
Lemma zorient_ok a b c : orient (zr a) (zr b) (zr c) = (IZR (zorient a b c) * (bpow radix2 (-200) * bpow radix2 (-200)))%R.
Proof. unfold orient, vcross, vsub, zr, zorient. cbn [fst snd]. rewrite minus_IZR, !mult_IZR, !minus_IZR. ring. Qed.
(** twice the area is at least 2^-20 *)
Definition fatb (A B C : Point F64) : bool := match zp A, zp B, zp C with Some a, Some b, Some c => 2 ^ 380 <=? Z.abs (zorient a b c) | _, _, _ => false end.
Lemma fat_ok A B C : fatb A B C = true -> (bpow radix2 (-20) <= Rabs (orient (xyv A) (xyv B) (xyv C)))%R.
Proof.
  unfold fatb. destruct (zp A) as [a|] eqn:EA; [|discriminate]. destruct (zp B) as [b|] eqn:EB; [|discriminate]. destruct (zp C) as [c|] eqn:EC; [|discriminate].
  intros H. apply Z.leb_le in H. apply zp_val in EA as (_ & _ & ->), EB as (_ & _ & ->), EC as (_ & _ & ->). rewrite zorient_ok, <- bpow_plus, Rabs_mult, (Rabs_pos_eq (bpow _ _)) by apply bpow_ge_0.
  replace (bpow radix2 (-20)) with (bpow radix2 380 * bpow radix2 (-200 + -200))%R by (rewrite <- bpow_plus; reflexivity).
  apply Rmult_le_compat_r; [apply bpow_ge_0|]. rewrite <- abs_IZR, <- (IZR_Zpower radix2) by lia. apply IZR_le. exact H.
Qed.
Lemma fat16 A B C : fatb A B C = true -> not_thin 16 (xyv A) (xyv B) (xyv C) /\ (45 * u53 * (16 * 16) < Rabs (orient (xyv A) (xyv B) (xyv C)))%R.
Proof.
  intros H. apply fat_ok in H. unfold not_thin, u53. change 16%R with (bpow radix2 4). rewrite <- !bpow_plus. split.
  - eapply Rle_trans; [|exact H]. apply bpow_le. lia.
  - eapply Rlt_le_trans; [|exact H]. apply Rle_lt_trans with (bpow radix2 6 * bpow radix2 (-53) * bpow radix2 (4 + 4))%R.
    + apply Rmult_le_compat_r; [apply bpow_ge_0|]. apply Rmult_le_compat_r; [apply bpow_ge_0|]. change (bpow radix2 6) with 64%R. lra.
    + rewrite <- !bpow_plus. apply bpow_lt. lia.
Qed.

(** ** A polygon in the manner of test/UnicornTestMain.cpp *)
Definition five : list (Point F64) := [dpt 2 1; dpt 112 7; dpt 121 93; dpt 55 48; dpt 3 101].
Lemma five_within : Forall (within 16) five.
Proof. unfold five. repeat first [apply Forall_cons|apply Forall_nil]; apply within16; vm_compute; reflexivity. Qed.
Lemma five_vertices : vertices_are five [0; 1; 2; 3; 4] five.
Proof. unfold five, vertices_are. repeat first [apply Forall2_cons; [split; [lia|reflexivity]|]|apply Forall2_nil]. Qed.
Definition zshoelace (l : list (Z * Z)) : Z := fold_right Z.add 0 (map (fun e => fst (fst e) * snd (snd e) - snd (fst e) * fst (snd e)) (edges_of l)).
Lemma edges_of_zr l : edges_of (map zr l) = map (fun e => (zr (fst e), zr (snd e))) (edges_of l).
Proof. apply edges_of_map. Qed.
Lemma zshoelace_ok l : shoelace (map zr l) = (IZR (zshoelace l) * (bpow radix2 (-200) * bpow radix2 (-200)) / 2)%R.
Proof.
  unfold shoelace, zshoelace. f_equal. rewrite edges_of_zr, map_map. induction (edges_of l) as [|e es IH]; cbn [map fold_right sumR]; [lra|].
  unfold sumR in *. cbn [fold_right]. rewrite IH, plus_IZR, minus_IZR, !mult_IZR. unfold vcross, zr. cbn [fst snd]. ring.
Qed.
Definition zps (vs : list (Point F64)) : list (Z * Z) := map (fun q => match zp q with Some k => k | None => (0, 0) end) vs.
Lemma zps_ok vs : forallb (fun q => match zp q with Some _ => true | None => false end) vs = true -> map xyv vs = map zr (zps vs).
Proof.
  induction vs as [|v vs IH]; cbn [forallb zps map]; [reflexivity|]. intros H. apply andb_prop in H as [H1 H2]. rewrite (IH H2).
  destruct (zp v) as [k|] eqn:E; [|discriminate]. apply zp_val in E as (_ & _ & ->). reflexivity.
Qed.
Lemma five_area : (12 * (IZR (zlen [0; 1; 2; 3; 4]) * IZR (zlen [0; 1; 2; 3; 4])) * u53 * (16 * 16) < shoelace (map xyv five))%R.
Proof.
  rewrite zps_ok by (vm_compute; reflexivity). rewrite zshoelace_ok.
  assert (K : 2 ^ 400 <= zshoelace (zps five)) by (vm_compute; discriminate). apply IZR_le in K. rewrite (IZR_Zpower radix2) in K by lia.
  unfold zlen; cbn [length Z.of_nat Pos.of_succ_nat Pos.succ]. unfold u53.
  assert (L : (1 <= IZR (zshoelace (zps five)) * (bpow radix2 (-200) * bpow radix2 (-200)))%R).
  { replace 1%R with (bpow radix2 400 * (bpow radix2 (-200) * bpow radix2 (-200)))%R by (rewrite <- !bpow_plus; reflexivity).
    apply Rmult_le_compat_r; [|exact K]. apply Rmult_le_pos; apply bpow_ge_0. }
  assert (U : (bpow radix2 (-53) <= bpow radix2 (-20))%R) by (apply bpow_le; lia). change (bpow radix2 (-20)) with (/ 1048576)%R in U.
  clear K. revert L U. generalize (IZR (zshoelace (zps five)) * (bpow radix2 (-200) * bpow radix2 (-200)))%R (bpow radix2 (-53)). intros X u L U. lra.
Qed.

(** ** A rectangle with an inner point *)
Definition dwheel : trout F64 :=
  mkTrout (N := F64) [(dec 1, dec 2, 1); (dec 83, dec 1, 1); (dec 84, dec 63, 1); (dec 2, dec 62, 1); (dec 31, dec 22, 0)]
    (o_edges (wheel_out F64)) (o_tris (wheel_out F64)).
Lemma dwheel_triangulation : triangulation (zlen (o_points dwheel)) (map fst (o_edges dwheel)) (o_tris dwheel).
Proof. exact (wheel_triangulation F64). Qed.
Lemma dwheel_fans v : In v (flat_map corners (o_tris dwheel)) ->
  (exists ws ts, closed_fan (map fst (o_edges dwheel)) (o_tris dwheel) v ws ts) \/
  (exists w ws w' ts, open_fan (o_edges dwheel) (o_tris dwheel) v w ws w' ts).
Proof. exact (wheel_fans F64 v). Qed.
Lemma dwheel_inner : closed_fan (map fst (o_edges dwheel)) (o_tris dwheel) 4 [0; 1; 2; 3] [0; 1; 2; 3]%nat.
Proof. exact (wheel_inner F64). Qed.
Lemma dwheel_within : Forall (within 16) (map read_point (o_points dwheel)).
Proof.
  cbn [dwheel o_points map]. repeat first [apply Forall_cons|apply Forall_nil]; apply within16; vm_compute; reflexivity.
Qed.
Definition bpt (a b : Z) : Point F64 := mkPoint (N := F64) (dec a) (dec b) true false.
Lemma dwheel_points : map read_point (o_points dwheel) = [bpt 1 2; bpt 83 1; bpt 84 63; bpt 2 62; dpt 31 22].
Proof. reflexivity. Qed.
Lemma dwheel_tri t A B C : In t (o_tris dwheel) -> vertices_are (map read_point (o_points dwheel)) (corners t) [A; B; C] ->
  C = dpt 31 22 /\ (A = bpt 1 2 /\ B = bpt 83 1 \/ A = bpt 83 1 /\ B = bpt 84 63 \/ A = bpt 84 63 /\ B = bpt 2 62 \/ A = bpt 2 62 /\ B = bpt 1 2).
Proof.
  rewrite dwheel_points. intros [<-|[<-|[<-|[<-|[]]]]] H; unfold vertices_are in H; cbn [corners] in H;
  inversion_clear H as [|? ? ? ? [_ H1] H2]; inversion_clear H2 as [|? ? ? ? [_ H3] H4]; inversion_clear H4 as [|? ? ? ? [_ H5] H6];
  injection H1 as <-; injection H3 as <-; injection H5 as <-; tauto.
Qed.
Lemma dwheel_fat t A B C : In t (o_tris dwheel) -> vertices_are (map read_point (o_points dwheel)) (corners t) [A; B; C] -> not_thin 16 (xyv A) (xyv B) (xyv C).
Proof.
  intros Ht V. destruct (dwheel_tri t A B C Ht V) as (-> & [(-> & ->)|[(-> & ->)|[(-> & ->)|(-> & ->)]]]); apply fat16; vm_compute; reflexivity.
Qed.
(** all the points the cells are made of *)
Definition pair_of (r : res (Point F64)) : list (Z * Z) := match r with Ok c => match zp c with Some k => [k] | None => [] end | Err _ => [] end.
Definition dsources : list (Z * Z) :=
  pair_of (circumcenter (N := F64) (bpt 1 2) (bpt 83 1) (dpt 31 22)) ++ pair_of (circumcenter (N := F64) (bpt 83 1) (bpt 84 63) (dpt 31 22)) ++
  pair_of (circumcenter (N := F64) (bpt 84 63) (bpt 2 62) (dpt 31 22)) ++ pair_of (circumcenter (N := F64) (bpt 2 62) (bpt 1 2) (dpt 31 22)) ++
  flat_map (fun e => pair_of (iseg_middle (map read_point (o_points dwheel)) (fst e))) (o_edges dwheel) ++
  flat_map (fun q => pair_of (Ok q)) (map read_point (o_points dwheel)).
Definition some_pair (r : res (Point F64)) : bool := match r with Ok c => match zp c with Some _ => true | None => false end | Err _ => true end.
Lemma pair_of_in r (x : Point F64) : r = Ok x -> some_pair r = true -> exists k, In k (pair_of r) /\ zp x = Some k.
Proof. intros -> H. cbn [pair_of some_pair] in *. destruct (zp x) as [k|]; [|discriminate]. exists k. split; [left; reflexivity|reflexivity]. Qed.
Lemma dwheel_sources x : vertex_source dwheel x -> exists k, In k dsources /\ zp x = Some k.
Proof.
  intros (v & H). unfold dsources. destruct H as [t A B C Ht Hv V CC|e m He TV LI M ->|q V ->].
  - destruct (dwheel_tri t A B C Ht V) as (-> & [(-> & ->)|[(-> & ->)|[(-> & ->)|(-> & ->)]]]);
    (destruct (pair_of_in _ x CC) as (k & K1 & K2); [vm_compute; reflexivity|]; exists k; split; [|exact K2]; rewrite !in_app_iff; tauto).
  - assert (F : forallb (fun e => some_pair (iseg_middle (map read_point (o_points dwheel)) (fst e))) (o_edges dwheel) = true) by (vm_compute; reflexivity).
    rewrite forallb_forall in F. destruct (pair_of_in _ m M (F e He)) as (k & K1 & K2). exists k. split; [|exact K2]. rewrite !in_app_iff. do 4 right. left. apply in_flat_map. exists e. auto.
  - assert (F : forallb (fun q => some_pair (Ok q)) (map read_point (o_points dwheel)) = true) by (vm_compute; reflexivity).
    rewrite forallb_forall in F. inversion_clear V as [|? ? ? ? [_ H1] _]. apply nth_error_In in H1.
    destruct (pair_of_in (Ok q) q eq_refl (F q H1)) as (k & K1 & K2). exists k. split; [|exact K2]. rewrite !in_app_iff. do 5 right. apply in_flat_map. exists q. auto.
Qed.
Definition clearb (a b : Z) : bool := (2 * Z.abs (a - b) <? 2 ^ 183) || (2 ^ 184 <=? Z.abs (a - b)).
Lemma clear_ok a b : clearb a b = true -> clear_of (val tol64) (IZR a * bpow radix2 (-200) - IZR b * bpow radix2 (-200)).
Proof.
  unfold clearb, clear_of. intros H. rewrite <- Rmult_minus_distr_r, <- minus_IZR, Rabs_mult, (Rabs_pos_eq (bpow _ _)), <- abs_IZR by apply bpow_ge_0.
  pose proof tol64_val as [T1 T2]. pose proof (bpow_gt_0 radix2 (-200)) as P. apply orb_prop in H as [H|H].
  - left. apply Z.ltb_lt, IZR_lt in H. rewrite mult_IZR, (IZR_Zpower radix2) in H by lia. eapply Rlt_trans; [|exact T1].
    replace (bpow radix2 (-17)) with (bpow radix2 183 * bpow radix2 (-200))%R by (rewrite <- bpow_plus; reflexivity). rewrite <- Rmult_assoc. apply Rmult_lt_compat_r; assumption.
  - right. apply Z.leb_le, IZR_le in H. rewrite (IZR_Zpower radix2) in H by lia. apply Rlt_le. eapply Rlt_le_trans; [exact T2|].
    replace (bpow radix2 (-16)) with (bpow radix2 184 * bpow radix2 (-200))%R by (rewrite <- bpow_plus; reflexivity). apply Rmult_le_compat_r; lra.
Qed.
Lemma dwheel_clustered : clustered tol64 (vertex_source dwheel).
Proof.
  assert (B : forallb (fun k => (Z.abs (fst k) <=? 2 ^ 210) && (Z.abs (snd k) <=? 2 ^ 210)) dsources = true) by (vm_compute; reflexivity).
  assert (D : forallb (fun k => forallb (fun k' => clearb (fst k) (fst k') && clearb (snd k) (snd k')) dsources) dsources = true) by (vm_compute; reflexivity).
  rewrite forallb_forall in B, D. split.
  - intros x H. destruct (dwheel_sources x H) as (k & K1 & K2). apply B in K1. apply andb_prop in K1 as [B1 B2]. apply Z.leb_le in B1, B2.
    apply zp_val in K2 as (F1 & F2 & E). unfold xyv, zr in E. injection E as E1 E2. split; [exact F1|]. split; [exact F2|]. rewrite E1, E2.
    assert (W : (IZR 1 * bpow radix2 10 <= bpow radix2 1000)%R) by (rewrite Rmult_1_l; apply bpow_le; lia).
    split; (eapply Rle_trans; [apply (zabs _ 1 10); [eassumption|lia]|exact W]).
  - intros x y H H'. destruct (dwheel_sources x H) as (k & K1 & K2), (dwheel_sources y H') as (k' & K1' & K2').
    pose proof (D k K1) as DK. rewrite forallb_forall in DK. specialize (DK k' K1'). apply andb_prop in DK as [D1 D2].
    apply zp_val in K2 as (_ & _ & E), K2' as (_ & _ & E'). unfold xyv, zr in E, E'. injection E as E1 E2. injection E' as E1' E2'. rewrite E1, E2, E1', E2'.
    split; apply clear_ok; assumption.
Qed.

(** ** A thin triangle given counterclockwise *)
Definition sliver : list (Point F64) := [dpt 14 22; dpt 25 38; dpt 69 102].
Lemma sliver_wrong : exists (p : list (Point F64)), Forall (within 16) p /\ length p = 3%nat /\ vertices_are p [0; 1; 2] p /\
  (0 < shoelace (map xyv p))%R /\ isClockwise (N := F64) [0; 1; 2] p = Ok true.
Proof.
  exists sliver. split; [unfold sliver; repeat first [apply Forall_cons|apply Forall_nil]; apply within16; vm_compute; reflexivity|].
  split; [reflexivity|]. split; [unfold sliver, vertices_are; repeat first [apply Forall2_cons; [split; [lia|reflexivity]|]|apply Forall2_nil]|]. split.
  - rewrite zps_ok by (vm_compute; reflexivity). rewrite zshoelace_ok. assert (K : 1 <= zshoelace (zps sliver)) by (vm_compute; discriminate). apply IZR_le in K.
    apply Rdiv_lt_0_compat; [|lra]. apply Rmult_lt_0_compat; [lra|]. apply Rmult_lt_0_compat; apply bpow_gt_0.
  - vm_compute. reflexivity.
Qed.
