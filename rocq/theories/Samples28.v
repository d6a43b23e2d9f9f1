(** Example data for T_Err2: a region with decimal coordinates and a hole, and a triangle far from the origin. *)
From Coq Require Import Reals Lra Lia ZArith SpecFloat List Bool.
From Flocq Require Import Core BinarySingleNaN.
From Verif Require Import Base Spec MUtil MGeom MHull MPolygon MMaps MTriangle MGen MRegion MDelaunay Bridge BridgeNum Bridge64 BridgeErr.
From Verif Require Import PUtil PFloat PPoly PRegion Samples Samples4 Samples5 Samples11 Samples27.
Import ListNotations.
Local Open Scope Z_scope.

Lemma slack16 : (contain_slack 16 < val tol64)%R.
Proof.
  pose proof tol64_val as [T _]. unfold contain_slack, u53. apply Rle_lt_trans with (bpow radix2 16 * bpow radix2 (-53))%R.
  - change (bpow radix2 16) with 65536%R. pose proof (bpow_gt_0 radix2 (-53)). nra.
  - rewrite <- bpow_plus. eapply Rlt_trans; [|exact T]. apply bpow_lt. lia.
Qed.
(** sides longer than the tolerance *)
Definition longb (l : list (Z * Z)) : bool := forallb (fun e => (2 ^ 190 <=? Z.abs (fst (fst e) - fst (snd e))) || (2 ^ 190 <=? Z.abs (snd (fst e) - snd (snd e)))) (edges_of l).
Lemma long_ok vs : forallb (fun q => match zp q with Some _ => true | None => false end) vs = true -> longb (zps vs) = true -> no_short_edge (val tol64) (map xyv vs).
Proof.
  intros F L. rewrite (zps_ok _ F). unfold no_short_edge, longb in *. rewrite edges_of_zr. intros a b Hin [C1 C2]. apply in_map_iff in Hin as (e & X & Hin). injection X as <- <-.
  rewrite forallb_forall in L. specialize (L e Hin). unfold zr in C1, C2. cbn [fst snd] in C1, C2. pose proof tol64_val as [_ T].
  assert (K : forall x y : Z, 2 ^ 190 <= Z.abs (x - y) -> (Rabs (IZR x * bpow radix2 (-200) - IZR y * bpow radix2 (-200)) < val tol64)%R -> False).
  { intros x y Hxy. rewrite <- Rmult_minus_distr_r, <- minus_IZR, Rabs_mult, (Rabs_pos_eq (bpow _ _)), <- abs_IZR by apply bpow_ge_0. intros C.
    apply IZR_le in Hxy. rewrite (IZR_Zpower radix2) in Hxy by lia.
    assert (D : (bpow radix2 190 * bpow radix2 (-200) <= IZR (Z.abs (x - y)) * bpow radix2 (-200))%R) by (apply Rmult_le_compat_r; [apply bpow_ge_0|exact Hxy]).
    rewrite <- bpow_plus in D. assert (B : (bpow radix2 (-16) <= bpow radix2 (190 + -200))%R) by (apply bpow_le; lia). lra. }
  apply orb_prop in L as [L|L]; apply Z.leb_le in L; [exact (K _ _ L C1)|exact (K _ _ L C2)].
Qed.
Lemma five_long : no_short_edge (val tol64) (map xyv five).
Proof. apply long_ok; vm_compute; reflexivity. Qed.

(** ** A region with a hole *)
Definition nick : list (Point F64) := [dpt 31 21; dpt 52 23; dpt 43 36].
Definition h_nick : hole F64 := ok_or (mkHole (N := F64) [] (dpt 0 0) []) (polygonalHole (N := F64) tol64 nick).
Lemma nick_hole : exists c s, polygonalHole (N := F64) tol64 nick = Ok (mkHole (N := F64) nick c s).
Proof.
  assert (K : is_ok (polygonalHole (N := F64) tol64 nick) = true) by (vm_compute; reflexivity). revert K. unfold polygonalHole.
  destruct (polygon_ctor_pts (N := F64) tol64 nick) as [g|]; [|discriminate]. cbn [bind]. destruct (getCentroid g nick) as [[g1 c]|]; [|discriminate]. cbn [bind].
  destruct (getSegments (pg_points g1) []) as [s|]; [|discriminate]. intros _. exists c, s. reflexivity.
Qed.
Lemma h_nick_built : hole_built h_nick /\ h_points h_nick = nick.
Proof. unfold h_nick. destruct nick_hole as (c & s & K). rewrite K. cbn [ok_or h_points]. split; [|reflexivity]. exact (built_polygonal (N := F64) tol64 nick _ K). Qed.
(** a polygonal hole has its center at the origin, so that the outline has to go around it *)
Definition shore : list (Point F64) := [dpt (-12) (-9); dpt 112 (-7); dpt 121 93; dpt 55 48; dpt (-3) 101].
Lemma shore_within : Forall (within 16) shore.
Proof. unfold shore. repeat first [apply Forall_cons|apply Forall_nil]; apply within16; vm_compute; reflexivity. Qed.
Lemma shore_long : no_short_edge (val tol64) (map xyv shore).
Proof. apply long_ok; vm_compute; reflexivity. Qed.
Definition r_shore : region F64 := ok_or r_none (region_ctor (N := F64) tol64 shore).
Lemma r_shore_made : region_made r_shore.
Proof. apply made_ok_or; [apply rm_default|]. intros r K. exact (rm_ctor _ _ _ K). Qed.
Definition r_nicked : region F64 := fst (addHole clip_inside cf64 r_shore h_nick).
Lemma r_nicked_made : region_made r_nicked.
Proof. apply rm_addHole; [exact r_shore_made|apply h_nick_built]. Qed.
Lemma r_nicked_shape : rg_p r_nicked = shore /\ rg_holes r_nicked = [h_nick].
Proof.
  unfold r_nicked. rewrite (inside_shape cf64 r_shore h_nick) by (vm_compute; reflexivity).
  destruct (ctor_shape tol64 shore r_none) as (E1 & E2 & _); [vm_compute; reflexivity|]. cbn [rg_p rg_holes]. unfold r_shore. rewrite E1, E2. auto.
Qed.
Lemma nick_within : Forall (within 16) nick.
Proof. unfold nick. repeat first [apply Forall_cons|apply Forall_nil]; apply within16; vm_compute; reflexivity. Qed.
Lemma r_nicked_within : region_within 16 r_nicked.
Proof.
  destruct r_nicked_shape as [E1 E2]. unfold region_within. rewrite E1, E2. split; [exact shore_within|]. constructor; [|constructor].
  rewrite (proj2 h_nick_built). exact nick_within.
Qed.
Lemma r_nicked_long : long_edges tol64 r_nicked.
Proof.
  destruct r_nicked_shape as [E1 E2]. unfold long_edges. rewrite E1, E2. split; [exact shore_long|]. constructor; [|constructor].
  rewrite (proj2 h_nick_built). apply long_ok; vm_compute; reflexivity.
Qed.
(** two inside, one in the hole, one outside *)
Definition offered : list (Point F64) := [dpt 11 13; dpt 42 26; dpt 97 55; dpt 55 83].
Lemma offered_within : Forall (within 16) offered.
Proof. unfold offered. repeat first [apply Forall_cons|apply Forall_nil]; apply within16; vm_compute; reflexivity. Qed.
Lemma offered_kept : match addSeedPoints (N := F64) tol64 r_nicked offered with Ok r => Nat.eqb (length (rg_seeds r)) 2 | _ => false end = true.
Proof. vm_compute. reflexivity. Qed.

(** ** Strictly convex quadrilaterals *)
Definition kite4 : list (Point F64) := [dpt 2 1; dpt 112 7; dpt 121 93; dpt 3 101].
Lemma kite4_vertices : vertices_are kite4 [0; 1; 2; 3] kite4.
Proof. unfold kite4, vertices_are. repeat first [apply Forall2_cons; [split; [lia|reflexivity]|]|apply Forall2_nil]. Qed.
Lemma kite4_within : Forall (within 16) kite4.
Proof. unfold kite4. repeat first [apply Forall_cons|apply Forall_nil]; apply within16; vm_compute; reflexivity. Qed.
Lemma kite4_long : no_short_edge (val tol64) (map xyv kite4).
Proof. apply long_ok; vm_compute; reflexivity. Qed.

(** ** A triangle far from the origin *)
Definition far : list (Point F64) := [dpt 9952669 8484435; dpt 6105581 6156893; dpt 0 0].
Definition far_mid : Point F64 := dpt 8029125 7320664.
Definition within20b (q : Point F64) : bool := match zp q with Some (a, b) => (Z.abs a <=? 2 ^ 220) && (Z.abs b <=? 2 ^ 220) | None => false end.
Lemma within20 q : within20b q = true -> within (bpow radix2 20) q.
Proof.
  unfold within20b. destruct (zp q) as [[a b]|] eqn:K; [|discriminate]. intros L. apply andb_prop in L as [L1 L2]. apply Z.leb_le in L1, L2.
  apply zp_val in K as (F1 & F2 & K). unfold xyv, zr in K. cbn [fst snd] in K. injection K as E1 E2. split; [exact F1|]. split; [exact F2|]. rewrite E1, E2.
  rewrite <- (Rmult_1_l (bpow radix2 20)). split; apply (zabs _ 1 20); try exact L1; try exact L2; lia.
Qed.
Lemma far_missed : exists (p : list (Point F64)) (q : Point F64), vertices_are p [0; 1; 2] p /\ Forall (within (bpow radix2 20)) (q :: p) /\
  no_short_edge (val tol64) (map xyv p) /\ on_border (xyv q) (map xyv p) /\ containsPoint (N := F64) tol64 [0; 1; 2] p q = Ok false.
Proof.
  exists far, far_mid. split; [unfold far, vertices_are; repeat first [apply Forall2_cons; [split; [lia|reflexivity]|]|apply Forall2_nil]|].
  split; [unfold far; repeat first [apply Forall_cons|apply Forall_nil]; apply within20; vm_compute; reflexivity|]. split; [apply long_ok; vm_compute; reflexivity|]. split.
  - set (a := dpt 9952669 8484435). set (b := dpt 6105581 6156893). exists (xyv a), (xyv b). split; [left; reflexivity|]. exists (/ 2)%R. split; [lra|].
    assert (K : match zp a, zp b, zp far_mid with Some (x, y), Some (x', y'), Some (u, v) => (x + x' =? 2 * u) && (y + y' =? 2 * v) | _, _, _ => false end = true) by (vm_compute; reflexivity).
    destruct (zp a) as [[x y]|] eqn:Za; [|discriminate]. destruct (zp b) as [[x' y']|] eqn:Zb; [|discriminate]. destruct (zp far_mid) as [[u v]|] eqn:Zq; [|discriminate].
    apply andb_prop in K as [K1 K2]. apply Z.eqb_eq, (f_equal IZR) in K1, K2. rewrite plus_IZR, mult_IZR in K1, K2.
    rewrite (proj2 (proj2 (zp_val _ _ Za))), (proj2 (proj2 (zp_val _ _ Zb))), (proj2 (proj2 (zp_val _ _ Zq))). unfold lerp, zr. cbn [fst snd].
    f_equal; rewrite <- ?Rmult_minus_distr_r; rewrite <- ?Rmult_assoc.
    + replace (IZR u) with ((IZR x + IZR x') / 2)%R by lra. field.
    + replace (IZR v) with ((IZR y + IZR y') / 2)%R by lra. field.
  - vm_compute. reflexivity.
Qed.

Lemma zr_inj a b : zr a = zr b -> a = b.
Proof.
  destruct a as [x y], b as [x' y']. unfold zr. cbn [fst snd]. intros K. injection K as K1 K2. pose proof (bpow_gt_0 radix2 (-200)).
  apply Rmult_eq_reg_r in K1; [|lra]. apply Rmult_eq_reg_r in K2; [|lra]. apply eq_IZR in K1, K2. congruence.
Qed.
Lemma zr_left (a b c : Z * Z) : 0 < zorient a b c -> (0 < orient (zr a) (zr b) (zr c))%R.
Proof. intros K. rewrite zorient_ok. apply IZR_lt in K. apply Rmult_lt_0_compat; [exact K|]. apply Rmult_lt_0_compat; apply bpow_gt_0. Qed.
Definition same (a b : Z * Z) : bool := (fst a =? fst b) && (snd a =? snd b).
Definition convexb (l : list (Z * Z)) : bool := forallb (fun e => forallb (fun v => same v (fst e) || same v (snd e) || (0 <? zorient (fst e) (snd e) v)) l) (edges_of l).
Lemma convex_ok l : convexb l = true -> (3 <= length l)%nat -> NoDup l -> strictly_convex (map zr l).
Proof.
  intros C L D. split; [rewrite map_length; exact L|]. split; [apply FinFun.Injective_map_NoDup; [exact zr_inj|exact D]|].
  intros a b v Hab Hv Na Nb. rewrite edges_of_zr in Hab. apply in_map_iff in Hab as (e & X & Hin). injection X as <- <-. apply in_map_iff in Hv as (w & <- & Hw).
  unfold convexb in C. rewrite forallb_forall in C. specialize (C e Hin). rewrite forallb_forall in C. specialize (C w Hw).
  assert (SM : forall a b, same a b = true -> a = b) by (intros [? ?] [? ?] K; unfold same in K; cbn [fst snd] in K; apply andb_prop in K as [K1 K2]; apply Z.eqb_eq in K1, K2; congruence).
  apply orb_prop in C as [C|C]; [|apply zr_left, Z.ltb_lt; exact C]. apply orb_prop in C as [C|C]; apply SM in C; subst; congruence.
Qed.
Lemma kite4_convex : strictly_convex (map xyv kite4).
Proof.
  rewrite zps_ok by (vm_compute; reflexivity). apply convex_ok; [vm_compute; reflexivity|cbn; lia|].
  assert (K : nodup (fun a b : Z * Z => ltac:(decide equality; apply Z.eq_dec)) (zps kite4) = zps kite4) by (vm_compute; reflexivity). rewrite <- K. apply NoDup_nodup.
Qed.
Definition insideb (q : Point F64) (vs : list (Point F64)) : bool := match zp q with Some k => forallb (fun e => 0 <? zorient (fst e) (snd e) k) (edges_of (zps vs)) | None => false end.
Definition outsideb (q : Point F64) (vs : list (Point F64)) : bool := match zp q with Some k => existsb (fun e => zorient (fst e) (snd e) k <? 0) (edges_of (zps vs)) | None => false end.
Lemma inside_ok q vs : forallb (fun q => match zp q with Some _ => true | None => false end) vs = true -> insideb q vs = true ->
  forall a b, In (a, b) (edges_of (map xyv vs)) -> (0 < orient a b (xyv q))%R.
Proof.
  intros F K a b Hab. rewrite (zps_ok _ F), edges_of_zr in Hab. apply in_map_iff in Hab as (e & X & Hin). injection X as <- <-. unfold insideb in K.
  destruct (zp q) as [k|] eqn:Q; [|discriminate]. rewrite (proj2 (proj2 (zp_val _ _ Q))). rewrite forallb_forall in K. apply zr_left, Z.ltb_lt. exact (K e Hin).
Qed.
Lemma outside_ok q vs : forallb (fun q => match zp q with Some _ => true | None => false end) vs = true -> outsideb q vs = true ->
  exists a b, In (a, b) (edges_of (map xyv vs)) /\ (orient a b (xyv q) < 0)%R.
Proof.
  intros F K. rewrite (zps_ok _ F), edges_of_zr. unfold outsideb in K. destruct (zp q) as [k|] eqn:Q; [|discriminate]. rewrite (proj2 (proj2 (zp_val _ _ Q))).
  apply existsb_exists in K as (e & Hin & K). exists (zr (fst e)), (zr (snd e)). split; [apply in_map_iff; exists e; auto|]. apply Z.ltb_lt, IZR_lt in K. rewrite zorient_ok.
  assert (P : (0 < bpow radix2 (-200) * bpow radix2 (-200))%R) by (apply Rmult_lt_0_compat; apply bpow_gt_0). nra.
Qed.
(** the middle of the bottom side of a rectangle *)
Definition slab : list (Point F64) := [dpt 3 7; dpt 9 7; dpt 9 31; dpt 3 31].
Lemma slab_vertices : vertices_are slab [0; 1; 2; 3] slab.
Proof. unfold slab, vertices_are. repeat first [apply Forall2_cons; [split; [lia|reflexivity]|]|apply Forall2_nil]. Qed.
Lemma slab_within : Forall (within 16) (dpt 5 7 :: slab).
Proof. unfold slab. repeat first [apply Forall_cons|apply Forall_nil]; apply within16; vm_compute; reflexivity. Qed.
Lemma slab_border : on_border (xyv (dpt 5 7)) (map xyv slab).
Proof.
  exists (xyv (dpt 3 7)), (xyv (dpt 9 7)). split; [left; reflexivity|]. destruct (zp (dpt 3 7)) as [[a y]|] eqn:Za; [|vm_compute in Za; discriminate].
  destruct (zp (dpt 9 7)) as [[b y']|] eqn:Zb; [|vm_compute in Zb; discriminate]. destruct (zp (dpt 5 7)) as [[c y'']|] eqn:Zc; [|vm_compute in Zc; discriminate].
  assert (K : y = y' /\ y = y'' /\ a < c < b).
  { vm_compute in Za, Zb, Zc. injection Za as <- <-. injection Zb as <- <-. injection Zc as <- <-. split; [reflexivity|]. split; [reflexivity|]. split; reflexivity. }
  destruct K as (<- & <- & K1 & K2). apply IZR_lt in K1, K2. pose proof (bpow_gt_0 radix2 (-200)) as P.
  rewrite (proj2 (proj2 (zp_val _ _ Za))), (proj2 (proj2 (zp_val _ _ Zb))), (proj2 (proj2 (zp_val _ _ Zc))). unfold on_segment, zr.
  exists ((IZR c - IZR a) / (IZR b - IZR a))%R. split.
  - split; [apply Rmult_le_pos; [lra|]; apply Rlt_le, Rinv_0_lt_compat; lra|]. apply Rmult_le_reg_r with (IZR b - IZR a)%R; [lra|]. unfold Rdiv. rewrite Rmult_assoc, Rinv_l by lra. lra.
  - unfold lerp. cbn [fst snd]. f_equal; [field; lra|ring].
Qed.
