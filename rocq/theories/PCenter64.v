(** The center triangulation on doubles with grid coordinates. *)
From Coq Require Import Reals Lra Lia Psatz ZArith SpecFloat List Bool.
From Flocq Require Import Core BinarySingleNaN.
From Verif Require Import Base Spec SpecNum MUtil MGeom MHull MPolygon MMaps MTriangle Bridge BridgeNum BridgeVor64 PPoint PSegment PFloat PPoly PPoly2 PTri PGrid PGrid2 PGrid3 PGrid4 PGrid5 PGrid6 PRandom.
Import ListNotations.
Local Open Scope Z_scope.

Notation PF := (Point F64).

(** the point at which the average is taken, in exact arithmetic *)
Definition mean_of (vs : list pt) : pt :=
  (sumR (map fst vs) / INR (length vs), sumR (map snd vs) / INR (length vs))%R.

Section Center.
  Variable e : Z.
  Hypothesis He : -200 <= e <= 200.
  Notation gp := (grid_point e).

  Lemma sum_grid64 (p : list PF) idx vs : vertices_are p idx vs -> Forall gp vs -> forall (m : Z) (acc : nT F64 * nT F64),
    grid e m (fst acc) -> grid e m (snd acc) -> 0 <= m -> m + Z.of_nat (length vs) * 2 ^ 20 <= 2 ^ 53 ->
    exists x y, foldM (fun (acc : nT F64 * nT F64) v => a <- vget p v ;; Ok (@nadd F64 (fst acc) (px a), @nadd F64 (snd acc) (py a))) idx acc = Ok (x, y) /\
      grid e (m + Z.of_nat (length vs) * 2 ^ 20) x /\ grid e (m + Z.of_nat (length vs) * 2 ^ 20) y /\
      val x = (val (fst acc) + sumR (map (fun v : PF => val (px v)) vs))%R /\ val y = (val (snd acc) + sumR (map (fun v : PF => val (py v)) vs))%R.
  Proof.
    unfold vertices_are. induction 1 as [|k v idx vs [Hk Hv] H IH]; intros G m acc Gx Gy Hm HL.
    - destruct acc as [x y]. exists x, y. cbn [length map sumR fold_right fst snd] in *. rewrite !Z.mul_0_l, !Z.add_0_r, !Rplus_0_r. auto.
    - apply Forall_cons_iff in G as [[G1 G2] G]. cbn [length] in HL. rewrite Nat2Z.inj_succ in HL.
      destruct (grid_add e m (2 ^ 20) (fst acc) (px v) Gx G1) as [A1 V1]; [lia|unfold okexp; lia|].
      destruct (grid_add e m (2 ^ 20) (snd acc) (py v) Gy G2) as [A2 V2]; [lia|unfold okexp; lia|].
      destruct (IH G (m + 2 ^ 20) (@nadd F64 (fst acc) (px v), @nadd F64 (snd acc) (py v)) A1 A2) as (x & y & E & X & Y & VX & VY); [lia|lia|].
      exists x, y. cbn [foldM]. assert (EV : vget p k = Ok v) by (apply vget_ok; split; assumption). rewrite EV. cbn [bind].
      split; [exact E|]. cbn [length map sumR fold_right]. rewrite Nat2Z.inj_succ.
      replace (m + Z.succ (Z.of_nat (length vs)) * 2 ^ 20) with (m + 2 ^ 20 + Z.of_nat (length vs) * 2 ^ 20) by lia.
      split; [exact X|]. split; [exact Y|]. cbn [fst snd] in VX, VY. rewrite VX, VY, V1, V2. fold (sumR (map (fun v : PF => val (px v)) vs)) (sumR (map (fun v : PF => val (py v)) vs)). split; ring.
  Qed.

  (** a sum of grid coordinates is at most the number of them times the largest *)
  Lemma sum_bound (f : PF -> R) (vs : list PF) b : (forall v, In v vs -> Rabs (f v) <= b)%R -> (Rabs (sumR (map f vs)) <= INR (length vs) * b)%R.
  Proof.
    induction vs as [|v vs IH]; intros H; [cbn; rewrite Rabs_R0; lra|]. cbn [map sumR fold_right length]. rewrite S_INR. fold (sumR (map f vs)).
    eapply Rle_trans; [apply Rabs_triang|]. pose proof (H v (or_introl eq_refl)). pose proof (IH (fun w Hw => H w (or_intror Hw))). lra.
  Qed.

  Lemma gp_bound v : gp v -> (Rabs (val (px v)) <= bpow radix2 (20 + e))%R /\ (Rabs (val (py v)) <= bpow radix2 (20 + e))%R.
  Proof. intros [A B]. split; eapply grid_bound; try eassumption; lia. Qed.

  Lemma average_grid (p : list PF) idx vs : vertices_are p idx vs -> Forall gp vs -> (1 <= length vs <= 1024)%nat ->
    exists c, getAverage (N := F64) idx p = Ok c /\ fin (px c) /\ fin (py c) /\ xyv c = rounded (mean_of (map xyv vs)) /\
      (Rabs (fst (mean_of (map xyv vs))) <= bpow radix2 (20 + e))%R /\ (Rabs (snd (mean_of (map xyv vs))) <= bpow radix2 (20 + e))%R.
  Proof.
    intros V G L. pose proof (vertices_length _ _ _ V) as VL. unfold getAverage.
    destruct (grid_zero e) as [Z0 VZ].
    destruct (sum_grid64 p idx vs V G 0 (@nZ F64 0, @nZ F64 0) Z0 Z0) as (x & y & E & X & Y & VX & VY); [lia|lia|].
    rewrite E. cbn [bind].
    assert (HZ : zlen idx = Z.of_nat (length vs)) by (unfold zlen; lia).
    destruct (grid_int (zlen idx)) as [[Fn _] Vn]; [rewrite HZ; lia|].
    assert (N0 : (0 < IZR (zlen idx))%R) by (apply IZR_lt; lia).
    assert (NE : @neqb F64 (@nZ F64 (zlen idx)) (@nZ F64 0) = false).
    { rewrite (eqb_correct _ _ Fn (proj1 Z0)), Vn, VZ. apply Reqb_false. lra. }
    unfold divr. rewrite !NE. cbn [bind].
    assert (EN : IZR (zlen idx) = INR (length vs)) by (rewrite HZ, INR_IZR_INZ; reflexivity).
    assert (B : forall f : PF -> R, (forall v, In v vs -> Rabs (f v) <= bpow radix2 (20 + e))%R -> (Rabs (sumR (map f vs) / INR (length vs)) <= bpow radix2 (20 + e))%R).
    { intros f Hf. unfold Rdiv. rewrite Rabs_mult, (Rabs_pos_eq (/ _)) by (rewrite <- EN; left; apply Rinv_0_lt_compat; exact N0).
      apply Rmult_le_reg_r with (INR (length vs)); [lra|]. rewrite Rmult_assoc, Rinv_l, Rmult_1_r by lra. pose proof (sum_bound f vs _ Hf). lra. }
    rewrite Forall_forall in G.
    assert (BX := B (fun v : PF => val (px v)) (fun v Hv => proj1 (gp_bound v (G v Hv)))). assert (BY := B (fun v : PF => val (py v)) (fun v Hv => proj2 (gp_bound v (G v Hv)))).
    assert (SM : forall z, (Rabs z <= bpow radix2 (20 + e))%R -> (Rabs (rnd z) < PFloat.big)%R).
    { intros z Hz. eapply Rle_lt_trans; [apply (rnd_error z (20 + e)); [lia|exact Hz]|]. unfold PFloat.big. apply bpow_lt. lia. }
    cbn [fst snd] in VX, VY. rewrite VZ, Rplus_0_l in VX, VY.
    destruct (div_correct x (@nZ F64 (zlen idx)) (proj1 X) Fn) as [F1 D1]; [lra|rewrite VX, Vn, EN; apply SM, BX|].
    destruct (div_correct y (@nZ F64 (zlen idx)) (proj1 Y) Fn) as [F2 D2]; [lra|rewrite VY, Vn, EN; apply SM, BY|].
    eexists. split; [reflexivity|]. unfold mkP; cbn [px py]. split; [exact F1|]. split; [exact F2|].
    assert (MM : mean_of (map xyv vs) = (sumR (map (fun v : PF => val (px v)) vs) / INR (length vs), sumR (map (fun v : PF => val (py v)) vs) / INR (length vs))%R).
    { unfold mean_of. rewrite !map_map, map_length. reflexivity. }
    rewrite MM. cbn [fst snd]. split; [|split; assumption].
    unfold xyv, rounded; cbn [px py fst snd]. change nearest with rnd. rewrite D1, D2, VX, VY, Vn, EN. reflexivity.
  Qed.

  Lemma orient_step a b v : gp a -> gp b -> gp v -> (0 < orient (xyv a) (xyv b) (xyv v))%R -> (bpow radix2 (2 * e) <= orient (xyv a) (xyv b) (xyv v))%R.
  Proof.
    intros [[_ (a1 & _ & A1)] [_ (a2 & _ & A2)]] [[_ (b1 & _ & B1)] [_ (b2 & _ & B2)]] [[_ (c1 & _ & C1)] [_ (c2 & _ & C2)]].
    unfold orient, vcross, vsub, xyv; cbn [fst snd]. rewrite A1, A2, B1, B2, C1, C2.
    replace (2 * e) with (e + e) by lia. rewrite bpow_plus. pose proof (bpow_gt_0 radix2 e) as P. set (s := bpow radix2 e) in *.
    replace ((IZR b1 * s - IZR a1 * s) * (IZR c2 * s - IZR a2 * s) - (IZR b2 * s - IZR a2 * s) * (IZR c1 * s - IZR a1 * s))%R
      with (IZR ((b1 - a1) * (c2 - a2) - (b2 - a2) * (c1 - a1)) * (s * s))%R by (rewrite minus_IZR, !mult_IZR, !minus_IZR; ring).
    intros H. assert (S : (0 < s * s)%R) by nra.
    assert (K : (0 < IZR ((b1 - a1) * (c2 - a2) - (b2 - a2) * (c1 - a1)))%R) by nra.
    apply lt_IZR in K. assert (K1 : (1 <= IZR ((b1 - a1) * (c2 - a2) - (b2 - a2) * (c1 - a1)))%R) by (apply IZR_le; lia). nra.
  Qed.

  (** the rounded average stays strictly on the inner side of every edge *)
  Lemma mean_inside a b vs : gp a -> gp b -> Forall gp vs -> (length vs <= 1024)%nat ->
    (forall v, In v vs -> (0 <= orient (xyv a) (xyv b) (xyv v))%R) -> (exists v, In v vs /\ (0 < orient (xyv a) (xyv b) (xyv v))%R) ->
    (Rabs (fst (mean_of (map xyv vs))) <= bpow radix2 (20 + e))%R -> (Rabs (snd (mean_of (map xyv vs))) <= bpow radix2 (20 + e))%R ->
    (0 < orient (xyv a) (xyv b) (rounded (mean_of (map xyv vs))))%R.
  Proof.
    intros Ga Gb G L Hge (v0 & Hv0 & Hpos) B1 B2.
    assert (Hn : (0 < length vs)%nat) by (destruct vs; [contradiction|cbn; lia]).
    set (n := INR (length vs)). assert (Pn : (0 < n)%R) by (apply lt_0_INR; exact Hn).
    assert (Ln : (n <= 1024)%R) by (unfold n; rewrite INR_IZR_INZ; apply IZR_le; lia).
    set (M := mean_of (map xyv vs)) in *.
    assert (S : (bpow radix2 (2 * e) <= n * orient (xyv a) (xyv b) M)%R).
    { pose proof (orient_avg (xyv a) (xyv b) (map real_point vs)) as OA. rewrite map_length, !map_map in OA. specialize (OA Hn).
      assert (OE : (n * orient (xyv a) (xyv b) M = sumR (map (fun x : PF => orient (xyv a) (xyv b) (xyv x)) vs))%R).
      { transitivity (sumR (map (fun x : PF => orient (xyv a) (xyv b) (xy (real_point x))) vs)); [|reflexivity]. etransitivity; [|exact OA].
        unfold n, M, mean_of. rewrite !map_map, map_length. reflexivity. }
      rewrite OE. clear OE OA. pose proof (orient_step a b v0 Ga Gb (proj1 (Forall_forall _ _) G v0 Hv0) Hpos) as Q.
      clear -Hge Hv0 Q. revert Hv0 Hge. induction vs as [|w vs IH]; [contradiction|]. intros [->|Hin] Hge; cbn [map sumR fold_right]; fold (sumR (map (fun x : PF => orient (xyv a) (xyv b) (xyv x)) vs)).
      - assert (0 <= sumR (map (fun x : PF => orient (xyv a) (xyv b) (xyv x)) vs))%R; [|lra].
        clear -Hge. induction vs as [|w vs IH]; [cbn; lra|]. cbn [map sumR fold_right]. fold (sumR (map (fun x : PF => orient (xyv a) (xyv b) (xyv x)) vs)).
        pose proof (Hge w (or_intror (or_introl eq_refl))). assert (0 <= sumR (map (fun x : PF => orient (xyv a) (xyv b) (xyv x)) vs))%R; [|lra].
        apply IH. intros v [->|Hv]; [apply Hge; left; reflexivity|apply Hge; right; right; exact Hv].
      - pose proof (IH Hin (fun v Hv => Hge v (or_intror Hv))). pose proof (Hge w (or_introl eq_refl)). lra. }
    destruct (rnd_error (fst M) (20 + e) ltac:(lia) B1) as [E1 _]. destruct (rnd_error (snd M) (20 + e) ltac:(lia) B2) as [E2 _].
    destruct (gp_bound a Ga) as [A1 A2]. destruct (gp_bound b Gb) as [C1 C2].
    unfold rounded. change nearest with rnd. set (dx := (rnd (fst M) - fst M)%R) in *. set (dy := (rnd (snd M) - snd M)%R) in *.
    replace (orient (xyv a) (xyv b) (rnd (fst M), rnd (snd M))) with (orient (xyv a) (xyv b) M + ((val (px b) - val (px a)) * dy - (val (py b) - val (py a)) * dx))%R
      by (unfold orient, vcross, vsub, xyv, dx, dy; cbn [fst snd]; ring).
    replace (20 + e - 53) with (e - 33) in E1, E2 by lia.
    assert (X1 : (Rabs (val (px b) - val (px a)) <= bpow radix2 (21 + e))%R).
    { replace (21 + e) with (1 + (20 + e)) by lia. rewrite bpow_plus. change (bpow radix2 1) with 2%R.
      unfold Rminus. eapply Rle_trans; [apply Rabs_triang|]. rewrite Rabs_Ropp. lra. }
    assert (X2 : (Rabs (val (py b) - val (py a)) <= bpow radix2 (21 + e))%R).
    { replace (21 + e) with (1 + (20 + e)) by lia. rewrite bpow_plus. change (bpow radix2 1) with 2%R.
      unfold Rminus. eapply Rle_trans; [apply Rabs_triang|]. rewrite Rabs_Ropp. lra. }
    assert (PR : forall u w, (Rabs u <= bpow radix2 (21 + e))%R -> (Rabs w <= bpow radix2 (e - 33))%R -> (Rabs (u * w) <= bpow radix2 (2 * e - 12))%R).
    { intros u w Hu Hw. rewrite Rabs_mult. replace (2 * e - 12) with ((21 + e) + (e - 33)) by lia. rewrite bpow_plus.
      apply Rmult_le_compat; try apply Rabs_pos; assumption. }
    pose proof (PR _ _ X1 E2) as Q1. pose proof (PR _ _ X2 E1) as Q2. apply Rabs_le_inv in Q1, Q2.
    assert (T : (bpow radix2 (2 * e) = 4096 * bpow radix2 (2 * e - 12))%R).
    { replace (2 * e) with (12 + (2 * e - 12)) at 1 by lia. rewrite bpow_plus. reflexivity. }
    pose proof (bpow_gt_0 radix2 (2 * e - 12)) as PB. set (u := bpow radix2 (2 * e - 12)) in *.
    assert (O : (4 * u <= orient (xyv a) (xyv b) M)%R).
    { apply Rnot_lt_le. intros Hlt. rewrite T in S. assert (n * orient (xyv a) (xyv b) M < 1024 * (4 * u))%R; [|lra].
      destruct (Rle_lt_dec (orient (xyv a) (xyv b) M) 0) as [Q|Q]; nra. }
    lra.
  Qed.
End Center.

Lemma center_triangulation64 (e : Z) (tol : f64) (idx : list Z) (p vs : list PF) :
  -200 <= e <= 200 -> vertices_are p idx vs -> Forall (grid_point e) vs -> (3 <= length idx <= 1024)%nat ->
  let turn := turn_at (map xyv vs) in let n := length vs in
  (turn 0%nat <> 0%R -> (exists i, (i < n)%nat /\ (turn 0%nat * turn i < 0)%R) ->
    exists msg, center_triangulate (N := F64) tol idx p = (p, Err (Throw msg))) /\
  ((forall i, (i < n)%nat -> 0 <= turn i)%R \/ (forall i, (i < n)%nat -> turn i <= 0)%R ->
    exists c ts, center_triangulate (N := F64) tol idx p = (p ++ [c], Ok ts) /\
      xyv c = rounded (sumR (map fst (map xyv vs)) / INR n, sumR (map snd (map xyv vs)) / INR n)%R /\
      map (fun t => pg_points (tr_poly t)) ts = map (fun s => [fst s; snd s; zlen p]) (edges_of idx) /\
      ((forall a b v, In (a, b) (edges_of vs) -> In v vs -> (0 <= orient (xyv a) (xyv b) (xyv v))%R) ->
       forall a b, In (a, b) (edges_of vs) -> (exists v, In v vs /\ (0 < orient (xyv a) (xyv b) (xyv v))%R) -> (0 < orient (xyv a) (xyv b) (xyv c))%R)).
Proof.
  intros He V G L. cbv zeta. pose proof (vertices_length _ _ _ V) as VL.
  destruct (convex_grid e He p idx vs V G ltac:(lia)) as (b & EB & Hc & Hnc & _). split.
  - intros T0 EX. apply Hnc in EX; [|exact T0]. subst b. eexists. unfold center_triangulate. rewrite EB. reflexivity.
  - intros HC. specialize (Hc HC). subst b.
    destruct (average_grid e He p idx vs V G ltac:(lia)) as (c & EA & F1 & F2 & X & B1 & B2).
    unfold center_triangulate. rewrite EB, EA. cbv zeta. set (p' := p ++ [c]).
    assert (Hci : (zlen p' - 1)%Z = zlen p) by (unfold p', zlen; rewrite app_length; cbn; lia). rewrite Hci.
    set (n := length idx).
    assert (K : forall k, In k idx -> exists v, vget p' k = Ok v).
    { intros k Hk. clear -V Hk. unfold vertices_are in V. induction V as [|k' v idx vs [Hk' Hv] V IH]; [contradiction|].
      destruct Hk as [->|Hk]; [|auto]. exists v. apply vget_ok. split; [exact Hk'|]. unfold p'. rewrite nth_error_app1; [exact Hv|]. apply nth_error_Some. congruence. }
    assert (Kc : vget p' (zlen p) = Ok c).
    { apply vget_ok. split; [unfold zlen; lia|]. unfold p', zlen. rewrite Nat2Z.id, nth_error_app2, Nat.sub_diag by lia. reflexivity. }
    assert (HM : mapM (fun i => a <- vgetn idx i ;; b <- vgetn idx ((i + 1) mod n) ;; triangle_ctor (N := F64) tol [a; b; zlen p] p') (seq 0 n) =
                 mapM (fun s => triangle_ctor (N := F64) tol [fst s; snd s; zlen p] p') (edges_of idx)).
    { destruct idx as [|z0 idx']; [cbn in L; lia|]. rewrite (edges_of_map_seq z0).
      fold n. rewrite <- (map_id (seq 0 n)) at 1.
      assert (GG : forall l, (forall i, In i l -> (i < n)%nat) ->
        mapM (fun i => a <- vgetn (z0 :: idx') i ;; b <- vgetn (z0 :: idx') ((i + 1) mod n) ;; triangle_ctor (N := F64) tol [a; b; zlen p] p') l =
        mapM (fun s => triangle_ctor (N := F64) tol [fst s; snd s; zlen p] p') (map (fun i => (nth i (z0 :: idx') z0, nth ((i + 1) mod n) (z0 :: idx') z0)) l)).
      { induction l as [|i l IH]; intros Hl; [reflexivity|]. cbn [mapM map].
        rewrite (vgetn_lt _ i z0) by (apply Hl; left; reflexivity).
        rewrite (vgetn_lt _ ((i + 1) mod n) z0) by (apply Nat.mod_upper_bound; unfold n; cbn; lia).
        cbn [bind fst snd]. rewrite IH by (intros; apply Hl; right; assumption). reflexivity. }
      rewrite map_id. apply GG. intros i Hi. apply in_seq in Hi. lia. }
    rewrite HM. clear HM.
    assert (HT : exists ts, mapM (fun s => triangle_ctor (N := F64) tol [fst s; snd s; zlen p] p') (edges_of idx) = Ok ts /\
       map (fun t => pg_points (tr_poly t)) ts = map (fun s => [fst s; snd s; zlen p]) (edges_of idx)).
    { assert (HE : forall s, In s (edges_of idx) -> In (fst s) idx /\ In (snd s) idx).
      { intros [i j] Hs. split.
        - rewrite <- (edges_of_fst idx). apply in_map. exact Hs.
        - eapply Permutation.Permutation_in; [apply edges_of_snd|]. apply in_map. exact Hs. }
      clear -K Kc HE. induction (edges_of idx) as [|s es IH]; [exists []; split; reflexivity|].
      destruct IH as (ts & E1 & E2); [intros; apply HE; right; assumption|]. destruct (HE s (or_introl eq_refl)) as [I1 I2].
      destruct (K _ I1) as [a Ea]. destruct (K _ I2) as [b Eb].
      cbn [mapM]. unfold triangle_ctor at 1. rewrite ctor_idx_ok. cbn [bind]. unfold tri_vertices, vpt. change (vgetn [fst s; snd s; zlen p] 0) with (Ok (fst s)).
      change (vgetn [fst s; snd s; zlen p] 1) with (Ok (snd s)). change (vgetn [fst s; snd s; zlen p] 2) with (Ok (zlen p)). cbn [bind]. rewrite Ea, Eb, Kc. cbn [bind]. rewrite E1. cbn [bind].
      eexists. split; [reflexivity|]. cbn [map tr_poly pg_points]. rewrite E2. reflexivity. }
    destruct HT as (ts & E1 & E2). exists c, ts. split; [rewrite E1; reflexivity|].
    split; [rewrite X; unfold mean_of; rewrite map_length; reflexivity|]. split; [exact E2|].
    intros Hge a b Hab Hs. rewrite X. rewrite Forall_forall in G.
    assert (In a vs /\ In b vs) as [Ia Ib].
    { split; [rewrite <- (edges_of_fst vs); apply (in_map fst) in Hab; exact Hab|]. eapply Permutation.Permutation_in; [apply edges_of_snd|]. apply (in_map snd) in Hab. exact Hab. }
    apply (mean_inside e He a b vs); [apply G, Ia|apply G, Ib|rewrite Forall_forall; exact G|lia|intros v Hv; apply (Hge a b v Hab Hv)|exact Hs|exact B1|exact B2].
Qed.
