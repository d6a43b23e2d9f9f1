(** Circumcenters on doubles with grid coordinates. *)
From Coq Require Import Reals Lra Lia ZArith SpecFloat List Bool Permutation.
From Flocq Require Import Core BinarySingleNaN.
From Verif Require Import Base Spec MUtil MGeom MHull MPolygon MMaps MTriangle Bridge BridgeNum.
From Verif Require Import PUtil PPoint PTri PFloat PGrid PGrid3 PGrid4 PGrid6.
Import ListNotations.
Local Open Scope Z_scope.

Section Circum.
  Variable e : Z.
  Hypothesis He : -200 <= e <= 200.
  Notation gp := (grid_point e).
  Notation PF := (Point F64).
  Ltac ex := unfold okexp in *; lia.

  (** twice the orientation, as the code computes it *)
  Lemma den_grid (A B C : PF) : gp A -> gp B -> gp C ->
    let d := @nmul F64 (@nZ F64 2) (@nadd F64 (@nadd F64 (@nmul F64 (px A) (@nsub F64 (py B) (py C))) (@nmul F64 (px B) (@nsub F64 (py C) (py A)))) (@nmul F64 (px C) (@nsub F64 (py A) (py B)))) in
    grid (2 * e) (2 ^ 44) d /\ val d = (2 * orient (xyv A) (xyv B) (xyv C))%R.
  Proof.
    intros [Ax Ay] [Bx By] [Cx Cy] d.
    destruct (sub_coord e He _ _ By Cy) as [G1 V1]. destruct (sub_coord e He _ _ Cy Ay) as [G2 V2]. destruct (sub_coord e He _ _ Ay By) as [G3 V3].
    destruct (mul_coord e He _ _ Ax G1) as [G4 V4]. destruct (mul_coord e He _ _ Bx G2) as [G5 V5]. destruct (mul_coord e He _ _ Cx G3) as [G6 V6].
    destruct (grid_add (2 * e) (2 ^ 41) (2 ^ 41) _ _ G4 G5) as [G7 V7]; [lia|ex|].
    destruct (grid_add (2 * e) (2 ^ 41 + 2 ^ 41) (2 ^ 41) _ _ G7 G6) as [G8 V8]; [lia|ex|].
    destruct (grid_int 2) as [G9 V9]; [lia|].
    destruct (grid_mul 0 (2 * e) (Z.abs 2) (2 ^ 41 + 2 ^ 41 + 2 ^ 41) _ _ G9 G8) as [G V]; [cbn; lia|ex|].
    fold d in G, V. split; [rewrite Z.add_0_l in G; eapply grid_mono; [|exact G]; cbn; lia|].
    rewrite V, V9, V8, V7, V6, V5, V4, V3, V2, V1. unfold orient, vcross, vsub, xyv; cbn [fst snd]. ring.
  Qed.
  Lemma eqb_zero x n E : grid E n x -> @neqb F64 x (@nZ F64 0) = Reqb (val x) 0.
  Proof. intros G. destruct (grid_zero E) as [G0 V0]. rewrite (eqb_correct _ _ (grid_fin _ _ _ G) (grid_fin _ _ _ G0)), V0. reflexivity. Qed.
  (** a circumcenter is produced exactly for triangles that are not flat *)
  Lemma circumcenter_total (A B C : PF) : gp A -> gp B -> gp C ->
    (orient (xyv A) (xyv B) (xyv C) <> 0%R -> exists c, circumcenter (N := F64) A B C = Ok c) /\
    (orient (xyv A) (xyv B) (xyv C) = 0%R -> circumcenter (N := F64) A B C = Err NonFinite).
  Proof.
    intros GA GB GC. destruct (den_grid A B C GA GB GC) as [G V]. cbv zeta in G, V. unfold circumcenter, divr. cbv zeta.
    pose proof (eqb_zero _ _ _ G) as K. rewrite V in K.
    split; intros H.
    - rewrite Reqb_false in K by lra. rewrite K. cbn [bind]. eauto.
    - rewrite H, Rmult_0_r in K. unfold Reqb in K. destruct (Req_EM_T 0 0) as [_|N]; [|exfalso; apply N; reflexivity]. rewrite K. reflexivity.
  Qed.

  Variable m : Z.
  Hypothesis Hm : 0 <= m <= 16.
  Lemma pow_m : 2 ^ m <= 2 ^ 16 /\ 0 < 2 ^ m.
  Proof. split; [apply Z.pow_le_mono_r; lia|apply Z.pow_pos_nonneg; lia]. Qed.
  Notation g16 := (gpm e 16).
  Lemma gpm_16 q : gpm e m q -> g16 q.
  Proof. intros [H1 H2]. pose proof pow_m as [K _]. split; eapply grid_mono; try eassumption; lia. Qed.
  Lemma gpm_gp16 q : g16 q -> gp q.
  Proof. intros [H1 H2]. split; (eapply grid_mono; [|eassumption]); cbn; lia. Qed.

  Lemma norm16 (A : PF) : g16 A -> grid (2 * e) (2 ^ 33) (squareNorm (N := F64) A) /\ val (squareNorm (N := F64) A) = (val (px A) * val (px A) + val (py A) * val (py A))%R.
  Proof.
    intros [Ax Ay]. unfold squareNorm.
    destruct (grid_mul e e _ _ _ _ Ax Ax) as [G1 V1]; [lia|ex|]. destruct (grid_mul e e _ _ _ _ Ay Ay) as [G2 V2]; [lia|ex|].
    destruct (grid_add (e + e) _ _ _ _ G1 G2) as [G V]; [lia|ex|]. split; [replace (2 * e) with (e + e) by lia; exact G|]. rewrite V, V1, V2. reflexivity.
  Qed.
  Lemma sub16 x y : grid e (2 ^ 16) x -> grid e (2 ^ 16) y -> grid e (2 ^ 17) (@nsub F64 x y) /\ val (@nsub F64 x y) = (val x - val y)%R.
  Proof. intros Hx Hy. change (2 ^ 17) with (2 ^ 16 + 2 ^ 16). apply grid_sub; auto; [lia|ex]. Qed.
  (** the numerators *)
  Lemma num16 (n1 n2 n3 a1 a2 b1 b2 c1 c2 : f64) : grid (2 * e) (2 ^ 33) n1 -> grid (2 * e) (2 ^ 33) n2 -> grid (2 * e) (2 ^ 33) n3 ->
    grid e (2 ^ 16) a1 -> grid e (2 ^ 16) a2 -> grid e (2 ^ 16) b1 -> grid e (2 ^ 16) b2 -> grid e (2 ^ 16) c1 -> grid e (2 ^ 16) c2 ->
    let n := @nadd F64 (@nadd F64 (@nmul F64 n1 (@nsub F64 a1 a2)) (@nmul F64 n2 (@nsub F64 b1 b2))) (@nmul F64 n3 (@nsub F64 c1 c2)) in
    grid (3 * e) (2 ^ 52) n /\ val n = (val n1 * (val a1 - val a2) + val n2 * (val b1 - val b2) + val n3 * (val c1 - val c2))%R.
  Proof.
    intros N1 N2 N3 A1 A2 B1 B2 C1 C2 n.
    destruct (sub16 _ _ A1 A2) as [G1 V1]. destruct (sub16 _ _ B1 B2) as [G2 V2]. destruct (sub16 _ _ C1 C2) as [G3 V3].
    destruct (grid_mul (2 * e) e _ _ _ _ N1 G1) as [G4 V4]; [lia|ex|]. destruct (grid_mul (2 * e) e _ _ _ _ N2 G2) as [G5 V5]; [lia|ex|].
    destruct (grid_mul (2 * e) e _ _ _ _ N3 G3) as [G6 V6]; [lia|ex|].
    destruct (grid_add (2 * e + e) _ _ _ _ G4 G5) as [G7 V7]; [lia|ex|]. destruct (grid_add (2 * e + e) _ _ _ _ G7 G6) as [G8 V8]; [lia|ex|].
    fold n in G8, V8. split; [replace (3 * e) with (2 * e + e) by lia; eapply grid_mono; [|exact G8]; lia|].
    rewrite V8, V7, V6, V5, V4, V3, V2, V1. reflexivity.
  Qed.
  (** a quotient of grid numbers is the rounded real quotient *)
  Lemma quot16 x y : grid (3 * e) (2 ^ 52) x -> grid (2 * e) (2 ^ 44) y -> val y <> 0%R ->
    fin (@ndiv F64 x y) /\ val (@ndiv F64 x y) = rnd (val x / val y) /\ (Rabs (val x / val y) <= bpow radix2 (52 + e))%R.
  Proof.
    intros [Fx (k & Hk & Vx)] [Fy (l & Hl & Vy)] NZ.
    assert (L : l <> 0) by (intros ->; apply NZ; rewrite Vy; ring).
    assert (B : (Rabs (val x / val y) <= bpow radix2 (52 + e))%R).
    { rewrite Vx, Vy. replace (bpow radix2 (3 * e)) with (bpow radix2 (2 * e) * bpow radix2 e)%R by (rewrite <- bpow_plus; f_equal; lia).
      replace (IZR k * (bpow radix2 (2 * e) * bpow radix2 e) / (IZR l * bpow radix2 (2 * e)))%R with (IZR k / IZR l * bpow radix2 e)%R.
      2: { field. split; [apply Rgt_not_eq, bpow_gt_0|apply IZR_neq; exact L]. }
      rewrite bpow_plus, Rabs_mult, (Rabs_pos_eq (bpow radix2 e)) by apply bpow_ge_0. apply Rmult_le_compat_r; [apply bpow_ge_0|].
      unfold Rdiv. rewrite Rabs_mult, Rabs_inv, <- !abs_IZR.
      assert (K : (IZR (Z.abs k) <= bpow radix2 52)%R) by (change (bpow radix2 52) with (IZR (2 ^ 52)); apply IZR_le; lia).
      assert (L1 : (1 <= IZR (Z.abs l))%R) by (apply IZR_le; lia).
      assert (L2 : (/ IZR (Z.abs l) <= 1)%R) by (rewrite <- Rinv_1; apply Rinv_le; lra).
      assert (L3 : (0 < / IZR (Z.abs l))%R) by (apply Rinv_0_lt_compat; lra).
      assert (K0 : (0 <= IZR (Z.abs k))%R) by (apply IZR_le; lia). nra. }
    destruct (rnd_error _ (52 + e) ltac:(lia) B) as [_ B2].
    destruct (div_correct x y Fx Fy NZ) as [F V]; [eapply Rle_lt_trans; [exact B2|apply bpow_big; lia]|]. auto.
  Qed.

  Lemma circumcenter_rounded (A B C : PF) : gpm e m A -> gpm e m B -> gpm e m C -> orient (xyv A) (xyv B) (xyv C) <> 0%R ->
    exists c z, circumcenter (N := F64) A B C = Ok c /\
      dist z (xyv A) = dist z (xyv B) /\ dist z (xyv B) = dist z (xyv C) /\
      (forall q, dist q (xyv A) = dist q (xyv B) -> dist q (xyv B) = dist q (xyv C) -> q = z) /\
      fin (px c) /\ fin (py c) /\ xyv c = (nearest (fst z), nearest (snd z)) /\
      (Rabs (fst z) <= bpow radix2 (52 + e) /\ Rabs (snd z) <= bpow radix2 (52 + e))%R.
  Proof.
    intros GA GB GC H. apply gpm_16 in GA, GB, GC. pose proof (gpm_gp16 A GA) as PA. pose proof (gpm_gp16 B GB) as PB. pose proof (gpm_gp16 C GC) as PC.
    destruct (circumcenter_correct (real_point A) (real_point B) (real_point C)) as [K _].
    destruct (K H) as (z & Ez & D1 & D2 & U & _). clear K.
    destruct (den_grid A B C PA PB PC) as [GD VD]. cbv zeta in GD, VD.
    destruct (norm16 A GA) as [NA WA]. destruct (norm16 B GB) as [NB WB]. destruct (norm16 C GC) as [NC WC].
    destruct GA as [Ax Ay], GB as [Bx By], GC as [Cx Cy].
    destruct (num16 _ _ _ _ _ _ _ _ _ NA NB NC By Cy Cy Ay Ay By) as [GX VX]. destruct (num16 _ _ _ _ _ _ _ _ _ NA NB NC Cx Bx Ax Cx Bx Ax) as [GY VY].
    cbv zeta in GX, VX, GY, VY.
    unfold circumcenter, divr in *. cbv zeta in *. rewrite (eqb_zero _ _ _ GD), VD, Reqb_false by lra. cbn [bind].
    assert (ND : (2 * orient (xyv A) (xyv B) (xyv C))%R <> 0%R) by lra. rewrite <- VD in ND.
    destruct (quot16 _ _ GX GD ND) as (F1 & Q1 & R1). destruct (quot16 _ _ GY GD ND) as (F2 & Q2 & R2).
    eexists. exists (xy z). split; [reflexivity|]. split; [exact D1|]. split; [exact D2|]. split; [exact U|].
    unfold real_point, squareNorm in Ez. rnum. cbn [px py] in Ez.
    rewrite Reqb_false in Ez by (unfold orient, vcross, vsub, xyv in H; cbn [fst snd] in H; intros X; apply H; lra). cbn [bind] in Ez. injection Ez as <-.
    unfold xyv. cbn [px py mkP]. split; [exact F1|]. split; [exact F2|].
    rewrite VX, VD, WA, WB, WC in Q1, R1. rewrite VY, VD, WA, WB, WC in Q2, R2. rewrite Q1, Q2. unfold xy; cbn [px py mkP fst snd].
    clear - R1 R2. unfold orient, vcross, vsub, xyv in *; cbn [fst snd] in *.
    match goal with |- _ /\ (Rabs ?u <= _ /\ Rabs ?v <= _)%R =>
      match type of R1 with (Rabs ?u' <= _)%R => assert (EU : u = u') by (f_equal; ring) end;
      match type of R2 with (Rabs ?v' <= _)%R => assert (EV : v = v') by (f_equal; ring) end end.
    rewrite EU, EV. split; [f_equal; symmetry; apply nearest_rnd|]. split; assumption.
  Qed.
End Circum.
