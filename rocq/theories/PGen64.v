(** The point generator with the constant rule on doubles. *)
From Coq Require Import Reals Lra Psatz ZArith SpecFloat List Bool.
From Flocq Require Import Core.
From Flocq Require Relative.
From Verif Require Import Base Spec MUtil MGeom MGen Bridge BridgeNum Bridge64.
From Verif Require Import PUtil PPoint PGen PFloat PGrid PGrid2 PGrid3 PGrid4 PGrid6 PGrid8.
Import ListNotations.
Local Open Scope Z_scope.

Lemma rnd_split x : exists eps eta, (Rabs eps <= bpow radix2 (-53))%R /\ (Rabs eta <= bpow radix2 (-1075))%R /\ rnd x = (x * (1 + eps) + eta)%R.
Proof.
  destruct (Relative.error_N_FLT radix2 (-1074) 53 eq_refl (fun x => negb (Z.even x)) x) as (eps & eta & H1 & H2 & _ & H).
  exists eps, eta. split; [|split; [|exact H]].
  - eapply Rle_trans; [exact H1|]. right. change (/ 2)%R with (bpow radix2 (-1)). rewrite <- bpow_plus. reflexivity.
  - eapply Rle_trans; [exact H2|]. right. change (/ 2)%R with (bpow radix2 (-1)). rewrite <- bpow_plus. reflexivity.
Qed.

Lemma node64 k (lo wd : f64) (W : R) n j : -900 <= k <= 900 -> fin lo -> (Rabs (val lo) <= bpow radix2 k)%R -> fin wd -> val wd = rnd W -> (0 <= W <= 2 * bpow radix2 k)%R ->
  1 <= n <= 2 ^ 31 -> 0 <= j <= n ->
  let x := @nmul F64 (@nadd F64 lo (@nmul F64 (@nZ F64 j) (@ndiv F64 wd (@nZ F64 n)))) (@nZ F64 1) in
  fin x /\ (Rabs (val x - (val lo + IZR j * (W / IZR n))) <= bpow radix2 (k - 48))%R.
Proof.
  intros Hk Fl Bl Fw Vw BW Hn Hj. cbn zeta.
  destruct (ofZ_correct n) as [Fn Vn]; [lia|]. destruct (ofZ_correct j) as [Fj Vj]; [lia|]. destruct (ofZ_correct 1) as [F1 V1]; [lia|].
  change (F64_ofZ) with (@nZ F64) in *.
  set (u := bpow radix2 k) in *. set (E := bpow radix2 (-53)). assert (U : (0 < u)%R) by apply bpow_gt_0. assert (PE : (0 < E)%R) by apply bpow_gt_0.
  assert (SE : (E <= / 1024)%R) by (unfold E; change (/ 1024)%R with (bpow radix2 (-10)); apply bpow_le; lia).
  assert (B1 : bpow radix2 (k + 1) = (2 * u)%R) by (unfold u; rewrite bpow_plus; change (bpow radix2 1) with 2%R; ring).
  assert (B2 : bpow radix2 (k + 2) = (4 * u)%R) by (unfold u; rewrite bpow_plus; change (bpow radix2 2) with 4%R; ring).
  assert (B3 : bpow radix2 (k + 3) = (8 * u)%R) by (unfold u; rewrite bpow_plus; change (bpow radix2 3) with 8%R; ring).
  assert (C1 : bpow radix2 (k + 1 - 53) = (2 * u * E)%R) by (rewrite <- B1; unfold E; rewrite <- bpow_plus; f_equal; lia).
  assert (C2 : bpow radix2 (k + 2 - 53) = (4 * u * E)%R) by (rewrite <- B2; unfold E; rewrite <- bpow_plus; f_equal; lia).
  assert (C3 : bpow radix2 (k + 3 - 53) = (8 * u * E)%R) by (rewrite <- B3; unfold E; rewrite <- bpow_plus; f_equal; lia).
  assert (C5 : bpow radix2 (k - 48) = (32 * u * E)%R) by (unfold u, E; change 32%R with (bpow radix2 5); rewrite <- !bpow_plus; f_equal; lia).
  assert (UE : (0 < u * E)%R) by (apply Rmult_lt_0_compat; assumption). assert (UE' : (u * E <= u / 1024)%R) by (unfold Rdiv; apply Rmult_le_compat_l; lra).
  assert (Pn : (1 <= IZR n)%R) by (apply (IZR_le 1); lia). assert (Pj : (0 <= IZR j <= IZR n)%R) by (split; [apply (IZR_le 0)|apply IZR_le]; lia).
  (* the width *)
  destruct (rnd_error W (k + 1)) as [EW RW]; [lia|rewrite B1; rewrite Rabs_pos_eq; lra|]. rewrite <- Vw, C1 in EW. rewrite <- Vw, B1 in RW.
  assert (W0 : (0 <= val wd)%R) by (rewrite Vw, <- rnd_0; apply rnd_le; lra). rewrite Rabs_pos_eq in RW by exact W0.
  set (w := val wd) in *.
  (* the spacing *)
  assert (Q : (0 <= w / IZR n <= 2 * u)%R).
  { split; [apply Rmult_le_pos; [exact W0|left; apply Rinv_0_lt_compat; lra]|]. apply Rle_trans with w; [|exact RW].
    apply Rmult_le_reg_r with (IZR n); [lra|]. unfold Rdiv. rewrite Rmult_assoc, Rinv_l, Rmult_1_r by lra. nra. }
  destruct (rnd_error (w / IZR n) (k + 1)) as [_ RQ]; [lia|rewrite B1; rewrite Rabs_pos_eq; lra|]. rewrite B1 in RQ.
  destruct (div_correct wd (@nZ F64 n) Fw Fn) as [Fd Vd].
  { rewrite Vn. lra. } { rewrite Vn. fold w. eapply Rle_lt_trans; [exact RQ|]. rewrite <- B1. apply bpow_lt. lia. }
  rewrite Vn in Vd. fold w in Vd. set (d := @ndiv F64 wd (@nZ F64 n)) in *.
  destruct (rnd_split (w / IZR n)) as (eps & eta & He & Ht & Hs). fold E in He. rewrite Hs in Vd.
  set (t := (IZR j * (w / IZR n))%R). set (T := (IZR j * (W / IZR n))%R).
  assert (JN : (0 <= IZR j / IZR n <= 1)%R).
  { split; [apply Rmult_le_pos; [lra|left; apply Rinv_0_lt_compat; lra]|]. apply Rmult_le_reg_r with (IZR n); [lra|]. unfold Rdiv. rewrite Rmult_assoc, Rinv_l by lra. lra. }
  assert (tW : t = (IZR j / IZR n * w)%R) by (unfold t, Rdiv; ring). assert (TW : T = (IZR j / IZR n * W)%R) by (unfold T, Rdiv; ring).
  assert (Bt : (0 <= t <= 2 * u)%R) by (rewrite tW; split; [apply Rmult_le_pos; lra|nra]).
  assert (DT : (Rabs (t - T) <= 2 * u * E)%R).
  { rewrite tW, TW, <- Rmult_minus_distr_l, Rabs_mult. rewrite (Rabs_pos_eq (IZR j / IZR n)) by lra.
    pose proof (Rabs_pos (w - W)). rewrite <- (Rmult_1_l (2 * u * E)). apply Rmult_le_compat; lra. }
  assert (JE : (Rabs (IZR j * eta) <= u * E)%R).
  { rewrite Rabs_mult, (Rabs_pos_eq (IZR j)) by lra. apply Rle_trans with (bpow radix2 31 * bpow radix2 (-1075))%R.
    - apply Rmult_le_compat; [lra|apply Rabs_pos| |exact Ht]. change (bpow radix2 31) with (IZR (2 ^ 31)). apply IZR_le. lia.
    - unfold u, E. rewrite <- !bpow_plus. apply bpow_le. lia. }
  assert (TE : (Rabs (t * eps) <= 2 * u * E)%R).
  { rewrite Rabs_mult, (Rabs_pos_eq t) by lra. apply Rmult_le_compat; [lra|apply Rabs_pos|lra|exact He]. }
  assert (JD : (IZR j * val d = t + t * eps + IZR j * eta)%R) by (rewrite Vd; unfold t; ring).
  apply Rabs_le_inv in DT, JE, TE.
  assert (BJ : (Rabs (IZR j * val d) <= 4 * u)%R) by (rewrite JD; apply Rabs_le; lra).
  (* the product *)
  destruct (rnd_error (IZR j * val d) (k + 2)) as [EM RM]; [lia|rewrite B2; exact BJ|]. rewrite C2 in EM. rewrite B2 in RM.
  destruct (mul_correct (@nZ F64 j) d Fj Fd) as [Fm Vm]; [rewrite Vj; eapply Rle_lt_trans; [exact RM|]; rewrite <- B2; apply bpow_lt; lia|].
  rewrite Vj in Vm. set (m := @nmul F64 (@nZ F64 j) d) in *. rewrite <- Vm in EM, RM. apply Rabs_le_inv in EM, RM.
  (* the sum *)
  apply Rabs_le_inv in Bl.
  assert (BS : (Rabs (val lo + val m) <= 8 * u)%R) by (apply Rabs_le; lra).
  destruct (rnd_error (val lo + val m) (k + 3)) as [ES RS]; [lia|rewrite B3; exact BS|]. rewrite C3 in ES. rewrite B3 in RS.
  destruct (add_correct lo m Fl Fm) as [Fs Vs]; [eapply Rle_lt_trans; [exact RS|]; rewrite <- B3; apply bpow_lt; lia|].
  set (s := @nadd F64 lo m) in *. rewrite <- Vs in ES, RS. apply Rabs_le_inv in ES.
  destruct (mul_correct s (@nZ F64 1) Fs F1) as [Fx Vx].
  { rewrite V1, Rmult_1_r, (rnd_val s Fs). eapply Rle_lt_trans; [exact RS|]; rewrite <- B3; apply bpow_lt; lia. }
  rewrite V1, Rmult_1_r, (rnd_val s Fs) in Vx. split; [exact Fx|]. rewrite Vx, C5. fold T. apply Rabs_le. rewrite JD in EM. lra.
Qed.

(** exact nodes: corner and spacing are multiples of one power of two *)
Lemma node_exact e (lo wd : f64) (a d : Z) n j : -500 <= e <= 500 -> fin lo -> val lo = (IZR a * bpow radix2 e)%R -> fin wd -> val wd = (IZR (d * n) * bpow radix2 e)%R ->
  Z.abs a + Z.abs (d * n) <= 2 ^ 53 -> 1 <= n <= 2 ^ 31 -> 0 <= j <= n ->
  let x := @nmul F64 (@nadd F64 lo (@nmul F64 (@nZ F64 j) (@ndiv F64 wd (@nZ F64 n)))) (@nZ F64 1) in
  fin x /\ val x = (IZR (a + j * d) * bpow radix2 e)%R.
Proof.
  intros He Fl Vl Fw Vw Hb Hn Hj. cbn zeta. destruct (ofZ_correct n) as [Fn Vn]; [lia|]. change (F64_ofZ) with (@nZ F64) in *.
  assert (N0 : IZR n <> 0%R) by (apply not_0_IZR; lia).
  assert (D : (val wd / IZR n = IZR d * bpow radix2 e)%R) by (rewrite Vw, mult_IZR; field; exact N0).
  assert (Hd : Z.abs d <= 2 ^ 53) by nia. assert (Hjd : Z.abs (j * d) <= Z.abs (d * n)) by nia.
  destruct (div_correct wd (@nZ F64 n) Fw Fn) as [Fd Vd].
  { rewrite Vn. exact N0. } { rewrite Vn, D, rnd_scaled; [apply scaled_small|lia|]; unfold okexp; lia. }
  rewrite Vn, D, rnd_scaled in Vd by (unfold okexp; lia). set (dd := @ndiv F64 wd (@nZ F64 n)) in *.
  assert (Gd : grid e (Z.abs d) dd) by (split; [exact Fd|exists d; split; [lia|exact Vd]]).
  destruct (grid_int j) as [Gj Vj]; [lia|]. destruct (grid_mul 0 e _ _ _ _ Gj Gd) as [Gm Vm]; [nia|unfold okexp; lia|].
  rewrite Vj, Vd in Vm. set (m := @nmul F64 (@nZ F64 j) dd) in *.
  assert (Gm' : grid e (Z.abs (j * d)) m) by (split; [exact (grid_fin _ _ _ Gm)|exists (j * d); split; [lia|rewrite Vm, mult_IZR; ring]]).
  assert (Gl : grid e (Z.abs a) lo) by (split; [exact Fl|exists a; split; [lia|exact Vl]]).
  destruct (grid_add e _ _ _ _ Gl Gm') as [Gs Vs]; [lia|unfold okexp; lia|]. set (s := @nadd F64 lo m) in *.
  destruct (grid_int 1) as [G1 V1]; [lia|]. destruct (grid_mul e 0 _ _ _ _ Gs G1) as [Gx Vx]; [cbn; lia|unfold okexp; lia|].
  split; [exact (grid_fin _ _ _ Gx)|]. rewrite Vx, V1, Vs, Vm, Vl, plus_IZR, mult_IZR. ring.
Qed.

Lemma constant_run (pts : list PF) (box : bbox F64) nX nY : 2 <= nX <= 2 ^ 31 -> 2 <= nY <= 2 ^ 31 ->
  let g := GBoth (N := F64) f_constant f_constant in
  let node lo w n j := @nmul F64 (@nadd F64 lo (@nmul F64 (@nZ F64 (Z.of_nat j)) (@ndiv F64 w (@nZ F64 (n - 1))))) (@nZ F64 1) in
  exists qs, generate (N := F64) g pts box nX nY = Ok (g, pts ++ qs) /\ length qs = (Z.to_nat nX * Z.to_nat nY)%nat /\
    forall i j, (i < Z.to_nat nY)%nat -> (j < Z.to_nat nX)%nat ->
      nth_error qs (i * Z.to_nat nX + j) = Some (mkP (N := F64) (node (bb_xMin box) (bb_width box) nX j) (node (bb_yMin box) (bb_height box) nY i)).
Proof.
  intros HX HY g node.
  assert (NZ : forall n, 2 <= n <= 2 ^ 31 -> @neqb F64 (@nZ F64 (n - 1)) (@nZ F64 0) = false).
  { intros n Hn. destruct (ofZ_correct (n - 1)) as [Fn Vn]; [lia|]. destruct (ofZ_correct 0) as [F0 V0]; [lia|]. change F64_ofZ with (@nZ F64) in *.
    rewrite eqb_correct by assumption. rewrite Vn, V0. apply Reqb_false. apply not_0_IZR. lia. }
  assert (HE : exists pts', generate (N := F64) g pts box nX nY = Ok (g, pts')).
  { unfold generate, g. unfold divr. rewrite !NZ by assumption. cbn [bind].
    generalize (grid_indices nX nY). intros l. revert pts. induction l as [|ij l IH]; intros pts; [eexists; reflexivity|].
    cbn [foldM fst snd result apply f_constant bind]. apply IH. }
  destruct HE as [pts' HE].
  destruct (generate_grid _ _ _ _ _ _ _ HE) as (gs & qs & -> & G0 & G1 & L & T).
  exists qs. split; [exact HE|]. split; [exact L|].
  assert (GG : forall k, (k <= length qs)%nat -> gs k = g).
  { induction k as [|k IH]; intros Hk; [exact G0|].
    assert (Hw : (0 < Z.to_nat nX)%nat) by lia.
    assert (Hd : (k = k / Z.to_nat nX * Z.to_nat nX + k mod Z.to_nat nX)%nat) by (rewrite Nat.mul_comm; apply Nat.div_mod; lia).
    destruct (T (k / Z.to_nat nX)%nat (k mod Z.to_nat nX)%nat) as (q & _ & E).
    - apply Nat.div_lt_upper_bound; lia.
    - apply Nat.mod_upper_bound; lia.
    - rewrite <- Hd in E. rewrite IH in E by lia. unfold g in E at 1. cbn [result apply f_constant bind] in E. injection E as E _. symmetry. exact E. }
  intros i j Hi Hj. destruct (T i j Hi Hj) as (q & Hq & E). rewrite Hq. f_equal.
  rewrite GG in E by nia. unfold g in E at 1. cbn [result apply f_constant bind] in E. injection E as _ <-. reflexivity.
Qed.

Lemma Rmin_Rmax a b : (Rmin a b <= Rmax a b)%R.
Proof. eapply Rle_trans; [apply Rmin_l|apply Rmax_l]. Qed.
Lemma generate_near k (pts : list PF) (box : bbox F64) nX nY : -900 <= k <= 900 ->
  (forall c, In c [px (bb1 box); py (bb1 box); px (bb2 box); py (bb2 box)] -> fin c /\ (Rabs (val c) <= bpow radix2 k)%R) ->
  2 <= nX <= 2 ^ 31 -> 2 <= nY <= 2 ^ 31 ->
  let g := GBoth (N := F64) f_constant f_constant in
  let x0 := val (bb_xMin box) in let x1 := val (bb_xMax box) in let y0 := val (bb_yMin box) in let y1 := val (bb_yMax box) in
  exists qs, generate (N := F64) g pts box nX nY = Ok (g, pts ++ qs) /\ length qs = (Z.to_nat nX * Z.to_nat nY)%nat /\
    forall i j, (i < Z.to_nat nY)%nat -> (j < Z.to_nat nX)%nat -> exists q, nth_error qs (i * Z.to_nat nX + j) = Some q /\
      close_point (bpow radix2 (k - 48)) q (x0 + INR j * ((x1 - x0) / IZR (nX - 1)), y0 + INR i * ((y1 - y0) / IZR (nY - 1)))%R.
Proof.
  intros Hk HC HX HY g x0 x1 y0 y1.
  destruct (HC (px (bb1 box))) as [F1 B1]; [now left|]. destruct (HC (py (bb1 box))) as [F2 B2]; [now right; left|].
  destruct (HC (px (bb2 box))) as [F3 B3]; [now right; right; left|]. destruct (HC (py (bb2 box))) as [F4 B4]; [now right; right; right; left|].
  assert (L : (bpow radix2 k <= bpow radix2 1000)%R) by (apply bpow_le; lia).
  destruct (bbox_doubles box) as ((V1 & V2 & V3 & V4) & (G1 & W1 & G2 & W2) & _).
  { split; [split; assumption|split; eapply Rle_trans; eassumption]. } { split; [split; assumption|split; eapply Rle_trans; eassumption]. }
  destruct (nmin_val _ _ F1 F3) as [M1 _]. destruct (nmin_val _ _ F2 F4) as [M2 _].
  fold x0 in V1. fold x1 in V2. fold y0 in V3. fold y1 in V4. rewrite <- V1, <- V2 in W1. rewrite <- V3, <- V4 in W2. rewrite nearest_rnd in W1, W2.
  apply Rabs_le_inv in B1, B2, B3, B4.
  assert (X0 : (- bpow radix2 k <= x0 <= bpow radix2 k)%R) by (rewrite V1; unfold Rmin; destruct (Rle_dec _ _); assumption).
  assert (X1 : (- bpow radix2 k <= x1 <= bpow radix2 k)%R) by (rewrite V2; unfold Rmax; destruct (Rle_dec _ _); assumption).
  assert (Y0 : (- bpow radix2 k <= y0 <= bpow radix2 k)%R) by (rewrite V3; unfold Rmin; destruct (Rle_dec _ _); assumption).
  assert (Y1 : (- bpow radix2 k <= y1 <= bpow radix2 k)%R) by (rewrite V4; unfold Rmax; destruct (Rle_dec _ _); assumption).
  assert (XX : (x0 <= x1)%R) by (rewrite V1, V2; apply Rmin_Rmax). assert (YY : (y0 <= y1)%R) by (rewrite V3, V4; apply Rmin_Rmax).
  destruct (constant_run pts box nX nY HX HY) as (qs & E & Lq & T). exists qs. split; [exact E|]. split; [exact Lq|].
  intros i j Hi Hj. specialize (T i j Hi Hj). cbn zeta in T. eexists. split; [exact T|]. rewrite !INR_IZR_INZ.
  destruct (node64 k (bb_xMin box) (bb_width box) (x1 - x0) (nX - 1) (Z.of_nat j) Hk M1) as [A1 A2]; [apply Rabs_le; exact X0|exact G1|exact W1|lra|lia|lia|].
  destruct (node64 k (bb_yMin box) (bb_height box) (y1 - y0) (nY - 1) (Z.of_nat i) Hk M2) as [A3 A4]; [apply Rabs_le; exact Y0|exact G2|exact W2|lra|lia|lia|].
  unfold close_point. cbn [px py mkP fst snd]. auto.
Qed.
Lemma generate_exact e (pts : list PF) (box : bbox F64) nX nY dX dY : -200 <= e <= 200 -> grid_point e (bb1 box) -> grid_point e (bb2 box) ->
  2 <= nX <= 2 ^ 31 -> 2 <= nY <= 2 ^ 31 ->
  let g := GBoth (N := F64) f_constant f_constant in
  let x0 := val (bb_xMin box) in let x1 := val (bb_xMax box) in let y0 := val (bb_yMin box) in let y1 := val (bb_yMax box) in
  (x1 - x0 = IZR (dX * (nX - 1)) * bpow radix2 e)%R -> (y1 - y0 = IZR (dY * (nY - 1)) * bpow radix2 e)%R ->
  exists qs, generate (N := F64) g pts box nX nY = Ok (g, pts ++ qs) /\ length qs = (Z.to_nat nX * Z.to_nat nY)%nat /\ Forall (grid_point e) qs /\
    forall i j, (i < Z.to_nat nY)%nat -> (j < Z.to_nat nX)%nat -> exists q, nth_error qs (i * Z.to_nat nX + j) = Some q /\
      xyv q = (x0 + INR j * ((x1 - x0) / IZR (nX - 1)), y0 + INR i * ((y1 - y0) / IZR (nY - 1)))%R.
Proof.
  intros He C1 C2 HX HY g x0 x1 y0 y1 DX DY.
  assert (BP : forall q, grid_point e q -> bounded_point q).
  { intros q [Qx Qy]. split; [split; eapply grid_fin; eassumption|].
    split; (eapply Rle_trans; [eapply (grid_bound e (2 ^ 20) 20); [eassumption|lia|lia]|apply bpow_le; lia]). }
  destruct (bbox_doubles box (BP _ C1) (BP _ C2)) as ((V1 & V2 & V3 & V4) & (G1 & W1 & G2 & W2) & _).
  fold x0 in V1. fold x1 in V2. fold y0 in V3. fold y1 in V4. rewrite <- V1, <- V2 in W1. rewrite <- V3, <- V4 in W2. rewrite nearest_rnd in W1, W2.
  assert (XX : (x0 <= x1)%R) by (rewrite V1, V2; apply Rmin_Rmax). assert (YY : (y0 <= y1)%R) by (rewrite V3, V4; apply Rmin_Rmax).
  destruct C1 as [C1x C1y], C2 as [C2x C2y].
  assert (MM : forall x y : f64, grid e (2 ^ 20) x -> grid e (2 ^ 20) y -> grid e (2 ^ 20) (nmin (N := F64) x y) /\ grid e (2 ^ 20) (nmax (N := F64) x y)).
  { intros x y X Y. unfold nmin, nmax. split; destruct (nltb _ _); assumption. }
  destruct (MM _ _ C1x C2x) as [[Fa (a & Ha & Va)] [_ (b & Hb & Vb)]]. destruct (MM _ _ C1y C2y) as [[Fc (c & Hc & Vc)] [_ (d & Hd & Vd)]].
  change (x0 = (IZR a * bpow radix2 e)%R) in Va. change (x1 = (IZR b * bpow radix2 e)%R) in Vb.
  change (y0 = (IZR c * bpow radix2 e)%R) in Vc. change (y1 = (IZR d * bpow radix2 e)%R) in Vd.
  assert (PB : (0 < bpow radix2 e)%R) by apply bpow_gt_0.
  assert (EX : b - a = dX * (nX - 1)).
  { apply eq_IZR. rewrite minus_IZR. apply Rmult_eq_reg_r with (bpow radix2 e); [|lra]. rewrite <- DX, Va, Vb. ring. }
  assert (EY : d - c = dY * (nY - 1)).
  { apply eq_IZR. rewrite minus_IZR. apply Rmult_eq_reg_r with (bpow radix2 e); [|lra]. rewrite <- DY, Vc, Vd. ring. }
  assert (LX : a <= b). { apply le_IZR. apply Rmult_le_reg_r with (bpow radix2 e); [exact PB|]. rewrite <- Va, <- Vb. exact XX. }
  assert (LY : c <= d). { apply le_IZR. apply Rmult_le_reg_r with (bpow radix2 e); [exact PB|]. rewrite <- Vc, <- Vd. exact YY. }
  rewrite DX, rnd_scaled in W1 by (unfold okexp; lia). rewrite DY, rnd_scaled in W2 by (unfold okexp; lia).
  destruct (constant_run pts box nX nY HX HY) as (qs & E & Lq & T). exists qs. split; [exact E|]. split; [exact Lq|].
  assert (K : forall i j, (i < Z.to_nat nY)%nat -> (j < Z.to_nat nX)%nat -> exists q, nth_error qs (i * Z.to_nat nX + j) = Some q /\ grid_point e q /\
      xyv q = (x0 + INR j * ((x1 - x0) / IZR (nX - 1)), y0 + INR i * ((y1 - y0) / IZR (nY - 1)))%R).
  { intros i j Hi Hj. specialize (T i j Hi Hj). cbn zeta in T. eexists. split; [exact T|].
    destruct (node_exact e (bb_xMin box) (bb_width box) a dX (nX - 1) (Z.of_nat j)) as [A1 A2]; [lia|exact Fa|exact Va|exact G1|exact W1|lia|lia|lia|].
    destruct (node_exact e (bb_yMin box) (bb_height box) c dY (nY - 1) (Z.of_nat i)) as [A3 A4]; [lia|exact Fc|exact Vc|exact G2|exact W2|lia|lia|lia|].
    split.
    - split; (split; [assumption|]); [exists (a + Z.of_nat j * dX)|exists (c + Z.of_nat i * dY)]; (split; [|assumption]).
      + assert (0 <= dX) by nia. assert (Z.of_nat j * dX <= dX * (nX - 1)) by nia. assert (0 <= Z.of_nat j * dX) by nia. lia.
      + assert (0 <= dY) by nia. assert (Z.of_nat i * dY <= dY * (nY - 1)) by nia. assert (0 <= Z.of_nat i * dY) by nia. lia.
    - unfold xyv. cbn [px py mkP]. rewrite A2, A4, DX, DY, Va, Vc, !INR_IZR_INZ, !plus_IZR, !mult_IZR. 
      assert (IZR (nX - 1) <> 0%R) by (apply not_0_IZR; lia). assert (IZR (nY - 1) <> 0%R) by (apply not_0_IZR; lia). f_equal; field; assumption. }
  split.
  - rewrite Forall_forall. intros q Hq. apply In_nth_error in Hq as [k Hk]. assert (Hkl : (k < length qs)%nat) by (apply nth_error_Some; congruence).
    assert (Hw : (0 < Z.to_nat nX)%nat) by lia.
    assert (Hd' : (k = k / Z.to_nat nX * Z.to_nat nX + k mod Z.to_nat nX)%nat) by (rewrite Nat.mul_comm; apply Nat.div_mod; lia).
    destruct (K (k / Z.to_nat nX)%nat (k mod Z.to_nat nX)%nat) as (q' & Hq' & Gq & _).
    + apply Nat.div_lt_upper_bound; lia.
    + apply Nat.mod_upper_bound; lia.
    + rewrite <- Hd', Hk in Hq'. injection Hq' as <-. exact Gq.
  - intros i j Hi Hj. destruct (K i j Hi Hj) as (q & Hq & _ & Eq). exists q. auto.
Qed.
Lemma grid_bounded e : -200 <= e <= 200 -> forall q, grid_point e q -> bounded_point q.
Proof.
  intros He q [Qx Qy]. split; [split; eapply grid_fin; eassumption|].
  split; (eapply Rle_trans; [eapply (grid_bound e (2 ^ 20) 20); [eassumption|lia|lia]|apply bpow_le; lia]).
Qed.
(** the spacing 7/25 is rounded up so far that 25 times it is rounded above 7 *)
Lemma outside_witness (g g' : generator F64) (box : bbox F64) qs : generate (N := F64) g [] box 26 2 = Ok (g', qs) ->
  existsb (fun q : PF => nltb (n := F64) (bb_xMax box) (px q) && negb (bb_contains box q)) qs = true ->
  exists q, In q qs /\ nltb (n := F64) (bb_xMax box) (px q) = true /\ bb_contains box q = false.
Proof.
  intros _ H. apply existsb_exists in H as (q & Hq & H). apply andb_true_iff in H as [H1 H2]. apply negb_true_iff in H2. eauto.
Qed.
Lemma constant_outside : exists (box : bbox F64) (g' : generator F64) (qs : list PF),
  generate (N := F64) (GBoth (N := F64) f_constant f_constant) [] box 26 2 = Ok (g', qs) /\
  exists q, In q qs /\ nltb (n := F64) (bb_xMax box) (px q) = true /\ bb_contains box q = false.
Proof.
  set (box := mkBox (N := F64) (mkP (N := F64) (F64_ofZ 0) (F64_ofZ 0)) (mkP (N := F64) (F64_ofZ 7) (F64_ofZ 7))).
  destruct (constant_run [] box 26 2 ltac:(lia) ltac:(lia)) as (qs & E & _ & _). exists box. do 2 eexists. split; [exact E|].
  apply (outside_witness _ _ box _ E). cbn [app].
  assert (K : match generate (N := F64) (GBoth (N := F64) f_constant f_constant) [] box 26 2 with
    | Ok (_, l) => existsb (fun q : PF => nltb (n := F64) (bb_xMax box) (px q) && negb (bb_contains box q)) l | _ => false end = true) by (vm_compute; reflexivity).
  rewrite E in K. exact K.
Qed.
