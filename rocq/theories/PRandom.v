(** Proofs about the random functors, and about scaling on doubles. *)
From Coq Require Import Reals Lra Lia ZArith SpecFloat List Bool Psatz.
From Flocq Require Import Core BinarySingleNaN.
From Verif Require Import Base Spec MUtil MGeom MGen MRegion MRandom Bridge BridgeNum PUtil PFloat PGrid PGrid3 PGen PRegion.
Import ListNotations.
Local Open Scope Z_scope.

(** * Truncation *)
Lemma trunc_bounds (x : R) k : truncates x k ->
  (x - 1 < IZR k < x + 1)%R /\ ((x <= 0)%R -> (x <= IZR k)%R) /\ ((0 <= x)%R -> (IZR k <= x)%R) /\ (forall m : Z, x = IZR m -> k = m).
Proof.
  intros [H1 H2].
  assert (S : (0 <= x /\ 0 <= IZR k \/ x <= 0 /\ IZR k <= 0)%R).
  { destruct H1 as [H0 H1]. destruct (Rle_lt_dec 0 x) as [A|A], (Rle_lt_dec 0 (IZR k)) as [B|B].
    - left. auto.
    - exfalso. rewrite (Rabs_left (IZR k)), (Rabs_right x) in H0 by lra. assert (C : (0 < x * - IZR k)%R) by (apply Rmult_lt_0_compat; lra). lra.
    - destruct (Req_dec (IZR k) 0) as [E|E]; [right; lra|]. exfalso. assert (C : (0 < - x * IZR k)%R) by (apply Rmult_lt_0_compat; lra). lra.
    - right. lra. }
  assert (B : (0 <= x /\ 0 <= IZR k /\ IZR k <= x < IZR k + 1 \/ x <= 0 /\ IZR k <= 0 /\ IZR k - 1 < x <= IZR k)%R).
  { destruct S as [[A C]|[A C]]; [left|right]; unfold Rabs in H1; repeat destruct Rcase_abs in H1; lra. }
  clear S H1 H2. assert (Q : (x - 1 < IZR k < x + 1)%R) by (destruct B; lra).
  split; [exact Q|]. split; [intros; destruct B; lra|]. split; [intros; destruct B; lra|]. clear B. intros m ->.
  assert (K : (IZR (k - m) < 1 /\ -1 < IZR (k - m))%R) by (rewrite minus_IZR; lra). destruct K as [K1 K2].
  apply lt_IZR in K1. apply (lt_IZR (-1)) in K2. lia.
Qed.
Lemma trunc_val (x : f64) : fin x -> exists z, ntrunc (n := F64) x = Some z /\ truncates (val x) z.
Proof.
  intros [_ F]. destruct x as [s| | |s m e]; try discriminate F; cbn [ntrunc F64 F64_trunc].
  - exists 0. split; [reflexivity|]. unfold val, truncates. cbn [SF2R]. rewrite Rabs_R0. lra.
  - set (a := if 0 <=? e then _ else _). eexists. split; [reflexivity|].
    assert (A : (IZR a <= IZR (Zpos m) * bpow radix2 e < IZR a + 1)%R /\ 0 <= a).
    { unfold a. destruct (0 <=? e) eqn:E.
      - apply Z.leb_le in E. rewrite mult_IZR. assert (W : IZR (2 ^ e) = bpow radix2 e) by exact (IZR_Zpower radix2 e E). rewrite W. split; [lra|]. apply Z.mul_nonneg_nonneg; [lia|]. apply Z.pow_nonneg. lia.
      - apply Z.leb_gt in E. assert (P : 0 < 2 ^ (- e)) by (apply Z.pow_pos_nonneg; lia).
        pose proof (Z.div_mod (Zpos m) (2 ^ (- e)) ltac:(lia)) as D. pose proof (Z.mod_pos_bound (Zpos m) (2 ^ (- e)) P) as M.
        assert (B : bpow radix2 e = (/ IZR (2 ^ (- e)))%R).
        { rewrite <- (Z.opp_involutive e) at 1. rewrite bpow_opp. f_equal. symmetry. apply (IZR_Zpower radix2). lia. }
        rewrite B. apply IZR_lt in P. set (q := Zpos m / 2 ^ (- e)) in *. split; [|apply Z.div_pos; [lia|apply Z.pow_pos_nonneg; lia]].
        apply (f_equal IZR) in D. rewrite plus_IZR, mult_IZR in D. destruct M as [M1 M2]. apply IZR_le in M1. apply IZR_lt in M2.
        assert (Q : (IZR (2 ^ (- e)) * / IZR (2 ^ (- e)) = 1)%R) by (apply Rinv_r; lra).
        assert (I : (0 < / IZR (2 ^ (- e)))%R) by (apply Rinv_0_lt_compat; lra).
        set (P' := IZR (2 ^ (- e))) in *. set (J := (/ P')%R) in *. set (r := IZR (Zpos m mod 2 ^ (- e))) in *. rewrite D.
        assert (U : ((P' * IZR q + r) * J = IZR q + r * J)%R) by (transitivity (P' * J * IZR q + r * J)%R; [ring|rewrite Q; ring]).
        assert (V : (0 <= r * J)%R) by (apply Rmult_le_pos; lra). assert (V2 : (r * J < P' * J)%R) by (apply Rmult_lt_compat_r; lra). rewrite U. lra. }
    destruct A as [A1 A2]. apply IZR_le in A2. unfold val. cbn [SF2R]. unfold F2R. cbn [Fnum Fexp].
    destruct s; cbn [cond_Zopp]; unfold truncates; rewrite ?opp_IZR.
    + replace (- IZR (Zpos m) * bpow radix2 e)%R with (- (IZR (Zpos m) * bpow radix2 e))%R by ring. change (IZR (Zneg m)) with (- IZR (Zpos m))%R in *.
      set (v := (IZR (Zpos m) * bpow radix2 e)%R) in *. rewrite !Rabs_Ropp, !Rabs_right by lra. split; [lra|nra].
    + set (v := (IZR (Zpos m) * bpow radix2 e)%R) in *. rewrite !Rabs_right by lra. split; [lra|nra].
Qed.

(** * Random integers *)
Definition reads (N : Num) (v : nT N -> R) (ok : nT N -> Prop) : Prop :=
  forall x, ok x -> exists z, ntrunc (n := N) x = Some z /\ truncates (v x) z.
Lemma reads_R : reads RNum (fun x => x) (fun _ => True).
Proof. intros x _. exists (Rtrunc x). split; [reflexivity|apply Rtrunc_truncates]. Qed.
Lemma reads_F : reads F64 val fin.
Proof. exact trunc_val. Qed.

Lemma integer_bounds (N : Num) v ok : reads N v ok -> forall min max : nT N, ok min -> ok max ->
  (exists kl kh, truncates (v min) kl /\ truncates (v max) kh /\
    ((exists b, random_integer_bounds min max = Ok b) <-> int_min <= kl /\ kh <= int_max /\ kl <= kh) /\
    ((exists b, random_integer_bounds min max = Ok b) \/ exists m, random_integer_bounds min max = Err (UB m))) /\
  forall lo hi, random_integer_bounds min max = Ok (lo, hi) -> forall k, lo <= k <= hi ->
    (v min - 1 < IZR k < v max + 1)%R /\
    ((v min <= 0)%R \/ (exists m : Z, v min = IZR m) -> (v min <= IZR k)%R) /\
    ((0 <= v max)%R \/ (exists m : Z, v max = IZR m) -> (IZR k <= v max)%R).
Proof.
  intros RD min max Omin Omax. destruct (RD min Omin) as (kl & El & Tl). destruct (RD max Omax) as (kh & Eh & Th).
  assert (C : random_integer_bounds min max = if in_int kl then if in_int kh then if (kl <=? kh) then Ok (kl, kh) else Err (UB "bounds of uniform_int_distribution")
      else Err (UB "double to int conversion overflow") else Err (UB "double to int conversion overflow")).
  { unfold random_integer_bounds, to_int. rewrite El, Eh. destruct (in_int kl); [|reflexivity]. cbn [bind]. destruct (in_int kh); reflexivity. }
  assert (I : forall z, in_int z = true <-> int_min <= z <= int_max) by (intros z; unfold in_int; rewrite andb_true_iff, !Z.leb_le; tauto).
  split.
  - exists kl, kh. split; [exact Tl|]. split; [exact Th|]. rewrite C. split.
    + destruct (in_int kl) eqn:A; [apply I in A|].
      * destruct (in_int kh) eqn:B; [apply I in B|].
        { destruct (Z.leb_spec kl kh); split; [lia|eauto|intros [? ?]; discriminate|lia]. }
        { split; [intros [? ?]; discriminate|]. intros H. exfalso. assert (in_int kh = true) by (apply I; lia). congruence. }
      * split; [intros [? ?]; discriminate|]. intros H. exfalso.
        assert (in_int kl = true) by (apply I; lia). congruence.
    + destruct (in_int kl); [|eauto]. destruct (in_int kh); [|eauto]. destruct (kl <=? kh); eauto.
  - intros lo hi H k Hk. rewrite C in H. destruct (in_int kl); [|discriminate]. destruct (in_int kh); [|discriminate]. destruct (kl <=? kh); [|discriminate].
    injection H as <- <-. destruct (trunc_bounds _ _ Tl) as (A1 & A2 & _ & A4). destruct (trunc_bounds _ _ Th) as (B1 & _ & B3 & B4).
    destruct Hk as [K1 K2]. apply IZR_le in K1, K2. split; [lra|]. split.
    + intros [L|[m Em]]; [specialize (A2 L); lra|]. specialize (A4 m Em). subst kl. lra.
    + intros [L|[m Em]]; [specialize (B3 L); lra|]. specialize (B4 m Em). subst kh. lra.
Qed.

Lemma double_bounds (min max : f64) : fin min -> fin max ->
  ((val min <= val max)%R -> random_double_bounds (N := F64) min max = Ok (min, max)) /\
  ((val max < val min)%R -> exists m, random_double_bounds (N := F64) min max = Err (UB m)).
Proof.
  intros A B. unfold random_double_bounds. rewrite (leb_correct _ _ A B). unfold Rleb. destruct Rle_dec; split; intros H; try lra; [reflexivity|eauto].
Qed.

(** * Points from random functors *)
Lemma apply_all_random (N : Num) (o : nat -> nT N) xs : forall k, apply_all (FRandom o k) xs = Ok (FRandom o (k + length xs), map o (seq k (length xs))).
Proof.
  induction xs as [|x xs IH]; intros k; cbn [apply_all length seq map].
  - rewrite Nat.add_0_r. reflexivity.
  - cbn [apply bind]. rewrite IH. cbn [bind]. rewrite Nat.add_succ_r. reflexivity.
Qed.
Lemma combine_map_same {A B C} (f : A -> B) (g : A -> C) l : combine (map f l) (map g l) = map (fun a => (f a, g a)) l.
Proof. induction l; cbn; congruence. Qed.
Lemma grid_nodes_length (N : Num) (box : bbox N) nX nY : length (grid_nodes box nX nY) = (Z.to_nat nX * Z.to_nat nY)%nat.
Proof.
  unfold grid_nodes. rewrite Nat.mul_comm. rewrite <- (seq_length (Z.to_nat nY) 0) at 2.
  assert (G : forall {A B C} (f : A -> B -> C) (l1 : list A) (l2 : list B), length (flat_map (fun i => map (f i) l2) l1) = (length l1 * length l2)%nat).
  { intros A B C f l1 l2. induction l1 as [|a l1 IH]; [reflexivity|]. cbn [flat_map length Nat.mul]. rewrite app_length, map_length, IH. reflexivity. }
  rewrite G, !seq_length. reflexivity.
Qed.
Lemma random_points (N : Num) (box : bbox N) nX nY (ox oy : nat -> nT N) (pts : list (Point N)) :
  neqb (nZ (n := N) (nX - 1)) (nZ 0) = false -> neqb (nZ (n := N) (nY - 1)) (nZ 0) = false ->
  exists g', generate (GBoth (random_double ox) (random_double oy)) pts box nX nY =
    Ok (g', pts ++ map (fun k => mkP (ox k) (oy k)) (seq 0 (Z.to_nat nX * Z.to_nat nY))).
Proof.
  intros E1 E2. destruct (generate_axes N box nX nY E1 E2 pts (pts ++ map (fun k => mkP (ox k) (oy k)) (seq 0 (Z.to_nat nX * Z.to_nat nY)))
    (GBoth (FRandom ox (0 + Z.to_nat nX * Z.to_nat nY)) (FRandom oy (0 + Z.to_nat nX * Z.to_nat nY)))) as (_ & _ & H).
  eexists. apply H. do 4 eexists. split; [reflexivity|]. unfold random_double. rewrite !apply_all_random, !map_length, !grid_nodes_length.
  split; [reflexivity|]. split; [reflexivity|]. rewrite combine_map_same, map_map. reflexivity.
Qed.
Lemma random_integer_points (N : Num) (box : bbox N) nX nY (ox oy : nat -> Z) (pts : list (Point N)) :
  neqb (nZ (n := N) (nX - 1)) (nZ 0) = false -> neqb (nZ (n := N) (nY - 1)) (nZ 0) = false ->
  exists g', generate (GBoth (random_integer ox) (random_integer oy)) pts box nX nY =
    Ok (g', pts ++ map (fun k => mkP (nZ (ox k)) (nZ (oy k))) (seq 0 (Z.to_nat nX * Z.to_nat nY))).
Proof. exact (random_points N box nX nY (fun k => nZ (ox k)) (fun k => nZ (oy k)) pts). Qed.

(** * Scaling to integers on doubles *)
Lemma ofZ_small n : Z.abs n <= 2 ^ 31 -> fin (nZ (n := F64) n) /\ val (nZ (n := F64) n) = IZR n.
Proof. intros H. apply ofZ_correct. lia. Qed.
Lemma scale_coordinate (scale : Z) (x : f64) : 0 < scale <= 2 ^ 30 -> fin x -> (Rabs (IZR scale * val x) <= IZR (2 ^ 30))%R ->
  exists k c, to_int (N := F64) (nmul (n := F64) (nZ scale) x) = Ok k /\ divr (N := F64) (nZ k) (nmul (nZ 1) (nZ scale)) = Ok c /\ fin c /\
    (Rabs (val c - val x) < (1 + bpow radix2 (-20)) / IZR scale)%R /\ (forall m : Z, (IZR scale * val x = IZR m)%R -> val c = val x).
Proof.
  intros Hs Fx Hx. destruct (ofZ_small scale ltac:(lia)) as [Fs Vs]. destruct (ofZ_small 1 ltac:(lia)) as [F1 V1].
  assert (Hx' : (Rabs (IZR scale * val x) <= bpow radix2 30)%R) by exact Hx.
  destruct (rnd_error _ 30 ltac:(lia) Hx') as [E1 B1].
  assert (SM : forall r, (Rabs r <= bpow radix2 30)%R -> (Rabs r < big)%R) by (intros r Hr; eapply Rle_lt_trans; [exact Hr|]; apply bpow_lt; lia).
  destruct (mul_correct (@nZ F64 scale) x Fs Fx) as [Fy Vy]; [rewrite Vs; apply SM; exact B1|]. rewrite Vs in Vy.
  set (y := nmul (n := F64) (nZ scale) x) in *. destruct (trunc_val y Fy) as (k & Ek & Tk). destruct (trunc_bounds _ _ Tk) as (K1 & _ & _ & K4).
  assert (AK : (Rabs (IZR k) <= bpow radix2 30)%R) by (destruct Tk as [[T _] _]; rewrite Vy in T; lra).
  assert (ZK : Z.abs k <= 2 ^ 30).
  { apply le_IZR. rewrite abs_IZR. exact AK. }
  assert (IK : in_int k = true) by (unfold in_int, int_min, int_max; apply andb_true_iff; rewrite !Z.leb_le; lia).
  assert (TI : to_int (N := F64) y = Ok k) by (unfold to_int; rewrite Ek, IK; reflexivity).
  destruct (ofZ_small k ltac:(lia)) as [Fk Vk].
  assert (PS : (0 < IZR scale)%R) by (apply (IZR_lt 0); lia).
  assert (M1 : rnd (IZR 1 * IZR scale) = IZR scale) by (rewrite Rmult_1_l; apply rnd_int; lia).
  assert (SS : (Rabs (IZR scale) <= bpow radix2 30)%R) by (rewrite Rabs_pos_eq by lra; change (bpow radix2 30) with (IZR (2 ^ 30)); apply IZR_le; lia).
  destruct (mul_correct (@nZ F64 1) (@nZ F64 scale) F1 Fs) as [Fd Vd]; [rewrite V1, Vs, M1; apply SM; exact SS|]. rewrite V1, Vs, M1 in Vd.
  set (den := nmul (n := F64) (nZ 1) (nZ scale)) in *.
  (* the exponent of the scale *)
  set (j := Z.log2 scale). assert (J : 2 ^ j <= scale < 2 ^ (j + 1)) by (destruct (Z.log2_spec scale ltac:(lia)) as [J1 J2]; fold j in J1, J2; rewrite <- Z.add_1_r in J2; lia).
  assert (J0 : 0 <= j <= 30).
  { split; [apply Z.log2_nonneg|]. destruct (Z_le_gt_dec j 30) as [L|L]; [exact L|]. exfalso. assert (2 ^ 31 <= 2 ^ j) by (apply Z.pow_le_mono_r; lia). change (2 ^ 31) with 2147483648 in *. change (2 ^ 30) with 1073741824 in *. lia. }
  assert (JR : (bpow radix2 j <= IZR scale < bpow radix2 (j + 1))%R).
  { assert (W : forall i, 0 <= i -> bpow radix2 i = IZR (2 ^ i)) by (intros i Hi; symmetry; exact (IZR_Zpower radix2 i Hi)). rewrite !W by lia. split; [apply IZR_le; lia|apply IZR_lt; lia]. }
  assert (Q : (Rabs (IZR k / IZR scale) <= bpow radix2 (30 - j))%R).
  { unfold Rdiv. rewrite Rabs_mult, (Rabs_pos_eq (/ IZR scale)) by (left; apply Rinv_0_lt_compat; exact PS). replace (30 - j) with (30 + - j) by ring. rewrite bpow_plus, (bpow_opp _ j).
    apply Rmult_le_compat; [apply Rabs_pos|left; apply Rinv_0_lt_compat; exact PS|exact AK|]. apply Rinv_le_contravar; [apply bpow_gt_0|lra]. }
  destruct (rnd_error _ (30 - j) ltac:(lia) Q) as [E2 B2].
  destruct (div_correct (@nZ F64 k) den Fk Fd) as [Fc Vc]; [lra|rewrite Vk, Vd; eapply Rle_lt_trans; [exact B2|]; apply bpow_lt; lia|]. rewrite Vk, Vd in Vc.
  exists k, (ndiv (n := F64) (nZ k) den). split; [exact TI|]. split.
  - unfold divr. destruct (ofZ_small 0 ltac:(lia)) as [F0 V0]. rewrite (eqb_correct _ _ Fd F0), Vd, V0. unfold Reqb. destruct Req_EM_T; [lra|reflexivity].
  - split; [exact Fc|]. split.
    + set (e := IZR scale) in *. set (X := val x) in *.
      assert (E3 : (bpow radix2 (30 - j - 53) <= bpow radix2 (-22) / e)%R).
      { replace (30 - j - 53) with (-22 + - (j + 1)) by ring. rewrite bpow_plus, (bpow_opp _ (j + 1)). apply Rmult_le_compat_l; [apply bpow_ge_0|]. apply Rinv_le_contravar; lra. }
      assert (K5 : (Rabs (IZR k - e * X) < 1 + bpow radix2 (-23))%R).
      { replace (IZR k - e * X)%R with ((IZR k - val y) + (val y - e * X))%R by ring. rewrite Vy in *. change (30 - 53) with (-23) in E1.
        eapply Rle_lt_trans; [apply Rabs_triang|]. apply Rplus_lt_le_compat; [|exact E1]. apply Rabs_def1; lra. }
      rewrite Vc. replace (rnd (IZR k / e) - X)%R with ((rnd (IZR k / e) - IZR k / e) + (IZR k - e * X) / e)%R by (field; lra).
      eapply Rle_lt_trans; [apply Rabs_triang|].
      assert (D : (Rabs ((IZR k - e * X) / e) < (1 + bpow radix2 (-23)) / e)%R).
      { unfold Rdiv. rewrite Rabs_mult, (Rabs_pos_eq (/ e)) by (left; apply Rinv_0_lt_compat; exact PS). apply Rmult_lt_compat_r; [apply Rinv_0_lt_compat; exact PS|exact K5]. }
      assert (L : (bpow radix2 (-22) / e + (1 + bpow radix2 (-23)) / e <= (1 + bpow radix2 (-20)) / e)%R).
      { unfold Rdiv. rewrite <- Rmult_plus_distr_r. apply Rmult_le_compat_r; [left; apply Rinv_0_lt_compat; exact PS|].
        change (bpow radix2 (-22)) with (/ IZR (2 ^ 22))%R. change (bpow radix2 (-23)) with (/ IZR (2 ^ 23))%R. change (bpow radix2 (-20)) with (/ IZR (2 ^ 20))%R.
        change (2 ^ 22) with 4194304. change (2 ^ 23) with 8388608. change (2 ^ 20) with 1048576. lra. }
      lra.
    + intros m Hm. assert (Zm : Z.abs m <= 2 ^ 30) by (apply le_IZR; rewrite abs_IZR, <- Hm; exact Hx).
      assert (Y : val y = IZR m) by (rewrite Vy, Hm; apply rnd_int; lia). rewrite (K4 m Y) in *. rewrite Vc.
      replace (IZR m / IZR scale)%R with (val x) by (rewrite <- Hm; field; lra).
      apply round_generic; [apply valid_rnd_N|]. destruct (fin_as_B x Fx) as (b & -> & Fb & ->). apply generic_format_B2R.
Qed.
Lemma roundtrip64 (scale : Z) (v : Point F64) : 0 < scale <= 2 ^ 30 -> fin (px v) -> fin (py v) ->
  (Rabs (IZR scale * val (px v)) <= IZR (2 ^ 30))%R -> (Rabs (IZR scale * val (py v)) <= IZR (2 ^ 30))%R ->
  exists k v', scalePoint (N := F64) scale v = Ok k /\ unscalePoint (N := F64) scale k = Ok v' /\ fin (px v') /\ fin (py v') /\
    (Rabs (val (px v') - val (px v)) < (1 + / IZR (2 ^ 20)) / IZR scale)%R /\ (Rabs (val (py v') - val (py v)) < (1 + / IZR (2 ^ 20)) / IZR scale)%R /\
    (forall m : Z, (IZR scale * val (px v) = IZR m)%R -> val (px v') = val (px v)) /\ (forall m : Z, (IZR scale * val (py v) = IZR m)%R -> val (py v') = val (py v)).
Proof.
  intros Hs Fx Fy Hx Hy. destruct (scale_coordinate scale (px v) Hs Fx Hx) as (k & c & A1 & A2 & A3 & A4 & A5).
  destruct (scale_coordinate scale (py v) Hs Fy Hy) as (l & d & B1 & B2 & B3 & B4 & B5).
  exists (k, l), (mkP (N := F64) c d). unfold scalePoint, unscalePoint. rewrite A1, B1. cbn [bind fst snd]. rewrite A2, B2. cbn [bind].
  split; [reflexivity|]. split; [reflexivity|]. cbn [mkP px py]. auto 10.
Qed.
