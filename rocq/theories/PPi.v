(** Bounds of PI, by the formula PI/4 = 2 atan(1/3) + atan(1/7) of the standard library. *)
From Coq Require Import Reals Lra ZArith QArith Qreals Machin Lia.
From Flocq Require Import Core.
Local Open Scope R_scope.

Definition term (n : nat) : Q :=
  ((if Nat.even n then 1 else -1) * (2 * (1 # Pos.of_nat (2 * n + 1)) * (1 # 3 ^ Pos.of_nat (2 * n + 1)) + (1 # Pos.of_nat (2 * n + 1)) * (1 # 7 ^ Pos.of_nat (2 * n + 1))))%Q.
Fixpoint qsum (n : nat) : Q := match n with O => term 0 | S m => Qred (qsum m + term n)%Q end.

Lemma inv_pow (k : positive) (m : nat) : m <> O -> Q2R (1 # k ^ Pos.of_nat m) = (/ IZR (Zpos k)) ^ m.
Proof.
  intros H. unfold Q2R. cbn [Qnum Qden]. rewrite Rmult_1_l, pow_inv. f_equal. rewrite pow_IZR. f_equal. rewrite Pos2Z.inj_pow. f_equal. lia.
Qed.
Lemma term_ok n : Q2R (term n) = tg_alt PI_2_3_7_tg n.
Proof.
  unfold term, tg_alt, PI_2_3_7_tg, Ratan_seq. set (m := (2 * n + 1)%nat). assert (M : m <> O) by (unfold m; lia).
  rewrite Q2R_mult, Q2R_plus, !Q2R_mult, !inv_pow by exact M.
  assert (E : Q2R (1 # Pos.of_nat m) = / INR m) by (unfold Q2R; cbn [Qnum Qden]; rewrite Rmult_1_l; f_equal; rewrite INR_IZR_INZ; f_equal; lia).
  rewrite E. replace (Q2R 2) with 2 by (unfold Q2R; cbn; lra).
  assert (S : Q2R (if Nat.even n then 1 else -1) = (-1) ^ n).
  { clear. induction n as [|n IH]; [cbn; unfold Q2R; cbn; lra|]. rewrite Nat.even_succ, <- Nat.negb_even. cbn [pow]. rewrite <- IH. destruct (Nat.even n); unfold Q2R; cbn; lra. }
  rewrite S. unfold Rdiv. replace (INR m) with (INR m) by reflexivity. ring.
Qed.
Lemma qsum_ok n : Q2R (qsum n) = sum_f_R0 (tg_alt PI_2_3_7_tg) n.
Proof. induction n as [|n IH]; [exact (term_ok 0)|]. cbn [qsum sum_f_R0]. rewrite (Qeq_eqR _ _ (Qred_correct _)), Q2R_plus, IH, term_ok. reflexivity. Qed.

(** M_PI is 7074237752028440 * 2^-51 *)
Lemma pi_bounds : Rabs (7074237752028440 * bpow radix2 (-51) - PI) <= bpow radix2 (-52).
Proof.
  destruct (PI_2_3_7_ineq 9) as [L U]. rewrite <- qsum_ok in L, U.
  assert (L' : Q2R ((7074237752028440 # 2251799813685248) - (1 # 4503599627370496)) <= Q2R (4 * qsum 19)) by (apply Qle_Rle; vm_compute; discriminate).
  assert (U' : Q2R (4 * qsum 18) <= Q2R ((7074237752028440 # 2251799813685248) + (1 # 4503599627370496))) by (apply Qle_Rle; vm_compute; discriminate).
  rewrite Q2R_mult in L', U'. rewrite Q2R_minus in L'. rewrite Q2R_plus in U'. change (S (2 * 9))%nat with 19%nat in L. change (2 * 9)%nat with 18%nat in U.
  replace (Q2R 4) with 4 in L', U' by (unfold Q2R; cbn; lra).
  replace (Q2R (7074237752028440 # 2251799813685248)) with (7074237752028440 * bpow radix2 (-51)) in L', U' by (unfold Q2R; cbn; lra).
  replace (Q2R (1 # 4503599627370496)) with (bpow radix2 (-52)) in L', U' by (unfold Q2R; cbn; lra).
  apply Rabs_le. lra.
Qed.
