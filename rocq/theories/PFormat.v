(** Proofs about the text form of doubles. *)
From Coq Require Import Reals Lra ZArith QArith Qabs Qpower Lia List Bool Ascii Arith SpecFloat.
From Verif Require Import Base Spec SpecNum Bridge MUtil MGeom MHull MPolygon MMaps MTriangle MGen MRegion MDelaunay MMesh MFormat
  PUtil PMaps PPoly PPoly2 PMesh.
Import ListNotations.
Local Open Scope Z_scope.

Lemma pow10_add a b : 0 <= a -> 0 <= b -> 10 ^ (a + b) = 10 ^ a * 10 ^ b.
Proof. intros. apply Z.pow_add_r; assumption. Qed.

(** * The decimal exponent. *)
Lemma dexp_spec num den k : 0 < num -> 0 < den -> 0 <= k -> 0 <= dexp num den + k ->
  den * 10 ^ (dexp num den + k) <= num * 10 ^ k < den * (10 * 10 ^ (dexp num den + k)).
Proof.
  intros Hn Hd Hk. unfold dexp. destruct (den <=? num) eqn:E.
  - apply Z.leb_le in E. intros _.
    assert (Hq : 1 <= num / den) by (apply Z.div_le_lower_bound; lia).
    destruct (dec_spec (num / den)) as (_ & B & _ & D & F); [lia|].
    rewrite Z.max_l in D by lia. set (L := Z.of_nat (length (dec (num / den)))) in *.
    assert (1 <= L) by (unfold L; destruct (dec (num / den)); [congruence|cbn [length]; lia]).
    rewrite pow10_add by lia. pose proof (pow10_pos k Hk).
    replace (10 ^ L) with (10 * 10 ^ (L - 1)) in F by (rewrite <- Z.pow_succ_r by lia; f_equal; lia).
    pose proof (Z.div_mod num den ltac:(lia)). pose proof (Z.mod_pos_bound num den Hd).
    set (P := 10 ^ (L - 1)) in *. set (q := num / den) in *. split.
    + assert (den * P <= num) by nia. nia.
    + assert (num < den * (10 * P)) by nia. nia.
  - apply Z.leb_gt in E. intros Hx.
    assert (Hq : 1 <= (den - 1) / num) by (apply Z.div_le_lower_bound; lia).
    destruct (dec_spec ((den - 1) / num)) as (_ & B & _ & D & F); [lia|].
    rewrite Z.max_l in D by lia. set (L := Z.of_nat (length (dec ((den - 1) / num)))) in *.
    assert (1 <= L) by (unfold L; destruct (dec ((den - 1) / num)); [congruence|cbn [length]; lia]).
    replace (10 ^ k) with (10 ^ L * 10 ^ (k - L)) by (rewrite <- Z.pow_add_r by lia; f_equal; lia).
    replace (- L + k) with (k - L) by lia. set (T := 10 ^ (k - L)). assert (0 < T) by (apply pow10_pos; lia).
    replace (10 ^ L) with (10 * 10 ^ (L - 1)) in * by (rewrite <- Z.pow_succ_r by lia; f_equal; lia).
    pose proof (Z.div_mod (den - 1) num ltac:(lia)). pose proof (Z.mod_pos_bound (den - 1) num Hn).
    set (P := 10 ^ (L - 1)) in *. set (q := (den - 1) / num) in *.
    assert (den <= num * (10 * P)) by nia. assert (num * P < den) by nia. split; nia.
Qed.

(** * Rounding to significant digits. *)
Lemma round_digits_spec p num den m x : 1 <= p -> 0 < num -> 0 < den -> round_digits p num den = (m, x) ->
  10 ^ (p - 1) <= m < 10 ^ p /\ 0 <= x - dexp num den <= 1 /\
  (exists n, m * 10 ^ (x - dexp num den) = n /\
   forall k, 0 <= k -> 0 <= dexp num den - p + 1 + k ->
     2 * Z.abs (num * 10 ^ k - n * 10 ^ (dexp num den - p + 1 + k) * den) <= 10 ^ (dexp num den - p + 1 + k) * den).
Proof.
  intros Hp Hn Hd. unfold round_digits. set (x0 := dexp num den). cbv zeta.
  set (j := p - 1 - x0). set (m0 := if 0 <=? j then _ else _).
  assert (H0 : 10 ^ (p - 1) <= m0 <= 10 ^ p /\
     forall k, 0 <= k -> 0 <= x0 - p + 1 + k ->
     2 * Z.abs (num * 10 ^ k - m0 * 10 ^ (x0 - p + 1 + k) * den) <= 10 ^ (x0 - p + 1 + k) * den).
  { unfold m0. clear m0. destruct (0 <=? j) eqn:E.
    - apply Z.leb_le in E.
      pose proof (dexp_spec num den (Z.max j (Z.abs x0)) Hn Hd ltac:(lia)) as HD. fold x0 in HD. specialize (HD ltac:(lia)).
      pose proof (pow10_pos j ltac:(lia)).
      assert (HB : 10 ^ (p - 1) * den <= num * 10 ^ j <= 10 ^ p * den).
      { set (t := Z.max j (Z.abs x0) - j) in *. assert (0 <= t) by lia.
        replace (Z.max j (Z.abs x0)) with (j + t) in HD by lia. replace (x0 + (j + t)) with (p - 1 + t) in HD by lia.
        rewrite !pow10_add in HD by lia. replace (10 ^ p) with (10 * 10 ^ (p - 1)) by (rewrite <- Z.pow_succ_r by lia; f_equal; lia).
        pose proof (pow10_pos t ltac:(lia)). split; nia. }
      destruct (round_div_near (num * 10 ^ j) den) as [A _]; [nia|assumption|].
      pose proof (round_div_mono (num * 10 ^ j) den _ _ ltac:(nia) Hd HB) as C.
      set (m0 := round_div (num * 10 ^ j) den) in *. split; [assumption|]. intros k Hk Hk2.
      replace (x0 - p + 1 + k) with (k - j) in * by lia. replace k with (j + (k - j)) at 1 by lia. rewrite pow10_add by lia.
      set (t := k - j) in *. pose proof (pow10_pos t ltac:(lia)).
      replace (num * (10 ^ j * 10 ^ t) - m0 * 10 ^ t * den) with ((num * 10 ^ j - m0 * den) * 10 ^ t) by ring.
      rewrite Z.abs_mul, (Z.abs_eq (10 ^ t)) by lia. nia.
    - apply Z.leb_gt in E.
      pose proof (dexp_spec num den 0 Hn Hd ltac:(lia)) as HD. fold x0 in HD. specialize (HD ltac:(lia)).
      rewrite Z.pow_0_r, Z.mul_1_r, Z.add_0_r in HD.
      pose proof (pow10_pos (- j) ltac:(lia)) as Hj.
      assert (HB : 10 ^ (p - 1) * (den * 10 ^ (- j)) <= num <= 10 ^ p * (den * 10 ^ (- j))).
      { replace x0 with (p - 1 + - j) in HD by lia. rewrite pow10_add in HD by lia.
        replace (10 ^ p) with (10 * 10 ^ (p - 1)) by (rewrite <- Z.pow_succ_r by lia; f_equal; lia). split; nia. }
      destruct (round_div_near num (den * 10 ^ (- j))) as [A _]; [nia|nia|].
      pose proof (round_div_mono num (den * 10 ^ (- j)) _ _ ltac:(nia) ltac:(nia) HB) as C.
      set (m0 := round_div num (den * 10 ^ (- j))) in *. split; [assumption|]. intros k Hk Hk2.
      replace (x0 - p + 1 + k) with (- j + k) in * by lia. rewrite pow10_add by lia.
      pose proof (pow10_pos k ltac:(lia)).
      replace (num * 10 ^ k - m0 * (10 ^ (- j) * 10 ^ k) * den) with ((num - m0 * (den * 10 ^ (- j))) * 10 ^ k) by ring.
      rewrite Z.abs_mul, (Z.abs_eq (10 ^ k)) by lia. nia. }
  destruct H0 as [B0 S0]. destruct (m0 =? 10 ^ p) eqn:E; intros [= <- <-].
  - apply Z.eqb_eq in E. replace (10 ^ p) with (10 * 10 ^ (p - 1)) in * by (rewrite <- Z.pow_succ_r by lia; f_equal; lia).
    pose proof (pow10_pos (p - 1) ltac:(lia)). split; [lia|]. split; [lia|].
    exists m0. split; [|assumption]. replace (x0 + 1 - x0) with 1 by lia. change (10 ^ 1) with 10. lia.
  - apply Z.eqb_neq in E. split; [lia|]. split; [lia|]. exists m0. split; [|assumption].
    rewrite Z.sub_diag. cbn. lia.
Qed.

(** * Fractions. *)
Local Open Scope Q_scope.
Lemma q10_nz : ~ inject_Z 10 == 0. Proof. discriminate. Qed.
Lemma scaled_shift b m e k : (0 < b)%Z -> (0 <= k)%Z -> (0 <= e + k)%Z ->
  scaled b m e * inject_Z (b ^ k) == inject_Z (m * b ^ (e + k)).
Proof.
  intros Hb Hk He. unfold scaled. rewrite inject_Z_mult, !Zpower_Qpower by assumption.
  rewrite Qpower_plus; [ring|]. intros H. apply Qeq_bool_iff in H. unfold Qeq_bool, inject_Z in H. cbn in H.
  destruct b; cbn in H; congruence || lia.
Qed.
Lemma inject_pos z : (0 < z)%Z -> 0 < inject_Z z.
Proof. intros. change 0 with (inject_Z 0). now rewrite <- Zlt_Qlt. Qed.
Lemma inject_abs z : inject_Z (Z.abs z) == Qabs (inject_Z z).
Proof. reflexivity. Qed.

Lemma Qnot_eq_sym (a b : Q) : ~ a == b -> ~ b == a.
Proof. intros H E. apply H. symmetry. exact E. Qed.
(** A bound on scaled integers is a bound on the fractions. *)
Lemma fraction_rounded p num den v x n : (0 < num)%Z -> (0 < den)%Z -> v * inject_Z den == inject_Z num ->
  x = (dexp num den - p + 1)%Z -> (1 <= p)%Z ->
  (forall k, (0 <= k -> 0 <= x + k ->
     2 * Z.abs (num * 10 ^ k - n * 10 ^ (x + k) * den) <= 10 ^ (x + k) * den)%Z) ->
  rounded_to p v (scaled 10 n x).
Proof.
  intros Hn Hd Hv Hx Hp H. exists x, n.
  set (k := (Z.abs x + Z.abs (dexp num den) + p)%Z).
  pose proof (dexp_spec num den k Hn Hd ltac:(lia) ltac:(lia)) as HD.
  specialize (H k ltac:(lia) ltac:(lia)).
  set (K := inject_Z (10 ^ k)%Z). assert (HK : 0 < K) by (apply inject_pos, pow10_pos; lia).
  pose proof (inject_pos den Hd) as Hd'. set (D := inject_Z den) in *.
  assert (HDK : 0 < D * K) by (apply Qmult_lt_0_compat; assumption).
  assert (EV : v * (D * K) == inject_Z (num * 10 ^ k)).
  { rewrite inject_Z_mult, <- Hv. unfold K. ring. }
  assert (E1 : forall m e, (0 <= e + k)%Z -> scaled 10 m e * (D * K) == inject_Z (m * 10 ^ (e + k) * den)).
  { intros m e He. rewrite inject_Z_mult, <- scaled_shift by lia. unfold D, K. ring. }
  split; [split|split].
  - apply (Qmult_le_r _ _ (D * K)); [assumption|]. rewrite EV, E1 by lia. rewrite <- Zle_Qle.
    replace (x + p - 1 + k)%Z with (dexp num den + k)%Z by lia. lia.
  - apply (Qmult_lt_r _ _ (D * K)); [assumption|]. rewrite EV, E1 by lia. rewrite <- Zlt_Qlt.
    replace (x + p + k)%Z with (Z.succ (dexp num den + k))%Z by lia. rewrite Z.pow_succ_r by lia. lia.
  - reflexivity.
  - apply (Qmult_le_r _ _ (D * K)); [assumption|]. rewrite <- (Qabs_pos (D * K)) at 1 by (apply Qlt_le_weak; assumption).
    rewrite <- Qabs_Qmult. setoid_replace ((v - scaled 10 n x) * (D * K)) with (inject_Z (num * 10 ^ k - n * 10 ^ (x + k) * den)).
    2:{ unfold Z.sub. rewrite inject_Z_plus, inject_Z_opp, <- EV, <- E1 by lia. ring. }
    rewrite <- Qmult_assoc, E1, <- inject_abs by lia.
    apply (Qmult_le_l _ _ (inject_Z 2)); [reflexivity|]. rewrite Qmult_assoc. change (inject_Z 2 * (1#2)) with (inject_Z 2 * / inject_Z 2).
    rewrite Qmult_inv_r, Qmult_1_l by discriminate. rewrite <- inject_Z_mult, <- Zle_Qle. lia.
Qed.
Local Close Scope Q_scope.

(** * Texts. *)
Lemma no_e l : Forall isdig l -> ~ In "e"%char l.
Proof.
  intros Hl Hi. rewrite Forall_forall in Hl. destruct (Hl _ Hi) as (d & Hd & E).
  apply (f_equal nat_of_ascii) in E. rewrite nat_of_digit in E by assumption. change (nat_of_ascii "e") with 101%nat in E. lia.
Qed.
Lemma isdig_zero : isdig (digit 0).
Proof. exists 0. split; [lia|reflexivity]. Qed.
Lemma dval_acc s : forall a, dval a s = a * 10 ^ Z.of_nat (length s) + dval 0 s.
Proof.
  induction s as [|c s IH]; intros a; [cbn; lia|]. cbn [dval length].
  rewrite IH, (IH (10 * 0 + _)), Nat2Z.inj_succ, Z.pow_succ_r by lia. lia.
Qed.
Lemma dval_zeros n : dval 0 (repeat (digit 0) n) = 0.
Proof. induction n; [reflexivity|]. cbn [repeat dval]. rewrite digit_val_digit by lia. exact IHn. Qed.
Lemma pad_spec w s : Forall isdig s -> Z.of_nat (length s) <= w ->
  Forall isdig (pad w s) /\ Z.of_nat (length (pad w s)) = w /\ dval 0 (pad w s) = dval 0 s.
Proof.
  intros Hs Hw. unfold pad. split; [|split].
  - apply Forall_app. split; [|assumption]. apply Forall_forall. intros c Hc. apply repeat_spec in Hc as ->. exact isdig_zero.
  - rewrite app_length, repeat_length. lia.
  - rewrite dval_app, dval_zeros. reflexivity.
Qed.
Lemma dec_length_le n k : 0 <= n < 10 ^ k -> 1 <= k -> Z.of_nat (length (dec n)) <= k.
Proof.
  intros Hn Hk. destruct (dec_spec n) as (_ & _ & _ & D & _); [lia|].
  destruct (Z.le_gt_cases (Z.of_nat (length (dec n))) k); [assumption|exfalso].
  assert (10 ^ k <= 10 ^ (Z.of_nat (length (dec n)) - 1)) by (apply Z.pow_le_mono_r; lia).
  assert (10 ^ 1 <= 10 ^ k) by (apply Z.pow_le_mono_r; lia). lia.
Qed.

Lemma print_fixed_literal m k : 0 < m -> exists m' k', literal (print_fixed m k) m' k' /\ k' <= 0 /\ k' <= k /\ m' = m * 10 ^ (k - k').
Proof.
  intros Hm. unfold print_fixed. destruct (0 <=? k) eqn:E.
  - apply Z.leb_le in E. pose proof (pow10_pos k E). destruct (dec_spec (m * 10 ^ k)) as (A & B & C & _); [nia|].
    exists (m * 10 ^ k), 0. split; [|split; [lia|split; [lia|now rewrite Z.sub_0_r]]].
    rewrite <- C at 2. rewrite <- run_value_dval by assumption. apply lit_plain; [assumption|now apply Forall_decimal].
  - apply Z.leb_gt in E. set (P := 10 ^ (- k)). assert (HP : 0 < P) by (apply pow10_pos; lia).
    destruct (dec_spec (m / P)) as (A & B & C & _); [apply Z.div_pos; lia|].
    pose proof (Z.mod_pos_bound m P HP) as Hmod.
    destruct (dec_spec (m mod P)) as (A' & B' & C' & _); [lia|].
    destruct (pad_spec (- k) (dec (m mod P)) A') as (G & L & V); [apply dec_length_le; [exact Hmod|lia]|].
    exists m, k. split; [|split; [lia|split; [lia|rewrite Z.sub_diag; cbn; lia]]].
    assert (HA : Forall isdig (dec (m / P) ++ pad (- k) (dec (m mod P)))) by (apply Forall_app; auto).
    replace m with (run_value (dec (m / P) ++ pad (- k) (dec (m mod P)))) at 3.
    2:{ rewrite run_value_dval by assumption. rewrite dval_app, C, dval_acc, V, C', L. fold P.
        rewrite (Z.div_mod m P) at 3 by lia. lia. }
    replace k with (- Z.of_nat (length (pad (- k) (dec (m mod P))))) at 3 by lia.
    apply lit_frac; [assumption| |now apply Forall_decimal].
    intros Hnil. rewrite Hnil in L. cbn in L. lia.
Qed.

Definition mantissa_text (m : Z) : text :=
  match dec m with [] => [] | [c] => [c] | c :: cs => c :: dot :: cs end.
Lemma mantissa_literal m : 0 < m -> literal (mantissa_text m) m (1 - Z.of_nat (length (dec m))) /\ ~ In "e"%char (mantissa_text m).
Proof.
  intros Hm. unfold mantissa_text. destruct (dec_spec m) as (A & B & C & _); [lia|].
  destruct (dec m) as [|c [|c2 cs]] eqn:E; [congruence| |].
  - split; [|now apply no_e]. rewrite <- C, <- run_value_dval by assumption.
    apply lit_plain; [discriminate|now apply Forall_decimal].
  - split.
    + rewrite <- C, <- run_value_dval by assumption.
      replace (1 - Z.of_nat (length (c :: c2 :: cs))) with (- Z.of_nat (length (c2 :: cs))) by (cbn [length]; lia).
      apply (lit_frac [c] (c2 :: cs)); [discriminate|discriminate|now apply Forall_decimal].
    + pose proof (Forall_inv A) as Hc. pose proof (Forall_inv_tail A) as Hcs.
      intros [Hi|[Hi|Hi]]; [apply (no_e [c]); [now constructor|now left]|discriminate Hi|now apply (no_e (c2 :: cs))].
Qed.

Lemma print_sci_literal m x : 0 < m -> literal (print_sci m x) m (x - Z.of_nat (length (dec m)) + 1).
Proof.
  intros Hm. unfold print_sci. cbv zeta. fold (mantissa_text m).
  destruct (mantissa_literal m Hm) as [A B].
  destruct (exp_text (Z.abs x)) as (X1 & X2 & X3); [lia|]. cbv zeta in *. set (xs := (if Z.abs x <? 10 then _ else _) ++ dec (Z.abs x)) in *.
  destruct (x <? 0) eqn:E.
  - apply Z.ltb_lt in E. replace (x - Z.of_nat (length (dec m)) + 1) with ((1 - Z.of_nat (length (dec m))) - run_value xs) by lia.
    apply lit_exp_minus; auto. now apply Forall_decimal.
  - apply Z.ltb_ge in E. replace (x - Z.of_nat (length (dec m)) + 1) with ((1 - Z.of_nat (length (dec m))) + run_value xs) by lia.
    apply lit_exp_plus; auto. now apply Forall_decimal.
Qed.

(** Six digits with the trailing zeros removed. *)
Lemma strip_six m : 100000 <= m < 1000000 ->
  0 < strip_zeros 6 m <= m /\ 1 <= Z.of_nat (length (dec (strip_zeros 6 m))) <= 6 /\ m = strip_zeros 6 m * 10 ^ (6 - Z.of_nat (length (dec (strip_zeros 6 m)))).
Proof.
  intros Hm. destruct (strip_zeros_spec 6 m) as (j & Hj & A & B); [lia|].
  set (m' := strip_zeros 6 m) in *. clearbody m'.
  assert (Hj5 : j <= 5).
  { destruct (Z.le_gt_cases j 5); [assumption|]. replace j with 6 in A by lia. change (10 ^ 6) with 1000000 in A. lia. }
  assert (HL : Z.of_nat (length (dec m')) = (5 - j) + 1).
  { apply dec_length; [assumption|lia|]. pose proof (pow10_pos j ltac:(lia)).
    assert (10 ^ (5 - j) * 10 ^ j = 100000) by (rewrite <- Z.pow_add_r by lia; replace (5 - j + j) with 5 by lia; reflexivity).
    assert (10 ^ (5 - j + 1) * 10 ^ j = 1000000) by (rewrite <- Z.pow_add_r by lia; replace (5 - j + 1 + j) with 6 by lia; reflexivity).
    nia. }
  pose proof (pow10_pos j ltac:(lia)). rewrite HL. replace (6 - (5 - j + 1)) with j by lia. split; [nia|]. split; [lia|]. lia.
Qed.

(** The printed text of a positive fraction denotes its six digits. *)
Lemma print_fraction_digits num den m x : 0 < num -> 0 < den -> round_digits 6 num den = (m, x) ->
  exists m2 e2, literal (print_fraction num den) m2 e2 /\ 0 < m2 /\ (scaled 10 m2 e2 == scaled 10 m (x - 5))%Q.
Proof.
  intros Hn Hd E. unfold print_fraction. rewrite E.
  destruct (round_digits_spec 6 num den m x ltac:(lia) Hn Hd E) as (B & _).
  change (10 ^ (6 - 1)) with 100000 in B. change (10 ^ 6) with 1000000 in B.
  destruct (strip_six m B) as (P1 & P2 & P3). set (m' := strip_zeros 6 m) in *. clearbody m'.
  set (L := Z.of_nat (length (dec m'))) in *.
  (* any literal of the same value will do *)
  assert (HV : forall m2 e2, e2 <= x - L + 1 -> m2 = m' * 10 ^ (x - L + 1 - e2) -> (scaled 10 m2 e2 == scaled 10 m (x - 5))%Q).
  { intros m2 e2 He Hm2. set (k := Z.abs e2 + 6 + Z.abs x).
    apply (Qmult_inj_r _ _ (inject_Z (10 ^ k))).
    - apply Qnot_eq_sym, Qlt_not_eq, inject_pos, pow10_pos. lia.
    - rewrite !scaled_shift by lia. apply inject_Z_injective. subst m2. rewrite P3.
      rewrite <- !Z.mul_assoc, <- !Z.pow_add_r by lia. do 2 f_equal. lia. }
  destruct ((-4 <=? x) && (x <? 6))%bool.
  - destruct (print_fixed_literal m' (x - L + 1)) as (m2 & e2 & HL & He0 & He & Hm2); [lia|].
    exists m2, e2. split; [exact HL|]. split; [pose proof (pow10_pos (x - L + 1 - e2) ltac:(lia)); nia|auto].
  - exists m', (x - L + 1). split; [apply print_sci_literal; lia|]. split; [lia|]. apply HV; [lia|].
    rewrite Z.sub_diag. cbn. lia.
Qed.

Lemma rounded_to_eq p v d d' : (d == d')%Q -> rounded_to p v d -> rounded_to p v d'.
Proof. intros E (x & n & A & B & C). exists x, n. rewrite <- E. auto. Qed.

Lemma print_fraction_literal num den v : 0 < num -> 0 < den -> (v * inject_Z den == inject_Z num)%Q ->
  exists m e, literal (print_fraction num den) m e /\ 0 < m /\ rounded_to 6 v (scaled 10 m e).
Proof.
  intros Hn Hd Hv. destruct (round_digits 6 num den) as [m x] eqn:E.
  destruct (print_fraction_digits num den m x Hn Hd E) as (m2 & e2 & A & B & C).
  exists m2, e2. split; [assumption|]. split; [assumption|].
  destruct (round_digits_spec 6 num den m x ltac:(lia) Hn Hd E) as (_ & Hx & n & Hnm & S).
  pose proof (fraction_rounded 6 num den v (dexp num den - 6 + 1) n Hn Hd Hv eq_refl ltac:(lia) S) as HR.
  apply (rounded_to_eq _ _ (scaled 10 n (dexp num den - 6 + 1))); [|exact HR]. rewrite C.
  set (k := Z.abs (dexp num den) + 6 + Z.abs x). apply (Qmult_inj_r _ _ (inject_Z (10 ^ k))).
  - apply Qnot_eq_sym, Qlt_not_eq, inject_pos, pow10_pos. lia.
  - rewrite !scaled_shift by lia. apply inject_Z_injective. rewrite <- Hnm.
    rewrite <- !Z.mul_assoc, <- !Z.pow_add_r by lia. do 2 f_equal. lia.
Qed.

Lemma double_fraction m e : exists num den, 0 < num /\ 0 < den /\ (scaled 2 (Zpos m) e * inject_Z den == inject_Z num)%Q /\ (num, den) = if 0 <=? e then (Zpos m * 2 ^ e, 1) else (Zpos m, 2 ^ (- e)).
Proof.
  destruct (0 <=? e) eqn:E.
  - apply Z.leb_le in E. exists (Zpos m * 2 ^ e), 1. pose proof (Z.pow_pos_nonneg 2 e ltac:(lia) E).
    split; [nia|]. split; [lia|]. split; [|reflexivity].
    change 1 with (2 ^ 0) at 1. rewrite scaled_shift by lia. rewrite Z.add_0_r. reflexivity.
  - apply Z.leb_gt in E. exists (Zpos m), (2 ^ (- e)). pose proof (Z.pow_pos_nonneg 2 (- e) ltac:(lia) ltac:(lia)).
    split; [lia|]. split; [lia|]. split; [|reflexivity].
    rewrite scaled_shift by lia. replace (e + - e) with 0 by lia. rewrite Z.mul_1_r. reflexivity.
Qed.

Lemma print_double_spec s m e : exists body M E,
  print_double (S754_finite s m e) = (if s then ["-"%char] else []) ++ body /\ literal body M E /\ 0 < M /\ rounded_to 6 (scaled 2 (Zpos m) e) (scaled 10 M E).
Proof.
  destruct (double_fraction m e) as (num & den & Hn & Hd & Hv & Heq).
  destruct (print_fraction_literal num den _ Hn Hd Hv) as (M & E & A & B & C).
  exists (print_fraction num den), M, E. split; [|auto].
  unfold print_double. destruct (0 <=? e); injection Heq as -> ->; destruct s; reflexivity.
Qed.

(** * Reading a literal. *)
Lemma decimal_isdig c : decimal_digit c -> isdig c.
Proof.
  intros H. unfold decimal_digit in H. exists (Z.of_nat (nat_of_ascii c) - 48). split; [lia|].
  unfold digit. replace (48 + Z.to_nat (Z.of_nat (nat_of_ascii c) - 48))%nat with (nat_of_ascii c) by lia.
  symmetry. apply ascii_nat_embedding.
Qed.
Lemma Forall_isdig s : Forall decimal_digit s -> Forall isdig s.
Proof. intros H. eapply Forall_impl; [|exact H]. exact decimal_isdig. Qed.

Lemma span_digits_app ds rest : Forall isdig ds ->
  match rest with [] => True | c :: _ => digit_val c = None end -> span_digits (ds ++ rest) = (ds, rest).
Proof.
  intros H Hr. induction H as [|c s Hc _ IH].
  - cbn [app]. destruct rest as [|c r]; [reflexivity|]. cbn. rewrite Hr. reflexivity.
  - cbn [app span_digits]. destruct (isdig_val c Hc) as (d & _ & ->). rewrite IH. reflexivity.
Qed.

(** The parts of a literal. *)
Definition exponent_part (xp : text) (xv : Z) : Prop :=
  (xp = [] /\ xv = 0) \/
  exists xs, xs <> [] /\ Forall isdig xs /\
    ((xp = "e"%char :: "+"%char :: xs /\ xv = run_value xs) \/ (xp = "e"%char :: "-"%char :: xs /\ xv = - run_value xs)).
Lemma literal_parts t m e : literal t m e ->
  exists ds fs xp xv, ds <> [] /\ Forall isdig ds /\ Forall isdig fs /\ exponent_part xp xv /\
    t = ds ++ (match fs with [] => [] | _ => "."%char :: fs end) ++ xp /\
    m = run_value (ds ++ fs) /\ e = xv - Z.of_nat (length fs) /\ (~ In "e"%char t -> xp = []).
Proof.
  induction 1 as [ds A B|ds fs A B C|t m e xs H IH Hne A B|t m e xs H IH Hne A B].
  - exists ds, (@nil ascii), (@nil ascii), 0. rewrite !app_nil_r. split; [assumption|]. split; [now apply Forall_isdig|]. split; [constructor|].
    split; [left; auto|]. cbn. auto.
  - apply Forall_isdig, Forall_app in C as [C1 C2]. exists ds, fs, (@nil ascii), 0. split; [assumption|]. split; [assumption|]. split; [assumption|].
    split; [left; auto|]. rewrite app_nil_r. destruct fs; [congruence|]. cbn. auto.
  - destruct IH as (ds & fs & xp & xv & D1 & D2 & D3 & [(-> & ->)|(xs' & _ & _ & X)] & -> & -> & -> & Hx).
    + exists ds, fs, ("e"%char :: "+"%char :: xs), (run_value xs). repeat (split; [assumption|]).
      split; [right; exists xs; split; [assumption|]; split; [now apply Forall_isdig|left; auto]|].
      split; [rewrite app_nil_r, <- app_assoc; reflexivity|]. split; [reflexivity|]. split; [lia|].
      intros Hn. exfalso. apply Hn. rewrite app_nil_r. apply in_app_iff. right. left. reflexivity.
    + exfalso. specialize (Hx Hne). destruct X as [[X _]|[X _]]; rewrite X in Hx; discriminate Hx.
  - destruct IH as (ds & fs & xp & xv & D1 & D2 & D3 & [(-> & ->)|(xs' & _ & _ & X)] & -> & -> & -> & Hx).
    + exists ds, fs, ("e"%char :: "-"%char :: xs), (- run_value xs). repeat (split; [assumption|]).
      split; [right; exists xs; split; [assumption|]; split; [now apply Forall_isdig|right; auto]|].
      split; [rewrite app_nil_r, <- app_assoc; reflexivity|]. split; [reflexivity|]. split; [lia|].
      intros Hn. exfalso. apply Hn. rewrite app_nil_r. apply in_app_iff. right. left. reflexivity.
    + exfalso. specialize (Hx Hne). destruct X as [[X _]|[X _]]; rewrite X in Hx; discriminate Hx.
Qed.

Lemma read_exponent_part xp xv : exponent_part xp xv -> read_exponent xp = xv /\ match xp with [] => True | c :: _ => digit_val c = None end.
Proof.
  intros [(-> & ->)|(xs & A & B & [(-> & ->)|(-> & ->)])]; [split; reflexivity| |]; (split; [|reflexivity]);
  cbn [read_exponent]; change (Ascii.eqb "e" char_e) with true; cbv iota.
  - change (Ascii.eqb "+" minus) with false. change (Ascii.eqb "+" plus) with true. cbv iota.
    rewrite <- (app_nil_r xs) at 1. rewrite span_digits_app by (auto; exact I). cbn [fst].
    rewrite <- (app_nil_r xs) at 1. rewrite atoi_digits_dval by (auto; exact I). now rewrite run_value_dval.
  - change (Ascii.eqb "-" minus) with true. cbv iota.
    rewrite <- (app_nil_r xs) at 1. rewrite span_digits_app by (auto; exact I). cbn [fst].
    rewrite <- (app_nil_r xs) at 1. rewrite atoi_digits_dval by (auto; exact I). now rewrite run_value_dval.
Qed.

Lemma atof_literal t m e : literal t m e -> forall s : bool,
  atof64 ((if s then ["-"%char] else []) ++ t) = decimal64 s m e.
Proof.
  intros H s. destruct (literal_parts t m e H) as (ds & fs & xp & xv & D1 & D2 & D3 & X & Ht & -> & -> & _).
  destruct (read_exponent_part xp xv X) as [RX NX].
  assert (HU : atof_unsigned s t = decimal64 s (run_value (ds ++ fs)) (xv - Z.of_nat (length fs))).
  { unfold atof_unsigned.
    assert (Hw : forall w c ws, w = c :: ws -> digit_val c = None -> starts_with w t = false).
    { intros w c ws -> Hc. rewrite Ht. destruct ds as [|d ds]; [congruence|]. cbn [app starts_with].
      destruct (isdig_val d (Forall_inv D2)) as (v & _ & Hv). rewrite eqb_false; [reflexivity|]. intros ->. congruence. }
    rewrite (Hw text_inf _ _ eq_refl eq_refl), (Hw text_nan _ _ eq_refl eq_refl).
    assert (HT : forall l, Forall isdig l -> atoi_digits l 0 = run_value l).
    { intros l Hl. rewrite <- (app_nil_r l) at 1. rewrite atoi_digits_dval by (auto; exact I). now rewrite run_value_dval. }
    assert (HA : Forall isdig (ds ++ fs)) by (apply Forall_app; auto).
    rewrite Ht. destruct fs as [|f fs].
    - cbn [app length]. rewrite span_digits_app by assumption. rewrite app_nil_r in *.
      destruct xp as [|c xp].
      + cbn [app]. rewrite app_nil_r. destruct ds as [|d ds]; [congruence|]. rewrite HT by assumption. rewrite RX. reflexivity.
      + assert (Ascii.eqb c dot = false) as ->.
        { destruct X as [(X & _)|(xs & _ & _ & [(X & _)|(X & _)])]; inversion X; reflexivity. }
        rewrite app_nil_r. destruct ds as [|d ds]; [congruence|]. rewrite HT by assumption. rewrite RX. reflexivity.
    - rewrite span_digits_app; [|assumption|reflexivity]. cbn [app]. change (Ascii.eqb "." dot) with true. cbv iota.
      change (f :: fs ++ xp) with ((f :: fs) ++ xp). rewrite span_digits_app by assumption.
      destruct ds as [|d ds]; [congruence|]. cbn [app]. rewrite RX. change (d :: ds ++ f :: fs) with ((d :: ds) ++ f :: fs). rewrite HT by assumption. reflexivity. }
  assert (Hhead : exists c r, t = c :: r /\ isdig c).
  { destruct ds as [|d ds]; [congruence|]. rewrite Ht. exists d, (ds ++ match fs with [] => [] | _ => "."%char :: fs end ++ xp).
    split; [reflexivity|]. exact (Forall_inv D2). }
  destruct Hhead as (c & r & Hc & Hd). destruct (isdig_plain c Hd) as (_ & _ & Hm & Hp & Hs).
  unfold atof64. destruct s; cbn [app].
  - cbn [skip_spaces]. change (is_space "-") with false. cbv iota. change (Ascii.eqb "-" minus) with true. cbv iota. exact HU.
  - rewrite Hc in *. cbn [skip_spaces]. rewrite Hs. rewrite !eqb_false by assumption. exact HU.
Qed.

(** * Printed coordinates are fields of a line. *)
Lemma literal_field t m e : literal t m e -> field t.
Proof.
  intros H. destruct (literal_parts t m e H) as (ds & fs & xp & xv & D1 & D2 & D3 & X & -> & _).
  assert (Hdig : forall l, Forall isdig l -> Forall (fun c => ~ blank c) l).
  { intros l Hl. eapply Forall_impl; [|exact Hl]. intros c Hc. now destruct (isdig_plain c Hc). }
  assert (Hb : forall c, In c ["."%char; "e"%char; "+"%char; "-"%char] -> ~ blank c).
  { intros c Hc. cbn in Hc. unfold blank. decompose [or] Hc; subst; vm_compute; intuition congruence || lia. }
  split.
  - destruct ds; [congruence|discriminate].
  - apply Forall_app. split; [auto|]. apply Forall_app. split.
    + destruct fs; [constructor|]. constructor; [apply Hb; cbn; auto|auto].
    + destruct X as [(-> & _)|(xs & _ & B & [(-> & _)|(-> & _)])]; [constructor| |];
      (constructor; [apply Hb; cbn; auto 6|constructor; [apply Hb; cbn; auto 6|auto]]).
Qed.
Lemma sign_field (s : bool) t : field t -> field ((if s then ["-"%char] else []) ++ t).
Proof.
  intros [A B]. destruct s; [|split; assumption]. split; [discriminate|]. constructor; [|assumption].
  unfold blank. vm_compute. intuition congruence || lia.
Qed.
Lemma print_double_field x : field (print_double x).
Proof.
  destruct x as [s|s| |s m e].
  - assert (field [digit 0]).
    { apply (literal_field _ (run_value [digit 0]) 0). apply lit_plain; [discriminate|]. constructor; [apply isdig_decimal, isdig_zero|constructor]. }
    pose proof (sign_field s _ H) as G. destruct s; exact G.
  - assert (field text_inf).
    { split; [discriminate|]. repeat (constructor; [unfold blank; vm_compute; intuition congruence || lia|]). constructor. }
    pose proof (sign_field s _ H) as G. destruct s; exact G.
  - split; [discriminate|]. repeat (constructor; [unfold blank; vm_compute; intuition congruence || lia|]). constructor.
  - destruct (print_double_spec s m e) as (b & M & E & -> & L & _). apply sign_field. exact (literal_field b M E L).
Qed.

(** * Integers converted to double. *)
Lemma strip_zeros_max fuel : forall a k, 0 < a -> 0 <= k <= Z.of_nat fuel ->
  exists j, 0 <= j /\ strip_zeros fuel (a * 10 ^ k) * 10 ^ j = a.
Proof.
  induction fuel as [|f IH]; intros a k Ha Hk.
  - replace k with 0 by lia. exists 0. cbn. lia.
  - cbn [strip_zeros]. destruct (Z.eq_dec k 0) as [->|Hz].
    + rewrite Z.pow_0_r, Z.mul_1_r. destruct (a mod 10 =? 0) eqn:E.
      * apply Z.eqb_eq in E. pose proof (Z.div_mod a 10 ltac:(lia)).
        destruct (IH (a / 10) 0) as (j & Hj & A); [lia|lia|]. rewrite Z.pow_0_r, Z.mul_1_r in A.
        exists (Z.succ j). rewrite Z.pow_succ_r by lia. lia.
      * exists 0. rewrite Z.pow_0_r. lia.
    + replace (a * 10 ^ k) with (a * 10 ^ (k - 1) * 10).
      2:{ replace k with (Z.succ (k - 1)) at 2 by lia. rewrite Z.pow_succ_r by lia. ring. }
      rewrite Z.mod_mul, Z.div_mul by lia. change (0 =? 0) with true. cbv iota. apply IH; lia.
Qed.

Lemma round_div_exact n d : 0 < d -> round_div (n * d) d = n.
Proof.
  intros Hd. unfold round_div. rewrite Z.div_mul, Z.mod_mul by lia. cbv zeta.
  replace (2 * 0 <? d) with true by (symmetry; apply Z.ltb_lt; lia). reflexivity.
Qed.
Lemma round_div_scale n d c : 0 < d -> 0 < c -> round_div (n * c) (d * c) = round_div n d.
Proof.
  intros Hd Hc. unfold round_div. rewrite Z.div_mul_cancel_r, Z.mul_mod_distr_r by lia. cbv zeta.
  replace (2 * (n mod d * c) <? d * c) with (2 * (n mod d) <? d).
  2:{ destruct (2 * (n mod d) <? d) eqn:E; symmetry; [apply Z.ltb_lt in E; apply Z.ltb_lt|apply Z.ltb_ge in E; apply Z.ltb_ge]; nia. }
  replace (2 * (n mod d * c) >? d * c) with (2 * (n mod d) >? d); [reflexivity|].
  rewrite !Z.gtb_ltb. destruct (d <? 2 * (n mod d)) eqn:E; symmetry; [apply Z.ltb_lt in E; apply Z.ltb_lt|apply Z.ltb_ge in E; apply Z.ltb_ge]; nia.
Qed.

Lemma print_fraction_int a den : 0 < a -> 0 < den ->
  print_fraction (a * den) den = if a <? 1000000 then dec a else print_exp a.
Proof.
  intros Ha Hd. unfold print_fraction, round_digits. cbv zeta.
  assert (HX : dexp (a * den) den = Z.of_nat (length (dec a)) - 1).
  { unfold dexp. rewrite Z.div_mul by lia. replace (den <=? a * den) with true; [reflexivity|]. symmetry. apply Z.leb_le. nia. }
  rewrite HX. destruct (dec_spec a) as (_ & B & _ & D & F); [lia|]. rewrite Z.max_l in D by lia.
  set (L := Z.of_nat (length (dec a))) in *.
  assert (HL1 : 1 <= L) by (unfold L; destruct (dec a); [congruence|cbn [length]; lia]).
  change (10 ^ 6) with 1000000. change (10 ^ (6 - 1)) with 100000.
  destruct (a <? 1000000) eqn:E.
  - apply Z.ltb_lt in E.
    assert (L <= 6).
    { destruct (Z.le_gt_cases L 6); [assumption|exfalso]. assert (10 ^ 6 <= 10 ^ (L - 1)) by (apply Z.pow_le_mono_r; lia).
      change (10 ^ 6) with 1000000 in *. lia. }
    replace (6 - 1 - (L - 1)) with (6 - L) by lia. replace (0 <=? 6 - L) with true by (symmetry; apply Z.leb_le; lia).
    replace (a * den * 10 ^ (6 - L)) with (a * 10 ^ (6 - L) * den) by ring. rewrite round_div_exact by assumption.
    pose proof (pow10_pos (6 - L) ltac:(lia)).
    assert (10 ^ (L - 1) * 10 ^ (6 - L) = 100000) by (rewrite <- Z.pow_add_r by lia; replace (L - 1 + (6 - L)) with 5 by lia; reflexivity).
    assert (10 ^ L * 10 ^ (6 - L) = 1000000) by (rewrite <- Z.pow_add_r by lia; replace (L + (6 - L)) with 6 by lia; reflexivity).
    assert (HB : 100000 <= a * 10 ^ (6 - L) < 1000000) by nia.
    replace (a * 10 ^ (6 - L) =? 1000000) with false by (symmetry; apply Z.eqb_neq; lia).
    replace ((-4 <=? L - 1) && (L - 1 <? 6))%bool with true by (symmetry; apply andb_true_iff; split; [apply Z.leb_le|apply Z.ltb_lt]; lia).
    destruct (strip_zeros_max 6 a (6 - L) Ha ltac:(lia)) as (j & Hj & A).
    destruct (strip_six _ HB) as (P1 & P2 & P3). set (m' := strip_zeros 6 (a * 10 ^ (6 - L))) in *. clearbody m'.
    set (L' := Z.of_nat (length (dec m'))) in *.
    assert (j = L - L').
    { rewrite <- A, <- Z.mul_assoc, <- Z.pow_add_r in P3 by lia.
      apply Z.mul_cancel_l in P3; [|lia]. apply Z.pow_inj_r in P3; lia. }
    unfold print_fixed. replace (L - 1 - L' + 1) with j by lia. replace (0 <=? j) with true by (symmetry; apply Z.leb_le; lia).
    rewrite A. reflexivity.
  - apply Z.ltb_ge in E.
    assert (7 <= L).
    { destruct (Z.le_gt_cases 7 L); [assumption|exfalso]. assert (10 ^ L <= 10 ^ 6) by (apply Z.pow_le_mono_r; lia).
      change (10 ^ 6) with 1000000 in *. lia. }
    unfold print_exp. cbv zeta. fold L.
    replace (6 - 1 - (L - 1)) with (6 - L) by lia. replace (0 <=? 6 - L) with false by (symmetry; apply Z.leb_gt; lia).
    replace (- (6 - L)) with (L - 6) by lia. pose proof (pow10_pos (L - 6) ltac:(lia)).
    rewrite (Z.mul_comm den), round_div_scale by assumption.
    assert (HE : exists m x, (if round_div a (10 ^ (L - 6)) =? 1000000 then (100000, L) else (round_div a (10 ^ (L - 6)), L - 1)) = (m, x) /\ 6 <= x).
    { destruct (_ =? _); [exists 100000, L|eexists _, (L - 1)]; (split; [reflexivity|lia]). }
    destruct HE as (m & x & HE & Hx). replace (L - 1 + 1) with L by lia. rewrite HE.
    replace (x <? 6) with false by (symmetry; apply Z.ltb_ge; lia). rewrite andb_false_r.
    unfold print_sci. cbv zeta. replace (x <? 0) with false by (symmetry; apply Z.ltb_ge; lia). rewrite Z.abs_eq by lia. reflexivity.
Qed.
