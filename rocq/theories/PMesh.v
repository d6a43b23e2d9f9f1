(** Proofs about reading and printing meshes. *)
From Coq Require Import Reals Lra ZArith Lia List Bool Ascii Arith.
From Verif Require Import Base Spec Bridge MUtil MGeom MHull MPolygon MMaps MTriangle MGen MRegion MDelaunay MMesh
  PUtil PMaps PPoly PPoly2.
Import ListNotations.
Local Open Scope Z_scope.

(** * Digits. *)
Lemma nat_of_digit d : 0 <= d < 10 -> nat_of_ascii (digit d) = (48 + Z.to_nat d)%nat.
Proof. intros H. unfold digit. apply nat_ascii_embedding. lia. Qed.

Lemma digit_val_digit d : 0 <= d < 10 -> digit_val (digit d) = Some d.
Proof.
  intros H. unfold digit_val. rewrite nat_of_digit by assumption.
  replace (Nat.leb 48 (48 + Z.to_nat d)) with true by (symmetry; apply Nat.leb_le; lia).
  replace (Nat.leb (48 + Z.to_nat d) 57) with true by (symmetry; apply Nat.leb_le; lia).
  cbn [andb]. f_equal. lia.
Qed.

Definition isdig (c : ascii) : Prop := exists d, 0 <= d < 10 /\ c = digit d.

Lemma isdig_val c : isdig c -> exists d, 0 <= d < 10 /\ digit_val c = Some d.
Proof. intros (d & H & ->). exists d. split; [assumption|]. now apply digit_val_digit. Qed.

Lemma isdig_plain c : isdig c -> ~ blank c /\ c <> newline /\ c <> minus /\ c <> plus /\ is_space c = false.
Proof.
  intros (d & H & ->). pose proof (nat_of_digit d H) as E.
  assert (Hn : forall k, (k < 48)%nat -> digit d <> ascii_of_nat k).
  { intros k Hk Hc. rewrite Hc in E. rewrite nat_ascii_embedding in E; lia. }
  split; [|split; [|split; [|split]]]; try (apply Hn; lia).
  - unfold blank. rewrite E. cbn [In]. lia.
  - destruct (is_space (digit d)) eqn:Es; [|reflexivity]. exfalso. apply is_space_blank in Es.
    revert Es. unfold blank. rewrite E. cbn [In]. lia.
Qed.

Lemma digits_go_acc fuel : forall n acc, digits_go fuel n acc = digits_go fuel n [] ++ acc.
Proof.
  induction fuel as [|f IH]; intros n acc; [reflexivity|]. cbn [digits_go].
  destruct (n / 10 =? 0); [reflexivity|].
  rewrite IH, (IH _ [digit (n mod 10)]), <- app_assoc. reflexivity.
Qed.

(** The value of a run of digits. *)
Fixpoint dval (acc : Z) (s : text) : Z :=
  match s with [] => acc | c :: s' => dval (10 * acc + match digit_val c with Some d => d | None => 0 end) s' end.

Lemma dval_app s t : forall a, dval a (s ++ t) = dval (dval a s) t.
Proof. induction s; intros; cbn; auto. Qed.

Lemma digits_go_spec fuel : forall n, 0 <= n < 2 ^ Z.of_nat fuel -> (0 < fuel)%nat ->
  Forall isdig (digits_go fuel n []) /\ digits_go fuel n [] <> [] /\
  dval 0 (digits_go fuel n []) = n /\
  10 ^ (Z.of_nat (length (digits_go fuel n [])) - 1) <= Z.max n 1 /\ n < 10 ^ Z.of_nat (length (digits_go fuel n [])).
Proof.
  induction fuel as [|f IH]; intros n Hn Hf; [lia|]. cbn [digits_go].
  pose proof (Z.mod_pos_bound n 10 ltac:(lia)) as Hm. pose proof (Z.div_mod n 10 ltac:(lia)) as Hd.
  destruct (n / 10 =? 0) eqn:E.
  - apply Z.eqb_eq in E. split; [constructor; [exists (n mod 10); auto|constructor]|].
    split; [discriminate|]. cbn [dval length]. rewrite digit_val_digit by assumption. cbn. lia.
  - apply Z.eqb_neq in E.
    assert (Hq : 0 < n / 10) by (pose proof (Z.div_pos n 10); lia).
    rewrite Nat2Z.inj_succ, Z.pow_succ_r in Hn by lia.
    assert (Hf0 : (0 < f)%nat).
    { destruct f; [|lia]. cbn in Hn. lia. }
    destruct (IH (n / 10)) as (A & B & C & D & G); [split; [lia|]|assumption|].
    { apply Z.div_lt_upper_bound; lia. }
    rewrite digits_go_acc. split; [|split; [|split; [|split]]].
    + apply Forall_app. split; [assumption|]. constructor; [exists (n mod 10); auto|constructor].
    + destruct (digits_go f (n / 10) []); discriminate.
    + rewrite dval_app, C. cbn [dval]. rewrite digit_val_digit by assumption. lia.
    + rewrite app_length. cbn [length]. rewrite Nat2Z.inj_add. cbn.
      replace (Z.of_nat (length (digits_go f (n / 10) [])) + 1 - 1)
        with (Z.succ (Z.of_nat (length (digits_go f (n / 10) [])) - 1)) by lia.
      rewrite Z.pow_succ_r; [lia|]. destruct (digits_go f (n / 10) []); [congruence|]. cbn [length]. lia.
    + rewrite app_length. cbn [length]. rewrite Nat2Z.inj_add. cbn.
      change (Z.of_nat (length (digits_go f (n / 10) [])) + 1) with (Z.succ (Z.of_nat (length (digits_go f (n / 10) [])))).
      rewrite Z.pow_succ_r by lia. lia.
Qed.

Lemma dec_spec n : 0 <= n ->
  Forall isdig (dec n) /\ dec n <> [] /\ dval 0 (dec n) = n /\
  10 ^ (Z.of_nat (length (dec n)) - 1) <= Z.max n 1 /\ n < 10 ^ Z.of_nat (length (dec n)).
Proof.
  intros H. unfold dec, ndigits. apply digits_go_spec; [|lia]. split; [assumption|].
  pose proof (Z.log2_nonneg n). rewrite Nat2Z.inj_succ, Z2Nat.id by assumption.
  destruct (Z.eq_dec n 0) as [->|]; [cbn; lia|]. apply Z.log2_spec. lia.
Qed.

Lemma atoi_digits_dval s rest : Forall isdig s ->
  match rest with [] => True | c :: _ => digit_val c = None end ->
  forall a, atoi_digits (s ++ rest) a = dval a s.
Proof.
  intros H Hr. induction H as [|c s Hc _ IH]; intros a.
  - cbn. destruct rest as [|c r]; [reflexivity|]. cbn. rewrite Hr. reflexivity.
  - cbn [app atoi_digits dval]. destruct (isdig_val c Hc) as (d & _ & ->). apply IH.
Qed.

Lemma eqb_false a b : a <> b -> Ascii.eqb a b = false.
Proof. intros H. destruct (Ascii.eqb_spec a b); congruence. Qed.

(** Reading a run of digits. *)
Lemma atoi_run s rest : Forall isdig s -> s <> [] ->
  match rest with [] => True | c :: _ => digit_val c = None end ->
  in_int (dval 0 s) = true -> atoi (s ++ rest) = Ok (dval 0 s).
Proof.
  intros H Hne Hr Hi. unfold atoi. destruct s as [|c s]; [congruence|].
  inversion H as [|? ? Hc Hs]; subst. destruct (isdig_plain c Hc) as (_ & _ & Hm & Hp & Hsp).
  cbn [app skip_spaces]. rewrite Hsp, (eqb_false _ _ Hm), (eqb_false _ _ Hp).
  change (c :: s ++ rest) with ((c :: s) ++ rest). rewrite (atoi_digits_dval (c :: s) rest H Hr 0), Hi. reflexivity.
Qed.

Lemma atoi_run_neg s rest : Forall isdig s -> 
  match rest with [] => True | c :: _ => digit_val c = None end ->
  in_int (- dval 0 s) = true -> atoi (minus :: s ++ rest) = Ok (- dval 0 s).
Proof.
  intros H Hr Hi. unfold atoi. cbn [skip_spaces]. change (is_space minus) with false. cbv iota.
  rewrite Ascii.eqb_refl. rewrite (atoi_digits_dval s rest H Hr 0), Hi. reflexivity.
Qed.

Lemma in_int_iff z : in_int z = true <-> int_min <= z <= int_max.
Proof. unfold in_int. rewrite andb_true_iff, !Z.leb_le. tauto. Qed.

Lemma atoi_print_int n : int_min <= n <= int_max -> atoi (print_int n) = Ok n.
Proof.
  intros H. unfold print_int. destruct (n <? 0) eqn:E.
  - apply Z.ltb_lt in E. destruct (dec_spec (- n)) as (A & B & C & _); [lia|].
    rewrite <- (app_nil_r (dec (- n))). rewrite atoi_run_neg; [|assumption|exact I|].
    + rewrite C. f_equal. lia.
    + rewrite C. apply in_int_iff. lia.
  - apply Z.ltb_ge in E. destruct (dec_spec n) as (A & B & C & _); [lia|].
    rewrite <- (app_nil_r (dec n)). rewrite atoi_run; [|assumption|assumption|exact I|].
    + rewrite C. reflexivity.
    + rewrite C. apply in_int_iff. lia.
Qed.

(** Small indices are printed as integers. *)
Lemma print_g_small n : Z.abs n < 1000000 -> print_g n = print_int n.
Proof.
  intros H. unfold print_g, print_int. replace (Z.abs n <? 1000000) with true by (symmetry; now apply Z.ltb_lt).
  cbv zeta. destruct (n <? 0) eqn:E; [apply Z.ltb_lt in E|apply Z.ltb_ge in E].
  - replace (Z.abs n) with (- n) by lia. reflexivity.
  - replace (Z.abs n) with n by lia. reflexivity.
Qed.

Lemma small_roundtrip n : Z.abs n < 1000000 -> atoi (print_g n) = Ok n.
Proof.
  intros H. rewrite print_g_small by assumption. apply atoi_print_int. unfold int_min, int_max. lia.
Qed.

(** * Large indices. *)
Lemma isdig_decimal c : isdig c -> decimal_digit c.
Proof. intros (d & H & ->). unfold decimal_digit. rewrite nat_of_digit by assumption. lia. Qed.

Lemma Forall_decimal s : Forall isdig s -> Forall decimal_digit s.
Proof. apply Forall_impl. exact isdig_decimal. Qed.

Lemma dval_run s : Forall isdig s -> forall a,
  dval a s = fold_left (fun a c => (10 * a + (Z.of_nat (nat_of_ascii c) - 48))%Z) s a.
Proof.
  induction 1 as [|c s Hc _ IH]; intros a; [reflexivity|]. cbn [dval fold_left]. rewrite IH. f_equal. f_equal.
  destruct Hc as (d & Hd & ->). rewrite digit_val_digit, nat_of_digit by assumption. lia.
Qed.

Lemma run_value_dval s : Forall isdig s -> run_value s = dval 0 s.
Proof. intros H. unfold run_value. symmetry. now apply dval_run. Qed.

Lemma round_div_near n d : 0 <= n -> 0 < d -> 2 * Z.abs (n - round_div n d * d) <= d /\ 0 <= round_div n d.
Proof.
  intros Hn Hd. unfold round_div. cbv zeta. pose proof (Z.mod_pos_bound n d Hd). pose proof (Z.div_mod n d ltac:(lia)).
  pose proof (Z.div_pos n d Hn Hd).
  destruct (2 * (n mod d) <? d) eqn:E1; [apply Z.ltb_lt in E1; nia|]. apply Z.ltb_ge in E1.
  destruct (2 * (n mod d) >? d) eqn:E2; [rewrite Z.gtb_lt in E2; nia|]. rewrite Z.gtb_ltb in E2. apply Z.ltb_ge in E2.
  destruct (Z.even (n / d)); nia.
Qed.

Lemma round_div_mono n d a b : 0 <= n -> 0 < d -> a * d <= n <= b * d -> a <= round_div n d <= b.
Proof. intros Hn Hd H. destruct (round_div_near n d Hn Hd) as [A _]. nia. Qed.

Lemma strip_zeros_spec fuel : forall m, 0 < m ->
  exists j, 0 <= j <= Z.of_nat fuel /\ strip_zeros fuel m * 10 ^ j = m /\ 0 < strip_zeros fuel m.
Proof.
  induction fuel as [|f IH]; intros m Hm.
  - exists 0. cbn. lia.
  - cbn [strip_zeros]. destruct (m mod 10 =? 0) eqn:E.
    + apply Z.eqb_eq in E. pose proof (Z.div_mod m 10 ltac:(lia)).
      destruct (IH (m / 10)) as (j & Hj & A & B); [lia|]. exists (Z.succ j). rewrite Z.pow_succ_r by lia. lia.
    + exists 0. rewrite Z.pow_0_r. lia.
Qed.

Lemma pow10_pos k : 0 <= k -> 0 < 10 ^ k.
Proof. intros. apply Z.pow_pos_nonneg; lia. Qed.

Lemma pow10_lt_inv a b : 0 <= a -> 0 <= b -> 10 ^ a < 10 ^ b -> a < b.
Proof. intros Ha Hb H. apply (Z.pow_lt_mono_r_iff 10); lia. Qed.

(** The number of digits. *)
Lemma dec_length n k : 0 < n -> 0 <= k -> 10 ^ k <= n < 10 ^ (k + 1) -> Z.of_nat (length (dec n)) = k + 1.
Proof.
  intros Hn Hk H. destruct (dec_spec n) as (_ & B & _ & D & E); [lia|].
  assert (1 <= Z.of_nat (length (dec n))) by (destruct (dec n); [congruence|cbn [length]; lia]).
  rewrite Z.max_l in D by lia.
  assert (Z.of_nat (length (dec n)) - 1 < k + 1) by (apply pow10_lt_inv; lia).
  assert (k < Z.of_nat (length (dec n))) by (apply pow10_lt_inv; lia). lia.
Qed.

(** A mantissa with six digits and an exponent. *)
Definition mant_text (m : Z) : text :=
  match dec (strip_zeros 6 m) with [] => [] | [c] => [c] | c :: cs => c :: dot :: cs end.

Lemma mant_spec m : 100000 <= m < 1000000 ->
  exists c rest m' e', mant_text m = c :: rest /\ (forall t, isdig c /\ match rest ++ char_e :: t with [] => True | c0 :: _ => digit_val c0 = None end) /\
    dval 0 [c] <> 0 /\ literal (mant_text m) m' e' /\ ~ In "e"%char (mant_text m) /\ -5 <= e' <= 0 /\ m = m' * 10 ^ (5 + e') /\ 0 < m'.
Proof.
  intros Hm. unfold mant_text. destruct (strip_zeros_spec 6 m) as (j & Hj & A & B); [lia|].
  set (m' := strip_zeros 6 m) in *. clearbody m'. destruct (dec_spec m') as (D1 & D2 & D3 & _ & _); [lia|].
  assert (Hj5 : j <= 5).
  { destruct (Z.le_gt_cases j 5); [assumption|]. replace j with 6 in A by lia. change (10 ^ 6) with 1000000 in A. lia. }
  assert (HL : Z.of_nat (length (dec m')) = (5 - j) + 1).
  { apply dec_length; [assumption|lia|]. pose proof (pow10_pos j ltac:(lia)).
    assert (10 ^ (5 - j) * 10 ^ j = 100000) by (rewrite <- Z.pow_add_r by lia; replace (5 - j + j) with 5 by lia; reflexivity).
    assert (10 ^ (5 - j + 1) * 10 ^ j = 1000000) by (rewrite <- Z.pow_add_r by lia; replace (5 - j + 1 + j) with 6 by lia; reflexivity).
    nia. }
  assert (He : forall l, Forall isdig l -> ~ In "e"%char l).
  { intros l Hl Hi. rewrite Forall_forall in Hl. destruct (Hl _ Hi) as (d & Hd & E).
    apply (f_equal nat_of_ascii) in E. rewrite nat_of_digit in E by assumption. change (nat_of_ascii "e") with 101%nat in E. lia. }
  assert (Hlead : forall c cs, dec m' = c :: cs -> dval 0 [c] <> 0).
  { intros c cs E. rewrite E in *. pose proof (Forall_inv D1) as Hc. pose proof (Forall_inv_tail D1) as Hcs. destruct Hc as (d & Hd & ->).
    cbn [dval]. rewrite digit_val_digit by assumption. cbn [dval] in D3. rewrite digit_val_digit in D3 by assumption.
    intros Hz. assert (d = 0) by lia. subst d.
    (* the remaining digits give a value below 10^(len-1) *)
    assert (Hb : forall s, Forall isdig s -> forall a, dval a s < (a + 1) * 10 ^ Z.of_nat (length s)).
    { clear. induction 1 as [|c s Hc _ IH]; intros a; [cbn; lia|]. cbn [dval].
      destruct Hc as (d & Hd & ->). rewrite digit_val_digit by assumption.
      cbn [length]. rewrite Nat2Z.inj_succ, Z.pow_succ_r by lia. pose proof (pow10_pos (Z.of_nat (length s)) ltac:(lia)).
      specialize (IH (10 * a + d)). nia. }
    specialize (Hb cs Hcs (10 * 0 + 0)). rewrite D3 in Hb.
    cbn [length] in HL. rewrite Nat2Z.inj_succ in HL. replace (Z.of_nat (length cs)) with (5 - j) in Hb by lia.
    pose proof (pow10_pos j ltac:(lia)). pose proof (pow10_pos (5 - j) ltac:(lia)).
    assert (10 ^ (5 - j) * 10 ^ j = 100000) by (rewrite <- Z.pow_add_r by lia; replace (5 - j + j) with 5 by lia; reflexivity).
    nia. }
  destruct (dec m') as [|c [|c2 cs]] eqn:E; [congruence| |].
  - pose proof (Forall_inv D1) as Hc. exists c, [], m', 0.
    cbn [length] in HL. assert (j = 5) by lia. subst j.
    split; [reflexivity|]. split; [intros t; split; [assumption|reflexivity]|]. split; [now apply (Hlead c [])|].
    split; [rewrite <- D3, <- run_value_dval by assumption; apply lit_plain; [discriminate|now apply Forall_decimal]|].
    split; [now apply He|]. split; [lia|]. split; [lia|assumption].
  - pose proof (Forall_inv D1) as Hc. pose proof (Forall_inv_tail D1) as Hcs. exists c, (dot :: c2 :: cs), m', (- Z.of_nat (length (c2 :: cs))).
    split; [reflexivity|]. split; [intros t; split; [assumption|reflexivity]|]. split; [now apply (Hlead c (c2 :: cs))|].
    split.
    { rewrite <- D3, <- run_value_dval by assumption.
      apply (lit_frac [c] (c2 :: cs)); [discriminate|discriminate|now apply Forall_decimal]. }
    split; [intros [Hi|[Hi|Hi]]; [apply (He [c]); [now constructor|now left]|discriminate Hi|now apply (He (c2 :: cs))]|].
    rewrite <- A. cbn [length] in *. rewrite !Nat2Z.inj_succ in *.
    split; [lia|]. split; [f_equal; f_equal; lia|assumption].
Qed.

Lemma exp_text e : 0 <= e ->
  let xs := (if e <? 10 then [digit 0] else []) ++ dec e in
  xs <> [] /\ Forall isdig xs /\ run_value xs = e.
Proof.
  intros He xs. destruct (dec_spec e He) as (A & B & C & _).
  assert (Hx : Forall isdig xs).
  { unfold xs. apply Forall_app. split; [|assumption]. destruct (e <? 10); [|constructor].
    constructor; [exists 0; split; [lia|reflexivity]|constructor]. }
  split; [|split; [assumption|]].
  - unfold xs. destruct (dec e); [congruence|]. destruct (e <? 10); discriminate.
  - rewrite run_value_dval by assumption. unfold xs. rewrite dval_app. destruct (e <? 10); cbn [dval]; [|assumption].
    rewrite digit_val_digit by lia. assumption.
Qed.

Lemma large_print n : 1000000 <= n ->
  exists m e, literal (print_g n) m e /\ 0 < m < 1000000 /\ 0 <= e /\
    200000 * Z.abs (n - m * 10 ^ e) <= n /\
    exists d, 1 <= d <= 9 /\ atoi (print_g n) = Ok d.
Proof.
  intros Hn. unfold print_g. replace (n <? 0) with false by (symmetry; apply Z.ltb_ge; lia).
  rewrite Z.abs_eq by lia. replace (n <? 1000000) with false by (symmetry; apply Z.ltb_ge; lia). cbv zeta.
  unfold print_exp. cbv zeta.
  destruct (dec_spec n) as (_ & B & _ & D & E); [lia|]. rewrite Z.max_l in D by lia.
  set (L := Z.of_nat (length (dec n))) in *.
  assert (HL : 7 <= L).
  { destruct (Z.le_gt_cases 7 L); [assumption|]. exfalso.
    assert (10 ^ L <= 10 ^ 6) by (apply Z.pow_le_mono_r; lia). change (10 ^ 6) with 1000000 in *. lia. }
  set (K := 10 ^ (L - 6)). assert (HK : 0 < K) by (apply pow10_pos; lia).
  assert (HK5 : 10 ^ (L - 1) = 100000 * K).
  { unfold K. replace (L - 1) with (5 + (L - 6)) by lia. rewrite Z.pow_add_r by lia. reflexivity. }
  assert (HK6 : 10 ^ L = 1000000 * K).
  { unfold K. replace L with (6 + (L - 6)) at 1 by lia. rewrite Z.pow_add_r by lia. reflexivity. }
  destruct (round_div_near n K) as [R1 R2]; [lia|assumption|].
  destruct (round_div_mono n K 100000 1000000) as [R3 R4]; [lia|assumption|lia|].
  set (m0 := round_div n K) in *.
  assert (HM : exists m e, (if m0 =? 1000000 then (100000, L) else (m0, L - 1)) = (m, e) /\
     100000 <= m < 1000000 /\ 6 <= e /\ m * 10 ^ (e - 5) = m0 * K).
  { destruct (m0 =? 1000000) eqn:Em.
    - apply Z.eqb_eq in Em. exists 100000, L. split; [reflexivity|]. split; [lia|]. split; [lia|]. rewrite Em.
      unfold K. replace (L - 5) with (1 + (L - 6)) by lia. rewrite Z.pow_add_r by lia. change (10 ^ 1) with 10. lia.
    - apply Z.eqb_neq in Em. exists m0, (L - 1). split; [reflexivity|]. split; [lia|]. split; [lia|].
      unfold K. do 2 f_equal. lia. }
  destruct HM as (m & e & -> & Hm & He & Hme).
  change (match dec (strip_zeros 6 m) with [] => [] | [c] => [c] | c :: cs => c :: dot :: cs end) with (mant_text m).
  destruct (mant_spec m Hm) as (c & rest & m' & e' & M1 & M2 & M3 & M4 & M5 & M6 & M7 & M8).
  destruct (exp_text e) as (X1 & X2 & X3); [lia|]. cbv zeta in *. set (xs := (if e <? 10 then _ else _) ++ dec e) in *.
  assert (Heq : m' * 10 ^ (e' + e) = m0 * K).
  { rewrite <- Hme, M7, <- Z.mul_assoc, <- Z.pow_add_r by lia. do 2 f_equal. lia. }
  exists m', (e' + e). split; [|split; [|split; [|split]]].
  - replace (e' + e) with (e' + run_value xs) by (rewrite X3; reflexivity). apply (lit_exp_plus (mant_text m) m' e' xs); auto. now apply Forall_decimal.
  - split; [assumption|]. pose proof (pow10_pos (5 + e') ltac:(lia)). nia.
  - lia.
  - rewrite Heq. nia.
  - rewrite M1. destruct (M2 (plus :: xs)) as [Hc Hr]. exists (dval 0 [c]).
    assert (Hd : 1 <= dval 0 [c] <= 9).
    { destruct Hc as (d & Hd & ->). revert M3. cbn [dval]. rewrite digit_val_digit by assumption. lia. }
    split; [assumption|]. change (c :: rest) with ([c] ++ rest). rewrite <- app_assoc. apply atoi_run.
    + now constructor.
    + discriminate.
    + exact Hr.
    + apply in_int_iff. unfold int_min, int_max. lia.
Qed.

(** * Lines and fields. *)
Lemma take_line_spec l rest : ~ In newline l -> forall acc, take_line (l ++ newline :: rest) acc = (rev acc ++ l, rest, false).
Proof.
  induction l as [|c l IH]; intros H acc.
  - cbn [app take_line]. rewrite Ascii.eqb_refl, app_nil_r. reflexivity.
  - cbn [app take_line]. rewrite eqb_false by (intros ->; apply H; now left).
    rewrite IH by (intros Hi; apply H; now right). cbn [rev]. rewrite <- app_assoc. reflexivity.
Qed.

Lemma getline_line l rest old : ~ In newline l ->
  getline (mkStream (l ++ newline :: rest) false) old = (mkStream rest false, l).
Proof. intros H. unfold getline. cbn [st_eof st_rest]. rewrite take_line_spec by assumption. reflexivity. Qed.

Lemma unlines_cons l ls : unlines (l :: ls) = l ++ newline :: unlines ls.
Proof. unfold unlines. cbn [flat_map]. rewrite <- app_assoc. reflexivity. Qed.
Lemma unlines_app l1 l2 : unlines (l1 ++ l2) = unlines l1 ++ unlines l2.
Proof. unfold unlines. apply flat_map_app. Qed.

Lemma field_no_newline f : Forall (fun c => ~ blank c) f -> ~ In newline f.
Proof. intros H Hi. rewrite Forall_forall in H. apply (H _ Hi). unfold blank. cbn. auto. Qed.

Lemma split_fields f fs : Forall field (f :: fs) ->
  splitBySpaces (f ++ flat_map (fun g => space :: g) fs) = f :: fs.
Proof.
  intros H. apply split_iff. revert f H. induction fs as [|g fs IH]; intros f H.
  - cbn [flat_map]. rewrite app_nil_r. inversion H as [|? ? [A B] _]; subst. now apply (fields_last blank []).
  - inversion H as [|? ? [A B] H2]; subst. cbn [flat_map].
    change (f ++ (space :: g) ++ flat_map (fun g => space :: g) fs) with ([] ++ f ++ space :: (g ++ flat_map (fun g => space :: g) fs)).
    apply fields_more; auto. unfold blank. cbn. auto 10.
Qed.

Lemma line_no_newline f fs : Forall field (f :: fs) -> ~ In newline (f ++ flat_map (fun g => space :: g) fs).
Proof.
  intros H Hi. inversion H as [|? ? [_ Hf] Hfs]; subst. apply in_app_iff in Hi as [Hi|Hi].
  - now apply (field_no_newline f).
  - apply in_flat_map in Hi as (g & Hg & [Hi|Hi]); [discriminate|]. rewrite Forall_forall in Hfs.
    apply (field_no_newline g); [apply Hfs; assumption|assumption].
Qed.

Lemma print_int_field n : field (print_int n).
Proof.
  assert (G : forall k, 0 <= k -> field (dec k)).
  { intros k Hk. destruct (dec_spec k Hk) as (A & B & _). split; [assumption|]. eapply Forall_impl; [|exact A].
    intros c Hc. apply (isdig_plain c Hc). }
  unfold print_int. destruct (n <? 0) eqn:E.
  - apply Z.ltb_lt in E. destruct (G (- n)) as [A B]; [lia|]. split; [discriminate|]. constructor; [|assumption].
    unfold blank. cbn. lia.
  - apply Z.ltb_ge in E. now apply G.
Qed.

(** * Reading the sections of a file. *)
Section ReadFile.
  Context {N : Num}.
  Notation Point := (Point N).
  Variable atof : text -> nT N.
  Variable fmt : nT N -> text.
  Variable tol : nT N.
  Notation reread := (reread atof fmt).
  Notation printable := (printable fmt).

  Lemma point_line q : printable q ->
    splitBySpaces (point_string fmt q) = [fmt (px q); fmt (py q)] /\ ~ In newline (point_string fmt q).
  Proof.
    intros [A B]. replace (point_string fmt q) with (fmt (px q) ++ flat_map (fun g => space :: g) [fmt (py q)]).
    - split; [apply split_fields|apply line_no_newline]; auto.
    - unfold point_string. cbn [flat_map]. rewrite app_nil_r. reflexivity.
  Qed.

  Lemma read_points_lines pts : Forall printable pts -> forall rest old,
    exists l, read_points atof (length pts) (mkStream (unlines (map (point_string fmt) pts) ++ rest) false) old =
      Ok (map reread pts, mkStream rest false, l).
  Proof.
    induction 1 as [|q pts Hq _ IH]; intros rest old.
    - exists old. reflexivity.
    - cbn [map length read_points]. rewrite unlines_cons, <- app_assoc. cbn [app].
      destruct (point_line q Hq) as [A B]. rewrite getline_line by assumption. rewrite A.
      cbn [vgetn vget nth_error bind Z.of_nat]. destruct (IH rest (point_string fmt q)) as [l Hl].
      exists l. cbn. rewrite Hl. reflexivity.
  Qed.

  (** A line whose fields after the first are the indices [ks] shifted by [start]. *)
  Definition index_line (start : Z) (ks : list Z) (l : text) : Prop :=
    ~ In newline l /\ tl (splitBySpaces l) = map (fun k => print_g (k + start)) ks /\
    Forall (fun k => Z.abs (k + start) < 1000000) ks.

  Lemma read_indices start ks : Forall (fun k => Z.abs (k + start) < 1000000) ks ->
    mapM (fun f => v <- atoi f ;; Ok (v - start)) (map (fun k => print_g (k + start)) ks) = Ok ks.
  Proof.
    induction 1 as [|k ks Hk _ IH]; [reflexivity|]. cbn [map mapM]. rewrite small_roundtrip by assumption.
    cbn [bind]. rewrite IH. cbn [bind]. do 2 f_equal. lia.
  Qed.

  Lemma read_polys_lines pts start kss ls : Forall2 (index_line start) kss ls ->
    forall i polys em rest old,
    exists gs, read_polys (polygon_ctor_idx tol) (@pg_points N) pts start (length kss) i polys em
        (mkStream (unlines ls ++ rest) false) old =
      Ok (polys ++ gs, fst (fold_left (fun '(m, c) es => (fold_left (fun m s => sm_insert iseg_eqb m s c) es m, c + 1)) (map edges_of kss) (em, i)),
          mkStream rest false) /\ map (@pg_points N) gs = kss.
  Proof.
    induction 1 as [|ks l kss ls Hl _ IH]; intros i polys em rest old.
    - exists []. cbn. rewrite app_nil_r. auto.
    - destruct Hl as (A & B & C). cbn [length read_polys]. rewrite unlines_cons, <- app_assoc. cbn [app].
      rewrite getline_line by assumption. rewrite B, read_indices by assumption. cbn [bind].
      rewrite ctor_idx_ok. cbn [bind pg_points]. rewrite getSegments_edges. cbn [bind app].
      edestruct (IH (i + 1)) as (gs & Hgs & Hp). rewrite Hgs. eexists (_ :: gs). split.
      + rewrite <- app_assoc. cbn [app]. reflexivity.
      + cbn [map pg_points]. rewrite Hp. reflexivity.
  Qed.

  Lemma read_file_lines (m : mesh N (polygon N)) start pts kss ls rest :
    Forall printable pts -> zlen pts <= int_max -> zlen kss <= int_max -> Forall2 (index_line start) kss ls ->
    exists gs, createFromStream atof tol (polygon_ctor_idx tol) (@pg_points N) m
      (unlines (print_int (zlen pts) :: map (point_string fmt) pts ++ print_int (zlen kss) :: ls) ++ rest) start =
      Ok (mkMesh (fst (ul_push_list (pt_ltb tol) (ms_points m) (map reread pts))) (ms_polygons m ++ gs)
           (fst (fold_left (fun '(m, c) es => (fold_left (fun m s => sm_insert iseg_eqb m s c) es m, c + 1)) (map edges_of kss) (ms_edges m, 0)))
           (ms_pointMap m)) /\ map (@pg_points N) gs = kss.
  Proof.
    intros HP Hn Hk HL. unfold createFromStream.
    assert (Hcnt : forall (A : Type) (l : list A), zlen l <= int_max -> atoi (print_int (zlen l)) = Ok (zlen l)).
    { intros A l H. apply atoi_print_int. unfold zlen, int_min in *. lia. }
    assert (Hnl : forall n, ~ In newline (print_int n)) by (intros n; apply field_no_newline, (print_int_field n)).
    rewrite unlines_cons, unlines_app, unlines_cons, <- app_assoc. cbn [app].
    rewrite getline_line by apply Hnl. rewrite Hcnt by assumption. cbn [bind].
    rewrite <- app_assoc. unfold zlen at 1. rewrite Nat2Z.id.
    destruct (read_points_lines pts HP ((print_int (zlen kss) ++ newline :: unlines ls) ++ rest) (print_int (zlen pts))) as [l ->].
    cbn [bind]. rewrite <- app_assoc. cbn [app]. rewrite getline_line by apply Hnl. rewrite Hcnt by assumption. cbn [bind].
    unfold zlen at 1. rewrite Nat2Z.id.
    destruct (read_polys_lines (ul_list (fst (ul_push_list (pt_ltb tol) (ms_points m) (map reread pts)))) start kss ls HL 0 (ms_polygons m) (ms_edges m) rest (print_int (zlen kss)))
      as (gs & Hgs & Hp). rewrite Hgs. cbn [bind]. exists gs. auto.
  Qed.
End ReadFile.

(** * Whole files. *)
Lemma inserts_run segs : forall c h,
  fst (fold_left (fun '(m, c) es => (fold_left (fun m s => sm_insert iseg_eqb m s c) es m, c + 1)) segs (sm_run h, c)) =
  sm_run (h ++ map (fun p => (0, p)) (cell_inserts c segs)).
Proof.
  assert (G : forall c l h, fold_left (fun m s => sm_insert iseg_eqb m s c) l (sm_run h) = sm_run (h ++ map (fun p => (0, p)) (map (fun s => SmInsert s c) l))).
  { intros c l. induction l as [|s l IH]; intros h; cbn [map fold_left]; [rewrite app_nil_r; reflexivity|].
    replace (sm_insert iseg_eqb (sm_run h) s c) with (sm_run (h ++ [(0, SmInsert s c)])).
    - rewrite IH, <- app_assoc. reflexivity.
    - unfold sm_run. rewrite fold_left_app. cbn [fold_left sm_step fst snd]. unfold sm_insert. rewrite sm_find_eqb, sm_update_eqb. reflexivity. }
  induction segs as [|l segs IH]; intros c h; cbn [fold_left cell_inserts map]; [rewrite app_nil_r; reflexivity|].
  rewrite G, IH, map_app, <- app_assoc. reflexivity.
Qed.

Lemma inserts_find segs h nb s :
  um_find (iseg_match nb) s (fst (fold_left (fun '(m, c) es => (fold_left (fun m s => sm_insert iseg_eqb m s c) es m, c + 1)) segs (sm_run h, 0))) =
  spec_sm_run (map snd h ++ cell_inserts 0 segs) (canon s).
Proof.
  rewrite inserts_run. destruct (segmap_refines (h ++ map (fun p => (0, p)) (cell_inserts 0 segs))) as [F _].
  cbv zeta in F. rewrite F, map_app, map_map. cbn [snd]. rewrite map_id. reflexivity.
Qed.

Lemma fold_set_add_distinct {A} (eqv : A -> A -> bool) l : forall pre,
  (forall i j a b, nth_error (pre ++ l) i = Some a -> nth_error (pre ++ l) j = Some b -> eqv a b = true -> i = j) ->
  fold_left (set_add eqv) l pre = pre ++ l.
Proof.
  induction l as [|x l IH]; intros pre H; [symmetry; apply app_nil_r|]. cbn [fold_left].
  replace (set_add eqv pre x) with (pre ++ [x]).
  - rewrite IH; rewrite <- app_assoc; [reflexivity|exact H].
  - unfold set_add. destruct (set_mem eqv x pre) eqn:E; [|reflexivity]. exfalso. unfold set_mem in E.
    apply existsb_exists in E as (y & Hy & E). apply In_nth_error in Hy as [i Hi].
    assert (Hlt : (i < length pre)%nat) by (apply nth_error_Some; congruence).
    assert (length pre = i); [|lia]. apply (H _ _ x y); [|rewrite nth_error_app1; assumption|assumption].
    rewrite nth_error_app2, Nat.sub_diag by lia. reflexivity.
Qed.

Lemma zlen_map' {A B} (f : A -> B) l : zlen (map f l) = zlen l.
Proof. unfold zlen. rewrite map_length. reflexivity. Qed.

Section Files.
  Context {N : Num}.
  Variables (tol : nT N) (atof : text -> nT N) (fmt : nT N -> text).

  Lemma polygon_index_line start ks : zlen ks < 1000000 -> Forall (fun k => Z.abs (k + start) < 1000000) ks ->
    index_line start ks (polygon_string (map (fun k => k + start) ks)).
  Proof.
    intros Hz Hk. unfold polygon_string. rewrite zlen_map'.
    assert (E : flat_map (fun k => space :: print_g k) (map (fun k => k + start) ks) =
                flat_map (fun g => space :: g) (map (fun k => print_g (k + start)) ks)).
    { rewrite !flat_map_concat_map, !map_map. reflexivity. }
    rewrite E. assert (HF : Forall field (print_g (zlen ks) :: map (fun k => print_g (k + start)) ks)).
    { constructor; [rewrite print_g_small; [apply print_int_field|unfold zlen in *; lia]|].
      apply Forall_map. eapply Forall_impl; [|exact Hk]. intros k Hk'. cbv beta. rewrite print_g_small by assumption. apply print_int_field. }
    split; [now apply line_no_newline|]. split; [|assumption]. rewrite split_fields by assumption. reflexivity.
  Qed.

  Lemma edge_index_line e : Z.abs (fst e) < 1000000 -> Z.abs (snd e) < 1000000 -> index_line 0 [snd e] (iseg_string e).
  Proof.
    intros H1 H2. unfold iseg_string.
    replace (print_g (fst e) ++ space :: print_g (snd e)) with (print_g (fst e) ++ flat_map (fun g => space :: g) [print_g (snd e)])
      by (cbn [flat_map]; rewrite app_nil_r; reflexivity).
    assert (HF : Forall field [print_g (fst e); print_g (snd e)]).
    { constructor; [|constructor; [|constructor]]; rewrite print_g_small by assumption; apply print_int_field. }
    split; [now apply line_no_newline|]. split.
    - rewrite split_fields by assumption. cbn [tl map]. rewrite Z.add_0_r. reflexivity.
    - constructor; [rewrite Z.add_0_r; assumption|constructor].
  Qed.

  Lemma Forall2_map_r {A B} (R : A -> B -> Prop) f l : Forall (fun a => R a (f a)) l -> Forall2 R l (map f l).
  Proof. induction 1; cbn [map]; constructor; auto. Qed.
  Lemma Forall2_map_lr {A B C} (R : B -> C -> Prop) f g (l : list A) : Forall (fun a => R (f a) (g a)) l -> Forall2 R (map f l) (map g l).
  Proof. induction 1; cbn [map]; constructor; auto. Qed.

  (** A file with a point section and a polygon section. *)
  Lemma read_back (pts : list (Point N)) kss start :
    Forall (printable fmt) pts -> zlen pts <= int_max -> zlen kss <= int_max ->
    Forall (fun ks => zlen ks < 1000000 /\ Forall (fun k => Z.abs (k + start) < 1000000) ks) kss ->
    strict_weak_order_on (fun q => In q (map (reread atof fmt) pts)) (pt_ltb tol) ->
    (forall i j a b, nth_error (map (reread atof fmt) pts) i = Some a -> nth_error (map (reread atof fmt) pts) j = Some b ->
       equivb (pt_ltb tol) a b = true -> i = j) ->
    exists m, createFromStream atof tol (polygon_ctor_idx tol) (@pg_points N) mesh_new
        (unlines (print_int (zlen pts) :: map (point_string fmt) pts ++
                  print_int (zlen kss) :: map (fun ks => polygon_string (map (fun k => k + start) ks)) kss)) start = Ok m /\
      ul_list (ms_points m) = map (reread atof fmt) pts /\ map (@pg_points N) (ms_polygons m) = kss /\
      forall nb s, um_find (iseg_match nb) s (ms_edges m) = spec_sm_run (cell_inserts 0 (map edges_of kss)) (canon s).
  Proof.
    intros HP Hn Hk HK HW HD.
    destruct (read_file_lines atof fmt tol mesh_new start pts kss (map (fun ks => polygon_string (map (fun k => k + start) ks)) kss) []) as (gs & E & Hg); auto.
    { apply Forall2_map_r. eapply Forall_impl; [|exact HK]. intros ks [A B]. now apply polygon_index_line. }
    rewrite app_nil_r in E. rewrite E. eexists. split; [reflexivity|]. cbn [ms_points ms_polygons ms_edges mesh_new app]. split; [|split; [assumption|]].
    - destruct (ul_push_list (pt_ltb tol) ul_empty (map (reread atof fmt) pts)) as [u is] eqn:Eu.
      destruct (ul_push_list_spec _ _ HW ul_empty _ u is (ul_inv_empty _ _) (fun x H => H) Eu) as (_ & L & _). cbn [fst].
      rewrite L. apply (fold_set_add_distinct _ _ []). exact HD.
    - intros nb s. apply (inserts_find (map edges_of kss) [] nb s).
  Qed.

  (** Reading into a mesh that already has elements. *)
  Lemma read_into (m0 : mesh N (polygon N)) h (pts : list (Point N)) kss start :
    Forall (printable fmt) pts -> zlen pts <= int_max -> zlen kss <= int_max ->
    Forall (fun ks => zlen ks < 1000000 /\ Forall (fun k => Z.abs (k + start) < 1000000) ks) kss ->
    ms_edges m0 = sm_run h ->
    exists m gs, createFromStream atof tol (polygon_ctor_idx tol) (@pg_points N) m0
        (unlines (print_int (zlen pts) :: map (point_string fmt) pts ++
                  print_int (zlen kss) :: map (fun ks => polygon_string (map (fun k => k + start) ks)) kss)) start = Ok m /\
      ms_polygons m = ms_polygons m0 ++ gs /\ map (@pg_points N) gs = kss /\
      forall nb s, um_find (iseg_match nb) s (ms_edges m) = spec_sm_run (map snd h ++ cell_inserts 0 (map edges_of kss)) (canon s).
  Proof.
    intros HP Hn Hk HK HE.
    destruct (read_file_lines atof fmt tol m0 start pts kss (map (fun ks => polygon_string (map (fun k => k + start) ks)) kss) []) as (gs & E & Hg); auto.
    { apply Forall2_map_r. eapply Forall_impl; [|exact HK]. intros ks [A B]. now apply polygon_index_line. }
    rewrite app_nil_r in E. rewrite E. eexists. exists gs. split; [reflexivity|]. cbn [ms_polygons ms_edges]. split; [reflexivity|]. split; [assumption|].
    intros nb s. rewrite HE. apply inserts_find.
  Qed.

  (** A printed mesh. *)
  Lemma printed_read (pts : list (Point N)) es polys :
    Forall (printable fmt) pts -> zlen pts <= int_max -> zlen es <= int_max ->
    Forall (fun e => Z.abs (fst e) < 1000000 /\ Z.abs (snd e) < 1000000) es ->
    exists m, createFromStream atof tol (polygon_ctor_idx tol) (@pg_points N) mesh_new (printInStream fmt pts es polys) 0 = Ok m /\
      map (@pg_points N) (ms_polygons m) = map (fun e => [snd e]) es /\
      (forall nb s, um_find (iseg_match nb) s (ms_edges m) =
         spec_sm_run (cell_inserts 0 (map (fun e => [(snd e, snd e)]) es)) (canon s)) /\
      ((exists ks, In ks polys /\ (2 <= length ks)%nat) -> map (@pg_points N) (ms_polygons m) <> polys).
  Proof.
    intros HP Hn He HE.
    destruct (read_file_lines atof fmt tol mesh_new 0 pts (map (fun e => [snd e]) es) (map iseg_string es)
                (unlines (print_int (zlen polys) :: map polygon_string polys))) as (gs & E & Hg); auto.
    { unfold zlen in *. rewrite map_length. assumption. }
    { apply Forall2_map_lr. eapply Forall_impl; [|exact HE]. intros e [A B]. now apply edge_index_line. }
    assert (HU : printInStream fmt pts es polys =
      unlines (print_int (zlen pts) :: map (point_string fmt) pts ++ print_int (zlen es) :: map iseg_string es) ++
      unlines (print_int (zlen polys) :: map polygon_string polys)).
    { unfold printInStream, mesh_lines. rewrite <- unlines_app. f_equal.
      rewrite <- app_comm_cons, <- app_assoc, <- app_comm_cons. reflexivity. }
    rewrite HU. replace (zlen (map (fun e : Z * Z => [snd e]) es)) with (zlen es) in E by (unfold zlen; rewrite map_length; reflexivity).
    rewrite E. eexists. split; [reflexivity|]. cbn [ms_polygons ms_edges mesh_new app]. split; [assumption|]. split.
    - intros nb s. rewrite (inserts_find _ []). cbn [map app]. rewrite map_map. reflexivity.
    - intros (ks & Hi & Hl) Hc. rewrite Hg in Hc. rewrite <- Hc in Hi. apply in_map_iff in Hi as (e & <- & _). cbn in Hl. lia.
  Qed.
End Files.

(** * Sharing. *)
Lemma upd_nth_get {A} n f (l : list A) k :
  nth_error (upd_nth n f l) k = if Nat.eqb n k then option_map f (nth_error l k) else nth_error l k.
Proof.
  revert n k. induction l as [|a l IH]; intros n k.
  - destruct n, k; cbn; try reflexivity. destruct (Nat.eqb n k); reflexivity.
  - destruct n, k; cbn; try reflexivity. apply IH.
Qed.

Section Sharing.
  Context {N : Num} {T : Type}.
  Variables (tol : nT N) (atof : text -> nT N) (ctor : list Z -> list (Point N) -> res T) (segs_of : T -> list Z).

  Lemma read_polys_edges pts start n : forall i polys em em' st line r e s,
    read_polys ctor segs_of pts start n i polys em st line = Ok (r, e, s) ->
    exists e', read_polys ctor segs_of pts start n i polys em' st line = Ok (r, e', s).
  Proof.
    induction n as [|n IH]; intros i polys em em' st line r e s H; cbn [read_polys] in *.
    - injection H as <- <- <-. eauto.
    - destruct (getline st line) as [st1 line1]. apply bind_ok in H as (ks & Hk & H). rewrite Hk. cbn [bind].
      apply bind_ok in H as (g & Hg & H). rewrite Hg. cbn [bind]. apply bind_ok in H as (ss & Hs & H). rewrite Hs. cbn [bind].
      eapply IH. exact H.
  Qed.

  Lemma create_edges (m1 m2 : mesh N T) file start m1' :
    ms_points m1 = ms_points m2 -> ms_polygons m1 = ms_polygons m2 ->
    createFromStream atof tol ctor segs_of m1 file start = Ok m1' ->
    exists m2', createFromStream atof tol ctor segs_of m2 file start = Ok m2' /\
      ms_points m1' = ms_points m2' /\ ms_polygons m1' = ms_polygons m2'.
  Proof.
    intros HP HG. unfold createFromStream. rewrite HP, HG. destruct (getline _ _) as [st1 l1]. intros H.
    apply bind_ok in H as (n & Hn & H). rewrite Hn. cbn [bind]. apply bind_ok in H as ([[ps st2] l2] & Hp & H). rewrite Hp. cbn [bind].
    destruct (getline st2 l2) as [st3 l3]. apply bind_ok in H as (k & Hk & H). rewrite Hk. cbn [bind].
    apply bind_ok in H as ([[polys em] s] & Hr & H). apply (read_polys_edges _ _ _ _ _ _ (ms_edges m2)) in Hr as [e' ->].
    cbn [bind]. injection H as <-. eexists. split; [reflexivity|]. auto.
  Qed.

  Definition same_shape (h k : heap N) : Prop :=
    length (hp_seg h) = length (hp_seg k) /\ length (hp_pm h) = length (hp_pm k).

  Lemma vgetn_iff {A} (l : list A) i a : vgetn l i = Ok a <-> nth_error l i = Some a.
  Proof. unfold vgetn. destruct (nth_error l i); split; intros H; congruence. Qed.
  Lemma vgetn_len {A B} (l : list A) (l' : list B) i a : length l = length l' -> vgetn l i = Ok a -> exists b, vgetn l' i = Ok b.
  Proof.
    intros HL H. apply vgetn_iff in H. assert (i < length l')%nat by (rewrite <- HL; apply nth_error_Some; congruence).
    destruct (nth_error l' i) as [b|] eqn:E; [|apply nth_error_None in E; lia]. exists b. now apply vgetn_iff.
  Qed.

  Lemma obj_step_shape h k (o : mobj N T) op h' o' : same_shape h k ->
    obj_step atof tol ctor segs_of h o op = Ok (h', o') ->
    same_shape h' h /\ ob_edges o' = ob_edges o /\ ob_pm o' = ob_pm o /\
    exists k', obj_step atof tol ctor segs_of k o op = Ok (k', o') /\ same_shape k' k.
  Proof.
    intros [S1 S2] H. destruct op as [file start|s]; cbn [obj_step] in *.
    - unfold obj_createFromStream, mesh_view in *. apply bind_ok in H as (m & Hm & H). apply bind_ok in Hm as (e & He & Hm).
      apply bind_ok in Hm as (p & Hp & Hm). injection Hm as <-. apply bind_ok in H as (m' & Hc & H). injection H as <- <-.
      destruct (vgetn_len _ _ _ _ S1 He) as [e2 He2]. destruct (vgetn_len _ _ _ _ S2 Hp) as [p2 Hp2]. rewrite He2, Hp2. cbn [bind].
      destruct (create_edges (mkMesh (ob_points o) (ob_polys o) e p) (mkMesh (ob_points o) (ob_polys o) e2 p2) file start m' eq_refl eq_refl Hc) as (m2' & Hc2 & E1 & E2).
      rewrite Hc2. cbn [bind]. split; [split; cbn; [apply upd_nth_length|reflexivity]|]. split; [reflexivity|]. split; [reflexivity|].
      eexists. split; [rewrite E1, E2; reflexivity|]. split; cbn; [apply upd_nth_length|reflexivity].
    - unfold obj_getNeighbours in *. apply bind_ok in H as ([h1 nb] & H1 & H). apply bind_ok in H1 as (e & He & H1).
      destruct (sm_get iseg_eqb e s) as [e1 n1]. injection H1 as <- <-. injection H as <- <-.
      destruct (vgetn_len _ _ _ _ S1 He) as [e2 He2]. rewrite He2. cbn [bind]. destruct (sm_get iseg_eqb e2 s) as [e3 n3]. cbn [bind].
      split; [split; cbn; [apply upd_nth_length|reflexivity]|]. split; [reflexivity|]. split; [reflexivity|].
      eexists. split; [reflexivity|]. split; cbn; [apply upd_nth_length|reflexivity].
  Qed.

  Lemma same_shape_trans h1 h2 h3 : same_shape h1 h2 -> same_shape h2 h3 -> same_shape h1 h3.
  Proof. unfold same_shape. intuition congruence. Qed.
  Lemma same_shape_sym h1 h2 : same_shape h1 h2 -> same_shape h2 h1.
  Proof. unfold same_shape. intuition congruence. Qed.

  Lemma view_shape h k (o : mobj N T) m : same_shape h k -> mesh_view h o = Ok m -> exists m', mesh_view k o = Ok m'.
  Proof.
    intros [S1 S2] H. unfold mesh_view in *. apply bind_ok in H as (e & He & H). apply bind_ok in H as (p & Hp & H).
    destruct (vgetn_len _ _ _ _ S1 He) as [e2 ->]. destruct (vgetn_len _ _ _ _ S2 Hp) as [p2 ->]. cbn. eauto.
  Qed.

  Notation step := (pair_step atof tol ctor segs_of).

  Lemma pair_run ops : forall h o1 o2 k (p2 : mobj N T) j (q1 : mobj N T) h' o1' o2',
    same_shape h k -> same_shape h j ->
    foldM step ops (h, o1, o2) = Ok (h', o1', o2') ->
    same_shape h' h /\ ob_edges o1' = ob_edges o1 /\ ob_edges o2' = ob_edges o2 /\ ob_pm o1' = ob_pm o1 /\ ob_pm o2' = ob_pm o2 /\
    (exists k', foldM step (filter fst ops) (k, o1, p2) = Ok (k', o1', p2)) /\
    (exists j', foldM step (filter (fun op => negb (fst op)) ops) (j, q1, o2) = Ok (j', q1, o2')).
  Proof.
    induction ops as [|[b op] ops IH]; intros h o1 o2 k p2 j q1 h' o1' o2' Hk Hj H.
    - cbn in *. injection H as <- <- <-. unfold same_shape. do 5 (split; [auto|]). split; eauto.
    - cbn [foldM] in H. apply bind_ok in H as ([[h1 a1] a2] & H1 & H). unfold pair_step in H1. cbn [fst snd] in H1. destruct b.
      + apply bind_ok in H1 as ([h2 o3] & H2 & H3). injection H3 as <- <- <-.
        destruct (obj_step_shape h k o1 op h2 o3 Hk H2) as (S1 & E1 & E2 & k' & Ek & Sk).
        destruct (IH h2 o3 o2 k' p2 j q1 h' o1' o2') as (G1 & G2 & G3 & G4 & G5 & (k2 & G6) & G7); [| |exact H|].
        { apply (same_shape_trans _ h); [assumption|]. apply (same_shape_trans _ k); [assumption|]. now apply same_shape_sym. }
        { now apply (same_shape_trans _ h). }
        split; [now apply (same_shape_trans _ h2)|]. do 4 (split; [congruence|]). split; [|exact G7].
        exists k2. cbn [filter fst foldM]. unfold pair_step at 1. cbn [fst snd]. rewrite Ek. cbn [bind]. exact G6.
      + apply bind_ok in H1 as ([h2 o3] & H2 & H3). injection H3 as <- <- <-.
        destruct (obj_step_shape h j o2 op h2 o3 Hj H2) as (S1 & E1 & E2 & j' & Ej & Sj).
        destruct (IH h2 o1 o3 k p2 j' q1 h' o1' o2') as (G1 & G2 & G3 & G4 & G5 & G6 & (j2 & G7)); [| |exact H|].
        { now apply (same_shape_trans _ h). }
        { apply (same_shape_trans _ h); [assumption|]. apply (same_shape_trans _ j); [assumption|]. now apply same_shape_sym. }
        split; [now apply (same_shape_trans _ h2)|]. do 4 (split; [congruence|]). split; [exact G6|].
        exists j2. cbn [filter fst negb foldM]. unfold pair_step at 1. cbn [fst snd]. rewrite Ej. cbn [bind]. exact G7.
  Qed.

  Lemma copies_share h (o : mobj N T) m ops h' o1 o2 :
    mesh_view h o = Ok m -> foldM step ops (h, o, mesh_copy o) = Ok (h', o1, o2) ->
    exists m1 m2, mesh_view h' o1 = Ok m1 /\ mesh_view h' o2 = Ok m2 /\
      ms_edges m1 = ms_edges m2 /\ ms_pointMap m1 = ms_pointMap m2 /\
      (exists k, foldM step (filter fst ops) (h, o, mesh_copy o) = Ok (k, o1, mesh_copy o)) /\
      (exists k, foldM step (filter (fun op => negb (fst op)) ops) (h, o, mesh_copy o) = Ok (k, o, o2)).
  Proof.
    intros HV H. assert (S0 : same_shape h h) by (split; reflexivity).
    destruct (pair_run ops h o (mesh_copy o) h (mesh_copy o) h o h' o1 o2 S0 S0 H) as (S & E1 & E2 & E3 & E4 & R1 & R2).
    cbn [mesh_copy ob_edges ob_pm] in E2, E4.
    destruct (view_shape h h' o m (same_shape_sym _ _ S) HV) as [m' HV']. unfold mesh_view in *.
    apply bind_ok in HV' as (e & He & HV'). apply bind_ok in HV' as (p & Hp & _).
    rewrite E1, E2, E3, E4, He, Hp. cbn [bind]. do 2 eexists. split; [reflexivity|]. split; [reflexivity|]. cbn. auto.
  Qed.

  Lemma read_into_copy h (o : mobj N T) m file start h' o' m' :
    mesh_view h o = Ok m -> obj_createFromStream atof tol ctor segs_of h (mesh_copy o) file start = Ok (h', o') ->
    mesh_view h' o' = Ok m' ->
    mesh_view h' o = Ok (mkMesh (ms_points m) (ms_polygons m) (ms_edges m') (ms_pointMap m)) /\
    createFromStream atof tol ctor segs_of m file start = Ok m'.
  Proof.
    intros HV H HV'. unfold obj_createFromStream in H. change (mesh_view h (mesh_copy o)) with (mesh_view h o) in H. rewrite HV in H. cbn [bind] in H.
    apply bind_ok in H as (m2 & Hc & H). injection H as <- <-. unfold mesh_view in *. cbn [hp_seg hp_pm mesh_copy ob_edges ob_pm ob_points ob_polys] in *.
    apply bind_ok in HV as (e & He & HV). apply bind_ok in HV as (p & Hp & HV). injection HV as <-.
    apply bind_ok in HV' as (e' & He' & HV'). rewrite Hp in HV'. cbn [bind] in HV'. injection HV' as <-.
    rewrite He', Hp. cbn [bind ms_edges ms_points ms_polygons ms_pointMap]. split; [reflexivity|].
    apply vgetn_iff in He, He'. rewrite upd_nth_get, Nat.eqb_refl, He in He'. cbn in He'. injection He' as <-.
    unfold createFromStream in Hc |- *. destruct (getline _ _) as [st1 l1]. apply bind_ok in Hc as (n & Hn & Hc). rewrite Hn. cbn [bind].
    apply bind_ok in Hc as ([[ps st2] l2] & H2 & Hc). rewrite H2. cbn [bind].
    destruct (getline st2 l2) as [st3 l3]. apply bind_ok in Hc as (k & Hk & Hc). rewrite Hk. cbn [bind].
    apply bind_ok in Hc as ([[polys em] s] & Hr & Hc). rewrite Hr. cbn [bind]. injection Hc as <-. reflexivity.
  Qed.
End Sharing.
