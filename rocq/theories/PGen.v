(** Proofs: point generators (C45, C46, C47). *)
From Coq Require Import Reals Lra Psatz Floats.SpecFloat.
From Verif Require Import Base Spec MUtil MGeom MGen Bridge PUtil PSegment PPoly.
Local Open Scope R_scope.

(** * C46 *)
Lemma displace_from (N : Num) (d : nT N) : forall xs alt, exists f ys,
  apply_all (FDisplace d alt) xs = Ok (f, ys) /\ length ys = length xs /\
  forall k x, nth_error xs k = Some x ->
    nth_error ys k = Some (if xorb alt (Nat.even k) then nadd x (ndiv d (nZ 2)) else x).
Proof.
  induction xs as [|x xs IH]; intros alt.
  - eexists _, []. split; [reflexivity|]. split; [reflexivity|]. intros [|k] ?; discriminate.
  - destruct (IH (negb alt)) as (f & ys & E & L & H). cbn [apply_all apply bind]. rewrite E. cbn [bind].
    eexists f, _. split; [reflexivity|]. split; [cbn; lia|]. intros [|k] x'; cbn [nth_error].
    + intros [= <-]. rewrite xorb_true_r. reflexivity.
    + intros Hk. rewrite (H _ _ Hk). rewrite Nat.even_succ, <- Nat.negb_even.
      destruct alt, (Nat.even k); reflexivity.
Qed.
Lemma displace_alternates : forall (N : Num) (d : nT N) (xs : list (nT N)), exists f ys,
  apply_all (f_displace_points d) xs = Ok (f, ys) /\ length ys = length xs /\
  forall k x, nth_error xs k = Some x ->
    nth_error ys k = Some (if Nat.even k then nadd x (ndiv d (nZ 2)) else x).
Proof.
  intros N d xs. destruct (displace_from N d xs false) as (f & ys & E & L & H).
  exists f, ys. split; [exact E|]. split; [exact L|]. intros k x Hk. rewrite (H k x Hk), xorb_false_l. reflexivity.
Qed.

(** * C47 *)
Lemma Rltb_swo : strict_weak_order_on (fun _ : R => True) Rltb.
Proof.
  constructor.
  - intros a _. apply Rltb_false. lra.
  - intros a b c _ _ _ H1 H2. apply Rltb_iff in H1, H2. apply Rltb_true. lra.
  - intros a b c _ _ _ [H1 H2] [H3 H4].
    destruct (Rltb_spec a b), (Rltb_spec b a), (Rltb_spec b c), (Rltb_spec c b); try discriminate.
    split; apply Rltb_false; lra.
Qed.
Lemma Rincomparable a b : incomparable Rltb a b <-> a = b.
Proof.
  unfold incomparable. split.
  - intros [H1 H2]. destruct (Rltb_spec a b), (Rltb_spec b a); try discriminate. lra.
  - intros ->. split; apply Rltb_false; lra.
Qed.

Section Alternating.
  Variable xs : list R.
  Hypothesis HN : NoDup xs.
  Hypothesis Hlen : (2 <= length xs)%nat.
  Let n := length xs.
  Let s (m : nat) : R := nth (m mod n) xs 0.
  Let inv_ := ul_inv (fun _ : R => True) Rltb.

  Lemma s_inj i j : (i <= j)%nat -> (j < i + n)%nat -> s i = s j -> i = j.
  Proof using HN Hlen.
    intros H1 H2 E. unfold s in E. assert (Hn : n <> 0%nat) by (unfold n; lia).
    assert (M : (i mod n = j mod n)%nat).
    { apply (proj1 (NoDup_nth xs 0) HN); try (apply Nat.mod_upper_bound; exact Hn). exact E. }
    pose proof (Nat.div_mod i n Hn). pose proof (Nat.div_mod j n Hn). rewrite M in H.
    assert (j - i = n * (j / n) - n * (i / n))%nat by lia.
    assert (j / n = i / n)%nat; [|nia]. nia.
  Qed.
  Lemma s_period i : s (i + n) = s i.
  Proof using Hlen.
    unfold s. replace (i + n)%nat with (i + 1 * n)%nat by lia. rewrite Nat.mod_add by (unfold n; lia). reflexivity.
  Qed.

  Lemma divmod k o : (o <= n)%nat -> ((k * (n + 1) + o) / (n + 1) = k)%nat.
  Proof. intros H. rewrite Nat.add_comm, Nat.div_add by lia. rewrite Nat.div_small by lia. reflexivity. Qed.

  Definition alt_out (m : nat) : R :=
    let b := ((m - 1) / (n + 1) * (n + 1))%nat in
    if Nat.odd ((m + 1) / (n + 1)) then s m + Rabs (s b - s (b + 1)) / 2 else s m.

  Definition alt_state (k o : nat) (f : functor RNum) : Prop :=
    exists (v : ulist R) (d : option R), f = FAlternating (N := RNum) v d (Nat.odd k) /\ inv_ v /\ ul_list v = map s (seq (k * (n + 1)) o) /\
      (let m := (k * (n + 1) + o)%nat in (2 <= m)%nat ->
        let b := ((m - 2) / (n + 1) * (n + 1))%nat in d = Some (Rabs (s b - s (b + 1)))).

  Lemma alt_step k o f : (o <= n)%nat -> alt_state k o f ->
    exists f', apply (N := RNum) f (s (k * (n + 1) + o)) = Ok (f', alt_out (k * (n + 1) + o)) /\
      (if (o <? n)%nat then alt_state k (S o) f' else alt_state (S k) 0 f').
  Proof using HN Hlen.
    intros Ho (v & d & -> & Iv & Lv & Hd). set (m := (k * (n + 1) + o)%nat) in *. set (b := (k * (n + 1))%nat) in *.
    assert (Hn2 : (2 <= n)%nat) by exact Hlen.
    cbn [apply]. unfold alternating_apply. rnum. change (nT RNum) with R.
    assert (Lsize : ul_size v = Z.of_nat o) by (unfold ul_size, zlen; rewrite Lv, map_length, seq_length; reflexivity).
    (* the value of delta after its update *)
    assert (D1 : exists d1, (if (ul_size v =? 1)%Z then v0 <- ul_get v 0 ;; Ok (Some (Rabs (v0 - s m))) else Ok d) = Ok d1 /\
       ((1 <= m)%nat -> let b' := ((m - 1) / (n + 1) * (n + 1))%nat in d1 = Some (Rabs (s b' - s (b' + 1))))).
    { rewrite Lsize. destruct (Z.eqb_spec (Z.of_nat o) 1) as [E|E].
      - assert (o = 1)%nat by lia. subst o. unfold ul_get. rewrite Lv. cbn [seq map]. unfold vget, vgetn. cbn.
        eexists. split; [reflexivity|]. intros _. replace (m - 1)%nat with (k * (n + 1) + 0)%nat by (unfold m; lia).
        rewrite divmod by lia. fold b. unfold m. fold b. reflexivity.
      - exists d. split; [reflexivity|]. intros Hm. cbv zeta.
        destruct (Nat.eq_dec m 1) as [E1|E1]. { exfalso. unfold m, b in E1. destruct k; [lia|nia]. }
        cbv zeta in Hd. rewrite Hd by lia. replace ((m - 2) / (n + 1))%nat with ((m - 1) / (n + 1))%nat; [reflexivity|].
        destruct o as [|[|o]]; [|lia|].
        + destruct k as [|k]; [unfold m, b in Hm; lia|].
          replace (m - 1)%nat with (k * (n + 1) + n)%nat by (unfold m, b; lia).
          replace (m - 2)%nat with (k * (n + 1) + (n - 1))%nat by (unfold m, b; lia). rewrite !divmod by lia. reflexivity.
        + replace (m - 1)%nat with (k * (n + 1) + S o)%nat by (unfold m, b; lia).
          replace (m - 2)%nat with (k * (n + 1) + o)%nat by (unfold m, b; lia). rewrite !divmod by lia. reflexivity. }
    destruct D1 as (d1 & -> & Hd1). cbn [bind].
    destruct (ul_push_back Rltb v (s m)) as [v1 idx] eqn:EP.
    destruct (ul_push_back_spec (fun _ => True) Rltb Rltb_swo v (s m) v1 idx Iv I EP) as [Iv1 HPB].
    change (nT RNum) with R in *.
    assert (Hmem : set_mem (equivb Rltb) (s m) (ul_list v) = true <-> exists i, (b <= i < m)%nat /\ s i = s m).
    { rewrite (set_mem_iff Rltb (s m) (ul_list v)). rewrite Lv. split.
      - intros (y & Hy & Hc). apply in_map_iff in Hy as (i & <- & Hi). apply in_seq in Hi. exists i. split; [unfold m; lia|].
        apply Rincomparable. exact Hc.
      - intros (i & Hi & Ei). exists (s i). split; [apply in_map; apply in_seq; unfold m in Hi; lia|]. apply Rincomparable. exact Ei. }
    destruct (Nat.ltb_spec o n) as [Hlt|Hge].
    - (* a new value *)
      destruct (set_mem (equivb Rltb) (s m) (ul_list v)) eqn:EM.
      { exfalso. destruct (proj1 Hmem eq_refl) as (i & Hi & Ei). apply s_inj in Ei; [lia| |]; unfold m in *; lia. }
      destruct HPB as [L1 ->].
      assert (E1 : (zlen (ul_list v) <? ul_size v1 - 1)%Z = false).
      { apply Z.ltb_ge. unfold ul_size. rewrite L1. unfold zlen. rewrite app_length. cbn. lia. }
      change (nT RNum) with R. rewrite E1.
      assert (Hodd : Nat.odd ((m + 1) / (n + 1)) = Nat.odd k).
      { replace (m + 1)%nat with (k * (n + 1) + (o + 1))%nat by (unfold m, b; lia). rewrite divmod by lia. reflexivity. }
      assert (HS : forall f', f' = FAlternating (N := RNum) v1 d1 (Nat.odd k) -> alt_state k (S o) f').
      { intros f' ->. exists v1, d1. split; [reflexivity|]. split; [exact Iv1|]. split.
        - rewrite L1, Lv. rewrite seq_S, map_app. reflexivity.
        - cbv zeta. intros Hm2. replace (k * (n + 1) + S o - 2)%nat with (m - 1)%nat by (unfold m, b; lia). apply Hd1.
          unfold m, b; lia. }
      unfold alt_out. rewrite Hodd. destruct (Nat.odd k) eqn:EO.
      + rewrite Hd1. 2:{ destruct k; [discriminate|unfold m, b; lia]. }
        eexists. split; [reflexivity|]. apply HS. rewrite Hd1; [reflexivity|]. destruct k; [discriminate|unfold m, b; lia].
      + eexists. split; [reflexivity|]. apply HS. reflexivity.
    - (* the first value of the block again *)
      assert (o = n)%nat by lia. subst o.
      destruct (set_mem (equivb Rltb) (s m) (ul_list v)) eqn:EM.
      2:{ exfalso. assert (false = true); [|discriminate]. apply Hmem. exists b. split; [unfold m; lia|]. unfold m. rewrite s_period. reflexivity. }
      destruct HPB as [-> (y & Hi0 & Hy & Hc)]. apply Rincomparable in Hc.
      assert (Hidx : idx = 0%Z).
      { rewrite Lv in Hy. assert (HI : (Z.to_nat idx < n)%nat).
        { rewrite <- (seq_length n b), <- (map_length s). apply nth_error_Some. congruence. }
        apply nth_error_nth with (d := s 0%nat) in Hy. rewrite map_nth, seq_nth in Hy by exact HI.
        subst y. unfold m in Hc. rewrite s_period in Hc. apply eq_sym in Hc. apply s_inj in Hc; lia. }
      subst idx. assert (E1 : (0 <? ul_size v - 1)%Z = true) by (apply Z.ltb_lt; rewrite Lsize; lia).
      change (nT RNum) with R. rewrite E1.
      assert (Hodd : Nat.odd ((m + 1) / (n + 1)) = negb (Nat.odd k)).
      { replace (m + 1)%nat with (S k * (n + 1) + 0)%nat by (unfold m, b; lia). rewrite divmod by lia. rewrite Nat.odd_succ, Nat.negb_odd. reflexivity. }
      assert (HS : forall f', f' = FAlternating (N := RNum) (ul_clear v) d1 (negb (Nat.odd k)) -> alt_state (S k) 0 f').
      { intros f' ->. exists ul_empty, d1. rewrite Nat.odd_succ, <- Nat.negb_odd. split; [reflexivity|].
        split; [apply ul_inv_empty|]. split; [reflexivity|].
        cbv zeta. intros _. replace (S k * (n + 1) + 0 - 2)%nat with (m - 1)%nat by (unfold m, b; lia). apply Hd1. unfold m, b; lia. }
      unfold alt_out. rewrite Hodd. destruct (negb (Nat.odd k)) eqn:EO.
      + rewrite Hd1 by (unfold m, b; lia). eexists. split; [reflexivity|]. apply HS. rewrite Hd1 by (unfold m, b; lia). reflexivity.
      + eexists. split; [reflexivity|]. apply HS. reflexivity.
  Qed.

  Lemma alt_run : forall M k o f, (o <= n)%nat -> alt_state k o f ->
    exists f', apply_all (N := RNum) f (map s (seq (k * (n + 1) + o) M)) = Ok (f', map alt_out (seq (k * (n + 1) + o) M)).
  Proof using HN Hlen.
    induction M as [|M IH]; intros k o f Ho HS; [exists f; reflexivity|].
    cbn [seq map apply_all]. destruct (alt_step k o f Ho HS) as (f1 & E & HS1). rewrite E. cbn [bind].
    destruct (Nat.ltb_spec o n) as [Hlt|Hge].
    - destruct (IH k (S o) f1 ltac:(lia) HS1) as [f2 E2]. replace (k * (n + 1) + S o)%nat with (S (k * (n + 1) + o)) in E2 by lia.
      rewrite E2. cbn [bind]. exists f2. reflexivity.
    - destruct (IH (S k) 0%nat f1 ltac:(lia) HS1) as [f2 E2]. replace (S k * (n + 1) + 0)%nat with (S (k * (n + 1) + o)) in E2 by lia.
      rewrite E2. cbn [bind]. exists f2. reflexivity.
  Qed.

  Lemma rows_stream R_ : concat (repeat xs R_) = map s (seq 0 (R_ * n)).
  Proof using Hlen.
    assert (X : forall a, map s (seq (a * n) n) = xs).
    { intros a. apply nth_ext with (d := s 0) (d' := 0); [rewrite map_length, seq_length; reflexivity|].
      intros i Hi. rewrite map_length, seq_length in Hi. rewrite map_nth, seq_nth by exact Hi. unfold s.
      rewrite Nat.add_comm, Nat.mod_add by lia. rewrite Nat.mod_small by exact Hi. reflexivity. }
    assert (G : forall a, concat (repeat xs R_) = map s (seq (a * n) (R_ * n))); [|apply (G 0%nat)].
    induction R_ as [|r IH]; intros a; [reflexivity|]. cbn [repeat concat Nat.mul]. rewrite seq_app, map_app, X. f_equal.
    replace (a * n + n)%nat with (S a * n)%nat by lia. apply IH.
  Qed.
End Alternating.

Lemma constantAlternating_law : forall (xs : list R), NoDup xs -> (2 <= length xs)%nat ->
  forall rows : nat, let n := length xs in let s m := nth (m mod n) xs 0 in
  exists f ys, apply_all (N := RNum) f_constantAlternating (concat (repeat xs rows)) = Ok (f, ys) /\ length ys = (rows * n)%nat /\
    forall m, (m < rows * n)%nat ->
      nth_error ys m = Some (if Nat.odd ((m + 1) / (n + 1))
                             then let b := ((m - 1) / (n + 1) * (n + 1))%nat in s m + Rabs (s b - s (b + 1)%nat) / 2
                             else s m).
Proof.
  intros xs HN Hlen rows n s. rewrite (rows_stream xs Hlen).
  destruct (alt_run xs HN Hlen (rows * length xs) 0 0 f_constantAlternating ltac:(lia)) as [f E].
  { exists ul_empty, None. split; [reflexivity|]. split; [apply ul_inv_empty|]. split; [reflexivity|]. cbn. lia. }
  cbn [Nat.mul Nat.add] in E. rewrite E. eexists f, _. split; [reflexivity|].
  split; [rewrite map_length, seq_length; reflexivity|]. intros m Hm.
  rewrite (nth_error_nth' _ (alt_out xs 0)) by (rewrite map_length, seq_length; exact Hm).
  rewrite map_nth, seq_nth by exact Hm. reflexivity.
Qed.

Lemma constantAlternating_rows : forall (x0 x1 : R) (rest : list R), NoDup (x0 :: x1 :: rest) ->
  let xs := x0 :: x1 :: rest in
  exists f ys b2 z0 z1 b3, apply_all (N := RNum) f_constantAlternating (xs ++ xs ++ xs) = Ok (f, ys) /\
    ys = xs ++ b2 ++ z0 :: z1 :: b3 /\ length b2 = length xs /\
    (forall j, (j < 2)%nat -> nth j b2 0 = nth j xs 0 + Rabs (x0 - x1) / 2) /\
    (forall j, (2 <= j < length xs)%nat -> nth j b2 0 = nth j xs 0 + Rabs (x1 - nth 2 xs 0) / 2) /\
    x0 < z0 /\ z1 = x1.
Proof.
  intros x0 x1 rest HN xs. set (n := length xs). assert (Hn : (2 <= n)%nat) by (unfold n, xs; cbn; lia).
  destruct (constantAlternating_law xs HN Hn 3) as (f & ys & E & L & H0). fold n in L.
  set (s := fun m => nth (m mod n) xs 0) in *.
  assert (H : forall m, (m < 3 * n)%nat -> nth_error ys m = Some (if Nat.odd ((m + 1) / (n + 1))
     then s m + Rabs (s ((m - 1) / (n + 1) * (n + 1))%nat - s ((m - 1) / (n + 1) * (n + 1) + 1)%nat) / 2 else s m)) by exact H0.
  clear H0.
  cbn [repeat concat] in E. rewrite app_nil_r in E.
  set (d1 := Rabs (x0 - x1) / 2). set (d2 := Rabs (x1 - nth 2 xs 0) / 2).
  assert (DM : forall k o, (o <= n)%nat -> ((k * (n + 1) + o) / (n + 1) = k)%nat).
  { intros k o Ho. rewrite Nat.add_comm, Nat.div_add by lia. rewrite Nat.div_small by lia. reflexivity. }
  assert (S1 : forall j, (j < n)%nat -> s j = nth j xs 0) by (intros j Hj; unfold s; rewrite Nat.mod_small by exact Hj; reflexivity).
  assert (S2 : forall j, (j < n)%nat -> s (n + j)%nat = nth j xs 0).
  { intros j Hj; unfold s. replace (n + j)%nat with (j + 1 * n)%nat by lia. rewrite Nat.mod_add, Nat.mod_small by lia. reflexivity. }
  assert (S3 : forall j, (j < n)%nat -> s (n + n + j)%nat = nth j xs 0).
  { intros j Hj; unfold s. replace (n + n + j)%nat with (j + 2 * n)%nat by lia. rewrite Nat.mod_add, Nat.mod_small by lia. reflexivity. }
  (* the three rows *)
  assert (R1 : forall m, (m < n)%nat -> nth_error ys m = Some (nth m xs 0)).
  { intros m Hm. rewrite H by lia. rewrite Nat.div_small by lia. cbn [Nat.odd Nat.even negb]. rewrite S1 by exact Hm. reflexivity. }
  assert (R2 : forall j, (j < n)%nat -> nth_error ys (n + j) = Some (nth j xs 0 + (if (j <? 2)%nat then d1 else d2))).
  { intros j Hj. rewrite H by lia. replace (n + j + 1)%nat with (1 * (n + 1) + j)%nat by lia. rewrite DM by lia. cbn [Nat.odd Nat.even negb].
    rewrite S2 by exact Hj. destruct (Nat.ltb_spec j 2) as [Hj2|Hj2].
    - replace (n + j - 1)%nat with (0 * (n + 1) + (n + j - 1))%nat by lia. rewrite DM by lia. cbn [Nat.mul Nat.add].
      rewrite (S1 0%nat), (S1 1%nat) by lia. reflexivity.
    - replace (n + j - 1)%nat with (1 * (n + 1) + (j - 2))%nat by lia. rewrite DM by lia.
      replace (1 * (n + 1))%nat with (n + 1)%nat by lia. rewrite (S2 1%nat) by lia. replace (n + 1 + 1)%nat with (n + 2)%nat by lia. rewrite S2 by lia. reflexivity. }
  assert (R30 : exists z0, nth_error ys (n + n) = Some z0 /\ x0 < z0).
  { rewrite H by lia. replace (n + n + 1)%nat with (1 * (n + 1) + n)%nat by lia. rewrite DM by lia. cbn [Nat.odd Nat.even negb].
    eexists. split; [reflexivity|]. replace (n + n)%nat with (n + n + 0)%nat at 1 by lia. rewrite S3 by lia. cbn [nth xs].
    match goal with |- _ < _ + Rabs (?a - ?b) / 2 => assert (a <> b) as Hab end.
    { replace (n + n - 1)%nat with (1 * (n + 1) + (n - 2))%nat by lia. rewrite DM by lia.
      replace (1 * (n + 1))%nat with (n + 1)%nat by lia. rewrite S2 by lia.
      destruct (Nat.eq_dec n 2) as [E2|E2].
      - replace (n + 1 + 1)%nat with (n + n + 0)%nat by lia. rewrite S3 by lia. cbn. intros E'. subst x1.
        apply NoDup_cons_iff in HN as [HN _]. apply HN. left. reflexivity.
      - replace (n + 1 + 1)%nat with (n + 2)%nat by lia. rewrite S2 by lia. intros E'.
        apply (proj1 (NoDup_nth xs 0) HN) in E'; fold n; lia. }
    apply Rminus_eq_contra in Hab. apply Rabs_pos_lt in Hab. lra. }
  destruct R30 as (z0 & Z0 & Hz0).
  assert (R31 : nth_error ys (n + n + 1) = Some x1).
  { rewrite H by lia. replace (n + n + 1 + 1)%nat with (2 * (n + 1) + 0)%nat by lia. rewrite DM by lia. cbn [Nat.odd Nat.even negb].
    rewrite S3 by lia. reflexivity. }
  exists f, ys, (map (fun j => nth j xs 0 + (if (j <? 2)%nat then d1 else d2)) (seq 0 n)), z0, x1, (skipn (n + n + 2) ys).
  split; [exact E|]. split; [|split; [|split; [|split; [|split; [exact Hz0|reflexivity]]]]].
  - apply nth_error_ext. intros i.
    assert (Lx : length xs = n) by reflexivity. assert (Lm : length (map (fun j => nth j xs 0 + (if (j <? 2)%nat then d1 else d2)) (seq 0 n)) = n) by (rewrite map_length, seq_length; reflexivity).
    destruct (Nat.lt_ge_cases i n) as [Hi|Hi].
    { rewrite nth_error_app1 by (rewrite Lx; exact Hi). rewrite R1 by exact Hi. symmetry. apply nth_error_nth'. exact Hi. }
    rewrite nth_error_app2 by (rewrite Lx; exact Hi). rewrite Lx.
    destruct (Nat.lt_ge_cases i (n + n)) as [Hi2|Hi2].
    { rewrite nth_error_app1 by (rewrite Lm; lia).
      replace i with (n + (i - n))%nat at 1 by lia. rewrite R2 by lia.
      rewrite (nth_error_nth' _ (nth 0 xs 0 + (if (0 <? 2)%nat then d1 else d2))) by (rewrite Lm; lia).
      rewrite (map_nth (fun j => nth j xs 0 + (if (j <? 2)%nat then d1 else d2)) (seq 0 n) 0%nat), seq_nth by lia. reflexivity. }
    rewrite nth_error_app2 by (rewrite Lm; lia). rewrite Lm.
    destruct (Nat.eq_dec i (n + n)) as [->|Hi3]; [replace (n + n - n - n)%nat with 0%nat by lia; exact Z0|].
    destruct (Nat.eq_dec i (n + n + 1)) as [->|Hi4]; [replace (n + n + 1 - n - n)%nat with 1%nat by lia; exact R31|].
    replace (i - n - n)%nat with (S (S (i - (n + n + 2)))) by lia. cbn [nth_error].
    rewrite <- (firstn_skipn (n + n + 2) ys) at 1. rewrite nth_error_app2 by (rewrite firstn_length; lia).
    rewrite firstn_length, Nat.min_l by lia. reflexivity.
  - rewrite map_length, seq_length. reflexivity.
  - intros j Hj. rewrite (nth_indep _ 0 ((fun j => nth j xs 0 + (if (j <? 2)%nat then d1 else d2)) 0%nat)) by (rewrite map_length, seq_length; lia).
    rewrite (map_nth (fun j => nth j xs 0 + (if (j <? 2)%nat then d1 else d2)) (seq 0 n) 0%nat), seq_nth by lia. cbn [Nat.add]. replace (j <? 2)%nat with true by (symmetry; apply Nat.ltb_lt; lia). reflexivity.
  - intros j Hj. fold n in Hj. rewrite (nth_indep _ 0 ((fun j => nth j xs 0 + (if (j <? 2)%nat then d1 else d2)) 0%nat)) by (rewrite map_length, seq_length; lia).
    rewrite (map_nth (fun j => nth j xs 0 + (if (j <? 2)%nat then d1 else d2)) (seq 0 n) 0%nat), seq_nth by lia. cbn [Nat.add]. replace (j <? 2)%nat with false by (symmetry; apply Nat.ltb_ge; lia). reflexivity.
Qed.

(** * C45 *)
Section Generate.
  Context {N : Num}.

  Lemma fold_trace {G A Q} (step : G -> A -> res (G * Q)) : forall l (g : G) (pts : list Q) g' pts',
    foldM (fun (st : G * list Q) a => '(g1, q) <- step (fst st) a ;; Ok (g1, snd st ++ [q])) l (g, pts) = Ok (g', pts') ->
    exists (gs : nat -> G) qs, gs 0%nat = g /\ gs (length l) = g' /\ pts' = pts ++ qs /\ length qs = length l /\
      forall k a, nth_error l k = Some a -> exists q, nth_error qs k = Some q /\ step (gs k) a = Ok (gs (S k), q).
  Proof.
    induction l as [|a l IH]; intros g pts g' pts' H; cbn in H.
    - injection H as <- <-. exists (fun _ => g), []. rewrite app_nil_r. repeat split. intros [|k] a; discriminate.
    - apply bind_ok in H as ([g1 pts1] & E & H). apply bind_ok in E as ([g2 q] & E & E2). injection E2 as <- <-.
      destruct (IH _ _ _ _ H) as (gs & qs & G0 & G1 & -> & L & T).
      exists (fun k => match k with O => g | S k => gs k end), (q :: qs).
      split; [reflexivity|]. split; [exact G1|]. split; [rewrite <- app_assoc; reflexivity|]. split; [cbn; lia|].
      intros [|k] x; cbn [nth_error]; [|apply T]. intros [= <-]. exists q. split; [reflexivity|]. rewrite G0. exact E.
  Qed.

  Lemma grid_indices_length nX nY : length (grid_indices nX nY) = (Z.to_nat nY * Z.to_nat nX)%nat.
  Proof.
    unfold grid_indices. assert (G : forall l : list nat, length (flat_map (fun i => map (fun j => (Z.of_nat i, Z.of_nat j)) (seq 0 (Z.to_nat nX))) l) = (length l * Z.to_nat nX)%nat).
    { induction l as [|i l IH]; [reflexivity|]. cbn [flat_map length]. rewrite app_length, map_length, seq_length, IH. reflexivity. }
    rewrite G, seq_length. reflexivity.
  Qed.
  Lemma grid_indices_nth nX nY i j : (i < Z.to_nat nY)%nat -> (j < Z.to_nat nX)%nat ->
    nth_error (grid_indices nX nY) (i * Z.to_nat nX + j) = Some (Z.of_nat i, Z.of_nat j).
  Proof.
    unfold grid_indices. intros Hi Hj. set (w := Z.to_nat nX) in *.
    assert (G : forall l a i0, (a < length l)%nat -> nth a l 0%nat = i0 ->
      nth_error (flat_map (fun i => map (fun j => (Z.of_nat i, Z.of_nat j)) (seq 0 w)) l) (a * w + j) = Some (Z.of_nat i0, Z.of_nat j)).
    { induction l as [|x l IH]; intros a i0 Ha Hn; [cbn in Ha; lia|]. cbn [flat_map]. destruct a as [|a].
      - cbn in Hn. subst x. cbn [Nat.mul Nat.add]. rewrite nth_error_app1 by (rewrite map_length, seq_length; exact Hj).
        rewrite (nth_error_nth' _ (Z.of_nat i0, Z.of_nat 0)) by (rewrite map_length, seq_length; exact Hj).
        rewrite (map_nth (fun j => (Z.of_nat i0, Z.of_nat j))), seq_nth by exact Hj. reflexivity.
      - rewrite nth_error_app2 by (rewrite map_length, seq_length; cbn; lia). rewrite map_length, seq_length.
        replace (S a * w + j - w)%nat with (a * w + j)%nat by (cbn; lia). apply IH; cbn in Ha, Hn; [lia|exact Hn]. }
    apply G; [rewrite seq_length; exact Hi|apply seq_nth; exact Hi].
  Qed.

  Lemma generate_grid : forall (g g' : generator N) pts pts' box nX nY,
    generate g pts box nX nY = Ok (g', pts') ->
    exists (gs : nat -> generator N) qs, pts' = pts ++ qs /\ gs 0%nat = g /\ gs (length qs) = g' /\
      length qs = (Z.to_nat nX * Z.to_nat nY)%nat /\
      forall i j, (i < Z.to_nat nY)%nat -> (j < Z.to_nat nX)%nat ->
        let k := (i * Z.to_nat nX + j)%nat in
        exists q, nth_error qs k = Some q /\
          result (gs k) (nadd (bb_xMin box) (nmul (nZ (Z.of_nat j)) (ndiv (bb_width box) (nZ (nX - 1)))))
                        (nadd (bb_yMin box) (nmul (nZ (Z.of_nat i)) (ndiv (bb_height box) (nZ (nY - 1))))) = Ok (gs (S k), q).
  Proof.
    intros g g' pts pts' box nX nY H. unfold generate in H.
    set (step := fun (g : generator N) (ij : Z * Z) => dX <- divr (bb_width box) (nZ (nX - 1)) ;; dY <- divr (bb_height box) (nZ (nY - 1)) ;;
      result g (nadd (bb_xMin box) (nmul (nZ (snd ij)) dX)) (nadd (bb_yMin box) (nmul (nZ (fst ij)) dY))).
    rewrite (foldM_ext _ (fun (st : generator N * list (Point N)) a => '(g1, q) <- step (fst st) a ;; Ok (g1, snd st ++ [q]))) in H.
    2:{ intros st ij _. unfold step. destruct (divr (bb_width box) _) as [dX|]; [|reflexivity]. cbn [bind].
        destruct (divr (bb_height box) _) as [dY|]; [|reflexivity]. cbn [bind]. reflexivity. }
    destruct (fold_trace step _ _ _ _ _ H) as (gs & qs & G0 & G1 & -> & L & T).
    exists gs, qs. split; [reflexivity|]. split; [exact G0|]. split; [rewrite L; exact G1|].
    split; [rewrite L, grid_indices_length; lia|]. intros i j Hi Hj k.
    destruct (T k _ (grid_indices_nth nX nY i j Hi Hj)) as (q & Hq & Hs). exists q. split; [exact Hq|].
    unfold step in Hs. apply bind_ok in Hs as (dX & EX & Hs). apply bind_ok in Hs as (dY & EY & Hs).
    unfold divr in EX, EY. destruct (neqb (nZ (nX - 1)) (nZ 0)); [discriminate|]. destruct (neqb (nZ (nY - 1)) (nZ 0)); [discriminate|].
    injection EX as <-. injection EY as <-. exact Hs.
  Qed.

  Lemma generate_empty : forall (g : generator N) pts box nX nY, (nX <= 0 \/ nY <= 0)%Z -> generate g pts box nX nY = Ok (g, pts).
  Proof.
    intros g pts box nX nY H. unfold generate. assert (E : grid_indices nX nY = []); [|rewrite E; reflexivity].
    apply length_zero_iff_nil. rewrite grid_indices_length. destruct H as [H|H].
    - replace (Z.to_nat nX) with 0%nat by lia. lia.
    - replace (Z.to_nat nY) with 0%nat by lia. lia.
  Qed.
End Generate.

(** with the constant rule on both axes the points are the nodes of the grid *)
Lemma generate_constant : forall (pts : list (Point RNum)) (box : bbox RNum) nX nY, (2 <= nX)%Z -> (2 <= nY)%Z ->
  let g := GBoth (N := RNum) f_constant f_constant in
  exists qs, generate g pts box nX nY = Ok (g, pts ++ qs) /\ length qs = (Z.to_nat nX * Z.to_nat nY)%nat /\
    (forall i j, (i < Z.to_nat nY)%nat -> (j < Z.to_nat nX)%nat -> exists q, nth_error qs (i * Z.to_nat nX + j) = Some q /\
       xy q = (bb_xMin box + INR j * ((bb_xMax box - bb_xMin box) / IZR (nX - 1)),
               bb_yMin box + INR i * ((bb_yMax box - bb_yMin box) / IZR (nY - 1)))) /\
    (forall q, In q qs -> bb_xMin box <= px q <= bb_xMax box /\ bb_yMin box <= py q <= bb_yMax box) /\
    (forall x y, (x = bb_xMin box \/ x = bb_xMax box) -> (y = bb_yMin box \/ y = bb_yMax box) -> exists q, In q qs /\ xy q = (x, y)).
Proof.
  intros pts box nX nY HX HY g.
  assert (X0 : IZR (nX - 1) <> 0) by (apply not_0_IZR; lia). assert (Y0 : IZR (nY - 1) <> 0) by (apply not_0_IZR; lia).
  assert (W : bb_width box = bb_xMax box - bb_xMin box /\ bb_height box = bb_yMax box - bb_yMin box /\
     bb_xMin box <= bb_xMax box /\ bb_yMin box <= bb_yMax box).
  { destruct (bbox_normalised box) as (V1 & V2 & V3 & V4 & V5 & V6 & V7 & V8 & _). rewrite V5, V6, V7, V8. lra. }
  destruct W as (W1 & W2 & W3 & W4).
  assert (HE : exists pts', generate (N := RNum) g pts box nX nY = Ok (g, pts')).
  { unfold generate, g. unfold divr. rnum. rewrite !Reqb_false by assumption. cbn [bind].
    generalize (grid_indices nX nY). intros l. revert pts. induction l as [|ij l IH]; intros pts; [eexists; reflexivity|].
    cbn [foldM fst snd result apply f_constant bind]. apply IH. }
  destruct HE as [pts' HE].
  destruct (generate_grid _ _ _ _ _ _ _ HE) as (gs & qs & -> & G0 & G1 & L & T).
  exists qs. split; [exact HE|]. split; [exact L|].
  assert (GG : forall k, (k <= length qs)%nat -> gs k = g).
  { induction k as [|k IH]; intros Hk; [exact G0|].
    assert (Hw : (0 < Z.to_nat nX)%nat) by lia.
    assert (Hd : (k = k / Z.to_nat nX * Z.to_nat nX + k mod Z.to_nat nX)%nat) by (rewrite Nat.mul_comm; apply Nat.div_mod; lia).
    destruct (T (k / Z.to_nat nX)%nat (k mod Z.to_nat nX)%nat) as (q & _ & E).
    - apply Nat.div_lt_upper_bound; lia.
    - apply Nat.mod_upper_bound; lia.
    - rewrite <- Hd in E. rewrite IH in E by lia. unfold g in E at 1. cbn in E. injection E as E _. symmetry. exact E. }
  assert (TT : forall i j, (i < Z.to_nat nY)%nat -> (j < Z.to_nat nX)%nat -> exists q, nth_error qs (i * Z.to_nat nX + j) = Some q /\
       xy q = (bb_xMin box + INR j * ((bb_xMax box - bb_xMin box) / IZR (nX - 1)),
               bb_yMin box + INR i * ((bb_yMax box - bb_yMin box) / IZR (nY - 1)))).
  { intros i j Hi Hj. destruct (T i j Hi Hj) as (q & Hq & E). exists q. split; [exact Hq|].
    rewrite GG in E by nia. unfold g in E at 1. cbn [result apply f_constant bind] in E. injection E as _ <-.
    unfold xy; cbn [px py mkP]. rnum. rewrite <- !INR_IZR_INZ. match type of W1 with ?l = ?r => change (Rabs (px (bb1 box) - px (bb2 box)) = r) in W1 end.
    match type of W2 with ?l = ?r => change (Rabs (py (bb1 box) - py (bb2 box)) = r) in W2 end. rewrite W1, W2. f_equal; ring. }
  split; [exact TT|]. split.
  - intros q Hq. apply In_nth_error in Hq as [k Hk]. assert (Hkl : (k < length qs)%nat) by (apply nth_error_Some; congruence).
    assert (Hd : (k = k / Z.to_nat nX * Z.to_nat nX + k mod Z.to_nat nX)%nat) by (rewrite Nat.mul_comm; apply Nat.div_mod; lia).
    assert (Hi : (k / Z.to_nat nX < Z.to_nat nY)%nat) by (apply Nat.div_lt_upper_bound; lia).
    assert (Hj : (k mod Z.to_nat nX < Z.to_nat nX)%nat) by (apply Nat.mod_upper_bound; lia).
    destruct (TT _ _ Hi Hj) as (q' & Hq' & E). rewrite <- Hd, Hk in Hq'. injection Hq' as <-. unfold xy in E. injection E as -> ->.
    assert (B : forall lo hi (j : nat) m, lo <= hi -> (2 <= m)%Z -> (j < Z.to_nat m)%nat -> lo <= lo + INR j * ((hi - lo) / IZR (m - 1)) <= hi).
    { intros lo hi j m Hlh Hm Hjm. assert (0 < IZR (m - 1)) by (apply IZR_lt; lia).
      assert (INR j <= IZR (m - 1)) by (rewrite INR_IZR_INZ; apply IZR_le; lia). pose proof (pos_INR j).
      assert (0 <= (hi - lo) / IZR (m - 1)) by (apply Rmult_le_pos; [lra|left; apply Rinv_0_lt_compat; assumption]).
      assert (IZR (m - 1) * ((hi - lo) / IZR (m - 1)) = hi - lo) by (field; lra). split; nra. }
    split; apply B; try assumption; lra.
  - intros x y Hx Hy.
    assert (PX : exists j, (j < Z.to_nat nX)%nat /\ bb_xMin box + INR j * ((bb_xMax box - bb_xMin box) / IZR (nX - 1)) = x).
    { destruct Hx as [->| ->]; [exists 0%nat; split; [lia|cbn; ring]|]. exists (Z.to_nat (nX - 1)). split; [lia|].
      rewrite INR_IZR_INZ, Z2Nat.id by lia. field. exact X0. }
    assert (PY : exists i, (i < Z.to_nat nY)%nat /\ bb_yMin box + INR i * ((bb_yMax box - bb_yMin box) / IZR (nY - 1)) = y).
    { destruct Hy as [->| ->]; [exists 0%nat; split; [lia|cbn; ring]|]. exists (Z.to_nat (nY - 1)). split; [lia|].
      rewrite INR_IZR_INZ, Z2Nat.id by lia. field. exact Y0. }
    destruct PX as (j & Hj & EX). destruct PY as (i & Hi & EY). destruct (TT i j Hi Hj) as (q & Hq & E).
    exists q. split; [eapply nth_error_In; exact Hq|]. rewrite E, EX, EY. reflexivity.
Qed.

Lemma generate_single : forall (g : generator RNum) pts (box : bbox RNum) nX nY, (1 <= nX)%Z -> (1 <= nY)%Z -> (nX = 1 \/ nY = 1)%Z ->
  generate g pts box nX nY = Err NonFinite.
Proof.
  intros g pts box nX nY HX HY H1. unfold generate.
  assert (HL : exists ij l, grid_indices nX nY = ij :: l).
  { destruct (grid_indices nX nY) as [|ij l] eqn:E; [|eauto]. apply (f_equal (@length _)) in E. rewrite grid_indices_length in E. cbn in E. nia. }
  destruct HL as (ij & l & ->). cbn [foldM]. unfold divr. rnum.
  destruct H1 as [->| ->].
  - cbn [Z.sub]. rewrite Reqb_true by reflexivity. reflexivity.
  - destruct (Reqb (IZR (nX - 1)) 0); [reflexivity|]. cbn [bind]. rewrite Reqb_true by reflexivity. reflexivity.
Qed.

(** in binary64 the coordinate is NaN *)
Lemma single_column_nan : forall x w : f64, nadd (n := F64) x (nmul (n := F64) (nZ 0) (ndiv (n := F64) w (nZ 0))) = S754_nan.
Proof.
  intros x w. assert (E : nmul (n := F64) (nZ 0) (ndiv (n := F64) w (nZ 0)) = S754_nan).
  { destruct w as [[|]|[|]| |[|] m e]; reflexivity. }
  rewrite E. destruct x; reflexivity.
Qed.

(** * The functors and the nodes *)
Section Axes.
  Context {N : Num}.
  Notation Point := (Point N).
  Definition node_of (box : bbox N) nX nY (ij : Z * Z) : nT N * nT N :=
    (nadd (bb_xMin box) (nmul (nZ (snd ij)) (ndiv (bb_width box) (nZ (nX - 1)%Z))), nadd (bb_yMin box) (nmul (nZ (fst ij)) (ndiv (bb_height box) (nZ (nY - 1)%Z)))).
  Lemma nodes_map box nX nY : grid_nodes (N := N) box nX nY = map (node_of box nX nY) (grid_indices nX nY).
  Proof.
    unfold grid_nodes, grid_indices. induction (seq 0 (Z.to_nat nY)) as [|i l IH]; [reflexivity|]. cbn [flat_map]. rewrite map_app, IH, map_map. reflexivity.
  Qed.
  Variable box : bbox N.
  Variables nX nY : Z.
  Hypothesis HX : neqb (nZ (n := N) (nX - 1)) (nZ 0) = false.
  Hypothesis HY : neqb (nZ (n := N) (nY - 1)) (nZ 0) = false.
  Lemma generate_steps g (pts : list Point) : generate g pts box nX nY =
    foldM (fun (st : generator N * list Point) (xy : nT N * nT N) => '(g', q) <- result (fst st) (fst xy) (snd xy) ;; Ok (g', snd st ++ [q])) (grid_nodes box nX nY) (g, pts).
  Proof.
    unfold generate. rewrite nodes_map. rewrite foldM_map. apply foldM_ext. intros st ij. unfold divr. rewrite HX, HY. cbn [bind]. reflexivity.
  Qed.
  Lemma generate_x f pts g' pts' : generate (GX f) pts box nX nY = Ok (g', pts') <->
    exists f' vs, g' = GX f' /\ apply_all f (map fst (grid_nodes box nX nY)) = Ok (f', vs) /\
      pts' = pts ++ map (fun e : nT N * nT N * nT N => mkP (fst (fst e)) (nadd (snd (fst e)) (snd e))) (combine (grid_nodes box nX nY) vs).
  Proof.
    rewrite generate_steps. generalize (grid_nodes box nX nY). intros l. revert f pts. induction l as [|[x y] l IH]; intros f pts; cbn [foldM map fst snd apply_all].
    - split; [intros E; injection E as <- <-; exists f, []; cbn; rewrite app_nil_r; auto|]. intros (f' & vs & -> & E & ->). injection E as <- <-. cbn. rewrite app_nil_r. reflexivity.
    - cbn [result fst snd]. destruct (apply f x) as [[f1 v]|e] eqn:A; cbn [bind fst snd].
      + rewrite IH. split.
        * intros (f' & vs & -> & E & ->). exists f', (v :: vs). rewrite E. cbn [bind]. split; [reflexivity|]. split; [reflexivity|]. cbn [combine map fst snd]. rewrite <- app_assoc. reflexivity.
        * intros (f' & vs & -> & E & ->). destruct (apply_all f1 (map fst l)) as [[f2 ws]|e] eqn:A2; [|discriminate E]. cbn [bind] in E. injection E as <- <-.
          exists f2, ws. split; [reflexivity|]. split; [reflexivity|]. cbn [combine map fst snd]. rewrite <- app_assoc. reflexivity.
      + split; [discriminate|intros (f' & vs & _ & E & _); discriminate E].
  Qed.
  Lemma generate_y f pts g' pts' : generate (GY f) pts box nX nY = Ok (g', pts') <->
    exists f' vs, g' = GY f' /\ apply_all f (map snd (grid_nodes box nX nY)) = Ok (f', vs) /\
      pts' = pts ++ map (fun e : nT N * nT N * nT N => mkP (nadd (fst (fst e)) (snd e)) (snd (fst e))) (combine (grid_nodes box nX nY) vs).
  Proof.
    rewrite generate_steps. generalize (grid_nodes box nX nY). intros l. revert f pts. induction l as [|[x y] l IH]; intros f pts; cbn [foldM map fst snd apply_all].
    - split; [intros E; injection E as <- <-; exists f, []; cbn; rewrite app_nil_r; auto|]. intros (f' & vs & -> & E & ->). injection E as <- <-. cbn. rewrite app_nil_r. reflexivity.
    - cbn [result fst snd]. destruct (apply f y) as [[f1 v]|e] eqn:A; cbn [bind fst snd].
      + rewrite IH. split.
        * intros (f' & vs & -> & E & ->). exists f', (v :: vs). rewrite E. cbn [bind]. split; [reflexivity|]. split; [reflexivity|]. cbn [combine map fst snd]. rewrite <- app_assoc. reflexivity.
        * intros (f' & vs & -> & E & ->). destruct (apply_all f1 (map snd l)) as [[f2 ws]|e] eqn:A2; [|discriminate E]. cbn [bind] in E. injection E as <- <-.
          exists f2, ws. split; [reflexivity|]. split; [reflexivity|]. cbn [combine map fst snd]. rewrite <- app_assoc. reflexivity.
      + split; [discriminate|intros (f' & vs & _ & E & _); discriminate E].
  Qed.
  Lemma generate_both fx fy pts g' pts' : generate (GBoth fx fy) pts box nX nY = Ok (g', pts') <->
    exists fx' fy' us vs, g' = GBoth fx' fy' /\ apply_all fx (map fst (grid_nodes box nX nY)) = Ok (fx', us) /\
      apply_all fy (map snd (grid_nodes box nX nY)) = Ok (fy', vs) /\
      pts' = pts ++ map (fun e : nT N * nT N => mkP (fst e) (snd e)) (combine us vs).
  Proof.
    rewrite generate_steps. generalize (grid_nodes box nX nY). intros l. revert fx fy pts. induction l as [|[x y] l IH]; intros fx fy pts; cbn [foldM map fst snd apply_all].
    - split; [intros E; injection E as <- <-; exists fx, fy, [], []; cbn; rewrite app_nil_r; auto|]. intros (fx' & fy' & us & vs & -> & E & E' & ->). injection E as <- <-. injection E' as <- <-. cbn. rewrite app_nil_r. reflexivity.
    - cbn [result fst snd]. destruct (apply fx x) as [[fx1 u]|e] eqn:A; cbn [bind fst snd]; [destruct (apply fy y) as [[fy1 v]|e] eqn:B; cbn [bind fst snd]|].
      + rewrite IH. split.
        * intros (fx' & fy' & us & vs & -> & E & E' & ->). exists fx', fy', (u :: us), (v :: vs). rewrite E, E'. cbn [bind]. split; [reflexivity|]. split; [reflexivity|]. split; [reflexivity|].
          cbn [combine map fst snd]. rewrite <- app_assoc. reflexivity.
        * intros (fx' & fy' & us & vs & -> & E & E' & ->). destruct (apply_all fx1 (map fst l)) as [[f2 ws]|e] eqn:A2; [|discriminate E]. cbn [bind] in E. injection E as <- <-.
          destruct (apply_all fy1 (map snd l)) as [[f3 ws']|e] eqn:A3; [|discriminate E']. cbn [bind] in E'. injection E' as <- <-.
          exists f2, f3, ws, ws'. split; [reflexivity|]. split; [reflexivity|]. split; [reflexivity|]. cbn [combine map fst snd]. rewrite <- app_assoc. reflexivity.
      + split; [discriminate|intros (? & ? & us & vs & _ & _ & E & _); discriminate E].
      + split; [discriminate|intros (? & ? & us & vs & _ & E & _); discriminate E].
  Qed.
End Axes.
Lemma generate_axes : forall (N : Num) (box : bbox N) nX nY, neqb (nZ (n := N) (nX - 1)) (nZ 0) = false -> neqb (nZ (n := N) (nY - 1)) (nZ 0) = false ->
  forall (pts pts' : list (Point N)) (g' : generator N),
  (forall f, generate (GX f) pts box nX nY = Ok (g', pts') <->
    exists f' vs, g' = GX f' /\ apply_all f (map fst (grid_nodes box nX nY)) = Ok (f', vs) /\
      pts' = pts ++ map (fun e : nT N * nT N * nT N => mkP (fst (fst e)) (nadd (snd (fst e)) (snd e))) (combine (grid_nodes box nX nY) vs)) /\
  (forall f, generate (GY f) pts box nX nY = Ok (g', pts') <->
    exists f' vs, g' = GY f' /\ apply_all f (map snd (grid_nodes box nX nY)) = Ok (f', vs) /\
      pts' = pts ++ map (fun e : nT N * nT N * nT N => mkP (nadd (fst (fst e)) (snd e)) (snd (fst e))) (combine (grid_nodes box nX nY) vs)) /\
  (forall fx fy, generate (GBoth fx fy) pts box nX nY = Ok (g', pts') <->
    exists fx' fy' us vs, g' = GBoth fx' fy' /\ apply_all fx (map fst (grid_nodes box nX nY)) = Ok (fx', us) /\
      apply_all fy (map snd (grid_nodes box nX nY)) = Ok (fy', vs) /\
      pts' = pts ++ map (fun e : nT N * nT N => mkP (fst e) (snd e)) (combine us vs)).
Proof. intros. split; [|split]; intros; [apply generate_x|apply generate_y|apply generate_both]; assumption. Qed.
(** the stateless functors *)
Lemma apply_all_pure : forall (N : Num) (f : nT N -> nT N) (d : nT N) xs,
  apply_all (FPure f) xs = Ok (FPure f, map f xs) /\ apply_all (f_uniform d) xs = Ok (f_uniform d, map (fun x => nmul x d) xs).
Proof.
  intros N f d xs. unfold f_uniform. split; (induction xs as [|x xs IH]; [reflexivity|]; cbn [apply_all apply bind map] in *; rewrite IH; reflexivity).
Qed.
