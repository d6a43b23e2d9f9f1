(** Turns, areas and circumcenters of doubles on no particular grid. *)
From Coq Require Import Reals Lra Psatz Lia ZArith SpecFloat List Bool.
From Flocq Require Import Core.
From Verif Require Import Base Spec MUtil MGeom MHull MPolygon MMaps MTriangle Bridge BridgeNum BridgeErr.
From Verif Require Import PPoint PFloat PPoly PPoly2 PTri PGrid PGrid2 PGrid3 PGen64 PErr.
Import ListNotations.
Local Open Scope R_scope.

Local Notation E := (bpow radix2 (-53)).
Local Notation H := (bpow radix2 (-1075)).

Section Size.
  Variable M : R.
  Hypothesis SM : scale M.

  Lemma M_pos : 0 < M.
  Proof. destruct SM as [A _]. eapply Rlt_le_trans; [apply bpow_gt_0|exact A]. Qed.
  Lemma sized1 : sized 1.
  Proof. split; change 1 with (bpow radix2 0); apply bpow_le; lia. Qed.
  Lemma sizedM : sized M.
  Proof. destruct SM as [A B]. split; [eapply Rle_trans; [|exact A]|eapply Rle_trans; [exact B|]]; apply bpow_le; lia. Qed.
  Lemma sizedM2 : sized (M * M).
  Proof.
    destruct SM as [A B]. pose proof M_pos. split.
    - apply Rle_trans with (bpow radix2 (-200) * bpow radix2 (-200)); [rewrite <- bpow_plus; apply bpow_le; lia|]. apply Rmult_le_compat; try assumption; apply bpow_ge_0.
    - apply Rle_trans with (bpow radix2 200 * bpow radix2 200); [|rewrite <- bpow_plus; apply bpow_le; lia]. apply Rmult_le_compat; lra.
  Qed.
  Lemma sizedM3 : sized (M * M * M).
  Proof.
    destruct SM as [A B]. pose proof M_pos. assert (0 < M * M) by (apply Rmult_lt_0_compat; lra). split.
    - apply Rle_trans with (bpow radix2 (-200) * bpow radix2 (-200) * bpow radix2 (-200)); [rewrite <- !bpow_plus; apply bpow_le; lia|].
      apply Rmult_le_compat; try assumption; try apply bpow_ge_0; [apply Rmult_le_pos; apply bpow_ge_0|]. apply Rmult_le_compat; try assumption; apply bpow_ge_0.
    - apply Rle_trans with (bpow radix2 200 * bpow radix2 200 * bpow radix2 200); [|rewrite <- !bpow_plus; apply bpow_le; lia].
      apply Rmult_le_compat; try lra. apply Rmult_le_compat; lra.
  Qed.

  Lemma app_x q : within M q -> app M 1 0 (px q) (val (px q)).
  Proof. intros (Fx & Fy & Bx & By). apply app_exact; [exact sizedM|exact Fx|lra]. Qed.
  Lemma app_y q : within M q -> app M 1 0 (py q) (val (py q)).
  Proof. intros (Fx & Fy & Bx & By). apply app_exact; [exact sizedM|exact Fy|lra]. Qed.

  Ltac num := unfold K20, K50; lra.

  Lemma app_diff x y r s : app M 1 0 x r -> app M 1 0 y s -> app M 2 3 (@nsub F64 x y) (r - s).
  Proof. intros A B. eapply app_mono; [exact sizedM|apply (app_sub M 1 0 1 0); [exact sizedM|exact A|exact B|num|num]|lra|lra]. Qed.
  Lemma app_sum x y r s : app M 1 0 x r -> app M 1 0 y s -> app M 2 3 (@nadd F64 x y) (r + s).
  Proof. intros A B. eapply app_mono; [exact sizedM|apply (app_add M 1 0 1 0); [exact sizedM|exact A|exact B|num|num]|lra|lra]. Qed.
  Lemma app_prod22 x y r s : app M 2 3 x r -> app M 2 3 y s -> app (M * M) 4 18 (@nmul F64 x y) (r * s).
  Proof. intros A B. eapply app_mono; [exact sizedM2|apply (app_mul M M 2 3 2 3); [exact sizedM|exact sizedM|exact sizedM2|exact A|exact B|num|num|num|num]|lra|lra]. Qed.

  (** ** Turns *)
  Lemma app_cross p q r : within M p -> within M q -> within M r ->
    app (M * M) 8 45 (orientation (N := F64) p q r) (orient (xyv p) (xyv q) (xyv r)).
  Proof.
    intros P Q R. pose proof (app_x _ P). pose proof (app_x _ Q). pose proof (app_x _ R). pose proof (app_y _ P). pose proof (app_y _ Q). pose proof (app_y _ R).
    unfold orientation, crossProduct, pt_sub, orient, vcross, vsub, xyv. cbn [px py fst snd mkP].
    eapply app_mono; [exact sizedM2|apply (app_sub (M * M) 4 18 4 18); [exact sizedM2|apply app_prod22; apply app_diff; assumption|apply app_prod22; apply app_diff; assumption|num|num]|lra|lra].
  Qed.

  Lemma app_sign (W b k : R) x r : app W b k x r -> k * E * W < Rabs r ->
    (@nltb F64 (@nZ F64 0) x = true <-> 0 < r) /\ (@nltb F64 x (@nZ F64 0) = true <-> r < 0).
  Proof.
    intros (F & _ & D) L. destruct (ofZ_correct 0) as [F0 V0]; [lia|]. change (@nZ F64 0) with (F64_ofZ 0).
    rewrite !ltb_correct by assumption. rewrite V0, !Rltb_iff. apply Rabs_le_inv in D.
    destruct (Rle_lt_dec 0 r) as [P|P]; [rewrite Rabs_pos_eq in L by exact P|rewrite Rabs_left in L by exact P]; split; split; intros; lra.
  Qed.

  Lemma turn_sign p q r : within M p -> within M q -> within M r ->
    let t := orientation (N := F64) p q r in let o := orient (xyv p) (xyv q) (xyv r) in
    fin t /\ Rabs (val t - o) <= 45 * u53 * (M * M) /\
    (45 * u53 * (M * M) < Rabs o -> (@nltb F64 (@nZ F64 0) t = true <-> 0 < o) /\ (@nltb F64 t (@nZ F64 0) = true <-> o < 0)).
  Proof.
    intros P Q R t o. pose proof (app_cross p q r P Q R) as A. fold t o in A. split; [apply A|]. split; [apply A|].
    intros L. exact (app_sign _ _ _ _ _ A L).
  Qed.

  (** ** Areas *)
  Variable p : list (Point F64).
  Notation P := (map real_point p).
  Definition wpt (a : Point F64) (b : Point RNum) : Prop := within M a /\ b = real_point a.
  Definition all_within (idx : list Z) : Prop := forall k q, In k idx -> vget p k = Ok q -> within M q.

  Lemma vpt_within idx i : all_within idx -> rel wpt (vpt p idx i) (vpt P idx i).
  Proof.
    intros G. unfold vpt. unfold vgetn at 1 2. destruct (nth_error idx i) as [k|] eqn:Ek; cbn [bind]; [|reflexivity]. rewrite vget_map.
    destruct (vget p k) eqn:Ev; cbn; [|reflexivity]. split; [|reflexivity]. eapply G; [eapply nth_error_In; exact Ek|exact Ev].
  Qed.

  (** sums: [b] and [k] of one term, at most [n] of them *)
  Lemma app_fold {T} W b k n (f : f64 -> T -> res f64) (g : R -> T -> res R) l : sized W -> 0 <= b -> 0 <= k -> 
    (forall i a r, In i l -> exists x y, rel (fun x y => app W b k x y) x y /\ f a i = (v <- x ;; Ok (@nadd F64 a v)) /\ g r i = (v <- y ;; Ok (r + v))) ->
    forall m a r, app W (b * INR m) ((k + 1 + b * n) * INR m) a r -> INR (m + length l) <= n -> 0 <= b * n <= K50 -> 0 <= (k + 1 + b * n) * n <= 2 * K50 ->
    rel (app W (b * INR (m + length l)) ((k + 1 + b * n) * INR (m + length l))) (foldM f l a) (foldM g l r).
  Proof.
    intros SW Hb Hk. induction l as [|i l IH]; intros Hf m a r A Hn B1 B2.
    - cbn [foldM length]. rewrite Nat.add_0_r. exact A.
    - cbn [foldM]. cbn [length] in *. rewrite <- Nat.add_succ_comm in *.
      destruct (Hf i a r (or_introl eq_refl)) as (x & y & Rxy & -> & ->).
      apply (rel_bind (app W (b * INR (S m)) ((k + 1 + b * n) * INR (S m)))).
      + eapply rel_bind; [exact Rxy|]. intros v w V. cbn [rel].
        assert (Hm : 0 <= INR m) by apply pos_INR. assert (Hm1 : INR (S m) <= n). { eapply Rle_trans; [|exact Hn]. apply le_INR. lia. }
        assert (Hn0 : 0 < n) by (rewrite S_INR in Hm1; lra).
        assert (T1 : b * INR (S m) <= b * n) by (apply Rmult_le_compat_l; lra).
        assert (T0 : 0 <= k + 1 + b * n) by lra.
        assert (T2 : (k + 1 + b * n) * INR (S m) <= (k + 1 + b * n) * n) by (apply Rmult_le_compat_l; lra).
        assert (T3 : 0 <= b * INR m) by (apply Rmult_le_pos; lra). assert (T4 : 0 <= (k + 1 + b * n) * INR m) by (apply Rmult_le_pos; lra).
        rewrite S_INR in *. eapply app_mono; [exact SW|apply (app_add W (b * INR m) ((k + 1 + b * n) * INR m) b k); [exact SW|exact A|exact V|lra|]|lra|lra].
        split; [lra|]. lra.
      + intros a' r' A'. apply IH; try assumption. intros; apply Hf; right; assumption.
  Qed.

  Lemma size_ok (n : nat) : (n <= 2 ^ 20)%nat -> 0 <= INR n <= K20.
  Proof.
    intros L. split; [apply pos_INR|]. unfold K20. rewrite INR_IZR_INZ. apply IZR_le.
    apply Nat2Z.inj_le in L. rewrite Nat2Z.inj_pow in L. exact L.
  Qed.

  Lemma geo_area_app idx : all_within idx -> (length idx <= 2 ^ 20)%nat ->
    rel (fun x r => fin x /\ Rabs (val x - r) <= 64 * (INR (length idx) * INR (length idx)) * u53 * (M * M)) (geo_area (N := F64) p idx) (geo_area (N := RNum) P idx).
  Proof.
    intros G L. apply size_ok in L. set (n := INR (length idx)) in *. unfold geo_area.
    assert (Nn : 0 <= n * n <= K20 * K20) by (split; [apply Rmult_le_pos; lra|apply Rmult_le_compat; lra]). unfold K20 in *.
    eapply rel_weaken.
    - apply (app_fold (M * M) 8 54 n) with (m := O).
      + exact sizedM2.
      + lra.
      + lra.
      + intros i a r _.
        exists (x <- vpt p idx (i mod length idx) ;; y <- vpt p idx ((i + 1) mod length idx) ;; o <- vpt p idx 0 ;; Ok (triangleArea (N := F64) x y o)).
        exists (x <- vpt P idx (i mod length idx) ;; y <- vpt P idx ((i + 1) mod length idx) ;; o <- vpt P idx 0 ;; Ok (triangleArea (N := RNum) x y o)).
        split; [|split; destruct (vpt _ idx (i mod length idx)); cbn [bind]; try reflexivity; destruct (vpt _ idx ((i + 1) mod length idx)); cbn [bind]; try reflexivity; destruct (vpt _ idx 0); reflexivity].
        eapply rel_bind; [apply vpt_within, G|]. intros x1 y1 [G1 ->]. eapply rel_bind; [apply vpt_within, G|]. intros x2 y2 [G2 ->].
        eapply rel_bind; [apply vpt_within, G|]. intros x3 y3 [G3 ->]. cbn [rel].
        pose proof (app_cross _ _ _ G1 G2 G3) as A.
        eapply app_mono; [exact sizedM2|apply (app_half (M * M) 8 45) with (1 := sizedM2) (2 := A); num|lra|lra].
      + cbn [INR]. rewrite !Rmult_0_r. apply app_zero, sizedM2.
      + rewrite seq_length. cbn. apply Rle_refl.
      + num.
      + unfold K50. split; [|lra]. apply Rmult_le_pos; lra.
    - rewrite seq_length. cbn [Nat.add]. fold n. intros a r (F & _ & D). split; [exact F|]. eapply Rle_trans; [exact D|].
      unfold u53. pose proof Ep. pose proof (sized_pos _ sizedM2). apply Rmult_le_compat_r; [lra|]. apply Rmult_le_compat_r; [lra|].
      destruct (length idx) as [|k] eqn:Ek.
      + subst n. cbn [INR]. lra.
      + assert (1 <= n). { subst n. rewrite S_INR. pose proof (pos_INR k). lra. } assert (n <= n * n) by (rewrite <- (Rmult_1_r n) at 1; apply Rmult_le_compat_l; lra). lra.
  Qed.

  (** the sum that isClockwise compares with 0 *)
  Definition cwsum {N : Num} (idx : list Z) (p : list (Point N)) : res (nT N) :=
    let n := length idx in
    pI <- vpt p idx 0 ;; pI1 <- vpt p idx (n - 1) ;;
    foldM (fun acc i =>
      b <- vpt p idx ((i + 1) mod n) ;; a <- vpt p idx i ;;
      Ok (acc + (px b - px a) * (py b + py a))%num)
      (seq 0 (n - 1)) ((px pI - px pI1) * (py pI + py pI1))%num.
  Lemma cwsum_ok {N : Num} idx (q : list (Point N)) : isClockwise idx q = (s <- cwsum idx q ;; Ok (nltb (nZ 0) s)).
  Proof.
    unfold isClockwise, cwsum. destruct (vpt q idx 0); cbn [bind]; [|reflexivity]. destruct (vpt q idx (length idx - 1)); cbn [bind]; reflexivity.
  Qed.

  Lemma cwsum_app idx : all_within idx -> (length idx <= 2 ^ 20)%nat -> idx <> [] ->
    rel (app (M * M) (4 * INR (length idx)) (23 * (INR (length idx) * INR (length idx)))) (cwsum (N := F64) idx p) (cwsum (N := RNum) idx P).
  Proof.
    intros G L Ne. apply size_ok in L. set (n := INR (length idx)) in *.
    assert (Nn : 0 <= n * n <= K20 * K20) by (split; [apply Rmult_le_pos; lra|apply Rmult_le_compat; lra]). unfold K20 in *.
    assert (LP : (length idx = S (length idx - 1))%nat) by (destruct idx; [contradiction|cbn; lia]).
    assert (N1 : 1 <= n). { subst n. rewrite LP, S_INR. pose proof (pos_INR (length idx - 1)). lra. }
    assert (N2 : n <= n * n) by (rewrite <- (Rmult_1_r n) at 1; apply Rmult_le_compat_l; lra).
    assert (T : forall a b : Point F64, within M a -> within M b -> app (M * M) 4 18 (@nmul F64 (@nsub F64 (px b) (px a)) (@nadd F64 (py b) (py a))) ((val (px b) - val (px a)) * (val (py b) + val (py a)))).
    { intros a b A B. apply app_prod22; [apply app_diff; apply app_x; assumption|apply app_sum; apply app_y; assumption]. }
    unfold cwsum. eapply rel_bind; [apply vpt_within, G|]. intros x0 y0 [G0 ->]. eapply rel_bind; [apply vpt_within, G|]. intros xn yn [Gn ->].
    eapply rel_weaken.
    - apply (app_fold (M * M) 4 18 n) with (m := 1%nat).
      + exact sizedM2.
      + lra.
      + lra.
      + intros i a r _.
        exists (b <- vpt p idx ((i + 1) mod length idx) ;; a <- vpt p idx i ;; Ok ((px b - px a) * (py b + py a))%num).
        exists (b <- vpt P idx ((i + 1) mod length idx) ;; a <- vpt P idx i ;; Ok ((px b - px a) * (py b + py a))%num).
        split; [|split; destruct (vpt _ idx ((i + 1) mod length idx)); cbn [bind]; try reflexivity; destruct (vpt _ idx i); reflexivity].
        eapply rel_bind; [apply vpt_within, G|]. intros x1 y1 [G1 ->]. eapply rel_bind; [apply vpt_within, G|]. intros x2 y2 [G2 ->]. cbn [rel].
        exact (T _ _ G2 G1).
      + cbn [INR]. eapply app_mono; [exact sizedM2|exact (T _ _ Gn G0)|lra|lra].
      + rewrite seq_length. replace (1 + (length idx - 1))%nat with (length idx) by lia. apply Rle_refl.
      + num.
      + unfold K50. split; [|lra]. apply Rmult_le_pos; lra.
    - rewrite seq_length. replace (1 + (length idx - 1))%nat with (length idx) by lia. fold n. intros a r A. eapply app_mono; [exact sizedM2|exact A|lra|]. lra.
  Qed.
End Size.

Lemma cwsum_real (q : list (Point RNum)) idx vs : vertices_are q idx vs -> idx <> [] -> cwsum (N := RNum) idx q = Ok (-2 * shoelace (map xy vs)).
Proof.
  intros V Hne. unfold cwsum. rewrite <- (vertices_length _ _ _ V).
  destruct vs as [|v0 vs'].
  { exfalso. apply Hne. apply vertices_length in V. destruct idx; [reflexivity|discriminate]. }
  set (vs := v0 :: vs') in *. set (n := length vs).
  assert (Hn : (0 < n)%nat) by (subst n vs; cbn; lia).
  rewrite !(vertices_vpt _ _ _ _ V). rewrite (vgetn_lt vs 0 v0) by assumption. rewrite (vgetn_lt vs (n - 1) v0) by (fold n; lia).
  cbn [bind].
  set (step := fun (acc : R) (e : Point RNum * Point RNum) => (acc + (px (snd e) - px (fst e)) * (py (snd e) + py (fst e)))%R).
  set (nthe := fun i => (nth i vs v0, nth ((i + 1) mod n) vs v0)).
  rewrite (foldM_ext _ (fun acc i => Ok (step acc (nthe i)))).
  2:{ intros b i Hi. apply in_seq in Hi. rewrite !(vertices_vpt _ _ _ _ V).
      rewrite (vgetn_lt vs i v0) by (fold n; lia).
      rewrite (vgetn_lt vs _ v0) by (apply Nat.mod_upper_bound; lia). reflexivity. }
  rewrite (foldM_pure _ (fun acc i => step acc (nthe i))) by reflexivity. f_equal.
  assert (EE : edges_of vs = map nthe (seq 0 (n - 1)) ++ [(nth (n - 1) vs v0, v0)]).
  { rewrite (edges_of_map_seq v0 vs). fold n. replace n with (n - 1 + 1)%nat at 1 by lia.
    rewrite seq_app, map_app. f_equal. cbn [seq map]. f_equal. f_equal.
    rewrite Nat.add_0_l. replace (n - 1 + 1)%nat with n by lia. rewrite Nat.mod_same by lia. reflexivity. }
  assert (SS : forall l b, fold_left (fun acc i => step acc (nthe i)) l b =
    (b + sumR (map (fun e : Point RNum * Point RNum => (px (snd e) - px (fst e)) * (py (snd e) + py (fst e))) (map nthe l)))%R).
  { induction l as [|i l IH]; intros b; cbn [fold_left map sumR fold_right]; [lra|]. rewrite IH. unfold step.
    unfold sumR. cbn [map fold_right]. lra. }
  rewrite SS.
  assert (TT : (sumR (map (fun e : Point RNum * Point RNum => (px (snd e) - px (fst e)) * (py (snd e) + py (fst e))) (edges_of vs)) = -2 * shoelace (map xy vs))%R).
  { unfold shoelace. rewrite edges_of_map, map_map.
    rewrite (sumR_map_ext _ (fun e : Point RNum * Point RNum => (-1) * vcross (xy (fst e)) (xy (snd e)) + (px (snd e) * py (snd e) - px (fst e) * py (fst e)))%R).
    - rewrite sumR_map_add, sumR_map_scal.
      rewrite (telescope (fun v : Point RNum => px v * py v)%R vs). cbn [fst snd]. lra.
    - intros [a b] _. unfold vcross, xy; cbn. lra. }
  rewrite EE, map_app, sumR_app in TT. cbn [map sumR fold_right fst snd] in TT.
  rnum. fold n. unfold sumR in *. change (nth 0 vs v0) with v0. rewrite <- TT. ring.
Qed.
