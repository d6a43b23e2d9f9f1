(** Circumcenters and Voronoi cells of doubles on no particular grid. *)
From Coq Require Import Reals Lra Psatz Lia ZArith SpecFloat List Bool.
From Flocq Require Import Core.
From Verif Require Import Base Spec MUtil MGeom MHull MPolygon MMaps MTriangle MGen MRegion MDelaunay MVoronoi Bridge BridgeNum BridgeVor64 BridgeErr.
From Verif Require Import PUtil PPoint PFloat PPoly PPoly2 PTri PGrid PGrid2 PGrid3 PGrid5 PGen64 PErr PErr2.
Import ListNotations.
Local Open Scope R_scope.

Local Notation E := (bpow radix2 (-53)).
Local Notation H := (bpow radix2 (-1075)).

Section Size.
  Variable M : R.
  Hypothesis SM : scale M.
  Ltac num := unfold K20, K50; lra.

  Lemma app_square q : within M q -> app (M * M) 2 9 (squareNorm (N := F64) q) (val (px q) * val (px q) + val (py q) * val (py q)).
  Proof.
    intros Q. pose proof (app_x M SM q Q) as X. pose proof (app_y M SM q Q) as Y. unfold squareNorm.
    assert (T : forall x r, app M 1 0 x r -> app (M * M) 1 3 (@nmul F64 x x) (r * r)).
    { intros x r A. eapply app_mono; [exact (sizedM2 M SM)|apply (app_mul M M 1 0 1 0); [exact (sizedM M SM)|exact (sizedM M SM)|exact (sizedM2 M SM)|exact A|exact A|num|num|num|num]|lra|lra]. }
    eapply app_mono; [exact (sizedM2 M SM)|apply (app_add (M * M) 1 3 1 3); [exact (sizedM2 M SM)|apply T; exact X|apply T; exact Y|num|num]|lra|lra].
  Qed.

  Lemma app_three W b k x y z r s t : sized W -> 0 <= b <= K20 -> 0 <= k <= K20 -> app W b k x r -> app W b k y s -> app W b k z t ->
    app W (3 * b) (3 * k + 5 * b + 2) (@nadd F64 (@nadd F64 x y) z) (r + s + t).
  Proof.
    intros SW Hb Hk X Y Z. assert (XY : app W (b + b) (k + k + (b + b) + 1) (@nadd F64 x y) (r + s)) by (apply app_add; [exact SW|exact X|exact Y|unfold K20, K50 in *; lra..]).
    eapply app_mono; [exact SW|apply (app_add W (b + b) (k + k + (b + b) + 1) b k); [exact SW|exact XY|exact Z|unfold K20, K50 in *; lra..]|lra|lra].
  Qed.

  (** a numerator of the circumcenter: squared norms times differences *)
  Lemma app_num (nA nB nC x1 y1 x2 y2 x3 y3 : f64) rA rB rC r1 s1 r2 s2 r3 s3 :
    app (M * M) 2 9 nA rA -> app (M * M) 2 9 nB rB -> app (M * M) 2 9 nC rC ->
    app M 1 0 x1 r1 -> app M 1 0 y1 s1 -> app M 1 0 x2 r2 -> app M 1 0 y2 s2 -> app M 1 0 x3 r3 -> app M 1 0 y3 s3 ->
    app (M * M * M) 12 112 (@nadd F64 (@nadd F64 (@nmul F64 nA (@nsub F64 x1 y1)) (@nmul F64 nB (@nsub F64 x2 y2))) (@nmul F64 nC (@nsub F64 x3 y3)))
      (rA * (r1 - s1) + rB * (r2 - s2) + rC * (r3 - s3)).
  Proof.
    intros A B C X1 Y1 X2 Y2 X3 Y3.
    assert (T : forall n x y rn r s, app (M * M) 2 9 n rn -> app M 1 0 x r -> app M 1 0 y s -> app (M * M * M) 4 30 (@nmul F64 n (@nsub F64 x y)) (rn * (r - s))).
    { intros n x y rn r s An X Y. eapply app_mono; [exact (sizedM3 M SM)|apply (app_mul (M * M) M 2 9 2 3); [exact (sizedM2 M SM)|exact (sizedM M SM)|exact (sizedM3 M SM)|exact An|exact (app_diff M SM _ _ _ _ X Y)|num|num|num|num]|lra|lra]. }
    eapply app_mono; [exact (sizedM3 M SM)|apply (app_three (M * M * M) 4 30); [exact (sizedM3 M SM)|num|num|apply T; assumption..]|lra|lra].
  Qed.
  Lemma app_den (x1 x2 x3 y1 y2 y3 : f64) r1 r2 r3 s1 s2 s3 : app M 1 0 x1 r1 -> app M 1 0 x2 r2 -> app M 1 0 x3 r3 -> app M 1 0 y1 s1 -> app M 1 0 y2 s2 -> app M 1 0 y3 s3 ->
    app (M * M) 12 80 (@nmul F64 (@nZ F64 2) (@nadd F64 (@nadd F64 (@nmul F64 x1 (@nsub F64 y2 y3)) (@nmul F64 x2 (@nsub F64 y3 y1))) (@nmul F64 x3 (@nsub F64 y1 y2))))
      (2 * (r1 * (s2 - s3) + r2 * (s3 - s1) + r3 * (s1 - s2))).
  Proof.
    intros X1 X2 X3 Y1 Y2 Y3.
    assert (T : forall n x y rn r s, app M 1 0 n rn -> app M 1 0 x r -> app M 1 0 y s -> app (M * M) 2 7 (@nmul F64 n (@nsub F64 x y)) (rn * (r - s))).
    { intros n x y rn r s An X Y. eapply app_mono; [exact (sizedM2 M SM)|apply (app_mul M M 1 0 2 3); [exact (sizedM M SM)|exact (sizedM M SM)|exact (sizedM2 M SM)|exact An|exact (app_diff M SM _ _ _ _ X Y)|num|num|num|num]|lra|lra]. }
    destruct (ofZ_correct 2) as [F2 V2]; [lia|]. change (@nZ F64 2) with (F64_ofZ 2).
    assert (A2 : app 1 2 0 (F64_ofZ 2) (val (F64_ofZ 2))) by (apply app_exact; [exact sized1|exact F2|rewrite V2, Rabs_pos_eq; lra]).
    rewrite V2 in A2.
    assert (S1 : sized (1 * (M * M))) by (rewrite Rmult_1_l; exact (sizedM2 M SM)).
    pose proof (app_three (M * M) 2 7 _ _ _ _ _ _ (sizedM2 M SM) ltac:(num) ltac:(num) (T _ _ _ _ _ _ X1 Y2 Y3) (T _ _ _ _ _ _ X2 Y3 Y1) (T _ _ _ _ _ _ X3 Y1 Y2)) as A3.
    pose proof (app_mul 1 (M * M) 2 0 (3 * 2) (3 * 7 + 5 * 2 + 2) _ _ _ _ sized1 (sizedM2 M SM) S1 A2 A3 ltac:(num) ltac:(num) ltac:(num) ltac:(num)) as A4.
    rewrite Rmult_1_l in A4. eapply app_mono; [exact (sizedM2 M SM)|exact A4|lra|lra].
  Qed.

  (** a quotient *)
  Lemma app_quot x d n o : app (M * M * M) 12 112 x n -> app (M * M) 12 80 d (2 * o) -> Rabs o <= 8 * (M * M) -> 128 * E * (M * M) <= Rabs o ->
    @neqb F64 d (@nZ F64 0) = false /\ fin (@ndiv F64 x d) /\
    Rabs (val (@ndiv F64 x d) - n / (2 * o)) <= cc_slack M o (n / (2 * o)).
  Proof.
    intros (Fx & Bx & Dx) (Fd & Bd & Dd) O8 O1. pose proof (M_pos M SM) as MP. pose proof Ep as PE.
    assert (M2 : 0 < M * M) by (apply Rmult_lt_0_compat; lra).
    assert (EM : 0 < E * (M * M)) by (apply Rmult_lt_0_compat; lra).
    set (w := Rabs o) in *. assert (w0 : 0 < w) by lra. assert (o0 : o <> 0) by (intros X; unfold w in w0; rewrite X, Rabs_R0 in w0; lra).
    assert (DW : 11 / 8 * w <= Rabs (val d)).
    { assert (Rabs (2 * o) = 2 * w) by (rewrite Rabs_mult, (Rabs_pos_eq 2) by lra; reflexivity).
      pose proof (Rabs_triang_inv (2 * o) (2 * o - val d)) as T. replace (2 * o - (2 * o - val d)) with (val d) in T by ring. rewrite (Rabs_minus_sym (2 * o)) in T. lra. }
    assert (D0 : val d <> 0) by (intros X; rewrite X, Rabs_R0 in DW; lra).
    destruct (ofZ_correct 0) as [F0 V0]; [lia|].
    split. { change (@nZ F64 0) with (F64_ofZ 0). rewrite eqb_correct, V0 by assumption. apply Reqb_false. exact D0. }
    set (z := n / (2 * o)). set (t := E * (M * M) / w).
    assert (t0 : 0 < t) by (unfold t; apply Rdiv_lt_0_compat; lra).
    assert (t1 : t <= / 128). { unfold t. apply Rmult_le_reg_r with w; [lra|]. unfold Rdiv. rewrite Rmult_assoc, Rinv_l, Rmult_1_r by lra. lra. }
    assert (tE : E <= 8 * t). { unfold t. apply Rmult_le_reg_r with w; [lra|]. unfold Rdiv. rewrite !Rmult_assoc, Rinv_l, Rmult_1_r by lra. rewrite (Rmult_comm 8). rewrite Rmult_assoc. apply Rmult_le_compat_l; lra. }
    assert (Q : Rabs (val x / val d - z) <= t * (82 * M + 59 * Rabs z)).
    { assert (EQ : val x / val d - z = ((val x - n) + z * (2 * o - val d)) / val d) by (unfold z; field; split; [exact o0|exact D0]).
      rewrite EQ. unfold Rdiv at 1. rewrite Rabs_mult, Rabs_inv. pose proof (Rabs_pos z) as Z0.
      assert (U : Rabs (val x - n + z * (2 * o - val d)) <= E * (M * M) * (112 * M + 80 * Rabs z)).
      { eapply Rle_trans; [apply Rabs_triang|]. rewrite Rabs_mult, (Rabs_minus_sym (2 * o)).
        assert (Rabs z * Rabs (val d - 2 * o) <= Rabs z * (80 * E * (M * M))) by (apply Rmult_le_compat_l; lra).
        replace (E * (M * M) * (112 * M + 80 * Rabs z)) with (112 * E * (M * M * M) + Rabs z * (80 * E * (M * M))) by ring. lra. }
      assert (I : / Rabs (val d) <= 8 / 11 * / w). { replace (8 / 11 * / w) with (/ (11 / 8 * w)) by (field; lra). apply Rinv_le_contravar; [lra|exact DW]. }
      apply Rle_trans with (E * (M * M) * (112 * M + 80 * Rabs z) * (8 / 11 * / w)).
      - apply Rmult_le_compat; [apply Rabs_pos|left; apply Rinv_0_lt_compat; lra|exact U|exact I].
      - replace (E * (M * M) * (112 * M + 80 * Rabs z) * (8 / 11 * / w)) with (t * (896 / 11 * M + 640 / 11 * Rabs z)) by (unfold t; field; lra).
        apply Rmult_le_compat_l; [lra|]. lra. }
    assert (Zb : Rabs z <= bpow radix2 49 * M).
    { unfold z, Rdiv. rewrite Rabs_mult, Rabs_inv, Rabs_mult, (Rabs_pos_eq 2) by lra. fold w.
      assert (J : / (2 * w) <= / (256 * E * (M * M))) by (apply Rinv_le_contravar; lra).
      apply Rle_trans with (12 * (M * M * M) * / (256 * E * (M * M))); [apply Rmult_le_compat; [apply Rabs_pos|left; apply Rinv_0_lt_compat; lra|exact Bx|exact J]|].
      replace (12 * (M * M * M) * / (256 * E * (M * M))) with (12 / 256 * / E * M) by (field; split; lra).
      apply Rmult_le_compat_r; [lra|]. replace (/ E) with (bpow radix2 53) by (rewrite <- bpow_opp; reflexivity). change 53%Z with (4 + 49)%Z. rewrite bpow_plus. change (bpow radix2 4) with 16.
      pose proof (bpow_gt_0 radix2 49). lra. }
    assert (Vb : Rabs (val x / val d) <= bpow radix2 300).
    { replace (val x / val d) with (z + (val x / val d - z)) by ring. eapply Rle_trans; [apply Rabs_triang|]. pose proof (Rabs_pos z).
      assert (t * (82 * M + 59 * Rabs z) <= / 128 * (82 * M + 59 * Rabs z)) by (apply Rmult_le_compat_r; lra).
      apply Rle_trans with (2 * M + 2 * (bpow radix2 49 * M)); [lra|]. destruct SM as [_ SM2].
      apply Rle_trans with (4 * (bpow radix2 49 * bpow radix2 200)).
      - pose proof (bpow_ge_0 radix2 49). assert (bpow radix2 0 <= bpow radix2 49) by (apply bpow_le; lia). change (bpow radix2 0) with 1 in *.
        assert (M <= bpow radix2 49 * M) by (rewrite <- (Rmult_1_l M) at 1; apply Rmult_le_compat_r; lra).
        assert (bpow radix2 49 * M <= bpow radix2 49 * bpow radix2 200) by (apply Rmult_le_compat_l; lra). lra.
      - change 4 with (bpow radix2 2). rewrite <- !bpow_plus. apply bpow_le. lia. }
    destruct (div_correct x d Fx Fd D0) as [Fq Vq]. { apply err_big. eapply Rle_trans; [exact Vb|]. apply bpow_le; lia. }
    split; [exact Fq|]. rewrite Vq.
    unfold cc_slack, u53. fold w. fold z. replace (128 * E * (M + Rabs z) * (M * M) / w) with (t * (128 * M + 128 * Rabs z)) by (unfold t; field; lra).
      replace (rnd (val x / val d) - z) with ((rnd (val x / val d) - val x / val d) + (val x / val d - z)) by ring.
      eapply Rle_trans; [apply Rabs_triang|]. pose proof (err_rel (val x / val d)) as R1. pose proof (sized_H M (sizedM M SM)) as HM. pose proof (Rabs_pos z) as Z0.
      assert (V2 : Rabs (val x / val d) <= Rabs z + / 128 * (82 * M + 59 * Rabs z)).
      { replace (val x / val d) with (z + (val x / val d - z)) by ring. eapply Rle_trans; [apply Rabs_triang|].
        assert (t * (82 * M + 59 * Rabs z) <= / 128 * (82 * M + 59 * Rabs z)) by (apply Rmult_le_compat_r; lra). lra. }
      assert (G1 : E * Rabs (val x / val d) <= 8 * t * (Rabs z + / 128 * (82 * M + 59 * Rabs z))) by (apply Rmult_le_compat; [lra|apply Rabs_pos|exact tE|exact V2]).
      assert (G2 : E * M <= 8 * t * M) by (apply Rmult_le_compat_r; lra).
      assert (tM : 0 < t * M) by (apply Rmult_lt_0_compat; lra). assert (tZ : 0 <= t * Rabs z) by (apply Rmult_le_pos; lra). lra.
  Qed.

  Lemma orient_small A B C : within M A -> within M B -> within M C -> Rabs (orient (xyv A) (xyv B) (xyv C)) <= 8 * (M * M).
  Proof. intros HA HB HC. destruct (app_cross M SM A B C HA HB HC) as (_ & B8 & _). exact B8. Qed.

  Lemma circumcenter_any A B C : within M A -> within M B -> within M C -> not_thin M (xyv A) (xyv B) (xyv C) ->
    exists c z, circumcenter (N := F64) A B C = Ok c /\ fin (px c) /\ fin (py c) /\
      dist z (xyv A) = dist z (xyv B) /\ dist z (xyv B) = dist z (xyv C) /\
      (forall q, dist q (xyv A) = dist q (xyv B) -> dist q (xyv B) = dist q (xyv C) -> q = z) /\
      Rabs (val (px c) - fst z) <= cc_slack M (orient (xyv A) (xyv B) (xyv C)) (fst z) /\
      Rabs (val (py c) - snd z) <= cc_slack M (orient (xyv A) (xyv B) (xyv C)) (snd z).
  Proof.
    intros HA HB HC NT. pose proof (orient_small A B C HA HB HC) as O8.
    assert (O1 : 128 * E * (M * M) <= Rabs (orient (xyv A) (xyv B) (xyv C))).
    { replace (128 * E) with (bpow radix2 (-46)); [exact NT|]. change 128 with (bpow radix2 7). rewrite <- bpow_plus. reflexivity. }
    assert (M2 : 0 < M * M) by (pose proof (M_pos M SM); apply Rmult_lt_0_compat; lra).
    assert (OR : orient (xyv A) (xyv B) (xyv C) <> 0). { intros X. rewrite X, Rabs_R0 in O1. pose proof Ep. assert (0 < E * (M * M)) by (apply Rmult_lt_0_compat; lra). lra. }
    destruct (circumcenter_correct (real_point A) (real_point B) (real_point C)) as [K _].
    destruct (K OR) as (z & Ez & D1 & D2 & U & _). clear K.
    pose proof (app_x M SM _ HA) as XA. pose proof (app_x M SM _ HB) as XB. pose proof (app_x M SM _ HC) as XC.
    pose proof (app_y M SM _ HA) as YA. pose proof (app_y M SM _ HB) as YB. pose proof (app_y M SM _ HC) as YC.
    pose proof (app_den _ _ _ _ _ _ _ _ _ _ _ _ XA XB XC YA YB YC) as AD.
    pose proof (app_num _ _ _ _ _ _ _ _ _ _ _ _ _ _ _ _ _ _ (app_square A HA) (app_square B HB) (app_square C HC) YB YC YC YA YA YB) as AX.
    pose proof (app_num _ _ _ _ _ _ _ _ _ _ _ _ _ _ _ _ _ _ (app_square A HA) (app_square B HB) (app_square C HC) XC XB XA XC XB XA) as AY.
    assert (EO : val (px A) * (val (py B) - val (py C)) + val (px B) * (val (py C) - val (py A)) + val (px C) * (val (py A) - val (py B)) = orient (xyv A) (xyv B) (xyv C))
      by (unfold orient, vcross, vsub, xyv; cbn [fst snd]; ring).
    rewrite EO in AD.
    destruct (app_quot _ _ _ _ AX AD O8 O1) as (N1 & F1 & S1). destruct (app_quot _ _ _ _ AY AD O8 O1) as (_ & F2 & S2).
    unfold circumcenter, divr in *. cbv zeta in *. rewrite N1. cbn [bind].
    eexists. exists (xy z). split; [reflexivity|]. split; [exact F1|]. split; [exact F2|]. split; [exact D1|]. split; [exact D2|]. split; [exact U|].
    unfold real_point, squareNorm in Ez. rnum. cbn [px py] in Ez. rewrite EO in Ez.
    rewrite Reqb_false in Ez by lra. cbn [bind] in Ez. injection Ez as <-. unfold xy; cbn [px py mkP fst snd]. split; [exact S1|exact S2].
  Qed.
End Size.
