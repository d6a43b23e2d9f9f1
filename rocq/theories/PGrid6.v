(** Segment intersection on doubles with grid coordinates. *)
From Coq Require Import Reals Lra Lia Psatz ZArith SpecFloat List Bool.
From Flocq Require Import Core BinarySingleNaN.
From Verif Require Import Base Spec MUtil MGeom Bridge BridgeNum PPoint PSegment PFloat PGrid PGrid2 PGrid3.
Import ListNotations.
Local Open Scope Z_scope.

Lemma rnd_mono x y : (x <= y)%R -> (rnd x <= rnd y)%R.
Proof. apply round_le; auto with typeclass_instances. Qed.
Lemma rnd_val x : fin x -> rnd (val x) = val x.
Proof.
  intros F. destruct (fin_as_B _ F) as (b & _ & _ & ->). apply round_generic; [auto with typeclass_instances|apply generic_format_B2R].
Qed.
Lemma val_bpow k x : (Rabs x <= bpow radix2 k)%R -> (- bpow radix2 k <= x <= bpow radix2 k)%R.
Proof. apply Rabs_le_inv. Qed.

Section Grid.
  Variable e : Z.
  Hypothesis He : -200 <= e <= 200.
  Notation gp := (grid_point e).
  Notation PF := (Point F64).
  Ltac ex := unfold okexp; lia.

  Lemma cross_neg x y z w : grid e (2 ^ 21) x -> grid e (2 ^ 21) y -> grid e (2 ^ 21) z -> grid e (2 ^ 21) w ->
    grid (2 * e) (2 ^ 43) (@nadd F64 (@nmul F64 (@nopp F64 x) y) (@nmul F64 z w)) /\
    val (@nadd F64 (@nmul F64 (@nopp F64 x) y) (@nmul F64 z w)) = (- val x * val y + val z * val w)%R.
  Proof.
    intros Hx Hy Hz Hw. destruct (grid_opp _ _ _ Hx) as [Hx' Vx']. destruct (mul_diff e He _ y Hx' Hy) as [G1 V1]. destruct (mul_diff e He z w Hz Hw) as [G2 V2].
    destruct (grid_add (2 * e) (2 ^ 42) (2 ^ 42) _ _ G1 G2) as [G V]; [lia|ex|]. split; [exact G|]. rewrite V, V1, V2, Vx'. reflexivity.
  Qed.

  Section Four.
    Variables p1 p2 o1 o2 : PF.
    Hypothesis H1 : gp p1.
    Hypothesis H2 : gp p2.
    Hypothesis H3 : gp o1.
    Hypothesis H4 : gp o2.
    Notation r := real_point.
    Notation D := (inter_den (N := RNum) (r p1) (r p2) (r o1) (r o2)).
    Notation S := (inter_snum (N := RNum) (r p1) (r p2) (r o1) (r o2)).
    Notation T := (inter_tnum (N := RNum) (r p1) (r p2) (r o1) (r o2)).

    Ltac coords := destruct H1 as [Ax Ay], H2 as [Bx By], H3 as [Cx Cy], H4 as [Dx Dy];
      pose proof (sub_coord e He _ _ Dx Cx) as [G1 V1]; pose proof (sub_coord e He _ _ By Ay) as [G2 V2];
      pose proof (sub_coord e He _ _ Bx Ax) as [G3 V3]; pose proof (sub_coord e He _ _ Dy Cy) as [G4 V4];
      pose proof (sub_coord e He _ _ Ax Cx) as [G5 V5]; pose proof (sub_coord e He _ _ Ay Cy) as [G6 V6].

    Lemma den_grid : grid (2 * e) (2 ^ 43) (inter_den (N := F64) p1 p2 o1 o2) /\ val (inter_den (N := F64) p1 p2 o1 o2) = D.
    Proof. coords. destruct (cross_neg _ _ _ _ G1 G2 G3 G4) as [G V]. split; [exact G|]. unfold inter_den at 1. rewrite V, V1, V2, V3, V4. reflexivity. Qed.
    Lemma snum_grid : grid (2 * e) (2 ^ 43) (inter_snum (N := F64) p1 p2 o1 o2) /\ val (inter_snum (N := F64) p1 p2 o1 o2) = S.
    Proof. coords. destruct (cross_neg _ _ _ _ G2 G5 G3 G6) as [G V]. split; [exact G|]. unfold inter_snum at 1. rewrite V, V2, V5, V3, V6. reflexivity. Qed.
    Lemma tnum_grid : grid (2 * e) (2 ^ 43) (inter_tnum (N := F64) p1 p2 o1 o2) /\ val (inter_tnum (N := F64) p1 p2 o1 o2) = T.
    Proof. coords. destruct (cross_diff e He _ _ _ _ G1 G6 G4 G5) as [G V]. split; [exact G|]. unfold inter_tnum at 1. rewrite V, V1, V6, V4, V5. reflexivity. Qed.

    (** quotients of two numbers of one grid *)
    Lemma quot_grid E n x y : grid E n x -> grid E n y -> n <= 2 ^ 43 -> val y <> 0%R ->
      fin (@ndiv F64 x y) /\ val (@ndiv F64 x y) = rnd (val x / val y) /\ (Rabs (val x / val y) <= bpow radix2 43)%R.
    Proof.
      intros [Fx (k & Hk & Vx)] [Fy (l & Hl & Vy)] Hn NZ.
      assert (L : l <> 0) by (intros ->; apply NZ; rewrite Vy; ring).
      assert (B : (Rabs (val x / val y) <= bpow radix2 43)%R).
      { rewrite Vx, Vy. replace (IZR k * bpow radix2 E / (IZR l * bpow radix2 E))%R with (IZR k / IZR l)%R.
        2: { field. split; [apply Rgt_not_eq, bpow_gt_0|apply IZR_neq; exact L]. }
        unfold Rdiv. rewrite Rabs_mult, Rabs_inv, <- !abs_IZR.
        assert (K : (IZR (Z.abs k) <= bpow radix2 43)%R) by (change (bpow radix2 43) with (IZR (2 ^ 43)); apply IZR_le; lia).
        assert (L1 : (1 <= IZR (Z.abs l))%R) by (apply IZR_le; lia).
        assert (L2 : (/ IZR (Z.abs l) <= 1)%R) by (rewrite <- Rinv_1; apply Rinv_le; lra).
        assert (L3 : (0 < / IZR (Z.abs l))%R) by (apply Rinv_0_lt_compat; lra).
        assert (K0 : (0 <= IZR (Z.abs k))%R) by (apply IZR_le; lia). nra. }
      destruct (rnd_error _ 43 ltac:(lia) B) as [_ B2].
      destruct (div_correct x y Fx Fy NZ) as [F V]; [eapply Rle_lt_trans; [exact B2|apply bpow_big; lia]|]. auto.
    Qed.

    Section Tol.
      Variable tol : f64.
      Hypothesis Ft : fin tol.
      Hypothesis Tlo : (bpow radix2 (-50) <= val tol)%R.
      Hypothesis Thi : (val tol <= / 4)%R.

      Lemma low_end : fin (@nsub F64 (@nZ F64 0) tol) /\ val (@nsub F64 (@nZ F64 0) tol) = (- val tol)%R.
      Proof.
        destruct (grid_zero 0) as [[F0 _] V0]. assert (E : rnd (val (@nZ F64 0) - val tol) = (- val tol)%R).
        { rewrite V0, Rminus_0_l. unfold rnd. rewrite round_NE_opp. f_equal. apply rnd_val, Ft. }
        destruct (sub_correct _ _ F0 Ft) as [F V].
        - rewrite E. rewrite Rabs_Ropp, Rabs_pos_eq by (pose proof (bpow_gt_0 radix2 (-50)); lra).
          eapply Rle_lt_trans; [exact Thi|]. eapply Rlt_trans with (bpow radix2 1); [change (bpow radix2 1) with 2%R; lra|apply bpow_big; lia].
        - split; [exact F|]. rewrite V. exact E.
      Qed.
      Lemma high_end : fin (@nadd F64 (@nZ F64 1) tol) /\ val (@nadd F64 (@nZ F64 1) tol) = rnd (1 + val tol) /\
        (1 <= rnd (1 + val tol))%R /\ (Rabs (rnd (1 + val tol) - (1 + val tol)) <= bpow radix2 (-52))%R.
      Proof.
        destruct (grid_int 1) as [[F1 _] V1]; [cbn; lia|]. pose proof (bpow_gt_0 radix2 (-50)) as P.
        assert (B : (Rabs (1 + val tol) <= bpow radix2 1)%R) by (rewrite Rabs_pos_eq by lra; change (bpow radix2 1) with 2%R; lra).
        destruct (rnd_error _ 1 ltac:(lia) B) as [B1 B2].
        destruct (add_correct _ _ F1 Ft) as [F V]; [rewrite V1; eapply Rle_lt_trans; [exact B2|apply bpow_big; lia]|].
        split; [exact F|]. split; [rewrite V, V1; reflexivity|]. split; [|exact B1].
        pose proof (rnd_mono 1 (1 + val tol) ltac:(lra)) as M. rewrite (rnd_int 1) in M by lia. exact M.
      Qed.

      (** the test [0 - tol <= q <= 1 + tol] on a rounded quotient *)
      Definition accepted (q : f64) : bool := @nleb F64 (@nsub F64 (@nZ F64 0) tol) q && @nleb F64 q (@nadd F64 (@nZ F64 1) tol).
      Lemma accepted_inside q x : fin q -> val q = rnd x -> (0 <= x <= 1)%R -> accepted q = true.
      Proof.
        intros F V [X0 X1]. destruct low_end as [FL VL], high_end as (FH & VH & H & _). unfold accepted. rewrite !leb_correct, VL, VH by assumption.
        pose proof (rnd_mono _ _ X0) as A. pose proof (rnd_mono _ _ X1) as B. rewrite (rnd_int 0) in A by lia. rewrite (rnd_int 1) in B by lia.
        pose proof (bpow_gt_0 radix2 (-50)) as P. rewrite !Rleb_true by lra. reflexivity.
      Qed.
      Lemma accepted_near q x : fin q -> val q = rnd x -> (Rabs x <= bpow radix2 43)%R -> accepted q = true -> (- 2 * val tol <= x <= 1 + 2 * val tol)%R.
      Proof.
        intros F V XB. destruct low_end as [FL VL], high_end as (FH & VH & H & HE). unfold accepted. rewrite !leb_correct, VL, VH by assumption. rewrite V.
        destruct (Rleb_spec (- val tol) (rnd x)) as [L1|L1]; [|discriminate]. destruct (Rleb_spec (rnd x) (rnd (1 + val tol))) as [L2|L2]; [|discriminate]. intros _.
        pose proof (Rabs_le_inv _ _ HE) as HE'.
        assert (C50 : bpow radix2 (-50) = (4 * bpow radix2 (-52))%R) by (change (-50) with (2 + -52); rewrite bpow_plus; reflexivity).
        pose proof (bpow_gt_0 radix2 (-52)) as P.
        assert (C52 : (bpow radix2 (-52) <= / 4)%R) by (change (/ 4)%R with (bpow radix2 (-2)); apply bpow_le; lia).
        (* x lies in [-2, 2], for otherwise its rounding would not be accepted *)
        assert (X : (Rabs x <= bpow radix2 1)%R).
        { change (bpow radix2 1) with 2%R. apply Rabs_le. split; apply Rnot_lt_le; intros K.
          - pose proof (rnd_mono x (-2) ltac:(lra)) as M. rewrite (rnd_int (-2)) in M by lia. lra.
          - pose proof (rnd_mono 2 x ltac:(lra)) as M. rewrite (rnd_int 2) in M by lia. lra. }
        destruct (rnd_error x 1 ltac:(lia) X) as [XE _]. apply Rabs_le_inv in XE. change (1 - 53) with (-52) in XE.
        split; [|lra].
        destruct (Rle_lt_dec 0 x) as [XP|XN]; [lra|].
        (* for negative x the rounding error is bounded as well *) lra.
      Qed.

      (** the computed coordinate *)
      Lemma coord_near a b q x : grid e (2 ^ 20) a -> grid e (2 ^ 20) b -> fin q -> val q = rnd x -> (Rabs x <= 2)%R ->
        fin (@nadd F64 a (@nmul F64 q (@nsub F64 b a))) /\
        (Rabs (val (@nadd F64 a (@nmul F64 q (@nsub F64 b a))) - (val a + x * (val b - val a))) <= bpow radix2 (e - 29))%R.
      Proof.
        intros Ga Gb Fq Vq X. destruct (sub_coord e He b a Gb Ga) as [Gd Vd]. set (d := @nsub F64 b a) in *.
        pose proof (grid_bound _ _ 21 _ Gd ltac:(lia) ltac:(lia)) as Bd. pose proof (grid_bound _ _ 20 _ Ga ltac:(lia) ltac:(lia)) as Ba.
        destruct (rnd_error x 1 ltac:(lia) X) as [Ex Bx]. change (1 - 53) with (-52) in Ex.
        assert (Bm : (Rabs (val q * val d) <= bpow radix2 (22 + e))%R).
        { rewrite Rabs_mult, Vq. replace (22 + e) with (1 + (21 + e)) by lia. rewrite bpow_plus. apply Rmult_le_compat; try apply Rabs_pos; assumption. }
        destruct (rnd_error _ (22 + e) ltac:(lia) Bm) as [Em Bm'].
        destruct (mul_correct q d Fq (grid_fin _ _ _ Gd)) as [Fm Vm]; [eapply Rle_lt_trans; [exact Bm'|apply bpow_big; lia]|].
        set (m := @nmul F64 q d) in *.
        assert (Bs : (Rabs (val a + val m) <= bpow radix2 (23 + e))%R).
        { replace (23 + e) with (1 + (22 + e)) by lia. rewrite bpow_plus. change (bpow radix2 1) with 2%R.
          pose proof (Rabs_triang (val a) (val m)). rewrite Vm in *. assert (bpow radix2 (20 + e) <= bpow radix2 (22 + e))%R by (apply bpow_le; lia). lra. }
        destruct (rnd_error _ (23 + e) ltac:(lia) Bs) as [Es Bs'].
        destruct (add_correct a m (grid_fin _ _ _ Ga) Fm) as [Fs Vs]; [eapply Rle_lt_trans; [exact Bs'|apply bpow_big; lia]|].
        split; [exact Fs|]. rewrite Vs. rewrite <- Vm in Em.
        assert (Exd : (Rabs ((rnd x - x) * val d) <= bpow radix2 (-52) * bpow radix2 (21 + e))%R).
        { rewrite Rabs_mult. apply Rmult_le_compat; try apply Rabs_pos; assumption. }
        rewrite <- bpow_plus in Exd.
        replace (-52 + (21 + e)) with (e - 31) in Exd by lia. replace (22 + e - 53) with (e - 31) in Em by lia. replace (23 + e - 53) with (e - 30) in Es by lia.
        assert (C1 : bpow radix2 (e - 29) = (4 * bpow radix2 (e - 31))%R) by (replace (e - 29) with (2 + (e - 31)) by lia; rewrite bpow_plus; reflexivity).
        assert (C2 : bpow radix2 (e - 30) = (2 * bpow radix2 (e - 31))%R) by (replace (e - 30) with (1 + (e - 31)) by lia; rewrite bpow_plus; reflexivity).
        rewrite C1. rewrite C2 in Es. rewrite <- Vd.
        replace (rnd (val a + val m) - (val a + x * val d))%R with
          ((rnd (val a + val m) - (val a + val m)) + ((val m - val q * val d) + (rnd x - x) * val d))%R by (rewrite Vq; ring).
        eapply Rle_trans; [apply Rabs_triang|]. pose proof (Rabs_triang (val m - val q * val d) ((rnd x - x) * val d)). lra.
      Qed.

      Notation PAR := (parallel (xyv p1) (xyv p2) (xyv o1) (xyv o2)).
      Lemma par_den : PAR <-> D = 0%R.
      Proof. rewrite den_cross. reflexivity. Qed.
      Lemma eqb_den : @neqb F64 (inter_den (N := F64) p1 p2 o1 o2) (@nZ F64 0) = Reqb D 0.
      Proof.
        destruct den_grid as [G V]. destruct (grid_zero 0) as [[F0 _] V0]. rewrite eqb_correct by (assumption || eapply grid_fin; exact G).
        rewrite V, V0. reflexivity.
      Qed.

      Notation sq := (@ndiv F64 (inter_snum (N := F64) p1 p2 o1 o2) (inter_den (N := F64) p1 p2 o1 o2)).
      Notation tq := (@ndiv F64 (inter_tnum (N := F64) p1 p2 o1 o2) (inter_den (N := F64) p1 p2 o1 o2)).
      Lemma raw_form inter : intersects_raw (N := F64) tol p1 p2 o1 o2 inter =
        if accepted sq && accepted tq
        then (true, setXY (N := F64) inter (@nadd F64 (px p1) (@nmul F64 tq (@nsub F64 (px p2) (px p1)))) (@nadd F64 (py p1) (@nmul F64 tq (@nsub F64 (py p2) (py p1)))))
        else (false, inter).
      Proof. unfold intersects_raw, accepted. rewrite !andb_assoc. reflexivity. Qed.
      Lemma raw_inf_form inter : intersectionInfinite_raw (N := F64) tol p1 p2 o1 o2 inter =
        if accepted tq
        then (true, setXY (N := F64) inter (@nadd F64 (px p1) (@nmul F64 tq (@nsub F64 (px p2) (px p1)))) (@nadd F64 (py p1) (@nmul F64 tq (@nsub F64 (py p2) (py p1)))))
        else (false, inter).
      Proof. unfold intersectionInfinite_raw, accepted. rewrite andb_comm. reflexivity. Qed.

      Lemma quots : D <> 0%R -> (fin sq /\ val sq = rnd (S / D) /\ (Rabs (S / D) <= bpow radix2 43)%R) /\ (fin tq /\ val tq = rnd (T / D) /\ (Rabs (T / D) <= bpow radix2 43)%R).
      Proof.
        intros NZ. destruct den_grid as [Gd Vd], snum_grid as [Gs Vs], tnum_grid as [Gt Vt].
        split; [pose proof (quot_grid _ _ _ _ Gs Gd ltac:(lia)) as H|pose proof (quot_grid _ _ _ _ Gt Gd ltac:(lia)) as H]; rewrite ?Vs, ?Vt, Vd in H; exact (H NZ).
      Qed.

      Notation close := (close_point (bpow radix2 (e - 29))).
      Lemma computed_point inter x : fin tq -> val tq = rnd x -> (Rabs x <= 2)%R ->
        close (setXY (N := F64) inter (@nadd F64 (px p1) (@nmul F64 tq (@nsub F64 (px p2) (px p1)))) (@nadd F64 (py p1) (@nmul F64 tq (@nsub F64 (py p2) (py p1)))))
          (lerp (xyv p1) (xyv p2) x).
      Proof.
        intros F V X. destruct H1 as [Ax Ay], H2 as [Bx By]. destruct (coord_near _ _ _ _ Ax Bx F V X) as [F1 E1]. destruct (coord_near _ _ _ _ Ay By F V X) as [F2 E2].
        split; [exact F1|]. split; [exact F2|]. split; [exact E1|exact E2].
      Qed.

      Lemma intersects_doubles inter :
        (PAR -> intersects (N := F64) tol p1 p2 o1 o2 inter = (false, inter)) /\
        (forall q, intersects (N := F64) tol p1 p2 o1 o2 inter = (false, q) -> q = inter) /\
        (~ PAR -> forall z, on_segment (xyv p1) (xyv p2) z -> on_segment (xyv o1) (xyv o2) z ->
           exists q, intersects (N := F64) tol p1 p2 o1 o2 inter = (true, q) /\ close q z) /\
        (forall q, intersects (N := F64) tol p1 p2 o1 o2 inter = (true, q) ->
           ~ PAR /\ pbd q = pbd inter /\ pempty q = pempty inter /\
           exists t s z, (- 2 * val tol <= t <= 1 + 2 * val tol)%R /\ (- 2 * val tol <= s <= 1 + 2 * val tol)%R /\
             z = lerp (xyv p1) (xyv p2) t /\ z = lerp (xyv o1) (xyv o2) s /\ close q z).
      Proof.
        unfold intersects. rewrite eqb_den, raw_form. split; [|split; [|split]].
        - intros P. apply par_den in P. rewrite Reqb_true by exact P. reflexivity.
        - intros q. destruct (Reqb _ _); [congruence|]. destruct (_ && _); congruence.
        - intros NP z (t & Ht & Zt) (s & Hs & Zs). assert (NZ : D <> 0%R) by (intros E; apply NP, par_den, E).
          rewrite Reqb_false by exact NZ. destruct (quots NZ) as [(Fs & Vs & _) (Ft' & Vt & _)].
          destruct (lerp_unique_t (r p1) (r p2) (r o1) (r o2) t s NZ) as [Et Es]; [change (lerp (xyv p1) (xyv p2) t = lerp (xyv o1) (xyv o2) s); congruence|].
          rewrite Et in Vt. rewrite Es in Vs. rewrite (accepted_inside _ _ Fs Vs Hs), (accepted_inside _ _ Ft' Vt Ht). cbn [andb].
          eexists. split; [reflexivity|]. subst z. apply computed_point; [exact Ft'|exact Vt|apply Rabs_le; lra].
        - intros q. destruct (Reqb_spec D 0) as [E|NZ]; [discriminate|]. destruct (quots NZ) as [(Fs & Vs & Bs) (Ft' & Vt & Bt)].
          destruct (accepted sq) eqn:As; [|discriminate]. destruct (accepted tq) eqn:At; [|discriminate]. cbn [andb]. intros H. injection H as <-.
          pose proof (accepted_near _ _ Fs Vs Bs As) as Ns. pose proof (accepted_near _ _ Ft' Vt Bt At) as Nt.
          split; [intros P; apply NZ, par_den, P|]. split; [reflexivity|]. split; [reflexivity|].
          exists (T / D)%R, (S / D)%R, (lerp (xyv p1) (xyv p2) (T / D)). split; [exact Nt|]. split; [exact Ns|]. split; [reflexivity|].
          split; [exact (params_lerp (r p1) (r p2) (r o1) (r o2) NZ)|]. apply computed_point; [exact Ft'|exact Vt|apply Rabs_le; lra].
      Qed.

      Lemma infinite_doubles inter :
        (PAR -> intersectionInfinite (N := F64) tol p1 p2 o1 o2 inter = (false, inter)) /\
        (forall q, intersectionInfinite (N := F64) tol p1 p2 o1 o2 inter = (false, q) -> q = inter) /\
        (~ PAR -> forall z s, on_segment (xyv p1) (xyv p2) z -> z = lerp (xyv o1) (xyv o2) s ->
           exists q, intersectionInfinite (N := F64) tol p1 p2 o1 o2 inter = (true, q) /\ close q z) /\
        (forall q, intersectionInfinite (N := F64) tol p1 p2 o1 o2 inter = (true, q) ->
           ~ PAR /\ pbd q = pbd inter /\ pempty q = pempty inter /\
           exists t s z, (- 2 * val tol <= t <= 1 + 2 * val tol)%R /\ z = lerp (xyv p1) (xyv p2) t /\ z = lerp (xyv o1) (xyv o2) s /\ close q z).
      Proof.
        unfold intersectionInfinite. rewrite eqb_den, raw_inf_form. split; [|split; [|split]].
        - intros P. apply par_den in P. rewrite Reqb_true by exact P. reflexivity.
        - intros q. destruct (Reqb _ _); [congruence|]. destruct (accepted _); congruence.
        - intros NP z s (t & Ht & Zt) Zs. assert (NZ : D <> 0%R) by (intros E; apply NP, par_den, E).
          rewrite Reqb_false by exact NZ. destruct (quots NZ) as [_ (Ft' & Vt & _)].
          destruct (lerp_unique_t (r p1) (r p2) (r o1) (r o2) t s NZ) as [Et Es]; [change (lerp (xyv p1) (xyv p2) t = lerp (xyv o1) (xyv o2) s); congruence|].
          rewrite Et in Vt. rewrite (accepted_inside _ _ Ft' Vt Ht).
          eexists. split; [reflexivity|]. subst z. apply computed_point; [exact Ft'|exact Vt|apply Rabs_le; lra].
        - intros q. destruct (Reqb_spec D 0) as [E|NZ]; [discriminate|]. destruct (quots NZ) as [_ (Ft' & Vt & Bt)].
          destruct (accepted tq) eqn:At; [|discriminate]. intros H. injection H as <-.
          pose proof (accepted_near _ _ Ft' Vt Bt At) as Nt.
          split; [intros P; apply NZ, par_den, P|]. split; [reflexivity|]. split; [reflexivity|].
          exists (T / D)%R, (S / D)%R, (lerp (xyv p1) (xyv p2) (T / D)). split; [exact Nt|]. split; [reflexivity|].
          split; [exact (params_lerp (r p1) (r p2) (r o1) (r o2) NZ)|]. apply computed_point; [exact Ft'|exact Vt|apply Rabs_le; lra].
      Qed.
    End Tol.
  End Four.
End Grid.
