(** Proofs about segments, bounding boxes and the configuration. *)
From Coq Require Import Reals Lra Psatz Floats.SpecFloat Rgeom.
From Verif Require Import Base Spec MUtil MGeom Bridge PPoint.
Local Open Scope R_scope.

Lemma den_cross (p1 p2 o1 o2 : Point RNum) :
  inter_den (N := RNum) p1 p2 o1 o2 = vcross (vsub (xy p2) (xy p1)) (vsub (xy o2) (xy o1)).
Proof. unfold inter_den, vcross, vsub, xy; rnum; cbn [fst snd]. ring. Qed.

Lemma lerp_params (p1 p2 o1 o2 : Point RNum) t s :
  lerp (xy p1) (xy p2) t = lerp (xy o1) (xy o2) s ->
  t * inter_den (N := RNum) p1 p2 o1 o2 = inter_tnum (N := RNum) p1 p2 o1 o2 /\
  s * inter_den (N := RNum) p1 p2 o1 o2 = inter_snum (N := RNum) p1 p2 o1 o2.
Proof.
  unfold lerp, xy, inter_den, inter_tnum, inter_snum; rnum; cbn [fst snd]. intros H.
  injection H as H1 H2.
  set (dx := px p2 - px p1) in *. set (dy := py p2 - py p1) in *.
  set (ex := px o2 - px o1) in *. set (ey := py o2 - py o1) in *.
  assert (Hx : px p1 - px o1 = s * ex - t * dx) by lra.
  assert (Hy : py p1 - py o1 = s * ey - t * dy) by lra.
  rewrite Hx, Hy. split; ring.
Qed.

Lemma params_lerp (p1 p2 o1 o2 : Point RNum) :
  inter_den (N := RNum) p1 p2 o1 o2 <> 0 ->
  lerp (xy p1) (xy p2) (inter_tnum (N := RNum) p1 p2 o1 o2 / inter_den (N := RNum) p1 p2 o1 o2) =
  lerp (xy o1) (xy o2) (inter_snum (N := RNum) p1 p2 o1 o2 / inter_den (N := RNum) p1 p2 o1 o2).
Proof.
  unfold lerp, xy, inter_den, inter_tnum, inter_snum; rnum; cbn [fst snd]. intros H.
  f_equal; field; assumption.
Qed.

Lemma lerp_unique_t (p1 p2 o1 o2 : Point RNum) t s :
  inter_den (N := RNum) p1 p2 o1 o2 <> 0 -> lerp (xy p1) (xy p2) t = lerp (xy o1) (xy o2) s ->
  inter_tnum (N := RNum) p1 p2 o1 o2 / inter_den (N := RNum) p1 p2 o1 o2 = t /\
  inter_snum (N := RNum) p1 p2 o1 o2 / inter_den (N := RNum) p1 p2 o1 o2 = s.
Proof.
  intros Hd H. apply lerp_params in H as [<- <-]. split; field; assumption.
Qed.

Section Intersects.
  Variables (tol : R) (p1 p2 o1 o2 inter : Point RNum).
  Notation np := (~ parallel (xy p1) (xy p2) (xy o1) (xy o2)).
  Notation res_ := (intersects (N := RNum) tol p1 p2 o1 o2 inter).
  Notation inf_ := (intersectionInfinite (N := RNum) tol p1 p2 o1 o2 inter).

  Lemma np_den : np <-> inter_den (N := RNum) p1 p2 o1 o2 <> 0.
  Proof. rewrite den_cross. reflexivity. Qed.

  Lemma intersects_sound q : res_ = (true, q) ->
    np /\ pbd q = pbd inter /\ pempty q = pempty inter /\
    exists t s, - tol <= t <= 1 + tol /\ - tol <= s <= 1 + tol /\
      xy q = lerp (xy p1) (xy p2) t /\ xy q = lerp (xy o1) (xy o2) s.
  Proof.
    unfold intersects; rnum. destruct (Reqb_spec (inter_den (N := RNum) p1 p2 o1 o2) 0) as [E|E]; [discriminate|].
    unfold intersects_raw; rnum.
    destruct (Rleb_spec (0 - tol) (inter_snum (N := RNum) p1 p2 o1 o2 / inter_den (N := RNum) p1 p2 o1 o2)); [|discriminate].
    destruct (Rleb_spec (inter_snum (N := RNum) p1 p2 o1 o2 / inter_den (N := RNum) p1 p2 o1 o2) (1 + tol)); [|discriminate].
    destruct (Rleb_spec (0 - tol) (inter_tnum (N := RNum) p1 p2 o1 o2 / inter_den (N := RNum) p1 p2 o1 o2)); [|discriminate].
    destruct (Rleb_spec (inter_tnum (N := RNum) p1 p2 o1 o2 / inter_den (N := RNum) p1 p2 o1 o2) (1 + tol)); [|discriminate].
    cbn [andb]. intros H. injection H as <-. split; [apply np_den; assumption|].
    split; [reflexivity|]. split; [reflexivity|].
    exists (inter_tnum (N := RNum) p1 p2 o1 o2 / inter_den (N := RNum) p1 p2 o1 o2),
           (inter_snum (N := RNum) p1 p2 o1 o2 / inter_den (N := RNum) p1 p2 o1 o2).
    split; [lra|]. split; [lra|]. split; [reflexivity|]. rewrite <- params_lerp by assumption. reflexivity.
  Qed.

  Lemma intersects_complete t s : np ->
    - tol <= t <= 1 + tol -> - tol <= s <= 1 + tol -> lerp (xy p1) (xy p2) t = lerp (xy o1) (xy o2) s ->
    exists q, res_ = (true, q) /\ xy q = lerp (xy p1) (xy p2) t.
  Proof.
    intros Hn Ht Hs H. apply np_den in Hn. destruct (lerp_unique_t _ _ _ _ _ _ Hn H) as [Et Es].
    unfold intersects; rnum. rewrite Reqb_false by assumption. unfold intersects_raw; rnum.
    rewrite Et, Es, !Rleb_true by lra. cbn [andb]. eexists. split; [reflexivity|]. reflexivity.
  Qed.

  Lemma intersects_false q : res_ = (false, q) -> q = inter.
  Proof.
    unfold intersects; rnum. destruct (Reqb _ 0); [congruence|].
    unfold intersects_raw; rnum. destruct (_ && _); congruence.
  Qed.

  Lemma intersects_parallel : parallel (xy p1) (xy p2) (xy o1) (xy o2) -> res_ = (false, inter) /\ inf_ = (false, inter).
  Proof.
    intros H. assert (inter_den (N := RNum) p1 p2 o1 o2 = 0) as E by (rewrite den_cross; exact H).
    unfold intersects, intersectionInfinite; rnum. rewrite Reqb_true by assumption. auto.
  Qed.

  Lemma lines_meet : np -> exists t s, lerp (xy p1) (xy p2) t = lerp (xy o1) (xy o2) s.
  Proof. intros H. apply np_den in H. do 2 eexists. apply params_lerp. assumption. Qed.

  Lemma infinite_char t s : np -> lerp (xy p1) (xy p2) t = lerp (xy o1) (xy o2) s ->
    (- tol <= t <= 1 + tol -> exists q, inf_ = (true, q) /\ xy q = lerp (xy p1) (xy p2) t) /\
    (~ (- tol <= t <= 1 + tol) -> inf_ = (false, inter)).
  Proof.
    intros Hn H. apply np_den in Hn. destruct (lerp_unique_t _ _ _ _ _ _ Hn H) as [Et Es].
    unfold intersectionInfinite; rnum. rewrite Reqb_false by assumption. unfold intersectionInfinite_raw; rnum.
    rewrite Et. split; intros Ht.
    - rewrite !Rleb_true by lra. cbn [andb]. eexists. split; [reflexivity|]. reflexivity.
    - destruct (Rleb_spec t (1 + tol)); [|reflexivity]. rewrite Rleb_false by lra. reflexivity.
  Qed.
End Intersects.

Lemma parallel_sym a b c d : parallel a b c d <-> parallel c d a b.
Proof. unfold parallel, vcross, vsub; cbn [fst snd]. split; lra. Qed.

Lemma intersects_sym tol (p1 p2 o1 o2 i1 i2 : Point RNum) :
  let r1 := intersects (N := RNum) tol p1 p2 o1 o2 i1 in
  let r2 := intersects (N := RNum) tol o1 o2 p1 p2 i2 in
  fst r1 = fst r2 /\ (fst r1 = true -> xy (snd r1) = xy (snd r2)).
Proof.
  assert (Half : forall p1 p2 o1 o2 i1 i2, fst (intersects (N := RNum) tol p1 p2 o1 o2 i1) = true ->
    fst (intersects (N := RNum) tol o1 o2 p1 p2 i2) = true /\
    xy (snd (intersects (N := RNum) tol p1 p2 o1 o2 i1)) = xy (snd (intersects (N := RNum) tol o1 o2 p1 p2 i2))).
  { clear. intros p1 p2 o1 o2 i1 i2 H.
    destruct (intersects tol p1 p2 o1 o2 i1) as [b q] eqn:E. cbn in H. subst b.
    apply intersects_sound in E as (Hn & _ & _ & t & s & Ht & Hs & Hq1 & Hq2).
    destruct (intersects_complete tol o1 o2 p1 p2 i2 s t) as [q' [E' Hq']]; auto.
    - rewrite parallel_sym. assumption.
    - congruence.
    - rewrite E'. cbn. split; congruence. }
  cbv zeta. destruct (fst (intersects tol p1 p2 o1 o2 i1)) eqn:E1.
  - destruct (Half _ _ _ _ _ i2 E1) as [H1 H2]. split; [congruence|]. auto.
  - split; [|discriminate]. destruct (fst (intersects tol o1 o2 p1 p2 i2)) eqn:E2; [|reflexivity].
    destruct (Half _ _ _ _ _ i1 E2) as [H1 _]. congruence.
Qed.

Lemma lerp_on_line a b t : on_line a b (lerp a b t).
Proof. unfold on_line, orient, vcross, vsub, lerp; cbn [fst snd]. ring. Qed.

(** C19 assembled *)
Lemma intersects_correct : forall tol (p1 p2 o1 o2 inter : Point RNum), 0 <= tol ->
  (forall q, intersects (N := RNum) tol p1 p2 o1 o2 inter = (true, q) ->
     ~ parallel (xy p1) (xy p2) (xy o1) (xy o2) /\
     on_line (xy p1) (xy p2) (xy q) /\ on_line (xy o1) (xy o2) (xy q) /\
     (exists t s, - tol <= t <= 1 + tol /\ - tol <= s <= 1 + tol /\
        xy q = lerp (xy p1) (xy p2) t /\ xy q = lerp (xy o1) (xy o2) s) /\
     (tol = 0 -> on_segment (xy p1) (xy p2) (xy q) /\ on_segment (xy o1) (xy o2) (xy q))) /\
  (forall z, ~ parallel (xy p1) (xy p2) (xy o1) (xy o2) ->
     on_segment (xy p1) (xy p2) z -> on_segment (xy o1) (xy o2) z ->
     exists q, intersects (N := RNum) tol p1 p2 o1 o2 inter = (true, q) /\ xy q = z) /\
  (forall q, intersects (N := RNum) tol p1 p2 o1 o2 inter = (false, q) -> q = inter) /\
  (forall inter2, let r1 := intersects (N := RNum) tol p1 p2 o1 o2 inter in
     let r2 := intersects (N := RNum) tol o1 o2 p1 p2 inter2 in
     fst r1 = fst r2 /\ (fst r1 = true -> xy (snd r1) = xy (snd r2))).
Proof.
  intros tol p1 p2 o1 o2 inter Htol. repeat split.
  - apply (intersects_sound _ _ _ _ _ _ _ H).
  - apply intersects_sound in H as (_ & _ & _ & t & s & _ & _ & -> & _). apply lerp_on_line.
  - apply intersects_sound in H as (_ & _ & _ & t & s & _ & _ & _ & ->). apply lerp_on_line.
  - apply (intersects_sound _ _ _ _ _ _ _ H).
  - apply intersects_sound in H as (_ & _ & _ & t & s & Ht & Hs & Hq & _). exists t. split; [lra|assumption].
  - apply intersects_sound in H as (_ & _ & _ & t & s & Ht & Hs & _ & Hq). exists s. split; [lra|assumption].
  - intros z Hn [t [Ht ->]] [s [Hs Hz]]. apply intersects_complete with (s := s); auto; lra.
  - intros q. apply intersects_false.
  - apply (intersects_sym tol p1 p2 o1 o2 inter inter2).
  - apply (intersects_sym tol p1 p2 o1 o2 inter inter2).
Qed.

(** ** the explicit zero-denominator test agrees with IEEE arithmetic *)
Lemma sfdiv_zero_guard (x d lo hi : f64) :
  SFeqb d (F64_ofZ 0) = true -> finite64 lo -> finite64 hi ->
  SFleb lo (SFdiv f64_prec f64_emax x d) && SFleb (SFdiv f64_prec f64_emax x d) hi = false.
Proof.
  intros Hd Hlo Hhi.
  assert (exists s, d = S754_zero s) as [s ->].
  { destruct d as [s|s| |s m e]; [eauto| | |]; cbn in Hd; try discriminate;
    unfold SFeqb, SFcompare in Hd; cbn in Hd; destruct s; discriminate. }
  destruct x as [sx|sx| |sx mx ex]; cbn [SFdiv].
  - destruct lo; reflexivity.
  - destruct (xorb sx s), lo, hi; try contradiction; reflexivity.
  - destruct lo; reflexivity.
  - destruct (xorb sx s), lo, hi; try contradiction; reflexivity.
Qed.

Lemma intersects_guard_ieee (tol : f64) (p1 p2 o1 o2 inter : Point F64) :
  finite64 (SFsub f64_prec f64_emax (F64_ofZ 0) tol) -> finite64 (SFadd f64_prec f64_emax (F64_ofZ 1) tol) ->
  intersects_raw (N := F64) tol p1 p2 o1 o2 inter = intersects (N := F64) tol p1 p2 o1 o2 inter /\
  intersectionInfinite_raw (N := F64) tol p1 p2 o1 o2 inter = intersectionInfinite (N := F64) tol p1 p2 o1 o2 inter.
Proof.
  intros Hlo Hhi. unfold intersects, intersectionInfinite.
  destruct (neqb (inter_den p1 p2 o1 o2) (nZ 0)) eqn:E; [|auto].
  unfold intersects_raw, intersectionInfinite_raw.
  change (SFeqb (inter_den (N := F64) p1 p2 o1 o2) (F64_ofZ 0) = true) in E.
  cbn [ndiv nleb nsub nadd nZ F64].
  pose proof (sfdiv_zero_guard (inter_snum (N := F64) p1 p2 o1 o2) _ _ _ E Hlo Hhi) as H1.
  pose proof (sfdiv_zero_guard (inter_tnum (N := F64) p1 p2 o1 o2) _ _ _ E Hlo Hhi) as H2.
  cbn [nT F64] in *.
  rewrite H1. rewrite andb_comm in H2. rewrite H2. auto.
Qed.

(** * C21 *)
Lemma near_refl_R tol a : 0 < tol -> near (N := RNum) tol a a = true.
Proof. intros H. unfold near; rnum. rewrite Rminus_eq_0, Rabs_R0. apply Rltb_true. assumption. Qed.

Lemma between_hull tol v a b : (a <= v <= b \/ b <= v <= a) -> between (N := RNum) tol v a b = true.
Proof.
  intros [[H1 H2]|[H1 H2]]; unfold between; rnum.
  - rewrite (Rleb_true a v), (Rleb_true v b) by assumption. reflexivity.
  - rewrite (Rleb_true b v), (Rleb_true v a) by assumption. cbn [orb andb]. apply orb_true_r.
Qed.

Lemma between_sym tol v a b : between (N := RNum) tol v a b = between (N := RNum) tol v b a.
Proof. unfold between. rewrite orb_comm. reflexivity. Qed.

Lemma between_box tol v a b : 0 < tol -> between (N := RNum) tol v a b = true ->
  Rmin a b - tol < v < Rmax a b + tol.
Proof.
  intros Ht. unfold between, near; rnum. rewrite orb_true_iff, !andb_true_iff, !orb_true_iff, !Rleb_iff, !Rltb_iff.
  assert (A : forall u w, (w <= u \/ Rabs (u - w) < tol) -> w - tol < u).
  { intros u w [H|H]; [lra|]. unfold Rabs in H. destruct (Rcase_abs (u - w)); lra. }
  assert (B : forall u w, (u <= w \/ Rabs (u - w) < tol) -> u < w + tol).
  { intros u w [H|H]; [lra|]. unfold Rabs in H. destruct (Rcase_abs (u - w)); lra. }
  pose proof (Rmin_l a b). pose proof (Rmin_r a b). pose proof (Rmax_l a b). pose proof (Rmax_r a b).
  intros [[H3 H4]|[H3 H4]]; apply A in H3; apply B in H4; lra.
Qed.

Lemma lerp_between a b t : 0 <= t <= 1 -> (a <= a + t * (b - a) <= b \/ b <= a + t * (b - a) <= a).
Proof. intros H. destruct (Rle_lt_dec a b); [left|right]; nra. Qed.

Lemma seg_contains_segment tol (p1 p2 q : Point RNum) : 0 < tol ->
  on_segment (xy p1) (xy p2) (xy q) -> seg_contains (N := RNum) tol q p1 p2 = true.
Proof.
  intros Ht [t [Hr H]]. unfold lerp, xy in H; cbn [fst snd] in H. injection H as Hx Hy.
  unfold seg_contains. rewrite Hx, Hy at 1. rewrite !between_hull by (apply lerp_between; assumption). cbn [andb].
  rnum. rewrite Hx, Hy.
  match goal with |- Rltb (Rabs ?e) tol = true => replace e with 0 by ring end.
  rewrite Rabs_R0. apply Rltb_true. assumption.
Qed.

Lemma seg_contains_sym tol (p1 p2 q : Point RNum) :
  seg_contains (N := RNum) tol q p1 p2 = seg_contains (N := RNum) tol q p2 p1.
Proof.
  unfold seg_contains. rewrite (between_sym tol (px q)), (between_sym tol (py q)). f_equal. rnum.
  rewrite <- Rabs_Ropp. do 2 f_equal. ring.
Qed.

Lemma seg_contains_near tol (p1 p2 q : Point RNum) : 0 < tol ->
  seg_contains (N := RNum) tol q p1 p2 = true ->
  Rmin (px p1) (px p2) - tol < px q < Rmax (px p1) (px p2) + tol /\
  Rmin (py p1) (py p2) - tol < py q < Rmax (py p1) (py p2) + tol /\
  Rabs (orient (xy p1) (xy p2) (xy q)) < tol.
Proof.
  intros Ht. unfold seg_contains. rewrite !andb_true_iff. intros [[H1 H2] H3].
  split; [apply between_box; assumption|]. split; [apply between_box; assumption|].
  rnum. apply Rltb_iff in H3.
  replace (orient (xy p1) (xy p2) (xy q)) with
    (px p1 * (py p2 - py q) + px p2 * (py q - py p1) + px q * (py p1 - py p2))
    by (unfold orient, vcross, vsub, xy; cbn [fst snd]; ring). assumption.
Qed.

Lemma lt_sqrt x e : 0 <= x -> x * x < e -> x < sqrt e.
Proof. intros Hx H. rewrite <- (sqrt_square x) by assumption. apply sqrt_lt_1_alt. split; [nra|assumption]. Qed.

(** not a distance test: a point further than the tolerance from every point of the segment *)
Lemma seg_contains_far tol : 0 < tol < 1 / 4 ->
  exists p1 p2 q : Point RNum, seg_contains (N := RNum) tol q p1 p2 = true /\
    forall z, on_segment (xy p1) (xy p2) z -> dist (xy q) z > tol.
Proof.
  intros Ht. exists (mkP (N := RNum) 0 0), (mkP (N := RNum) (2 * tol) (2 * tol)), (mkP (N := RNum) (2 * tol) 0).
  split.
  - unfold seg_contains. rewrite !between_hull by (cbn; lra). cbn [andb]. cbn. apply Rltb_true.
    match goal with |- Rabs ?e < tol => replace e with (- (4 * (tol * tol))) by ring end.
    rewrite Rabs_Ropp, Rabs_right by nra. nra.
  - intros z [t [Hr ->]]. unfold dist, lerp, xy; cbn.
    apply lt_sqrt; [lra|].
    set (u := 2 * tol - (0 + t * (2 * tol - 0))). set (w := 0 - (0 + t * (2 * tol - 0))).
    assert (u - w = 2 * tol) by (unfold u, w; ring).
    assert (0 <= (u + w) * (u + w)) by apply Rle_0_sqr.
    nra.
Qed.

(** * C61 *)
Lemma seg_length_dist (a b : Point RNum) : seg_length (N := RNum) a b = dist (xy a) (xy b).
Proof. reflexivity. Qed.

Lemma dist_nonneg a b : 0 <= dist a b.
Proof. apply sqrt_pos. Qed.
Lemma dist_sym a b : dist a b = dist b a.
Proof. unfold dist. f_equal. ring. Qed.
Lemma sumsq_zero a b : a * a + b * b = 0 -> a = 0 /\ b = 0.
Proof.
  intros H. pose proof (Rle_0_sqr a). pose proof (Rle_0_sqr b). unfold Rsqr in *.
  split; apply Rsqr_0_uniq; unfold Rsqr; lra.
Qed.
Lemma dist_zero a b : dist a b = 0 <-> a = b.
Proof.
  unfold dist. split.
  - intros H. apply sqrt_eq_0 in H.
    + apply sumsq_zero in H as [H1 H2]. destruct a, b; cbn [fst snd] in *. f_equal; lra.
    + pose proof (Rle_0_sqr (fst a - fst b)). pose proof (Rle_0_sqr (snd a - snd b)). unfold Rsqr in *. lra.
  - intros ->. rewrite !Rminus_eq_0, Rmult_0_l, Rplus_0_l. apply sqrt_0.
Qed.
Lemma dist_triangle a b c : dist a c <= dist a b + dist b c.
Proof.
  pose proof (Rgeom.triangle (fst a) (snd a) (fst c) (snd c) (fst b) (snd b)) as H.
  unfold Rgeom.dist_euc, Rsqr in H. exact H.
Qed.

Lemma seg_length_metric : forall a b c : Point RNum,
  0 <= seg_length (N := RNum) a b /\ seg_length (N := RNum) a b = seg_length (N := RNum) b a /\
  (seg_length (N := RNum) a b = 0 <-> xy a = xy b) /\
  seg_length (N := RNum) a c <= seg_length (N := RNum) a b + seg_length (N := RNum) b c.
Proof.
  intros a b c. rewrite !seg_length_dist. split; [apply dist_nonneg|]. split; [apply dist_sym|].
  split; [apply dist_zero|apply dist_triangle].
Qed.

Lemma dist_lerp a b t : dist a (lerp a b t) = Rabs t * dist a b /\ dist (lerp a b t) b = Rabs (1 - t) * dist a b.
Proof.
  unfold dist, lerp; cbn [fst snd]. split.
  - rewrite <- sqrt_Rsqr_abs. rewrite <- sqrt_mult_alt by apply Rle_0_sqr. f_equal. unfold Rsqr. ring.
  - rewrite <- sqrt_Rsqr_abs. rewrite <- sqrt_mult_alt by apply Rle_0_sqr. f_equal. unfold Rsqr. ring.
Qed.

Lemma middle_point (p : list (Point RNum)) (s : iseg) a b :
  vget p (fst s) = Ok a -> vget p (snd s) = Ok b ->
  exists m, iseg_middle (N := RNum) p s = Ok m /\ on_segment (xy a) (xy b) (xy m) /\
    dist (xy a) (xy m) = dist (xy a) (xy b) / 2 /\ dist (xy m) (xy b) = dist (xy a) (xy b) / 2 /\
    iseg_length (N := RNum) p s = Ok (dist (xy a) (xy b)).
Proof.
  intros Ha Hb. unfold iseg_middle, iseg_length. rewrite Ha, Hb. cbn [bind]. eexists. split; [reflexivity|].
  assert (E : xy (mkP (N := RNum) ((px a + px b) / 2) ((py a + py b) / 2)) = lerp (xy a) (xy b) (1 / 2)).
  { unfold xy, lerp; cbn. f_equal; field. }
  cbn in E |- *. rewrite E. destruct (dist_lerp (xy a) (xy b) (1 / 2)) as [H1 H2].
  split; [exists (1 / 2); split; [lra|reflexivity]|]. rewrite H1, H2, !Rabs_right by lra.
  split; [lra|]. split; [lra|]. reflexivity.
Qed.

Lemma normalize_unit (x y : R) : (x, y) <> (0, 0) ->
  exists u v, normalize (N := RNum) (x, y) = Ok (u, v) /\ u * u + v * v = 1 /\
    0 < sqrt (x * x + y * y) /\ x = sqrt (x * x + y * y) * u /\ y = sqrt (x * x + y * y) * v.
Proof.
  intros H. unfold normalize, divr; rnum; cbn [fst snd].
  set (n := sqrt (x * x + y * y)).
  assert (Hp : 0 < x * x + y * y).
  { pose proof (Rle_0_sqr x). pose proof (Rle_0_sqr y). unfold Rsqr in *.
    destruct (Rle_lt_or_eq_dec 0 (x * x + y * y)) as [?|E]; [lra|assumption|].
    symmetry in E. apply sumsq_zero in E as [-> ->]. congruence. }
  assert (Hn : 0 < n) by (apply sqrt_lt_R0; assumption).
  assert (Hnn : n * n = x * x + y * y) by (apply sqrt_sqrt; lra).
  change (R_sqrt.sqrt (x * x + y * y)) with n.
  rewrite Reqb_false by lra. cbn [bind]. exists (x / n), (y / n). split; [reflexivity|].
  split; [|split; [assumption|split; field; lra]].
  replace (x / n * (x / n) + y / n * (y / n)) with ((x * x + y * y) / (n * n)) by (field; lra).
  rewrite Hnn. field. lra.
Qed.

Lemma normalize_zero : normalize (N := RNum) (0, 0) = Err NonFinite.
Proof.
  unfold normalize, divr; rnum; cbn [fst snd]. rewrite Rmult_0_l, Rplus_0_l.
  change (R_sqrt.sqrt 0) with (sqrt 0). rewrite sqrt_0, Reqb_true by reflexivity. reflexivity.
Qed.

Lemma orderCCW_spec (p : list (Point RNum)) (s : iseg) (c a b : Point RNum) :
  vget p (fst s) = Ok a -> vget p (snd s) = Ok b ->
  exists s', iseg_orderCCW (N := RNum) p s c = Ok s' /\ (s' = s \/ s' = (snd s, fst s)) /\
    (orient (xy a) (xy b) (xy c) <> 0 -> iseg_isCCW (N := RNum) p s' c = Ok true).
Proof.
  intros Ha Hb. unfold iseg_orderCCW, iseg_isCCW. rewrite Ha, Hb. cbn [bind].
  eexists. split; [reflexivity|].
  assert (E : orientation (N := RNum) a b c = orient (xy a) (xy b) (xy c)) by reflexivity.
  rewrite E. rnum. destruct (Rltb_spec 0 (orient (xy a) (xy b) (xy c))) as [H|H].
  - split; [auto|]. intros _. rewrite Ha, Hb. cbn [bind]. rewrite E, Rltb_true by assumption. reflexivity.
  - split; [auto|]. intros Hne. cbn [fst snd]. rewrite Ha, Hb. cbn [bind].
    assert (E' : orientation (N := RNum) b a c = orient (xy b) (xy a) (xy c)) by reflexivity.
    rewrite E', Rltb_true; [reflexivity|].
    replace (orient (xy b) (xy a) (xy c)) with (- orient (xy a) (xy b) (xy c))
      by (unfold orient, vcross, vsub; cbn [fst snd]; ring). lra.
Qed.

(** * C60 *)
Lemma nmin_Rmin a b : nmin (N := RNum) a b = Rmin a b.
Proof. unfold nmin; rnum. destruct (Rltb_spec b a); symmetry; [apply Rmin_right|apply Rmin_left]; lra. Qed.
Lemma nmax_Rmax a b : nmax (N := RNum) a b = Rmax a b.
Proof. unfold nmax; rnum. destruct (Rltb_spec a b); symmetry; [apply Rmax_right|apply Rmax_left]; lra. Qed.
Lemma Rabs_maxmin a b : Rabs (a - b) = Rmax a b - Rmin a b.
Proof.
  unfold Rmax, Rmin, Rabs. destruct (Rle_dec a b), (Rcase_abs (a - b)); lra.
Qed.

Lemma bbox_normalised : forall (b : bbox RNum),
  bb_width b = Rmax (px (bb1 b)) (px (bb2 b)) - Rmin (px (bb1 b)) (px (bb2 b)) /\ 0 <= bb_width b /\
  bb_height b = Rmax (py (bb1 b)) (py (bb2 b)) - Rmin (py (bb1 b)) (py (bb2 b)) /\ 0 <= bb_height b /\
  bb_xMin b = Rmin (px (bb1 b)) (px (bb2 b)) /\ bb_xMax b = Rmax (px (bb1 b)) (px (bb2 b)) /\
  bb_yMin b = Rmin (py (bb1 b)) (py (bb2 b)) /\ bb_yMax b = Rmax (py (bb1 b)) (py (bb2 b)) /\
  (forall p, bb_contains b p = true <->
     (Rmin (px (bb1 b)) (px (bb2 b)) <= px p <= Rmax (px (bb1 b)) (px (bb2 b)) /\
      Rmin (py (bb1 b)) (py (bb2 b)) <= py p <= Rmax (py (bb1 b)) (py (bb2 b)))) /\
  (forall tol c, bb_eqb (N := RNum) tol (mkBox (bb2 b) (bb1 b)) c = bb_eqb (N := RNum) tol b c).
Proof.
  intros b. unfold bb_width, bb_height, bb_xMin, bb_yMin, bb_xMax, bb_yMax, bb_contains, bb_xMin, bb_yMin, bb_xMax, bb_yMax.
  rewrite !nmin_Rmin, !nmax_Rmax. rnum. repeat split; try (apply Rabs_maxmin || apply Rabs_pos);
    try (rewrite ?andb_true_iff, ?Rleb_iff in *; tauto).
  intros tol c. unfold bb_eqb. cbn [bb1 bb2]. rewrite orb_comm. reflexivity.
Qed.

(** the four sides appended form a closed rectangle *)
Lemma bbox_segments : forall (b : bbox RNum) segs,
  exists p1 p2 p3 p4, bb_segments b segs = segs ++ [(p1, p2); (p2, p3); (p3, p4); (p4, p1)] /\
    xy p1 = (px (bb1 b), py (bb1 b)) /\ xy p2 = (px (bb2 b), py (bb1 b)) /\
    xy p3 = (px (bb2 b), py (bb2 b)) /\ xy p4 = (px (bb1 b), py (bb2 b)).
Proof. intros b segs. unfold bb_segments. do 4 eexists. split; [reflexivity|]. repeat split; reflexivity. Qed.

(** * C48 *)
Section ConfigProofs.
  Context {N : Num}.
  Lemma config_history_from (h : list (config_op N)) s :
    let c := instance (fold_left config_call h s) in
    cf_grade c = last_of set_grade_of (cf_grade (instance s)) h /\
    cf_tol c = last_of set_tol_of (cf_tol (instance s)) h /\
    cf_scale c = last_of set_scale_of (cf_scale (instance s)) h /\
    cf_prec c = last_of set_prec_of (cf_prec (instance s)) h.
  Proof.
    revert s; induction h as [|o h IH]; intros s; cbn [fold_left]; [repeat split; reflexivity|].
    specialize (IH (config_call s o)). cbv zeta in IH |- *. destruct IH as (-> & -> & -> & ->).
    unfold last_of. cbn [fold_left]. destruct o as [d|t|d|[]|p]; repeat split; reflexivity.
  Qed.
  Lemma config_history (h : list (config_op N)) :
    let c := instance (fold_left config_call h None) in
    cf_grade c = last_of set_grade_of 12%Z h /\
    cf_tol c = last_of set_tol_of (ndiv (nZ 1) (nZ 100000)) h /\
    cf_scale c = last_of set_scale_of 100000%Z h /\
    cf_prec c = last_of set_prec_of 6%Z h.
  Proof. apply config_history_from. Qed.
End ConfigProofs.
