(** Proofs about the memory of callTriangle. *)
From Coq Require Import List Bool ZArith Lia.
From Verif Require Import Base MUtil MGeom MPolygon MMaps MTriangle MGen MRegion MDelaunay MHeap BridgeHeap.
Import ListNotations.
Open Scope Z_scope.

Section Heap.
  Context {N : Num}.
  Notation heap := (heap N). Notation cell := (cell N). Notation Point := (Point N).

  Lemma get_set : forall (h : heap) b l c, hp_get (hp_set h b l) c = if (c =? b)%Z then Some l else hp_get h c.
  Proof. reflexivity. Qed.
  Lemma get_drop : forall (h : heap) b c, hp_get (hp_drop h b) c = if (c =? b)%Z then None else hp_get h c.
  Proof.
    unfold hp_drop. induction h as [|[b' l] h IH]; intros b c; cbn.
    - destruct (c =? b)%Z; reflexivity.
    - destruct (b' =? b)%Z eqn:E; cbn.
      + rewrite IH. apply Z.eqb_eq in E. subst. destruct (c =? b)%Z; reflexivity.
      + destruct (c =? b')%Z eqn:F.
        * apply Z.eqb_eq in F. subst. rewrite E. reflexivity.
        * apply IH.
  Qed.

  Definition same_off (ps : list ptr) (h h' : heap) : Prop := forall c, ~ In (Ptr c) ps -> hp_get h' c = hp_get h c.
  Lemma same_off_refl : forall ps h, same_off ps h h.
  Proof. intros ps h c _. reflexivity. Qed.
  Lemma same_off_trans : forall ps h1 h2 h3, same_off ps h1 h2 -> same_off ps h2 h3 -> same_off ps h1 h3.
  Proof. intros ps h1 h2 h3 A B c H. rewrite (B c H). exact (A c H). Qed.
  Lemma same_off_incl : forall ps qs h1 h2, incl ps qs -> same_off ps h1 h2 -> same_off qs h1 h2.
  Proof. intros ps qs h1 h2 I A c H. apply A. intro K. exact (H (I _ K)). Qed.
  Lemma array_kept : forall ps h h' q (l : list cell), same_off ps h h' -> (forall b, q = Ptr b -> ~ In (Ptr b) ps) -> array_is h q l -> array_is h' q l.
  Proof. intros ps h h' [|b|] l S A H; cbn in *; try exact H. rewrite (S b (A b eq_refl)). exact H. Qed.

  Lemma vgetn_mid : forall A (xs ys : list A) a, vgetn (xs ++ a :: ys) (length xs) = Ok a.
  Proof. intros. unfold vgetn. rewrite nth_error_app2, Nat.sub_diag by lia. reflexivity. Qed.
  Lemma vget_mid : forall A (xs ys : list A) a, vget (xs ++ a :: ys) (zlen xs) = Ok a.
  Proof. intros. unfold vget, zlen. replace (Z.of_nat (length xs) <? 0) with false by (symmetry; apply Z.ltb_ge; lia). rewrite Nat2Z.id. apply vgetn_mid. Qed.
  Lemma upd_mid : forall A (xs ys : list A) a f, upd_nth (length xs) f (xs ++ a :: ys) = xs ++ f a :: ys.
  Proof. induction xs as [|x xs IH]; intros; cbn; [reflexivity|rewrite IH; reflexivity]. Qed.

  Lemma store_next : forall (h : heap) p xs a ys v, array_is h p (xs ++ a :: ys) -> exists h', store h p (zlen xs) v = Ok h' /\ array_is h' p (xs ++ v :: ys) /\ same_off [p] h h'.
  Proof.
    intros h [|b|] xs a ys v H; cbn in H.
    - destruct xs; discriminate.
    - unfold store. rewrite H, vget_mid. cbn [bind]. eexists. split; [reflexivity|]. split.
      + cbn. rewrite Z.eqb_refl. unfold zlen. rewrite Nat2Z.id, upd_mid. reflexivity.
      + intros c K. rewrite get_set. destruct (c =? b)%Z eqn:E; [|reflexivity]. apply Z.eqb_eq in E. subst. exfalso. apply K. left. reflexivity.
    - destruct H.
  Qed.

  Lemma zlen_app : forall A (l m : list A), zlen (l ++ m) = zlen l + zlen m.
  Proof. intros. unfold zlen. rewrite app_length. lia. Qed.
  Lemma zlen_cons : forall A (a : A) l, zlen (a :: l) = 1 + zlen l.
  Proof. intros. unfold zlen. cbn [length]. lia. Qed.
  Lemma zlen_pos : forall A (l : list A), 0 <= zlen l.
  Proof. intros. unfold zlen. lia. Qed.
  Lemma int_of_ok : forall z, 0 <= z <= 2147483647 -> int_of z = Ok z.
  Proof. intros z H. unfold int_of, in_int, int_min, int_max. replace (-2147483648 <=? z) with true by (symmetry; apply Z.leb_le; lia). replace (z <=? 2147483647) with true by (symmetry; apply Z.leb_le; lia). reflexivity. Qed.

  Definition apart (p q : ptr) : Prop := forall b, p = Ptr b -> q <> Ptr b.
  Lemma apart_sym : forall p q, apart p q -> apart q p.
  Proof. intros p q H b E F. exact (H b F E). Qed.
  Lemma kept1 : forall h h' p q (l : list cell), same_off [p] h h' -> apart p q -> array_is h q l -> array_is h' q l.
  Proof. intros h h' p q l S A H. apply (array_kept [p] h); [exact S| |exact H]. intros b E [K|[]]. exact (A b K E). Qed.

  Lemma repeat_2S : forall n, repeat (@Indet N) (2 * S n) = Indet :: Indet :: repeat Indet (2 * n).
  Proof. intro n. replace (2 * S n)%nat with (S (S (2 * n))) by lia. reflexivity. Qed.
  Lemma snoc : forall A (xs ys : list A) a, xs ++ a :: ys = (xs ++ [a]) ++ ys.
  Proof. intros. rewrite <- app_assoc. reflexivity. Qed.

  Lemma fill_points_ok : forall pl pal (ps : list Point) h i pts xs ys, apart pl pal -> array_is h pl (xs ++ repeat Indet (2 * length ps)) -> array_is h pal (ys ++ repeat Indet (length ps)) ->
    zlen xs = pts -> zlen ys = i -> 0 <= pts -> pts + 2 * zlen ps <= 2147483647 ->
    exists h', fill_points pl pal i pts ps h = Ok h' /\ array_is h' pl (xs ++ reals2 (map (fun q => (px q, py q)) ps)) /\
      array_is h' pal (ys ++ map (fun _ => CReal (nZ 0)) ps) /\ same_off [pl; pal] h h'.
  Proof.
    intros pl pal. induction ps as [|q ps IH]; intros h i pts xs ys A H1 H2 L1 L2 P B.
    - exists h. cbn in *. split; [reflexivity|]. split; [exact H1|]. split; [exact H2|apply same_off_refl].
    - rewrite zlen_cons in B. pose proof (zlen_pos _ ps) as Z0. cbn [length] in H1, H2. rewrite repeat_2S in H1. cbn [repeat] in H2. cbn [fill_points].
      destruct (store_next h pl xs Indet _ (CReal (px q)) H1) as [h1 [E1 [K1 S1]]]. rewrite <- L1, E1, L1. cbn [bind].
      rewrite int_of_ok by lia. cbn [bind]. rewrite snoc in K1.
      destruct (store_next h1 pl (xs ++ [CReal (px q)]) Indet _ (CReal (py q)) K1) as [h2 [E2 [K2 S2]]].
      replace (pts + 1) with (zlen (xs ++ [CReal (px q)])) by (rewrite zlen_app; change (zlen [CReal (px q)]) with 1; lia). rewrite E2. cbn [bind].
      assert (K3 : array_is h2 pal (ys ++ Indet :: repeat Indet (length ps))).
      { apply (kept1 h1 h2 pl); [exact S2|exact A|]. apply (kept1 h h1 pl); [exact S1|exact A|]. exact H2. }
      destruct (store_next h2 pal ys Indet _ (CReal (nZ 0)) K3) as [h3 [E3 [K4 S3]]]. rewrite <- L2, E3, L2. cbn [bind].
      rewrite int_of_ok by lia. cbn [bind].
      assert (K5 : array_is h3 pl ((xs ++ [CReal (px q); CReal (py q)]) ++ repeat Indet (2 * length ps))).
      { apply (kept1 h2 h3 pal); [exact S3|apply apart_sym; exact A|]. rewrite <- app_assoc in K2 |- *. exact K2. }
      rewrite snoc in K4.
      destruct (IH h3 (i + 1) (pts + 2) (xs ++ [CReal (px q); CReal (py q)]) (ys ++ [CReal (nZ 0)]) A K5 K4) as [h4 [E4 [K6 [K7 S4]]]].
      { rewrite zlen_app. change (zlen [CReal (px q); CReal (py q)]) with 2. lia. }
      { rewrite zlen_app. change (zlen [@CReal N (nZ 0)]) with 1. lia. }
      { lia. } { lia. }
      exists h4. split; [exact E4|]. split; [rewrite <- app_assoc in K6; exact K6|]. split; [rewrite <- app_assoc in K7; exact K7|].
      apply (same_off_trans _ h h3); [|exact S4]. apply (same_off_trans _ h h2); [apply (same_off_trans _ h h1)|].
      + apply (same_off_incl [pl]); [intros x [X|[]]; left; exact X|exact S1].
      + apply (same_off_incl [pl]); [intros x [X|[]]; left; exact X|exact S2].
      + apply (same_off_incl [pal]); [intros x [X|[]]; right; left; exact X|exact S3].
  Qed.

  Lemma store2 : forall (h : heap) p xs ys v w, array_is h p (xs ++ Indet :: Indet :: ys) -> exists h1 h2, store h p (zlen xs) v = Ok h1 /\ store h1 p (zlen xs + 1) w = Ok h2 /\
    array_is h2 p ((xs ++ [v; w]) ++ ys) /\ same_off [p] h h2.
  Proof.
    intros h p xs ys v w H. destruct (store_next h p xs Indet _ v H) as [h1 [E1 [K1 S1]]]. rewrite snoc in K1.
    destruct (store_next h1 p (xs ++ [v]) Indet _ w K1) as [h2 [E2 [K2 S2]]]. exists h1, h2. split; [exact E1|].
    rewrite zlen_app in E2. change (zlen [v]) with 1 in E2. split; [exact E2|]. split; [rewrite <- app_assoc in K2 |- *; exact K2|].
    exact (same_off_trans _ _ _ _ S1 S2).
  Qed.

  Lemma fill_segments_ok : forall sl (ri : list Z) m (segs : list iseg) ss h k xs,
    mapM (fun s => a <- vget ri (fst s) ;; b <- vget ri (snd s) ;; Ok (a, b)) segs = Ok ss ->
    array_is h sl (xs ++ repeat Indet (2 * (length segs + m))) -> zlen xs = 2 * k -> 0 <= k -> 2 * (k + zlen segs) <= 2147483647 ->
    exists h', fill_segments sl ri k segs h = Ok (h', k + zlen segs) /\ array_is h' sl ((xs ++ ints2 ss) ++ repeat Indet (2 * m)) /\ same_off [sl] h h'.
  Proof.
    intros sl ri m. induction segs as [|s segs IH]; intros ss h k xs M H L P B.
    - cbn in M. injection M as M. subst ss. exists h. cbn [fill_segments]. unfold zlen at 1. cbn [length Z.of_nat]. rewrite Z.add_0_r. split; [reflexivity|]. split; [|apply same_off_refl].
      cbn [ints2 flat_map]. rewrite app_nil_r. exact H.
    - cbn [mapM] in M. destruct (vget ri (fst s)) as [a|e] eqn:Ea; [|discriminate M]. cbn [bind] in M.
      destruct (vget ri (snd s)) as [b|e] eqn:Eb; [|discriminate M]. cbn [bind] in M.
      destruct (mapM (fun s0 : Z * Z => a0 <- vget ri (fst s0);; b0 <- vget ri (snd s0);; Ok (a0, b0)) segs) as [bs|e] eqn:Em; [|discriminate M]. cbn [bind] in M. injection M as M. subst ss.
      rewrite zlen_cons in B |- *. pose proof (zlen_pos _ segs) as Z0. cbn [length] in H. replace (2 * (S (length segs) + m))%nat with (2 * S (length segs + m))%nat in H by lia. rewrite repeat_2S in H.
      cbn [fill_segments]. rewrite Ea. cbn [bind].
      destruct (store2 h sl xs _ (CInt a) (CInt b) H) as [h1 [h2 [E1 [E2 [K S]]]]]. rewrite L in E1, E2.
      rewrite int_of_ok by lia. cbn [bind]. rewrite E1. cbn [bind]. rewrite Eb. cbn [bind]. rewrite int_of_ok by lia. cbn [bind]. rewrite E2. cbn [bind].
      destruct (IH bs h2 (k + 1) (xs ++ [CInt a; CInt b]) eq_refl K) as [h3 [E3 [K3 S3]]].
      { rewrite zlen_app. change (zlen [@CInt N a; CInt b]) with 2. lia. } { lia. } { lia. }
      exists h3. rewrite E3. split; [f_equal; f_equal; lia|]. split; [|exact (same_off_trans _ _ _ _ S S3)].
      replace ((xs ++ ints2 ((a, b) :: bs)) ++ repeat Indet (2 * m)) with (((xs ++ [CInt a; CInt b]) ++ ints2 bs) ++ repeat Indet (2 * m)); [exact K3|]. cbn [ints2 flat_map fst snd]. rewrite <- !app_assoc. reflexivity.
  Qed.

  Lemma fill_restricted_ok : forall tol (pl : ulist Point) sl (segs : list (pseg N)) h k xs,
    array_is h sl (xs ++ repeat Indet (2 * length segs)) -> zlen xs = 2 * k -> 0 <= k -> 2 * (k + zlen segs) <= 2147483647 ->
    exists h', fill_restricted tol pl sl k segs h = Ok h' /\
      array_is h' sl (xs ++ ints2 (map (fun s : pseg N => (ul_indexOf (pt_eqb tol) pl (fst s), ul_indexOf (pt_eqb tol) pl (snd s))) segs)) /\ same_off [sl] h h'.
  Proof.
    intros tol pl sl. induction segs as [|s segs IH]; intros h k xs H L P B.
    - exists h. cbn in *. split; [reflexivity|]. split; [exact H|apply same_off_refl].
    - rewrite zlen_cons in B. pose proof (zlen_pos _ segs) as Z0. cbn [length] in H. rewrite repeat_2S in H. cbn [fill_restricted].
      destruct (store2 h sl xs _ (CInt (ul_indexOf (pt_eqb tol) pl (fst s))) (CInt (ul_indexOf (pt_eqb tol) pl (snd s))) H) as [h1 [h2 [E1 [E2 [K S]]]]]. rewrite L in E1, E2.
      rewrite int_of_ok by lia. cbn [bind]. rewrite E1. cbn [bind]. rewrite int_of_ok by lia. cbn [bind]. rewrite E2. cbn [bind].
      destruct (IH h2 (k + 1) _ K) as [h3 [E3 [K3 S3]]].
      { rewrite zlen_app. unfold zlen at 2. cbn [length]. lia. } { lia. } { lia. }
      exists h3. split; [exact E3|]. split; [|exact (same_off_trans _ _ _ _ S S3)]. rewrite <- app_assoc in K3. exact K3.
  Qed.

  Lemma fill_holes_ok : forall hl (hs : list (hole N)) h i xs, array_is h hl (xs ++ repeat Indet (2 * length hs)) -> zlen xs = 2 * i -> 0 <= i -> 2 * (i + zlen hs) <= 2147483647 ->
    exists h', fill_holes hl i hs h = Ok h' /\ array_is h' hl (xs ++ reals2 (map (fun x => (px (h_center x), py (h_center x))) hs)) /\ same_off [hl] h h'.
  Proof.
    intros hl. induction hs as [|x hs IH]; intros h i xs H L P B.
    - exists h. cbn in *. split; [reflexivity|]. split; [exact H|apply same_off_refl].
    - rewrite zlen_cons in B. pose proof (zlen_pos _ hs) as Z0. cbn [length] in H. rewrite repeat_2S in H. cbn [fill_holes].
      destruct (store2 h hl xs _ (CReal (px (h_center x))) (CReal (py (h_center x))) H) as [h1 [h2 [E1 [E2 [K S]]]]]. rewrite L in E1, E2.
      rewrite int_of_ok by lia. cbn [bind]. rewrite E1. cbn [bind]. rewrite int_of_ok by lia. cbn [bind]. rewrite E2. cbn [bind].
      destruct (IH h2 (i + 1) _ K) as [h3 [E3 [K3 S3]]].
      { rewrite zlen_app. unfold zlen at 2. cbn [length]. lia. } { lia. } { lia. }
      exists h3. split; [exact E3|]. split; [|exact (same_off_trans _ _ _ _ S S3)]. rewrite <- app_assoc in K3. exact K3.
  Qed.

  Lemma malloc_ok : forall alloc k (h : heap) n h' p, fresh_blocks alloc -> enough_memory alloc -> 0 <= n -> malloc alloc k h n = (h', p) ->
    array_is h' p (repeat Indet (Z.to_nat n)) /\ (forall b, p = Ptr b -> hp_get h b = None) /\ same_off [p] h h'.
  Proof.
    intros alloc k h n h' p F E P M. unfold malloc in M. destruct (alloc k h n) as [b|] eqn:A; injection M as <- <-.
    - split; [cbn; rewrite Z.eqb_refl; reflexivity|]. split; [intros b' B; injection B as <-; exact (F _ _ _ _ A)|].
      intros c K. rewrite get_set. destruct (c =? b)%Z eqn:Q; [|reflexivity]. apply Z.eqb_eq in Q. subst. exfalso. apply K. left. reflexivity.
    - assert (n = 0). { destruct (Z.eq_dec n 0) as [Z0|Z0]; [exact Z0|]. exfalso. apply (E k h n); [lia|exact A]. }
      subst n. split; [reflexivity|]. split; [discriminate|apply same_off_refl].
  Qed.

  Definition live (h : heap) (p : ptr) : Prop := forall b, p = Ptr b -> hp_get h b <> None.
  Definition unborn (h : heap) (p : ptr) : Prop := forall b, p = Ptr b -> hp_get h b = None.
  Lemma array_live : forall h p (l : list cell), array_is h p l -> live h p.
  Proof. intros h p l H b E. subst p. cbn in H. rewrite H. discriminate. Qed.
  Lemma live_unborn : forall h p q, live h p -> unborn h q -> apart p q.
  Proof. intros h p q L U b E F. exact (L b E (U b F)). Qed.
  (** what build_input leaves behind *)
  Record built (h h1 : heap) (io : tio) : Prop := {
    bu_off : same_off [io_ptr io pointlist; io_ptr io pointattributelist; io_ptr io segmentlist; io_ptr io holelist] h h1;
    bu_new : forall f, In f [pointlist; pointattributelist; segmentlist; holelist] -> unborn h (io_ptr io f);
    bu_apart : forall f g, In f [pointlist; pointattributelist; segmentlist; holelist] -> In g [pointlist; pointattributelist; segmentlist; holelist] -> f <> g -> apart (io_ptr io f) (io_ptr io g) }.

  Lemma unborn_off : forall ps h h' q, same_off ps h h' -> (forall p, In p ps -> apart q p) -> unborn h' q -> unborn h q.
  Proof. intros ps h h' q S A U b E. rewrite <- (S b); [exact (U b E)|]. intro I. exact (A _ I b E eq_refl). Qed.

  Lemma build_input_ok : forall alloc tol (r : region N) seeds restricted h inp, fresh_blocks alloc -> enough_memory alloc ->
    build_pslg tol r seeds restricted = Ok inp -> fits_in inp ->
    exists h1 io, build_input alloc tol r seeds restricted h = Ok (h1, io) /\ holds_input h1 io inp /\ built h h1 io.
  Proof.
    intros alloc tol r seeds restricted h inp F E B [Fp [Fs Fh]]. unfold build_pslg in B. unfold build_input.
    destruct (ul_push_list (pt_ltb tol) ul_empty seeds) as [u1 i1]. destruct (ul_push_list (pt_ltb tol) u1 (getRegionPoints r)) as [pl ri].
    destruct (region_getSegments r []) as [segs|e]; [|discriminate B]. cbn [bind] in B.
    destruct (mapM (fun s : Z * Z => a <- vget ri (fst s);; b <- vget ri (snd s);; Ok (a, b)) segs) as [ss|e] eqn:M; [|discriminate B]. cbn [bind] in B.
    assert (LM : length ss = length segs).
    { clear - M. revert ss M. induction segs as [|s segs IH]; intros ss M; cbn [mapM] in M.
      - injection M as <-. reflexivity.
      - destruct (vget ri (fst s)); [|discriminate M]. cbn [bind] in M. destruct (vget ri (snd s)); [|discriminate M]. cbn [bind] in M.
        destruct (mapM (fun s : Z * Z => a <- vget ri (fst s);; b <- vget ri (snd s);; Ok (a, b)) segs) as [bs|e] eqn:Q; [|discriminate M]. cbn [bind] in M. injection M as <-. cbn. f_equal. exact (IH _ eq_refl). }
    assert (Ei : inp = mkPslg (map (fun q => (px q, py q)) (ul_list pl)) (ss ++ map (fun s : pseg N => (ul_indexOf (pt_eqb tol) pl (fst s), ul_indexOf (pt_eqb tol) pl (snd s))) restricted)
      (map (fun h0 => (px (h_center h0), py (h_center h0))) (rg_holes r))) by congruence.
    clear B. rewrite Ei in Fp, Fs, Fh. cbn [in_points in_segments in_holes] in Fp, Fs, Fh.
    unfold zlen in Fp, Fs, Fh. rewrite app_length, map_length in Fs. rewrite map_length in Fp, Fh.
    rewrite int_of_ok by (unfold zlen; lia). cbn [bind].
    destruct (malloc alloc 0 h (zlen (ul_list pl) * 2)) as [h1 ppl] eqn:M1.
    destruct (malloc alloc 1 h1 (zlen (ul_list pl))) as [h2 ppal] eqn:M2.
    destruct (malloc_ok _ _ _ (zlen (ul_list pl) * 2) _ _ F E ltac:(unfold zlen; lia) M1) as [A1 [U1 S1]].
    destruct (malloc_ok _ _ _ (zlen (ul_list pl)) _ _ F E ltac:(unfold zlen; lia) M2) as [A2 [U2 S2]].
    assert (Ap12 : apart ppl ppal) by exact (live_unborn _ _ _ (array_live _ _ _ A1) U2).
    pose proof (kept1 _ _ _ _ _ S2 (apart_sym _ _ Ap12) A1) as A1'.
    replace (Z.to_nat (zlen (ul_list pl) * 2)) with (2 * length (ul_list pl))%nat in A1' by (unfold zlen; lia).
    replace (Z.to_nat (zlen (ul_list pl))) with (length (ul_list pl)) in A2 by (unfold zlen; lia).
    destruct (fill_points_ok ppl ppal (ul_list pl) h2 0 0 [] [] Ap12 A1' A2 eq_refl eq_refl ltac:(lia) ltac:(unfold zlen; lia)) as [h3 [E3 [K1 [K2 S3]]]].
    rewrite E3. cbn [bind]. cbn [app] in K1, K2.
    assert (Ns : zlen segs + zlen restricted = Z.of_nat (length ss + length restricted)) by (unfold zlen; lia).
    rewrite int_of_ok by (unfold zlen; lia). cbn [bind]. rewrite int_of_ok by (unfold zlen; lia). cbn [bind].
    destruct (malloc alloc 2 h3 ((zlen segs + zlen restricted) * 2)) as [h4 psl] eqn:M3.
    destruct (malloc_ok _ _ _ ((zlen segs + zlen restricted) * 2) _ _ F E ltac:(unfold zlen; lia) M3) as [A3 [U3 S4]].
    replace (Z.to_nat ((zlen segs + zlen restricted) * 2)) with (2 * (length segs + length restricted))%nat in A3 by (unfold zlen; lia).
    assert (Ap13 : apart psl ppl) by exact (apart_sym _ _ (live_unborn _ _ _ (array_live _ _ _ K1) U3)).
    assert (Ap23 : apart psl ppal) by exact (apart_sym _ _ (live_unborn _ _ _ (array_live _ _ _ K2) U3)).
    destruct (fill_segments_ok psl ri (length restricted) segs ss h4 0 [] M A3 eq_refl ltac:(lia) ltac:(unfold zlen; lia)) as [h5 [E5 [K3 S5]]].
    rewrite E5. cbn [bind]. cbn [app] in K3.
    destruct (fill_restricted_ok tol pl psl restricted h5 (0 + zlen segs) (ints2 ss) K3) as [h6 [E6 [K4 S6]]].
    { unfold zlen, ints2. rewrite <- LM. clear. induction ss as [|s ss IH]; [reflexivity|]. cbn [flat_map app length]. lia. }
    { unfold zlen. lia. } { unfold zlen. lia. }
    rewrite E6. cbn [bind]. rewrite int_of_ok by (unfold zlen; lia). cbn [bind].
    assert (S46 : same_off [psl] h3 h6) by (apply (same_off_trans _ h3 h4); [exact S4|]; apply (same_off_trans _ h4 h5); [exact S5|exact S6]).
    pose proof (kept1 _ _ _ _ _ S46 Ap13 K1) as K1a. pose proof (kept1 _ _ _ _ _ S46 Ap23 K2) as K2a.
    destruct (malloc alloc 3 h6 (zlen (rg_holes r) * 2)) as [h7 phl] eqn:M4.
    destruct (malloc_ok _ _ _ (zlen (rg_holes r) * 2) _ _ F E ltac:(unfold zlen; lia) M4) as [A4 [U4 S7]].
    replace (Z.to_nat (zlen (rg_holes r) * 2)) with (2 * length (rg_holes r))%nat in A4 by (unfold zlen; lia).
    assert (Ap14 : apart phl ppl) by exact (apart_sym _ _ (live_unborn _ _ _ (array_live _ _ _ K1a) U4)).
    assert (Ap24 : apart phl ppal) by exact (apart_sym _ _ (live_unborn _ _ _ (array_live _ _ _ K2a) U4)).
    assert (Ap34 : apart phl psl) by exact (apart_sym _ _ (live_unborn _ _ _ (array_live _ _ _ K4) U4)).
    destruct (fill_holes_ok phl (rg_holes r) h7 0 [] A4 eq_refl ltac:(lia) ltac:(unfold zlen; lia)) as [h8 [E8 [K5 S8]]].
    rewrite E8. cbn [bind]. cbn [app] in K5.
    assert (S78 : same_off [phl] h6 h8) by exact (same_off_trans _ _ _ _ S7 S8).
    pose proof (kept1 _ _ _ _ _ S78 Ap14 K1a) as K1b. pose proof (kept1 _ _ _ _ _ S78 Ap24 K2a) as K2b. pose proof (kept1 _ _ _ _ _ S78 Ap34 K4) as K4b.
    eexists. eexists. split; [reflexivity|]. rewrite Ei. split.
    - constructor; cbn [io_ptr io_num in_points in_segments in_holes].
      + split; [exact K1b|]. unfold zlen. rewrite map_length. reflexivity.
      + split; [|reflexivity]. rewrite map_map. exact K2b.
      + split; [|unfold zlen; rewrite app_length, map_length; f_equal; lia]. unfold ints2 in *. rewrite flat_map_app. exact K4b.
      + split; [exact K5|]. unfold zlen. rewrite map_length. reflexivity.
      + split; reflexivity.
      + reflexivity.
    - assert (S03 : same_off [ppl; ppal] h h3).
      { apply (same_off_trans _ h h2); [|exact S3]. apply (same_off_trans _ h h1).
        - apply (same_off_incl [ppl]); [intros x [X|[]]; left; exact X|exact S1].
        - apply (same_off_incl [ppal]); [intros x [X|[]]; right; left; exact X|exact S2]. }
      constructor; cbn [io_ptr].
      + apply (same_off_trans _ h h3); [|apply (same_off_trans _ h3 h6)].
        * apply (same_off_incl [ppl; ppal]); [intros x [X|[X|[]]]; [left|right; left]; exact X|exact S03].
        * apply (same_off_incl [psl]); [intros x [X|[]]; right; right; left; exact X|exact S46].
        * apply (same_off_incl [phl]); [intros x [X|[]]; right; right; right; left; exact X|exact S78].
      + assert (N2 : unborn h ppal).
        { apply (unborn_off [ppl] h h1); [exact S1| |exact U2]. intros p [X|[]]. subst p. apply apart_sym. exact Ap12. }
        assert (N3 : unborn h psl).
        { apply (unborn_off [ppl; ppal] h h3); [exact S03| |exact U3]. intros p [X|[X|[]]]; subst p; [exact Ap13|exact Ap23]. }
        assert (N4 : unborn h phl).
        { apply (unborn_off [ppl; ppal] h h3); [exact S03| |].
          - intros p [X|[X|[]]]; subst p; [exact Ap14|exact Ap24].
          - apply (unborn_off [psl] h3 h6); [exact S46| |exact U4]. intros p [X|[]]; subst p; exact Ap34. }
        intros f [X|[X|[X|[X|[]]]]]; subst f; cbn; [exact U1|exact N2|exact N3|exact N4].
      + intros f g [X|[X|[X|[X|[]]]]] [Y|[Y|[Y|[Y|[]]]]] D; subst f g; cbn; try (exfalso; apply D; reflexivity); first [assumption | apply apart_sym; assumption].
  Qed.

  (** reading *)
  Lemma load_at : forall (h : heap) p l i c, array_is h p l -> nth_error l i = Some c -> load h p (Z.of_nat i) = Ok c.
  Proof.
    intros h [|b|] l i c A E; cbn in A.
    - subst l. destruct i; discriminate E.
    - unfold load. rewrite A. unfold vget. replace (Z.of_nat i <? 0) with false by (symmetry; apply Z.ltb_ge; lia). rewrite Nat2Z.id. unfold vgetn. rewrite E. reflexivity.
    - destruct A.
  Qed.
  Lemma loadR_at : forall (h : heap) p l i j x, array_is h p l -> nth_error l i = Some (CReal x) -> j = Z.of_nat i -> loadR h p j = Ok x.
  Proof. intros h p l i j x A E J. subst j. unfold loadR. rewrite (load_at _ _ _ _ _ A E). reflexivity. Qed.
  Lemma loadZ_at : forall (h : heap) p l i j x, array_is h p l -> nth_error l i = Some (CInt x) -> j = Z.of_nat i -> loadZ h p j = Ok x.
  Proof. intros h p l i j x A E J. subst j. unfold loadZ. rewrite (load_at _ _ _ _ _ A E). reflexivity. Qed.
  Lemma nth_2 : forall A B (f g : A -> B) (l : list A) i a, nth_error l i = Some a ->
    nth_error (flat_map (fun q => [f q; g q]) l) (2 * i) = Some (f a) /\ nth_error (flat_map (fun q => [f q; g q]) l) (2 * i + 1) = Some (g a).
  Proof.
    intros A B f g. induction l as [|q l IH]; intros i a E; [destruct i; discriminate E|]. destruct i as [|i].
    - injection E as <-. split; reflexivity.
    - cbn in E. destruct (IH i a E) as [X Y]. replace (2 * S i)%nat with (S (S (2 * i))) by lia. replace (S (S (2 * i)) + 1)%nat with (S (S (2 * i + 1))) by lia. split; [exact X|exact Y].
  Qed.
  Lemma nth_3 : forall A B (f g k : A -> B) (l : list A) i a, nth_error l i = Some a ->
    nth_error (flat_map (fun q => [f q; g q; k q]) l) (3 * i) = Some (f a) /\ nth_error (flat_map (fun q => [f q; g q; k q]) l) (3 * i + 1) = Some (g a) /\ nth_error (flat_map (fun q => [f q; g q; k q]) l) (3 * i + 2) = Some (k a).
  Proof.
    intros A B f g k. induction l as [|q l IH]; intros i a E; [destruct i; discriminate E|]. destruct i as [|i].
    - injection E as <-. repeat split; reflexivity.
    - cbn in E. destruct (IH i a E) as [X [Y Z]]. replace (3 * S i)%nat with (S (S (S (3 * i)))) by lia.
      replace (S (S (S (3 * i))) + 1)%nat with (S (S (S (3 * i + 1)))) by lia. replace (S (S (S (3 * i))) + 2)%nat with (S (S (S (3 * i + 2)))) by lia. repeat split; assumption.
  Qed.
  Lemma loop_list : forall S A (body : S -> Z -> res S) (f : S -> A -> res S) (l : list A) k s,
    (forall i a st, nth_error l i = Some a -> body st (Z.of_nat (k + i)) = f st a) -> foldM (fun st i => body st (Z.of_nat i)) (seq k (length l)) s = foldM f l s.
  Proof.
    intros S A body f. induction l as [|a l IH]; intros k s H; [reflexivity|]. cbn [length seq foldM].
    rewrite <- (H 0%nat a s eq_refl). rewrite Nat.add_0_r. destruct (body s (Z.of_nat k)); [|reflexivity]. cbn [bind]. apply IH.
    intros i b st E. replace (Datatypes.S k + i)%nat with (k + Datatypes.S i)%nat by lia. apply H. exact E.
  Qed.
  Lemma for_list : forall S A (body : S -> Z -> res S) (f : S -> A -> res S) (l : list A) s,
    (forall i a st, nth_error l i = Some a -> body st (Z.of_nat i) = f st a) -> for_loop (zlen l) body s = foldM f l s.
  Proof. intros S A body f l s H. unfold for_loop, zlen. rewrite Nat2Z.id. apply loop_list. exact H. Qed.

  Lemma nth_lt : forall A (l : list A) i a, nth_error l i = Some a -> (i < length l)%nat.
  Proof. intros A l i a E. apply nth_error_Some. rewrite E. discriminate. Qed.

  Lemma points_loop : forall (h : heap) out (o : trout N) (l : list (nT N * nT N * Z)) k pd mp,
    (forall i q, nth_error l i = Some q -> forall st, load_point h out st (Z.of_nat (k + i)) = Ok (fst st ++ [pdata_new (Z.of_nat (k + i))], snd st ++ [read_point q])) ->
    foldM (fun st i => load_point h out st (Z.of_nat i)) (seq k (length l)) (pd, mp) =
      Ok (pd ++ map (fun i => pdata_new (Z.of_nat i)) (seq k (length l)), mp ++ map read_point l).
  Proof.
    intros h out o. induction l as [|q l IH]; intros k pd mp H.
    - cbn. rewrite !app_nil_r. reflexivity.
    - cbn [length seq foldM map]. pose proof (H 0%nat q eq_refl (pd, mp)) as H0. rewrite Nat.add_0_r in H0. rewrite H0. cbn [bind fst snd].
      rewrite IH.
      + rewrite <- !app_assoc. reflexivity.
      + intros i p E st. replace (S k + i)%nat with (k + S i)%nat by lia. apply H. exact E.
  Qed.

  Lemma load_output_ok : forall tol (h : heap) out (o : trout N), holds_output h out o -> fits_out o -> load_output tol h out = read_output tol o.
  Proof.
    intros tol h out o [[P1 P2] M [E1 E2] EM [T1 T2]] [Fp [Fe Ft]]. unfold zlen in Fp, Fe, Ft. unfold load_output, read_output, get_num. rewrite P2, E2, T2. cbn [bind].
    assert (L1 : for_loop (zlen (o_points o)) (load_point h out) ([], []) =
      Ok (map (fun i => pdata_new (Z.of_nat i)) (seq 0 (length (o_points o))), map read_point (o_points o))).
    { unfold for_loop, zlen. rewrite Nat2Z.id. rewrite (points_loop h out o).
      - reflexivity.
      - intros i [[x y] m] E [pd mp]. cbn [fst snd]. pose proof (nth_lt _ _ _ _ E) as Li. rewrite Nat.add_0_l. unfold load_point.
        assert (E' : nth_error (map fst (o_points o)) i = Some (x, y)) by (rewrite nth_error_map, E; reflexivity).
        destruct (nth_2 _ _ (fun q : nT N * nT N => CReal (fst q)) (fun q => CReal (snd q)) _ _ _ E') as [X Y].
        rewrite int_of_ok by lia. cbn [bind]. rewrite (loadR_at _ _ _ _ (Z.of_nat i * 2) _ P1 X) by lia. cbn [bind].
        rewrite int_of_ok by lia. cbn [bind]. rewrite (loadR_at _ _ _ _ (Z.of_nat i * 2 + 1) _ P1 Y) by lia. cbn [bind fst snd].
        rewrite (loadZ_at _ _ _ i (Z.of_nat i) m M) by (try reflexivity; rewrite nth_error_map, E; reflexivity). reflexivity. }
    rewrite L1. cbn [bind].
    assert (L2 : forall pd, for_loop (zlen (o_edges o)) (load_edge h out) ([], [], pd) = foldM read_edge (o_edges o) ([], [], pd)).
    { intro pd. apply for_list. intros i [[a b] m] st E. pose proof (nth_lt _ _ _ _ E) as Li. unfold load_edge.
      assert (E' : nth_error (map fst (o_edges o)) i = Some (a, b)) by (rewrite nth_error_map, E; reflexivity).
      destruct (nth_2 _ _ (fun q : Z * Z => @CInt N (fst q)) (fun q => CInt (snd q)) _ _ _ E') as [X Y].
      rewrite int_of_ok by lia. cbn [bind]. rewrite (loadZ_at _ _ _ _ (2 * Z.of_nat i) _ E1 X) by lia. cbn [bind].
      rewrite int_of_ok by lia. cbn [bind]. rewrite (loadZ_at _ _ _ _ (2 * Z.of_nat i + 1) _ E1 Y) by lia. cbn [bind fst snd].
      rewrite (loadZ_at _ _ _ i (Z.of_nat i) m EM) by (try reflexivity; rewrite nth_error_map, E; reflexivity). reflexivity. }
    rewrite L2. destruct (foldM read_edge (o_edges o) _) as [[[es em] pd']|e]; [|reflexivity]. cbn [bind].
    assert (L3 : forall mp s, for_loop (zlen (o_tris o)) (load_tri tol h out mp em) s = foldM (read_tri tol mp em) (o_tris o) s).
    { intros mp s. apply for_list. intros i [[a b] c] st E. pose proof (nth_lt _ _ _ _ E) as Li. unfold load_tri.
      destruct (nth_3 _ _ (fun q : Z * Z * Z => @CInt N (fst (fst q))) (fun q => CInt (snd (fst q))) (fun q => CInt (snd q)) _ _ _ E) as [X [Y W]].
      rewrite int_of_ok by lia. cbn [bind]. rewrite (loadZ_at _ _ _ _ (3 * Z.of_nat i) _ T1 X) by lia. cbn [bind].
      rewrite int_of_ok by lia. cbn [bind]. rewrite (loadZ_at _ _ _ _ (3 * Z.of_nat i + 1) _ T1 Y) by lia. cbn [bind].
      rewrite int_of_ok by lia. cbn [bind]. rewrite (loadZ_at _ _ _ _ (3 * Z.of_nat i + 2) _ T1 W) by lia. reflexivity. }
    rewrite L3. reflexivity.
  Qed.

  (** giving back *)
  Definition addr (p : ptr) : list Z := match p with Ptr b => [b] | _ => [] end.
  Lemma frees : forall ps (h : heap), (forall p, In p ps -> p <> Wild /\ live h p) -> NoDup (flat_map addr ps) ->
    exists h', foldM free ps h = Ok h' /\ (forall b, In b (flat_map addr ps) -> hp_get h' b = None) /\ (forall b, ~ In b (flat_map addr ps) -> hp_get h' b = hp_get h b).
  Proof.
    induction ps as [|p ps IH]; intros h H D.
    - exists h. cbn. split; [reflexivity|]. split; [intros b []|reflexivity].
    - destruct (H p (or_introl eq_refl)) as [W L]. destruct p as [|b|]; [| |exfalso; apply W; reflexivity].
      + cbn [foldM free bind flat_map addr app] in *. apply IH; [|exact D]. intros q I. apply H. right. exact I.
      + cbn [flat_map addr app] in D. inversion D as [|? ? D1 D2]. subst. cbn [foldM free].
        destruct (hp_get h b) as [l|] eqn:G; [|exfalso; exact (L b eq_refl G)]. cbn [bind].
        destruct (IH (hp_drop h b)) as [h' [E [X Y]]].
        { intros q I. split; [apply (H q (or_intror I))|]. intros c C. subst q. rewrite get_drop.
          destruct (c =? b)%Z eqn:Q; [|exact (proj2 (H _ (or_intror I)) c eq_refl)]. apply Z.eqb_eq in Q. subst c. exfalso. apply D1.
          apply in_flat_map. exists (Ptr b). split; [exact I|left; reflexivity]. }
        { exact D2. }
        exists h'. split; [exact E|]. cbn [flat_map addr app]. split.
        * intros c [C|C]; [subst c|exact (X c C)]. rewrite (Y b D1), get_drop, Z.eqb_refl. reflexivity.
        * intros c C. rewrite (Y c); [|intro K; apply C; right; exact K]. rewrite get_drop. destruct (c =? b)%Z eqn:Q; [|reflexivity].
          apply Z.eqb_eq in Q. subst c. exfalso. apply C. left. reflexivity.
  Qed.

  Lemma nodup_addr : forall (ps : list ptr), (forall i j b, nth_error ps i = Some (Ptr b) -> nth_error ps j = Some (Ptr b) -> i = j) -> NoDup (flat_map addr ps).
  Proof.
    induction ps as [|p ps IH]; intro H; [constructor|].
    assert (R : NoDup (flat_map addr ps)) by (apply IH; intros i j b I J; pose proof (H (S i) (S j) b I J); lia).
    destruct p as [|b|]; cbn [flat_map addr app]; [exact R| |exact R]. constructor; [|exact R]. intro I. apply in_flat_map in I. destruct I as [q [I A]].
    destruct q as [|c|]; cbn in A; [contradiction| |contradiction]. destruct A as [A|[]]. subst c. apply In_nth_error in I. destruct I as [j J].
    pose proof (H 0%nat (S j) b eq_refl J). discriminate.
  Qed.
  Lemma nodup_fields : forall (g : field -> ptr) fs, NoDup fs -> (forall f f' b, In f fs -> In f' fs -> g f = Ptr b -> g f' = Ptr b -> f = f') -> NoDup (flat_map addr (map g fs)).
  Proof.
    intros g fs D H. apply nodup_addr. intros i j b I J. rewrite nth_error_map in I, J.
    destruct (nth_error fs i) as [f|] eqn:Fi; [|discriminate I]. destruct (nth_error fs j) as [f'|] eqn:Fj; [|discriminate J]. cbn in I, J.
    injection I as I. injection J as J.
    assert (f = f') by (apply (H f f' b); [exact (nth_error_In _ _ Fi)|exact (nth_error_In _ _ Fj)|exact I|exact J]). subst f'.
    rewrite NoDup_nth_error in D. apply D; [apply nth_error_Some; rewrite Fi; discriminate|congruence].
  Qed.
  Lemma addr_in : forall b ps, In b (flat_map addr ps) <-> In (Ptr b) ps.
  Proof.
    intros b ps. rewrite in_flat_map. split.
    - intros [[|c|] [I A]]; cbn in A; try contradiction. destruct A as [A|[]]. subst c. exact I.
    - intro I. exists (Ptr b). split; [exact I|left; reflexivity].
  Qed.

  Lemma NoDup_app_intro_heap : forall A (l m : list A), NoDup l -> NoDup m -> (forall a, In a l -> In a m -> False) -> NoDup (l ++ m).
  Proof.
    intros A. induction l as [|a l IH]; intros m L M D; [exact M|]. inversion L as [|? ? L1 L2]. subst. cbn. constructor.
    - intro I. apply in_app_or in I. destruct I as [I|I]; [exact (L1 I)|exact (D a (or_introl eq_refl) I)].
    - apply IH; [exact L2|exact M|]. intros b I J. exact (D b (or_intror I) J).
  Qed.
  Definition field_eq : forall f g : field, {f = g} + {f <> g}.
  Proof. decide equality. Defined.
  Definition ptr_eq : forall p q : ptr, {p = q} + {p <> q}.
  Proof. decide equality. apply Z.eq_dec. Defined.

  Lemma callTriangle_memory : forall alloc triangle triangulate tol (r : region N) seeds sw restricted (h : heap) inp, fresh_blocks alloc -> enough_memory alloc -> honest triangle triangulate ->
    build_pslg tol r seeds restricted = Ok inp -> fits_in inp -> fits_out (triangulate sw inp) ->
    match read_output tol (triangulate sw inp) with
    | Ok d => exists h', callTriangle_mem alloc triangle tol r seeds sw restricted h = Ok (h', d) /\ forall b, hp_get h' b = hp_get h b
    | Err e => callTriangle_mem alloc triangle tol r seeds sw restricted h = Err e
    end.
  Proof.
    intros alloc triangle triangulate tol r seeds sw restricted h inp F E T B Fi Fo.
    destruct (build_input_ok alloc tol r seeds restricted h inp F E B Fi) as [h1 [io [E1 [HI [Boff Bnew Bap]]]]].
    destruct (T sw h1 io tio_cleared inp HI) as [h2 [out [E2 [HO [Keep [New [Dis Own]]]]]]]; [|exact Fo|].
    { intros f [X|[X|[X|[X|[X|[X|[X|[X|[X|[]]]]]]]]]]; subst f; reflexivity. }
    unfold callTriangle_mem. rewrite E1. cbn [bind]. rewrite E2. cbn [bind]. rewrite (load_output_ok tol h2 out _ HO Fo).
    destruct (read_output tol (triangulate sw inp)) as [d|e]; [|reflexivity]. cbn [bind].
    destruct HI as [[I1 _] [I2 _] [I3 _] [I4 _] [I5 I6] _].
    assert (Iw : forall f, In f [pointlist; pointattributelist; segmentlist; holelist] -> io_ptr io f <> Wild /\ live h1 (io_ptr io f)).
    { intros f [X|[X|[X|[X|[]]]]]; subst f; [clear - I1; rename I1 into I|clear - I2; rename I2 into I|clear - I3; rename I3 into I|clear - I4; rename I4 into I];
        (split; [intro W; rewrite W in I; exact I|exact (array_live _ _ _ I)]). }
    assert (Iin : forall p, In p (map (io_ptr io) [pointlist; pointattributelist; pointmarkerlist; segmentlist; segmentmarkerlist; holelist]) ->
      p = Null \/ exists f, In f [pointlist; pointattributelist; segmentlist; holelist] /\ p = io_ptr io f).
    { intros p I. cbn [map] in I. destruct I as [X|[X|[X|[X|[X|[X|[]]]]]]].
      - right. exists pointlist. split; [cbn; tauto|symmetry; exact X].
      - right. exists pointattributelist. split; [cbn; tauto|symmetry; exact X].
      - left. rewrite <- X. exact I5.
      - right. exists segmentlist. split; [cbn; tauto|symmetry; exact X].
      - left. rewrite <- X. exact I6.
      - right. exists holelist. split; [cbn; tauto|symmetry; exact X]. }
    assert (Oin : forall p, In p (map (io_ptr out) [pointlist; pointattributelist; pointmarkerlist; trianglelist; triangleattributelist; segmentmarkerlist; segmentlist; edgelist; edgemarkerlist]) ->
      p = Null \/ exists b, p = Ptr b /\ hp_get h1 b = None /\ hp_get h2 b <> None).
    { intros p I. apply in_map_iff in I. destruct I as [f [X I]]. subst p. apply New. clear - I. cbn in *. tauto. }
    destruct (frees (freed io out) h2) as [h3 [E3 [X Y]]].
    { intros p I. unfold freed in I. apply in_app_or in I. destruct I as [I|I].
      - destruct (Iin p I) as [Q|[f [If Q]]]; subst p; [split; [discriminate|intros b Q; discriminate Q]|].
        destruct (Iw f If) as [W L]. split; [exact W|]. intros b Q. specialize (L b Q). destruct (hp_get h1 b) as [l|] eqn:G; [|contradiction]. rewrite (Keep b l G). discriminate.
      - destruct (Oin p I) as [Q|[b [Q [_ L]]]]; subst p; [split; [discriminate|intros b Q; discriminate Q]|]. split; [discriminate|]. intros c Q. injection Q as <-. exact L. }
    { unfold freed. rewrite flat_map_app. apply NoDup_app_intro_heap.
      - cbn [map]. rewrite I5, I6. cbn [flat_map].
        change (NoDup (flat_map addr (map (io_ptr io) [pointlist; pointattributelist; segmentlist; holelist]))).
        apply nodup_fields; [repeat constructor; cbn; intuition discriminate|].
        intros f f' b I I' A A'. destruct (field_eq f f') as [Q|Q]; [exact Q|]. exfalso. exact (Bap f f' I I' Q b A A').
      - apply nodup_fields; [repeat constructor; cbn; intuition discriminate|].
        intros f f' b I I' A A'. apply (Dis f f' b); [clear - I|clear - I'|exact A|exact A']; cbn in *; tauto.
      - intros b I J. apply addr_in in I, J. destruct (Iin _ I) as [Q|[f [If Q]]]; [discriminate Q|]. destruct (Oin _ J) as [Q'|[c [Q' [U _]]]]; [discriminate Q'|]. injection Q' as <-.
        exact (proj2 (Iw f If) b (eq_sym Q) U). }
    exists h3. rewrite E3. split; [reflexivity|]. intro b.
    destruct (in_dec Z.eq_dec b (flat_map addr (freed io out))) as [I|I].
    - rewrite (X b I). symmetry. apply addr_in in I. unfold freed in I. apply in_app_or in I. destruct I as [I|I].
      + destruct (Iin _ I) as [Q|[f [If Q]]]; [discriminate Q|]. exact (Bnew f If b (eq_sym Q)).
      + destruct (Oin _ I) as [Q|[c [Q [U _]]]]; [discriminate Q|]. injection Q as <-.
        destruct (in_dec ptr_eq (Ptr b) [io_ptr io pointlist; io_ptr io pointattributelist; io_ptr io segmentlist; io_ptr io holelist]) as [K|K].
        * exfalso. assert (KK : exists f, In f [pointlist; pointattributelist; segmentlist; holelist] /\ io_ptr io f = Ptr b).
          { clear - K. cbn in K. destruct K as [K|[K|[K|[K|[]]]]]; eexists; (split; [|exact K]); cbn; tauto. }
          destruct KK as [f [If K']]. exact (proj2 (Iw f If) b K' U).
        * rewrite <- (Boff b K). exact U.
    - rewrite (Y b I).
      assert (K : ~ In (Ptr b) [io_ptr io pointlist; io_ptr io pointattributelist; io_ptr io segmentlist; io_ptr io holelist]).
      { intro K. apply I. apply addr_in. unfold freed. apply in_or_app. left. clear - K. cbn in *. tauto. }
      rewrite <- (Boff b K). destruct (hp_get h1 b) as [l|] eqn:G; [exact (Keep b l G)|]. destruct (hp_get h2 b) as [l|] eqn:G2; [|reflexivity]. exfalso.
      destruct (Own b G) as [f [If Q]]; [rewrite G2; discriminate|]. apply I. apply addr_in. unfold freed. apply in_or_app. right.
      rewrite <- Q. apply in_map. clear - If. cbn in *. tauto.
  Qed.

  Lemma callTriangle_refined : forall alloc triangle triangulate tol (g : gen N) sw restricted (h : heap) inp, fresh_blocks alloc -> enough_memory alloc -> honest triangle triangulate ->
    build_pslg tol (gn_region g) (gn_seeds g) restricted = Ok inp -> fits_in inp -> fits_out (triangulate sw inp) ->
    match snd (callTriangle triangulate tol g sw restricted) with
    | Ok d => exists h', callTriangle_mem alloc triangle tol (gn_region g) (gn_seeds g) sw restricted h = Ok (h', d) /\ forall b, hp_get h' b = hp_get h b
    | Err e => callTriangle_mem alloc triangle tol (gn_region g) (gn_seeds g) sw restricted h = Err e
    end.
  Proof.
    intros alloc triangle triangulate tol g sw restricted h inp F E T B Fi Fo. unfold callTriangle. rewrite B. cbn [snd].
    exact (callTriangle_memory alloc triangle triangulate tol (gn_region g) (gn_seeds g) sw restricted h inp F E T B Fi Fo).
  Qed.
  Lemma push_back_len : forall A ltb (u : ulist A) x, (length (ul_list u) <= length (ul_list (fst (ul_push_back ltb u x))) <= S (length (ul_list u)))%nat.
  Proof.
    intros A ltb u x. unfold ul_push_back. destruct (om_upper ltb x (ul_map u)) as [b a]. destruct (rev b) as [|[k v] l]; [|destruct (ltb k x)]; cbn [fst ul_list]; rewrite ?app_length; cbn [length]; lia.
  Qed.
  Lemma push_list_len : forall A ltb xs (u : ulist A), (length (ul_list u) <= length (ul_list (fst (ul_push_list ltb u xs))) <= length (ul_list u) + length xs)%nat.
  Proof.
    intros A ltb. induction xs as [|x xs IH]; intro u; [cbn; lia|]. cbn [ul_push_list]. pose proof (push_back_len A ltb u x) as H. destruct (ul_push_back ltb u x) as [u1 i]. cbn [fst] in H.
    specialize (IH u1). destruct (ul_push_list ltb u1 xs) as [u2 is]. cbn [fst length] in *. lia.
  Qed.
  Lemma push_list_some : forall A ltb x xs, (1 <= length (ul_list (fst (ul_push_list ltb (@ul_empty A) (x :: xs)))))%nat.
  Proof.
    intros A ltb x xs. cbn [ul_push_list]. pose proof (push_list_len A ltb xs (fst (ul_push_back ltb ul_empty x))) as H.
    destruct (ul_push_back ltb ul_empty x) as [u1 i] eqn:E. cbn [fst] in H. destruct (ul_push_list ltb u1 xs) as [u2 is]. cbn [fst] in *.
    cbn in E. injection E as <- _. cbn in H. lia.
  Qed.

  Lemma exhausted_memory : forall alloc triangle tol (r : region N) seeds sw restricted (h : heap), (forall k h n, alloc k h n = None) -> seeds <> [] -> zlen seeds + zlen (getRegionPoints r) < 1073741824 ->
    callTriangle_mem alloc triangle tol r seeds sw restricted h = Err (UB "write through an invalid pointer").
  Proof.
    intros alloc triangle tol r seeds sw restricted h A S L. unfold callTriangle_mem, build_input. destruct seeds as [|s seeds]; [exfalso; apply S; reflexivity|].
    pose proof (push_list_some _ (pt_ltb tol) s seeds) as H1. pose proof (push_list_len _ (pt_ltb tol) (s :: seeds) ul_empty) as H2.
    destruct (ul_push_list (pt_ltb tol) ul_empty (s :: seeds)) as [u1 i1]. cbn [fst] in H1, H2. cbn [ul_list ul_empty] in H2. cbn [length] in H2.
    pose proof (push_list_len _ (pt_ltb tol) (getRegionPoints r) u1) as H3.
    destruct (ul_push_list (pt_ltb tol) u1 (getRegionPoints r)) as [pl ri]. cbn [fst] in H3. unfold zlen in L. cbn [length] in L.
    rewrite int_of_ok by (unfold zlen; lia). cbn [bind]. unfold malloc at 1 2. rewrite !A.
    destruct (ul_list pl) as [|q qs]; [cbn in H3; lia|]. reflexivity.
  Qed.
End Heap.
