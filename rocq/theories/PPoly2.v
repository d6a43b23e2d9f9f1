(** Proofs about polygons: caching, constructors, self-intersection, convexity test, edges,
    hash equality, longest edge. *)
From Coq Require Import Reals Lra Psatz Permutation ZifyBool ZifyNat.
From Verif Require Import Base Spec MUtil MGeom MHull MPolygon Bridge PUtil PPoint PSegment PPoly.

(** * C14 *)
Section Caching.
  Context {N : Num}.

  Lemma getArea_cached (g : polygon N) p : neqb (pg_area g) (nZ (-1)) = false -> getArea g p = Ok (g, pg_area g).
  Proof. intros H. unfold getArea. rewrite H. reflexivity. Qed.
  Lemma getArea_fresh (g : polygon N) p : neqb (pg_area g) (nZ (-1)) = true ->
    getArea g p = (a <- geo_area p (pg_points g) ;; Ok (mkPoly (pg_points g) (pg_diam g) a (pg_cen g) (pg_hash g), a)).
  Proof. intros H. unfold getArea, calculateArea. rewrite H. reflexivity. Qed.
  Lemma getDiameter_cached (g : polygon N) p : nltb (pg_diam g) (nZ 0) = false -> getDiameter g p = Ok (g, pg_diam g).
  Proof. intros H. unfold getDiameter. rewrite H. reflexivity. Qed.

  Lemma ask_area (g g' : polygon N) q : neqb (pg_area g) (nZ (-1)) = false -> pg_ask g q = Ok g' -> pg_area g' = pg_area g.
  Proof.
    intros H. destruct q as [p|p|p|]; cbn [pg_ask].
    - rewrite getArea_cached by assumption. cbn. congruence.
    - unfold getDiameter. destruct (nltb (pg_diam g) (nZ 0)); intros E; apply bind_ok in E as ([g1 d] & E1 & E2); cbn in E2.
      + apply bind_ok in E1 as (pts & E3 & E1). apply bind_ok in E1 as (d' & E4 & E1). injection E1 as E5 E6. subst. cbn in E2. injection E2 as <-. reflexivity.
      + injection E1 as E3 E4. injection E2 as E2. congruence.
    - unfold getCentroid. destruct (negb (isValid (pg_cen g))); intros E; apply bind_ok in E as ([g1 d] & E1 & E2); cbn in E2.
      + apply bind_ok in E1 as (c & E3 & E1). injection E1 as E5 E6. subst. cbn in E2. injection E2 as <-. reflexivity.
      + injection E1 as E3 E4. injection E2 as E2. congruence.
    - intros E. injection E as <-. reflexivity.
  Qed.
  Lemma ask_diam (g g' : polygon N) q : nltb (pg_diam g) (nZ 0) = false -> pg_ask g q = Ok g' -> pg_diam g' = pg_diam g.
  Proof.
    intros H. destruct q as [p|p|p|]; cbn [pg_ask].
    - unfold getArea. destruct (neqb (pg_area g) (nZ (-1))); intros E; apply bind_ok in E as ([g1 d] & E1 & E2); cbn in E2.
      + apply bind_ok in E1 as (c & E3 & E1). injection E1 as E5 E6. subst. cbn in E2. injection E2 as <-. reflexivity.
      + injection E1 as E3 E4. injection E2 as E2. congruence.
    - rewrite getDiameter_cached by assumption. cbn. congruence.
    - unfold getCentroid. destruct (negb (isValid (pg_cen g))); intros E; apply bind_ok in E as ([g1 d] & E1 & E2); cbn in E2.
      + apply bind_ok in E1 as (c & E3 & E1). injection E1 as E5 E6. subst. cbn in E2. injection E2 as <-. reflexivity.
      + injection E1 as E3 E4. injection E2 as E2. congruence.
    - intros E. injection E as <-. reflexivity.
  Qed.
  Lemma asks_area qs (g g' : polygon N) : neqb (pg_area g) (nZ (-1)) = false -> pg_asks qs g = Ok g' -> pg_area g' = pg_area g.
  Proof.
    unfold pg_asks. revert g; induction qs as [|q qs IH]; intros g H E; cbn in E; [congruence|].
    apply bind_ok in E as (g1 & E1 & E). pose proof (ask_area _ _ _ H E1) as E2. rewrite <- E2. apply IH; [rewrite E2; exact H|exact E].
  Qed.
  Lemma asks_diam qs (g g' : polygon N) : nltb (pg_diam g) (nZ 0) = false -> pg_asks qs g = Ok g' -> pg_diam g' = pg_diam g.
  Proof.
    unfold pg_asks. revert g; induction qs as [|q qs IH]; intros g H E; cbn in E; [congruence|].
    apply bind_ok in E as (g1 & E1 & E). pose proof (ask_diam _ _ _ H E1) as E2. rewrite <- E2. apply IH; [rewrite E2; exact H|exact E].
  Qed.

  Lemma area_cached_forever : forall (g g1 : polygon N) p a,
    getArea g p = Ok (g1, a) ->
    (neqb (pg_area g) (nZ (-1)) = true -> geo_area p (pg_points g) = Ok a) /\
    (neqb a (nZ (-1)) = false -> forall qs g2, pg_asks qs g1 = Ok g2 -> forall p', getArea g2 p' = Ok (g2, a)) /\
    (neqb a (nZ (-1)) = true -> forall p', getArea g1 p' = (a' <- geo_area p' (pg_points g) ;;
        Ok (mkPoly (pg_points g) (pg_diam g) a' (pg_cen g) (pg_hash g), a'))).
  Proof.
    intros g g1 p a E.
    assert (Ha : pg_area g1 = a).
    { unfold getArea in E. destruct (neqb (pg_area g) (nZ (-1))).
      - apply bind_ok in E as (a' & E1 & E). injection E as <- <-. reflexivity.
      - injection E as <- <-. reflexivity. }
    split; [|split].
    - intros H. rewrite getArea_fresh in E by assumption. apply bind_ok in E as (a' & E1 & E). injection E as <- <-. exact E1.
    - intros H qs g2 Hq p'. subst a. pose proof (asks_area _ _ _ H Hq) as E2. rewrite getArea_cached by (rewrite E2; exact H).
      rewrite E2. reflexivity.
    - intros H p'. subst a. rewrite getArea_fresh by assumption.
      unfold getArea in E. destruct (neqb (pg_area g) (nZ (-1))).
      + apply bind_ok in E as (a' & E1 & E). injection E as <- E. reflexivity.
      + injection E as <- E. reflexivity.
  Qed.

  Lemma diameter_cached_forever : forall (g g1 : polygon N) p d,
    getDiameter g p = Ok (g1, d) ->
    (nltb (pg_diam g) (nZ 0) = true -> (pts <- getPoints (pg_points g) p ;; calculateDiameter pts) = Ok d) /\
    (nltb d (nZ 0) = false -> forall qs g2, pg_asks qs g1 = Ok g2 -> forall p', getDiameter g2 p' = Ok (g2, d)).
  Proof.
    intros g g1 p d E. unfold getDiameter in E.
    assert (Hd : pg_diam g1 = d /\ (nltb (pg_diam g) (nZ 0) = true -> (pts <- getPoints (pg_points g) p ;; calculateDiameter pts) = Ok d)).
    { destruct (nltb (pg_diam g) (nZ 0)).
      - apply bind_ok in E as (pts & E1 & E). apply bind_ok in E as (d' & E2 & E). injection E as <- <-.
        split; [reflexivity|]. intros _. rewrite E1. exact E2.
      - injection E as <- <-. split; [reflexivity|discriminate]. }
    destruct Hd as [Hd1 Hd2]. split; [exact Hd2|].
    intros H qs g2 Hq p'. subst d. pose proof (asks_diam _ _ _ H Hq) as E2. rewrite getDiameter_cached by (rewrite E2; exact H).
    rewrite E2. reflexivity.
  Qed.
End Caching.

(** * C15: the cached centroid is never anything but the origin *)
Section CentroidContract.
  Context {N : Num}.
  Lemma made_cen0 tol (g : polygon N) : made tol g -> pg_cen g = point0.
  Proof.
    induction 1 as [idx p g E|p g E|g _ IH|g p _ IH|g p g' a _ IH E|g p g' d _ IH E|g p g' c _ IH E|g p g' _ IH E].
    - unfold polygon_ctor_idx in E. apply bind_ok in E as (b & _ & E). destruct b; [discriminate|]. injection E as <-. reflexivity.
    - unfold polygon_ctor_pts in E. apply bind_ok in E as (b & _ & E). apply bind_ok in E as (x & _ & E). injection E as <-. reflexivity.
    - exact IH.
    - unfold polygon_mutate. destruct (isSelfIntersecting _ _ _) as [[|]|]; cbn; auto.
    - unfold getArea in E. destruct (neqb _ _).
      + apply bind_ok in E as (a' & _ & E). injection E as <- _. exact IH.
      + injection E as <- _. exact IH.
    - unfold getDiameter in E. destruct (nltb _ _).
      + apply bind_ok in E as (a' & _ & E). apply bind_ok in E as (a2 & _ & E). injection E as <- _. exact IH.
      + injection E as <- _. exact IH.
    - unfold getCentroid in E. rewrite IH in E. cbn in E. injection E as <- _. exact IH.
    - unfold fixCCW in E. apply bind_ok in E as (b & _ & E). injection E as <-. destruct b; exact IH.
  Qed.

  Lemma centroid_always_origin : forall tol (g : polygon N), made tol g -> forall p,
    getCentroid g p = Ok (g, point0) /\ px (point0 (N := N)) = nZ 0 /\ py (point0 (N := N)) = nZ 0.
  Proof.
    intros tol g H p. split; [|split; reflexivity]. unfold getCentroid. rewrite (made_cen0 _ _ H). cbn. reflexivity.
  Qed.
End CentroidContract.

(** * C16 *)
Lemma ctors_never_throw : forall (N : Num) (tol : nT N) (idx : list Z) (p : list (Point N)),
  (exists g, polygon_ctor_idx tol idx p = Ok g /\ pg_points g = idx) /\
  (exists g, polygon_ctor_pts tol p = Ok g /\ pg_points g = trivialIndex (length p)).
Proof.
  intros N tol idx p. split.
  - eexists. split; [reflexivity|]. reflexivity.
  - unfold polygon_ctor_pts. replace (isSelfIntersecting tol [] p) with (Ok false : res bool) by reflexivity. cbn [bind].
    destruct (mapM_total (vpt p (trivialIndex (length p))) (seq 0 (length (trivialIndex (length p))))) as [bs Hbs].
    { intros i Hi. apply in_seq in Hi. rewrite (vertices_vpt _ _ _ _ (vertices_trivial p)).
      unfold trivialIndex in Hi. rewrite map_length, seq_length in Hi. destruct p as [|d p]; [cbn in Hi; lia|].
      exists (nth i (d :: p) d). apply vgetn_lt. lia. }
    rewrite Hbs. cbn [bind]. eexists. split; reflexivity.
Qed.

(** * C18 *)
Section SelfIntersection.
  Context {N : Num}.
  Notation Point := (Point N).

  Lemma isSelfIntersecting_iff tol p idx (vs : list Point) : vertices_are p idx vs ->
    exists b, isSelfIntersecting tol idx p = Ok b /\
      (b = true <-> exists i j, non_adjacent (length vs) i j /\ crossing_pair tol vs i j).
  Proof.
    intros H. unfold isSelfIntersecting. rewrite getSegments_edges. cbn [app bind]. cbv zeta.
    assert (HLe : @length iseg (edges_of idx) = length idx) by apply edges_of_length. rewrite HLe. pose proof (vertices_length _ _ _ H) as HL. rewrite <- HL.
    destruct vs as [|d0 vs'].
    { exists false. split; [reflexivity|]. split; [discriminate|]. intros (i & j & (Hi & _) & _). cbn in Hi. lia. }
    set (vs := d0 :: vs') in *. set (n := length vs) in *. assert (Hn : (0 < n)%nat) by (subst n; cbn; lia).
    destruct idx as [|k0 idx']; [cbn in HL; subst n; discriminate|]. set (idx := k0 :: idx') in *.
    set (P := fun i => nth i vs d0).
    assert (Hv : forall i, (i < n)%nat -> vget p (nth i idx k0) = Ok (P i)).
    { intros i Hi. pose proof (vertices_vpt _ _ _ i H) as E. unfold vpt in E.
      rewrite (vgetn_lt idx i k0) in E by lia. cbn [bind] in E. rewrite E. apply vgetn_lt. exact Hi. }
    assert (Hseg : forall i, (i < n)%nat -> vgetn (edges_of idx) i = Ok (nth i idx k0, nth ((i + 1) mod n) idx k0)).
    { intros i Hi. apply vgetn_ok. apply edges_of_nth; [lia|]. rewrite <- HL. split; apply nth_error_nth'; [lia|].
      rewrite <- HL. apply Nat.mod_upper_bound. lia. }
    set (nx := fun i => ((i + 1) mod n)%nat).
    assert (Hnx : forall i, (nx i < n)%nat) by (intros; apply Nat.mod_upper_bound; lia).
    set (test := fun i j => if (Nat.eqb i j || Nat.eqb j ((i + n - 1) mod n) || Nat.eqb j ((i + 1) mod n))%bool then false
                            else fst (intersects tol (P i) (P (nx i)) (P j) (P (nx j)) point0)).
    rewrite (existsM_pure _ (fun i => existsb (test i) (seq 0 n))).
    2:{ intros i Hi. apply in_seq in Hi. rewrite Hseg by lia. cbn [bind]. apply existsM_pure.
        intros j Hj. apply in_seq in Hj. unfold test. destruct (_ || _)%bool; [reflexivity|].
        rewrite Hseg by lia. cbn [bind]. unfold iseg_intersection. cbn [fst snd].
        rewrite !Hv by (try apply Hnx; lia). reflexivity. }
    eexists. split; [reflexivity|].
    assert (Hmod : forall i j, (i < n)%nat -> (j < n)%nat -> (Nat.eqb j ((i + n - 1) mod n) = true <-> i = (j + 1) mod n)%nat).
    { intros i j Hi Hj. rewrite Nat.eqb_eq.
      assert (A : ((i + n - 1) mod n = if Nat.eqb i 0 then n - 1 else i - 1)%nat).
      { destruct (Nat.eqb_spec i 0) as [->|Hi0]; [rewrite Nat.mod_small by lia; lia|].
        replace (i + n - 1)%nat with (i - 1 + 1 * n)%nat by lia. rewrite Nat.mod_add by lia. apply Nat.mod_small. lia. }
      assert (B : ((j + 1) mod n = if Nat.eqb j (n - 1) then 0 else j + 1)%nat).
      { destruct (Nat.eqb_spec j (n - 1)) as [->|Hj0]; [replace (n - 1 + 1)%nat with n by lia; apply Nat.mod_same; lia|].
        apply Nat.mod_small. lia. }
      rewrite A, B. destruct (Nat.eqb_spec i 0), (Nat.eqb_spec j (n - 1)); lia. }
    assert (Hnth : forall i, (i < n)%nat -> nth_error vs i = Some (P i)) by (intros; apply nth_error_nth'; assumption).
    rewrite existsb_exists. split.
    - intros (i & Hi & Hx). apply existsb_exists in Hx as (j & Hj & Hx). apply in_seq in Hi. apply in_seq in Hj.
      unfold test in Hx.
      destruct (Nat.eqb i j) eqn:E1; [discriminate|]. destruct (Nat.eqb j ((i + n - 1) mod n)) eqn:E2; [discriminate|].
      destruct (Nat.eqb j ((i + 1) mod n)) eqn:E3; [discriminate|]. cbn [orb] in Hx.
      exists i, j. split.
      + unfold non_adjacent. apply Nat.eqb_neq in E1. apply Nat.eqb_neq in E3.
        split; [lia|]. split; [lia|]. split; [exact E1|]. split; [exact E3|].
        intros E. apply Hmod in E; [congruence|lia|lia].
      + exists (P i), (P (nx i)), (P j), (P (nx j)). rewrite !Hnth by (try apply Hnx; lia). auto.
    - intros (i & j & (Hi & Hj & N1 & N2 & N3) & (a & b & c & d & Ha & Hb & Hc & Hd & Hx)).
      exists i. split; [apply in_seq; lia|]. apply existsb_exists. exists j. split; [apply in_seq; lia|].
      unfold test. rewrite (proj2 (Nat.eqb_neq i j) N1), (proj2 (Nat.eqb_neq j _) N2).
      destruct (Nat.eqb j ((i + n - 1) mod n)) eqn:E2; [apply Hmod in E2; [contradiction|lia|lia]|]. cbn [orb].
      fold n in Hb, Hd. fold (nx i) in Hb. fold (nx j) in Hd.
      rewrite Hnth in Ha, Hb, Hc, Hd by (try apply Hnx; lia). congruence.
  Qed.

  Definition self_crossing tol (vs : list Point) : Prop :=
    exists i j, non_adjacent (length vs) i j /\ crossing_pair tol vs i j.

  Lemma no_pairs_in_triangle n i j : (n <= 3)%nat -> ~ non_adjacent n i j.
  Proof.
    intros Hn (Hi & Hj & H1 & H2 & H3).
    destruct n as [|[|[|[|n]]]]; try lia; destruct i as [|[|[|i]]], j as [|[|[|j]]]; cbn in *; lia.
  Qed.

  Definition rot1 (l : list Point) : list Point := match l with [] => [] | a :: l' => l' ++ [a] end.
  Lemma rot1_length l : length (rot1 l) = length l.
  Proof. destruct l; [reflexivity|]. cbn. rewrite app_length. cbn. lia. Qed.
  Lemma rot1_nth l i : (i < length l)%nat -> nth_error (rot1 l) i = nth_error l ((i + 1) mod length l).
  Proof.
    destruct l as [|a l]; [cbn; lia|]. intros Hi. cbn [rot1].
    destruct (Nat.eq_dec (i + 1) (length (a :: l))) as [E|E].
    - rewrite E, Nat.mod_same by (cbn; lia). rewrite nth_error_app2 by (cbn in E; lia).
      replace (i - length l)%nat with 0%nat by (cbn in E; lia). reflexivity.
    - rewrite Nat.mod_small by lia. rewrite nth_error_app1 by (cbn in *; lia). rewrite Nat.add_1_r. reflexivity.
  Qed.
  Lemma succ_mod_inj n i j : (i < n)%nat -> (j < n)%nat -> ((i + 1) mod n = (j + 1) mod n)%nat -> i = j.
  Proof.
    intros Hi Hj. destruct (Nat.eq_dec (i + 1) n) as [E1|E1], (Nat.eq_dec (j + 1) n) as [E2|E2].
    - lia.
    - rewrite E1, Nat.mod_same, Nat.mod_small by lia. lia.
    - rewrite E2, Nat.mod_same, Nat.mod_small by lia. lia.
    - rewrite !Nat.mod_small by lia. lia.
  Qed.
  Lemma self_crossing_rot1 tol l : self_crossing tol (rot1 l) -> self_crossing tol l.
  Proof.
    intros (i & j & (Hi & Hj & N1 & N2 & N3) & (a & b & c & d & Ha & Hb & Hc & Hd & Hx)).
    rewrite rot1_length in *.
    assert (Hm : forall k, ((k + 1) mod length l < length l)%nat) by (intros; apply Nat.mod_upper_bound; lia).
    rewrite rot1_nth in Ha, Hb, Hc, Hd by (try apply Hm; lia).
    exists ((i + 1) mod length l)%nat, ((j + 1) mod length l)%nat. split.
    - split; [apply Hm|]. split; [apply Hm|]. split; [|split].
      + intros E. apply N1. apply (succ_mod_inj (length l)); auto.
      + intros E. apply N2. apply (succ_mod_inj (length l)); auto.
      + intros E. apply N3. apply (succ_mod_inj (length l)); auto.
    - exists a, b, c, d. auto.
  Qed.
  Lemma self_crossing_iter tol k l : self_crossing tol (Nat.iter k rot1 l) -> self_crossing tol l.
  Proof. induction k as [|k IH]; cbn; [auto|]. intros H. apply IH, self_crossing_rot1, H. Qed.
  Lemma iter_succ_r {A} (f : A -> A) k x : Nat.iter (S k) f x = Nat.iter k f (f x).
  Proof. induction k as [|k IH]; [reflexivity|]. change (f (Nat.iter (S k) f x) = f (Nat.iter k f (f x))). rewrite IH. reflexivity. Qed.
  Lemma rot1_iter (l1 l2 : list Point) : Nat.iter (length l1) rot1 (l1 ++ l2) = l2 ++ l1.
  Proof.
    revert l2; induction l1 as [|a l1 IH]; intros l2; [cbn; rewrite app_nil_r; reflexivity|].
    change (length (a :: l1)) with (S (length l1)). rewrite iter_succ_r. cbn [app rot1].
    rewrite <- app_assoc, IH, <- app_assoc. reflexivity.
  Qed.
  Lemma self_crossing_rotate tol (l1 l2 : list Point) : self_crossing tol (l1 ++ l2) <-> self_crossing tol (l2 ++ l1).
  Proof.
    split; intros H.
    - apply (self_crossing_iter tol (length l2)). rewrite rot1_iter. exact H.
    - apply (self_crossing_iter tol (length l1)). rewrite rot1_iter. exact H.
  Qed.

  Lemma isSelfIntersecting_triangle tol (p : list Point) idx : in_range p idx -> (length idx <= 3)%nat -> isSelfIntersecting tol idx p = Ok false.
  Proof.
    intros H Hn. apply vertices_exist in H as [vs H]. destruct (isSelfIntersecting_iff tol _ _ _ H) as (b & E & Hb).
    rewrite E. f_equal. destruct b; [|reflexivity]. exfalso.
    destruct (proj1 Hb eq_refl) as (i & j & Hij & _). apply (no_pairs_in_triangle _ _ _) in Hij; [exact Hij|].
    rewrite (vertices_length _ _ _ H). exact Hn.
  Qed.
  Lemma isSelfIntersecting_rotate tol (p : list Point) i1 i2 : in_range p (i1 ++ i2) ->
    isSelfIntersecting tol (i2 ++ i1) p = isSelfIntersecting tol (i1 ++ i2) p.
  Proof.
    intros H. apply vertices_exist in H as [vs H]. apply vertices_split in H as (v1 & v2 & -> & H1 & H2).
    destruct (isSelfIntersecting_iff tol _ _ _ (vertices_app _ _ _ _ _ H1 H2)) as (b & E & Hb).
    destruct (isSelfIntersecting_iff tol _ _ _ (vertices_app _ _ _ _ _ H2 H1)) as (b' & E' & Hb').
    rewrite E, E'. f_equal. apply eq_true_iff_eq. rewrite Hb, Hb'. apply self_crossing_rotate.
  Qed.
End SelfIntersection.

(** tolerance 0: two non-adjacent, non-parallel edges with a common point *)
Lemma self_crossing_exact (vs : list (Point RNum)) :
  self_crossing (N := RNum) 0%R vs <->
  exists i j a b c d z, non_adjacent (length vs) i j /\
    nth_error vs i = Some a /\ nth_error vs ((i + 1) mod length vs) = Some b /\
    nth_error vs j = Some c /\ nth_error vs ((j + 1) mod length vs) = Some d /\
    ~ parallel (xy a) (xy b) (xy c) (xy d) /\ on_segment (xy a) (xy b) z /\ on_segment (xy c) (xy d) z.
Proof.
  split.
  - intros (i & j & Hij & (a & b & c & d & Ha & Hb & Hc & Hd & Hx)).
    destruct (intersects (N := RNum) 0%R a b c d point0) as [r q] eqn:E. cbn in Hx. subst r.
    destruct (intersects_correct 0%R a b c d point0 (Rle_refl _)) as (H & _). specialize (H q E).
    destruct H as (H1 & _ & _ & _ & H2). destruct (H2 eq_refl). exists i, j, a, b, c, d, (xy q). repeat (split; [assumption|]). assumption.
  - intros (i & j & a & b & c & d & z & Hij & Ha & Hb & Hc & Hd & Hp & H1 & H2).
    exists i, j. split; [exact Hij|]. exists a, b, c, d. repeat (split; [assumption|]).
    destruct (intersects_correct 0%R a b c d point0 (Rle_refl _)) as (_ & H & _).
    destruct (H z Hp H1 H2) as (q & E & _). rewrite E. reflexivity.
Qed.

(** * C24 *)
Section Convex.
  Notation Pt := (Point RNum).
  Local Open Scope R_scope.
  Lemma orientation_orient (a b c : Pt) : orientation a b c = orient (xy a) (xy b) (xy c).
  Proof. reflexivity. Qed.

  Lemma isConvex_char p idx (vs : list Pt) : vertices_are p idx vs -> (3 <= length idx)%nat ->
    exists b, isConvex (N := RNum) idx p = Ok b /\
      (b = false <-> exists i, (1 <= i < length vs)%nat /\ turn_at (map xy vs) 0 * turn_at (map xy vs) i < 0).
  Proof.
    intros H Hn. unfold isConvex. pose proof (vertices_length _ _ _ H) as HL. rewrite <- HL.
    destruct vs as [|d0 vs']; [cbn in HL; lia|]. set (vs := d0 :: vs') in *. set (n := length vs) in *.
    rewrite !(vertices_vpt _ _ _ _ H). rewrite !(vgetn_lt vs _ d0) by lia. cbn [bind].
    set (P := fun i => nth i vs d0).
    assert (HT : forall i, (i < n)%nat -> turn_at (map xy vs) i = orientation (P i) (P ((i + 1) mod n)%nat) (P ((i + 2) mod n)%nat)).
    { intros i Hi. unfold turn_at. rewrite map_length. fold n.
      assert (E : forall k, (k < n)%nat -> nth k (map xy vs) (0, 0) = xy (P k)).
      { intros k Hk. rewrite nth_indep with (d' := xy d0) by (rewrite map_length; exact Hk). apply map_nth. }
      rewrite !E by (try exact Hi; apply Nat.mod_upper_bound; lia). reflexivity. }
    rewrite (existsM_pure _ (fun i => Rltb (turn_at (map xy vs) 0 * turn_at (map xy vs) i) 0)).
    2:{ intros i Hi. apply in_seq in Hi. rewrite !(vertices_vpt _ _ _ _ H).
        rewrite (vgetn_lt vs i d0) by (fold n; lia). rewrite !(vgetn_lt vs _ d0) by (apply Nat.mod_upper_bound; lia). cbn [bind].
        rewrite !HT by lia. rewrite !Nat.mod_small with (a := (0 + _)%nat) by lia. reflexivity. }
    cbn [bind]. eexists. split; [reflexivity|].
    rewrite negb_false_iff, existsb_exists. split.
    - intros (i & Hi & Hx). apply in_seq in Hi. apply Rltb_iff in Hx. exists i. split; [lia|exact Hx].
    - intros (i & Hi & Hx). exists i. split; [apply in_seq; lia|]. apply Rltb_iff. exact Hx.
  Qed.

  Lemma turn_triangle (a b c : pt) i : (i < 3)%nat -> turn_at [a; b; c] i = turn_at [a; b; c] 0.
  Proof.
    intros Hi. unfold turn_at. destruct i as [|[|[|i]]]; [reflexivity| | |lia];
      destruct a, b, c; cbn; unfold orient, vcross, vsub; cbn; ring.
  Qed.

  Lemma isConvex_correct p idx (vs : list Pt) : vertices_are p idx vs -> (3 <= length idx)%nat ->
    let turn := turn_at (map xy vs) in let n := length vs in
    exists b, isConvex (N := RNum) idx p = Ok b /\
      ((forall i, (i < n)%nat -> 0 <= turn i) \/ (forall i, (i < n)%nat -> turn i <= 0) -> b = true) /\
      (turn 0%nat <> 0 -> (b = false <-> exists i, (i < n)%nat /\ turn 0%nat * turn i < 0)) /\
      (turn 0%nat = 0 -> b = true) /\
      (n = 3%nat -> b = true).
  Proof.
    intros H Hn turn n. destruct (isConvex_char _ _ _ H Hn) as (b & E & Hb). exists b. split; [exact E|].
    pose proof (vertices_length _ _ _ H) as HL. fold turn n in Hb.
    assert (Hz : turn 0%nat * turn 0%nat < 0 -> False) by (intros; nra).
    assert (Hb' : b = false <-> exists i, (i < n)%nat /\ turn 0%nat * turn i < 0).
    { rewrite Hb. split; intros (i & Hi & Hx).
      - exists i. split; [lia|exact Hx].
      - exists i. split; [|exact Hx]. destruct i; [exfalso; apply Hz; exact Hx|]. lia. }
    assert (T : (forall i, (i < n)%nat -> turn 0%nat * turn i < 0 -> False) -> b = true).
    { intros HH. destruct b; [reflexivity|]. destruct (proj1 Hb' eq_refl) as (i & Hi & Hx). exfalso. eapply HH; eauto. }
    assert (H0n : (0 < n)%nat) by lia.
    split; [|split; [|split]].
    - intros [Hs|Hs]; apply T; intros i Hi Hx; pose proof (Hs i Hi); pose proof (Hs 0%nat H0n); nra.
    - intros _. exact Hb'.
    - intros Hz0. apply T; intros i Hi Hx. rewrite Hz0 in Hx. lra.
    - intros E3. apply T; intros i Hi Hx. unfold n in E3, Hi.
      destruct vs as [|a [|b' [|c [|]]]]; cbn in E3; try discriminate. unfold turn in Hx. cbn [map] in Hx.
      rewrite (turn_triangle _ _ _ i) in Hx by (cbn in Hi; lia). nra.
  Qed.
End Convex.

(** * C25 *)
Lemma index_from_spec (l : list Z) x i :
  (index_from Z.eqb l x i = -1 /\ ~ In x l) \/
  (exists k, (k < length l)%nat /\ nth_error l k = Some x /\ index_from Z.eqb l x i = i + Z.of_nat k).
Proof.
  revert i; induction l as [|y l IH]; intros i; cbn [index_from]; [left; split; [reflexivity|intros []]|].
  destruct (Z.eqb_spec y x) as [->|Hne].
  - right. exists 0%nat. cbn. split; [lia|]. split; [reflexivity|lia].
  - destruct (IH (i + 1)) as [[E Hn]|(k & Hk & Hnth & E)].
    + left. split; [exact E|]. intros [|]; auto.
    + right. exists (S k). cbn [length nth_error]. split; [lia|]. split; [exact Hnth|lia].
Qed.

Lemma nodup_nth_eq {A} (l : list A) i j x : NoDup l -> nth_error l i = Some x -> nth_error l j = Some x -> i = j.
Proof. intros H Hi Hj. eapply (proj1 (NoDup_nth_error l) H); [apply nth_error_Some|]; congruence. Qed.

Lemma containsEdge_correct : forall (idx : list Z) (s : iseg), NoDup idx -> (3 <= length idx)%nat ->
  (containsEdge idx s = true <-> In (canon s) (map canon (edges_of idx))).
Proof.
  intros idx [a b] ND Hn. set (n := length idx). unfold containsEdge. cbn [fst snd]. unfold indexOf.
  assert (HE : In (canon (a, b)) (map canon (edges_of idx)) <->
    exists i, (i < n)%nat /\ ((nth_error idx i = Some a /\ nth_error idx ((i + 1) mod n) = Some b) \/
                              (nth_error idx i = Some b /\ nth_error idx ((i + 1) mod n) = Some a))).
  { rewrite in_map_iff. split.
    - intros ([c d] & Hc & Hin). apply In_nth_error in Hin as [i Hi].
      assert (Hlt : (i < n)%nat). { unfold n. rewrite <- (edges_of_length idx). apply nth_error_Some. congruence. }
      apply edges_of_nth in Hi; [|exact Hlt]. exists i. split; [exact Hlt|].
      unfold canon in Hc. cbn in Hc. injection Hc as H1 H2.
      assert ((a = c /\ b = d) \/ (a = d /\ b = c)) as [[-> ->]|[-> ->]] by lia; auto.
    - intros (i & Hi & [HH|HH]); apply edges_of_nth in HH; auto; apply nth_error_In in HH.
      + exists (a, b). auto.
      + exists (b, a). split; [|exact HH]. unfold canon; cbn. f_equal; lia. }
  rewrite HE. clear HE. unfold zlen. fold n.
  assert (Hmod : forall i, (i < n)%nat -> ((i + 1) mod n = if Nat.eqb i (n - 1) then 0 else i + 1)%nat).
  { intros i Hi. destruct (Nat.eqb_spec i (n - 1)) as [->|Hj0]; [replace (n - 1 + 1)%nat with n by lia; apply Nat.mod_same; lia|].
    apply Nat.mod_small. lia. }
  destruct (index_from_spec idx a 0) as [[Ea Na]|(i & Hi & Ha & Ea)].
  { rewrite Ea. cbn. split; [discriminate|]. intros (i & Hi & [[H1 _]|[_ H1]]); apply nth_error_In in H1; contradiction. }
  destruct (index_from_spec idx b 0) as [[Eb Nb]|(j & Hj & Hb & Eb)].
  { rewrite Eb, Ea. replace (negb (-1 =? -1)%Z) with false by reflexivity. rewrite andb_false_r. cbn. split; [discriminate|].
    intros (k & Hk & [[_ H1]|[H1 _]]); apply nth_error_In in H1; contradiction. }
  rewrite Ea, Eb. fold n in Hi, Hj. split.
  - intros H.
    assert (D : (i = j + 1 \/ j = i + 1 \/ (i = 0 /\ j = n - 1) \/ (j = 0 /\ i = n - 1))%nat) by lia.
    destruct D as [->|[->|[[-> ->]|[-> ->]]]].
    + exists j. split; [exact Hj|]. right. rewrite Hmod by exact Hj. destruct (Nat.eqb_spec j (n - 1)); [lia|auto].
    + exists i. split; [exact Hi|]. left. rewrite Hmod by exact Hi. destruct (Nat.eqb_spec i (n - 1)); [lia|auto].
    + exists (n - 1)%nat. split; [exact Hj|]. right. rewrite Hmod, Nat.eqb_refl by exact Hj. auto.
    + exists (n - 1)%nat. split; [exact Hi|]. left. rewrite Hmod, Nat.eqb_refl by exact Hi. auto.
  - intros (k & Hk & HH). rewrite Hmod in HH by exact Hk.
    assert (D : (i = k /\ j = if Nat.eqb k (n - 1) then 0 else k + 1)%nat \/ (j = k /\ i = if Nat.eqb k (n - 1) then 0 else k + 1)%nat).
    { destruct HH as [[H1 H2]|[H1 H2]]; [left|right]; split; eapply nodup_nth_eq; eauto. }
    destruct (Nat.eqb_spec k (n - 1)); lia.
Qed.

(** * C26 *)
Lemma calculateHash_perm : forall i1 i2, Permutation i1 i2 -> calculateHash i1 = calculateHash i2.
Proof.
  assert (G : forall l h, fold_left (fun h k => to_size (h + hash32 k)) l (to_size h) = to_size (h + fold_right (fun k s => hash32 k + s) 0 l)).
  { induction l as [|k l IH]; intros h; cbn [fold_left fold_right]; [f_equal; lia|].
    replace (to_size (to_size h + hash32 k)) with (to_size (h + hash32 k)).
    - rewrite IH. f_equal. lia.
    - unfold to_size. rewrite Zplus_mod_idemp_l. reflexivity. }
  intros i1 i2 H. unfold calculateHash. change 0 with (to_size 0). rewrite !G. f_equal. f_equal.
  induction H; cbn; lia.
Qed.

Lemma polygon_order : forall (N : Num),
  strict_weak_order_on (fun _ : polygon N => True) polygon_ltb /\
  (forall a b : polygon N, equivb polygon_ltb a b = polygon_eqb a b).
Proof.
  intros N. split; [constructor|].
  - intros a _. unfold polygon_ltb. lia.
  - intros a b c _ _ _. unfold polygon_ltb. lia.
  - intros a b c _ _ _. unfold incomparable, polygon_ltb. lia.
  - intros a b. unfold equivb, polygon_ltb, polygon_eqb. lia.
Qed.

(** * C29 *)
Section MaxDistance.
  Notation Pt := (Point RNum).
  Local Open Scope R_scope.
  Lemma fold_max {A} (f : A -> R) l b :
    let r := fold_left (fun m a => if Rltb m (f a) then f a else m) l b in
    (b <= r) /\ (forall a, In a l -> f a <= r) /\ (r = b \/ exists a, In a l /\ r = f a).
  Proof.
    revert b; induction l as [|a l IH]; intros b; cbn [fold_left].
    - cbn. split; [lra|]. split; [intros ? []|auto].
    - destruct (IH (if Rltb b (f a) then f a else b)) as (H1 & H2 & H3). set (r := fold_left _ l _) in *. cbv zeta.
      destruct (Rltb_spec b (f a)).
      + split; [lra|]. split; [intros x [<-|Hx]; [lra|auto]|]. right. destruct H3 as [->|(x & Hx & ->)]; [exists a|exists x]; cbn; auto.
      + split; [lra|]. split; [intros x [<-|Hx]; [lra|auto]|]. destruct H3 as [->|(x & Hx & ->)]; [auto|right; exists x; cbn; auto].
  Qed.

  Lemma getMaxDistance_correct p idx (vs : list Pt) : vertices_are p idx vs -> idx <> [] ->
    exists m, getMaxDistance (N := RNum) idx p = Ok m /\
      (forall a b, In (a, b) (edges_of vs) -> dist (xy a) (xy b) <= m) /\
      (exists a b, In (a, b) (edges_of vs) /\ m = dist (xy a) (xy b)) /\
      (exists a b, In a vs /\ In b vs /\ m = dist (xy a) (xy b)).
  Proof.
    intros H Hne. unfold getMaxDistance. pose proof (vertices_length _ _ _ H) as HL. rewrite <- HL.
    destruct vs as [|d0 vs'].
    { exfalso. apply Hne. destruct idx; [reflexivity|discriminate]. }
    set (vs := d0 :: vs') in *.
    rewrite (foldM_ext _ (fun mx i => a <- vgetn vs i ;; b <- vgetn vs ((i + 1) mod length vs) ;;
       Ok (if Rltb mx (seg_length (N := RNum) a b) then seg_length (N := RNum) a b else mx))).
    2:{ intros b i Hi. apply in_seq in Hi. rewrite <- !(vertices_vpt _ _ _ _ H). unfold vpt, iseg_length.
        assert (exists k, vgetn idx i = Ok k) as [k ->].
        { destruct (nth_error idx i) eqn:E; [exists z; apply vgetn_ok; exact E|]. apply nth_error_None in E. lia. }
        assert (exists k, vgetn idx ((i + 1) mod length vs) = Ok k) as [k2 ->].
        { destruct (nth_error idx ((i + 1) mod length vs)) eqn:E; [exists z; apply vgetn_ok; exact E|]. apply nth_error_None in E.
          pose proof (Nat.mod_upper_bound (i + 1) (length vs)). cbn in *. lia. }
        cbn [bind fst snd]. destruct (vget p k); cbn [bind]; [|reflexivity]. destruct (vget p k2); reflexivity. }
    rewrite (loop_edges (fun mx a b => Ok (if Rltb mx (seg_length (N := RNum) a b) then seg_length (N := RNum) a b else mx)) vs).
    rewrite (foldM_pure _ (fun mx e => if Rltb mx (seg_length (N := RNum) (fst e) (snd e)) then seg_length (N := RNum) (fst e) (snd e) else mx)) by reflexivity.
    destruct (fold_max (fun e : Pt * Pt => seg_length (N := RNum) (fst e) (snd e)) (edges_of vs) (nZ (n := RNum) (-9223372036854775808))) as (H1 & H2 & H3).
    set (m := fold_left _ (edges_of vs) _) in *. exists m. split; [reflexivity|].
    assert (Hmem : exists a b, In (a, b) (edges_of vs) /\ m = dist (xy a) (xy b)).
    { destruct H3 as [E|([a b] & Hin & E)]; [|exists a, b; auto]. exfalso.
      assert (Hex : exists e, In e (edges_of vs)).
      { pose proof (edges_of_length vs) as HLe. destruct (edges_of vs) as [|e l]; [discriminate|]. exists e. left. reflexivity. }
      destruct Hex as [[a b] Hin]. pose proof (H2 _ Hin) as H4. cbn [fst snd] in H4. rewrite E in H4.
      pose proof (dist_nonneg (xy a) (xy b)) as H5. rewrite seg_length_dist in H4. rnum. lra. }
    split; [|split; [exact Hmem|]].
    - intros a b Hin. exact (H2 _ Hin).
    - destruct Hmem as (a & b & Hin & E). exists a, b. split; [|split; [|exact E]].
      + rewrite <- (edges_of_fst vs). apply (in_map fst) in Hin. exact Hin.
      + apply (Permutation_in _ (edges_of_snd vs)). apply (in_map snd) in Hin. exact Hin.
  Qed.

  (** every axis-parallel rectangle: the diagonal is longer *)
  Lemma getMaxDistance_rectangle x y w h : 0 < w -> 0 < h ->
    let P a b := mkP (N := RNum) a b in
    let p := [P x y; P (x + w) y; P (x + w) (y + h); P x (y + h)] in
    exists m, getMaxDistance (N := RNum) [0; 1; 2; 3]%Z p = Ok m /\ m < dist (x, y) (x + w, y + h).
  Proof.
    intros Hw Hh P p.
    assert (HV : vertices_are p [0; 1; 2; 3]%Z p) by exact (vertices_trivial p).
    destruct (getMaxDistance_correct _ _ _ HV) as (m & E & _ & (a & b & Hin & Hm) & _); [discriminate|].
    exists m. split; [exact E|]. rewrite Hm.
    assert (S : forall u v, dist u v < dist (x, y) (x + w, y + h) <->
      (fst u - fst v) * (fst u - fst v) + (snd u - snd v) * (snd u - snd v) < w * w + h * h).
    { intros u v. unfold dist. cbn [fst snd].
      replace ((x - (x + w)) * (x - (x + w)) + (y - (y + h)) * (y - (y + h))) with (w * w + h * h) by ring.
      split; intros HH.
      - apply sqrt_lt_0_alt in HH. exact HH.
      - apply sqrt_lt_1_alt. split; [|exact HH]. apply Rplus_le_le_0_compat; apply Rle_0_sqr. }
    apply S. cbn in Hin. destruct Hin as [Hin|[Hin|[Hin|[Hin|[]]]]]; injection Hin as <- <-; cbn; nra.
  Qed.
End MaxDistance.

(** * Packaged statements *)
Lemma area_functions_agree : forall (p : list (Point RNum)) idx vs, vertices_are p idx vs ->
  geo_area (N := RNum) p idx = Ok (shoelace (map xy vs)) /\
  calculateArea (N := RNum) p idx = Ok (shoelace (map xy vs)) /\
  signedArea (N := RNum) p idx = Ok (shoelace (map xy vs)) /\
  geo_area_pts (N := RNum) vs = Ok (shoelace (map xy vs)) /\
  (forall g : polygon RNum, pg_points g = idx -> pg_area g = (-1)%R -> exists g', getArea g p = Ok (g', shoelace (map xy vs))).
Proof.
  intros p idx vs H. split; [exact (geo_area_shoelace _ _ _ H)|]. split; [exact (geo_area_shoelace _ _ _ H)|].
  split; [exact (signedArea_shoelace _ _ _ H)|]. split; [apply geo_area_pts_shoelace|].
  intros g Hg Ha. rewrite getArea_fresh by (rnum; apply Reqb_true; exact Ha). rewrite Hg, (geo_area_shoelace _ _ _ H). cbn. eauto.
Qed.

Lemma area_invariances : forall (p : list (Point RNum)) i1 i2 dx dy, in_range p (i1 ++ i2) ->
  let area := geo_area (N := RNum) in
  exists a, area p (i1 ++ i2) = Ok a /\ area p (i2 ++ i1) = Ok a /\ area p (rev (i1 ++ i2)) = Ok (- a)%R /\
    area (map (fun q : Point RNum => mkP (N := RNum) (dx + px q)%R (dy + py q)%R) p) (i1 ++ i2) = Ok a.
Proof.
  intros p i1 i2 dx dy H area. apply vertices_exist in H as [vs H]. exists (shoelace (map xy vs)).
  split; [exact (geo_area_shoelace _ _ _ H)|].
  pose proof H as H'. apply vertices_split in H' as (v1 & v2 & -> & H1 & H2).
  split; [|split].
  - unfold area. rewrite (geo_area_shoelace _ _ _ (vertices_app _ _ _ _ _ H2 H1)). rewrite !map_app, shoelace_rotate. reflexivity.
  - unfold area. rewrite (geo_area_shoelace _ _ _ (vertices_rev _ _ _ H)). rewrite map_rev, shoelace_rev. reflexivity.
  - unfold area. set (f := fun q : Point RNum => mkP (N := RNum) (dx + px q)%R (dy + py q)%R).
    assert (HV : vertices_are (map f p) (i1 ++ i2) (map f (v1 ++ v2))).
    { clear -H. unfold vertices_are in *. induction H as [|k v idx vs [Hk Hv] H IH]; [constructor|].
      cbn [map]. constructor; [|exact IH]. split; [exact Hk|]. apply map_nth_error. exact Hv. }
    rewrite (geo_area_shoelace _ _ _ HV), map_map.
    replace (map (fun x => xy (f x)) (v1 ++ v2)) with (map (vadd (dx, dy)) (map xy (v1 ++ v2))) by (rewrite map_map; reflexivity).
    rewrite shoelace_translate. reflexivity.
Qed.

Lemma isClockwise_iff : forall (p : list (Point RNum)) idx vs,
  vertices_are p idx vs -> idx <> [] ->
  exists b, isClockwise (N := RNum) idx p = Ok b /\ (b = true <-> (shoelace (map xy vs) < 0)%R).
Proof.
  intros p idx vs H Hne. eexists. split; [apply (isClockwise_ok _ _ _ H Hne)|]. apply Rltb_iff.
Qed.

Lemma centroid_invariances : forall o (l1 l2 : list pt) d, shoelace (l1 ++ l2) <> 0%R ->
  centroid_from o (l2 ++ l1) = centroid_from o (l1 ++ l2) /\
  centroid_from o (rev (l1 ++ l2)) = centroid_from o (l1 ++ l2) /\
  centroid_from o (map (vadd d) (l1 ++ l2)) = vadd d (centroid_from o (l1 ++ l2)) /\
  (forall a b c, shoelace [a; b; c] <> 0%R ->
     centroid_from o [a; b; c] = ((fst a + fst b + fst c) / 3, (snd a + snd b + snd c) / 3)%R).
Proof.
  intros o l1 l2 d Hn. split; [|split; [|split]].
  - rewrite !centroid_from_formula. rewrite (shoelace_rotate l2 l1).
    rewrite !(fun f => sumR_perm _ _ (Permutation_map f (edges_of_app_comm l2 l1))). reflexivity.
  - rewrite !centroid_from_formula. rewrite shoelace_rev.
    rewrite !(fun f => sumR_perm _ _ (Permutation_map f (edges_of_rev (l1 ++ l2)))). rewrite !map_map. cbn [fst snd].
    set (l := edges_of (l1 ++ l2)).
    assert (A : forall f : pt -> R, sumR (map (fun e : pt * pt => (f (snd e) + f (fst e)) * vcross (snd e) (fst e))%R l) =
       (- sumR (map (fun e : pt * pt => (f (fst e) + f (snd e)) * vcross (fst e) (snd e))%R l))%R).
    { intros f. rewrite (sumR_map_ext _ (fun e : pt * pt => (-1) * ((f (fst e) + f (snd e)) * vcross (fst e) (snd e)))%R).
      - rewrite sumR_map_scal. lra.
      - intros [[a b] [c e]] _. unfold vcross; cbn. ring. }
    rewrite (A fst), (A snd). f_equal; field; exact Hn.
  - rewrite <- (centroid_from_translate d o (l1 ++ l2) Hn). rewrite !centroid_from_formula. reflexivity.
  - intros a b c H3. rewrite centroid_from_formula. destruct a, b, c. unfold shoelace, sumR, vcross in *; cbn in *.
    f_equal; field; lra.
Qed.

Lemma containsEdge_segments : forall (idx : list Z) (s : iseg), NoDup idx -> (3 <= length idx)%nat ->
  exists es, getSegments idx [] = Ok es /\ (containsEdge idx s = true <-> In (canon s) (map canon es)).
Proof.
  intros idx s H Hn. exists (edges_of idx). split; [apply getSegments_edges|]. apply containsEdge_correct; assumption.
Qed.

Lemma ctor_idx_ok (N : Num) tol idx (p : list (Point N)) :
  polygon_ctor_idx tol idx p = Ok (mkPoly idx (nZ (-1)) (nZ (-1)) point0 (calculateHash idx)).
Proof. reflexivity. Qed.

Lemma permuted_polygons_equal : forall (N : Num) tol i1 i2 (p1 p2 : list (Point N)) g1 g2,
  polygon_ctor_idx tol i1 p1 = Ok g1 -> polygon_ctor_idx tol i2 p2 = Ok g2 ->
  Permutation i1 i2 -> polygon_eqb g1 g2 = true.
Proof.
  intros N tol i1 i2 p1 p2 g1 g2 H1 H2 HP. rewrite ctor_idx_ok in H1, H2. injection H1 as <-. injection H2 as <-.
  unfold polygon_eqb. cbn [pg_hash]. rewrite (calculateHash_perm _ _ HP). apply Z.eqb_refl.
Qed.

Lemma equal_but_different : forall (N : Num) tol (p : list (Point N)),
  exists g1 g2 g3 g4,
    polygon_ctor_idx tol [0; 1; 2; 3]%Z p = Ok g1 /\ polygon_ctor_idx tol [0; 2; 1; 3]%Z p = Ok g2 /\ polygon_eqb g1 g2 = true /\
    polygon_ctor_idx tol [5; 14; 46]%Z p = Ok g3 /\ polygon_ctor_idx tol [40; 51; 52]%Z p = Ok g4 /\ polygon_eqb g3 g4 = true.
Proof.
  intros N tol p. do 4 eexists. rewrite !ctor_idx_ok.
  split; [reflexivity|]. split; [reflexivity|]. split; [unfold polygon_eqb; cbn [pg_hash]; vm_compute; reflexivity|].
  split; [reflexivity|]. split; [reflexivity|]. unfold polygon_eqb; cbn [pg_hash]; vm_compute; reflexivity.
Qed.
