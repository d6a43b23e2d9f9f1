(** Proofs about polygons: loops over vertices, edges, area, orientation, centroid. *)
From Coq Require Import Reals Lra Psatz Permutation ZifyNat.
From Verif Require Import Base Spec MUtil MGeom MHull MPolygon Bridge PUtil PPoint PSegment.

(** * Closed chains *)
Lemma nth_error_ext {A} (l1 l2 : list A) : (forall i, nth_error l1 i = nth_error l2 i) -> l1 = l2.
Proof.
  revert l2; induction l1 as [|a l1 IH]; intros [|b l2] H; [reflexivity|specialize (H 0%nat); discriminate|specialize (H 0%nat); discriminate|].
  f_equal; [specialize (H 0%nat); cbn in H; congruence|]. apply IH. intros i. exact (H (S i)).
Qed.
Section Chains.
  Context {A : Type}.
  Lemma pairs_cons2 (a b : A) l : pairs (a :: b :: l) = (a, b) :: pairs (b :: l).
  Proof. reflexivity. Qed.
  Lemma pairs_app (l1 l2 : list A) x : pairs (l1 ++ x :: l2) = pairs (l1 ++ [x]) ++ pairs (x :: l2).
  Proof.
    induction l1 as [|a l1 IH]; [reflexivity|]. destruct l1 as [|b l1]; [reflexivity|].
    cbn [app] in *. rewrite !pairs_cons2, IH. reflexivity.
  Qed.
  Lemma pairs_length (l : list A) : length (pairs l) = (length l - 1)%nat.
  Proof. induction l as [|a [|b l] IH]; [reflexivity|reflexivity|]. rewrite pairs_cons2. cbn [length] in *. lia. Qed.
  Lemma pairs_nth (l : list A) i a b :
    nth_error (pairs l) i = Some (a, b) <-> nth_error l i = Some a /\ nth_error l (S i) = Some b.
  Proof.
    revert i; induction l as [|x [|y l] IH]; intros i.
    - destruct i; cbn; intuition discriminate.
    - destruct i as [|[|i]]; cbn; intuition discriminate.
    - rewrite pairs_cons2. destruct i as [|i].
      + cbn. split; [intros E; injection E as -> ->; auto|intros [E1 E2]; congruence].
      + cbn [nth_error] in *. apply IH.
  Qed.
  Lemma pairs_rev (l : list A) : pairs (rev l) = rev (map (fun e => (snd e, fst e)) (pairs l)).
  Proof.
    induction l as [|a [|b l] IH]; [reflexivity|reflexivity|].
    rewrite pairs_cons2. cbn [map rev fst snd] in *. rewrite <- IH. cbn [rev].
    rewrite <- !app_assoc. cbn [app]. rewrite pairs_app. reflexivity.
  Qed.
  Lemma edges_of_app_comm_eq (a b : A) (l1 l2 : list A) :
    edges_of ((a :: l1) ++ b :: l2) = pairs (a :: l1 ++ [b]) ++ pairs (b :: l2 ++ [a]).
  Proof.
    unfold edges_of. cbn [app]. rewrite <- app_assoc. cbn [app].
    change (a :: l1 ++ b :: l2 ++ [a]) with ((a :: l1) ++ b :: (l2 ++ [a])). rewrite pairs_app. reflexivity.
  Qed.
  Lemma edges_of_app_comm (l1 l2 : list A) : Permutation (edges_of (l1 ++ l2)) (edges_of (l2 ++ l1)).
  Proof.
    destruct l1 as [|a l1]; [rewrite app_nil_r; reflexivity|].
    destruct l2 as [|b l2]; [rewrite app_nil_r; reflexivity|].
    rewrite !edges_of_app_comm_eq. apply Permutation_app_comm.
  Qed.
  Lemma edges_of_rev (l : list A) : Permutation (edges_of (rev l)) (map (fun e => (snd e, fst e)) (edges_of l)).
  Proof.
    destruct l as [|a l]; [reflexivity|]. cbn [rev].
    rewrite (edges_of_app_comm (rev l) [a]). cbn [app].
    unfold edges_of at 1. replace (a :: rev l) with (rev (l ++ [a])) by (rewrite rev_app_distr; reflexivity).
    replace (rev (l ++ [a]) ++ [a]) with (rev (a :: l ++ [a])) by reflexivity.
    rewrite pairs_rev. apply Permutation_sym, Permutation_rev.
  Qed.
  Lemma edges_of_length (l : list A) : length (edges_of l) = length l.
  Proof. destruct l as [|a l]; [reflexivity|]. unfold edges_of. rewrite pairs_length, app_length. cbn. lia. Qed.
  Lemma edges_of_nth (l : list A) i a b : (i < length l)%nat ->
    nth_error (edges_of l) i = Some (a, b) <->
    nth_error l i = Some a /\ nth_error l ((i + 1) mod length l) = Some b.
  Proof.
    intros Hi. destruct l as [|v l]; [cbn in Hi; lia|]. unfold edges_of. rewrite pairs_nth.
    rewrite nth_error_app1 by exact Hi.
    destruct (Nat.eq_dec (S i) (length (v :: l))) as [E|E].
    - rewrite nth_error_app2 by lia. rewrite E, Nat.sub_diag.
      replace ((i + 1) mod length (v :: l))%nat with 0%nat; [reflexivity|].
      rewrite Nat.add_1_r, E, Nat.mod_same; cbn; lia.
    - rewrite nth_error_app1 by lia. rewrite Nat.mod_small by lia. rewrite Nat.add_1_r. reflexivity.
  Qed.
  Lemma edges_of_map_seq (d : A) (l : list A) :
    edges_of l = map (fun i => (nth i l d, nth ((i + 1) mod length l) l d)) (seq 0 (length l)).
  Proof.
    apply nth_error_ext. intros i. destruct (Nat.lt_ge_cases i (length l)) as [Hi|Hi].
    - rewrite (map_nth_error _ i (seq 0 (length l)) (d := i)).
      2:{ rewrite nth_error_nth' with (d := 0%nat) by (rewrite seq_length; exact Hi). rewrite seq_nth by exact Hi. reflexivity. }
      apply edges_of_nth; [exact Hi|]. split; apply nth_error_nth'; [exact Hi|].
      apply Nat.mod_upper_bound. lia.
    - assert (H1 : nth_error (edges_of l) i = None) by (apply nth_error_None; rewrite edges_of_length; exact Hi).
      assert (H2 : nth_error (map (fun i => (nth i l d, nth ((i + 1) mod length l) l d)) (seq 0 (length l))) i = None)
        by (apply nth_error_None; rewrite map_length, seq_length; exact Hi).
      congruence.
  Qed.
  Lemma edges_of_fst (l : list A) : map fst (edges_of l) = l.
  Proof.
    destruct l as [|d l']; [reflexivity|]. set (l := d :: l'). rewrite (edges_of_map_seq d l), map_map. cbn [fst].
    apply nth_error_ext. intros i. destruct (Nat.lt_ge_cases i (length l)) as [Hi|Hi].
    - rewrite (map_nth_error _ i (seq 0 (length l)) (d := i)).
      2:{ rewrite nth_error_nth' with (d := 0%nat) by (rewrite seq_length; exact Hi). rewrite seq_nth by exact Hi. reflexivity. }
      symmetry. apply nth_error_nth'. exact Hi.
    - rewrite (proj2 (nth_error_None _ i)) by (rewrite map_length, seq_length; exact Hi).
      symmetry. apply nth_error_None. exact Hi.
  Qed.
  Lemma pairs_snd (l : list A) : map snd (pairs l) = tl l.
  Proof. induction l as [|a [|b l] IH]; [reflexivity|reflexivity|]. rewrite pairs_cons2. cbn [map snd tl] in *. rewrite IH. reflexivity. Qed.
  Lemma edges_of_snd (l : list A) : Permutation (map snd (edges_of l)) l.
  Proof.
    destruct l as [|a l]; [reflexivity|]. unfold edges_of. rewrite pairs_snd. cbn [app tl].
    apply Permutation_sym, Permutation_cons_append.
  Qed.
  Lemma edges_of_map {B} (f : A -> B) (l : list A) :
    edges_of (map f l) = map (fun e => (f (fst e), f (snd e))) (edges_of l).
  Proof.
    assert (P : forall l, pairs (map f l) = map (fun e => (f (fst e), f (snd e))) (pairs l)).
    { clear l. induction l as [|a [|b l] IH]; [reflexivity|reflexivity|].
      change (pairs (map f (a :: b :: l))) with ((f a, f b) :: pairs (map f (b :: l))). rewrite IH. reflexivity. }
    destruct l as [|a l]; [reflexivity|]. unfold edges_of. cbn [map].
    rewrite <- (P ((a :: l) ++ [a])). rewrite map_app. reflexivity.
  Qed.
End Chains.

(** * Loops *)
Lemma foldM_ext {A B} (f g : B -> A -> res B) l b :
  (forall b a, In a l -> f b a = g b a) -> foldM f l b = foldM g l b.
Proof.
  revert b; induction l as [|a l IH]; intros b H; cbn; [reflexivity|].
  rewrite H by (left; reflexivity). destruct (g b a); cbn; [|reflexivity]. apply IH. intros; apply H; right; assumption.
Qed.
Lemma foldM_map {A B C} (f : B -> A -> res B) (g : C -> A) l b :
  foldM f (map g l) b = foldM (fun b c => f b (g c)) l b.
Proof. revert b; induction l as [|a l IH]; intros b; cbn; [reflexivity|]. destruct (f b (g a)); cbn; auto. Qed.

Lemma existsM_ext {A} (f g : A -> res bool) l :
  (forall a, In a l -> f a = g a) -> existsM f l = existsM g l.
Proof.
  induction l as [|a l IH]; intros H; cbn; [reflexivity|].
  rewrite H by (left; reflexivity). destruct (g a) as [[|]|]; cbn; auto. apply IH. intros; apply H; right; assumption.
Qed.
Lemma existsM_pure {A} (f : A -> res bool) (g : A -> bool) l :
  (forall a, In a l -> f a = Ok (g a)) -> existsM f l = Ok (existsb g l).
Proof.
  induction l as [|a l IH]; intros H; cbn; [reflexivity|].
  rewrite H by (left; reflexivity). cbn. destruct (g a); cbn; [reflexivity|]. apply IH. intros; apply H; right; assumption.
Qed.

Section Vertices.
  Context {N : Num}.
  Notation Point := (Point N).
  Lemma vertices_length p idx (vs : list Point) : vertices_are p idx vs -> length vs = length idx.
  Proof. intros H. induction H; cbn; congruence. Qed.
  Lemma vertices_vpt p idx (vs : list Point) i : vertices_are p idx vs -> vpt p idx i = vgetn vs i.
  Proof.
    unfold vpt. intros H. revert i. induction H as [|k v idx vs [H1 H2] H IH]; intros i.
    - destruct i; reflexivity.
    - destruct i as [|i].
      + cbn. apply vget_ok. auto.
      + exact (IH i).
  Qed.
  Lemma vertices_vget p idx (vs : list Point) k : vertices_are p idx vs -> In k idx -> exists v, vget p k = Ok v /\ In v vs.
  Proof.
    intros H. induction H as [|k' v idx vs [H1 H2] H IH]; cbn; [contradiction|].
    intros [->|Hin]; [exists v; split; [apply vget_ok; auto|auto]|]. destruct (IH Hin) as (w & ? & ?). eauto.
  Qed.
  Lemma vertices_exist (p : list Point) idx : in_range p idx <-> exists vs, vertices_are p idx vs.
  Proof.
    split.
    - induction idx as [|k idx IH]; intros H; [exists []; constructor|].
      inversion_clear H as [|? ? Hk H']. destruct (IH H') as [vs Hvs].
      destruct (proj2 (vget_range p k) Hk) as [v Hv]. exists (v :: vs). constructor; [apply vget_ok; exact Hv|exact Hvs].
    - intros [vs H]. induction H as [|k v idx vs [H1 H2] H IH]; [constructor|]. constructor; [|exact IH].
      apply vget_range. exists v. apply vget_ok. auto.
  Qed.
  Lemma vertices_app p i1 i2 (v1 v2 : list Point) : vertices_are p i1 v1 -> vertices_are p i2 v2 -> vertices_are p (i1 ++ i2) (v1 ++ v2).
  Proof. apply Forall2_app. Qed.
  Lemma vertices_rev p idx (vs : list Point) : vertices_are p idx vs -> vertices_are p (rev idx) (rev vs).
  Proof.
    intros H. induction H as [|k v idx vs Hk H IH]; [constructor|]. cbn. apply vertices_app; [exact IH|].
    constructor; [exact Hk|constructor].
  Qed.
  Lemma vertices_unique p idx (v1 v2 : list Point) : vertices_are p idx v1 -> vertices_are p idx v2 -> v1 = v2.
  Proof.
    intros H. revert v2. induction H as [|k v idx vs Hk H IH]; intros v2 H2; inversion H2; subst; [reflexivity|].
    f_equal; [|apply IH; assumption]. destruct Hk, H3. congruence.
  Qed.
  Lemma vertices_split p i1 i2 (vs : list Point) : vertices_are p (i1 ++ i2) vs ->
    exists v1 v2, vs = v1 ++ v2 /\ vertices_are p i1 v1 /\ vertices_are p i2 v2.
  Proof. intros H. apply Forall2_app_inv_l in H as (v1 & v2 & H1 & H2 & ->). eauto. Qed.
  Lemma vertices_trivial (p : list Point) : vertices_are p (trivialIndex (length p)) p.
  Proof.
    unfold trivialIndex.
    assert (G : forall l pre : list Point, vertices_are (pre ++ l) (map Z.of_nat (seq (length pre) (length l))) l).
    { induction l as [|a l IH]; intros pre; [constructor|]. cbn [length seq map]. constructor.
      - split; [lia|]. rewrite Nat2Z.id, nth_error_app2, Nat.sub_diag by lia. reflexivity.
      - specialize (IH (pre ++ [a])). rewrite <- app_assoc, app_length, Nat.add_1_r in IH. exact IH. }
    exact (G p []).
  Qed.

  (** the loop over the edges, in the forms found in the code *)
  Lemma loop_edges {B} (F : B -> Point -> Point -> res B) (vs : list Point) b :
    foldM (fun acc i => a <- vgetn vs i ;; c <- vgetn vs ((i + 1) mod length vs) ;; F acc a c) (seq 0 (length vs)) b =
    foldM (fun acc e => F acc (fst e) (snd e)) (edges_of vs) b.
  Proof.
    destruct vs as [|d vs']; [reflexivity|]. set (vs := d :: vs').
    rewrite (edges_of_map_seq d vs), foldM_map. apply foldM_ext. intros acc i Hi. apply in_seq in Hi.
    cbn [fst snd]. rewrite (vgetn_lt vs i d), (vgetn_lt vs _ d); [reflexivity| |lia].
    apply Nat.mod_upper_bound. subst vs; cbn; lia.
  Qed.
  Lemma loop_edges_Z {B} (F : B -> Z -> Z -> res B) (vs : list Z) b :
    foldM (fun acc i => a <- vgetn vs i ;; c <- vgetn vs ((i + 1) mod length vs) ;; F acc a c) (seq 0 (length vs)) b =
    foldM (fun acc e => F acc (fst e) (snd e)) (edges_of vs) b.
  Proof.
    destruct vs as [|d vs']; [reflexivity|]. set (vs := d :: vs').
    rewrite (edges_of_map_seq d vs), foldM_map. apply foldM_ext. intros acc i Hi. apply in_seq in Hi.
    cbn [fst snd]. rewrite (vgetn_lt vs i d), (vgetn_lt vs _ d); [reflexivity| |lia].
    apply Nat.mod_upper_bound. subst vs; cbn; lia.
  Qed.
End Vertices.

(** * C11 *)
Lemma fold_snoc {A} (l acc : list A) : fold_left (fun acc e => acc ++ [e]) l acc = acc ++ l.
Proof. revert acc; induction l as [|a l IH]; intros acc; cbn; [rewrite app_nil_r; reflexivity|]. rewrite IH, <- app_assoc. reflexivity. Qed.

Lemma getSegments_edges idx segs : getSegments idx segs = Ok (segs ++ edges_of idx).
Proof.
  unfold getSegments.
  rewrite (foldM_ext _ (fun acc i => a <- vgetn idx i ;; b <- vgetn idx ((i + 1) mod length idx) ;; Ok (acc ++ [(a, b)]))).
  2:{ intros b i Hi. apply in_seq in Hi. rewrite (Nat.mod_small i) by lia. reflexivity. }
  rewrite (loop_edges_Z (fun acc a b => Ok (acc ++ [(a, b)])) idx segs).
  rewrite (foldM_pure _ (fun acc e => acc ++ [e])); [rewrite fold_snoc; reflexivity|].
  intros b [x y] _. reflexivity.
Qed.

Lemma segments_closed_chain : forall (idx : list Z) (segs : list iseg),
  exists es, getSegments idx segs = Ok (segs ++ es) /\ length es = length idx /\
    (forall i a b, (i < length idx)%nat ->
       (nth_error es i = Some (a, b) <-> nth_error idx i = Some a /\ nth_error idx ((i + 1) mod length idx) = Some b)) /\
    map fst es = idx /\ Permutation (map snd es) idx.
Proof.
  intros idx segs. exists (edges_of idx). split; [apply getSegments_edges|]. split; [apply edges_of_length|].
  split; [intros; apply edges_of_nth; assumption|]. split; [apply edges_of_fst|apply edges_of_snd].
Qed.

(** * Sums *)
Lemma sumR_perm l1 l2 : Permutation l1 l2 -> sumR l1 = sumR l2.
Proof. induction 1; unfold sumR in *; cbn in *; lra. Qed.
Lemma sumR_map_ext {A} (f g : A -> R) l : (forall a, In a l -> f a = g a) -> sumR (map f l) = sumR (map g l).
Proof.
  induction l as [|a l IH]; intros H; [reflexivity|]. cbn. rewrite H by (left; reflexivity).
  f_equal. apply IH. intros; apply H; right; assumption.
Qed.
Lemma sumR_map_add {A} (f g : A -> R) l : sumR (map (fun a => f a + g a)%R l) = (sumR (map f l) + sumR (map g l))%R.
Proof. induction l as [|a l IH]; cbn; unfold sumR in *; [lra|]. rewrite IH. lra. Qed.
Lemma sumR_map_scal {A} (f : A -> R) c l : sumR (map (fun a => c * f a)%R l) = (c * sumR (map f l))%R.
Proof. induction l as [|a l IH]; cbn; unfold sumR in *; [lra|]. rewrite IH. lra. Qed.
Lemma sumR_app l1 l2 : sumR (l1 ++ l2) = (sumR l1 + sumR l2)%R.
Proof. induction l1 as [|a l IH]; cbn; unfold sumR in *; [lra|]. rewrite IH. lra. Qed.
Lemma fold_left_sum {A} (f : A -> R) l b : fold_left (fun acc a => acc + f a)%R l b = (b + sumR (map f l))%R.
Proof. revert b; induction l as [|a l IH]; intros b; cbn; unfold sumR in *; [lra|]. rewrite IH. lra. Qed.

(** a telescoping sum over a closed chain vanishes *)
Lemma telescope {A} (g : A -> R) vs : sumR (map (fun e => g (snd e) - g (fst e))%R (edges_of vs)) = 0%R.
Proof.
  rewrite (sumR_map_ext _ (fun e => g (snd e) + (-1) * g (fst e))%R) by (intros; lra).
  rewrite sumR_map_add, sumR_map_scal.
  rewrite <- (map_map snd g), <- (map_map fst g), edges_of_fst.
  rewrite (sumR_perm _ _ (Permutation_map g (edges_of_snd vs))). lra.
Qed.

Lemma shoelace_perm_edges v1 v2 : Permutation (edges_of v1) (edges_of v2) -> shoelace v1 = shoelace v2.
Proof. intros H. unfold shoelace. rewrite (sumR_perm _ _ (Permutation_map _ H)). reflexivity. Qed.
Lemma shoelace_rotate l1 l2 : shoelace (l1 ++ l2) = shoelace (l2 ++ l1).
Proof. apply shoelace_perm_edges, edges_of_app_comm. Qed.
Lemma shoelace_rev l : shoelace (rev l) = (- shoelace l)%R.
Proof.
  unfold shoelace. rewrite (sumR_perm _ _ (Permutation_map _ (edges_of_rev l))), map_map. cbn [fst snd].
  rewrite (sumR_map_ext _ (fun e => (-1) * vcross (fst e) (snd e))%R).
  - rewrite sumR_map_scal. lra.
  - intros [[a b] [c d]] _. unfold vcross; cbn. lra.
Qed.
(** the fan around any reference point *)
Lemma shoelace_fan o vs : shoelace vs = sumR (map (fun e : pt * pt => orient (fst e) (snd e) o / 2)%R (edges_of vs)).
Proof.
  unfold shoelace.
  rewrite (sumR_map_ext (fun e : pt * pt => orient (fst e) (snd e) o / 2)%R
    (fun e : pt * pt => (1/2) * vcross (fst e) (snd e) + (vcross o (fst (snd e), snd (snd e)) / 2 * (-1) - vcross o (fst (fst e), snd (fst e)) / 2 * (-1)))%R).
  - rewrite sumR_map_add, sumR_map_scal, (telescope (fun v : pt => vcross o (fst v, snd v) / 2 * (-1))%R vs). lra.
  - intros [[a b] [c d]] _. destruct o. unfold orient, vcross, vsub; cbn. field.
Qed.
Lemma shoelace_translate d vs : shoelace (map (vadd d) vs) = shoelace vs.
Proof.
  rewrite (shoelace_fan (vadd d (0, 0)%R)), (shoelace_fan (0, 0)%R vs), edges_of_map, map_map.
  apply sumR_map_ext. intros [[a b] [c e]] _. destruct d. unfold orient, vcross, vsub, vadd; cbn. field.
Qed.

(** * C12 *)
Section Area.
  Notation Pt := (Point RNum).
  Lemma triangleArea_orient (a b o : Pt) : triangleArea a b o = (orient (xy a) (xy b) (xy o) / 2)%R.
  Proof. unfold triangleArea, area2, crossProduct, orient, vcross, vsub, xy; cbn. rnum. lra. Qed.

  Lemma geo_area_pts_shoelace (p : list Pt) : geo_area_pts (N := RNum) p = Ok (shoelace (map xy p)).
  Proof.
    unfold geo_area_pts. destruct p as [|d p']; [cbn; unfold shoelace; cbn; f_equal; lra|].
    set (p := d :: p').
    rewrite (foldM_ext _ (fun acc i => a <- vgetn p i ;; b <- vgetn p ((i + 1) mod length p) ;; Ok (acc + triangleArea a b d)%R)).
    2:{ intros b i Hi. apply in_seq in Hi. rewrite (Nat.mod_small i) by lia. reflexivity. }
    rewrite (loop_edges (fun acc a b => Ok (acc + triangleArea a b d)%R) p).
    rewrite (foldM_pure _ (fun acc e => acc + triangleArea (fst e) (snd e) d)%R) by reflexivity.
    rewrite (fold_left_sum (fun e => triangleArea (fst e) (snd e) d)). f_equal.
    rewrite (shoelace_fan (xy d)), edges_of_map, map_map. cbn [nZ RNum]. rewrite Rplus_0_l.
    apply sumR_map_ext. intros [a b] _. apply triangleArea_orient.
  Qed.

  Lemma geo_area_vertices p idx (vs : list Pt) : vertices_are p idx vs -> geo_area p idx = geo_area_pts vs.
  Proof.
    intros H. unfold geo_area, geo_area_pts. rewrite <- (vertices_length _ _ _ H).
    apply foldM_ext. intros b i _. rewrite !(vertices_vpt _ _ _ _ H). reflexivity.
  Qed.
  Lemma geo_area_shoelace p idx (vs : list Pt) : vertices_are p idx vs -> geo_area (N := RNum) p idx = Ok (shoelace (map xy vs)).
  Proof. intros H. rewrite (geo_area_vertices _ _ _ H). apply geo_area_pts_shoelace. Qed.

  Lemma signedArea_shoelace p idx (vs : list Pt) : vertices_are p idx vs -> signedArea (N := RNum) p idx = Ok (shoelace (map xy vs)).
  Proof.
    intros H. unfold signedArea. rewrite <- (vertices_length _ _ _ H).
    rewrite (foldM_ext _ (fun acc i => a <- vgetn vs i ;; b <- vgetn vs ((i + 1) mod length vs) ;; Ok (acc + vcross (xy a) (xy b))%R)).
    2:{ intros b i Hi. rewrite !(vertices_vpt _ _ _ _ H). destruct (vgetn vs i); cbn; [|reflexivity].
        destruct (vgetn vs _); cbn; [|reflexivity]. f_equal. unfold vcross, xy; cbn. rnum. lra. }
    rewrite (loop_edges (fun acc a b => Ok (acc + vcross (xy a) (xy b))%R) vs).
    rewrite (foldM_pure _ (fun acc e => acc + vcross (xy (fst e)) (xy (snd e)))%R) by reflexivity.
    cbn [bind]. rewrite (fold_left_sum (fun e => vcross (xy (fst e)) (xy (snd e)))). f_equal.
    unfold shoelace. rewrite edges_of_map, map_map. cbn [fst snd]. rnum. lra.
  Qed.

  Lemma geo_area_err (p : list Pt) idx : geo_area (N := RNum) p idx = Err (UB "vector index out of range") <-> ~ in_range p idx.
  Proof.
    assert (V : forall i, (exists v, vpt p idx i = Ok v) \/ vpt p idx i = Err (UB "vector index out of range")).
    { intros i. unfold vpt, vgetn. destruct (nth_error idx i) as [k|]; cbn; [|auto].
      unfold vget, vgetn. destruct (k <? 0)%Z; [auto|]. destruct (nth_error p (Z.to_nat k)); eauto. }
    split.
    - intros H HR. apply vertices_exist in HR as [vs HR]. rewrite (geo_area_shoelace _ _ _ HR) in H. discriminate.
    - intros HR.
      set (F := fun (acc : R) i => a <- vpt p idx (i mod length idx) ;; b <- vpt p idx ((i + 1) mod length idx) ;;
          o <- vpt p idx 0 ;; Ok (acc + triangleArea (N := RNum) a b o)%R).
      assert (D : forall l b, (exists r, foldM F l b = Ok r /\ forall i, In i l -> exists v, vpt p idx (i mod length idx) = Ok v) \/
          foldM F l b = Err (UB "vector index out of range")).
      { induction l as [|i l IH]; intros b; [left; exists b; split; [reflexivity|intros ? []]|]. cbn [foldM].
        assert (HF : (exists r v, F b i = Ok r /\ vpt p idx (i mod length idx) = Ok v) \/ F b i = Err (UB "vector index out of range")).
        { unfold F. destruct (V (i mod length idx)%nat) as [[v EV]|E1]; [rewrite EV|rewrite E1; auto]. cbn [bind].
          destruct (V ((i + 1) mod length idx)%nat) as [[v2 E2]|E2]; [rewrite E2|rewrite E2; auto]. cbn [bind].
          destruct (V 0%nat) as [[v3 E3]|E3]; [rewrite E3|rewrite E3; auto]. cbn [bind]. left. eauto. }
        destruct HF as [(r & v & HF & EV)|HF]; rewrite HF; cbn [bind]; [|auto].
        destruct (IH r) as [[r' [H1 H2]]|H1]; [|auto].
        left. exists r'. split; [exact H1|]. intros j [<-|Hj]; [eauto|auto]. }
      unfold geo_area. fold F. destruct (D (seq 0 (length idx)) 0%R) as [[r [_ H2]]|H2]; [|exact H2].
      exfalso. apply HR. unfold in_range. rewrite Forall_forall. intros k Hk.
      apply In_nth_error in Hk as [i Hi]. assert (i < length idx)%nat by (apply nth_error_Some; congruence).
      destruct (H2 i) as [v Hv]; [apply in_seq; lia|]. rewrite Nat.mod_small in Hv by assumption.
      unfold vpt, vgetn in Hv. rewrite Hi in Hv. cbn in Hv. apply vget_range. eauto.
  Qed.
End Area.

(** * C13 *)
Section Orientation.
  Notation Pt := (Point RNum).
  Lemma isClockwise_ok p idx (vs : list Pt) : vertices_are p idx vs -> idx <> [] ->
    isClockwise (N := RNum) idx p = Ok (Rltb (shoelace (map xy vs)) 0).
  Proof.
    intros H Hne. unfold isClockwise. rewrite <- (vertices_length _ _ _ H).
    destruct vs as [|v0 vs'].
    { exfalso. apply Hne. apply vertices_length in H. destruct idx; [reflexivity|discriminate]. }
    set (vs := v0 :: vs') in *. set (n := length vs).
    assert (Hn : (0 < n)%nat) by (subst n vs; cbn; lia).
    rewrite !(vertices_vpt _ _ _ _ H). rewrite (vgetn_lt vs 0 v0) by assumption. rewrite (vgetn_lt vs (n - 1) v0) by (fold n; lia).
    cbn [bind].
    set (step := fun (acc : R) (e : Pt * Pt) => (acc + (px (snd e) - px (fst e)) * (py (snd e) + py (fst e)))%R).
    set (nthe := fun i => (nth i vs v0, nth ((i + 1) mod n) vs v0)).
    rewrite (foldM_ext _ (fun acc i => Ok (step acc (nthe i)))).
    2:{ intros b i Hi. apply in_seq in Hi. rewrite !(vertices_vpt _ _ _ _ H).
        rewrite (vgetn_lt vs i v0) by (fold n; lia).
        rewrite (vgetn_lt vs _ v0) by (apply Nat.mod_upper_bound; lia). reflexivity. }
    rewrite (foldM_pure _ (fun acc i => step acc (nthe i))) by reflexivity. cbn [bind]. f_equal.
    assert (E : edges_of vs = map nthe (seq 0 (n - 1)) ++ [(nth (n - 1) vs v0, v0)]).
    { rewrite (edges_of_map_seq v0 vs). fold n. replace n with (n - 1 + 1)%nat at 1 by lia.
      rewrite seq_app, map_app. f_equal. cbn [seq map]. f_equal. f_equal.
      rewrite Nat.add_0_l. replace (n - 1 + 1)%nat with n by lia. rewrite Nat.mod_same by lia. reflexivity. }
    assert (S : forall l b, fold_left (fun acc i => step acc (nthe i)) l b =
      (b + sumR (map (fun e : Pt * Pt => (px (snd e) - px (fst e)) * (py (snd e) + py (fst e))) (map nthe l)))%R).
    { induction l as [|i l IH]; intros b; cbn [fold_left map sumR fold_right]; [lra|]. rewrite IH. unfold step.
      unfold sumR. cbn [map fold_right]. lra. }
    rewrite S.
    assert (T : (sumR (map (fun e : Pt * Pt => (px (snd e) - px (fst e)) * (py (snd e) + py (fst e))) (edges_of vs)) = -2 * shoelace (map xy vs))%R).
    { unfold shoelace. rewrite edges_of_map, map_map.
      rewrite (sumR_map_ext _ (fun e : Pt * Pt => (-1) * vcross (xy (fst e)) (xy (snd e)) + (px (snd e) * py (snd e) - px (fst e) * py (fst e)))%R).
      - rewrite sumR_map_add, sumR_map_scal.
        rewrite (telescope (fun v : Pt => px v * py v)%R vs). cbn [fst snd]. lra.
      - intros [a b] _. unfold vcross, xy; cbn. lra. }
    rewrite E, map_app, sumR_app in T. cbn [map sumR fold_right fst snd] in T.
    rnum. fold n. apply eq_true_iff_eq. rewrite !Rltb_iff. unfold sumR in *. change (nth 0 vs v0) with v0.
    clear S E. split; intros; lra.
  Qed.

  Lemma canon_swap_edges (l : list (Z * Z)) : map canon (map (fun e => (snd e, fst e)) l) = map canon l.
  Proof.
    rewrite map_map. apply map_ext. intros [a b]. unfold canon; cbn. f_equal; lia.
  Qed.

  Lemma fixCCW_correct (g : polygon RNum) p vs : vertices_are p (pg_points g) vs -> pg_points g <> [] ->
    exists g' vs', fixCCW g p = Ok g' /\ vertices_are p (pg_points g') vs' /\
      shoelace (map xy vs') = Rabs (shoelace (map xy vs)) /\
      isClockwise (pg_points g') p = Ok false /\
      (consistent_area g vs -> exists g'', getArea g' p = Ok (g'', Rabs (shoelace (map xy vs)))) /\
      Permutation (pg_points g') (pg_points g) /\ pg_hash g' = pg_hash g /\
      Permutation (map canon (edges_of (pg_points g'))) (map canon (edges_of (pg_points g))) /\
      fixCCW g' p = Ok g'.
  Proof.
    intros H Hne. unfold fixCCW at 1. rewrite (isClockwise_ok _ _ _ H Hne). cbn [bind].
    destruct (Rltb_spec (shoelace (map xy vs)) 0) as [Hlt|Hge].
    - set (g' := mkPoly (rev (pg_points g)) (pg_diam g) (nZ (-1)) (pg_cen g) (pg_hash g)).
      assert (H' : vertices_are p (pg_points g') (rev vs)) by (apply vertices_rev; exact H).
      assert (Hne' : pg_points g' <> []).
      { cbn. intros E. apply Hne. rewrite <- (rev_involutive (pg_points g)), E. reflexivity. }
      assert (E : shoelace (map xy (rev vs)) = Rabs (shoelace (map xy vs))).
      { rewrite map_rev, shoelace_rev, Rabs_left by exact Hlt. reflexivity. }
      assert (C : isClockwise (N := RNum) (pg_points g') p = Ok false).
      { rewrite (isClockwise_ok _ _ _ H' Hne'), E. rewrite Rltb_false; [reflexivity|apply Rabs_pos]. }
      exists g', (rev vs). split; [reflexivity|]. split; [exact H'|]. split; [exact E|]. split; [exact C|].
      split; [|split; [|split; [|split]]].
      + intros _. unfold getArea. cbn [pg_area g']. rnum. rewrite Reqb_true by reflexivity.
        unfold calculateArea. rewrite (geo_area_shoelace _ _ _ H'). cbn [bind]. rewrite E. eauto.
      + cbn. apply Permutation_sym, Permutation_rev.
      + reflexivity.
      + cbn. rewrite (Permutation_map canon (edges_of_rev (pg_points g))), canon_swap_edges. reflexivity.
      + unfold fixCCW. rewrite C. reflexivity.
    - assert (E : shoelace (map xy vs) = Rabs (shoelace (map xy vs))) by (rewrite Rabs_right; lra).
      assert (C : isClockwise (N := RNum) (pg_points g) p = Ok false).
      { rewrite (isClockwise_ok _ _ _ H Hne). rewrite Rltb_false; [reflexivity|lra]. }
      exists g, vs. split; [reflexivity|]. split; [exact H|]. split; [exact E|]. split; [exact C|].
      split; [|split; [|split; [|split]]]; try reflexivity.
      + intros HC. rewrite <- E. unfold getArea. rnum. destruct (Reqb_spec (pg_area g) (-1)) as [Ha|Ha].
        * unfold calculateArea. rewrite (geo_area_shoelace _ _ _ H). cbn [bind]. eauto.
        * destruct HC as [HC|HC]; [contradiction|]. rewrite HC. eauto.
      + unfold fixCCW. rewrite C. reflexivity.
  Qed.
End Orientation.

(** * C15 *)
Section Centroid.
  Notation Pt := (Point RNum).
  Local Open Scope R_scope.

  (** first moments of the fan do not depend on the reference point *)
  Lemma moment_fan (f : pt -> R) (vs : list pt) o :
    (forall a b c s t u, f (s * fst a + t * fst b + u * fst c, s * snd a + t * snd b + u * snd c) = s * f a + t * f b + u * f c) ->
    sumR (map (fun e : pt * pt => orient o (fst e) (snd e) / 2 * ((f o + f (fst e) + f (snd e)) / 3)) (edges_of vs)) =
    sumR (map (fun e : pt * pt => (f (fst e) + f (snd e)) * vcross (fst e) (snd e)) (edges_of vs)) / 6.
  Proof.
    intros Hf.
    assert (H0 : f (0, 0) = 0).
    { specialize (Hf (0,0) (0,0) (0,0) 0 0 0). cbn in Hf. rewrite !Rmult_0_l, !Rplus_0_l in Hf. exact Hf. }
    (* difference is a telescoping sum: integrate along the chords o-a *)
    set (g := fun a : pt => vcross o a / 2 * ((f o + f a) / 3)).
    transitivity (sumR (map (fun e : pt * pt => (1 / 6) * ((f (fst e) + f (snd e)) * vcross (fst e) (snd e)) + (- g (snd e) - - g (fst e))) (edges_of vs))).
    2:{ rewrite sumR_map_add, sumR_map_scal, (telescope (fun a : pt => - g a)). field. }
    apply sumR_map_ext. intros [a b] _. cbn [fst snd]. unfold g.
    (* f is linear, so express via two basis values *)
    assert (Hl : forall a : pt, f a = fst a * f (1, 0) + snd a * f (0, 1)).
    { intros [x y]. specialize (Hf (1, 0) (0, 1) (0, 0) x y 0). cbn in Hf. rewrite H0 in Hf.
      replace (x * 1 + y * 0 + 0 * 0) with x in Hf by lra. replace (x * 0 + y * 1 + 0 * 0) with y in Hf by lra.
      cbn. lra. }
    rewrite (Hl a), (Hl b), (Hl o). destruct o, a, b. unfold orient, vcross, vsub; cbn. field.
  Qed.

  Lemma centroid_from_formula o vs :
    centroid_from o vs =
    (sumR (map (fun e : pt * pt => (fst (fst e) + fst (snd e)) * vcross (fst e) (snd e)) (edges_of vs)) / (6 * shoelace vs),
     sumR (map (fun e : pt * pt => (snd (fst e) + snd (snd e)) * vcross (fst e) (snd e)) (edges_of vs)) / (6 * shoelace vs)).
  Proof.
    assert (K : forall a b, a / 6 / b = a / (6 * b)).
    { intros a b. unfold Rdiv. rewrite Rinv_mult. ring. }
    unfold centroid_from. rewrite (moment_fan fst vs o) by (intros; reflexivity).
    rewrite (moment_fan snd vs o) by (intros; reflexivity). rewrite !K. reflexivity.
  Qed.

  Lemma calculateCentroid_ok p idx (vs : list Pt) : vertices_are p idx vs ->
    (shoelace (map xy vs) <> 0 -> exists c, calculateCentroid (N := RNum) p idx = Ok c /\ forall o, xy c = centroid_from o (map xy vs)) /\
    (shoelace (map xy vs) = 0 -> calculateCentroid (N := RNum) p idx = Err NonFinite).
  Proof.
    intros H. unfold calculateCentroid. rewrite (signedArea_shoelace _ _ _ H). rewrite <- (vertices_length _ _ _ H).
    set (step := fun (acc : R * R) (e : Pt * Pt) =>
      (fst acc + (px (fst e) + px (snd e)) * vcross (xy (fst e)) (xy (snd e)),
       snd acc + (py (fst e) + py (snd e)) * vcross (xy (fst e)) (xy (snd e)))).
    rewrite (foldM_ext _ (fun acc i => a <- vgetn vs i ;; b <- vgetn vs ((i + 1) mod length vs) ;; Ok (step acc (a, b)))).
    2:{ intros b i Hi. rewrite !(vertices_vpt _ _ _ _ H). destruct (vgetn vs i); cbn; [|reflexivity].
        destruct (vgetn vs _); cbn; [|reflexivity]. f_equal. unfold step, vcross, xy; cbn. rnum. f_equal; lra. }
    rewrite (loop_edges (fun acc a b => Ok (step acc (a, b))) vs).
    rewrite (foldM_pure _ step) by (intros b [x y] _; reflexivity). cbn [bind].
    assert (S : forall l b, fold_left step l b =
      (fst b + sumR (map (fun e : Pt * Pt => (px (fst e) + px (snd e)) * vcross (xy (fst e)) (xy (snd e))) l),
       snd b + sumR (map (fun e : Pt * Pt => (py (fst e) + py (snd e)) * vcross (xy (fst e)) (xy (snd e))) l))).
    { induction l as [|e l IH]; intros [b1 b2]; cbn [fold_left].
      - cbn. f_equal; lra.
      - rewrite IH. unfold step. cbn [fst snd map sumR fold_right]. unfold sumR. f_equal; lra. }
    rewrite S. cbn [fst snd bind]. unfold divr. rnum. split.
    - intros Hn. rewrite Reqb_false by lra. cbn [bind]. eexists. split; [reflexivity|]. intros o.
      rewrite centroid_from_formula, edges_of_map, !map_map. unfold xy at 1. cbn [px py mkP fst snd xy]. rewrite !Rplus_0_l. reflexivity.
    - intros E. rewrite E. rewrite Reqb_true by lra. reflexivity.
  Qed.

  Lemma centroid_from_translate d o vs : shoelace vs <> 0 ->
    centroid_from (vadd d o) (map (vadd d) vs) = vadd d (centroid_from o vs).
  Proof.
    intros Hn. unfold centroid_from. rewrite shoelace_translate, edges_of_map, !map_map.
    assert (A : forall (f : pt -> R) c, (forall v, f (vadd d v) = c + f v) ->
      sumR (map (fun e : pt * pt => orient (vadd d o) (vadd d (fst e)) (vadd d (snd e)) / 2 * ((f (vadd d o) + f (vadd d (fst e)) + f (vadd d (snd e))) / 3)) (edges_of vs)) / shoelace vs
      = c + sumR (map (fun e : pt * pt => orient o (fst e) (snd e) / 2 * ((f o + f (fst e) + f (snd e)) / 3)) (edges_of vs)) / shoelace vs).
    { intros f c Hf.
      rewrite (sumR_map_ext _ (fun e : pt * pt => orient o (fst e) (snd e) / 2 * ((f o + f (fst e) + f (snd e)) / 3) + c * (orient (fst e) (snd e) o / 2))).
      - rewrite sumR_map_add, sumR_map_scal, <- (shoelace_fan o vs). field. exact Hn.
      - intros [a b] _. cbn [fst snd]. rewrite !Hf. destruct a, b, o, d. unfold orient, vcross, vsub, vadd; cbn. field. }
    apply injective_projections; [apply (A fst (fst d))|apply (A snd (snd d))]; intros [x y]; reflexivity.
  Qed.
End Centroid.
