(** Proofs: point containment (C22, C23). *)
From Coq Require Import Reals Lra Psatz Permutation ZifyNat.
From Verif Require Import Base Spec MUtil MGeom MHull MPolygon Bridge PUtil PPoint PSegment PPoly PPoly2.
Local Open Scope R_scope.
Notation Pt := (Point RNum).

Lemma ltR_iff x y : ltR x y = true <-> x < y.
Proof. apply Rltb_iff. Qed.
Lemma leR_iff x y : leR x y = true <-> x <= y.
Proof. apply Rleb_iff. Qed.
Lemma ltR_spec x y : reflect (x < y) (ltR x y).
Proof. apply Rltb_spec. Qed.
Lemma leR_spec x y : reflect (x <= y) (leR x y).
Proof. apply Rleb_spec. Qed.
Ltac rbool := repeat match goal with
  | |- context [ltR ?x ?y] => destruct (ltR_spec x y)
  | |- context [leR ?x ?y] => destruct (leR_spec x y)
  | H : context [ltR ?x ?y] |- _ => destruct (ltR_spec x y)
  | H : context [leR ?x ?y] |- _ => destruct (leR_spec x y)
  end.

(** * The crossing loop as a walk along the vertices *)
Section Walk.
  Context {N : Num}.
  Notation Point := (Point N).
  Fixpoint walk (tol : nT N) (q prev : Point) (b : bool) (l : list Point) : bool :=
    match l with
    | [] => b
    | v :: l' => if pt_eqb tol v prev then walk tol q prev b l' else walk tol q v (xorb b (crosses q v prev)) l'
    end.

  Lemma crossing_walk tol idx p q (vs : list Point) d : vertices_are p idx vs -> vs <> [] ->
    exists j, crossing_loop tol idx p q = Ok (j, walk tol q (last vs d) false vs).
  Proof.
    intros H Hne. unfold crossing_loop. pose proof (vertices_length _ _ _ H) as HL.
    assert (G : forall k st, (k <= length vs)%nat -> (fst st < length vs)%nat ->
      exists j, foldM (fun (st : nat * bool) i => pI <- vpt p idx i ;; pJ <- vpt p idx (fst st) ;;
        if pt_eqb tol pI pJ then Ok st else Ok (i, xorb (snd st) (crosses q pI pJ))) (seq (length vs - k) k) st
        = Ok (j, walk tol q (nth (fst st) vs d) (snd st) (skipn (length vs - k) vs))).
    { induction k as [|k IH]; intros st Hk Hst.
      - rewrite Nat.sub_0_r, skipn_all. cbn. destruct st; eauto.
      - cbn [seq foldM]. rewrite !(vertices_vpt _ _ _ _ H). rewrite !(vgetn_lt _ _ d) by lia. cbn [bind].
        assert (E : skipn (length vs - S k) vs = nth (length vs - S k) vs d :: skipn (length vs - k) vs).
        { replace (length vs - k)%nat with (S (length vs - S k)) by lia. generalize (length vs - S k)%nat (ltac:(lia) : (length vs - S k < length vs)%nat).
          clear. intros i. revert vs. induction i as [|i IH]; intros [|v vs] Hi; cbn in Hi; try lia; [reflexivity|]. cbn [skipn nth]. rewrite IH by lia. reflexivity. }
        rewrite E. cbn [walk]. replace (S (length vs - S k)) with (length vs - k)%nat by lia.
        destruct (pt_eqb tol _ _); cbn [bind]; apply IH; cbn [fst]; lia. }
    rewrite <- HL. assert (Hp : (0 < length vs)%nat) by (destruct vs; [congruence|cbn; lia]).
    destruct (G (length vs) ((length vs - 1)%nat, false)) as [j E]; [lia|cbn; lia|].
    rewrite Nat.sub_diag in E. cbn [skipn fst snd] in E. exists j. rewrite E. do 2 f_equal. f_equal.
    clear - Hne. induction vs as [|v vs IH]; [congruence|]. destruct vs as [|w vs]; [reflexivity|].
    change (last (v :: w :: vs) d) with (last (w :: vs) d). rewrite <- IH by discriminate. cbn [length].
    replace (S (S (length vs)) - 1)%nat with (S (S (length vs) - 1)) by lia. reflexivity.
  Qed.

  Lemma inEdges_iff tol idx p q (vs : list Point) : vertices_are p idx vs ->
    inEdges tol idx p q = Ok (existsb (fun e : Point * Point => seg_contains tol q (fst e) (snd e)) (edges_of vs)).
  Proof.
    intros H. unfold inEdges, containerEdge. rewrite getSegments_edges. cbn [bind app].
    assert (HE : exists es : list (Z * Z), es = edges_of idx /\ Forall2 (fun s (e : Point * Point) => (0 <= fst s)%Z /\ (0 <= snd s)%Z /\ vget p (fst s) = Ok (fst e) /\ vget p (snd s) = Ok (snd e)) es (edges_of vs)).
    { eexists. split; [reflexivity|]. destruct idx as [|k0 idx]; [inversion H; constructor|]. destruct vs as [|v0 vs]; [inversion H|].
      unfold edges_of.
      assert (H' : vertices_are p ((k0 :: idx) ++ [k0]) ((v0 :: vs) ++ [v0])).
      { apply vertices_app; [exact H|]. inversion H; subst. constructor; [assumption|constructor]. }
      revert H'. generalize ((k0 :: idx) ++ [k0]) ((v0 :: vs) ++ [v0]). clear. intros l1 l2 H.
      induction H as [|k v l1 l2 [K1 K2] H IH]; [constructor|]. destruct H as [|k' v' l1 l2 [K3 K4] H]; [constructor|].
      rewrite !pairs_cons2. constructor; [|exact IH]. cbn [fst snd]. rewrite !vget_ok. auto. }
    destruct HE as (es & <- & HE). induction HE as [|s e es' vs' (K1 & K2 & K3 & K4) HE IH]; [reflexivity|].
    cbn [existsb]. unfold iseg_contains at 1. rewrite K3, K4. cbn [bind].
    destruct (seg_contains tol q (fst e) (snd e)).
    - cbn [bind orb]. destruct (Z.eqb_spec (fst s) (-1)), (Z.eqb_spec (snd s) (-1)); try lia. reflexivity.
    - cbn [orb]. exact IH.
  Qed.

  Lemma containsPoint_walk tol idx p q (vs : list Point) d : vertices_are p idx vs ->
    containsPoint tol idx p q = Ok (walk tol q (last vs d) false vs || existsb (fun e : Point * Point => seg_contains tol q (fst e) (snd e)) (edges_of vs)).
  Proof.
    intros H. unfold containsPoint. destruct vs as [|v vs].
    - inversion H; subst. reflexivity.
    - destruct (crossing_walk tol idx p q (v :: vs) d H) as [j E]; [discriminate|]. rewrite E. cbn [bind snd].
      destruct (walk _ _ _ _ _); [reflexivity|]. rewrite (inEdges_iff _ _ _ _ _ H). reflexivity.
  Qed.
End Walk.

(** * Parities *)
Lemma parity_app l1 l2 : parity (l1 ++ l2) = xorb (parity l1) (parity l2).
Proof. induction l1 as [|b l1 IH]; [symmetry; apply xorb_false_l|]. cbn. fold (parity (l1 ++ l2)). fold (parity l1). rewrite IH, xorb_assoc. reflexivity. Qed.
Lemma parity_perm l1 l2 : Permutation l1 l2 -> parity l1 = parity l2.
Proof.
  induction 1; cbn; [reflexivity|f_equal; assumption| |congruence].
  rewrite <- !xorb_assoc. f_equal. apply xorb_comm.
Qed.
Lemma parity_map_xor {A} (f g : A -> bool) l : parity (map (fun a => xorb (f a) (g a)) l) = xorb (parity (map f l)) (parity (map g l)).
Proof.
  induction l as [|a l IH]; [reflexivity|]. unfold parity in *. cbn [map fold_right]. rewrite IH. fold (parity (map f l)). fold (parity (map g l)).
  destruct (f a), (g a), (parity (map f l)), (parity (map g l)); reflexivity.
Qed.
Lemma parity_false {A} (f : A -> bool) l : (forall a, In a l -> f a = false) -> parity (map f l) = false.
Proof. induction l as [|a l IH]; intros H; [reflexivity|]. unfold parity in *. cbn [map fold_right]. rewrite H by (left; reflexivity). rewrite IH; [reflexivity|]. intros; apply H; right; assumption. Qed.
Lemma parity_ext {A} (f g : A -> bool) l : (forall a, In a l -> f a = g a) -> parity (map f l) = parity (map g l).
Proof. intros H. f_equal. apply map_ext_in. exact H. Qed.

(** * The crossing test *)
Lemma rises_swap q a b : rises q a b = falls q b a.
Proof. reflexivity. Qed.
Lemma crosses_left_sym q a b : crosses_left q a b = crosses_left q b a.
Proof.
  unfold crosses_left. rewrite (rises_swap q a b), <- (rises_swap q b a).
  assert (E : orient b a q = - orient a b q) by (unfold orient, vcross, vsub; cbn; ring). rewrite E.
  assert (E1 : ltR (- orient a b q) 0 = ltR 0 (orient a b q)) by (rbool; try reflexivity; lra).
  assert (E2 : ltR 0 (- orient a b q) = ltR (orient a b q) 0) by (rbool; try reflexivity; lra).
  rewrite E1, E2. apply orb_comm.
Qed.
Lemma crosses_char (q a b : Pt) : crosses (N := RNum) q a b = crosses_left (xy q) (xy a) (xy b).
Proof.
  unfold crosses, crosses_left, rises, falls, xy, orient, vcross, vsub. rnum. cbn [fst snd].
  change Rltb with ltR. change Rleb with leR.
  assert (U : py a <> py b -> px a + (py q - py a) / (py b - py a) * (px b - px a) - px q = ((px b - px a) * (py q - py a) - (py b - py a) * (px q - px a)) / (py b - py a)).
  { intros. field. lra. }
  destruct (leR_spec (py a) (py q)), (leR_spec (py b) (py q)), (ltR_spec (py q) (py a)), (ltR_spec (py q) (py b)); try lra; cbn [andb orb]; try reflexivity.
  - specialize (U ltac:(lra)). set (o := (px b - px a) * (py q - py a) - (py b - py a) * (px q - px a)) in *.
    assert (D : 0 < / (py b - py a)) by (apply Rinv_0_lt_compat; lra).
    rewrite orb_false_r. destruct (ltR_spec o 0) as [Ho|Ho].
    + apply ltR_iff. assert (o / (py b - py a) < 0) by (unfold Rdiv; nra). lra.
    + destruct (ltR_spec (px a + (py q - py a) / (py b - py a) * (px b - px a)) (px q)); [|reflexivity].
      assert (0 <= o / (py b - py a)) by (unfold Rdiv; apply Rmult_le_pos; lra). lra.
  - specialize (U ltac:(lra)). set (o := (px b - px a) * (py q - py a) - (py b - py a) * (px q - px a)) in *.
    assert (D : / (py b - py a) < 0) by (apply Rinv_lt_0_compat; lra).
    destruct (ltR_spec 0 o) as [Ho|Ho].
    + apply ltR_iff. assert (o / (py b - py a) < 0) by (unfold Rdiv; nra). lra.
    + destruct (ltR_spec (px a + (py q - py a) / (py b - py a) * (px b - px a)) (px q)); [|reflexivity].
      assert (0 <= o / (py b - py a)) by (unfold Rdiv; nra). lra.
Qed.

Lemma walk_parity tol (q : Pt) : forall l prev b,
  (forall e, In e (pairs (prev :: l)) -> pt_eqb (N := RNum) tol (fst e) (snd e) = false) ->
  walk (N := RNum) tol q prev b l = xorb b (parity (map (fun e : Pt * Pt => crosses_left (xy q) (xy (fst e)) (xy (snd e))) (pairs (prev :: l)))).
Proof.
  induction l as [|v l IH]; intros prev b H; [symmetry; apply xorb_false_r|].
  rewrite pairs_cons2. cbn [walk map parity fold_right fst snd].
  assert (E : pt_eqb (N := RNum) tol v prev = false).
  { rewrite pt_eqb_sym. apply (H (prev, v)). rewrite pairs_cons2. left. reflexivity. }
  rewrite E. rewrite IH. 2:{ intros e He. apply H. rewrite pairs_cons2. right. exact He. }
  rewrite crosses_char, (crosses_left_sym _ (xy v)), xorb_assoc. reflexivity.
Qed.

Lemma pairs_last_edges {A} (vs : list A) d : vs <> [] -> Permutation (pairs (last vs d :: vs)) (edges_of vs).
Proof.
  intros H. destruct (exists_last H) as (l & x & ->). rewrite last_last.
  transitivity (edges_of ([x] ++ l)); [|apply edges_of_app_comm]. cbn [app]. unfold edges_of.
  cbn [app]. reflexivity.
Qed.

Definition no_near_edges (tol : R) (vs : list Pt) : Prop :=
  forall e, In e (edges_of vs) -> pt_eqb (N := RNum) tol (fst e) (snd e) = false.

Lemma even_odd_map (q : Pt) (vs : list Pt) :
  even_odd (xy q) (map xy vs) = parity (map (fun e : Pt * Pt => crosses_left (xy q) (xy (fst e)) (xy (snd e))) (edges_of vs)).
Proof. unfold even_odd. rewrite edges_of_map, map_map. reflexivity. Qed.

Lemma containsPoint_char tol idx p (q : Pt) vs : vertices_are p idx vs -> no_near_edges tol vs ->
  containsPoint (N := RNum) tol idx p q =
  Ok (even_odd (xy q) (map xy vs) || existsb (fun e : Pt * Pt => seg_contains (N := RNum) tol q (fst e) (snd e)) (edges_of vs)).
Proof.
  intros H HN. rewrite (containsPoint_walk (N := RNum) tol idx p q vs q H). do 2 f_equal.
  destruct vs as [|v vs]; [reflexivity|]. set (l := v :: vs) in *.
  pose proof (pairs_last_edges l q ltac:(discriminate)) as HP.
  rewrite walk_parity. 2:{ intros e He. apply HN. apply (Permutation_in _ HP). exact He. }
  rewrite xorb_false_l, even_odd_map. apply parity_perm. apply Permutation_map. exact HP.
Qed.

(** * Properties of the even-odd rule *)
Lemma even_odd_perm q v1 v2 : Permutation (edges_of v1) (edges_of v2) -> even_odd q v1 = even_odd q v2.
Proof. intros H. unfold even_odd. apply parity_perm, Permutation_map. exact H. Qed.
Lemma even_odd_rotate q l1 l2 : even_odd q (l1 ++ l2) = even_odd q (l2 ++ l1).
Proof. apply even_odd_perm, edges_of_app_comm. Qed.
Lemma even_odd_rev q vs : even_odd q (rev vs) = even_odd q vs.
Proof.
  unfold even_odd. rewrite (parity_perm _ _ (Permutation_map _ (edges_of_rev vs))). rewrite map_map. cbn [fst snd].
  apply parity_ext. intros e _. apply crosses_left_sym.
Qed.
Lemma even_odd_fan q vs : even_odd q vs = parity (map (even_odd q) (fan vs)).
Proof.
  destruct vs as [|o vs]; [reflexivity|]. cbn [fan]. rewrite map_map.
  unfold even_odd at 1, edges_of. cbn [app].
  set (c := crosses_left q).
  assert (T : forall a b, even_odd q [o; a; b] = xorb (c o a) (xorb (c a b) (c b o))).
  { intros. unfold even_odd, edges_of, c. cbn. rewrite xorb_false_r. reflexivity. }
  assert (G : forall l a, parity (map (fun e => c (fst e) (snd e)) (pairs (a :: l ++ [o]))) =
     xorb (c a o) (parity (map (fun e : pt * pt => even_odd q [o; fst e; snd e]) (pairs (a :: l))))).
  { induction l as [|b l IH]; intros a; [cbn; reflexivity|].
    cbn [app]. rewrite !pairs_cons2. cbn [map parity fold_right fst snd]. fold (parity (map (fun e => c (fst e) (snd e)) (pairs (b :: l ++ [o])))).
    rewrite IH, T. fold (parity (map (fun e : pt * pt => even_odd q [o; fst e; snd e]) (pairs (b :: l)))).
    assert (S1 : c o a = c a o) by apply crosses_left_sym. rewrite S1.
    destruct (c a b), (c a o), (c b o), (parity (map (fun e : pt * pt => even_odd q [o; fst e; snd e]) (pairs (b :: l)))); reflexivity. }
  destruct vs as [|a vs].
  - cbn. unfold c, crosses_left, rises, falls. rbool; try lra; reflexivity.
  - change (pairs (o :: (a :: vs) ++ [o])) with ((o, a) :: pairs (a :: vs ++ [o])).
    cbn [map parity fold_right fst snd]. fold (parity (map (fun e => c (fst e) (snd e)) (pairs (a :: vs ++ [o])))).
    rewrite G. rewrite <- xorb_assoc. assert (S1 : c o a = c a o) by apply crosses_left_sym. rewrite S1.
    rewrite xorb_nilpotent, xorb_false_l. reflexivity.
Qed.

(** as many edges rise as fall *)
Lemma rises_falls_parity q vs : parity (map (fun e => rises q (fst e) (snd e)) (edges_of vs)) = parity (map (fun e => falls q (fst e) (snd e)) (edges_of vs)).
Proof.
  assert (X : parity (map (fun e => xorb (rises q (fst e) (snd e)) (falls q (fst e) (snd e))) (edges_of vs)) = false).
  { transitivity (parity (map (fun e : pt * pt => xorb (ltR (snd q) (snd (fst e))) (ltR (snd q) (snd (snd e)))) (edges_of vs))).
    2:{ rewrite parity_map_xor.
      rewrite <- (map_map fst (fun v : pt => ltR (snd q) (snd v))), edges_of_fst.
      rewrite <- (map_map snd (fun v : pt => ltR (snd q) (snd v))).
      rewrite (parity_perm _ _ (Permutation_map _ (edges_of_snd vs))). apply xorb_nilpotent. }
    apply parity_ext. intros [a b] _. cbn [fst snd]. unfold rises, falls. rbool; try lra; reflexivity. }
  rewrite parity_map_xor in X. apply xorb_eq. exact X.
Qed.

Lemma edge_in {A} (vs : list A) a b : In (a, b) (edges_of vs) -> In a vs /\ In b vs.
Proof.
  intros H. split.
  - rewrite <- (edges_of_fst vs). apply (in_map fst) in H. exact H.
  - apply (Permutation_in _ (edges_of_snd vs)). apply (in_map snd) in H. exact H.
Qed.

(** outside the bounding box *)
Lemma even_odd_outside q vs :
  (forall v, In v vs -> fst q <= fst v) \/ (forall v, In v vs -> fst v < fst q) \/
  (forall v, In v vs -> snd q < snd v) \/ (forall v, In v vs -> snd v <= snd q) -> even_odd q vs = false.
Proof.
  unfold even_odd. intros [H|[H|[H|H]]].
  - apply parity_false. intros [a b] He. apply edge_in in He as [Ha Hb]. apply H in Ha, Hb. cbn [fst snd].
    unfold crosses_left, rises, falls, orient, vcross, vsub; cbn [fst snd]. rbool; try reflexivity; exfalso; nra.
  - transitivity (parity (map (fun e : pt * pt => xorb (rises q (fst e) (snd e)) (falls q (fst e) (snd e))) (edges_of vs))).
    2:{ rewrite parity_map_xor, rises_falls_parity. apply xorb_nilpotent. }
    apply parity_ext. intros [a b] He. apply edge_in in He as [Ha Hb]. apply H in Ha, Hb. cbn [fst snd].
      unfold crosses_left, rises, falls, orient, vcross, vsub; cbn [fst snd]. rbool; try reflexivity; exfalso; nra.
  - apply parity_false. intros [a b] He. apply edge_in in He as [Ha Hb]. apply H in Ha, Hb. cbn [fst snd].
    unfold crosses_left, rises, falls. rbool; try reflexivity; lra.
  - apply parity_false. intros [a b] He. apply edge_in in He as [Ha Hb]. apply H in Ha, Hb. cbn [fst snd].
    unfold crosses_left, rises, falls. rbool; try reflexivity; lra.
Qed.

(** * Strictly convex outlines *)
Lemma nodup_map_inj {A B} (f : A -> B) l x y : NoDup (map f l) -> In x l -> In y l -> f x = f y -> x = y.
Proof.
  induction l as [|a l IH]; intros HN Hx Hy E; [destruct Hx|]. cbn in HN. apply NoDup_cons_iff in HN as [H1 H2].
  destruct Hx as [->|Hx], Hy as [->|Hy]; [reflexivity| | |auto].
  - exfalso. apply H1. rewrite E. apply in_map. exact Hy.
  - exfalso. apply H1. rewrite <- E. apply in_map. exact Hx.
Qed.
Lemma parity_unique {A} (f : A -> bool) l : NoDup l -> (forall x y, In x l -> In y l -> f x = true -> f y = true -> x = y) ->
  parity (map f l) = existsb f l.
Proof.
  induction l as [|a l IH]; intros HN H; [reflexivity|]. apply NoDup_cons_iff in HN as [H1 H2].
  unfold parity. cbn [map fold_right existsb]. fold (parity (map f l)). destruct (f a) eqn:Ea.
  - rewrite parity_false; [reflexivity|]. intros b Hb. destruct (f b) eqn:Eb; [|reflexivity]. exfalso. apply H1.
    rewrite (H a b) by (cbn; auto). exact Hb.
  - rewrite xorb_false_l. apply IH; [exact H2|]. intros; apply H; cbn; auto.
Qed.
Lemma chain_constant {A B} (g : A -> B) (l : list A) a : (forall e, In e (pairs (a :: l)) -> g (fst e) = g (snd e)) -> forall v, In v l -> g v = g a.
Proof.
  revert a; induction l as [|b l IH]; intros a H v Hv; [destruct Hv|].
  assert (E : g a = g b) by (apply (H (a, b)); left; reflexivity).
  destruct Hv as [->|Hv]; [congruence|]. rewrite E. apply IH; [|exact Hv]. intros e He. apply H. right. exact He.
Qed.
Lemma closed_constant {A B} (g : A -> B) (vs : list A) : (forall e, In e (edges_of vs) -> g (fst e) = g (snd e)) ->
  forall u v, In u vs -> In v vs -> g u = g v.
Proof.
  destruct vs as [|a vs]; intros H u v Hu Hv; [destruct Hu|].
  assert (G : forall w, In w (a :: vs) -> g w = g a).
  { intros w Hw. apply (chain_constant g (vs ++ [a]) a); [exact H|]. apply in_or_app. destruct Hw; [right; left; auto|left; assumption]. }
  rewrite (G u Hu), (G v Hv). reflexivity.
Qed.

Lemma corner_cone (p m n q : pt) : snd p <= snd m -> snd n <= snd m -> snd m <= snd q ->
  0 < orient p m q -> 0 < orient m n q -> (n <> p -> n <> m -> 0 < orient p m n) -> False.
Proof.
  destruct p as [p1 p2], m as [m1 m2], n as [n1 n2], q as [q1 q2]. unfold orient, vcross, vsub; cbn [fst snd].
  intros Hp Hn Hq H1 H2 H3.
  assert (Hc : 0 <= (m1 - p1) * (n2 - p2) - (m2 - p2) * (n1 - p1)).
  { destruct (Req_EM_T n1 p1) as [E1|E1], (Req_EM_T n2 p2) as [E2|E2]; [subst; lra|..];
    (destruct (Req_EM_T n1 m1) as [E3|E3], (Req_EM_T n2 m2) as [E4|E4]; [subst; lra|..]; left; apply H3; intros [= X Y]; congruence). }
  set (h := q2 - m2). set (dn := m2 - n2). set (dp := m2 - p2). set (k := q1 - m1).
  assert (A1 : 0 < (n1 - m1) * h + dn * k) by (unfold h, dn, k; nra).
  assert (A2 : 0 < (m1 - p1) * h - dp * k) by (unfold h, dp, k; nra).
  assert (A3 : (m1 - p1) * dn + dp * (n1 - m1) <= 0) by (unfold dn, dp; nra).
  assert (Hh : 0 <= h) by (unfold h; lra). assert (Hdn : 0 <= dn) by (unfold dn; lra). assert (Hdp : 0 <= dp) by (unfold dp; lra).
  assert (S : dp * ((n1 - m1) * h + dn * k) + dn * ((m1 - p1) * h - dp * k) <= 0).
  { replace (dp * ((n1 - m1) * h + dn * k) + dn * ((m1 - p1) * h - dp * k)) with (h * ((m1 - p1) * dn + dp * (n1 - m1))) by ring.
    nra. }
  assert (Zp : dp = 0) by nra. assert (Zn : dn = 0) by nra. rewrite Zp, Zn in *.
  assert (P1 : 0 < (n1 - m1) * h) by lra. assert (P2 : 0 < (m1 - p1) * h) by lra.
  assert (B1 : m1 < n1) by nra. assert (B2 : p1 < m1) by nra.
  assert (X : 0 < (m1 - p1) * (n2 - p2) - (m2 - p2) * (n1 - p1)) by (apply H3; intros [= X1 X2]; lra).
  unfold dn, dp in Zn, Zp. replace n2 with m2 in X by lra. replace p2 with m2 in X by lra. lra.
Qed.
Lemma corner_cone_low (p m n q : pt) : snd m <= snd p -> snd m <= snd n -> snd q <= snd m ->
  0 < orient p m q -> 0 < orient m n q -> (n <> p -> n <> m -> 0 < orient p m n) -> False.
Proof.
  set (neg := fun v : pt => (- fst v, - snd v)).
  assert (NO : forall a b c, orient (neg a) (neg b) (neg c) = orient a b c) by (intros; unfold orient, vcross, vsub, neg; cbn; ring).
  assert (NI : forall a b, neg a <> neg b -> a <> b) by (intros a b H E; apply H; congruence).
  intros H1 H2 H3 H4 H5 H6. apply (corner_cone (neg p) (neg m) (neg n) (neg q)); try (cbn; lra); rewrite NO; auto.
Qed.

Lemma max_elt {A} (f : A -> R) l : l <> [] -> exists m, In m l /\ forall v, In v l -> f v <= f m.
Proof.
  induction l as [|a l IH]; intros H; [congruence|]. destruct l as [|b l].
  - exists a. split; [left; reflexivity|]. intros v [->|[]]. lra.
  - destruct IH as (m & Hm & Hv); [discriminate|]. destruct (Rle_lt_dec (f m) (f a)).
    + exists a. split; [left; reflexivity|]. intros v [->|Hv']; [lra|]. specialize (Hv v Hv'). lra.
    + exists m. split; [right; exact Hm|]. intros v [->|Hv']; [lra|]. apply Hv. exact Hv'.
Qed.

Section Convex.
  Variable vs : list pt.
  Hypothesis SC : strictly_convex vs.
  Variable q : pt.

  Lemma Hlen : (3 <= length vs)%nat. Proof using SC. exact (proj1 SC). Qed.
  Lemma HND : NoDup vs. Proof using SC. exact (proj1 (proj2 SC)). Qed.

  Lemma sc_weak a b v : In (a, b) (edges_of vs) -> In v vs -> 0 <= orient a b v.
  Proof using SC.
    intros He Hv. destruct SC as (_ & _ & H).
    assert (Z1 : orient a b a = 0) by (unfold orient, vcross, vsub; cbn; ring).
    assert (Z2 : orient a b b = 0) by (unfold orient, vcross, vsub; cbn; ring).
    assert (D : forall x y : pt, {x = y} + {x <> y}) by (intros [x1 x2] [y1 y2]; destruct (Req_EM_T x1 y1), (Req_EM_T x2 y2); [left; congruence|right; congruence..]).
    destruct (D v a) as [->|Ha]; [lra|]. destruct (D v b) as [->|Hb]; [lra|]. left. apply H; assumption.
  Qed.
  Lemma edges_nodup : NoDup (edges_of vs).
  Proof using SC. apply (NoDup_map_inv fst). rewrite edges_of_fst. exact HND. Qed.
  Lemma same_fst a b b' : In (a, b) (edges_of vs) -> In (a, b') (edges_of vs) -> b = b'.
  Proof using SC.
    intros H1 H2. assert (E : (a, b) = (a, b')); [|congruence].
    apply (nodup_map_inj fst (edges_of vs)); auto. rewrite edges_of_fst. exact HND.
  Qed.
  Lemma same_snd a a' b : In (a, b) (edges_of vs) -> In (a', b) (edges_of vs) -> a = a'.
  Proof using SC.
    intros H1 H2. assert (E : (a, b) = (a', b)); [|congruence].
    apply (nodup_map_inj snd (edges_of vs)); auto. apply (Permutation_NoDup (Permutation_sym (edges_of_snd vs))). exact HND.
  Qed.

  (** where the line through a b has the height of q *)
  Definition par (a b : pt) : R := (snd q - snd a) / (snd b - snd a).
  Definition cx (a b : pt) : R := fst a + par a b * (fst b - fst a).
  Lemma orient_height a b x : snd a <> snd b -> orient a b (x, snd q) = (snd b - snd a) * (cx a b - x).
  Proof using. intros H. unfold orient, vcross, vsub, cx, par; cbn [fst snd]. field. lra. Qed.
  Lemma orient_cross c d a b : snd a <> snd b -> orient c d (cx a b, snd q) = (1 - par a b) * orient c d a + par a b * orient c d b.
  Proof using. intros H. unfold orient, vcross, vsub, cx, par; cbn [fst snd]. field. lra. Qed.
  Lemma par_falls a b : falls q a b = true -> 0 < par a b <= 1 /\ snd b < snd a.
  Proof using.
    unfold falls, par. rbool; try discriminate. intros _. split; [|lra].
    replace ((snd q - snd a) / (snd b - snd a)) with ((snd a - snd q) / (snd a - snd b)) by (field; lra).
    assert (D : 0 < / (snd a - snd b)) by (apply Rinv_0_lt_compat; lra). unfold Rdiv. split; [nra|].
    apply (Rmult_le_reg_r (snd a - snd b)); [lra|]. rewrite Rmult_assoc, Rinv_l by lra. lra.
  Qed.
  Lemma par_rises a b : rises q a b = true -> 0 <= par a b < 1 /\ snd a < snd b.
  Proof using.
    unfold rises, par. rbool; try discriminate. intros _. split; [|lra].
    assert (D : 0 < / (snd b - snd a)) by (apply Rinv_0_lt_compat; lra). unfold Rdiv. split; [nra|].
    apply (Rmult_lt_reg_r (snd b - snd a)); [lra|]. rewrite Rmult_assoc, Rinv_l by lra. lra.
  Qed.

  Lemma fall_right a b c d : In (a, b) (edges_of vs) -> In (c, d) (edges_of vs) -> (a, b) <> (c, d) ->
    falls q a b = true -> falls q c d = true -> cx c d < cx a b.
  Proof using SC.
    intros He Hf Hne F1 F2. destruct (par_falls _ _ F1) as [P1 P2], (par_falls _ _ F2) as [P3 P4].
    destruct (edge_in _ _ _ He) as [Ha Hb].
    assert (Q : 0 < orient c d (cx a b, snd q)).
    { rewrite orient_cross by lra. pose proof (sc_weak c d a Hf Ha).
      assert (0 < orient c d b); [|nra]. apply (proj2 (proj2 SC)); auto.
      - intros ->. unfold falls in F1, F2. rbool; try discriminate; lra.
      - intros ->. apply Hne. f_equal. exact (same_snd _ _ _ He Hf). }
    rewrite orient_height in Q by lra. nra.
  Qed.
  Lemma rise_left a b c d : In (a, b) (edges_of vs) -> In (c, d) (edges_of vs) -> (a, b) <> (c, d) ->
    rises q a b = true -> rises q c d = true -> cx a b < cx c d.
  Proof using SC.
    intros He Hf Hne F1 F2. destruct (par_rises _ _ F1) as [P1 P2], (par_rises _ _ F2) as [P3 P4].
    destruct (edge_in _ _ _ He) as [Ha Hb].
    assert (Q : 0 < orient c d (cx a b, snd q)).
    { rewrite orient_cross by lra. pose proof (sc_weak c d b Hf Hb).
      assert (0 < orient c d a); [|nra]. apply (proj2 (proj2 SC)); auto.
      - intros ->. apply Hne. f_equal. exact (same_fst _ _ _ He Hf).
      - intros ->. unfold rises in F1, F2. rbool; try discriminate; lra. }
    rewrite orient_height in Q by lra. nra.
  Qed.
  Lemma pair_dec (x y : pt * pt) : {x = y} + {x <> y}.
  Proof using. destruct x as [[x1 x2] [x3 x4]], y as [[y1 y2] [y3 y4]]. destruct (Req_EM_T x1 y1), (Req_EM_T x2 y2), (Req_EM_T x3 y3), (Req_EM_T x4 y4); [left; congruence|right; congruence..]. Qed.
  Lemma one_fall e f : In e (edges_of vs) -> In f (edges_of vs) -> falls q (fst e) (snd e) = true -> falls q (fst f) (snd f) = true -> e = f.
  Proof using SC.
    destruct e as [a b], f as [c d]. cbn [fst snd]. intros He Hf F1 F2. destruct (pair_dec (a, b) (c, d)) as [E|E]; [exact E|].
    pose proof (fall_right a b c d He Hf E F1 F2). pose proof (fall_right c d a b Hf He (not_eq_sym E) F2 F1). lra.
  Qed.
  Lemma one_rise e f : In e (edges_of vs) -> In f (edges_of vs) -> rises q (fst e) (snd e) = true -> rises q (fst f) (snd f) = true -> e = f.
  Proof using SC.
    destruct e as [a b], f as [c d]. cbn [fst snd]. intros He Hf F1 F2. destruct (pair_dec (a, b) (c, d)) as [E|E]; [exact E|].
    pose proof (rise_left a b c d He Hf E F1 F2). pose proof (rise_left c d a b Hf He (not_eq_sym E) F2 F1). lra.
  Qed.
  Lemma rise_iff_fall : existsb (fun e => rises q (fst e) (snd e)) (edges_of vs) = existsb (fun e => falls q (fst e) (snd e)) (edges_of vs).
  Proof using SC.
    rewrite <- !parity_unique; try apply edges_nodup; [apply rises_falls_parity|apply one_fall|apply one_rise].
  Qed.

  Lemma in_edge_of m : In m vs -> (exists n, In (m, n) (edges_of vs)) /\ (exists p, In (p, m) (edges_of vs)).
  Proof using.
    intros Hm. split.
    - assert (H : In m (map fst (edges_of vs))) by (rewrite edges_of_fst; exact Hm). apply in_map_iff in H as ([x y] & E & H). cbn in E. subst. eauto.
    - assert (H : In m (map snd (edges_of vs))) by (apply (Permutation_in _ (Permutation_sym (edges_of_snd vs))); exact Hm).
      apply in_map_iff in H as ([x y] & E & H). cbn in E. subst. eauto.
  Qed.

  Lemma convex_interior : (forall a b, In (a, b) (edges_of vs) -> 0 < orient a b q) -> even_odd q vs = true.
  Proof using SC.
    intros Hin. unfold even_odd.
    transitivity (parity (map (fun e => falls q (fst e) (snd e)) (edges_of vs))).
    - apply parity_ext. intros [a b] He. cbn [fst snd]. specialize (Hin a b He). unfold crosses_left.
      rewrite (proj2 (ltR_iff _ _) Hin), andb_true_r. destruct (ltR_spec (orient a b q) 0); [lra|]. rewrite andb_false_r. reflexivity.
    - rewrite parity_unique; [|apply edges_nodup|apply one_fall].
      destruct (existsb (fun e => falls q (fst e) (snd e)) (edges_of vs)) eqn:EF; [reflexivity|]. exfalso.
      pose proof rise_iff_fall as ER. rewrite EF in ER.
      assert (NF : forall e, In e (edges_of vs) -> falls q (fst e) (snd e) = false).
      { intros e He. destruct (falls q (fst e) (snd e)) eqn:E; [|reflexivity]. rewrite <- EF. symmetry. apply existsb_exists. eauto. }
      assert (NR : forall e, In e (edges_of vs) -> rises q (fst e) (snd e) = false).
      { intros e He. destruct (rises q (fst e) (snd e)) eqn:E; [|reflexivity]. rewrite <- ER. symmetry. apply existsb_exists. eauto. }
      assert (C : forall u v, In u vs -> In v vs -> ltR (snd q) (snd u) = ltR (snd q) (snd v)).
      { apply closed_constant. intros e He. specialize (NF e He). specialize (NR e He). unfold falls, rises in *. rbool; try reflexivity; try discriminate; lra. }
      assert (Hne : vs <> []) by (intros E; pose proof Hlen; rewrite E in *; cbn in *; lia).
      destruct (max_elt (fun v : pt => snd v) vs Hne) as (m & Hm & Mm).
      destruct (max_elt (fun v : pt => - snd v) vs Hne) as (l & Hl & Ml).
      destruct (in_edge_of m Hm) as [[n Hn] [p Hp]]. destruct (in_edge_of l Hl) as [[n' Hn'] [p' Hp']].
      destruct (ltR (snd q) (snd m)) eqn:E.
      + assert (E' : ltR (snd q) (snd l) = true) by (rewrite (C l m); assumption). apply ltR_iff in E'.
        apply (corner_cone_low p' l n' q); auto.
        * destruct (edge_in _ _ _ Hp') as [I1 _]. specialize (Ml _ I1). lra.
        * destruct (edge_in _ _ _ Hn') as [_ I1]. specialize (Ml _ I1). lra.
        * lra.
        * intros D1 D2. apply (proj2 (proj2 SC)); auto. apply (edge_in _ _ _ Hn').
      + destruct (ltR_spec (snd q) (snd m)) as [|E']; [discriminate|].
        apply (corner_cone p m n q); auto.
        * destruct (edge_in _ _ _ Hp) as [I1 _]. exact (Mm _ I1).
        * destruct (edge_in _ _ _ Hn) as [_ I1]. exact (Mm _ I1).
        * lra.
        * intros D1 D2. apply (proj2 (proj2 SC)); auto. apply (edge_in _ _ _ Hn).
  Qed.

  Lemma convex_exterior : (exists a b, In (a, b) (edges_of vs) /\ orient a b q < 0) -> even_odd q vs = false.
  Proof using SC.
    intros (a0 & b0 & He0 & Hbad). unfold even_odd.
    set (f1 := fun e : pt * pt => rises q (fst e) (snd e) && ltR (orient (fst e) (snd e) q) 0).
    set (f2 := fun e : pt * pt => falls q (fst e) (snd e) && ltR 0 (orient (fst e) (snd e) q)).
    transitivity (parity (map (fun e => xorb (f1 e) (f2 e)) (edges_of vs))).
    { apply parity_ext. intros [a b] _. unfold crosses_left, f1, f2, rises, falls. cbn [fst snd]. rbool; try reflexivity; lra. }
    rewrite parity_map_xor. rewrite !parity_unique; try apply edges_nodup.
    2:{ intros x y Hx Hy H1 H2. unfold f2 in *. apply andb_prop in H1 as [H1 _], H2 as [H2 _]. exact (one_fall x y Hx Hy H1 H2). }
    2:{ intros x y Hx Hy H1 H2. unfold f1 in *. apply andb_prop in H1 as [H1 _], H2 as [H2 _]. exact (one_rise x y Hx Hy H1 H2). }
    assert (W : forall a b c d, In (a, b) (edges_of vs) -> In (c, d) (edges_of vs) -> snd a <> snd b -> 0 <= par a b <= 1 -> 0 <= orient c d (cx a b, snd q)).
    { intros a b c d He Hf Hn Hp. destruct (edge_in _ _ _ He) as [Ia Ib]. rewrite orient_cross by assumption.
      pose proof (sc_weak c d a Hf Ia). pose proof (sc_weak c d b Hf Ib). nra. }
    assert (EQ : existsb f1 (edges_of vs) = true <-> existsb f2 (edges_of vs) = true).
    { split; intros H; apply existsb_exists in H as ([a b] & He & H); apply existsb_exists.
      - unfold f1 in H. cbn [fst snd] in H. apply andb_prop in H as [HR HO]. apply ltR_iff in HO.
        assert (HF : existsb (fun e => falls q (fst e) (snd e)) (edges_of vs) = true).
        { rewrite <- rise_iff_fall. apply existsb_exists. exists (a, b). auto. }
        apply existsb_exists in HF as ([c d] & Hf & HF). cbn [fst snd] in HF. exists (c, d). split; [exact Hf|].
        unfold f2. cbn [fst snd]. rewrite HF. cbn [andb]. apply ltR_iff.
        destruct (par_rises _ _ HR) as [P1 P2], (par_falls _ _ HF) as [P3 P4].
        pose proof (W c d a b Hf He ltac:(lra) ltac:(lra)) as W1. rewrite orient_height in W1 by lra.
        pose proof (orient_height a b (fst q) ltac:(lra)) as O1. pose proof (orient_height c d (fst q) ltac:(lra)) as O2.
        assert (EQ : (fst q, snd q) = q) by (destruct q; reflexivity). rewrite EQ in O1, O2. rewrite O1 in HO. rewrite O2.
        assert (L1 : cx a b < fst q) by nra. assert (L2 : cx c d <= cx a b) by nra. nra.
      - unfold f2 in H. cbn [fst snd] in H. apply andb_prop in H as [HF HO]. apply ltR_iff in HO.
        assert (HR : existsb (fun e => rises q (fst e) (snd e)) (edges_of vs) = true).
        { rewrite rise_iff_fall. apply existsb_exists. exists (a, b). auto. }
        apply existsb_exists in HR as ([c d] & Hf & HR). cbn [fst snd] in HR. exists (c, d). split; [exact Hf|].
        unfold f1. cbn [fst snd]. rewrite HR. cbn [andb]. apply ltR_iff.
        destruct (par_rises _ _ HR) as [P1 P2], (par_falls _ _ HF) as [P3 P4].
        destruct (Rlt_le_dec (orient c d q) 0) as [|HO2]; [assumption|]. exfalso.
        pose proof (W a b a0 b0 He He0 ltac:(lra) ltac:(lra)) as W1. pose proof (W c d a0 b0 Hf He0 ltac:(lra) ltac:(lra)) as W2.
        pose proof (orient_height a b (fst q) ltac:(lra)) as O1. pose proof (orient_height c d (fst q) ltac:(lra)) as O2.
        assert (EQ : (fst q, snd q) = q) by (destruct q; reflexivity). rewrite EQ in O1, O2. rewrite O1 in HO. rewrite O2 in HO2.
        assert (L1 : cx a b < fst q) by nra. assert (L2 : fst q <= cx c d) by nra.
        (* q is between the two crossing points *)
        set (t := (fst q - cx a b) / (cx c d - cx a b)).
        assert (HT : 0 <= t <= 1).
        { unfold t. assert (D : 0 < / (cx c d - cx a b)) by (apply Rinv_0_lt_compat; lra). split; [apply Rmult_le_pos; lra|].
          apply (Rmult_le_reg_r (cx c d - cx a b)); [lra|]. unfold Rdiv. rewrite Rmult_assoc, Rinv_l by lra. lra. }
        assert (OQ : orient a0 b0 q = (1 - t) * orient a0 b0 (cx a b, snd q) + t * orient a0 b0 (cx c d, snd q)).
        { rewrite <- EQ at 1. unfold orient, vcross, vsub, t; cbn [fst snd]. field. lra. }
        nra. }
    destruct (existsb f1 (edges_of vs)), (existsb f2 (edges_of vs)); try reflexivity; [destruct (proj1 EQ eq_refl)|destruct (proj2 EQ eq_refl)]; reflexivity.
  Qed.
End Convex.

(** * The statements of the theorems *)
Lemma coincide_iff tol (a b : Pt) : pt_eqb (N := RNum) tol a b = true <-> coincide tol (xy a) (xy b).
Proof. unfold pt_eqb, coincide, xy; rnum. cbn [fst snd]. rewrite andb_true_iff, !Rltb_iff. reflexivity. Qed.
Lemma no_short_near tol (vs : list Pt) : no_short_edge tol (map xy vs) -> no_near_edges tol vs.
Proof.
  intros H [a b] He. cbn [fst snd]. destruct (pt_eqb (N := RNum) tol a b) eqn:E; [|reflexivity]. exfalso.
  apply coincide_iff in E. apply (H (xy a) (xy b)); [|exact E]. rewrite edges_of_map. apply in_map_iff. exists (a, b). auto.
Qed.
Lemma box_between tol v a b : 0 < tol -> Rmin a b - tol < v < Rmax a b + tol -> between (N := RNum) tol v a b = true.
Proof.
  intros Ht H. unfold between, near; rnum. rewrite orb_true_iff, !andb_true_iff, !orb_true_iff, !Rleb_iff, !Rltb_iff.
  assert (A : forall u w, w - tol < u -> (w <= u \/ Rabs (u - w) < tol)).
  { intros u w G. destruct (Rle_lt_dec w u); [left; assumption|right]. rewrite Rabs_left by lra. lra. }
  assert (B : forall u w, u < w + tol -> (u <= w \/ Rabs (u - w) < tol)).
  { intros u w G. destruct (Rle_lt_dec u w); [left; assumption|right]. rewrite Rabs_right by lra. lra. }
  destruct (Rle_dec a b) as [L|L].
  - rewrite Rmin_left, Rmax_right in H by lra. left. split; [apply A|apply B]; lra.
  - rewrite Rmin_right, Rmax_left in H by lra. right. split; [apply A|apply B]; lra.
Qed.
Lemma near_segment_iff tol (a b q : Pt) : 0 < tol -> seg_contains (N := RNum) tol q a b = true <-> near_segment tol (xy a) (xy b) (xy q).
Proof.
  intros Ht. split.
  - intros H. exact (seg_contains_near tol a b q Ht H).
  - intros (H1 & H2 & H3). unfold seg_contains. apply (box_between tol _ _ _ Ht) in H1, H2. cbn [xy fst snd] in H1, H2.
    rewrite H1, H2. cbn [andb]. rnum. apply Rltb_iff.
    replace (px a * (py b - py q) + px b * (py q - py a) + px q * (py a - py b)) with (orient (xy a) (xy b) (xy q))
      by (unfold orient, vcross, vsub, xy; cbn [fst snd]; ring). exact H3.
Qed.
Lemma near_border_iff tol (q : Pt) (vs : list Pt) : 0 < tol ->
  existsb (fun e : Pt * Pt => seg_contains (N := RNum) tol q (fst e) (snd e)) (edges_of vs) = true <-> near_border tol (xy q) (map xy vs).
Proof.
  intros Ht. rewrite existsb_exists. unfold near_border. rewrite edges_of_map. split.
  - intros ([a b] & He & H). exists (xy a), (xy b). split; [apply in_map_iff; exists (a, b); auto|]. apply near_segment_iff; assumption.
  - intros (a & b & He & H). apply in_map_iff in He as ([a' b'] & E & He). cbn [fst snd] in E. injection E as <- <-.
    exists (a', b'). split; [exact He|]. apply near_segment_iff; assumption.
Qed.

Lemma contains_char tol idx p (q : Pt) vs : 0 < tol -> vertices_are p idx vs -> no_short_edge tol (map xy vs) ->
  exists b, containsPoint (N := RNum) tol idx p q = Ok b /\
    (b = true <-> even_odd (xy q) (map xy vs) = true \/ near_border tol (xy q) (map xy vs)).
Proof.
  intros Ht H HN. eexists. split; [apply (containsPoint_char tol idx p q vs H (no_short_near _ _ HN))|].
  rewrite orb_true_iff, near_border_iff by assumption. reflexivity.
Qed.

(** the crossing rule agrees with the plane geometry of the outline *)
Lemma even_odd_invariant q vs : (forall l1 l2, vs = l1 ++ l2 -> even_odd q (l2 ++ l1) = even_odd q vs) /\
  even_odd q (rev vs) = even_odd q vs /\ even_odd q vs = parity (map (even_odd q) (fan vs)).
Proof.
  split; [|split].
  - intros l1 l2 ->. apply even_odd_rotate.
  - apply even_odd_rev.
  - apply even_odd_fan.
Qed.

Lemma contains_border tol idx p (q : Pt) vs : 0 < tol -> vertices_are p idx vs -> on_border (xy q) (map xy vs) ->
  containsPoint (N := RNum) tol idx p q = Ok true.
Proof.
  intros Ht H (a & b & He & Hs). rewrite edges_of_map in He. apply in_map_iff in He as ([a' b'] & E & He). cbn [fst snd] in E. injection E as <- <-.
  rewrite (containsPoint_walk (N := RNum) tol idx p q vs q H). f_equal. apply orb_true_iff. right. apply existsb_exists.
  exists (a', b'). split; [exact He|]. apply seg_contains_segment; assumption.
Qed.

Lemma near_border_box tol q vs : near_border tol q vs ->
  (exists v, In v vs /\ fst v - tol < fst q) /\ (exists v, In v vs /\ fst q < fst v + tol) /\
  (exists v, In v vs /\ snd v - tol < snd q) /\ (exists v, In v vs /\ snd q < snd v + tol).
Proof.
  intros (a & b & He & H1 & H2 & _). apply edge_in in He as [Ha Hb].
  repeat split.
  - unfold Rmin in H1. destruct (Rle_dec (fst a) (fst b)); [exists a|exists b]; split; auto; lra.
  - unfold Rmax in H1. destruct (Rle_dec (fst a) (fst b)); [exists b|exists a]; split; auto; lra.
  - unfold Rmin in H2. destruct (Rle_dec (snd a) (snd b)); [exists a|exists b]; split; auto; lra.
  - unfold Rmax in H2. destruct (Rle_dec (snd a) (snd b)); [exists b|exists a]; split; auto; lra.
Qed.

Lemma contains_outside tol idx p (q : Pt) vs : 0 < tol -> vertices_are p idx vs -> no_short_edge tol (map xy vs) ->
  (forall v, In v vs -> px v + tol <= px q) \/ (forall v, In v vs -> px q <= px v - tol) \/
  (forall v, In v vs -> py v + tol <= py q) \/ (forall v, In v vs -> py q <= py v - tol) ->
  containsPoint (N := RNum) tol idx p q = Ok false.
Proof.
  intros Ht H HN Ho. destruct (contains_char tol idx p q vs Ht H HN) as (b & E & Hb). rewrite E. f_equal.
  destruct b; [|reflexivity]. exfalso. destruct (proj1 Hb eq_refl) as [G|G].
  - rewrite even_odd_outside in G; [discriminate|].
    assert (M : forall P : pt -> Prop, (forall v, In v vs -> P (xy v)) -> forall v, In v (map xy vs) -> P v).
    { intros P HP v Hv. apply in_map_iff in Hv as (w & <- & Hw). auto. }
    destruct Ho as [Ho|[Ho|[Ho|Ho]]]; [right; left|left|right; right; right|right; right; left];
      apply M; intros v Hv; specialize (Ho v Hv); cbn; lra.
  - apply near_border_box in G as ((v1 & I1 & L1) & (v2 & I2 & L2) & (v3 & I3 & L3) & (v4 & I4 & L4)).
    apply in_map_iff in I1 as (w1 & <- & I1), I2 as (w2 & <- & I2), I3 as (w3 & <- & I3), I4 as (w4 & <- & I4).
    cbn [xy fst snd] in *.
    destruct Ho as [Ho|[Ho|[Ho|Ho]]]; [specialize (Ho _ I2)|specialize (Ho _ I1)|specialize (Ho _ I4)|specialize (Ho _ I3)]; lra.
Qed.

Lemma contains_convex tol idx p (q : Pt) vs : 0 < tol -> vertices_are p idx vs -> no_short_edge tol (map xy vs) ->
  strictly_convex (map xy vs) ->
  ((forall a b, In (a, b) (edges_of (map xy vs)) -> 0 < orient a b (xy q)) -> containsPoint (N := RNum) tol idx p q = Ok true) /\
  ((exists a b, In (a, b) (edges_of (map xy vs)) /\ orient a b (xy q) < 0) ->
   exists b, containsPoint (N := RNum) tol idx p q = Ok b /\ (b = true <-> near_border tol (xy q) (map xy vs))).
Proof.
  intros Ht H HN HC. destruct (contains_char tol idx p q vs Ht H HN) as (b & E & Hb). rewrite E. split.
  - intros Hi. f_equal. apply Hb. left. apply convex_interior; assumption.
  - intros Ho. exists b. split; [reflexivity|]. rewrite Hb. rewrite convex_exterior by assumption. intuition discriminate.
Qed.

(** * The gap left by a skipped last vertex *)

Lemma walk_skip_last tol (q : Pt) v : forall l prev b,
  (forall e, In e (pairs (prev :: l)) -> pt_eqb (N := RNum) tol (fst e) (snd e) = false) ->
  pt_eqb (N := RNum) tol v (last l prev) = true ->
  walk (N := RNum) tol q prev b (l ++ [v]) = walk (N := RNum) tol q prev b l.
Proof.
  induction l as [|w l IH]; intros prev b H HS.
  - cbn [app walk last] in *. rewrite HS. reflexivity.
  - cbn [app walk].
    assert (E : pt_eqb (N := RNum) tol w prev = false).
    { rewrite pt_eqb_sym. apply (H (prev, w)). rewrite pairs_cons2. left. reflexivity. }
    rewrite E. apply IH.
    + intros e He. apply H. rewrite pairs_cons2. right. exact He.
    + replace (last l w) with (last (w :: l) prev); [exact HS|]. clear. revert w. induction l as [|x l IH]; intros w; [reflexivity|].
      cbn [last] in *. destruct l as [|y l]; [reflexivity|]. apply (IH w).
Qed.

Lemma pairs_snoc {A} (l : list A) a b : pairs (l ++ [a; b]) = pairs (l ++ [a]) ++ [(a, b)].
Proof.
  induction l as [|x l IH]; [reflexivity|]. destruct l as [|y l]; [reflexivity|].
  cbn [app] in *. rewrite !(pairs_cons2 x y). rewrite IH. reflexivity.
Qed.

Lemma pairs_map {A B} (f : A -> B) l : pairs (map f l) = map (fun e => (f (fst e), f (snd e))) (pairs l).
Proof. induction l as [|x l IH]; [reflexivity|]. destruct l as [|y l]; [reflexivity|]. cbn [map] in *. rewrite !pairs_cons2. cbn [map fst snd]. rewrite <- IH. reflexivity. Qed.

Lemma gap_char tol idx p (q : Pt) m (l l' : Pt) : 0 < tol -> vertices_are p idx (m ++ [l; l']) -> 
  coincide tol (xy l) (xy l') ->
  (forall a b, In (a, b) (pairs (xy l' :: map xy m ++ [xy l])) -> ~ coincide tol a b) ->
  exists b, containsPoint (N := RNum) tol idx p q = Ok b /\
    (b = true <-> xorb (even_odd (xy q) (map xy (m ++ [l; l']))) (crosses_left (xy q) (xy l) (xy l')) = true \/
                  near_border tol (xy q) (map xy (m ++ [l; l']))).
Proof.
  intros Ht H HS HN. eexists. split; [apply (containsPoint_walk (N := RNum) tol idx p q (m ++ [l; l']) q H)|].
  rewrite orb_true_iff, near_border_iff by assumption.
  match goal with |- ?A = true \/ _ <-> ?B = true \/ _ => assert (E : A = B); [|rewrite E; reflexivity] end.
  change (m ++ [l; l']) with (m ++ [l] ++ [l']). rewrite app_assoc, last_last.
  assert (HN' : forall e, In e (pairs (l' :: m ++ [l])) -> pt_eqb (N := RNum) tol (fst e) (snd e) = false).
  { intros [a b] He. cbn [fst snd]. destruct (pt_eqb (N := RNum) tol a b) eqn:E; [|reflexivity]. exfalso.
    apply coincide_iff in E. apply (HN (xy a) (xy b)); [|exact E].
    change (xy l' :: map xy m ++ [xy l]) with (xy l' :: map xy m ++ map xy [l]). rewrite <- map_app, <- map_cons, pairs_map.
    apply in_map_iff. exists (a, b). auto. }
  rewrite walk_skip_last; [|exact HN'|rewrite last_last, pt_eqb_sym; apply coincide_iff; exact HS].
  rewrite walk_parity by exact HN'. rewrite xorb_false_l, even_odd_map.
  rewrite <- (parity_perm _ _ (Permutation_map _ (pairs_last_edges ((m ++ [l]) ++ [l']) q ltac:(destruct m; discriminate)))).
  rewrite last_last. rewrite <- app_assoc. change ([l] ++ [l']) with [l; l'].
  change (l' :: m ++ [l; l']) with ((l' :: m) ++ [l; l']). rewrite pairs_snoc. rewrite map_app, parity_app.
  cbn [map fst snd]. unfold parity at 3. cbn [fold_right]. rewrite xorb_false_r.
  rewrite xorb_assoc, xorb_nilpotent, xorb_false_r. reflexivity.
Qed.

Lemma gap_far tol idx p (q : Pt) m (l l' : Pt) : 0 < tol -> vertices_are p idx (m ++ [l; l']) ->
  coincide tol (xy l) (xy l') ->
  (forall a b, In (a, b) (pairs (xy l' :: map xy m ++ [xy l])) -> ~ coincide tol a b) ->
  (forall v, In v (m ++ [l; l']) -> px v < px q) ->
  Rmin (py l) (py l') <= py q < Rmax (py l) (py l') ->
  containsPoint (N := RNum) tol idx p q = Ok true.
Proof.
  intros Ht H HS HN Hx Hy. destruct (gap_char tol idx p q m l l' Ht H HS HN) as (b & E & Hb). rewrite E. f_equal. apply Hb. left.
  rewrite even_odd_outside.
  2:{ right. left. intros v Hv. apply in_map_iff in Hv as (w & <- & Hw). cbn. apply Hx. exact Hw. }
  rewrite xorb_false_l.
  assert (L1 : px l < px q) by (apply Hx; apply in_or_app; right; left; reflexivity).
  assert (L2 : px l' < px q) by (apply Hx; apply in_or_app; right; right; left; reflexivity).
  unfold crosses_left, rises, falls, orient, vcross, vsub, xy; cbn [fst snd].
  unfold Rmin, Rmax in Hy. destruct (Rle_dec (py l) (py l')); rbool; try reflexivity; exfalso; nra.
Qed.
