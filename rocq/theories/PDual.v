(** Duality: the cells at the edge between the circumcenters of two neighbouring triangles. *)
From Coq Require Import Lia ZArith List Bool Permutation.
From Verif Require Import Base Spec MUtil MGeom MHull MPolygon MMaps MTriangle MGen MRegion MDelaunay MVoronoi Bridge.
From Verif Require Import PUtil PMaps PDelaunay PVoronoi PFan.
Import ListNotations.
Local Open Scope Z_scope.

(** ** Neighbouring triangles in a fan *)
Section Neighbours.
  Variable tris : list (Z * Z * Z).
  Variable v : Z.
  Hypothesis C : forall t, In t tris -> NoDup (corners t).
  Lemma side_at W ts i k t w : sector tris v W ts -> nth_error ts i = Some k -> nth_error tris k = Some t -> has_side (v, w) t = true ->
    nth_error W i = Some w \/ nth_error W (S i) = Some w.
  Proof.
    intros F Hi Ht Hw. destruct (fan_nth _ _ _ _ F _ _ Hi) as (a & b & t' & P1 & P2 & P3 & P4 & P5 & P6). rewrite Ht in P3. injection P3 as <-.
    destruct (two_sides v t a b w (C t (nth_error_In _ _ Ht)) P4 P5 P6 Hw) as [->| ->]; auto.
  Qed.
  Lemma neighbours W ts i j k k' t t' w : sector tris v W ts -> simple W -> nth_error ts i = Some k -> nth_error ts j = Some k' -> k <> k' ->
    nth_error tris k = Some t -> nth_error tris k' = Some t' -> has_side (v, w) t = true -> has_side (v, w) t' = true ->
    j = S i \/ i = S j \/ (i = 0%nat /\ S j = length ts /\ (4 <= length W)%nat) \/ (j = 0%nat /\ S i = length ts /\ (4 <= length W)%nat).
  Proof.
    intros F S Hi Hj N Ht Ht' Hw Hw'. pose proof (fan_len _ _ _ _ F) as L.
    assert (NE : i <> j) by congruence.
    assert (E : forall a b, nth_error W a = Some w -> nth_error W b = Some w -> a = b \/ (a = 0%nat /\ Datatypes.S b = length W /\ (4 <= length W)%nat) \/ (b = 0%nat /\ Datatypes.S a = length W /\ (4 <= length W)%nat)).
    { intros a b Ha Hb. destruct (lt_eq_lt_dec a b) as [[X|X]|X]; [right; left; exact (S a b w X Ha Hb)|left; exact X|right; right; exact (S b a w X Hb Ha)]. }
    destruct (side_at _ _ _ _ _ _ F Hi Ht Hw) as [A|A], (side_at _ _ _ _ _ _ F Hj Ht' Hw') as [B|B]; destruct (E _ _ A B) as [X|[X|X]]; try lia.
    all: assert (i < length ts)%nat by (apply nth_error_Some; congruence); assert (j < length ts)%nat by (apply nth_error_Some; congruence); lia.
  Qed.
  Lemma sector_corner W ts k t : sector tris v W ts -> In k ts -> nth_error tris k = Some t -> In v (corners t).
  Proof.
    intros F Hk Ht. apply In_nth_error in Hk as (i & Hi). destruct (fan_nth _ _ _ _ F _ _ Hi) as (a & b & t' & _ & _ & P3 & P4 & _). rewrite Ht in P3. injection P3 as <-.
    destruct t as [[p q] r]. apply has_side_iff in P4. cbn [corners In] in *. intuition.
  Qed.
End Neighbours.

Lemma pairs_nth {A} (l : list A) i a b : nth_error l i = Some a -> nth_error l (S i) = Some b -> In (a, b) (pairs l).
Proof.
  revert i. induction l as [|x l IH]; intros [|i] Ha Hb; try discriminate.
  - cbn in Ha, Hb. injection Ha as ->. destruct l as [|y l]; [discriminate|]. cbn in Hb. injection Hb as ->. left; reflexivity.
  - cbn [nth_error] in Ha, Hb. specialize (IH _ Ha Hb). destruct l as [|y l]; [destruct i; discriminate|]. right; exact IH.
Qed.
Definition either {A} (a b : A) (l : list (A * A)) : Prop := In (a, b) l \/ In (b, a) l.
Lemma pairs_app_l {A} (l l' : list A) e : In e (pairs l) -> In e (pairs (l ++ l')).
Proof.
  induction l as [|x [|y l] IH]; [intros []|intros []|]. intros [<-|H]; [left; reflexivity|]. right. apply IH. exact H.
Qed.
Lemma pairs_app_r {A} (l l' : list A) e : In e (pairs l') -> In e (pairs (l ++ l')).
Proof.
  induction l as [|x l IH]; [auto|]. intros H. specialize (IH H). cbn [app]. destruct (l ++ l') as [|y m]; [destruct IH|right; exact IH].
Qed.
Lemma pairs_inv {A} (l : list A) a b : In (a, b) (pairs l) -> exists l1 l2, l = l1 ++ a :: b :: l2.
Proof.
  induction l as [|x [|y l] IH]; [intros []|intros []|]. intros [E|H]; [injection E as -> ->; exists [], l; reflexivity|].
  destruct (IH H) as (l1 & l2 & E). exists (x :: l1), l2. cbn [app]. rewrite <- E. reflexivity.
Qed.
Lemma pairs_rev_in {A} (l : list A) a b : In (a, b) (pairs l) -> In (b, a) (pairs (rev l)).
Proof.
  intros H. apply pairs_inv in H as (l1 & l2 & ->). rewrite rev_app_distr. cbn [rev]. rewrite <- !app_assoc. apply pairs_app_r. left; reflexivity.
Qed.
Lemma edges_inv {A} (l : list A) a b : In (a, b) (edges_of l) -> In (a, b) (pairs l) \/ (exists m, l = b :: m /\ last l b = a).
Proof.
  destruct l as [|x l]; [intros []|]. unfold edges_of. intros H. apply pairs_inv in H as (l1 & l2 & E).
  destruct (rev_case l2) as [->|(l3 & y & ->)].
  - right. assert (E2 : (x :: l) ++ [x] = (l1 ++ [a]) ++ [b]) by (rewrite <- app_assoc; exact E). apply app_inj_tail in E2 as [E2 ->]. exists l. split; [reflexivity|]. rewrite E2, last_last. reflexivity.
  - left. assert (E2 : (x :: l) ++ [x] = (l1 ++ a :: b :: l3) ++ [y]) by (rewrite <- app_assoc; exact E). apply app_inj_tail in E2 as [E2 ->]. rewrite E2. apply pairs_app_r. left; reflexivity.
Qed.
Lemma edges_pairs {A} (l : list A) e : In e (pairs l) -> In e (edges_of l).
Proof. destruct l as [|x l]; [intros []|]. apply pairs_app_l. Qed.
Lemma edges_close {A} (a b : A) l : In (b, a) (edges_of (a :: l ++ [b])).
Proof. unfold edges_of. rewrite <- app_comm_cons, <- app_assoc. cbn [app]. apply (pairs_app_r (a :: l) [b; a]). left; reflexivity. Qed.
Lemma edges_cases {A} (l : list A) a b : In (a, b) (edges_of l) -> In (a, b) (pairs l) \/ (exists m, l = b :: m ++ [a]) \/ (a = b /\ l = [a]).
Proof.
  intros H. apply edges_inv in H as [H|(m & -> & H)]; [auto|]. right. destruct (rev_case m) as [->|(m' & y & ->)]; [cbn in H; subst; auto|].
  left. exists m'. rewrite app_comm_cons, last_last in H. subst. reflexivity.
Qed.
Lemma edges_turned {A} (l l' : list A) a b : turned l l' -> either a b (edges_of l) -> either a b (edges_of l').
Proof.
  assert (R : forall (l : list A) x y, In (x, y) (edges_of l) -> In (y, x) (edges_of (rev l)) \/ x = y /\ l = [x]).
  { intros m x y H. apply edges_cases in H as [H|[(m' & ->)|H]]; [|  |right; exact H]; left.
    - apply edges_pairs, pairs_rev_in, H.
    - cbn [rev]. rewrite rev_app_distr. cbn [rev app]. apply edges_close. }
  assert (T : forall (p q : list A) x y, In (x, y) (edges_of (p ++ q)) -> In (x, y) (edges_of (q ++ p))).
  { intros p q x y H. destruct p as [|p0 p]; [rewrite app_nil_r; exact H|]. destruct q as [|q0 q]; [rewrite app_nil_r in H; exact H|].
    unfold edges_of in *. cbn [app] in *. rewrite <- app_assoc in *. cbn [app] in *.
    apply pairs_inv in H as (l1 & l2 & E).
    assert (G : forall m, In (x, y) (pairs m) -> (exists m1 m2, q0 :: q ++ p0 :: p ++ [q0] = m1 ++ m ++ m2) -> In (x, y) (pairs (q0 :: q ++ p0 :: p ++ [q0]))).
    { intros m Hm (m1 & m2 & ->). apply pairs_app_r, pairs_app_l, Hm. }
    assert (I : In (x, y) (pairs (p0 :: p ++ q0 :: q ++ [p0]))) by (rewrite E; apply pairs_app_r; left; reflexivity). clear E l1 l2.
    change (p0 :: p ++ q0 :: q ++ [p0]) with ((p0 :: p) ++ q0 :: (q ++ [p0])) in I.
    assert (S : In (x, y) (pairs ((p0 :: p) ++ [q0])) \/ In (x, y) (pairs (q0 :: q ++ [p0]))).
    { revert I. generalize (q ++ [p0]) as r. clear. intros r. induction p as [|p1 p IH] in p0 |- *.
      - cbn [app]. intros [<-|I]; [left; left; reflexivity|right; exact I].
      - cbn [app] in *. intros [<-|I]; [left; left; reflexivity|]. destruct (IH p1 I) as [H|H]; [left; right; exact H|right; exact H]. }
    destruct S as [S|S].
    - apply (G _ S). exists (q0 :: q), []. rewrite app_nil_r. reflexivity.
    - apply (G _ S). exists [], (p ++ [q0]). cbn [app]. rewrite <- app_assoc. reflexivity. }
  intros (p & q & -> & [-> | ->]) [H|H].
  - left. apply T, H.
  - right. apply T, H.
  - apply T in H. destruct (R _ _ _ H) as [K|[-> K]]; [right; exact K|]. rewrite K in *. left; exact H.
  - apply T in H. destruct (R _ _ _ H) as [K|[-> K]]; [left; exact K|]. rewrite K in *. left; exact H.
Qed.
Lemma pairs_map_in {A B} (f : A -> B) l a b : In (a, b) (pairs l) -> In (f a, f b) (pairs (map f l)).
Proof. intros H. apply pairs_inv in H as (l1 & l2 & ->). rewrite map_app. apply pairs_app_r. left; reflexivity. Qed.
Lemma edges_map_in {A B} (f : A -> B) l a b : In (a, b) (edges_of l) -> In (f a, f b) (edges_of (map f l)).
Proof. destruct l as [|x l]; [intros []|]. unfold edges_of. intros H. apply (pairs_map_in f) in H. rewrite map_app in H. exact H. Qed.
Lemma pairs_members {A} (l : list A) a b : In (a, b) (pairs l) -> In a l /\ In b l.
Proof. intros H. apply pairs_inv in H as (l1 & l2 & ->). rewrite !in_app_iff. cbn. auto. Qed.
Lemma edges_members {A} (l : list A) a b : In (a, b) (edges_of l) -> In a l /\ In b l.
Proof.
  destruct l as [|x l]; [intros []|]. unfold edges_of. intros H. apply pairs_members in H as [H1 H2]. rewrite in_app_iff in H1, H2. cbn in *. intuition.
Qed.

(** ** The cells registering a segment *)
Lemma inserted_app s h h' : inserted_at s (h ++ h') = inserted_at s h ++ inserted_at s h'.
Proof. unfold inserted_at. apply flat_map_app. Qed.
Lemma inserted_one s c l : exists n, inserted_at s (map (fun s' => SmInsert s' c) l) = repeat c n /\ ((0 < n)%nat <-> exists e, In e l /\ canon e = canon s).
Proof.
  induction l as [|e l (n & E & I)]; [exists 0%nat; split; [reflexivity|]; split; [lia|intros (? & [] & _)]|].
  cbn [map]. change (inserted_at s (SmInsert e c :: map (fun s' => SmInsert s' c) l)) with
    ((if pair_eqb (canon e) (canon s) then [c] else []) ++ inserted_at s (map (fun s' => SmInsert s' c) l)). rewrite E.
  destruct (pair_eqb (canon e) (canon s)) eqn:P.
  - exists (S n). split; [reflexivity|]. split; [|lia]. intros _. exists e. split; [left; reflexivity|apply pair_eqb_iff; exact P].
  - exists n. split; [reflexivity|]. rewrite I. split; [intros (x & H & K); exists x; split; [right; exact H|exact K]|].
    intros (x & [<-|H] & K); [apply pair_eqb_iff in K; congruence|exists x; auto].
Qed.
Definition registers (s : Z * Z) (l : list (Z * Z)) : Prop := exists e, In e l /\ canon e = canon s.
Lemma inserted_none s segs : forall c, (forall i l, nth_error segs i = Some l -> ~ registers s l) -> inserted_at s (cell_inserts c segs) = [].
Proof.
  induction segs as [|l segs IH]; intros c H; [reflexivity|]. cbn [cell_inserts]. rewrite inserted_app.
  destruct (inserted_one s c l) as (n & -> & I). destruct n as [|n]; [|exfalso; apply (H 0%nat l eq_refl); apply I; lia].
  apply IH. intros i l' Hi. exact (H (S i) l' Hi).
Qed.
Lemma inserted_only s segs : forall c i l, nth_error segs i = Some l -> registers s l -> (forall j l', nth_error segs j = Some l' -> registers s l' -> j = i) ->
  exists n, inserted_at s (cell_inserts c segs) = repeat (c + Z.of_nat i) (S n).
Proof.
  induction segs as [|l0 segs IH]; intros c [|i] l Hi R U; try discriminate; cbn [nth_error] in Hi; cbn [cell_inserts]; rewrite inserted_app; destruct (inserted_one s c l0) as (n & -> & I).
  - injection Hi as ->. rewrite inserted_none; [|intros j l' Hj R'; specialize (U (S j) l' Hj R'); lia].
    rewrite app_nil_r. apply I in R. destruct n as [|n]; [lia|]. exists n. replace (c + Z.of_nat 0)%Z with c by lia. reflexivity.
  - destruct n as [|n]; [|exfalso; assert (X : 0%nat = S i) by (apply (U 0%nat l0 eq_refl), I; lia); lia].
    destruct (IH (c + 1)%Z i l Hi R) as (m & ->); [intros j l' Hj R'; specialize (U (S j) l' Hj R'); lia|]. exists m. replace (c + Z.of_nat (S i))%Z with (c + 1 + Z.of_nat i)%Z by lia. reflexivity.
Qed.
Lemma inserted_two s segs : forall c i j l l', (i < j)%nat -> nth_error segs i = Some l -> nth_error segs j = Some l' -> registers s l -> registers s l' ->
  (forall x lx, nth_error segs x = Some lx -> registers s lx -> x = i \/ x = j) ->
  exists n m, inserted_at s (cell_inserts c segs) = repeat (c + Z.of_nat i) (S n) ++ repeat (c + Z.of_nat j) (S m).
Proof.
  induction segs as [|l0 segs IH]; intros c [|i] [|j] l l' L Hi Hj R R' U; try lia; try discriminate; cbn [nth_error] in Hi, Hj; cbn [cell_inserts]; rewrite inserted_app; destruct (inserted_one s c l0) as (n & -> & I).
  - injection Hi as ->. apply I in R. destruct n as [|n]; [lia|].
    destruct (inserted_only s segs (c + 1) j l' Hj R') as (m & ->); [intros x lx Hx Rx; specialize (U (S x) lx Hx Rx); lia|].
    exists n, m. replace (c + Z.of_nat 0)%Z with c by lia. replace (c + Z.of_nat (S j))%Z with (c + 1 + Z.of_nat j)%Z by lia. reflexivity.
  - destruct n as [|n]; [|exfalso; assert (X : 0%nat = S i \/ 0%nat = S j) by (apply (U 0%nat l0 eq_refl), I; lia); lia].
    destruct (IH (c + 1)%Z i j l l' ltac:(lia) Hi Hj R R') as (a & b & ->); [intros x lx Hx Rx; specialize (U (S x) lx Hx Rx); lia|].
    exists a, b. replace (c + Z.of_nat (S i))%Z with (c + 1 + Z.of_nat i)%Z by lia. replace (c + Z.of_nat (S j))%Z with (c + 1 + Z.of_nat j)%Z by lia. reflexivity.
Qed.
Lemma inserts_only segs : forall c, forallb is_insert (cell_inserts c segs) = true.
Proof. induction segs as [|l segs IH]; intros c; [reflexivity|]. cbn [cell_inserts]. rewrite forallb_app, IH, andb_true_r. induction l; auto. Qed.
Lemma last_repeat {A} (a d : A) n : last (repeat a (S n)) d = a.
Proof. induction n as [|n IH]; [reflexivity|]. cbn [repeat last] in *. exact IH. Qed.
Lemma last_app_cons {A} (l : list A) a m d : last (l ++ a :: m) d = last (a :: m) d.
Proof. induction l as [|x l IH]; [reflexivity|]. cbn [app]. rewrite <- IH. destruct l; reflexivity. Qed.
Lemma found_two s segs i j l l' : (i < j)%nat -> nth_error segs i = Some l -> nth_error segs j = Some l' -> registers s l -> registers s l' ->
  (forall x lx, nth_error segs x = Some lx -> registers s lx -> x = i \/ x = j) ->
  spec_sm_run (cell_inserts 0 segs) (canon s) = Some (mkNb (Some (Z.of_nat i)) (Z.of_nat j)).
Proof.
  intros L Hi Hj R R' U. rewrite spec_sm_inserts by apply inserts_only. destruct (inserted_two s segs 0 i j l l' L Hi Hj R R' U) as (n & m & ->).
  cbn [repeat app]. rewrite Z.add_0_l. do 2 f_equal. rewrite last_app_cons. apply (last_repeat (0 + Z.of_nat j) (-1) m).
Qed.
Lemma found_one s segs i l : nth_error segs i = Some l -> registers s l -> (forall x lx, nth_error segs x = Some lx -> registers s lx -> x = i) ->
  exists n, spec_sm_run (cell_inserts 0 segs) (canon s) = Some n /\ nb1 n = Some (Z.of_nat i) /\ (nb2 n = (-1)%Z \/ nb2 n = Z.of_nat i).
Proof.
  intros Hi R U. rewrite spec_sm_inserts by apply inserts_only. destruct (inserted_only s segs 0 i l Hi R U) as (n & ->).
  cbn [repeat]. eexists. split; [reflexivity|]. cbn [nb1 nb2]. rewrite Z.add_0_l. split; [reflexivity|]. destruct n as [|n]; [left; reflexivity|right; apply last_repeat].
Qed.

(** ** The dual of an edge between two triangles *)
Section Dual.
  Context {N : Num}.
  Variable tol : nT N.
  Variable o : trout N.
  Notation tris := (o_tris o).
  Notation mp := (map read_point (o_points o)).
  Hypothesis T : triangulation (zlen (o_points o)) (map fst (o_edges o)) tris.
  Variable cc : list (Point N).
  Variable ci : nat -> Z.
  Hypothesis CI : forall k t, nth_error tris k = Some t -> exists c, center_of o k c /\ stands_at tol cc (ci k) c.
  Hypothesis DS : distinct_sources tol o.

  Lemma same_index i x x' : stands_at tol cc i x -> stands_at tol cc i x' -> ~ told_apart tol x x'.
  Proof.
    intros (y & Y & S1) (y' & Y' & S2) A. inversion_clear Y as [|? ? ? ? [_ Y1] _]. inversion_clear Y' as [|? ? ? ? [_ Y2] _]. rewrite Y1 in Y2. injection Y2 as <-. exact (A y (conj S1 S2)).
  Qed.
  Lemma ci_inj k k' t t' : nth_error tris k = Some t -> nth_error tris k' = Some t' -> ci k = ci k' -> k = k'.
  Proof.
    intros H H' E. destruct (Nat.eq_dec k k') as [X|X]; [exact X|]. exfalso. destruct (CI k t H) as (c & C1 & S1), (CI k' t' H') as (c' & C2 & S2).
    rewrite E in S1. exact (same_index _ _ _ S1 S2 (ds_centers _ _ DS k k' c c' C1 C2 X)).
  Qed.
  Lemma closed_registers v ws ts pts segs k k' t t' w : closed_fan (map fst (o_edges o)) tris v ws ts -> inner_cell ci ts pts segs ->
    nth_error tris k = Some t -> nth_error tris k' = Some t' -> k <> k' -> has_side (v, w) t = true -> has_side (v, w) t' = true -> registers (ci k, ci k') segs.
  Proof.
    intros (w0 & ws' & -> & F & ND & L3 & A1 & _) (l & TU & _ & ->) Hk Hk' NE Hs Hs'.
    assert (IV : forall s, has_side (v, w) s = true -> In v (corners s)).
    { intros [[p q] r] H. apply has_side_iff in H. cbn [corners In]. intuition. }
    destruct (In_nth_error _ _ (A1 k t Hk (IV t Hs))) as (i & Hi). destruct (In_nth_error _ _ (A1 k' t' Hk' (IV t' Hs'))) as (j & Hj).
    cbn [app] in F.
    assert (E : either k k' (edges_of ts)).
    { assert (W : forall x y i j, nth_error ts i = Some x -> nth_error ts j = Some y -> i = 0%nat -> S j = length ts -> x <> y -> In (y, x) (edges_of ts)).
      { intros x y i0 j0 Hx Hy -> Lj Nxy. destruct ts as [|a m]; [discriminate|]. cbn in Hx. injection Hx as ->. destruct (rev_case m) as [->|(m' & z & ->)].
        - cbn in Lj. assert (j0 = 0%nat) by lia. subst. cbn in Hy. congruence.
        - rewrite app_comm_cons in Hy, Lj. rewrite app_length in Lj. cbn [length] in Lj. rewrite nth_error_app2 in Hy by (cbn [length]; lia).
          replace (j0 - length (x :: m'))%nat with 0%nat in Hy by (cbn [length]; lia). cbn in Hy. injection Hy as ->. apply edges_close. }
      destruct (neighbours tris v (tg_corners _ _ _ T) _ ts i j k k' t t' w F (closed_simple w0 ws' ND L3) Hi Hj NE Hk Hk' Hs Hs') as [->|[->|[(E1 & E2 & _)|(E1 & E2 & _)]]].
      - left. apply edges_pairs. exact (pairs_nth _ _ _ _ Hi Hj).
      - right. apply edges_pairs. exact (pairs_nth _ _ _ _ Hj Hi).
      - right. exact (W k k' i j Hi Hj E1 E2 NE).
      - left. exact (W k' k j i Hj Hi E1 E2 (not_eq_sym NE)). }
    apply (edges_turned _ _ _ _ TU) in E.
    assert (D : ci k <> ci k') by (intros X; apply NE; exact (ci_inj k k' t t' Hk Hk' X)).
    destruct E as [E|E]; apply (edges_map_in ci) in E.
    - exists (ci k, ci k'). split; [apply filter_In; split; [exact E|]; cbn [fst snd]; apply negb_true_iff, Z.eqb_neq; exact D|reflexivity].
    - exists (ci k', ci k). split; [apply filter_In; split; [exact E|]; cbn [fst snd]; apply negb_true_iff, Z.eqb_neq; congruence|].
      apply canon_iff. right. reflexivity.
  Qed.
  Lemma open_registers v w0 ws w1 ts pts segs k k' t t' w : open_fan (o_edges o) tris v w0 ws w1 ts -> border_cell tol o cc ci v w0 w1 ts pts segs ->
    nth_error tris k = Some t -> nth_error tris k' = Some t' -> k <> k' -> has_side (v, w) t = true -> has_side (v, w) t' = true -> registers (ci k, ci k') segs.
  Proof.
    intros (F & ND & (A1 & _) & _) (u & u' & l & a & b & q & f & z & qf & qz & cell & UL & _ & _ & _ & _ & _ & _ & _ & SEG) Hk Hk' NE Hs Hs'.
    assert (IV : forall s, has_side (v, w) s = true -> In v (corners s)).
    { intros [[p q'] r] H. apply has_side_iff in H. cbn [corners In]. intuition. }
    destruct (In_nth_error _ _ (A1 k t Hk (IV t Hs))) as (i & Hi). destruct (In_nth_error _ _ (A1 k' t' Hk' (IV t' Hs'))) as (j & Hj).
    assert (E : either k k' (pairs ts)).
    { pose proof (fan_len _ _ _ _ F) as LW.
      assert (B : j = S i \/ i = S j).
      { assert (LI : (i < length ts)%nat) by (apply nth_error_Some; congruence). assert (LJ : (j < length ts)%nat) by (apply nth_error_Some; congruence).
        pose proof (proj1 (NoDup_nth_error _) ND) as U.
        destruct (side_at tris v (tg_corners _ _ _ T) _ _ _ _ _ _ F Hi Hk Hs) as [P|P], (side_at tris v (tg_corners _ _ _ T) _ _ _ _ _ _ F Hj Hk' Hs') as [Q|Q].
        - exfalso. apply NE. assert (i = j) by (apply U; [lia|congruence]). congruence.
        - right. apply U; [lia|congruence].
        - left. symmetry. apply U; [lia|congruence].
        - exfalso. apply NE. assert (S i = S j) by (apply U; [lia|congruence]). congruence. }
      destruct B as [->| ->]; [left; exact (pairs_nth _ _ _ _ Hi Hj)|right; exact (pairs_nth _ _ _ _ Hj Hi)]. }
    assert (E' : either k k' (pairs l)).
    { destruct UL as [(_ & _ & ->)|(_ & _ & ->)]; [exact E|]. destruct E as [E|E]; [right|left]; apply pairs_rev_in; exact E. }
    assert (D : ci k <> ci k') by (intros X; apply NE; exact (ci_inj k k' t t' Hk Hk' X)).
    assert (G : registers (ci k, ci k') (different (pairs (a :: map ci l ++ [b])))).
    { destruct E' as [E'|E']; apply (pairs_map_in ci) in E'; apply (pairs_app_l _ [b]) in E'; apply (pairs_app_r [a]) in E'; cbn [app] in E'.
      - exists (ci k, ci k'). split; [apply filter_In; split; [exact E'|]; cbn [fst snd]; apply negb_true_iff, Z.eqb_neq; exact D|reflexivity].
      - exists (ci k', ci k). split; [apply filter_In; split; [exact E'|]; cbn [fst snd]; apply negb_true_iff, Z.eqb_neq; congruence|].
        apply canon_iff. right. reflexivity. }
    destruct G as (e & He & Ce). exists e. split; [|exact Ce].
    destruct SEG as [(_ & _ & ->)|(_ & r & _ & _ & ->)]; apply in_or_app; left; exact He.
  Qed.
  Lemma closed_members v ws ts pts segs e k t i : closed_fan (map fst (o_edges o)) tris v ws ts -> inner_cell ci ts pts segs -> In e segs -> i = fst e \/ i = snd e ->
    nth_error tris k = Some t -> i = ci k -> In v (corners t).
  Proof.
    intros (w0 & ws' & -> & F & _) (l & TU & _ & ->) He Hi Hk ->. apply filter_In in He as [He _].
    assert (M : In (ci k) (map ci l)) by (destruct e as [x y]; apply edges_members in He as [M1 M2]; cbn [fst snd] in Hi; destruct Hi as [-> | ->]; assumption).
    apply in_map_iff in M as (k' & E & Hl). assert (Hts : In k' ts) by (destruct TU as (x & y & -> & [-> | ->]); rewrite <- ?in_rev, !in_app_iff in *; tauto).
    destruct (In_nth_error _ _ Hts) as (j & Hj). destruct (fan_nth _ _ _ _ F _ _ Hj) as (_ & _ & t' & _ & _ & Ht' & _).
    pose proof (ci_inj _ _ _ _ Ht' Hk E) as ->. exact (sector_corner tris v _ ts k t F Hts Hk).
  Qed.
  Lemma open_members v w0 ws w1 ts pts segs e k t i : open_fan (o_edges o) tris v w0 ws w1 ts -> border_cell tol o cc ci v w0 w1 ts pts segs -> In e segs -> i = fst e \/ i = snd e ->
    nth_error tris k = Some t -> i = ci k -> In v (corners t).
  Proof.
    intros (F & ND & (A1 & A2) & MK) (u & u' & l & a & b & q & f & z & qf & qz & cell & UL & MA & MB & VQ & HF & HZ & _ & _ & SEG) He Hi Hk ->.
    destruct (CI k t Hk) as (c & Cc & Sc).
    assert (MI : forall x m, (x = w0 \/ x = w1) -> middle_at tol o cc v x m -> m = ci k -> In v (corners t)).
    { intros x m Hx (ed & mm & E1 & E2 & E3 & E4) ->. assert (M1 : snd ed = 1).
      { apply (MK ed E1); [|destruct Hx as [->| ->]; auto]. rewrite <- (touches_cong _ _ _ E2). apply touches_iff. cbn. auto. }
      destruct (has_side (fst ed) t) eqn:HS.
      - assert (HS' : has_side (v, x) t = true).
        { unfold has_side in *. apply existsb_exists in HS as (s & P1 & P2). apply existsb_exists. exists s. split; [exact P1|]. eapply same_side_trans; eassumption. }
        clear - HS'. destruct t as [[p q] r]. apply has_side_iff in HS'. cbn [corners In]. intuition.
      - exfalso. exact (same_index _ _ _ E4 Sc (ds_middles _ _ DS k t c ed mm Hk Cc E1 M1 HS E3)). }
    assert (CH : forall y, In y (a :: map ci l ++ [b]) -> y = ci k -> In v (corners t)).
    { intros y Hy E. cbn [In] in Hy. rewrite in_app_iff in Hy. cbn [In] in Hy.
      destruct Hy as [<-|[Hy|[<-|[]]]].
      - apply (MI u a); [destruct UL as [(-> & _ & _)|(-> & _ & _)]; auto|exact MA|exact E].
      - apply in_map_iff in Hy as (k' & E' & Hl). assert (Hts : In k' ts) by (destruct UL as [(_ & _ & ->)|(_ & _ & ->)]; rewrite <- ?in_rev in Hl; exact Hl).
        destruct (In_nth_error _ _ Hts) as (j & Hj). destruct (fan_nth _ _ _ _ F _ _ Hj) as (_ & _ & t' & _ & _ & Ht' & _).
        rewrite E in E'. pose proof (ci_inj _ _ _ _ Ht' Hk E') as ->. exact (sector_corner tris v _ ts k t F Hts Hk).
      - apply (MI u' b); [destruct UL as [(_ & -> & _)|(_ & -> & _)]; auto|exact MB|exact E]. }
    assert (HD : forall y, hd_error (dedup (a :: map ci l ++ [b])) = Some y \/ hd_error (rev (dedup (a :: map ci l ++ [b]))) = Some y -> In y (a :: map ci l ++ [b])).
    { intros y Hy. apply (proj1 (dedup_in (a :: map ci l ++ [b]) y)). destruct Hy as [Hy|Hy]; [|apply in_rev]; revert Hy;
        [generalize (dedup (a :: map ci l ++ [b]))|generalize (rev (dedup (a :: map ci l ++ [b])))]; intros [|x m]; cbn; intros E; try discriminate; injection E as ->; left; reflexivity. }
    assert (PR : In e (different (pairs (a :: map ci l ++ [b]))) -> In v (corners t)).
    { intros Hp. apply filter_In in Hp as [Hp _]. destruct e as [x y]. apply pairs_members in Hp as [P1 P2]. cbn [fst snd] in Hi. destruct Hi as [Hi|Hi]; [apply (CH x P1); auto|apply (CH y P2); auto]. }
    assert (FM : ci k = f -> In v (corners t)) by (intros E; apply (CH f); auto).
    assert (ZM : ci k = z -> In v (corners t)) by (intros E; apply (CH z); auto).
    destruct SEG as [(_ & _ & ->)|(_ & r & SR & _ & ->)]; apply in_app_or in He as [He|He]; [exact (PR He)| |exact (PR He)|].
    - destruct He as [<-|[]]. cbn [fst snd] in Hi. tauto.
    - assert (RM : ci k = r -> In v (corners t)).
      { intros <-. exfalso. destruct MA as (ed & mm & E1 & E2 & _). assert (TV : touches v (fst ed) = true) by (rewrite <- (touches_cong _ _ _ E2); apply touches_iff; cbn; auto).
        assert (M1 : snd ed = 1) by (apply (MK ed E1 TV); destruct UL as [(-> & _ & _)|(-> & _ & _)]; auto).
        exact (same_index _ _ _ SR Sc (ds_sites _ _ DS k c ed v q Cc E1 M1 TV VQ)). }
      destruct He as [<-|[<-|[]]]; cbn [fst snd] in Hi; tauto.
  Qed.
End Dual.

Lemma nth_pos (l : list Z) v : In v l -> exists i, nth_error l i = Some v.
Proof. apply In_nth_error. Qed.
Lemma Forall2_nth {A B} (P : A -> B -> Prop) l l' : Forall2 P l l' -> forall i a, nth_error l i = Some a -> exists b, nth_error l' i = Some b /\ P a b.
Proof. induction 1 as [|x y l l' H _ IH]; intros [|i] a E; try discriminate; cbn in *; [injection E as <-; eauto|eauto]. Qed.
Lemma Forall2_nth' {A B} (P : A -> B -> Prop) l l' : Forall2 P l l' -> forall i b, nth_error l' i = Some b -> exists a, nth_error l i = Some a /\ P a b.
Proof. induction 1 as [|x y l l' H _ IH]; intros [|i] b E; try discriminate; cbn in *; [injection E as <-; eauto|eauto]. Qed.
Lemma dedup_NoDup l : NoDup (dedup l).
Proof.
  unfold dedup. assert (G : forall acc, NoDup acc -> NoDup (fold_left (set_add Z.eqb) l acc)); [|apply G; constructor].
  induction l as [|x l IH]; intros acc H; [exact H|]. cbn [fold_left]. apply IH. unfold set_add. destruct (set_mem Z.eqb x acc) eqn:E; [exact H|].
  apply (NoDup_Add (a := x) (l := acc)); [rewrite <- (app_nil_r acc) at 1; apply Add_app|]. split; [exact H|].
  intros K. unfold set_mem in E. rewrite <- not_true_iff_false in E. apply E, existsb_exists. exists x. split; [exact K|apply Z.eqb_refl].
Qed.
Lemma voronoi_duality {N : Num} (tol : nT N) fuel (o : trout N) d :
  triangulation (zlen (o_points o)) (map fst (o_edges o)) (o_tris o) -> read_output tol o = Ok d ->
  (forall v, In v (flat_map corners (o_tris o)) -> (exists ws ts, closed_fan (map fst (o_edges o)) (o_tris o) v ws ts) \/
     (exists w ws w' ts, open_fan (o_edges o) (o_tris o) v w ws w' ts)) ->
  (length (o_tris o) < fuel)%nat -> distinct_sources tol o ->
  exists m ci, voronoi tol fuel d = Ok m /\
    (forall k t, nth_error (o_tris o) k = Some t -> exists c, center_of o k c /\ stands_at tol (ul_list (ms_points m)) (ci k) c) /\
    forall k k' t t' v w, nth_error (o_tris o) k = Some t -> nth_error (o_tris o) k' = Some t' -> k <> k' ->
      has_side (v, w) t = true -> has_side (v, w) t' = true -> (forall x, In x (corners t) -> In x (corners t') -> x = v \/ x = w) ->
      exists iv iw, nth_error (dedup (flat_map corners (o_tris o))) iv = Some v /\ nth_error (dedup (flat_map corners (o_tris o))) iw = Some w /\
        forall nb, um_find (iseg_match nb) (ci k, ci k') (ms_edges m) = Some (mkNb (Some (Z.of_nat (Nat.min iv iw))) (Z.of_nat (Nat.max iv iw))).
Proof.
  intros T RO HF Lf DS. destruct (voronoi_total tol fuel o d T RO HF Lf) as (m & ci & gs & V & C & E & ED & F). exists m, ci. split; [exact V|].
  assert (CI : forall k t, nth_error (o_tris o) k = Some t -> exists c, center_of o k c /\ stands_at tol (ul_list (ms_points m)) (ci k) c).
  { intros k t Hk. destruct (C k t Hk) as (A & B & C0 & c & H1 & H2 & H3). exists c. split; [exists t, A, B, C0; auto|exact H3]. }
  split; [exact CI|]. intros k k' t t' v w Hk Hk' NE Hs Hs' CO.
  assert (CV : forall x y s, has_side (x, y) s = true -> In x (corners s) /\ In y (corners s)).
  { intros x y [[p q] r] H. apply has_side_iff in H. cbn [corners In]. intuition. }
  assert (IN : forall x, In x (corners t) -> In x (dedup (flat_map corners (o_tris o)))).
  { intros x Hx. apply dedup_in, in_flat_map. exists t. split; [eapply nth_error_In; exact Hk|exact Hx]. }
  destruct (nth_pos _ _ (IN v (proj1 (CV _ _ _ Hs)))) as (iv & Hiv). destruct (nth_pos _ _ (IN w (proj2 (CV _ _ _ Hs)))) as (iw & Hiw).
  exists iv, iw. split; [exact Hiv|]. split; [exact Hiw|]. intros nb. rewrite ED.
  assert (VW : v <> w).
  { intros <-. assert (ND := tg_corners _ _ _ T t (nth_error_In _ _ Hk)). destruct t as [[p q] r]. apply has_side_iff in Hs. cbn [corners] in ND.
    inversion_clear ND as [|? ? N1 N2]. inversion_clear N2 as [|? ? N3 _]. cbn [In] in *. intuition congruence. }
  assert (Dne : iv <> iw) by congruence.
  assert (REG : forall x i g, nth_error (dedup (flat_map corners (o_tris o))) i = Some x -> nth_error gs i = Some g -> (exists y, has_side (x, y) t = true /\ has_side (x, y) t' = true) -> registers (ci k, ci k') (snd g)).
  { intros x i g Hx Hg (y & H1 & H2). destruct (Forall2_nth _ _ _ F i x Hx) as (g' & Hg' & P1 & P2). rewrite Hg in Hg'. injection Hg' as <-.
    destruct (HF x) as [(ws & ts & CF)|(w0 & ws & w1 & ts & OF)].
    - apply (proj1 (dedup_in _ _)). eapply nth_error_In; exact Hx.
    - exact (closed_registers tol o T _ ci CI DS x ws ts _ _ k k' t t' y CF (P1 _ _ CF) Hk Hk' NE H1 H2).
    - exact (open_registers tol o T _ ci CI DS x w0 ws w1 ts _ _ k k' t t' y OF (P2 _ _ _ _ OF) Hk Hk' NE H1 H2). }
  assert (ONLY : forall i l, nth_error (map snd gs) i = Some l -> registers (ci k, ci k') l -> i = iv \/ i = iw).
  { intros i l Hl (e & He & Ce). rewrite nth_error_map in Hl. destruct (nth_error gs i) as [g|] eqn:Hg; [|discriminate]. cbn in Hl. injection Hl as <-.
    destruct (Forall2_nth' _ _ _ F i g Hg) as (x & Hx & P1 & P2).
    assert (EE : exists i1 i2, (i1 = fst e \/ i1 = snd e) /\ (i2 = fst e \/ i2 = snd e) /\ i1 = ci k /\ i2 = ci k').
    { apply canon_iff in Ce as [->| ->]; cbn [fst snd]; exists (ci k), (ci k'); auto. }
    destruct EE as (i1 & i2 & I1 & I2 & E1 & E2).
    assert (X : In x (corners t) /\ In x (corners t')).
    { destruct (HF x) as [(ws & ts & CF)|(w0 & ws & w1 & ts & OF)].
      - apply (proj1 (dedup_in _ _)). eapply nth_error_In; exact Hx.
      - split; [exact (closed_members tol o _ ci CI DS x ws ts _ _ e k t i1 CF (P1 _ _ CF) He I1 Hk E1)|exact (closed_members tol o _ ci CI DS x ws ts _ _ e k' t' i2 CF (P1 _ _ CF) He I2 Hk' E2)].
      - split; [exact (open_members tol o _ ci CI DS x w0 ws w1 ts _ _ e k t i1 OF (P2 _ _ _ _ OF) He I1 Hk E1)|exact (open_members tol o _ ci CI DS x w0 ws w1 ts _ _ e k' t' i2 OF (P2 _ _ _ _ OF) He I2 Hk' E2)]. }
    pose proof (proj1 (NoDup_nth_error _) (dedup_NoDup (flat_map corners (o_tris o)))) as U.
    destruct (CO x (proj1 X) (proj2 X)) as [->| ->]; [left|right]; apply U; try (apply nth_error_Some; congruence); congruence. }
  assert (SW : forall s, has_side (w, v) s = has_side (v, w) s).
  { intros s. apply eq_true_iff_eq. destruct s as [[p q] r]. rewrite !has_side_iff. tauto. }
  destruct (Forall2_nth _ _ _ F iv v Hiv) as (gv & Hgv & _), (Forall2_nth _ _ _ F iw w Hiw) as (gw & Hgw & _).
  assert (Rv : registers (ci k, ci k') (snd gv)) by (apply (REG v iv); eauto). assert (Rw : registers (ci k, ci k') (snd gw)) by (apply (REG w iw); [auto|auto|exists v; rewrite !SW; auto]).
  destruct (Nat.lt_ge_cases iv iw) as [L|L].
  - rewrite Nat.min_l, Nat.max_r by lia. apply (found_two _ (map snd gs) iv iw (snd gv) (snd gw)); try assumption; rewrite nth_error_map; [rewrite Hgv|rewrite Hgw]; reflexivity.
  - rewrite Nat.min_r, Nat.max_l by lia. apply (found_two _ (map snd gs) iw iv (snd gw) (snd gv)); try assumption; try lia; try (rewrite nth_error_map; (rewrite Hgv || rewrite Hgw); reflexivity).
    intros x lx Hx Rx. destruct (ONLY x lx Hx Rx); auto.
Qed.
