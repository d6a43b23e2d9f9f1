(** The chain of a Voronoi cell at a convex corner of the border. *)
From Coq Require Import Reals Lra Lia ZArith List Bool Permutation.
From Verif Require Import Base Spec MUtil Bridge PUtil PContains PVoronoi PFan PVorGeo PVorCell PConvex PVorConvex PWedge.
Import ListNotations.

(** * Lists *)
Lemma dedup_cons d0 l : dedup (d0 :: l) = fold_left (set_add Z.eqb) l [d0].
Proof. reflexivity. Qed.
Lemma dedup_snoc l x : ~ In x l -> dedup (l ++ [x]) = dedup l ++ [x].
Proof.
  intros N. unfold dedup. rewrite fold_left_app. cbn [fold_left]. unfold set_add at 1. destruct (set_mem Z.eqb x _) eqn:M; [|reflexivity]. exfalso. apply N.
  apply existsb_exists in M as (y & Hy & E). apply Z.eqb_eq in E as ->. apply (proj1 (dedup_in l y)). exact Hy.
Qed.
Lemma dedup_head x l : hd_error (dedup (x :: l)) = Some x.
Proof.
  rewrite dedup_cons. assert (G : forall D, hd_error D = Some x -> hd_error (fold_left (set_add Z.eqb) l D) = Some x); [|apply G; reflexivity].
  induction l as [|y l IH]; intros D H; [exact H|]. cbn [fold_left]. apply IH. unfold set_add. destruct (set_mem Z.eqb y D); [exact H|]. destruct D; [discriminate|exact H].
Qed.
Section Last.
  Local Open Scope Z_scope.
  Variable S : Z -> Z -> Prop.
  Hypothesis fn : forall a b b', S a b -> S a b' -> b = b'.
  Hypothesis inj : forall a a' b, S a b -> S a' b -> a = a'.
  Lemma dedup_last d0 l : (forall e, In e (pairs (d0 :: l)) -> fst e = snd e \/ S (fst e) (snd e)) -> (forall y, In y (d0 :: l) -> S y d0 -> y = last l d0) ->
    hd_error (rev (dedup (d0 :: l))) = Some (last l d0).
  Proof.
    intros H HL.
    assert (R : reading S d0 (dedup (d0 :: l)) (last l d0)).
    { rewrite dedup_cons. apply (reading_all S fn inj d0 l [d0] d0); [|exact H|reflexivity].
      split; [constructor; [intros []|constructor]|]. split; [reflexivity|]. split; [intros e []|]. split; [left; reflexivity|]. left. exists []. reflexivity. }
    destruct R as (_ & _ & _ & _ & [(l' & E)|(l' & y & E & Sy)]); rewrite E, rev_app_distr; cbn [rev app hd_error]; [reflexivity|]. f_equal. apply HL; [|exact Sy].
    apply (proj1 (dedup_in _ _)). rewrite E. apply in_or_app. right. left. reflexivity.
  Qed.
End Last.
Lemma last_snoc (l : list Z) x d : last (l ++ [x]) d = x.
Proof. apply last_last. Qed.
(** the steps of a chain between two ends *)
Lemma chain_pairs {A} (h : A -> Z) x ts y i j : ts <> [] -> In (i, j) (pairs (x :: map h ts ++ [y])) ->
  (exists k r, ts = k :: r /\ i = x /\ j = h k) \/ (exists k k', In (k, k') (pairs ts) /\ i = h k /\ j = h k') \/ (exists r k, ts = r ++ [k] /\ i = h k /\ j = y).
Proof.
  intros NE H. destruct ts as [|k0 r]; [congruence|]. cbn [map app] in H. rewrite pairs_cons in H. destruct H as [H|H].
  - injection H as <- <-. left. exists k0, r. auto.
  - right. destruct (exists_last NE) as (r' & k & E).
    assert (E' : h k0 :: map h r ++ [y] = (map h r' ++ [h k]) ++ [y]).
    { change (map h (k0 :: r) ++ [y] = (map h r' ++ [h k]) ++ [y]). rewrite E, map_app. reflexivity. }
    rewrite E', pairs_snoc in H. apply in_app_or in H as [H|[H|[]]].
    + left. change (map h r' ++ [h k]) with (map h r' ++ map h [k]) in H. rewrite <- map_app, <- E, pairs_map in H. apply in_map_iff in H as ([c d] & E2 & H). injection E2 as <- <-. exists c, d. auto.
    + right. injection H as <- <-. exists r', k. auto.
Qed.
Lemma chain_first {A B} (P : A * A -> B -> Prop) a us b k r : Forall2 P (pairs (a :: us ++ [b])) (k :: r) -> exists n, P (a, n) k.
Proof. destruct us as [|n us]; cbn [app]; rewrite pairs_cons; intros H; inversion H; subst; eauto. Qed.
Lemma chain_last {A B} (P : A * A -> B -> Prop) a us b r k : Forall2 P (pairs (a :: us ++ [b])) (r ++ [k]) -> exists n, P (n, b) k.
Proof.
  intros H. destruct us as [|n us] using rev_ind.
  - cbn [app] in H. rewrite pairs_cons in H. destruct r as [|k0 r]; [inversion H; subst; eauto|]. exfalso. cbn [app] in H. inversion H as [|? ? ? ? _ H']; subst. inversion H' as [E1 E2|]. destruct r; discriminate.
  - clear IHus. rewrite app_comm_cons, app_comm_cons, pairs_snoc in H. apply Forall2_app_inv_l in H as (l1 & l2 & H1 & H2 & E). inversion H2 as [|? k' ? ? K1 K2]; subst. inversion K2; subst.
    apply app_inj_tail in E as [_ <-]. exists n. exact K1.
Qed.

Lemma rev_pairs_in (l : list Z) i j : In (i, j) (pairs (rev l)) -> In (j, i) (pairs l).
Proof. rewrite pairs_rev. intros H. apply in_rev in H. apply in_map_iff in H as ([a b] & E & H). injection E as <- <-. exact H. Qed.
Lemma edges_pairs (l : list Z) x i j : In (i, j) (edges_of (l ++ [x])) -> l <> [] -> In (i, j) (pairs (l ++ [x])) \/ i = x /\ Some j = hd_error l.
Proof.
  intros H N. destruct l as [|y l]; [congruence|]. cbn [app] in H. unfold edges_of in H. rewrite !app_comm_cons, pairs_snoc in H.
  apply in_app_or in H as [H|[H|[]]]; [left; exact H|]. injection H as <- <-. right. auto.
Qed.

(** * The chain of the cell *)
Section Core.
  Local Open Scope R_scope.
  Variable sites : list pt.
  Variables p a b : pt.
  Variable us : list pt.
  Variable g : Z -> pt.
  Variable ci : nat -> Z.
  Variable ts : list nat.
  Variables i1 i2 : Z.
  Notation region := (voronoi_region sites p).
  Notation C := (i1 :: map ci ts ++ [i2]).
  Notation o := (-1)%Z.
  Definition spoke (e : pt * pt) (k : nat) : Prop :=
    0 < orient p (fst e) (snd e) /\ In (fst e) sites /\ In (snd e) sites /\ dist (g (ci k)) p = dist (g (ci k)) (fst e) /\ dist (g (ci k)) p = dist (g (ci k)) (snd e) /\ region (g (ci k)).
  Hypothesis F : Forall2 spoke (pairs (a :: us ++ [b])) ts.
  Hypothesis G1 : g i1 = midpoint p a.
  Hypothesis G2 : g i2 = midpoint p b.
  Hypothesis G0 : g o = p.
  Hypothesis No : ~ In o C.
  Hypothesis inj : forall i j, In i (C ++ [o]) -> In j (C ++ [o]) -> g i = g j -> i = j.
  Hypothesis CV : convex_corner p a b.
  Hypothesis GA : gabriel_edge sites p a.
  Hypothesis GB : gabriel_edge sites p b.
  Hypothesis WS : forall s, In s sites -> wedge p a b s.

  Lemma ts_ne : ts <> [].
  Proof. intros E. rewrite E in F. destruct us; cbn [app] in F; rewrite pairs_cons in F; inversion F. Qed.
  Lemma first_spoke : exists n k r, ts = k :: r /\ spoke (a, n) k.
  Proof. pose proof ts_ne as N. destruct ts as [|k r] eqn:E; [congruence|]. destruct (chain_first _ _ _ _ _ _ F) as (n & H). exists n, k, r. auto. Qed.
  Lemma last_spoke : exists n k r, ts = r ++ [k] /\ spoke (n, b) k.
  Proof. destruct (exists_last ts_ne) as (r & k & E). pose proof F as F'. rewrite E in F'. destruct (chain_last _ _ _ _ _ _ F') as (n & H). exists n, k, r. auto. Qed.
  Lemma Sa : In a sites.
  Proof. destruct first_spoke as (n & k & r & _ & H). apply H. Qed.
  Lemma Sb : In b sites.
  Proof. destruct last_spoke as (n & k & r & _ & H). apply H. Qed.
  Lemma Na : a <> p.
  Proof. destruct first_spoke as (n & k & r & _ & O & _). intros ->. unfold orient, vcross, vsub in O. cbn [fst snd] in O. lra. Qed.
  Lemma Nb : b <> p.
  Proof. destruct last_spoke as (n & k & r & _ & O & _). intros ->. unfold orient, vcross, vsub in O. cbn [fst snd] in O. lra. Qed.
  Lemma spoke_of k : In k ts -> exists e, spoke e k.
  Proof. intros Hk. destruct (Forall2_in_right _ _ _ F k Hk) as (e & _ & H). exists e. exact H. Qed.
  Lemma spoke_wedge e k : spoke e k -> wedge p a b (g (ci k)).
  Proof.
    intros (O & I1 & I2 & D1 & D2 & R). apply (center_wedge sites p a b Sa Sb Na Nb CV GA GB (fst e) (snd e)); auto.
  Qed.
  Lemma spoke_not_p e k : spoke e k -> g (ci k) <> p.
  Proof.
    intros (O & _ & _ & D1 & _) E. rewrite E in D1. apply dist_eq in D1. unfold orient, vcross, vdot, vsub in *. cbn [fst snd] in *.
    set (A1 := fst (fst e) - fst p) in *. set (A2 := snd (fst e) - snd p) in *. rewrite !Rminus_diag_eq in D1 by reflexivity.
    destruct (Rplus_sqr_eq_0 A1 A2) as [Z1 Z2]; [unfold Rsqr; lra|]. rewrite Z1, Z2 in O. lra.
  Qed.
  Lemma C_in i : In i C -> i = i1 \/ i = i2 \/ exists k, In k ts /\ i = ci k.
  Proof. intros [<-|H]; [auto|]. apply in_app_or in H as [H|[<-|[]]]; [|auto]. apply in_map_iff in H as (k & <- & Hk). right. right. exists k. auto. Qed.
  Lemma C_region i : In i C -> region (g i).
  Proof. intros H. destruct (C_in i H) as [->|[->|(k & Hk & ->)]]; [rewrite G1; apply mid_region, GA|rewrite G2; apply mid_region, GB|]. destruct (spoke_of k Hk) as (e & Q). apply Q. Qed.
  Lemma C_wedge i : In i C -> wedge p a b (g i).
  Proof.
    intros H. destruct (C_in i H) as [->|[->|(k & Hk & ->)]]; [rewrite G1; apply wedge_mid, WS, Sa|rewrite G2; apply wedge_mid, WS, Sb|].
    destruct (spoke_of k Hk) as (e & Q). exact (spoke_wedge e k Q).
  Qed.
  Lemma Co_region i : In i (C ++ [o]) -> region (g i).
  Proof. intros H. apply in_app_or in H as [H|[<-|[]]]; [apply C_region, H|]. rewrite G0. apply p_region. Qed.
  Lemma Co_wedge i : In i (C ++ [o]) -> wedge p a b (g i).
  Proof. intros H. apply in_app_or in H as [H|[<-|[]]]; [apply C_wedge, H|]. rewrite G0. apply wedge_p. Qed.
  Lemma C_exposed i : In i C -> exists u, forall j, In j (C ++ [o]) -> j <> i -> vdot u (g j) < vdot u (g i).
  Proof.
    intros H. assert (N : forall j, In j (C ++ [o]) -> j <> i -> g j <> g i) by (intros j Hj D E; apply D, inj; auto; apply in_or_app; left; exact H).
    destruct (C_in i H) as [->|[->|(k & Hk & ->)]].
    - exists (vadd (vsub a p) (right_of (vsub a p))). intros j Hj D. rewrite G1. apply (mid_a_exposed sites p a b); try exact Sa; try exact Na; try exact Nb; try exact CV; [apply Co_region, Hj|apply Co_wedge, Hj|rewrite <- G1; apply N; assumption].
    - exists (vadd (vsub b p) (left_of (vsub b p))). intros j Hj D. rewrite G2. apply (mid_b_exposed sites p a b); try exact Sb; try exact Na; try exact Nb; try exact CV; [apply Co_region, Hj|apply Co_wedge, Hj|rewrite <- G2; apply N; assumption].
    - destruct (spoke_of k Hk) as (e & O & I1 & I2 & D1 & D2 & R). exists (vadd (vsub (fst e) p) (vsub (snd e) p)). intros j Hj D. apply (center_exposed sites p); auto using Co_region.
  Qed.
  Lemma o_exposed : 0 < orient p a b -> exists u, forall j, In j (C ++ [o]) -> j <> o -> vdot u (g j) < vdot u (g o).
  Proof.
    intros O. exists (vadd (right_of (vsub a p)) (left_of (vsub b p))). intros j Hj D. rewrite G0. apply p_exposed; [exact O|apply Co_wedge, Hj|].
    rewrite <- G0. intros E. apply D, inj; auto. apply in_or_app. right. left. reflexivity.
  Qed.
  Lemma C_steps i j : In (i, j) (pairs C) -> forall k, In k (C ++ [o]) -> 0 <= orient (g i) (g j) (g k).
  Proof.
    intros H x Hx. pose proof (Co_region x Hx) as RX. destruct (chain_pairs ci i1 ts i2 i j ts_ne H) as [(k & r & E & -> & ->)|[(k & k' & Hk & -> & ->)|(r & k & E & -> & ->)]].
    - pose proof F as F'. rewrite E in F'. destruct (chain_first _ _ _ _ _ _ F') as (n & O & I1 & I2 & D1 & D2 & R). cbn [fst snd] in *. rewrite G1.
      apply (step_first sites p a Sa GA n); auto.
    - destruct (consecutive _ _ _ F k k' Hk) as (n & n' & n'' & (O & I1 & I2 & D1 & D2 & _) & (_ & _ & _ & D3 & _ & R')). cbn [fst snd] in *.
      apply (step_left sites p n n'); auto.
    - pose proof F as F'. rewrite E in F'. destruct (chain_last _ _ _ _ _ _ F') as (n & O & I1 & I2 & D1 & D2 & R). cbn [fst snd] in *. rewrite G2.
      apply (step_last sites p b Sb GB n); auto.
  Qed.
  Lemma i1_C : In i1 C.
  Proof. left. reflexivity. Qed.
  Lemma i2_C : In i2 C.
  Proof. right. apply in_or_app. right. left. reflexivity. Qed.
  Lemma in_Co i : In i C -> In i (C ++ [o]).
  Proof. intros H. apply in_or_app. left. exact H. Qed.
  Lemma i1_i2 : i1 <> i2.
  Proof.
    intros E. assert (M : midpoint p a = midpoint p b) by (rewrite <- G1, <- G2, E; reflexivity). unfold midpoint in M. injection M as M1 M2.
    destruct CV as [O|[_ O]]; unfold orient, vcross, vdot, vsub in O; cbn [fst snd] in O.
    - assert (E1 : fst a = fst b) by lra. assert (E2 : snd a = snd b) by lra. rewrite E1, E2 in O. lra.
    - assert (E1 : fst a = fst b) by lra. assert (E2 : snd a = snd b) by lra. rewrite E1, E2 in O. pose proof (Rle_0_sqr (fst b - fst p)). pose proof (Rle_0_sqr (snd b - snd p)). unfold Rsqr in *. lra.
  Qed.

  (** ** A proper corner *)
  Section Proper.
    Hypothesis O : 0 < orient p a b.
    Notation sup := (supports (C ++ [o]) g).
    Lemma Co_exposed i : In i (C ++ [o]) -> exists u, forall j, In j (C ++ [o]) -> j <> i -> vdot u (g j) < vdot u (g i).
    Proof. intros H. apply in_app_or in H as [H|[<-|[]]]; [apply C_exposed, H|apply o_exposed, O]. Qed.
    Lemma sup_fn i j j' : sup i j -> sup i j' -> j = j'.
    Proof. apply (supports_fn _ _ inj Co_exposed). Qed.
    Lemma sup_inj i i' j : sup i j -> sup i' j -> i = i'.
    Proof. apply (supports_inj _ _ inj Co_exposed). Qed.
    Lemma sup_steps i j : In (i, j) (pairs C) -> i = j \/ sup i j.
    Proof.
      intros H. destruct (Z.eq_dec i j) as [E|E]; [left; exact E|right]. destruct (pairs_in _ _ H) as [I1 I2]. cbn [fst snd] in *.
      split; [apply in_Co, I1|]. split; [apply in_Co, I2|]. split; [exact E|apply C_steps, H].
    Qed.
    Lemma o_Co : In o (C ++ [o]).
    Proof. apply in_or_app. right. left. reflexivity. Qed.
    Lemma sup_out : sup o i1.
    Proof.
      split; [apply o_Co|]. split; [apply in_Co, i1_C|]. split; [intros E; apply No; rewrite E; apply i1_C|].
      intros k Hk. rewrite G0, G1. apply (step_out p a b). apply Co_wedge, Hk.
    Qed.
    Lemma sup_back : sup i2 o.
    Proof.
      split; [apply in_Co, i2_C|]. split; [apply o_Co|]. split; [intros E; apply No; rewrite <- E; apply i2_C|].
      intros k Hk. rewrite G0, G2. apply (step_back p a b). apply Co_wedge, Hk.
    Qed.
    Lemma proper_last : hd_error (rev (dedup C)) = Some i2.
    Proof.
      replace (Some i2) with (Some (last (map ci ts ++ [i2]) i1)) by (rewrite last_snoc; reflexivity). apply (dedup_last sup sup_fn sup_inj); [intros [i j] H; apply sup_steps, H|].
      intros y Hy S. exfalso. apply No. rewrite (sup_inj o y i1 sup_out S). exact Hy.
    Qed.
    Lemma rev_C : rev C = i2 :: map ci (rev ts) ++ [i1].
    Proof. cbn [rev]. rewrite rev_app_distr. cbn [rev app]. rewrite map_rev. reflexivity. Qed.
    Lemma proper_last_rev : hd_error (rev (dedup (rev C))) = Some i1.
    Proof.
      rewrite rev_C. replace (Some i1) with (Some (last (map ci (rev ts) ++ [i1]) i2)) by (rewrite last_snoc; reflexivity). apply (dedup_last (fun x y => sup y x) (fun x y y' => sup_inj y y' x) (fun x x' y => sup_fn y x x')).
      - rewrite <- rev_C. intros [i j] H. apply rev_pairs_in in H. cbn [fst snd]. destruct (sup_steps j i H); [left; congruence|right; assumption].
      - rewrite <- rev_C. intros y Hy S. exfalso. apply No. rewrite (sup_fn i2 o y sup_back S). apply in_rev in Hy. exact Hy.
    Qed.
    Lemma three_distinct_in (l : list Z) x y z : In x l -> In y l -> In z l -> x <> y -> x <> z -> y <> z -> (3 <= length (dedup l))%nat.
    Proof.
      intros Hx Hy Hz N1 N2 N3. apply (NoDup_incl_length (l := [x; y; z])); [repeat constructor; cbn [In]; intuition congruence|].
      intros v [<-|[<-|[<-|[]]]]; apply dedup_in; assumption.
    Qed.
    Lemma proper_length l : (forall i, In i (C ++ [o]) -> In i l) -> (3 <= length (dedup l))%nat.
    Proof.
      intros H. apply (three_distinct_in l i1 i2 o); [apply H, in_Co, i1_C|apply H, in_Co, i2_C|apply H, o_Co|exact i1_i2| |].
      - intros E; apply No; rewrite <- E; apply i1_C.
      - intros E; apply No; rewrite <- E; apply i2_C.
    Qed.
    Lemma proper_edges i j : In (i, j) (edges_of (C ++ [o])) -> forall k, In k (C ++ [o]) -> 0 <= orient (g i) (g j) (g k).
    Proof.
      intros H k Hk. apply edges_pairs in H; [|discriminate]. destruct H as [H|[-> H]].
      - change (C ++ [o]) with ((i1 :: map ci ts ++ [i2]) ++ [o]) in H. rewrite app_comm_cons, pairs_snoc in H. apply in_app_or in H as [H|[H|[]]].
        + apply C_steps; [exact H|exact Hk].
        + injection H as <- <-. apply sup_back, Hk.
      - cbn in H. injection H as ->. apply sup_out, Hk.
    Qed.
    Lemma proper_convex : strictly_convex (map g (dedup (C ++ [o]))).
    Proof. apply chain_convex; [exact inj|exact Co_exposed|apply proper_length; auto|exact proper_edges]. Qed.
    Lemma rev_Co i : In i (rev C ++ [o]) <-> In i (C ++ [o]).
    Proof. rewrite !in_app_iff, <- in_rev. reflexivity. Qed.
    Lemma proper_convex_rev : strictly_convex (map g (rev (dedup (rev C ++ [o])))).
    Proof.
      apply chain_convex_rev.
      - intros i j Hi Hj. apply inj; apply rev_Co; assumption.
      - intros i Hi. destruct (Co_exposed i (proj1 (rev_Co i) Hi)) as (u & U). exists u. intros j Hj. apply U, rev_Co, Hj.
      - apply proper_length. intros i Hi. apply rev_Co, Hi.
      - intros i j H k Hk. apply rev_Co in Hk.
        assert (E : rev C = (i2 :: map ci (rev ts)) ++ [i1]) by (rewrite rev_C; reflexivity).
        apply edges_pairs in H; [|rewrite E; discriminate]. destruct H as [H|[-> H]].
        + rewrite E, pairs_snoc, <- E in H. apply in_app_or in H as [H|[H|[]]].
          * apply C_steps; [apply rev_pairs_in, H|exact Hk].
          * injection H as <- <-. apply sup_out, Hk.
        + rewrite E in H. cbn in H. injection H as ->. apply sup_back, Hk.
    Qed.
  End Proper.

  (** ** A flat corner *)
  Section Flat.
    Hypothesis O : orient p a b = 0.
    Notation sup := (supports C g).
    Lemma injC i j : In i C -> In j C -> g i = g j -> i = j.
    Proof. intros Hi Hj. apply inj; apply in_Co; assumption. Qed.
    Lemma C_exposed' i : In i C -> exists u, forall j, In j C -> j <> i -> vdot u (g j) < vdot u (g i).
    Proof. intros H. destruct (C_exposed i H) as (u & U). exists u. intros j Hj. apply U, in_Co, Hj. Qed.
    Lemma supC_steps i j : In (i, j) (pairs C) -> i = j \/ sup i j.
    Proof.
      intros H. destruct (Z.eq_dec i j) as [E|E]; [left; exact E|right]. destruct (pairs_in _ _ H) as [I1 I2]. cbn [fst snd] in *.
      split; [exact I1|]. split; [exact I2|]. split; [exact E|]. intros k Hk. apply C_steps; [exact H|apply in_Co, Hk].
    Qed.
    Lemma sup_flat : sup i2 i1.
    Proof.
      split; [apply i2_C|]. split; [apply i1_C|]. split; [intros E; apply i1_i2; congruence|]. intros k Hk. rewrite G1, G2. apply step_flat; [exact Na|exact CV|exact O|apply C_wedge, Hk].
    Qed.
    Lemma flat_last : hd_error (rev (dedup C)) = Some i2.
    Proof.
      replace (Some i2) with (Some (last (map ci ts ++ [i2]) i1)) by (rewrite last_snoc; reflexivity). apply (dedup_last sup (supports_fn _ _ injC C_exposed') (supports_inj _ _ injC C_exposed')); [intros [i j] H; apply supC_steps, H|].
      intros y Hy S. rewrite last_snoc. exact (supports_inj _ _ injC C_exposed' _ _ _ S sup_flat).
    Qed.
    Lemma flat_last_rev : hd_error (rev (dedup (rev C))) = Some i1.
    Proof.
      rewrite rev_C. replace (Some i1) with (Some (last (map ci (rev ts) ++ [i1]) i2)) by (rewrite last_snoc; reflexivity).
      apply (dedup_last (fun x y => sup y x) (fun x y y' => supports_inj _ _ injC C_exposed' y y' x) (fun x x' y => supports_fn _ _ injC C_exposed' y x x')).
      - rewrite <- rev_C. intros [i j] H. apply rev_pairs_in in H. cbn [fst snd]. destruct (supC_steps j i H); [left; congruence|right; assumption].
      - intros y Hy S. rewrite last_snoc. exact (supports_fn _ _ injC C_exposed' _ _ _ S sup_flat).
    Qed.
    (** one center lies off the line of the border *)
    Lemma off_line : exists k, In k ts /\ 0 < orient p a (g (ci k)).
    Proof.
      set (s := fun c : pt => vdot (vsub a p) (vsub c p)).
      destruct (Exists_dec (fun e : pt * pt => 0 < s (fst e) /\ s (snd e) <= 0) (pairs (a :: us ++ [b]))) as [D|D].
      { intros e. destruct (Rlt_dec 0 (s (fst e))), (Rle_dec (s (snd e)) 0); [left; tauto|right; tauto|right; tauto|right; tauto]. }
      - apply Exists_exists in D as ([c d] & He & S1 & S2). destruct (Forall2_in_left _ _ _ F _ He) as (k & Hk & OR & _ & _ & D1 & D2 & _). exists k. split; [exact Hk|]. cbn [fst snd] in *.
        unfold s in *. apply dist_eq in D1, D2. clear - OR S1 S2 D1 D2. unfold orient, vcross, vdot, vsub in *. cbn [fst snd] in *. destruct (g (ci k)) as [z1 z2], p as [p1 p2], a as [a1 a2], c as [c1 c2], d as [d1 d2]. cbn [fst snd] in *.
        set (A1 := a1 - p1) in *. set (A2 := a2 - p2) in *. set (B1 := c1 - p1) in *. set (B2 := c2 - p2) in *. set (D3 := d1 - p1) in *. set (D4 := d2 - p2) in *. set (Z1 := z1 - p1) in *. set (Z2 := z2 - p2) in *.
        assert (PB : 0 < B1 * B1 + B2 * B2) by (destruct (Req_dec B1 0) as [Y1|Y1], (Req_dec B2 0) as [Y2|Y2]; [rewrite Y1, Y2 in OR; lra|nra|nra|nra]).
        assert (PD : 0 < D3 * D3 + D4 * D4) by (destruct (Req_dec D3 0) as [Y1|Y1], (Req_dec D4 0) as [Y2|Y2]; [rewrite Y1, Y2 in OR; lra|nra|nra|nra]).
        assert (E : (B1 * D4 - B2 * D3) * (A1 * Z2 - A2 * Z1) = (D3 * Z1 + D4 * Z2) * (A1 * B1 + A2 * B2) - (B1 * Z1 + B2 * Z2) * (A1 * D3 + A2 * D4)) by ring.
        assert (E1 : 0 < (D3 * Z1 + D4 * Z2) * (A1 * B1 + A2 * B2)) by (apply Rmult_lt_0_compat; lra).
        assert (E2 : (B1 * Z1 + B2 * Z2) * (A1 * D3 + A2 * D4) <= 0) by (assert (0 < B1 * Z1 + B2 * Z2) by lra; nra).
        apply (Rmult_lt_reg_l (B1 * D4 - B2 * D3)); lra.
      - exfalso. assert (K : 0 < s b).
        { apply (chain_all (fun c => 0 < s c) (fun c => 0 < s c) a (us ++ [b])); auto; [|unfold s|apply in_or_app; right; left; reflexivity].
          - intros e He S. apply Rnot_le_lt. intros S'. apply D. apply Exists_exists. exists e. auto.
          - pose proof Na as N. clear - N. unfold vdot, vsub. destruct a as [a1 a2], p as [p1 p2]. cbn [fst snd]. destruct (Req_dec a1 p1) as [E1|E1], (Req_dec a2 p2) as [E2|E2]; [subst; congruence|nra|nra|nra]. }
        destruct CV as [Q|[_ Q]]; [lra|]. unfold s in K. lra.
    Qed.
    Lemma flat_length l : (forall i, In i C -> In i l) -> (3 <= length (dedup l))%nat.
    Proof.
      intros H. destruct off_line as (k & Hk & L). apply (three_distinct_in l i1 i2 (ci k)); [apply H, i1_C|apply H, i2_C| |exact i1_i2| |].
      - apply H. right. apply in_or_app. left. apply in_map, Hk.
      - intros E. rewrite <- E, G1 in L. unfold orient, vcross, vsub, midpoint in L. cbn [fst snd] in L. lra.
      - intros E. rewrite <- E, G2 in L. clear - L O. unfold orient, vcross, vsub, midpoint in *. cbn [fst snd] in *. lra.
    Qed.
    Lemma flat_edges i j : In (i, j) (edges_of C) -> forall k, In k C -> 0 <= orient (g i) (g j) (g k).
    Proof.
      intros H k Hk. change C with ((i1 :: map ci ts) ++ [i2]) in H. apply edges_pairs in H; [|discriminate]. destruct H as [H|[-> H]].
      - apply C_steps; [exact H|apply in_Co, Hk].
      - cbn in H. injection H as ->. apply sup_flat, Hk.
    Qed.
    Lemma flat_convex : strictly_convex (map g (dedup C)).
    Proof. apply chain_convex; [exact injC|exact C_exposed'|apply flat_length; auto|exact flat_edges]. Qed.
    Lemma flat_convex_rev : strictly_convex (map g (rev (dedup (rev C)))).
    Proof.
      apply chain_convex_rev.
      - intros i j Hi Hj. apply in_rev in Hi, Hj. apply injC; assumption.
      - intros i Hi. apply in_rev in Hi. destruct (C_exposed' i Hi) as (u & U). exists u. intros j Hj. apply in_rev in Hj. apply U, Hj.
      - apply flat_length. intros i Hi. apply in_rev in Hi. exact Hi.
      - intros i j H k Hk. apply in_rev in Hk.
        assert (E : rev C = (i2 :: map ci (rev ts)) ++ [i1]) by (rewrite rev_C; reflexivity).
        rewrite E in H. apply edges_pairs in H; [|discriminate]. rewrite <- E in H. destruct H as [H|[-> H]].
        + apply C_steps; [apply rev_pairs_in, H|apply in_Co, Hk].
        + cbn in H. injection H as ->. apply sup_flat, Hk.
    Qed.
  End Flat.

  (** ** The cell is the part of the region in the corner *)
  Lemma hull_wedge vs x : (forall v, In v vs -> wedge p a b v) -> in_hull vs x -> wedge p a b x.
  Proof.
    intros H HU. split.
    - destruct (HU (right_of (vsub a p))) as (v & Hv & L). destruct (H v Hv) as [W _]. unfold orient, vcross, vdot, vsub, right_of in *. cbn [fst snd] in *. lra.
    - destruct (HU (left_of (vsub b p))) as (v & Hv & L). destruct (H v Hv) as [_ W]. unfold orient, vcross, vdot, vsub, left_of in *. cbn [fst snd] in *. lra.
  Qed.
  Lemma core_hull l : (forall i, In i l -> In i (C ++ [o])) -> (forall i, In i C -> In i l) -> (0 < orient p a b -> In o l) ->
    forall x, in_hull (map g l) x <-> region x /\ wedge p a b x.
  Proof.
    intros L1 L2 L3 x. split.
    - intros H. split.
      + apply (hull_region sites p (map g l)); [|exact H]. intros c Hc. apply in_map_iff in Hc as (i & <- & Hi). apply Co_region, L1, Hi.
      + apply (hull_wedge (map g l)); [|exact H]. intros c Hc. apply in_map_iff in Hc as (i & <- & Hi). apply Co_wedge, L1, Hi.
    - intros [R [W1 W2]]. apply (open_cell sites p a us b); auto using Na, Nb.
      + intros s Hs. assert (NE : (2 <= length (a :: us ++ [b]))%nat) by (cbn [length]; rewrite app_length; cbn [length]; lia).
        assert (G : forall e, In e (pairs (a :: us ++ [b])) -> In (fst e) sites /\ In (snd e) sites).
        { intros e He. destruct (Forall2_in_left _ _ _ F e He) as (k & _ & _ & I1 & I2 & _). auto. }
        clear - G Hs. revert Hs G. generalize a. induction us as [|c l IH]; intros a0 Hs G; cbn [app] in *.
        * destruct (G (a0, b) ltac:(rewrite pairs_cons; left; reflexivity)) as [I1 I2]. destruct Hs as [<-|[<-|[]]]; assumption.
        * rewrite pairs_cons in G. destruct Hs as [<-|Hs]; [apply (G (a0, c)); left; reflexivity|]. apply (IH c Hs). intros e He. apply G. right. exact He.
      + intros e He. destruct (Forall2_in_left _ _ _ F e He) as (k & Hk & O & _ & _ & D1 & D2 & _). split; [exact O|]. exists (g (ci k)). split; [|auto].
        apply in_map, L2. right. apply in_or_app. left. apply in_map, Hk.
      + rewrite <- G1. apply in_map, L2, i1_C.
      + rewrite <- G2. apply in_map, L2, i2_C.
      + destruct CV as [Q|Q]; [left; split; [exact Q|]|right; exact Q]. rewrite <- G0. apply in_map, L3, Q.
  Qed.
End Core.
