(** The area of a chain that goes around no point clockwise is not negative. *)
From Coq Require Import Reals Lra Lia ZArith List Bool Permutation Sorting.Sorted.
From Verif Require Import Base Spec BridgeWind PContains PPoly PTile PJordan PJordan2 PJordan3.
Import ListNotations.
Local Open Scope R_scope.
Local Notation edge := (pt * pt)%type.

(** ** sorting *)
Lemma sorted_by {A} (f : A -> R) l : exists l', Permutation l l' /\ StronglySorted (fun x y => f x <= f y) l'.
Proof.
  induction l as [|a l (l' & P & S)]; [exists []; split; [reflexivity|constructor]|].
  assert (I : exists l1 l2, l' = l1 ++ l2 /\ Forall (fun y => f y <= f a) l1 /\ Forall (fun y => f a <= f y) l2).
  { clear P. induction S as [|b m S (l1 & l2 & -> & H1 & H2) F]; [exists [], []; repeat split; constructor|].
    destruct (Rle_dec (f a) (f b)) as [L|L].
    - exists [], (b :: l1 ++ l2). split; [reflexivity|]. split; [constructor|]. constructor; [exact L|]. rewrite Forall_forall in *. intros y Hy. specialize (F y Hy). lra.
    - exists (b :: l1), l2. split; [reflexivity|]. split; [constructor; [lra|exact H1]|exact H2]. }
  destruct I as (l1 & l2 & -> & H1 & H2). exists (l1 ++ a :: l2). split; [rewrite P; apply Permutation_middle|].
  clear P l. induction l1 as [|b l1 IH]; cbn [app] in *; [constructor; assumption|]. inversion S; subst. apply Forall_cons_iff in H1 as [L H1]. constructor; [apply IH; assumption|].
  rewrite Forall_forall in *. intros y Hy. apply in_app_iff in Hy as [Hy|[<-|Hy]]; [apply H4, in_or_app; left; exact Hy|exact L|apply H4, in_or_app; right; exact Hy].
Qed.
Lemma sorted_pairs (H : list R) h h' : StronglySorted (fun x y => x <= y) H -> In (h, h') (pairs H) -> h <= h' /\ forall v, In v H -> v <= h \/ h' <= v.
Proof.
  induction 1 as [|a m S IH F]; [intros []|]. destruct m as [|b m]; [intros []|]. change (pairs (a :: b :: m)) with ((a, b) :: pairs (b :: m)). rewrite Forall_forall in F. intros [E|I].
  - injection E as -> ->. split; [apply F; left; reflexivity|]. intros v [<-|Hv]; [left; lra|]. inversion S; subst. destruct Hv as [<-|Hv]; [right; lra|]. rewrite Forall_forall in H2. right. apply H2, Hv.
  - destruct (IH I) as [L K]. split; [exact L|]. intros v [<-|Hv]; [|apply K, Hv]. left. apply F. assert (X : forall (l : list R) x y, In (x, y) (pairs l) -> In x l).
    { clear. induction l as [|u l IH]; intros x y H; [destruct H|]. destruct l as [|w l]; [destruct H|]. change (pairs (u :: w :: l)) with ((u, w) :: pairs (w :: l)) in H. destruct H as [H|H]; [injection H as -> ->; left; reflexivity|right; eapply IH, H]. }
    eapply X, I.
Qed.

(** ** summation by parts *)
Definition below (x : R) (l : list (R * Z)) : Z := fold_right (fun p s => (if Rlt_dec (fst p) x then snd p else 0) + s)%Z 0%Z l.
Lemma below_none x l : Forall (fun p => x <= fst p) l -> below x l = 0%Z.
Proof. induction 1 as [|p l H F IH]; [reflexivity|]. cbn [below fold_right]. fold (below x l). rewrite IH. destruct (Rlt_dec (fst p) x); [exfalso; lra|reflexivity]. Qed.
Lemma below_perm x l l' : Permutation l l' -> below x l = below x l'.
Proof. unfold below. induction 1; cbn [fold_right]; [reflexivity|congruence|ring|congruence]. Qed.
Lemma abel l : StronglySorted (fun p q : R * Z => fst p <= fst q) l -> forall (c : Z) y, Forall (fun p => y <= fst p) l ->
  (forall x, y < x -> (0 <= c + below x l)%Z) -> (c + fold_right (fun p s => snd p + s) 0 l = 0)%Z -> sumR (map (fun p : R * Z => IZR (snd p) * fst p) l) <= - IZR c * y.
Proof.
  induction 1 as [|[x1 s1] l S IH F]; intros c y Y P T.
  - cbn [fold_right] in T. assert (c = 0%Z) by lia. subst c. unfold sumR. cbn. lra.
  - cbn [fold_right snd] in T. cbn [map fst snd]. apply Forall_cons_iff in Y as [Y1 Y]. cbn [fst] in Y1, F.
    assert (I : sumR (map (fun p : R * Z => IZR (snd p) * fst p) l) <= - IZR (c + s1) * x1).
    { apply IH; [exact F| |lia]. intros x X. specialize (P x ltac:(lra)). unfold below in *. cbn [fold_right fst snd] in P. destruct (Rlt_dec x1 x); [lia|exfalso; lra]. }
    rewrite plus_IZR in I. change (sumR (IZR s1 * x1 :: map (fun p : R * Z => IZR (snd p) * fst p) l)) with (IZR s1 * x1 + sumR (map (fun p : R * Z => IZR (snd p) * fst p) l)).
    destruct (Rle_lt_or_eq_dec y x1 Y1) as [L| ->]; [|lra].
    assert (C : (0 <= c)%Z). { specialize (P x1 L). rewrite below_none in P; [lia|]. constructor; [cbn; lra|exact F]. }
    apply IZR_le in C. assert (0 <= IZR c * (x1 - y)) by (apply Rmult_le_pos; lra). lra.
Qed.
Lemma abel_any l : (forall x, (0 <= below x l)%Z) -> (fold_right (fun p s => snd p + s) 0 l = 0)%Z -> sumR (map (fun p : R * Z => IZR (snd p) * fst p) l) <= 0.
Proof.
  intros P T. destruct (sorted_by (fun p : R * Z => fst p) l) as (l' & Q & S). rewrite (sumR_perm _ _ (Permutation_map _ Q)).
  assert (T' : (fold_right (fun p s => snd p + s) 0 l' = 0)%Z) by (refine (eq_trans _ T); clear -Q; induction Q; cbn [fold_right]; lia).
  assert (P' : forall x, (0 <= below x l')%Z) by (intros x; rewrite <- (below_perm x _ _ Q); apply P).
  destruct l' as [|p m] eqn:E; [unfold sumR; cbn; lra|]. rewrite <- E in *.
  replace 0 with (- IZR 0 * fst p) by ring. apply abel; [exact S| |intros x _; rewrite Z.add_0_l; apply P'|rewrite Z.add_0_l; exact T']. rewrite E in S |- *. inversion S; subst. constructor; [lra|assumption].
Qed.

(** ** strips *)
Definition strip (e : edge) (hh : R * R) : R := (snd hh - fst hh) * (if spans ((fst hh + snd hh) / 2) e then - IZR (sgn e) * xat ((fst hh + snd hh) / 2) e else 0).
Definition trap (e : edge) : R := (fst (fst e) + fst (snd e)) * (snd (snd e) - snd (fst e)) / 2.
Lemma tele (F : R -> R) l : forall h, sumR (map (fun hh => F (snd hh) - F (fst hh)) (pairs (h :: l))) = F (last l h) - F h.
Proof.
  induction l as [|k l IH]; intros h; [unfold sumR; cbn; lra|]. change (pairs (h :: k :: l)) with ((h, k) :: pairs (k :: l)). cbn [map]. change (sumR (?x :: ?m)) with (x + sumR m).
  rewrite last_cons_any. specialize (IH k). unfold sumR in *. cbn [fold_right fst snd]. rewrite IH. lra.
Qed.
(** the area under an edge up to a height *)
Definition under (e : edge) (h : R) : R :=
  let lo := Rmin (snd (fst e)) (snd (snd e)) in let hi := Rmax (snd (fst e)) (snd (snd e)) in let c := Rmax lo (Rmin h hi) in
  - IZR (sgn e) * ((c - lo) * (xat lo e + xat c e) / 2).
Lemma xat_lin e : exists k m, forall h, xat h e = k + m * h.
Proof. destruct e as [[a1 a2] [b1 b2]]. exists (a1 - a2 / (b2 - a2) * (b1 - a1)), ((b1 - a1) / (b2 - a2)). intros h. unfold xat, Rdiv. cbn [fst snd]. ring. Qed.
Lemma clamp lo hi h : lo < hi -> (h <= lo -> Rmax lo (Rmin h hi) = lo) /\ (hi <= h -> Rmax lo (Rmin h hi) = hi) /\ (lo <= h <= hi -> Rmax lo (Rmin h hi) = h).
Proof. intros L. unfold Rmax, Rmin. destruct (Rle_dec h hi); [destruct (Rle_dec lo h)|destruct (Rle_dec lo hi)]; repeat split; intros; lra. Qed.
Lemma strip_under a b h h' : snd a <> snd b -> h <= h' -> (snd a <= h \/ h' <= snd a) -> (snd b <= h \/ h' <= snd b) -> strip (a, b) (h, h') = under (a, b) h' - under (a, b) h.
Proof.
  intros D L A B. destruct (Rle_lt_or_eq_dec h h' L) as [L'|<-]; [|unfold strip; cbn [fst snd]; ring]. unfold strip, under. cbn [fst snd]. destruct (xat_lin (a, b)) as (k & m & X). rewrite !X. set (s := - IZR (sgn (a, b))). clearbody s. clear X.
  pose proof (spans_cases ((h + h') / 2) (a, b)) as SP. cbn [fst snd] in SP. destruct a as [a1 a2], b as [b1 b2]. cbn [fst snd] in *.
  assert (M : exists lo hi, Rmin a2 b2 = lo /\ Rmax a2 b2 = hi /\ lo < hi /\ (lo = a2 /\ hi = b2 \/ lo = b2 /\ hi = a2)).
  { destruct (Rlt_dec a2 b2); [exists a2, b2|exists b2, a2]; (split; [unfold Rmin; destruct (Rle_dec a2 b2); lra|]); (split; [unfold Rmax; destruct (Rle_dec a2 b2); lra|]); (split; [lra|]); [left|right]; split; reflexivity. }
  destruct M as (lo & hi & -> & -> & LH & O). destruct (clamp lo hi h LH) as (C1 & C2 & C3). destruct (clamp lo hi h' LH) as (D1 & D2 & D3).
  destruct (spans ((h + h') / 2) (a1, a2, (b1, b2))) eqn:S.
  - assert (K : a2 < (h + h') / 2 < b2 \/ b2 < (h + h') / 2 < a2) by (apply SP; reflexivity). assert (lo <= h /\ h' <= hi) by (destruct O as [[-> ->]|[-> ->]]; lra). rewrite C3, D3 by lra. field.
  - assert (K : ~ (a2 < (h + h') / 2 < b2 \/ b2 < (h + h') / 2 < a2)) by (intros K; apply SP in K; discriminate).
    assert (Q : h' <= lo \/ hi <= h) by (destruct O as [[-> ->]|[-> ->]]; destruct A, B; lra).
    destruct Q as [Q|Q]; [rewrite C1, D1 by lra|rewrite C2, D2 by lra]; ring.
Qed.
Lemma trap_strips e h l : StronglySorted (fun x y => x <= y) (h :: l) -> In (snd (fst e)) (h :: l) -> In (snd (snd e)) (h :: l) -> trap e = sumR (map (strip e) (pairs (h :: l))).
Proof.
  intros S A B. destruct e as [a b]. cbn [fst snd] in A, B. destruct (Req_dec (snd a) (snd b)) as [D|D].
  - rewrite sumR_zero; [unfold trap; cbn [fst snd]; rewrite D; lra|]. intros hh _. unfold strip. destruct (spans _ (a, b)) eqn:SP; [|ring]. exfalso. apply spans_cases in SP. cbn [fst snd] in SP. lra.
  - rewrite (sumR_map_ext (strip (a, b)) (fun hh => under (a, b) (snd hh) - under (a, b) (fst hh))).
    + rewrite tele.
      assert (LO : h <= snd a /\ h <= snd b). { inversion S; subst. rewrite Forall_forall in H2. split; [destruct A as [<-|A]; [lra|apply H2, A]|destruct B as [<-|B]; [lra|apply H2, B]]. }
      assert (HI : snd a <= last l h /\ snd b <= last l h).
      { assert (X : forall l h, StronglySorted (fun x y => x <= y) (h :: l) -> forall v, In v (h :: l) -> v <= last l h).
        { clear. induction l as [|k l IH]; intros h S v Hv; [destruct Hv as [<-|[]]; cbn; lra|]. rewrite last_cons_any. inversion S; subst. rewrite Forall_forall in H2. destruct Hv as [<-|Hv]; [|apply IH; assumption].
          pose proof (IH k H1 k (or_introl eq_refl)). specialize (H2 k (or_introl eq_refl)). lra. }
        split; apply X; assumption. }
      revert LO HI. generalize (last l h). intros g LO HI. clear S A B l. assert (XA : xat (snd a) (a, b) = fst a) by (unfold xat; cbn [fst snd]; field; intros K; apply D; lra). assert (XB : xat (snd b) (a, b) = fst b) by (unfold xat; cbn [fst snd]; field; intros K; apply D; lra).
      revert XA XB. unfold under, trap, sgn. cbn [fst snd]. destruct a as [a1 a2], b as [b1 b2]. cbn [fst snd] in *. generalize (fun h => xat h (a1, a2, (b1, b2))). intros X. 
      assert (D' : a2 < b2 \/ b2 < a2) by (apply Rdichotomy; exact D). destruct (Rlt_dec a2 b2) as [Q|Q]; [rewrite (Rmin_left a2 b2), (Rmax_right a2 b2) by lra; destruct (clamp a2 b2 h Q) as (C1 & _); destruct (clamp a2 b2 g Q) as (_ & C2 & _)|rewrite (Rmin_right a2 b2), (Rmax_left a2 b2) by lra; destruct (clamp b2 a2 h ltac:(lra)) as (C1 & _); destruct (clamp b2 a2 g ltac:(lra)) as (_ & C2 & _)];
      rewrite C1, C2 by lra; intros -> ->; field.
    + intros [k k'] Hk. destruct (sorted_pairs _ _ _ S Hk) as [L K]. cbn [fst snd]. apply strip_under; auto.
Qed.

(** ** areas and windings *)
Lemma tele_sum (g : pt -> R) vs : sumR (map (fun e : edge => g (snd e) - g (fst e)) (edges_of vs)) = 0.
Proof.
  destruct vs as [|x l]; [reflexivity|]. cbn [edges_of app].
  assert (K : forall l x, sumR (map (fun e : edge => g (snd e) - g (fst e)) (pairs (x :: l))) = g (last l x) - g x).
  { clear. induction l as [|y l IH]; intros x; [unfold sumR; cbn; lra|]. change (pairs (x :: y :: l)) with ((x, y) :: pairs (y :: l)). rewrite last_cons_any. specialize (IH y). unfold sumR in *. cbn [map fold_right fst snd]. rewrite IH. lra. }
  rewrite K, last_last. lra.
Qed.
Lemma shoelace_trap vs : shoelace vs = sumR (map trap (edges_of vs)).
Proof.
  pose proof (tele_sum (fun p => fst p * snd p / 2) vs) as T. unfold shoelace. rewrite (sumR_map_ext trap (fun e => vcross (fst e) (snd e) * / 2 + (fst (snd e) * snd (snd e) / 2 - fst (fst e) * snd (fst e) / 2))).
  - rewrite sumR_map_add, T, Rplus_0_r. unfold Rdiv. rewrite Rmult_comm, <- sumR_map_scal. apply sumR_map_ext. intros e _. ring.
  - intros [[a1 a2] [b1 b2]] _. unfold trap, vcross. cbn [fst snd]. field.
Qed.
Lemma winding_tot q vs : winding q vs = tot (up q) (edges_of vs).
Proof. reflexivity. Qed.
Lemma heights_in (vs : list pt) (e : edge) : In e (edges_of vs) -> In (snd (fst e)) (map snd vs) /\ In (snd (snd e)) (map snd vs).
Proof. destruct e as [a b]. intros H. apply edge_in in H as [A B]. split; apply in_map; assumption. Qed.
Lemma sgn_jump h e : snd (fst e) <> h -> snd (snd e) <> h -> ((if spans h e then sgn e else 0) = (if Rlt_dec h (snd (snd e)) then -1 else 0) - (if Rlt_dec h (snd (fst e)) then -1 else 0))%Z.
Proof.
  pose proof (spans_cases h e) as SP. unfold sgn. destruct e as [[a1 a2] [b1 b2]]. cbn [fst snd] in *. intros A B. destruct (spans h _).
  - destruct (proj1 SP eq_refl); destruct (Rlt_dec a2 b2), (Rlt_dec h b2), (Rlt_dec h a2); try reflexivity; exfalso; lra.
  - assert (N : ~ (a2 < h < b2 \/ b2 < h < a2)) by (intros K; apply SP in K; discriminate). destruct (Rlt_dec h b2), (Rlt_dec h a2); try reflexivity; exfalso; lra.
Qed.
Lemma strip_nonneg (vs : list pt) h h' : (forall q, (0 <= winding q vs)%Z) -> h <= h' -> (forall v, In v (map snd vs) -> v <= h \/ h' <= v) -> 0 <= sumR (map (fun e => strip e (h, h')) (edges_of vs)).
Proof.
  intros W L N. destruct (Rle_lt_or_eq_dec h h' L) as [L'|<-]; [|rewrite sumR_zero; [lra|]; intros e _; unfold strip; cbn [fst snd]; ring].
  set (k := (h + h') / 2). assert (NK : forall e, In e (edges_of vs) -> snd (fst e) <> k /\ snd (snd e) <> k) by (intros e He; apply heights_in in He as [A B]; apply N in A, B; unfold k; lra).
  set (l := map (fun e => (xat k e, if spans k e then sgn e else 0%Z)) (edges_of vs)).
  assert (X : sumR (map (fun e => strip e (h, h')) (edges_of vs)) = (h' - h) * - sumR (map (fun p : R * Z => IZR (snd p) * fst p) l)).
  { unfold l. rewrite map_map, Ropp_mult_distr_r_reverse, Ropp_mult_distr_l, <- sumR_map_scal. apply sumR_map_ext. intros e _. unfold strip. cbn [fst snd]. fold k. destruct (spans k e); ring. }
  rewrite X. apply Rmult_le_pos; [lra|]. assert (A : sumR (map (fun p : R * Z => IZR (snd p) * fst p) l) <= 0); [|lra]. apply abel_any.
  - intros x. assert (E : below x l = winding (x, k) vs); [|rewrite E; apply W]. rewrite winding_tot. unfold l. clear -NK. revert NK. generalize (edges_of vs). intros E NK. induction E as [|e E IH]; [reflexivity|].
    cbn [map below fold_right fst snd]. rewrite tot_cons, <- IH by (intros e' He'; apply NK; right; exact He'). destruct (NK e (or_introl eq_refl)) as [A B]. rewrite (up_at k x e A B). unfold below. destruct (spans k e), (Rlt_dec (xat k e) x); reflexivity.
  - pose proof (edges_closed vs (fun p => if Rlt_dec k (snd p) then -1 else 0)%Z) as C. refine (eq_trans _ C). unfold l. clear -NK. revert NK. generalize (edges_of vs). intros E NK. induction E as [|e E IH]; [reflexivity|].
    cbn [map fold_right snd]. rewrite tot_cons, <- IH by (intros e' He'; apply NK; right; exact He'). destruct (NK e (or_introl eq_refl)) as [A B]. rewrite (sgn_jump k e A B). reflexivity.
Qed.
Lemma area_nonneg vs : (forall q, (0 <= winding q vs)%Z) -> 0 <= shoelace vs.
Proof.
  intros W. rewrite shoelace_trap. destruct (sorted_by (fun x : R => x) (map snd vs)) as (H & P & S). destruct H as [|h l].
  - destruct vs as [|v vs]; [unfold sumR; cbn; lra|]. apply Permutation_sym, Permutation_nil in P. discriminate.
  - rewrite (sumR_map_ext trap (fun e => sumR (map (strip e) (pairs (h :: l))))).
    + rewrite (sumR_swap strip). apply PAny3.sumR_nonneg. intros x Hx. apply in_map_iff in Hx as ([k k'] & <- & Hk). destruct (sorted_pairs _ _ _ S Hk) as [L K]. apply strip_nonneg; [exact W|exact L|]. intros v Hv. apply K. apply (Permutation_in _ P), Hv.
    + intros e He. apply heights_in in He as [A B]. apply trap_strips; [exact S|apply (Permutation_in _ P), A|apply (Permutation_in _ P), B].
Qed.
Lemma area_nonpos vs : (forall q, (winding q vs <= 0)%Z) -> shoelace vs <= 0.
Proof.
  intros W. assert (H : 0 <= shoelace (rev vs)); [|rewrite shoelace_rev in H; lra]. apply area_nonneg. intros q. rewrite PSimple4.winding_rev. specialize (W q). lia.
Qed.
