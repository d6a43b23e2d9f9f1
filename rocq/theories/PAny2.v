(** A chain around a point that does not cross a ray has no repetitions but consecutive ones. *)
From Coq Require Import Reals Lra Lia ZArith List Bool Permutation.
From Verif Require Import Base Spec MUtil Bridge BridgeTile BridgeAny PUtil PContains PPoly PPoly2 PVoronoi PFan PVorGeo PVorCell PConvex PVorConvex PWedge PBorderCell PVorLocate PTile PFill.
Import ListNotations.

(** * Lists whose repetitions are consecutive *)
Definition stutters (l : list Z) : Prop := forall l1 x l2 l3, l = l1 ++ x :: l2 ++ x :: l3 -> forall y, In y l2 -> y = x.
Lemma stutters_snoc l x : stutters (l ++ [x]) -> stutters l.
Proof. intros H l1 y l2 l3 E. apply (H l1 y l2 (l3 ++ [x])). rewrite E. rewrite <- app_assoc. cbn [app]. rewrite <- app_assoc. reflexivity. Qed.
Lemma stutters_rev l : stutters l -> stutters (rev l).
Proof.
  intros H l1 x l2 l3 E y Hy. apply (H (rev l3) x (rev l2) (rev l1)); [|rewrite <- in_rev; exact Hy].
  rewrite <- (rev_involutive l), E. rewrite rev_app_distr. cbn [rev]. rewrite rev_app_distr. cbn [rev]. rewrite <- !app_assoc. reflexivity.
Qed.
Lemma stutters_last l x d : stutters (l ++ [x]) -> In x l -> last l d = x.
Proof.
  intros H Hx. apply in_split in Hx as (l1 & l2 & ->). rewrite <- app_assoc in H. cbn [app] in H.
  destruct l2 as [|y l2] using rev_ind; [apply last_snoc|]. clear IHl2. replace (l1 ++ x :: l2 ++ [y]) with ((l1 ++ x :: l2) ++ [y]) by (rewrite <- app_assoc; reflexivity). rewrite last_snoc.
  apply (H l1 x (l2 ++ [y]) []); [reflexivity|apply in_or_app; right; left; reflexivity].
Qed.
Lemma dedup_app_snoc l x : dedup (l ++ [x]) = if existsb (Z.eqb x) l then dedup l else dedup l ++ [x].
Proof.
  destruct (existsb (Z.eqb x) l) eqn:E.
  - apply existsb_exists in E as (y & Hy & E). apply Z.eqb_eq in E as <-. unfold dedup. rewrite fold_left_app. cbn [fold_left]. unfold set_add at 1.
    destruct (set_mem Z.eqb x _) eqn:M; [reflexivity|]. exfalso. assert (M' : set_mem Z.eqb x (dedup l) = true); [|unfold dedup in M'; congruence].
    apply existsb_exists. exists x. split; [apply dedup_in, Hy|apply Z.eqb_refl].
  - apply dedup_snoc. intros H. assert (K : existsb (Z.eqb x) l = true) by (apply existsb_exists; exists x; split; [exact H|apply Z.eqb_refl]). congruence.
Qed.
Lemma dedup_nil l : dedup l = [] -> l = [].
Proof. destruct l as [|x l]; [reflexivity|]. intros H. pose proof (dedup_head x l) as K. rewrite H in K. discriminate. Qed.
Lemma stutters_dedup (g : Z -> pt) (f : pt * pt -> R) l d : (forall x, f (x, x) = 0%R) -> stutters l ->
  last (dedup l) d = last l d /\ sumR (map f (pairs (map g (dedup l)))) = sumR (map f (pairs (map g l))).
Proof.
  intros Z. induction l as [|x l IH] using rev_ind; intros S; [split; reflexivity|]. destruct (IH (stutters_snoc _ _ S)) as [L E]. clear IH.
  rewrite dedup_app_snoc, last_snoc. destruct (existsb (Z.eqb x) l) eqn:M.
  - apply existsb_exists in M as (y & Hy & Q). apply Z.eqb_eq in Q as <-. pose proof (stutters_last _ _ d S Hy) as K. split; [congruence|]. rewrite E.
    destruct l as [|z l] using rev_ind; [destruct Hy|]. rewrite last_snoc in K. subst z. rewrite !map_app. cbn [map]. rewrite pairs_snoc, map_app, sumR_app. cbn [map]. unfold sumR at 3. cbn. rewrite Z. lra.
  - split; [apply last_snoc|]. destruct l as [|z l] using rev_ind; [reflexivity|]. clear IHl. rewrite last_snoc in L.
    assert (ND : dedup (l ++ [z]) <> []) by (intros K; apply dedup_nil in K; destruct l; discriminate).
    destruct (exists_last ND) as (D & z' & ED). rewrite ED in *. rewrite last_snoc in L. subst z'. rewrite !map_app in *. cbn [map] in *. rewrite !pairs_snoc, !map_app, !sumR_app, E. reflexivity.
Qed.

(** * Loops *)
Section Loop.
  Variable A : Type.
  Lemma loop_all (P : A -> Prop) x l y : (forall e, In e (pairs (x :: l ++ [x])) -> P (fst e) -> P (snd e)) -> In y (x :: l) -> P y -> forall z, In z (x :: l) -> P z.
  Proof.
    intros H Hy Py. assert (Px : P x).
    { destruct Hy as [<-|Hy]; [exact Py|]. apply in_split in Hy as (l1 & l2 & ->). rewrite <- app_assoc in H. cbn [app] in H.
      apply (chain_all P P y (l2 ++ [x])); auto; [|apply in_or_app; right; left; reflexivity].
      intros e He. apply H. rewrite app_comm_cons, pairs_app. apply in_or_app. right. exact He. }
    intros z [<-|Hz]; [exact Px|]. apply (chain_all P P x (l ++ [x])); auto. apply in_or_app. left. exact Hz.
  Qed.
  Lemma loop_mono (h : A -> R) x l : (forall e, In e (pairs (x :: l ++ [x])) -> (h (snd e) <= h (fst e))%R) -> forall e, In e (pairs (x :: l ++ [x])) -> h (snd e) = h (fst e).
  Proof.
    intros H e He. assert (K : (h (fst e) <= h (snd e))%R); [|specialize (H e He); lra].
    assert (I : In (fst e) (x :: l) /\ (snd e = x \/ In (snd e) (x :: l))).
    { destruct (pairs_in _ _ He) as [_ I2]. split.
      - assert (I1 : In (fst e) (map fst (pairs ((x :: l) ++ [x])))) by (apply in_map, He). rewrite snoc_pairs_fst in I1. exact I1.
      - destruct I2 as [<-|I2]; [auto|]. apply in_app_or in I2 as [I2|[<-|[]]]; [right; right; exact I2|auto]. }
    destruct I as [I1 I2]. assert (I2' : In (snd e) (x :: l)) by (destruct I2 as [->|I2]; [left; reflexivity|exact I2]).
    apply (loop_all (fun z => (h z <= h (snd e))%R) x l (snd e)); [|exact I2'|lra|exact I1]. intros e' He' L. specialize (H e' He'). lra.
  Qed.
End Loop.
Arguments loop_all {A}. Arguments loop_mono {A}.

Section Turn.
  Local Open Scope R_scope.
  Variables p u : pt.
  Hypothesis U : 0 < vdot u u.
  Notation s := (fun z : pt => vcross u (vsub z p)).
  Notation c := (fun z : pt => vdot u (vsub z p)).
  Lemma cross_parts x y : vdot u u * orient p x y = c x * s y - s x * c y.
  Proof. unfold orient, vcross, vdot. ring. Qed.
  (** a loop that turns left around [p] all the time crosses the ray from [p] in the direction [u] *)
  Lemma loop_crosses x l : (forall e, In e (pairs (x :: l ++ [x])) -> fst e = snd e \/ 0 < orient p (fst e) (snd e)) ->
    (exists e, In e (pairs (x :: l ++ [x])) /\ fst e <> snd e) -> exists e, In e (pairs (x :: l ++ [x])) /\ s (fst e) <= 0 /\ 0 < s (snd e) /\ 0 < orient p (fst e) (snd e).
  Proof.
    intros H (e0 & He0 & N0).
    assert (LI : forall e, In e (pairs (x :: l ++ [x])) -> In (fst e) (x :: l) /\ In (snd e) (x :: l)).
    { intros e He. destruct (pairs_in _ _ He) as [I1 I2]. split.
      - destruct I1 as [<-|I1]; [left; reflexivity|]. apply in_app_or in I1 as [I1|[<-|[]]]; [right; exact I1|left; reflexivity].
      - destruct I2 as [<-|I2]; [left; reflexivity|]. apply in_app_or in I2 as [I2|[<-|[]]]; [right; exact I2|left; reflexivity]. }
    destruct (Exists_dec (fun e : pt * pt => s (fst e) <= 0 /\ 0 < s (snd e)) (pairs (x :: l ++ [x]))) as [D|D].
    { intros e. destruct (Rle_dec (s (fst e)) 0), (Rlt_dec 0 (s (snd e))); [left; tauto|right; tauto|right; tauto|right; tauto]. }
    { apply Exists_exists in D as (e & He & S1 & S2). exists e. split; [exact He|]. split; [exact S1|]. split; [exact S2|]. destruct (H e He) as [E|O]; [|exact O]. exfalso. rewrite E in S1. lra. }
    exfalso. assert (NC : forall e, In e (pairs (x :: l ++ [x])) -> s (fst e) <= 0 -> s (snd e) <= 0).
    { intros e He S. apply Rnot_lt_le. intros S'. apply D, Exists_exists. exists e. auto. }
    clear D.
    assert (O0 : 0 < orient p (fst e0) (snd e0)) by (destruct (H e0 He0); [contradiction|assumption]).
    assert (MO : (forall z, In z (x :: l) -> 0 < s z) \/ (forall z, In z (x :: l) -> s z < 0) -> False).
    { intros SG. assert (NZ : forall z, In z (x :: l) -> s z <> 0) by (intros z Hz; destruct SG as [SG|SG]; specialize (SG z Hz); lra).
      assert (SS : forall y z, In y (x :: l) -> In z (x :: l) -> 0 < s y * s z) by (intros y z Hy Hz; destruct SG as [SG|SG]; pose proof (SG y Hy); pose proof (SG z Hz); nra).
      assert (DIF : forall y z, In y (x :: l) -> In z (x :: l) -> c y / s y - c z / s z = vdot u u * orient p y z / (s y * s z)).
      { intros y z Hy Hz. rewrite cross_parts. field. split; [apply (NZ z Hz)|apply (NZ y Hy)]. }
      assert (K : c (snd e0) / s (snd e0) = c (fst e0) / s (fst e0)).
      { apply (loop_mono (fun z => c z / s z) x l); [|exact He0]. intros e He. destruct (H e He) as [E|O]; [rewrite E; lra|]. destruct (LI e He) as [I1 I2].
        pose proof (DIF _ _ I1 I2) as Q. assert (0 < vdot u u * orient p (fst e) (snd e) / (s (fst e) * s (snd e))) by (apply Rdiv_lt_0_compat; [apply Rmult_lt_0_compat; assumption|apply SS; assumption]). lra. }
      destruct (LI e0 He0) as [I1 I2]. pose proof (DIF _ _ I1 I2) as Q. assert (0 < vdot u u * orient p (fst e0) (snd e0) / (s (fst e0) * s (snd e0))) by (apply Rdiv_lt_0_compat; [apply Rmult_lt_0_compat; assumption|apply SS; assumption]). lra. }
    destruct (Exists_dec (fun z : pt => s z <= 0) (x :: l)) as [D|D]; [intros z; apply Rle_dec| |].
    2: { apply MO. left. intros z Hz. apply Rnot_le_lt. intros K. apply D, Exists_exists. exists z. auto. }
    apply Exists_exists in D as (z0 & Hz0 & L0). pose proof (loop_all (fun z => s z <= 0) x l z0 NC Hz0 L0) as AL. clear z0 Hz0 L0.
    (* no point on the ray *)
    assert (RAY : forall z, In z (x :: l) -> s z = 0 -> 0 < c z -> False).
    { intros z Hz SZ CZ. assert (K : forall y, In y (x :: l) -> s y = 0 /\ 0 < c y).
      { apply (loop_all (fun y => s y = 0 /\ 0 < c y) x l z); [|exact Hz|auto]. intros e He [S C]. destruct (H e He) as [E|O]; [rewrite <- E; auto|]. exfalso.
        pose proof (cross_parts (fst e) (snd e)) as Q; cbv beta in *. rewrite S in Q. assert (0 < vdot u u * orient p (fst e) (snd e)) by (apply Rmult_lt_0_compat; assumption).
        destruct (LI e He) as [_ I2]. pose proof (AL _ I2). cbv beta in *. nra. }
      destruct (LI e0 He0) as [I1 I2]. destruct (K _ I1) as [S1 _], (K _ I2) as [S2 _]. pose proof (cross_parts (fst e0) (snd e0)) as Q; cbv beta in *. rewrite S1, S2 in Q. assert (0 < vdot u u * orient p (fst e0) (snd e0)) by (apply Rmult_lt_0_compat; assumption). lra. }
    destruct (Exists_dec (fun z : pt => s z < 0) (x :: l)) as [D|D]; [intros z; apply Rlt_dec| |].
    - apply Exists_exists in D as (z0 & Hz0 & L0). apply MO. right. apply (loop_all (fun z => s z < 0) x l z0); [|exact Hz0|exact L0].
      intros e He S. destruct (LI e He) as [I1 I2]. destruct (Rle_lt_or_eq_dec _ _ (AL _ I2)) as [L|E]; [exact L|]. exfalso. destruct (H e He) as [Q|O]; [rewrite Q in S; lra|].
      apply (RAY _ I2 E). pose proof (cross_parts (fst e) (snd e)) as Q; cbv beta in *. rewrite E in Q. assert (0 < vdot u u * orient p (fst e) (snd e)) by (apply Rmult_lt_0_compat; assumption).
      assert (0 < - s (fst e) * c (snd e)) by lra. apply (Rmult_lt_reg_l (- s (fst e))); lra.
    - destruct (LI e0 He0) as [I1 I2]. assert (Z : forall z, In z (x :: l) -> s z = 0). { intros z Hz. destruct (Rle_lt_or_eq_dec _ _ (AL z Hz)) as [L|E]; [|exact E]. exfalso. apply D, Exists_exists. exists z. auto. }
      pose proof (cross_parts (fst e0) (snd e0)) as Q; cbv beta in *. rewrite (Z _ I1), (Z _ I2) in Q. assert (0 < vdot u u * orient p (fst e0) (snd e0)) by (apply Rmult_lt_0_compat; assumption). lra.
  Qed.
  (** the crossing point *)
  Lemma crossing_point x y : s x <= 0 -> 0 < s y -> 0 < orient p x y -> exists t k, 0 <= t < 1 /\ 0 < k /\ lerp x y t = vadd p (vscale k u).
  Proof.
    intros S1 S2 O. exists (- s x / (s y - s x)), (orient p x y / (s y - s x)).
    assert (PD : 0 < s y - s x) by lra. split; [|split].
    - split; [apply Rmult_le_pos; [lra|apply Rlt_le, Rinv_0_lt_compat; exact PD]|]. apply (Rmult_lt_reg_r (s y - s x)); [exact PD|]. unfold Rdiv. rewrite Rmult_assoc, Rinv_l by lra. lra.
    - apply Rdiv_lt_0_compat; assumption.
    - unfold lerp, vadd, vscale, orient, vcross, vsub in *. destruct x as [x1 x2], y as [y1 y2], p as [p1 p2], u as [u1 u2]. cbn [fst snd] in *. f_equal; field; lra.
  Qed.
End Turn.
