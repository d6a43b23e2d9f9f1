(** Simple regions lie plainly in the plane. *)
From Coq Require Import Reals Lra Lia ZArith List Bool Permutation.
From Verif Require Import Base Spec BridgeWind BridgeSimple BridgeJordan PContains PAny2 PWind2 PSimple4 PJordan PJordan2 PJordan3 PJordan4.
Import ListNotations.
Local Open Scope R_scope.
Local Notation edge := (pt * pt)%type.
Local Notation sumZ l := (fold_right Z.add 0%Z l).

Lemma one_outline vs q : tot (up q) (flat_map edges_of [vs]) = winding q vs.
Proof. cbn [flat_map]. rewrite app_nil_r. reflexivity. Qed.
Lemma back_bit e : (0 <= back e <= 1)%Z.
Proof. unfold back. repeat destruct (Rlt_dec _ _); lia. Qed.
Lemma simple_sub outlines vs : simple_outlines outlines -> In vs outlines -> simple_outlines [vs].
Proof.
  intros S V. assert (IE : forall e, In e (flat_map edges_of [vs]) -> In e (flat_map edges_of outlines)) by (intros e He; cbn [flat_map] in He; rewrite app_nil_r in He; apply in_flat_map; exists vs; auto).
  constructor.
  - pose proof (so_corners _ S) as N. cbn [concat]. rewrite app_nil_r. apply in_split in V as (l1 & l2 & ->). rewrite concat_app in N. cbn [concat] in N. apply nodup_part in N as [_ N]. apply nodup_part in N as [N _]. exact N.
  - pose proof (so_long _ S) as L. rewrite Forall_forall in L. constructor; [apply L, V|constructor].
  - intros a b c d z H1 H2. exact (so_meet _ S a b c d z (IE _ H1) (IE _ H2)).
Qed.
(** a simple polygon has one side on which it goes around once, or minus once *)
Lemma jordan vs : simple_outlines [vs] -> exists k, (0 <= k <= 1)%Z /\ (forall e, In e (edges_of vs) -> lam [vs] e = k) /\ forall q, winding q vs = 0%Z \/ winding q vs = k \/ winding q vs = (k - 1)%Z.
Proof.
  intros S. destruct (lam_outline [vs] S vs (or_introl eq_refl)) as (k & K).
  assert (IE : forall e, In e (flat_map edges_of [vs]) -> In e (edges_of vs)) by (intros e He; cbn [flat_map] in He; rewrite app_nil_r in He; exact He).
  assert (NE : exists e, In e (edges_of vs)). { pose proof (so_long _ S) as L. apply Forall_cons_iff in L as [L _]. destruct vs as [|x [|y l]]; [cbn in L; lia|cbn in L; lia|]. exists (x, y). left. reflexivity. }
  exists k. split; [|split; [exact K|]].
  - destruct NE as (e & He). destruct (Z.eq_dec (tot (up (lerp (fst e) (snd e) (1 / 2))) (flat_map edges_of [vs])) 0) as [Z|Z].
    + rewrite <- (K e He). unfold lam. rewrite Z. apply back_bit.
    + destruct (outer_side [vs] S _ Z) as (e' & He' & B). rewrite (K e' (IE _ He')) in B. exact B.
  - intros q. rewrite <- one_outline. destruct (sides_seen [vs] S q) as [H|(e & He & H)]; [left; exact H|]. rewrite (K e (IE _ He)) in H. right. exact H.
Qed.
Lemma jordan_ccw vs : simple_outlines [vs] -> 0 < shoelace vs -> (forall e, In e (edges_of vs) -> lam [vs] e = 1%Z) /\ forall q, winding q vs = (if even_odd q vs then 1 else 0)%Z.
Proof.
  intros S A. destruct (jordan vs S) as (k & K & L & W). assert (k = 1%Z).
  { destruct (Z.eq_dec k 1) as [|N]; [assumption|]. exfalso. assert (H : shoelace vs <= 0) by (apply area_nonpos; intros q; destruct (W q) as [H|[H|H]]; lia). lra. }
  subst k. split; [exact L|]. intros q. rewrite <- winding_odd. destruct (W q) as [->|[->| ->]]; reflexivity.
Qed.
Lemma jordan_cw vs : simple_outlines [vs] -> shoelace vs < 0 -> (forall e, In e (edges_of vs) -> lam [vs] e = 0%Z) /\ forall q, winding q vs = (if even_odd q vs then -1 else 0)%Z.
Proof.
  intros S A. destruct (jordan vs S) as (k & K & L & W). assert (k = 0%Z).
  { destruct (Z.eq_dec k 0) as [|N]; [assumption|]. exfalso. assert (H : 0 <= shoelace vs) by (apply area_nonneg; intros q; destruct (W q) as [H|[H|H]]; lia). lra. }
  subst k. split; [exact L|]. intros q. rewrite <- winding_odd. destruct (W q) as [->|[->| ->]]; reflexivity.
Qed.

Section Several.
  Variable outlines : list (list pt).
  Hypothesis S : simple_outlines outlines.
  Variables (l1 l2 : list (list pt)) (vs : list pt).
  Hypothesis O : outlines = l1 ++ vs :: l2.

  Lemma no_common l' x : In l' (l1 ++ l2) -> In x vs -> In x l' -> False.
  Proof.
    intros I X X'. pose proof (so_corners _ S) as N. rewrite O in N. assert (P : Permutation (concat (l1 ++ vs :: l2)) (vs ++ concat (l1 ++ l2))) by (rewrite !concat_app; cbn [concat]; rewrite !app_assoc; apply Permutation_app_tail, Permutation_app_comm).
    apply (Permutation_NoDup P) in N. apply in_split in X as (v1 & v2 & ->). rewrite <- app_assoc in N. cbn [app] in N. apply NoDup_remove_2 in N. apply N. apply in_or_app. right. apply in_or_app. right. apply in_concat. exists l'. auto.
  Qed.
  Lemma never_meet l' a b e z : In l' (l1 ++ l2) -> In (a, b) (edges_of vs) -> In e (edges_of l') -> on_segment a b z -> ~ on_segment (fst e) (snd e) z.
  Proof.
    intros I AB CD Z1 Z2. destruct e as [c d]. cbn [fst snd] in Z2. pose proof (edge_in _ _ _ AB) as [Ia Ib]. pose proof (edge_in _ _ _ CD) as [Ic Id].
    assert (I1 : In (a, b) (flat_map edges_of outlines)) by (apply in_flat_map; exists vs; split; [rewrite O; apply in_or_app; right; left; reflexivity|exact AB]).
    assert (I2 : In (c, d) (flat_map edges_of outlines)) by (apply in_flat_map; exists l'; split; [rewrite O; apply in_app_iff in I; apply in_app_iff; cbn [In]; tauto|exact CD]).
    destruct (so_meet _ S a b c d z I1 I2) as [[_ K]|[_ K]]; try assumption.
    - intros K. injection K as -> ->. exact (no_common l' c I Ia Ic).
    - subst c. exact (no_common l' b I Ib Ic).
    - subst d. exact (no_common l' a I Ia Id).
  Qed.
  Lemma along_outline l' p e : In l' (l1 ++ l2) -> In p vs -> In e (edges_of vs) -> winding (lerp (fst e) (snd e) (1 / 2)) l' = winding p l'.
  Proof.
    intros I Ip He. assert (ST : forall a b, In (a, b) (edges_of vs) -> winding a l' = winding b l') by (intros a b AB; rewrite !winding_tot; apply segment_constant; [apply edges_closed|]; intros e' z He' Hz; apply (never_meet l' a b e' z I AB He' Hz)).
    assert (C : forall z, In z vs -> winding z l' = winding p l').
    { intros z Hz. destruct vs as [|x m] eqn:EV; [destruct Hz|]. apply (loop_all (fun z => winding z l' = winding p l') x m p); [|exact Ip|reflexivity|exact Hz]. intros [a b] AB K. cbn [fst snd] in *. rewrite <- K. symmetry. apply ST. exact AB. }
    destruct e as [a b]. cbn [fst snd]. pose proof (edge_in _ _ _ He) as [Ia _]. rewrite <- (C a Ia). symmetry. rewrite !winding_tot. apply segment_constant; [apply edges_closed|]. intros e' z He' (t & T & ->).
    apply (never_meet l' a b e' _ I He He'). exists (t / 2). split; [lra|]. unfold lerp. cbn [fst snd]. f_equal; field.
  Qed.
  Lemma tot_flat f L : tot f (flat_map edges_of L) = sumZ (map (fun l => tot f (edges_of l)) L).
  Proof. induction L as [|l L IH]; [reflexivity|]. cbn [flat_map map fold_right]. rewrite tot_app, IH. reflexivity. Qed.
  Lemma lam_parts e : lam outlines e = (lam [vs] e + sumZ (map (winding (lerp (fst e) (snd e) (1 / 2))) (l1 ++ l2)))%Z.
  Proof.
    unfold lam. rewrite one_outline, tot_flat, O, !map_app. cbn [map]. rewrite <- !winding_tot. set (z := lerp _ _ _).
    assert (A : forall x y : list Z, (sumZ (x ++ y) = sumZ x + sumZ y)%Z) by (intros x y; induction x as [|u x IH]; [reflexivity|]; cbn [app fold_right]; rewrite IH; ring). rewrite !A. cbn [fold_right].
    change (fun l => tot (up z) (edges_of l)) with (winding z). ring.
  Qed.
End Several.

Lemma sum_zero (l : list Z) : Forall (fun x => x = 0%Z) l -> sumZ l = 0%Z.
Proof. induction 1 as [|x l H F IH]; [reflexivity|]. cbn [fold_right]. lia. Qed.
Lemma sum_nonpos (l : list Z) : Forall (fun x => x <= 0)%Z l -> (sumZ l <= 0)%Z.
Proof. induction 1 as [|x l H F IH]; [reflexivity|]. cbn [fold_right]. lia. Qed.
Lemma simple_region_plain outer inner : simple_region outer inner -> plain (outer :: inner).
Proof.
  intros R q. pose proof (sr_simple _ _ R) as S. pose proof (sr_inner _ _ R) as SI. rewrite Forall_forall in SI.
  destruct (jordan_ccw outer (simple_sub _ _ S (or_introl eq_refl)) (sr_outer _ _ R)) as [LO WO].
  assert (HI : forall l, In l inner -> (forall e, In e (edges_of l) -> lam [l] e = 0%Z) /\ forall q, winding q l = (if even_odd q l then -1 else 0)%Z) by (intros l Hl; apply jordan_cw; [apply (simple_sub _ _ S); right; exact Hl|apply SI, Hl]).
  assert (T : fold_right Z.add 0%Z (map (winding q) (outer :: inner)) = tot (up q) (flat_map edges_of (outer :: inner))) by (rewrite tot_flat; reflexivity). rewrite T. clear T.
  destruct (sides_seen _ S q) as [->|(e & He & K)]; [lia|]. assert (B : (lam (outer :: inner) e <= 1)%Z); [|destruct K; lia]. clear K.
  apply in_flat_map in He as (vs & [<-|V] & He).
  - rewrite (lam_parts (outer :: inner) [] inner outer eq_refl), (LO e He). cbn [app]. assert (N : (sumZ (map (winding (lerp (fst e) (snd e) (1 / 2))) inner) <= 0)%Z); [|lia]. apply sum_nonpos. rewrite Forall_map, Forall_forall. intros l Hl. rewrite (proj2 (HI l Hl)). destruct (even_odd _ l); lia.
  - pose proof (proj1 (HI vs V) e He) as LV. pose proof (sr_within _ _ R) as WI. rewrite Forall_forall in WI. destruct (WI vs V) as (p & Ip & EP).
    pose proof V as V'. apply in_split in V' as (m1 & m2 & E). assert (O : outer :: inner = (outer :: m1) ++ vs :: m2) by (rewrite E; reflexivity).
    rewrite (lam_parts _ _ _ _ O), LV. cbn [app map fold_right]. rewrite (along_outline _ S _ _ _ O outer p e) by (auto; left; reflexivity). rewrite WO, EP.
    rewrite sum_zero; [lia|]. rewrite Forall_map, Forall_forall. intros l' Hl'. destruct (sr_beside _ _ R m1 vs m2 l' E Hl') as (p' & Ip' & EP').
    rewrite (along_outline _ S _ _ _ O l' p' e) by (auto; right; exact Hl'). assert (I' : In l' inner) by (rewrite E; apply in_app_iff in Hl'; apply in_app_iff; cbn [In]; tauto). rewrite (proj2 (HI l' I')), EP'. reflexivity.
Qed.
