(** Every point sees the left or the right side of some edge, or nothing. *)
From Coq Require Import Reals Lra Lia ZArith List Bool Permutation Classical.
From Verif Require Import Base Spec BridgeWind BridgeSimple BridgeJordan PContains PAny2 PAny6 PSimple4 PJordan PJordan2.
Import ListNotations.
Local Open Scope R_scope.
Local Notation edge := (pt * pt)%type.

(** ** moving a point to a height without corners *)
Lemma left_edge q e : ev (fun t => up (mv q (-1, 0) t) e = up q e /\ (snd (fst e) <= snd q < snd (snd e) \/ snd (snd e) <= snd q < snd (fst e) -> orient (fst e) (snd e) (mv q (-1, 0) t) <> 0)).
Proof.
  destruct e as [a b]. cbn [fst snd]. set (o := orient a b q). assert (O : forall t, orient a b (mv q (-1, 0) t) = o + t * (snd b - snd a)) by (intros t; unfold o, orient, vcross, vsub, mv; cbn [fst snd]; ring).
  assert (EV : ev (fun t => (o < 0 -> 0 < - o + t * - (snd b - snd a)) /\ (0 < o -> 0 < o + t * (snd b - snd a)))).
  { apply ev_and; [destruct (Rlt_dec o 0) as [H|H]|destruct (Rlt_dec 0 o) as [H|H]]; try (apply ev_true; intros; contradiction).
    - refine (ev_mono _ _ _ (ev_pos (- o) (- (snd b - snd a)) _)); [auto|lra].
    - refine (ev_mono _ _ _ (ev_pos o (snd b - snd a) H)). auto. }
  refine (ev_mono _ _ _ EV). intros t T [H1 H2]. rewrite !up_pass. cbn [fst snd]. rewrite O. fold o. unfold mv. cbn [fst snd]. rewrite Rmult_0_r, Rplus_0_r.
  assert (TP : snd a < snd b -> 0 < t * (snd b - snd a)) by (intros; apply Rmult_lt_0_compat; lra). assert (TN : snd b < snd a -> t * (snd b - snd a) < 0) by (intros; nra).
  set (k := t * (snd b - snd a)) in *. assert (K1 : t * - (snd b - snd a) = - k) by (unfold k; ring). rewrite K1 in H1. clearbody k o. clear K1. split.
  - unfold pass. destruct (leR_spec (snd a) (snd q)), (leR_spec (snd b) (snd q)); cbn [andb negb]; try reflexivity; destruct (ltR_spec o 0), (ltR_spec (o + k) 0), (ltR_spec 0 o), (ltR_spec 0 (o + k)); try reflexivity; exfalso; lra.
  - intros [H|H]; lra.
Qed.
Lemma rise_edge q e : (snd (fst e) <= snd q < snd (snd e) \/ snd (snd e) <= snd q < snd (fst e) -> orient (fst e) (snd e) q <> 0) ->
  ev (fun t => up (mv q (0, 1) t) e = up q e /\ snd (fst e) <> snd (mv q (0, 1) t) /\ snd (snd e) <> snd (mv q (0, 1) t) /\
    (snd (fst e) < snd (mv q (0, 1) t) < snd (snd e) \/ snd (snd e) < snd (mv q (0, 1) t) < snd (fst e) -> orient (fst e) (snd e) (mv q (0, 1) t) <> 0)).
Proof.
  destruct e as [a b]. cbn [fst snd]. intros N.
  assert (H : forall x : pt, ev (fun t => (snd x <= snd q -> snd x < snd q + t) /\ (snd q < snd x -> snd q + t < snd x))).
  { intros x. destruct (Rle_dec (snd x) (snd q)) as [L|L]; [apply ev_true; intros t T; split; intros; lra|]. refine (ev_mono _ _ _ (ev_pos (snd x - snd q) (-1) _)); [|lra]. intros t T P. split; intros; lra. }
  set (o := orient a b q) in *. assert (O : forall t, orient a b (mv q (0, 1) t) = o + t * (fst b - fst a)) by (intros t; unfold o, orient, vcross, vsub, mv; cbn [fst snd]; ring).
  assert (EV : ev (fun t => (o < 0 -> 0 < - o + t * - (fst b - fst a)) /\ (0 < o -> 0 < o + t * (fst b - fst a)))).
  { apply ev_and; [destruct (Rlt_dec o 0) as [K|K]|destruct (Rlt_dec 0 o) as [K|K]]; try (apply ev_true; intros; contradiction).
    - refine (ev_mono _ _ _ (ev_pos (- o) (- (fst b - fst a)) _)); [auto|lra].
    - refine (ev_mono _ _ _ (ev_pos o (fst b - fst a) K)). auto. }
  refine (ev_mono _ _ _ (ev_and _ _ EV (ev_and _ _ (H a) (H b)))). intros t T ([H1 H2] & [A1 A2] & [B1 B2]). rewrite !up_pass. cbn [fst snd]. rewrite O. fold o. unfold mv. cbn [fst snd]. rewrite Rmult_1_r.
  set (k := t * (fst b - fst a)) in *. assert (K1 : t * - (fst b - fst a) = - k) by (unfold k; ring). rewrite K1 in H1. clearbody k o. clear K1 H EV O.
  destruct (Rle_dec (snd a) (snd q)) as [A|A]; [specialize (A1 A); clear A2|assert (A' : snd q < snd a) by lra; specialize (A2 A'); clear A1]; (destruct (Rle_dec (snd b) (snd q)) as [B|B]; [specialize (B1 B); clear B2|assert (B' : snd q < snd b) by lra; specialize (B2 B'); clear B1]);
  (split; [|split; [lra|split; [lra|intros [K|K]; try (exfalso; lra); assert (ON : o <> 0) by (apply N; lra); lra]]]);
  unfold pass; destruct (leR_spec (snd a) (snd q + t)); try (exfalso; lra); destruct (leR_spec (snd b) (snd q + t)); try (exfalso; lra);
  destruct (leR_spec (snd a) (snd q)); try (exfalso; lra); destruct (leR_spec (snd b) (snd q)); try (exfalso; lra); cbn [andb negb]; try reflexivity;
  (assert (ON : o <> 0) by (apply N; lra)); destruct (ltR_spec o 0), (ltR_spec (o + k) 0), (ltR_spec 0 o), (ltR_spec 0 (o + k)); try reflexivity; exfalso; lra.
Qed.
Definition spans (h : R) (e : edge) : bool := (ltR (snd (fst e)) h && ltR h (snd (snd e))) || (ltR (snd (snd e)) h && ltR h (snd (fst e))).
Lemma generic_point q (E : list edge) : exists q', forall e, In e E -> up q' e = up q e /\ snd (fst e) <> snd q' /\ snd (snd e) <> snd q' /\ (spans (snd q') e = true -> orient (fst e) (snd e) q' <> 0).
Proof.
  destruct (ev_some _ (ev_list (fun e t => up (mv q (-1, 0) t) e = up q e /\ (snd (fst e) <= snd q < snd (snd e) \/ snd (snd e) <= snd q < snd (fst e) -> orient (fst e) (snd e) (mv q (-1, 0) t) <> 0)) E (fun e _ => left_edge q e))) as (t & T & H).
  set (q1 := mv q (-1, 0) t) in *. assert (Q1 : snd q1 = snd q) by (unfold q1, mv; cbn [fst snd]; ring).
  destruct (ev_some _ (ev_list (fun e t => up (mv q1 (0, 1) t) e = up q1 e /\ snd (fst e) <> snd (mv q1 (0, 1) t) /\ snd (snd e) <> snd (mv q1 (0, 1) t) /\
    (snd (fst e) < snd (mv q1 (0, 1) t) < snd (snd e) \/ snd (snd e) < snd (mv q1 (0, 1) t) < snd (fst e) -> orient (fst e) (snd e) (mv q1 (0, 1) t) <> 0)) E (fun e He => rise_edge q1 e (fun K => proj2 (H e He) ltac:(rewrite <- Q1; exact K))))) as (t' & T' & H').
  exists (mv q1 (0, 1) t'). intros e He. destruct (H e He) as [U _]. destruct (H' e He) as (U' & A & B & C). split; [congruence|]. split; [exact A|]. split; [exact B|]. intros S. apply C. unfold spans in S. apply orb_prop in S.
  destruct S as [S|S]; apply andb_prop in S as [S1 S2]; [left|right]; split; [revert S1; destruct (ltR_spec (snd (fst e)) (snd (mv q1 (0, 1) t')))|revert S2; destruct (ltR_spec (snd (mv q1 (0, 1) t')) (snd (snd e)))|revert S1; destruct (ltR_spec (snd (snd e)) (snd (mv q1 (0, 1) t')))|revert S2; destruct (ltR_spec (snd (mv q1 (0, 1) t')) (snd (fst e)))]; intros; try assumption; discriminate.
Qed.

(** ** where an edge is at a height *)
Definition xat (h : R) (e : edge) : R := fst (fst e) + (h - snd (fst e)) / (snd (snd e) - snd (fst e)) * (fst (snd e) - fst (fst e)).
Definition sgn (e : edge) : Z := if Rlt_dec (snd (fst e)) (snd (snd e)) then (-1)%Z else 1%Z.
Lemma spans_cases h e : spans h e = true <-> (snd (fst e) < h < snd (snd e) \/ snd (snd e) < h < snd (fst e)).
Proof.
  unfold spans. destruct (ltR_spec (snd (fst e)) h), (ltR_spec h (snd (snd e))), (ltR_spec (snd (snd e)) h), (ltR_spec h (snd (fst e))); cbn; split; intros; try reflexivity; try discriminate; try lra.
Qed.
Lemma xat_interior h e : spans h e = true -> interior e (xat h e, h).
Proof.
  intros S. apply spans_cases in S. destruct e as [a b]. cbn [fst snd] in *. set (t := (h - snd a) / (snd b - snd a)). assert (K : t * (snd b - snd a) = h - snd a) by (unfold t, Rdiv; rewrite Rmult_assoc, Rinv_l by lra; ring).
  exists t. split; [|unfold xat, lerp; cbn [fst snd]; fold t; f_equal; lra]. destruct S as [S|S]; split; try nra.
Qed.
Lemma xat_orient h x e : spans h e = true -> orient (fst e) (snd e) (x, h) = (snd (snd e) - snd (fst e)) * (xat h e - x).
Proof.
  intros S. apply spans_cases in S. destruct e as [a b]. cbn [fst snd] in *. unfold xat. cbn [fst snd]. unfold orient, vcross, vsub. cbn [fst snd]. field. lra.
Qed.
Lemma pass_at (a b h o k : R) : (a < h < b \/ b < h < a) -> o = (b - a) * k ->
  pass (leR a h) (leR b h) o = if Rlt_dec k 0 then (if Rlt_dec a b then -1 else 1)%Z else 0%Z.
Proof.
  intros S O. assert (F1 : a < b -> k < 0 -> o < 0) by (subst o; clear; intros; nra). assert (F2 : a < b -> 0 <= k -> 0 <= o) by (subst o; clear; intros; nra).
  assert (F3 : b < a -> k < 0 -> 0 < o) by (subst o; clear; intros; nra). assert (F4 : b < a -> 0 <= k -> o <= 0) by (subst o; clear; intros; nra). clear O. unfold pass.
  destruct (leR_spec a h); destruct (leR_spec b h); try (exfalso; lra); cbn [andb negb]; destruct (Rlt_dec a b); try (exfalso; lra); destruct (Rlt_dec k 0);
  repeat match goal with |- context [ltR ?p ?q] => destruct (ltR_spec p q) end; try reflexivity; exfalso; lra.
Qed.
Lemma up_at h x e : snd (fst e) <> h -> snd (snd e) <> h -> up (x, h) e = if spans h e then if Rlt_dec (xat h e) x then sgn e else 0%Z else 0%Z.
Proof.
  intros A B. rewrite up_pass. cbn [snd]. destruct (spans h e) eqn:S.
  - pose proof (xat_orient h x e S) as O. apply spans_cases in S. rewrite (pass_at _ _ h _ _ S O). unfold sgn. destruct (Rlt_dec (xat h e - x) 0), (Rlt_dec (xat h e) x); try reflexivity; exfalso; lra.
  - assert (N : ~ (snd (fst e) < h < snd (snd e) \/ snd (snd e) < h < snd (fst e))) by (intros K; apply spans_cases in K; congruence). destruct e as [[a1 a2] [b1 b2]]. cbn [fst snd] in *.
    destruct (leR_spec a2 h), (leR_spec b2 h); try apply pass_same; exfalso; lra.
Qed.
Lemma best {A} (f : A -> R) l : l <> [] -> exists x, In x l /\ forall y, In y l -> f y <= f x.
Proof.
  induction l as [|a l IH]; [contradiction|]. intros _. destruct l as [|b l]; [exists a; split; [left; reflexivity|]; intros y [<-|[]]; lra|].
  destruct IH as (x & Hx & K); [discriminate|]. destruct (Rle_dec (f a) (f x)).
  - exists x. split; [right; exact Hx|]. intros y [<-|Hy]; [assumption|apply K, Hy].
  - exists a. split; [left; reflexivity|]. intros y [<-|Hy]; [lra|specialize (K y Hy); lra].
Qed.

Section Simple.
  Variable outlines : list (list pt).
  Hypothesis S : simple_outlines outlines.
  Notation E := (flat_map edges_of outlines).
  Notation lam := (lam outlines).

  Lemma xat_apart h e e' : In e E -> In e' E -> e' <> e -> spans h e = true -> spans h e' = true -> xat h e <> xat h e'.
  Proof.
    intros H H' D S1 S2 X. apply (interior_off outlines S e e' (xat h e, h) H H' D (xat_interior h e S1)). rewrite X. destruct (xat_interior h e' S2) as (t & T & ->). exists t. split; [lra|reflexivity].
  Qed.
  Lemma sgn_back h e : spans h e = true -> (back e = if Z.eqb (sgn e) 1 then 1 else 0)%Z.
  Proof.
    intros H. apply spans_cases in H. unfold back, sgn. destruct (Rlt_dec (snd (fst e)) (snd (snd e))), (Rlt_dec (snd (snd e)) (snd (fst e))); try reflexivity; exfalso; lra.
  Qed.
  Lemma sides_seen q : tot (up q) E = 0%Z \/ exists e, In e E /\ (tot (up q) E = lam e \/ tot (up q) E = lam e - 1)%Z.
  Proof.
    destruct (generic_point q E) as (q' & G). rewrite <- (tot_ext (up q') (up q)) by (intros e He; apply G, He). destruct q' as [x h]. cbn [snd] in G.
    set (seen := filter (fun e => spans h e && ltR (xat h e) x) E).
    assert (UA : forall e, In e E -> forall y, up (y, h) e = if spans h e then if Rlt_dec (xat h e) y then sgn e else 0%Z else 0%Z) by (intros e He y; apply up_at; apply (G e He)).
    destruct seen as [|e0 l0] eqn:L; [left; apply tot_zero|].
    - intros e He. rewrite (UA e He). destruct (spans h e) eqn:SP; [|reflexivity]. destruct (Rlt_dec (xat h e) x) as [X|]; [|reflexivity]. exfalso.
      assert (I : In e seen) by (apply filter_In; split; [exact He|]; rewrite SP; cbn; destruct (ltR_spec (xat h e) x); [reflexivity|contradiction]). rewrite L in I. exact I.
    - right. destruct (best (xat h) seen) as (e & He & M); [rewrite L; discriminate|]. unfold seen in He. apply filter_In in He as [He K]. apply andb_prop in K as [SP K].
      assert (X : xat h e < x) by (revert K; destruct (ltR_spec (xat h e) x); [auto|discriminate]). clear K. exists e. split; [exact He|].
      rewrite <- (lam_at outlines S e _ He (xat_interior h e SP)). destruct (simple_split outlines S e He) as (E0 & P & I0). rewrite !(tot_perm _ _ _ P), !tot_cons.
      rewrite (tot_ext (up (xat h e, h)) (up (x, h)) E0).
      + rewrite !(UA e He), SP, (sgn_back h e SP). destruct (Rlt_dec (xat h e) x); [|contradiction]. destruct (Rlt_dec (xat h e) (xat h e)); [exfalso; lra|]. generalize (tot (up (x, h)) E0). intros T. unfold sgn. destruct (Rlt_dec _ _); [change (-1 =? 1)%Z with false|change (1 =? 1)%Z with true]; cbv iota; lia.
      + intros e' H'. destruct (I0 e' H') as [I1 I2]. rewrite !(UA e' I1). destruct (spans h e') eqn:SP'; [|reflexivity]. pose proof (xat_apart h e e' He I1 I2 SP SP') as A.
        destruct (Rlt_dec (xat h e') (xat h e)), (Rlt_dec (xat h e') x) as [Y|Y]; try reflexivity; [exfalso; lra|]. exfalso.
        assert (I : In e' seen) by (apply filter_In; split; [exact I1|]; rewrite SP'; cbn; destruct (ltR_spec (xat h e') x); [reflexivity|contradiction]). apply M in I. apply A. lra.
  Qed.
  Lemma outer_side q : tot (up q) E <> 0%Z -> exists e, In e E /\ (0 <= lam e <= 1)%Z.
  Proof.
    destruct (generic_point q E) as (q' & G). rewrite <- (tot_ext (up q') (up q)) by (intros e He; apply G, He). destruct q' as [x h]. cbn [snd] in G. intros NZ.
    assert (UA : forall e, In e E -> forall y, up (y, h) e = if spans h e then if Rlt_dec (xat h e) y then sgn e else 0%Z else 0%Z) by (intros e He y; apply up_at; apply (G e He)).
    set (seen := filter (spans h) E). assert (L : seen <> []).
    { intros L. apply NZ, tot_zero. intros e He. rewrite (UA e He). destruct (spans h e) eqn:SP; [|reflexivity]. exfalso. assert (I : In e seen) by (apply filter_In; auto). rewrite L in I. exact I. }
    destruct (best (fun e => - xat h e) seen L) as (e & He & M). unfold seen in He. apply filter_In in He as [He SP]. exists e. split; [exact He|].
    rewrite <- (lam_at outlines S e _ He (xat_interior h e SP)). rewrite tot_zero; [rewrite (sgn_back h e SP); destruct (Z.eqb _ _); lia|].
    intros e' H'. rewrite (UA e' H'). destruct (spans h e') eqn:SP'; [|reflexivity]. destruct (Rlt_dec (xat h e') (xat h e)); [|reflexivity]. exfalso. assert (I : In e' seen) by (apply filter_In; auto). apply M in I. lra.
  Qed.
End Simple.
