(** Convex outlines go around each point at most once. *)
From Coq Require Import Reals Lra Lia ZArith List Bool.
From Verif Require Import Base Spec MUtil MPolygon MGen MRegion Bridge BridgeTile BridgeWind BridgeSimple PUtil PContains PPoly PPoly2 PVoronoi PFan PVorGeo PVorCell PConvex PVorConvex PVorLocate PWedge PTile PTile5 PAny3 PAny4 PAny5 PWind PWind2 PWind3 PWind4.
Import ListNotations.
Local Open Scope Z_scope.

Lemma same_pt (a b : pt) : a = b \/ a <> b.
Proof. destruct a as [x y], b as [x' y']. destruct (Req_dec x x') as [->|N]; [destruct (Req_dec y y') as [->|N]; [left; reflexivity|]|]; right; congruence. Qed.
(** two edges of a convex outline do not both go down past the height of a point *)
Lemma falls_once q vs a b c d : strictly_convex vs -> In (a, b) (edges_of vs) -> In (c, d) (edges_of vs) -> falls q a b = true -> falls q c d = true -> a = c.
Proof.
  intros (_ & _ & SC) E1 E2 F1 F2. destruct (edge_in _ _ _ E1) as [Ia Ib]. destruct (edge_in _ _ _ E2) as [Ic Id].
  unfold falls in F1, F2. apply andb_true_iff in F1 as [F1 F1'], F2 as [F2 F2'].
  destruct (leR_spec (snd b) (snd q)) as [B|B], (ltR_spec (snd q) (snd a)) as [A|A]; try discriminate. destruct (leR_spec (snd d) (snd q)) as [D|D], (ltR_spec (snd q) (snd c)) as [C|C]; try discriminate.
  destruct (same_pt a c) as [|NE]; [assumption|exfalso].
  assert (CB : c <> b) by (intros ->; lra). assert (DA : a <> d) by (intros ->; lra).
  assert (K1 : (0 < orient a b c)%R) by (apply SC; auto). assert (K2 : (0 < orient c d a)%R) by (apply SC; auto).
  assert (O1 : (0 <= orient a b d)%R). { destruct (same_pt d b) as [->|N]; [unfold orient, vcross, vsub; cbn; lra|]. apply Rlt_le. apply SC; auto. }
  assert (O2 : (0 <= orient c d b)%R). { destruct (same_pt b d) as [->|N]; [unfold orient, vcross, vsub; cbn; lra|]. apply Rlt_le. apply SC; auto. }
  assert (I : ((snd q - snd d) * orient a b c + (snd c - snd q) * orient a b d + ((snd q - snd b) * orient c d a + (snd a - snd q) * orient c d b) = 0)%R) by (unfold orient, vcross, vsub; cbn [fst snd]; ring).
  assert (0 <= (snd q - snd d) * orient a b c)%R by (apply Rmult_le_pos; lra). assert (0 <= (snd c - snd q) * orient a b d)%R by (apply Rmult_le_pos; lra). assert (0 <= (snd q - snd b) * orient c d a)%R by (apply Rmult_le_pos; lra). assert (0 <= (snd a - snd q) * orient c d b)%R by (apply Rmult_le_pos; lra).
  assert (E3 : d = b).
  { destruct (same_pt d b) as [|N]; [assumption|exfalso]. assert (0 < orient a b d)%R by (apply SC; auto; intros ->; lra). assert (0 < (snd c - snd q) * orient a b d)%R by (apply Rmult_lt_0_compat; lra). lra. }
  subst d. assert (orient c b a = - orient a b c)%R by (unfold orient, vcross, vsub; cbn [fst snd]; ring). lra.
Qed.
Lemma one_positive {A} (f : A -> Z) (l : list A) : (forall x, In x l -> f x <= 1) -> NoDup l -> (forall x y, In x l -> In y l -> 0 < f x -> 0 < f y -> x = y) -> sumZ (map f l) <= 1.
Proof.
  induction l as [|x l IH]; intros L ND U; [cbn; lia|]. inversion_clear ND as [|? ? N ND']. cbn [map fold_right].
  destruct (Z_lt_le_dec 0 (f x)) as [P|P].
  - assert (K : sumZ (map f l) <= 0); [|specialize (L x (or_introl eq_refl)); lia]. assert (Q : forall y, In y l -> f y <= 0). { intros y Hy. destruct (Z_lt_le_dec 0 (f y)) as [P'|P']; [|exact P']. exfalso. apply N. rewrite (U x y); auto; [left; reflexivity|right; exact Hy]. }
    clear - Q. induction l as [|y l IH]; [cbn; lia|]. cbn [map fold_right]. pose proof (Q y (or_introl eq_refl)). assert (sumZ (map f l) <= 0) by (apply IH; intros z Hz; apply Q; right; exact Hz). lia.
  - assert (sumZ (map f l) <= 1); [|lia]. apply IH; [intros y Hy; apply L; right; exact Hy|exact ND'|intros y z Hy Hz; apply U; right; assumption].
Qed.
Lemma edges_nodup {A} (vs : list A) : NoDup vs -> NoDup (edges_of vs).
Proof.
  intros ND. apply (NoDup_map_inv fst). destruct vs as [|x l]; [constructor|]. unfold edges_of. rewrite snoc_pairs_fst. exact ND.
Qed.
Lemma convex_winding_le q vs : strictly_convex vs -> winding q vs <= 1.
Proof.
  intros SC. unfold winding. apply one_positive.
  - intros [a b] _. unfold passes. cbn [fst snd]. destruct (_ && _); [lia|]. destruct (_ && _); lia.
  - apply edges_nodup. exact (proj1 (proj2 SC)).
  - assert (F : forall a b, 0 < passes q a b -> falls q a b = true). { intros a b. unfold passes. destruct (rises q a b && _); [lia|]. destruct (falls q a b); [reflexivity|cbn [andb]; lia]. }
    intros [a b] [c d] E1 E2 P1 P2. cbn [fst snd] in P1, P2. apply F in P1, P2. pose proof (falls_once q vs a b c d SC E1 E2 P1 P2) as <-.
    assert (ND : NoDup (map fst (edges_of vs))). { destruct vs as [|x l]; [constructor|]. unfold edges_of. rewrite snoc_pairs_fst. exact (proj1 (proj2 SC)). }
    clear - ND E1 E2. induction (edges_of vs) as [|e es IH]; [destruct E1|]. cbn [map] in ND. inversion_clear ND as [|? ? N ND']. destruct E1 as [->|E1], E2 as [E2|E2].
    + congruence.
    + exfalso. apply N. apply (in_map fst) in E2. exact E2.
    + subst e. exfalso. apply N. apply (in_map fst) in E1. exact E1.
    + apply IH; assumption.
Qed.
Lemma convex_winding_nonneg q vs : strictly_convex vs -> 0 <= winding q vs.
Proof.
  intros SC. apply le_IZR. rewrite <- loop_winding. destruct vs as [|p l]; [cbn; lra|]. rewrite (loop_fan _ (fw_additive q) p). apply sumR_nonneg. intros x Hx. apply in_map_iff in Hx as ([a b] & <- & Hx). cbn [fst snd]. apply tri_sides.
  destruct (same_pt p a) as [->|N1]; [unfold orient, vcross, vsub; cbn [fst snd]; lra|]. destruct (same_pt p b) as [->|N2]; [unfold orient, vcross, vsub; cbn [fst snd]; lra|].
  replace (orient p a b) with (orient a b p) by (unfold orient, vcross, vsub; cbn [fst snd]; ring). apply Rlt_le. apply (proj2 (proj2 SC)); auto. left; reflexivity.
Qed.
Lemma winding_rev q vs : winding q (rev vs) = - winding q vs.
Proof. apply eq_IZR. rewrite opp_IZR, <- !loop_winding. apply loop_rev, fw_additive. Qed.
(** a convex outline around convex holes *)
Lemma convex_plain outer inner : strictly_convex outer -> Forall (fun l => strictly_convex (rev l)) inner -> plain (outer :: inner).
Proof.
  intros SC F q. cbn [map fold_right]. pose proof (convex_winding_le q outer SC) as L. assert (K : sumZ (map (winding q) inner) <= 0); [|lia].
  clear - F. induction F as [|l ls S F IH]; [cbn; lia|]. cbn [map fold_right]. pose proof (convex_winding_nonneg q _ S) as P. rewrite winding_rev in P. lia.
Qed.
