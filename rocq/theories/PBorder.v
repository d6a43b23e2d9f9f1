(** Proofs about containerEdge and inEdges. *)
From Coq Require Import Reals Lra.
From Verif Require Import Base Spec MUtil MGeom MHull MPolygon MMaps MTriangle MGen MRegion Bridge.
From Verif Require Import PUtil PPoint PPoly PContains PRegion.
Local Open Scope R_scope.

Section Container.
  Context {N : Num}.
  Notation Point := (Point N).
  (** the edges and the pairs of their vertices *)
  Lemma edges_vertices p idx (vs : list Point) : vertices_are p idx vs ->
    Forall2 (fun s (e : Point * Point) => vertices_are p [fst s; snd s] [fst e; snd e]) (edges_of idx) (edges_of vs).
  Proof.
    intros H. destruct idx as [|k0 idx]; [inversion H; constructor|]. destruct vs as [|v0 vs]; [inversion H|]. unfold edges_of.
    assert (H' : vertices_are p ((k0 :: idx) ++ [k0]) ((v0 :: vs) ++ [v0])).
    { apply vertices_app; [exact H|]. inversion H; subst. constructor; [assumption|constructor]. }
    revert H'. generalize ((k0 :: idx) ++ [k0]) ((v0 :: vs) ++ [v0]). clear. intros l1 l2 H.
    induction H as [|k v l1 l2 K H IH]; [constructor|]. destruct H as [|k' v' l1 l2 K' H]; [constructor|].
    rewrite !pairs_cons2. constructor; [|exact IH]. cbn [fst snd]. constructor; [exact K|constructor; [exact K'|constructor]].
  Qed.
  (** the first edge whose enlarged segment holds the point *)
  Lemma container_first tol idx p q (vs : list Point) : vertices_are p idx vs ->
    exists s, containerEdge tol idx p q = Ok s /\
      ((exists k e, nth_error (edges_of idx) k = Some s /\ nth_error (edges_of vs) k = Some e /\ seg_contains tol q (fst e) (snd e) = true /\
          forall j e', (j < k)%nat -> nth_error (edges_of vs) j = Some e' -> seg_contains tol q (fst e') (snd e') = false) \/
       (s = (-1, -1)%Z /\ forall e, In e (edges_of vs) -> seg_contains tol q (fst e) (snd e) = false)).
  Proof.
    intros H. unfold containerEdge. rewrite getSegments_edges. cbn [bind app]. pose proof (edges_vertices p idx vs H) as F. clear H.
    induction F as [|s e es fs K F (s0 & E0 & IH)]; [exists (-1, -1)%Z; split; [reflexivity|right; split; [reflexivity|intros e []]]|].
    unfold iseg_contains at 1. inversion_clear K as [|? ? ? ? K1 K2]. inversion_clear K2 as [|? ? ? ? K3 _]. apply vget_ok in K1, K3. rewrite K1, K3. cbn [bind].
    destruct (seg_contains tol q (fst e) (snd e)) eqn:SC.
    - exists s. split; [reflexivity|]. left. exists 0%nat, e. cbn. repeat split; auto. intros j e' Hj. lia.
    - exists s0. split; [exact E0|]. destruct IH as [(k & e1 & I1 & I2 & I3 & I4)|[I1 I2]].
      + left. exists (S k), e1. cbn. repeat split; auto. intros [|j] e' Hj; cbn; [intros [= <-]; exact SC|]. apply I4. lia.
      + right. split; [exact I1|]. intros e' [<-|He]; auto.
  Qed.
End Container.

Notation Pt := (Point RNum).
Lemma container_plane tol (idx : list Z) (p : list Pt) (q : Pt) vs : 0 < tol -> vertices_are p idx vs ->
  exists s b, containerEdge (N := RNum) tol idx p q = Ok s /\ inEdges (N := RNum) tol idx p q = Ok b /\
    (b = true <-> near_border tol (xy q) (map xy vs)) /\
    (b = false -> s = (-1, -1)%Z) /\
    (b = true -> exists k A B, nth_error (edges_of idx) k = Some s /\ nth_error (edges_of (map xy vs)) k = Some (A, B) /\ near_segment tol A B (xy q) /\
       forall j A' B', (j < k)%nat -> nth_error (edges_of (map xy vs)) j = Some (A', B') -> ~ near_segment tol A' B' (xy q)).
Proof.
  intros Ht H. destruct (container_first (N := RNum) tol idx p q vs H) as (s & E & HS). exists s, (existsb (fun e : Pt * Pt => seg_contains (N := RNum) tol q (fst e) (snd e)) (edges_of vs)).
  split; [exact E|]. split; [exact (inEdges_iff (N := RNum) tol idx p q vs H)|]. split; [apply near_border_iff, Ht|]. destruct HS as [(k & e & K1 & K2 & K3 & K4)|[-> K]].
  - assert (B : existsb (fun e : Pt * Pt => seg_contains (N := RNum) tol q (fst e) (snd e)) (edges_of vs) = true) by (apply existsb_exists; exists e; split; [eapply nth_error_In; exact K2|exact K3]).
    rewrite B. split; [discriminate|]. intros _. exists k, (xy (fst e)), (xy (snd e)). rewrite edges_of_map, nth_error_map, K2. split; [exact K1|]. split; [reflexivity|].
    split; [apply near_segment_iff; assumption|]. intros j A' B' Hj Hn Hs. rewrite nth_error_map in Hn. destruct (nth_error (edges_of vs) j) as [e'|] eqn:En; [|discriminate].
    injection Hn as <- <-. apply near_segment_iff in Hs; [|exact Ht]. rewrite (K4 j e' Hj En) in Hs. discriminate.
  - assert (B : existsb (fun e : Pt * Pt => seg_contains (N := RNum) tol q (fst e) (snd e)) (edges_of vs) = false).
    { destruct (existsb _ _) eqn:X; [|reflexivity]. apply existsb_exists in X as (e & He & X). rewrite (K e He) in X. discriminate. }
    rewrite B. split; [reflexivity|discriminate].
Qed.
Lemma region_border_plane tol (r : region RNum) (q : Pt) : 0 < tol -> region_made r ->
  exists b, region_inEdges (N := RNum) tol r q = Ok b /\ (b = true <-> near_border tol (xy q) (map xy (rg_p r))).
Proof.
  intros Ht H. unfold region_inEdges. destruct (made_outline r H) as (vs & [-> | ->] & HV); destruct (container_plane tol _ _ q _ Ht HV) as (s & b & _ & E & B & _); exists b; (split; [exact E|]).
  - exact B.
  - rewrite B, map_rev. apply near_border_rev.
Qed.
