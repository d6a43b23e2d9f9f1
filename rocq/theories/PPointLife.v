(** Proofs about the life of a Point object. *)
From Coq Require Import Reals Lra List Bool ZArith.
From Verif Require Import Base Spec MGeom MPoint Bridge.
Import ListNotations.

Section Life.
  Context {N : Num}.
  Lemma run_snoc (c : point_ctor N) os o : point_run c (os ++ [o]) = point_do (point_run c os) o.
  Proof. unfold point_run. rewrite fold_left_app. reflexivity. Qed.
  Lemma x_last (c : point_ctor N) os1 x os2 : (forall x', ~ In (PSetX x') os2) -> px (point_run c (os1 ++ PSetX x :: os2)) = x.
  Proof.
    induction os2 as [|o os IH] using rev_ind; intros H.
    - rewrite run_snoc. reflexivity.
    - rewrite app_comm_cons, app_assoc, run_snoc. destruct o as [x'|y'|]; cbn [point_do setX setY setBoundary px].
      + exfalso. apply (H x'). apply in_or_app. right. left. reflexivity.
      + apply IH. intros x' I. apply (H x'). apply in_or_app. left. exact I.
      + apply IH. intros x' I. apply (H x'). apply in_or_app. left. exact I.
  Qed.
  Lemma y_last (c : point_ctor N) os1 y os2 : (forall y', ~ In (PSetY y') os2) -> py (point_run c (os1 ++ PSetY y :: os2)) = y.
  Proof.
    induction os2 as [|o os IH] using rev_ind; intros H.
    - rewrite run_snoc. reflexivity.
    - rewrite app_comm_cons, app_assoc, run_snoc. destruct o as [x'|y'|]; cbn [point_do setX setY setBoundary py].
      + apply IH. intros y' I. apply (H y'). apply in_or_app. left. exact I.
      + exfalso. apply (H y'). apply in_or_app. right. left. reflexivity.
      + apply IH. intros y' I. apply (H y'). apply in_or_app. left. exact I.
  Qed.
  Lemma x_first (c : point_ctor N) os : (forall x', ~ In (PSetX x') os) -> px (point_run c os) = px (point_new c).
  Proof.
    induction os as [|o os IH] using rev_ind; intros H; [reflexivity|]. rewrite run_snoc. assert (K : forall x', ~ In (PSetX x') os) by (intros x' I; apply (H x'), in_or_app; left; exact I).
    destruct o as [x'|y'|]; [exfalso; apply (H x'), in_or_app; right; left; reflexivity|exact (IH K)|exact (IH K)].
  Qed.
  Lemma y_first (c : point_ctor N) os : (forall y', ~ In (PSetY y') os) -> py (point_run c os) = py (point_new c).
  Proof.
    induction os as [|o os IH] using rev_ind; intros H; [reflexivity|]. rewrite run_snoc. assert (K : forall y', ~ In (PSetY y') os) by (intros y' I; apply (H y'), in_or_app; left; exact I).
    destruct o as [x'|y'|]; [exact (IH K)|exfalso; apply (H y'), in_or_app; right; left; reflexivity|exact (IH K)].
  Qed.
  Lemma marked (c : point_ctor N) os : isInBoundary (point_run c os) = true <-> In PSetBoundary os.
  Proof.
    unfold isInBoundary. induction os as [|o os IH] using rev_ind; [destruct c; cbn; split; [discriminate|tauto|discriminate|tauto]|]. rewrite run_snoc, in_app_iff.
    destruct o as [x'|y'|]; cbn [point_do setX setY setBoundary pbd In]; [rewrite IH|rewrite IH|]; (split; [intros H; auto|intros [H|[H|[]]]; auto; discriminate]).
  Qed.
  Lemma validity (c : point_ctor N) os : isValid (point_run c os) = true <-> c = PointDefault.
  Proof.
    unfold isValid. induction os as [|o os IH] using rev_ind; [destruct c; cbn; split; try discriminate; reflexivity|]. rewrite run_snoc. destruct o; exact IH.
  Qed.
  Lemma life (c : point_ctor N) os : let p := point_run c os in
    (forall os1 x os2, os = os1 ++ PSetX x :: os2 -> (forall x', ~ In (PSetX x') os2) -> px p = x) /\ ((forall x', ~ In (PSetX x') os) -> px p = px (point_new c)) /\
    (forall os1 y os2, os = os1 ++ PSetY y :: os2 -> (forall y', ~ In (PSetY y') os2) -> py p = y) /\ ((forall y', ~ In (PSetY y') os) -> py p = py (point_new c)) /\
    (isInBoundary p = true <-> In PSetBoundary os) /\ (isValid p = true <-> c = PointDefault).
  Proof.
    cbn zeta. repeat split; try (apply marked); try (apply validity); try (apply x_first); try (apply y_first); intros; subst; [apply x_last|apply y_last]; assumption.
  Qed.
  Lemma difference (c c' : point_ctor N) os os' : let d := pt_sub (point_run c os) (point_run c' os') in
    px d = nsub (px (point_run c os)) (px (point_run c' os')) /\ py d = nsub (py (point_run c os)) (py (point_run c' os')) /\ isInBoundary d = false /\ isValid d = false.
  Proof. cbn zeta. repeat split. Qed.
End Life.

Lemma square_norm (p : Point RNum) : squareNorm (N := RNum) p = vdot (xy p) (xy p) /\ (0 <= squareNorm (N := RNum) p)%R /\ (squareNorm (N := RNum) p = 0%R <-> xy p = (0, 0)%R).
Proof.
  unfold squareNorm, vdot, xy. cbn [fst snd]. cbn [nadd nmul nT RNum]. split; [reflexivity|]. pose proof (Rle_0_sqr (px p)) as X. pose proof (Rle_0_sqr (py p)) as Y. unfold Rsqr in X, Y. split; [lra|]. split; intros H.
  - f_equal; apply Rsqr_0_uniq; unfold Rsqr; lra.
  - injection H as -> ->. lra.
Qed.
(** comparing points ignores the marks *)
Lemma marks_ignored {N : Num} (tol : nT N) (p q p' q' : Point N) : px p = px p' -> py p = py p' -> px q = px q' -> py q = py q' ->
  pt_eqb tol p q = pt_eqb tol p' q' /\ pt_ltb tol p q = pt_ltb tol p' q'.
Proof. intros A B C D. unfold pt_eqb, pt_ltb. rewrite A, B, C, D. split; reflexivity. Qed.
Lemma invalid : exists (c : point_ctor RNum) (os : list (point_op RNum)), c <> PointDefault /\ isValid (point_run c os) = false.
Proof. exists (PointAt (N := RNum) 1%R 2%R), [PSetX (N := RNum) 3%R]. split; [discriminate|reflexivity]. Qed.
