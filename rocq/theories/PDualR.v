(** When points of real numbers are told apart. *)
From Coq Require Import Reals Lra.
From Verif Require Import Base Spec MUtil MGeom MHull MPolygon MMaps MTriangle MGen MRegion MDelaunay MVoronoi Bridge.
From Verif Require Import PUtil PPoint PContains PDelaunay.
Local Open Scope R_scope.

Lemma apart_told (tol : R) (x x' : Point RNum) : 0 < tol -> ~ coincide (2 * tol) (xy x) (xy x') -> told_apart (N := RNum) tol x x'.
Proof.
  intros Tp H y [S1 S2]. apply H.
  assert (G : forall z, stands_for (pt_ltb (N := RNum) tol) y z -> coincide tol (xy y) (xy z)).
  { intros z [->|I]; [unfold coincide; rewrite !Rminus_diag_eq, Rabs_R0 by reflexivity; auto|]. apply (incomparable_coincide tol Tp). exact I. }
  destruct (G _ S1) as [A1 A2], (G _ S2) as [B1 B2]. unfold coincide.
  apply Rabs_def2 in A1, A2, B1, B2. split; apply Rabs_def1; lra.
Qed.
