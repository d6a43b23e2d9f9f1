(** More example data for the theorem files. *)
From Coq Require Import Reals Lra ZArith Lia List Bool Ascii SpecFloat.
From Verif Require Import Base Spec MUtil MGeom MHull MPolygon MMaps MTriangle MGen MRegion MDelaunay MVoronoi MMesh MFormat Bridge BridgeNum Samples.
Import ListNotations.
Local Open Scope Z_scope.

Lemma house_six_digit : Forall (fun q => six_digit (@px F64 q) /\ six_digit (@py F64 q)) house.
Proof.
  assert (H0 : six_digit (F64_dec 0 1)) by (left; exists false; vm_compute; reflexivity).
  assert (H : forall n, 0 < n < 1000000 -> F64_dec n 1 = decimal64 false n 0 -> six_digit (F64_dec n 1)).
  { intros n Hn E. right. exists false, n, 0. split; [assumption|]. split; [lia|assumption]. }
  assert (H2 : six_digit (F64_dec 2 1)) by (apply H; [lia|vm_compute; reflexivity]).
  assert (H4 : six_digit (F64_dec 4 1)) by (apply H; [lia|vm_compute; reflexivity]).
  assert (H6 : six_digit (F64_dec 6 1)) by (apply H; [lia|vm_compute; reflexivity]).
  unfold house, dpt. repeat (apply Forall_cons; [split; assumption|]). apply Forall_nil.
Qed.
