(** Points between two squares, in the inner one and outside. *)
From Coq Require Import Reals Lra Lia ZArith List Bool.
From Verif Require Import Base Spec MUtil MGeom MHull MPolygon MMaps MTriangle MGen MRegion Bridge BridgeWind PContains Samples16.
Import ListNotations.

Ltac winding_ok := unfold plate, gap, winding, even_odd, parity, edges_of, xy, mkP; cbn [map app pairs fst snd px py fold_right]; unfold passes, crosses_left, rises, falls, orient, vcross, vsub; cbn [fst snd];
  repeat match goal with |- context [ltR ?a ?b] => destruct (ltR_spec a b); [try (exfalso; lra)|try (exfalso; lra)] | |- context [leR ?a ?b] => destruct (leR_spec a b); [try (exfalso; lra)|try (exfalso; lra)] end; reflexivity.
Lemma frame_sides : Forall2 (fun (h : hole RNum) l => l = map xy (h_points h) \/ l = rev (map xy (h_points h))) (rg_holes r_frame) [map xy gap].
Proof. constructor; [|constructor]. rewrite h_gap_points. left. reflexivity. Qed.
Lemma frame_in : even_odd (2, 1 / 2)%R (map xy (rg_p r_frame)) = true.
Proof. rewrite r_frame_points. winding_ok. Qed.
Lemma frame_not_hole : Forall (fun h : hole RNum => even_odd (2, 1 / 2)%R (map xy (h_points h)) = false) (rg_holes r_frame).
Proof. constructor; [|constructor]. rewrite h_gap_points. winding_ok. Qed.
Lemma frame_windings :
  (fold_right Z.add 0 (map (winding (2, 1 / 2)%R) (map xy (rg_p r_frame) :: [map xy gap])) = 1 /\
  fold_right Z.add 0 (map (winding (0, 1 / 2)%R) (map xy (rg_p r_frame) :: [map xy gap])) = 0 /\
  fold_right Z.add 0 (map (winding (5, 1 / 2)%R) (map xy (rg_p r_frame) :: [map xy gap])) = 0)%Z.
Proof. rewrite r_frame_points. split; [|split]; cbn [map fold_right]; winding_ok. Qed.
