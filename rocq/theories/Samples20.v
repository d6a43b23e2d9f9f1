(** Example data for T_Jordan: the L and the frame of Samples18 are simple. *)
From Coq Require Import Reals Lra Lia ZArith List Bool.
From Verif Require Import Base Spec MUtil MGeom MRegion Bridge BridgeNum BridgeVor64 BridgeWind BridgeSimple BridgeJordan PContains.
From Verif Require Import Samples16 Samples18 Samples19.
Import ListNotations.
Local Open Scope R_scope.

Ltac coords_ne := let H := fresh in intros H; injection H; intros; lra.
Ltac nodup_pts := repeat (constructor; [cbn [In]; let H := fresh in intros H; repeat destruct H as [H|H]; try contradiction; injection H; intros; lra|]); constructor.
Ltac meet_ok :=
  let a := fresh in let b := fresh in let c := fresh in let d := fresh in let z := fresh in let H1 := fresh in let H2 := fresh in let D := fresh in
  intros a b c d z H1 H2 D (t & T1 & ->) (s & T2 & E); unfold lerp in E; injection E as E1 E2; cbn in H1, H2;
  repeat destruct H1 as [H1|H1]; try contradiction; injection H1 as <- <-;
  repeat destruct H2 as [H2|H2]; try contradiction; injection H2 as <- <-; try (exfalso; apply D; reflexivity); cbn [fst snd] in *;
  first [exfalso; lra
        |left; split; [unfold lerp; cbn [fst snd]; f_equal; lra|reflexivity]
        |right; split; [unfold lerp; cbn [fst snd]; f_equal; lra|reflexivity]].
Lemma ell_simple : simple_outlines [map xy ell].
Proof.
  unfold ell, xy, mkP. cbn [map px py]. constructor.
  - cbn [concat app]. nodup_pts.
  - repeat constructor; cbn; lia.
  - meet_ok.
Qed.
Lemma ell_region : simple_region (map xy (rg_p r_ell)) [].
Proof.
  rewrite (proj1 r_ell_points). constructor.
  - exact ell_simple.
  - unfold ell, shoelace, edges_of, xy, vcross, mkP. cbn. lra.
  - constructor.
  - constructor.
  - intros l1 l l2 l' E. destruct l1; discriminate.
Qed.
Lemma ell_region64 : simple_region (map xyv (rg_p r_ell64)) [].
Proof. rewrite ell64_xyv. pose proof ell_region as H. rewrite (proj1 r_ell_points) in H. exact H. Qed.
Lemma frame_simple : simple_outlines [map xy plate; map xy gap].
Proof.
  unfold plate, gap, xy, mkP. cbn [map px py]. constructor.
  - cbn [concat app]. nodup_pts.
  - repeat constructor; cbn; lia.
  - meet_ok.
Qed.
Lemma frame_region : simple_region (map xy (rg_p r_frame)) [map xy gap].
Proof.
  rewrite r_frame_points. constructor.
  - exact frame_simple.
  - unfold plate, shoelace, edges_of, xy, vcross, mkP. cbn. lra.
  - constructor; [|constructor]. unfold gap, shoelace, edges_of, xy, vcross, mkP. cbn. lra.
  - constructor; [|constructor]. exists (-1, -1). split; [left; reflexivity|]. unfold plate, even_odd, parity, crosses_left, rises, falls, orient, vcross, vsub, xy, mkP. cbn [map px py edges_of pairs combine app fold_right fst snd tl].
    repeat match goal with |- context [leR ?a ?b] => destruct (leR_spec a b); try (exfalso; lra) | |- context [ltR ?a ?b] => destruct (ltR_spec a b); try (exfalso; lra) end; reflexivity.
  - intros l1 l l2 l' E I. destruct l1 as [|x [|y l1]]; [injection E as <- <-; destruct I|discriminate|discriminate].
Qed.
Lemma frame_holes : Forall2 (fun (h : hole RNum) l => l = map xy (h_points h) \/ l = rev (map xy (h_points h))) (rg_holes r_frame) [map xy gap].
Proof. pose proof frame_inner as F. inversion_clear F as [|? ? ? ? [A _] B]. constructor; [exact A|]. inversion_clear B. constructor. Qed.
