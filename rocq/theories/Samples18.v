(** Example data for T_Simple: the frame of Samples16 and an L, triangulated without further points. *)
From Coq Require Import Reals Lra Lia ZArith List Bool.
From Verif Require Import Base Spec MUtil MGeom MHull MPolygon MMaps MTriangle MGen MRegion MDelaunay MVoronoi Bridge BridgeTile BridgeHist BridgeFill BridgeAny BridgeWind BridgeSimple.
From Verif Require Import PUtil PPoint PContains PTri PPoly2 PRegion PDelaunay PVoronoi PFan PVorGeo PVorCell PDual PDualR PHist PTile4 PTile5 PFill PAny6 PSimple3 PSimple4 Samples Samples6 Samples7 Samples8 Samples15 Samples16 Samples17.
Import ListNotations.
Local Open Scope Z_scope.

Ltac convex_ok := split; [cbn; lia|]; split; [repeat (constructor; [cbn; let H := fresh in intros H; repeat destruct H as [H|H]; try contradiction; injection H; intros; lra|]); constructor|];
  let a := fresh "a" in let b := fresh "b" in let v := fresh "v" in let E := fresh "E" in let V := fresh "V" in
  intros a b v E V ? ?; cbn in E, V; repeat destruct E as [E|E]; try contradiction; injection E as <- <-; repeat destruct V as [<-|V]; try contradiction; try congruence; unfold orient, vcross, vsub; cbn; lra.
Lemma plate_convex : strictly_convex (map xy plate).
Proof. unfold plate, xy, mkP. cbn [map px py]. convex_ok. Qed.
Lemma gap_convex : strictly_convex (rev (map xy gap)).
Proof. unfold gap, xy, mkP. cbn [map px py rev app]. convex_ok. Qed.
Lemma frame_convex : strictly_convex (map xy (rg_p r_frame)) /\ Forall (fun l => strictly_convex (rev l)) [map xy gap].
Proof. rewrite r_frame_points. split; [exact plate_convex|]. constructor; [exact gap_convex|constructor]. Qed.
Lemma frame_plain : plain (map xy (rg_p r_frame) :: [map xy gap]).
Proof. apply convex_plain; apply frame_convex. Qed.
Lemma ring_region : fills_region (1 / 100000)%R (map xy (rg_p r_frame) :: [map xy gap]) (ring_out RNum).
Proof. pose proof ring_fills as F. constructor; [exact (fa_rings _ _ _ F)|exact (fa_gabriel _ _ _ F)|exact (fa_corners _ _ _ F)]. Qed.

(** an L *)
Definition ell : list (Point RNum) := ([mkP (N := RNum) 0 0; mkP (N := RNum) 2 0; mkP (N := RNum) 2 1; mkP (N := RNum) 1 1; mkP (N := RNum) 1 2; mkP (N := RNum) 0 2])%R.
Definition r_ell : region RNum := ok_or (mkRegion (N := RNum) poly_none [] [] []) (region_ctor (N := RNum) 1%R ell).
Lemma r_ell_ok : region_ctor (N := RNum) 1%R ell = Ok r_ell.
Proof. unfold r_ell, region_ctor. destruct (proj2 (ctors_never_throw RNum 1%R [] ell)) as (g & -> & _). reflexivity. Qed.
Lemma r_ell_made : region_made r_ell.
Proof. exact (rm_ctor _ _ _ r_ell_ok). Qed.
Lemma r_ell_points : rg_p r_ell = ell /\ rg_holes r_ell = [].
Proof. unfold r_ell, region_ctor. destruct (proj2 (ctors_never_throw RNum 1%R [] ell)) as (g & -> & _). split; reflexivity. Qed.
Lemma ell_separated : separated (1 / 100000)%R (fun q => In q ([] ++ getRegionPoints r_ell)).
Proof.
  unfold getRegionPoints. rewrite (proj1 r_ell_points), (proj2 r_ell_points). apply integer_separated; [lra|]. unfold ell. cbn [app In flat_map]. intros q H.
  repeat destruct H as [<-|H]; try contradiction; do 2 eexists; split; reflexivity.
Qed.
Lemma ell_outer : (0 <= shoelace (map xy (rg_p r_ell)))%R.
Proof. rewrite (proj1 r_ell_points). unfold ell, shoelace, edges_of, xy, vcross, mkP. cbn. lra. Qed.
Lemma ell_plain : plain [map xy (rg_p r_ell)].
Proof.
  rewrite (proj1 r_ell_points). intros q. unfold ell, winding, passes, rises, falls, xy, mkP. cbn [map px py edges_of pairs combine app fold_right fst snd tl].
  repeat match goal with |- context [leR ?a ?b] => destruct (leR_spec a b) | |- context [ltR (snd q) ?b] => destruct (ltR_spec (snd q) b) end; cbn [andb]; try (exfalso; lra); repeat match goal with |- context [ltR ?a ?b] => destruct (ltR a b) end; cbn; lia.
Qed.
Definition ell_out (N : Num) : trout N :=
  mkTrout (N := N) [(nZ 0, nZ 0, 1); (nZ 2, nZ 0, 1); (nZ 2, nZ 1, 1); (nZ 1, nZ 1, 1); (nZ 1, nZ 2, 1); (nZ 0, nZ 2, 1)]
    [(0, 1, 1); (1, 3, 0); (3, 0, 0); (1, 2, 1); (2, 3, 1); (3, 5, 0); (5, 0, 1); (3, 4, 1); (4, 5, 1)]
    [(0, 1, 3); (1, 2, 3); (0, 3, 5); (3, 4, 5)].
Lemma ell_triangulation N : triangulation (zlen (o_points (ell_out N))) (map fst (o_edges (ell_out N))) (o_tris (ell_out N)).
Proof.
  constructor; cbn [ell_out o_points o_edges o_tris map fst].
  - intros a b H. cbn in H. unfold zlen; cbn [length]. repeat destruct H as [H|H]; try injection H as <- <-; try contradiction; lia.
  - intros i j s s' Hi Hj E. nth_cases; try reflexivity; discriminate E.
  - intros t H. cbn [In] in H. repeat destruct H as [<-|H]; try contradiction; repeat constructor; cbn; intuition lia.
  - intros t s Ht H. cbn [In] in Ht. repeat destruct Ht as [<-|Ht]; try contradiction; cbn in H; repeat destruct H as [<-|H]; try contradiction;
    apply existsb_exists; reflexivity.
Qed.
Lemma ell_points_R : map read_point (o_points (ell_out RNum)) = [bp 0 0; bp 2 0; bp 2 1; bp 1 1; bp 1 2; bp 0 2]%R.
Proof. reflexivity. Qed.
Lemma ell_border a b : border_side (o_tris (ell_out RNum)) a b <-> exists ring, In ring [[0; 1; 2; 3; 4; 5]] /\ In (a, b) (edges_of ring).
Proof.
  rewrite border_one_sided. split.
  - intros H. cbn in H. repeat destruct H as [H|H]; try contradiction; injection H as <- <-; exists [0; 1; 2; 3; 4; 5]; (split; [left; reflexivity|cbn; tauto]).
  - intros (ring & Hr & H). cbn [In] in Hr. destruct Hr as [<-|[]]; cbn in H; repeat destruct H as [H|H]; try contradiction; injection H as <- <-; cbn; tauto.
Qed.
Lemma ell_strung : subdivides (map xy [bp 0 0; bp 2 0; bp 2 1; bp 1 1; bp 1 2; bp 0 2])%R (map xy ell).
Proof.
  unfold subdivides, ell. cbn [map app]. unfold xy, bp, mkP. cbn [px py].
  apply (sp_edge (0, 0)%R (2, 0)%R _ []); [exact I|]. apply (sp_edge (2, 0)%R (2, 1)%R _ []); [exact I|]. apply (sp_edge (2, 1)%R (1, 1)%R _ []); [exact I|].
  apply (sp_edge (1, 1)%R (1, 2)%R _ []); [exact I|]. apply (sp_edge (1, 2)%R (0, 2)%R _ []); [exact I|]. apply (sp_edge (0, 2)%R (0, 0)%R [] [] []); [exact I|].
  apply sp_one.
Qed.
Lemma ell_answer : triangle_answer (1 / 100000)%R [map xy (rg_p r_ell)] (ell_out RNum).
Proof.
  rewrite (proj1 r_ell_points). constructor.
  - exact (ell_triangulation RNum).
  - intros t A B C Ht H. rewrite ell_points_R in *. cbn [ell_out o_tris In] in Ht. repeat destruct Ht as [<-|Ht]; try contradiction; corners_R H; unfold orient, vcross, vsub, xy; cbn [fst snd px py bp]; lra.
  - unfold directed_once. cbn [ell_out o_tris]. nodirected.
  - exists [[0; 1; 2; 3; 4; 5]]. split; [exact ell_border|]. split; [cbn [concat app]; nodup_ok|]. rewrite ell_points_R. constructor; [|constructor]. eexists. split; [|exact ell_strung]. repeat constructor; try lia.
  - rewrite ell_points_R. apply integer_separated; [lra|]. cbn [In]. intros q H. repeat destruct H as [<-|H]; try contradiction; do 2 eexists; split; reflexivity.
  - rewrite ell_points_R. intros i j a b Hi Hj D [C1 C2]. unfold xy in C1, C2; cbn [fst snd] in C1, C2.
    nth_cases; try (apply D; reflexivity); cbn [px py bp] in C1, C2; clear D; apply Rabs_def2 in C1, C2; lra.
Qed.
