(** Example data for T_Tile: a hexagon with a point inside, over the reals. *)
From Coq Require Import Reals Lra Lia ZArith List Bool.
From Verif Require Import Base Spec MUtil MGeom MHull MPolygon MMaps MTriangle MGen MRegion MDelaunay MVoronoi Bridge BridgeTile.
From Verif Require Import PUtil PPoint PTri PDelaunay PVoronoi PFan PVorGeo PVorCell PDual PDualR PTile4 Samples Samples6 Samples7.
Import ListNotations.
Local Open Scope Z_scope.

Definition hex_out (N : Num) : trout N :=
  mkTrout (N := N) [(nZ 4, nZ 0, 1); (nZ 2, nZ 3, 1); (nZ (-2), nZ 3, 1); (nZ (-4), nZ 0, 1); (nZ (-2), nZ (-3), 1); (nZ 2, nZ (-3), 1); (nZ 0, nZ 0, 0)]
    [(0, 1, 1); (1, 2, 1); (2, 3, 1); (3, 4, 1); (4, 5, 1); (5, 0, 1); (0, 6, 0); (1, 6, 0); (2, 6, 0); (3, 6, 0); (4, 6, 0); (5, 6, 0)]
    [(0, 1, 6); (1, 2, 6); (2, 3, 6); (3, 4, 6); (4, 5, 6); (5, 0, 6)].
Lemma hex_triangulation N : triangulation (zlen (o_points (hex_out N))) (map fst (o_edges (hex_out N))) (o_tris (hex_out N)).
Proof.
  constructor; cbn [hex_out o_points o_edges o_tris map fst].
  - intros a b H. cbn in H. unfold zlen; cbn [length]. repeat destruct H as [H|H]; try injection H as <- <-; try contradiction; lia.
  - intros i j s s' Hi Hj E. nth_cases; try reflexivity; discriminate E.
  - intros t H. cbn [In] in H. repeat destruct H as [<-|H]; try contradiction; repeat constructor; cbn; intuition lia.
  - intros t s Ht H. cbn [In] in Ht. repeat destruct Ht as [<-|Ht]; try contradiction; cbn in H; repeat destruct H as [<-|H]; try contradiction;
    apply existsb_exists; reflexivity.
Qed.
Ltac open_hex := cbn [hex_out o_edges o_tris]; split; [cbn [app]; sector_ok|]; split; [cbn [app]; nodup_ok|]; split; [cbn [app]; around_ok|markers_ok].
Lemma hex_fans : fans (hex_out RNum).
Proof.
  intros v H. assert (v = 6 \/ v = 0 \/ v = 1 \/ v = 2 \/ v = 3 \/ v = 4 \/ v = 5) as [->|[->|[->|[->|[->|[->| ->]]]]]] by (cbn in H; lia); clear H.
  - left. exists [0; 1; 2; 3; 4; 5], [0; 1; 2; 3; 4; 5]%nat. exists 0, [1; 2; 3; 4; 5]. split; [reflexivity|]. cbn [hex_out o_edges o_tris app].
    split; [sector_ok|]. split; [nodup_ok|]. split; [cbn; lia|around_ok].
  - right. exists 1, [6], 5, [0; 5]%nat. open_hex.
  - right. exists 2, [6], 0, [1; 0]%nat. open_hex.
  - right. exists 3, [6], 1, [2; 1]%nat. open_hex.
  - right. exists 4, [6], 2, [3; 2]%nat. open_hex.
  - right. exists 5, [6], 3, [4; 3]%nat. open_hex.
  - right. exists 0, [6], 4, [5; 4]%nat. open_hex.
Qed.
Lemma hex_points_R : map read_point (o_points (hex_out RNum)) = [bp 4 0; bp 2 3; bp (-2) 3; bp (-4) 0; bp (-2) (-3); bp 2 (-3); mkPoint (N := RNum) 0 0 false false]%R.
Proof. reflexivity. Qed.
Lemma hex_delaunay : delaunay_output (hex_out RNum).
Proof.
  split.
  - intros t A B C Ht H. unfold output_sites. rewrite hex_points_R in *. cbn [hex_out o_tris In] in Ht.
    repeat destruct Ht as [<-|Ht]; try contradiction; corners_R H; delaunay_R.
  - unfold directed_once. cbn [hex_out o_tris]. nodirected.
Qed.
Lemma hex_proper t A B C : In t (o_tris (hex_out RNum)) -> vertices_are (map read_point (o_points (hex_out RNum))) (corners t) [A; B; C] ->
  orient (xy A) (xy B) (xy C) <> 0%R.
Proof. intros Ht H. destruct (proj1 hex_delaunay t A B C Ht H) as [O _]. lra. Qed.
Lemma hex_center k c : center_of (hex_out RNum) k c ->
  (xy c = (2, 5 / 6) \/ xy c = (0, 13 / 6) \/ xy c = (-2, 5 / 6) \/ xy c = (-2, -5 / 6) \/ xy c = (0, -13 / 6) \/ xy c = (2, -5 / 6))%R.
Proof.
  intros (t & A & B & C & Hk & H & CC). 
  assert (NZ : orient (xy A) (xy B) (xy C) <> 0%R) by (apply (hex_proper t); [eapply nth_error_In; exact Hk|exact H]).
  rewrite hex_points_R in H. cbn [hex_out o_tris] in Hk.
  destruct (proj1 (circumcenter_correct A B C) NZ) as (c' & E' & D1 & D2 & _). rewrite CC in E'. injection E' as <-. clear CC NZ.
  apply dist_eq in D1; apply dist_eq in D2. destruct c as [x y b1 b2]. unfold xy in D1, D2 |- *. cbn [px py] in *.
  nth_cases; corners_R H; unfold vdot, vsub in *; cbn [fst snd px py bp] in *.
  - left; f_equal; lra.
  - right; left; f_equal; lra.
  - right; right; left; f_equal; lra.
  - right; right; right; left; f_equal; lra.
  - right; right; right; right; left; f_equal; lra.
  - right; right; right; right; right; f_equal; lra.
Qed.
Lemma hex_sources : sources_apart (1 / 100000)%R (hex_out RNum).
Proof.
  apply (grid_apart _ _ [-4; -3; -2; -1; 0; 1; 2; 3; 4]%R [-3; -13 / 6; -3 / 2; -5 / 6; 0; 5 / 6; 3 / 2; 13 / 6; 3]%R); [lra| |apart_list|apart_list].
  intros x (v & H). destruct H as [t A B C Ht Hv V CC|e m He TV LI M ->|q V ->].
  - apply In_nth_error in Ht as (k & Hk). assert (K : center_of (hex_out RNum) k x) by (exists t, A, B, C; auto). apply hex_center in K. unfold xy in K.
    repeat destruct K as [E|K]; try injection E as -> ->; try injection K as -> ->; split; in_list.
  - rewrite hex_points_R in M. cbn [hex_out o_edges In] in He.
    repeat destruct He as [<-|He]; try contradiction; cbn [fst snd] in M; eapply middle_R in M; try reflexivity; cbn [px py bp] in M; unfold xy in M; injection M as M1 M2; split; cbn [setBoundary px py]; rewrite ?M1, ?M2; in_list.
  - apply at_site in V. rewrite hex_points_R in V. cbn [In] in V. repeat destruct V as [<-|V]; try contradiction; cbn [setBoundary px py bp]; split; in_list.
Qed.
Lemma hex_rim v w1 w2 : border_corner (hex_out RNum) v w1 w2 -> (0 <= v < 6 /\ w1 = (v + 1) mod 6 /\ w2 = (v + 5) mod 6)%Z.
Proof.
  intros BC. pose proof (corner_rim _ (hex_triangulation _) (proj2 hex_delaunay) _ _ _ BC) as R. destruct (rim_sides _ (hex_triangulation _) _ _ _ R) as (NO & (t & Ht & S) & (t' & Ht' & S')).
  assert (N1 : ~ In (w1, v) (flat_map sides (o_tris (hex_out RNum)))) by (intros H; apply in_flat_map in H as (s & Hs & H); apply (proj1 (NO s Hs) H)).
  assert (N2 : ~ In (v, w2) (flat_map sides (o_tris (hex_out RNum)))) by (intros H; apply in_flat_map in H as (s & Hs & H); apply (proj2 (NO s Hs) H)).
  assert (I1 : In (v, w1) (flat_map sides (o_tris (hex_out RNum)))) by (apply in_flat_map; eauto).
  assert (I2 : In (w2, v) (flat_map sides (o_tris (hex_out RNum)))) by (apply in_flat_map; eauto). clear - N1 N2 I1 I2.
  cbn [hex_out o_tris flat_map sides app] in *.
  assert (K : forall (l : list (Z * Z)) p, In p l -> existsb (fun q => (fst q =? fst p) && (snd q =? snd p))%Z l = true).
  { intros l p H. apply existsb_exists. exists p. split; [exact H|]. rewrite !Z.eqb_refl. reflexivity. }
  assert (K' : forall (l : list (Z * Z)) p, existsb (fun q => (fst q =? fst p) && (snd q =? snd p))%Z l = true -> In p l).
  { intros l [a b] H. apply existsb_exists in H as ([c d] & H & E). cbn in E. apply andb_prop in E as [E1 E2]. apply Z.eqb_eq in E1, E2. subst. exact H. }
  cbn [In] in I1. repeat destruct I1 as [I1|I1]; try contradiction; injection I1 as <- <-; try (exfalso; apply N1; apply K'; reflexivity);
  cbn [In] in I2; repeat destruct I2 as [I2|I2]; try contradiction; try discriminate I2; injection I2 as <-; try (exfalso; apply N2; apply K'; reflexivity); (split; [lia|]); split; reflexivity.
Qed.
Lemma hex_border : convex_border (1 / 100000)%R (hex_out RNum).
Proof.
  intros v w1 w2 site a b BC V. apply hex_rim in BC as (Rg & E1 & E2). unfold output_sites. rewrite hex_points_R in *.
  assert (v = 0 \/ v = 1 \/ v = 2 \/ v = 3 \/ v = 4 \/ v = 5)%Z as [->|[->|[->|[->|[->| ->]]]]] by lia; cbn in E1, E2; subst w1 w2; clear Rg; corners_R V;
  (split; [|split; [|split; [|split]]]);
  try (intros q Hq; apply dist_le; cbn [map In] in Hq; unfold midpoint, vdot, vsub, xy in *; cbn [fst snd px py bp] in *; repeat destruct Hq as [<-|Hq]; try contradiction; cbn [fst snd] in *; lra);
  try (left; unfold orient, vcross, vsub, xy; cbn [fst snd px py bp]; lra);
  try (right; unfold orient, vcross, vsub, xy; cbn [fst snd px py bp]; lra);
  cbn [map In]; unfold wedge, orient, vcross, vsub, xy; cbn [fst snd px py bp];
  intros s H; repeat destruct H as [<-|H]; try contradiction; cbn [fst snd]; split; lra.
Qed.
Lemma hex_domain : convex_domain (1 / 100000)%R (hex_out RNum).
Proof.
  constructor; [apply hex_triangulation|exact hex_delaunay| |exact hex_sources|exact hex_fans|exact hex_border].
  unfold output_sites. rewrite hex_points_R. cbn [map]. unfold xy. cbn [px py bp].
  repeat (constructor; [cbn [In]; intros H; repeat destruct H as [H|H]; try contradiction; injection H; intros; lra|]). constructor.
Qed.
Lemma hex_used : all_used (hex_out RNum).
Proof. intros i H. unfold zlen in H. cbn in H. assert (i = 0 \/ i = 1 \/ i = 2 \/ i = 3 \/ i = 4 \/ i = 5 \/ i = 6)%Z as [->|[->|[->|[->|[->|[->| ->]]]]]] by lia; cbn; tauto. Qed.
Lemma hex_read : exists d, read_output (N := RNum) (1 / 100000)%R (hex_out RNum) = Ok d.
Proof. apply read_output_total; [apply hex_triangulation|exact hex_proper]. Qed.
