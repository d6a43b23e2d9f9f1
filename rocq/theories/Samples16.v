(** Example data for T_Any: a square with a square hole around the origin, triangulated with eight more points on its outer border. *)
From Coq Require Import Reals Lra Lia ZArith List Bool.
From Verif Require Import Base Spec MUtil MGeom MHull MPolygon MMaps MTriangle MGen MRegion MDelaunay MVoronoi Bridge BridgeTile BridgeHist BridgeFill BridgeAny.
From Verif Require Import PUtil PPoint PTri PPoly2 PRegion PDelaunay PVoronoi PFan PVorGeo PVorCell PDual PDualR PHist PTile4 PTile5 PFill PAny6 Samples Samples6 Samples7 Samples8 Samples15.
Import ListNotations.
Local Open Scope Z_scope.

Definition ring_out (N : Num) : trout N :=
  mkTrout (N := N) [(nZ (-3), nZ (-3), 1); (nZ (-1), nZ (-3), 1); (nZ 1, nZ (-3), 1); (nZ 3, nZ (-3), 1); (nZ (-3), nZ (-1), 1); (nZ (-1), nZ (-1), 1); (nZ 1, nZ (-1), 1); (nZ 3, nZ (-1), 1); (nZ (-3), nZ 1, 1); (nZ (-1), nZ 1, 1); (nZ 1, nZ 1, 1); (nZ 3, nZ 1, 1); (nZ (-3), nZ 3, 1); (nZ (-1), nZ 3, 1); (nZ 1, nZ 3, 1); (nZ 3, nZ 3, 1)]
    [(0, 1, 1); (1, 5, 0); (5, 0, 0); (5, 4, 0); (4, 0, 1); (1, 2, 1); (2, 6, 0); (6, 1, 0); (6, 5, 1); (2, 3, 1); (3, 7, 1); (7, 2, 0); (7, 6, 0); (5, 9, 1); (9, 4, 0); (9, 8, 0); (8, 4, 1); (7, 11, 1); (11, 6, 0); (11, 10, 0); (10, 6, 1); (9, 13, 0); (13, 8, 0); (13, 12, 1); (12, 8, 1); (9, 10, 1); (10, 14, 0); (14, 9, 0); (14, 13, 1); (11, 15, 1); (15, 10, 0); (15, 14, 1)]
    [(0, 1, 5); (0, 5, 4); (1, 2, 6); (1, 6, 5); (2, 3, 7); (2, 7, 6); (4, 5, 9); (4, 9, 8); (6, 7, 11); (6, 11, 10); (8, 9, 13); (8, 13, 12); (9, 10, 14); (9, 14, 13); (10, 11, 15); (10, 15, 14)].
Lemma ring_triangulation N : triangulation (zlen (o_points (ring_out N))) (map fst (o_edges (ring_out N))) (o_tris (ring_out N)).
Proof.
  constructor; cbn [ring_out o_points o_edges o_tris map fst].
  - intros a b H. cbn in H. unfold zlen; cbn [length]. repeat destruct H as [H|H]; try injection H as <- <-; try contradiction; lia.
  - intros i j s s' Hi Hj E. nth_cases; try reflexivity; discriminate E.
  - intros t H. cbn [In] in H. repeat destruct H as [<-|H]; try contradiction; repeat constructor; cbn; intuition lia.
  - intros t s Ht H. cbn [In] in Ht. repeat destruct Ht as [<-|Ht]; try contradiction; cbn in H; repeat destruct H as [<-|H]; try contradiction;
    apply existsb_exists; reflexivity.
Qed.
Ltac open_ring := cbn [ring_out o_edges o_tris]; split; [cbn [app]; sector_ok|]; split; [cbn [app]; nodup_ok|]; split; [cbn [app]; around_ok|markers_ok].
Lemma ring_fans : fans (ring_out RNum).
Proof.
  intros v H. assert (v = 0 \/ v = 1 \/ v = 2 \/ v = 3 \/ v = 4 \/ v = 5 \/ v = 6 \/ v = 7 \/ v = 8 \/ v = 9 \/ v = 10 \/ v = 11 \/ v = 12 \/ v = 13 \/ v = 14 \/ v = 15) as [->|[->|[->|[->|[->|[->|[->|[->|[->|[->|[->|[->|[->|[->|[->| ->]]]]]]]]]]]]]]] by (cbn in H; lia); clear H.
  - right. exists 1, [5], 4, [0; 1]%nat. open_ring.
  - right. exists 2, [6; 5], 0, [2; 3; 0]%nat. open_ring.
  - right. exists 3, [7; 6], 1, [4; 5; 2]%nat. open_ring.
  - right. exists 7, [], 2, [4]%nat. open_ring.
  - right. exists 0, [5; 9], 8, [1; 6; 7]%nat. open_ring.
  - right. exists 9, [4; 0; 1], 6, [6; 1; 0; 3]%nat. open_ring.
  - right. exists 5, [1; 2; 7; 11], 10, [3; 2; 5; 8; 9]%nat. open_ring.
  - right. exists 11, [6; 2], 3, [8; 5; 4]%nat. open_ring.
  - right. exists 4, [9; 13], 12, [7; 10; 11]%nat. open_ring.
  - right. exists 10, [14; 13; 8; 4], 5, [12; 13; 10; 7; 6]%nat. open_ring.
  - right. exists 6, [11; 15; 14], 9, [9; 14; 15; 12]%nat. open_ring.
  - right. exists 15, [10; 6], 7, [14; 9; 8]%nat. open_ring.
  - right. exists 8, [], 13, [11]%nat. open_ring.
  - right. exists 12, [8; 9], 14, [11; 10; 13]%nat. open_ring.
  - right. exists 13, [9; 10], 15, [13; 12; 15]%nat. open_ring.
  - right. exists 14, [10], 11, [15; 14]%nat. open_ring.
Qed.
Lemma ring_points_R : map read_point (o_points (ring_out RNum)) =
  [bp (-3) (-3); bp (-1) (-3); bp 1 (-3); bp 3 (-3); bp (-3) (-1); bp (-1) (-1); bp 1 (-1); bp 3 (-1); bp (-3) 1; bp (-1) 1; bp 1 1; bp 3 1; bp (-3) 3; bp (-1) 3; bp 1 3; bp 3 3]%R.
Proof. reflexivity. Qed.
Lemma ring_delaunay : delaunay_output (ring_out RNum).
Proof.
  split.
  - intros t A B C Ht H. unfold output_sites. rewrite ring_points_R in *. cbn [ring_out o_tris In] in Ht.
    repeat destruct Ht as [<-|Ht]; try contradiction; corners_R H; delaunay_R.
  - unfold directed_once. cbn [ring_out o_tris]. nodirected.
Qed.
Lemma ring_proper t A B C : In t (o_tris (ring_out RNum)) -> vertices_are (map read_point (o_points (ring_out RNum))) (corners t) [A; B; C] ->
  orient (xy A) (xy B) (xy C) <> 0%R.
Proof. intros Ht H. destruct (proj1 ring_delaunay t A B C Ht H) as [O _]. lra. Qed.
Lemma ring_center k c : center_of (ring_out RNum) k c -> (xy c = ((-2), (-2)) \/ xy c = (0, (-2)) \/ xy c = (2, (-2)) \/ xy c = ((-2), 0) \/ xy c = (2, 0) \/ xy c = ((-2), 2) \/ xy c = (0, 2) \/ xy c = (2, 2))%R.
Proof.
  intros (t & A & B & C & Hk & H & CC).
  assert (NZ : orient (xy A) (xy B) (xy C) <> 0%R) by (apply (ring_proper t); [eapply nth_error_In; exact Hk|exact H]).
  rewrite ring_points_R in H. cbn [ring_out o_tris] in Hk.
  destruct (proj1 (circumcenter_correct A B C) NZ) as (c' & E' & D1 & D2 & _). rewrite CC in E'. injection E' as <-. clear CC NZ.
  apply dist_eq in D1; apply dist_eq in D2. destruct c as [x y b1 b2]. unfold xy in D1, D2 |- *. cbn [px py] in *.
  nth_cases; corners_R H; unfold vdot, vsub in *; cbn [fst snd px py bp] in *.
  1, 2: left; f_equal; lra.
  1, 2: right; left; f_equal; lra.
  1, 2: right; right; left; f_equal; lra.
  1, 2: right; right; right; left; f_equal; lra.
  1, 2: right; right; right; right; left; f_equal; lra.
  1, 2: right; right; right; right; right; left; f_equal; lra.
  1, 2: right; right; right; right; right; right; left; f_equal; lra.
  1, 2: right; right; right; right; right; right; right; f_equal; lra.
Qed.
Lemma ring_sources : sources_apart (1 / 100000)%R (ring_out RNum).
Proof.
  apply (grid_apart _ _ [-3; -2; -1; 0; 1; 2; 3]%R [-3; -2; -1; 0; 1; 2; 3]%R); [lra| |apart_list|apart_list].
  intros x (v & H). destruct H as [t A B C Ht Hv V CC|e m He TV LI M ->|q V ->].
  - apply In_nth_error in Ht as (k & Hk). assert (K : center_of (ring_out RNum) k x) by (exists t, A, B, C; auto). apply ring_center in K. unfold xy in K.
    repeat destruct K as [E|K]; try injection E as -> ->; try injection K as -> ->; split; in_list.
  - rewrite ring_points_R in M. cbn [ring_out o_edges In] in He.
    repeat destruct He as [<-|He]; try contradiction; cbn [fst snd] in M; eapply middle_R in M; try reflexivity; cbn [px py bp] in M; unfold xy in M; injection M as M1 M2; split; cbn [setBoundary px py]; rewrite ?M1, ?M2;
      try (exfalso; clear - LI; cbn in LI; lia); in_list.
  - apply at_site in V. rewrite ring_points_R in V. cbn [In] in V. repeat destruct V as [<-|V]; try contradiction; cbn [setBoundary px py bp]; split; in_list.
Qed.
Lemma ring_answer : delaunay_answer (1 / 100000)%R (ring_out RNum).
Proof.
  constructor; [apply ring_triangulation|exact ring_delaunay|exact ring_fans| | |].
  - apply integer_separated; [lra|]. rewrite ring_points_R. intros q H. cbn [In] in H. repeat destruct H as [<-|H]; try contradiction; do 2 eexists; split; reflexivity.
  - rewrite ring_points_R. intros i j a b Hi Hj D [C1 C2]. unfold xy in C1, C2; cbn [fst snd] in C1, C2.
    nth_cases; try (apply D; reflexivity); cbn [px py bp] in C1, C2; clear D; apply Rabs_def2 in C1, C2; lra.
  - intros k k' c c' H H' [C1 C2]. apply ring_center in H, H'. apply Rabs_def2 in C1, C2.
    repeat destruct H as [H|H]; repeat destruct H' as [H'|H']; rewrite H, H' in *; cbn [fst snd] in *; try reflexivity; lra.
Qed.

(** the square with the hole as a region; the hole, given by its corners, reports the origin as its center *)
Definition plate : list (Point RNum) := ([mkP (N := RNum) (-3) (-3); mkP (N := RNum) 3 (-3); mkP (N := RNum) 3 3; mkP (N := RNum) (-3) 3])%R.
Definition gap : list (Point RNum) := ([mkP (N := RNum) (-1) (-1); mkP (N := RNum) (-1) 1; mkP (N := RNum) 1 1; mkP (N := RNum) 1 (-1)])%R.
Definition h_gap : hole RNum := ok_or (mkHole (N := RNum) [] (mkP (N := RNum) 0%R 0%R) []) (polygonalHole (N := RNum) 1%R gap).
Lemma h_gap_ok : polygonalHole (N := RNum) 1%R gap = Ok h_gap.
Proof. unfold h_gap. rewrite polygonalHole_ok. reflexivity. Qed.
Lemma h_gap_points : h_points h_gap = gap.
Proof. unfold h_gap. rewrite polygonalHole_ok. reflexivity. Qed.
Definition r_frame0 : region RNum := ok_or (mkRegion (N := RNum) poly_none [] [] []) (region_ctor (N := RNum) 1%R plate).
Lemma r_frame0_ok : region_ctor (N := RNum) 1%R plate = Ok r_frame0.
Proof. unfold r_frame0, region_ctor. destruct (proj2 (ctors_never_throw RNum 1%R [] plate)) as (g & -> & _). reflexivity. Qed.
Lemma r_frame0_points : rg_p r_frame0 = plate.
Proof. unfold r_frame0, region_ctor. destruct (proj2 (ctors_never_throw RNum 1%R [] plate)) as (g & -> & _). reflexivity. Qed.
Definition r_frame : region RNum := mkRegion (N := RNum) (rg_poly r_frame0) (rg_p r_frame0) [h_gap] (rg_seeds r_frame0).
Lemma r_frame_made : region_made r_frame.
Proof. apply (rm_getHoles (N := RNum)); [exact (rm_ctor _ _ _ r_frame0_ok)|]. constructor; [exact (built_polygonal _ _ _ h_gap_ok)|constructor]. Qed.
Lemma r_frame_points : rg_p r_frame = plate.
Proof. exact r_frame0_points. Qed.
Lemma r_frame_all : getRegionPoints r_frame = plate ++ gap.
Proof. unfold getRegionPoints. rewrite r_frame_points. unfold r_frame. cbn [rg_holes flat_map]. rewrite h_gap_points, app_nil_r. reflexivity. Qed.
Definition frame_seeds : list (Point RNum) := [mkP (N := RNum) (-1) (-3)]%R.
Lemma frame_separated : separated (1 / 100000)%R (fun q => In q (frame_seeds ++ getRegionPoints r_frame)).
Proof.
  rewrite r_frame_all. apply integer_separated; [lra|]. unfold plate, gap, frame_seeds. cbn [app In]. intros q H.
  repeat destruct H as [<-|H]; try contradiction; do 2 eexists; split; reflexivity.
Qed.
Lemma frame_outer : (0 <= shoelace (map xy (rg_p r_frame)))%R.
Proof. rewrite r_frame_points. unfold plate, shoelace, edges_of, xy, vcross, mkP. cbn. lra. Qed.
Lemma frame_inner : Forall2 (fun (h : hole RNum) l => (l = map xy (h_points h) \/ l = rev (map xy (h_points h))) /\ (shoelace l <= 0)%R) (rg_holes r_frame) [map xy gap].
Proof.
  constructor; [|constructor]. rewrite h_gap_points. split; [left; reflexivity|]. unfold gap, shoelace, edges_of, xy, vcross, mkP. cbn. lra.
Qed.
Definition one_sided (tris : list (Z * Z * Z)) : list (Z * Z) :=
  filter (fun e => negb (existsb (fun e' => (fst e' =? snd e) && (snd e' =? fst e)) (flat_map sides tris))) (flat_map sides tris).
Lemma border_one_sided tris a b : border_side tris a b <-> In (a, b) (one_sided tris).
Proof.
  unfold border_side, one_sided. rewrite filter_In, in_flat_map, negb_true_iff, <- not_true_iff_false, existsb_exists. cbn [fst snd]. split.
  - intros [(t & Ht & S) NO]. split; [eauto|]. intros ([c d] & H & E). apply andb_prop in E as [E1 E2]. apply Z.eqb_eq in E1, E2. cbn [fst snd] in *. subst c d.
    apply in_flat_map in H as (t' & Ht' & S'). exact (NO t' Ht' S').
  - intros [(t & Ht & S) NO]. split; [eauto|]. intros t' Ht' S'. apply NO. exists (b, a). split; [apply in_flat_map; eauto|]. cbn [fst snd]. rewrite !Z.eqb_refl. reflexivity.
Qed.
Lemma ring_border a b : border_side (o_tris (ring_out RNum)) a b <-> exists ring, In ring [[0; 1; 2; 3; 7; 11; 15; 14; 13; 12; 8; 4]; [5; 9; 10; 6]] /\ In (a, b) (edges_of ring).
Proof.
  rewrite border_one_sided. split.
  - intros H. cbn in H. repeat destruct H as [H|H]; try contradiction; injection H as <- <-;
    first [exists [0; 1; 2; 3; 7; 11; 15; 14; 13; 12; 8; 4]; split; [left; reflexivity|cbn; tauto]|exists [5; 9; 10; 6]; split; [right; left; reflexivity|cbn; tauto]].
  - intros (ring & Hr & H). cbn [In] in Hr. destruct Hr as [<-|[<-|[]]]; cbn in H; repeat destruct H as [H|H]; try contradiction; injection H as <- <-; cbn; tauto.
Qed.
Ltac str := repeat split; try exact I; first [exists (1 / 3)%R; split; [lra|unfold lerp; cbn [fst snd]; f_equal; lra]|exists (1 / 2)%R; split; [lra|unfold lerp; cbn [fst snd]; f_equal; lra]].
Lemma ring_strung : subdivides (map xy [bp (-3) (-3); bp (-1) (-3); bp 1 (-3); bp 3 (-3); bp 3 (-1); bp 3 1; bp 3 3; bp 1 3; bp (-1) 3; bp (-3) 3; bp (-3) 1; bp (-3) (-1)])%R (map xy plate).
Proof.
  unfold subdivides, plate. cbn [map app]. unfold xy, bp, mkP. cbn [px py].
  apply (sp_edge ((-3), (-3))%R (3, (-3))%R _ [((-1), (-3))%R; (1, (-3))%R]); [str|].
  apply (sp_edge (3, (-3))%R (3, 3)%R _ [(3, (-1))%R; (3, 1)%R]); [str|].
  apply (sp_edge (3, 3)%R ((-3), 3)%R _ [(1, 3)%R; ((-1), 3)%R]); [str|].
  apply (sp_edge ((-3), 3)%R ((-3), (-3))%R [] [((-3), 1)%R; ((-3), (-1))%R] []); [str|].
  apply sp_one.
Qed.
Lemma gap_strung : subdivides (map xy [bp (-1) (-1); bp (-1) 1; bp 1 1; bp 1 (-1)])%R (map xy gap).
Proof.
  unfold subdivides, gap. cbn [map app]. unfold xy, bp, mkP. cbn [px py].
  apply (sp_edge ((-1), (-1))%R ((-1), 1)%R _ []); [exact I|].
  apply (sp_edge ((-1), 1)%R (1, 1)%R _ []); [exact I|].
  apply (sp_edge (1, 1)%R (1, (-1))%R _ []); [exact I|].
  apply (sp_edge (1, (-1))%R ((-1), (-1))%R [] [] []); [exact I|].
  apply sp_one.
Qed.
Lemma ring_step a b : border_side (o_tris (ring_out RNum)) a b -> In (a, b) [(0, 1); (4, 0); (1, 2); (6, 5); (2, 3); (3, 7); (5, 9); (8, 4); (7, 11); (10, 6); (13, 12); (12, 8); (9, 10); (14, 13); (11, 15); (15, 14)].
Proof. intros H. apply border_one_sided in H. exact H. Qed.
Lemma ring_fills : fills_any (1 / 100000)%R (map xy (rg_p r_frame) :: [map xy gap]) (ring_out RNum).
Proof.
  rewrite r_frame_points. constructor.
  - exists [[0; 1; 2; 3; 7; 11; 15; 14; 13; 12; 8; 4]; [5; 9; 10; 6]]. split; [exact ring_border|]. split; [cbn [concat app]; nodup_ok|]. rewrite ring_points_R. constructor; [|constructor; [|constructor]].
    + eexists. split; [|exact ring_strung]. repeat constructor; try lia.
    + eexists. split; [|exact gap_strung]. repeat constructor; try lia.
  - intros a b A B HB V. apply ring_step in HB. unfold output_sites. rewrite ring_points_R in *. cbn [In] in HB.
    repeat destruct HB as [HB|HB]; try contradiction; injection HB as <- <-; ends_R V; intros q Hq; apply dist_le; cbn [map In] in Hq; unfold midpoint, vdot, vsub, xy in *; cbn [fst snd px py bp] in *;
    repeat destruct Hq as [<-|Hq]; try contradiction; cbn [fst snd] in *; lra.
  - intros a b c A B C HB HC V w x W (t & Ht & Hb & Hw) NE. apply ring_step in HB, HC. rewrite ring_points_R in *. cbn [In] in HB.
    repeat destruct HB as [HB|HB]; try contradiction; injection HB as <- <-; cbn [In] in HC; repeat destruct HC as [HC|HC]; try contradiction; try discriminate HC; injection HC as <-; corners_R V;
    cbn [ring_out o_tris In] in Ht; repeat destruct Ht as [<-|Ht]; try contradiction; cbn [corners In] in Hb;
    try (exfalso; clear - Hb; lia); clear Hb; cbn [corners In] in Hw; repeat destruct Hw as [<-|Hw]; try contradiction; try (exfalso; apply NE; reflexivity); clear NE;
    inversion_clear W as [|? ? ? ? [_ W1] _]; injection W1 as <-;
    unfold inner_side, wedge, orient, vcross, vsub, xy; cbn [fst snd px py bp]; destruct Rlt_dec; try (exfalso; lra); try (split; lra); intros [K1 K2]; lra.
  - intros a b c A B C HB HC V. apply ring_step in HB, HC. rewrite ring_points_R in *. cbn [In] in HB.
    repeat destruct HB as [HB|HB]; try contradiction; injection HB as <- <-; cbn [In] in HC; repeat destruct HC as [HC|HC]; try contradiction; try discriminate HC; injection HC as <-; corners_R V;
    unfold orient, vcross, vsub, xy; cbn [fst snd px py bp]; first [left; lra|right; unfold Rabs; destruct Rcase_abs; lra].
Qed.
Lemma ring_domain : any_domain (1 / 100000)%R (ring_out RNum).
Proof. apply (any_fill_domain _ _ _ ring_answer ring_sources) with (2 := ring_fills). lra. Qed.
Lemma ring_read : exists d, read_output (N := RNum) (1 / 100000)%R (ring_out RNum) = Ok d.
Proof. exact (read_output_total _ _ (da_triangulation _ _ ring_answer) (delaunay_proper _ (da_delaunay _ _ ring_answer))). Qed.
