(** Example data for T_Fill: a square with a seed in the middle, triangulated with four more points on its border. *)
From Coq Require Import Reals Lra Lia ZArith List Bool.
From Verif Require Import Base Spec MUtil MGeom MHull MPolygon MMaps MTriangle MGen MRegion MDelaunay MVoronoi Bridge BridgeTile BridgeHist BridgeFill.
From Verif Require Import PUtil PPoint PTri PPoly2 PDelaunay PVoronoi PFan PVorGeo PVorCell PDual PDualR PHist PTile4 PTile5 PFill Samples Samples6 Samples7 Samples8.
Import ListNotations.
Local Open Scope Z_scope.

Definition win_out (N : Num) : trout N :=
  mkTrout (N := N) [(nZ 2, nZ 0, 1); (nZ 2, nZ 2, 1); (nZ 0, nZ 2, 1); (nZ (-2), nZ 2, 1); (nZ (-2), nZ 0, 1); (nZ (-2), nZ (-2), 1); (nZ 0, nZ (-2), 1); (nZ 2, nZ (-2), 1); (nZ 0, nZ 0, 0)]
    [(0, 1, 1); (1, 2, 1); (2, 3, 1); (3, 4, 1); (4, 5, 1); (5, 6, 1); (6, 7, 1); (7, 0, 1);
     (0, 8, 0); (1, 8, 0); (2, 8, 0); (3, 8, 0); (4, 8, 0); (5, 8, 0); (6, 8, 0); (7, 8, 0)]
    [(0, 1, 8); (1, 2, 8); (2, 3, 8); (3, 4, 8); (4, 5, 8); (5, 6, 8); (6, 7, 8); (7, 0, 8)].
Lemma win_triangulation N : triangulation (zlen (o_points (win_out N))) (map fst (o_edges (win_out N))) (o_tris (win_out N)).
Proof.
  constructor; cbn [win_out o_points o_edges o_tris map fst].
  - intros a b H. cbn in H. unfold zlen; cbn [length]. repeat destruct H as [H|H]; try injection H as <- <-; try contradiction; lia.
  - intros i j s s' Hi Hj E. nth_cases; try reflexivity; discriminate E.
  - intros t H. cbn [In] in H. repeat destruct H as [<-|H]; try contradiction; repeat constructor; cbn; intuition lia.
  - intros t s Ht H. cbn [In] in Ht. repeat destruct Ht as [<-|Ht]; try contradiction; cbn in H; repeat destruct H as [<-|H]; try contradiction;
    apply existsb_exists; reflexivity.
Qed.
Ltac open_win := cbn [win_out o_edges o_tris]; split; [cbn [app]; sector_ok|]; split; [cbn [app]; nodup_ok|]; split; [cbn [app]; around_ok|markers_ok].
Lemma win_fans : fans (win_out RNum).
Proof.
  intros v H. assert (v = 8 \/ v = 0 \/ v = 1 \/ v = 2 \/ v = 3 \/ v = 4 \/ v = 5 \/ v = 6 \/ v = 7) as [->|[->|[->|[->|[->|[->|[->|[->| ->]]]]]]]] by (cbn in H; lia); clear H.
  - left. exists [0; 1; 2; 3; 4; 5; 6; 7], [0; 1; 2; 3; 4; 5; 6; 7]%nat. exists 0, [1; 2; 3; 4; 5; 6; 7]. split; [reflexivity|]. cbn [win_out o_edges o_tris app].
    split; [sector_ok|]. split; [nodup_ok|]. split; [cbn; lia|around_ok].
  - right. exists 1, [8], 7, [0; 7]%nat. open_win.
  - right. exists 2, [8], 0, [1; 0]%nat. open_win.
  - right. exists 3, [8], 1, [2; 1]%nat. open_win.
  - right. exists 4, [8], 2, [3; 2]%nat. open_win.
  - right. exists 5, [8], 3, [4; 3]%nat. open_win.
  - right. exists 6, [8], 4, [5; 4]%nat. open_win.
  - right. exists 7, [8], 5, [6; 5]%nat. open_win.
  - right. exists 0, [8], 6, [7; 6]%nat. open_win.
Qed.
Lemma win_points_R : map read_point (o_points (win_out RNum)) =
  [bp 2 0; bp 2 2; bp 0 2; bp (-2) 2; bp (-2) 0; bp (-2) (-2); bp 0 (-2); bp 2 (-2); mkPoint (N := RNum) 0 0 false false]%R.
Proof. reflexivity. Qed.
Lemma win_delaunay : delaunay_output (win_out RNum).
Proof.
  split.
  - intros t A B C Ht H. unfold output_sites. rewrite win_points_R in *. cbn [win_out o_tris In] in Ht.
    repeat destruct Ht as [<-|Ht]; try contradiction; corners_R H; delaunay_R.
  - unfold directed_once. cbn [win_out o_tris]. nodirected.
Qed.
Lemma win_proper t A B C : In t (o_tris (win_out RNum)) -> vertices_are (map read_point (o_points (win_out RNum))) (corners t) [A; B; C] ->
  orient (xy A) (xy B) (xy C) <> 0%R.
Proof. intros Ht H. destruct (proj1 win_delaunay t A B C Ht H) as [O _]. lra. Qed.
Lemma win_center k c : center_of (win_out RNum) k c -> (xy c = (1, 1) \/ xy c = (-1, 1) \/ xy c = (-1, -1) \/ xy c = (1, -1))%R.
Proof.
  intros (t & A & B & C & Hk & H & CC).
  assert (NZ : orient (xy A) (xy B) (xy C) <> 0%R) by (apply (win_proper t); [eapply nth_error_In; exact Hk|exact H]).
  rewrite win_points_R in H. cbn [win_out o_tris] in Hk.
  destruct (proj1 (circumcenter_correct A B C) NZ) as (c' & E' & D1 & D2 & _). rewrite CC in E'. injection E' as <-. clear CC NZ.
  apply dist_eq in D1; apply dist_eq in D2. destruct c as [x y b1 b2]. unfold xy in D1, D2 |- *. cbn [px py] in *.
  nth_cases; corners_R H; unfold vdot, vsub in *; cbn [fst snd px py bp] in *.
  1, 2: left; f_equal; lra.
  1, 2: right; left; f_equal; lra.
  1, 2: right; right; left; f_equal; lra.
  1, 2: right; right; right; f_equal; lra.
Qed.
Lemma win_sources : sources_apart (1 / 100000)%R (win_out RNum).
Proof.
  apply (grid_apart _ _ [-2; -1; 0; 1; 2]%R [-2; -1; 0; 1; 2]%R); [lra| |apart_list|apart_list].
  intros x (v & H). destruct H as [t A B C Ht Hv V CC|e m He TV LI M ->|q V ->].
  - apply In_nth_error in Ht as (k & Hk). assert (K : center_of (win_out RNum) k x) by (exists t, A, B, C; auto). apply win_center in K. unfold xy in K.
    repeat destruct K as [E|K]; try injection E as -> ->; try injection K as -> ->; split; in_list.
  - rewrite win_points_R in M. cbn [win_out o_edges In] in He.
    repeat destruct He as [<-|He]; try contradiction; cbn [fst snd] in M; eapply middle_R in M; try reflexivity; cbn [px py bp] in M; unfold xy in M; injection M as M1 M2; split; cbn [setBoundary px py]; rewrite ?M1, ?M2;
      try (exfalso; clear - LI; cbn in LI; lia); in_list.
  - apply at_site in V. rewrite win_points_R in V. cbn [In] in V. repeat destruct V as [<-|V]; try contradiction; cbn [setBoundary px py bp]; split; in_list.
Qed.
Lemma win_answer : delaunay_answer (1 / 100000)%R (win_out RNum).
Proof.
  constructor; [apply win_triangulation|exact win_delaunay|exact win_fans| | |].
  - apply integer_separated; [lra|]. rewrite win_points_R. intros q H. cbn [In] in H. repeat destruct H as [<-|H]; try contradiction; do 2 eexists; split; reflexivity.
  - rewrite win_points_R. intros i j a b Hi Hj D [C1 C2]. unfold xy in C1, C2; cbn [fst snd] in C1, C2.
    nth_cases; try (apply D; reflexivity); cbn [px py bp] in C1, C2; clear D; apply Rabs_def2 in C1, C2; lra.
  - intros k k' c c' H H' [C1 C2]. apply win_center in H, H'. apply Rabs_def2 in C1, C2.
    destruct H as [H|[H|[H|H]]], H' as [H'|[H'|[H'|H']]]; rewrite H, H' in *; cbn [fst snd] in *; try reflexivity; lra.
Qed.

(** the square as a region *)
Definition win : list (Point RNum) := ([mkP (N := RNum) 2 2; mkP (N := RNum) (-2) 2; mkP (N := RNum) (-2) (-2); mkP (N := RNum) 2 (-2)])%R.
Definition r_win : region RNum := ok_or (mkRegion (N := RNum) poly_none [] [] []) (region_ctor (N := RNum) 1%R win).
Lemma r_win_ok : region_ctor (N := RNum) 1%R win = Ok r_win.
Proof. unfold r_win, region_ctor. destruct (proj2 (ctors_never_throw RNum 1%R [] win)) as (g & -> & _). reflexivity. Qed.
Lemma r_win_made : region_made r_win.
Proof. exact (rm_ctor _ _ _ r_win_ok). Qed.
Lemma r_win_parts : rg_p r_win = win /\ rg_holes r_win = [].
Proof. unfold r_win, region_ctor. destruct (proj2 (ctors_never_throw RNum 1%R [] win)) as (g & -> & _). split; reflexivity. Qed.
Definition win_seeds : list (Point RNum) := [mkP (N := RNum) 0 0]%R.
Lemma win_separated : separated (1 / 100000)%R (fun q => In q (win_seeds ++ rg_p r_win)).
Proof.
  rewrite (proj1 r_win_parts). apply integer_separated; [lra|]. unfold win, win_seeds. cbn [app In]. intros q H.
  repeat destruct H as [<-|H]; try contradiction; do 2 eexists; split; reflexivity.
Qed.
Lemma win_apart q q' : In q (win_seeds ++ rg_p r_win) -> In q' (win_seeds ++ rg_p r_win) -> coincide (1 / 100000)%R (xy q) (xy q') -> xy q = xy q'.
Proof.
  rewrite (proj1 r_win_parts). unfold win, win_seeds. cbn [app In]. intros H H' [C1 C2]. apply Rabs_def2 in C1, C2.
  repeat destruct H as [<-|H]; try contradiction; repeat destruct H' as [<-|H']; try contradiction; unfold xy, mkP in *; cbn [px py fst snd] in *; try reflexivity; lra.
Qed.
Lemma win_convex : convex_outline (map xy (rg_p r_win)).
Proof.
  rewrite (proj1 r_win_parts). unfold win. cbn [map]. unfold convex_outline. intros a b v H H'. cbn [edges_of app pairs In] in H. cbn [In] in H'.
  repeat destruct H as [H|H]; try contradiction; injection H as <- <-; repeat destruct H' as [<-|H']; try contradiction;
  unfold orient, vcross, vsub, xy, mkP; cbn [px py fst snd]; lra.
Qed.
Ltac ends_R H := unfold vertices_are in H;
  inversion_clear H as [|? ? ? ? [_ H1] H2]; inversion_clear H2 as [|? ? ? ? [_ H3] H4]; injection H1 as <-; injection H3 as <-.
Lemma win_border a b : border_side (o_tris (win_out RNum)) a b <-> In (a, b) (edges_of [1; 2; 3; 4; 5; 6; 7; 0]).
Proof.
  unfold border_side. cbn [win_out o_tris edges_of app pairs]. split.
  - intros [(t & Ht & S) NO]. cbn [In] in Ht. repeat destruct Ht as [<-|Ht]; try contradiction; cbn [sides In] in S; repeat destruct S as [S|S]; try contradiction; injection S as <- <-;
    try (cbn [In]; tauto); exfalso.
    all: match goal with NO : forall t, _ -> ~ In (?b, ?a) (sides t) |- _ =>
      first [apply (NO (0, 1, 8)); [cbn [In]; tauto|cbn [sides In]; tauto]|apply (NO (1, 2, 8)); [cbn [In]; tauto|cbn [sides In]; tauto]
            |apply (NO (2, 3, 8)); [cbn [In]; tauto|cbn [sides In]; tauto]|apply (NO (3, 4, 8)); [cbn [In]; tauto|cbn [sides In]; tauto]
            |apply (NO (4, 5, 8)); [cbn [In]; tauto|cbn [sides In]; tauto]|apply (NO (5, 6, 8)); [cbn [In]; tauto|cbn [sides In]; tauto]
            |apply (NO (6, 7, 8)); [cbn [In]; tauto|cbn [sides In]; tauto]|apply (NO (7, 0, 8)); [cbn [In]; tauto|cbn [sides In]; tauto]] end.
  - intros H. cbn [In] in H. repeat destruct H as [H|H]; try contradiction; injection H as <- <-;
    (split; [|intros t Ht S; cbn [In] in Ht; repeat destruct Ht as [<-|Ht]; try contradiction; cbn [sides In] in S; repeat destruct S as [S|S]; try contradiction; discriminate S]);
    match goal with |- exists t, _ /\ In (?a, ?b) _ => exists (a, b, 8) end; (split; [cbn [In]; tauto|cbn [sides In]; left; reflexivity]).
Qed.
Lemma win_strung : subdivides (map xy [bp 2 2; bp 0 2; bp (-2) 2; bp (-2) 0; bp (-2) (-2); bp 0 (-2); bp 2 (-2); bp 2 0])%R (map xy win).
Proof.
  unfold subdivides, win. cbn [map app]. unfold xy, bp, mkP. cbn [px py].
  assert (K : forall a b c : pt, c = lerp a b (1 / 2) -> strung a b [c]) by (intros a b c ->; split; [exists (1 / 2)%R; split; [lra|reflexivity]|exact I]).
  apply (sp_edge (2, 2)%R (-2, 2)%R _ [(0, 2)%R]); [apply K; unfold lerp; cbn [fst snd]; f_equal; lra|].
  apply (sp_edge (-2, 2)%R (-2, -2)%R _ [(-2, 0)%R]); [apply K; unfold lerp; cbn [fst snd]; f_equal; lra|].
  apply (sp_edge (-2, -2)%R (2, -2)%R _ [(0, -2)%R]); [apply K; unfold lerp; cbn [fst snd]; f_equal; lra|].
  apply (sp_edge (2, -2)%R (2, 2)%R [] [(2, 0)%R] []); [apply K; unfold lerp; cbn [fst snd]; f_equal; lra|]. apply sp_one.
Qed.
Lemma win_fills given : (forall x, In x given <-> In x (map xy (win_seeds ++ rg_p r_win))) -> fills (1 / 100000)%R (map xy (rg_p r_win)) given (win_out RNum).
Proof.
  intros GI. destruct r_win_parts as [RP _]. rewrite RP in *. constructor.
  - intros q Hq. apply GI in Hq. unfold output_sites. rewrite win_points_R. unfold win, win_seeds, mkP, bp in *. cbn [app map In] in *. unfold xy in *. cbn [px py] in *. tauto.
  - intros q Hq. unfold output_sites in Hq. rewrite win_points_R in Hq. unfold win. cbn [map In] in *. intros [u1 u2].
    assert (K : exists p, In p [(2, 2); (-2, 2); (-2, -2); (2, -2)]%R /\ (vdot (u1, u2) q <= vdot (u1, u2) p)%R); [|exact K].
    assert (B : (-2 <= fst q <= 2 /\ -2 <= snd q <= 2)%R) by (repeat destruct Hq as [<-|Hq]; try contradiction; unfold xy, bp; cbn [px py fst snd]; lra).
    destruct (Rle_lt_dec 0 u1), (Rle_lt_dec 0 u2); [exists (2, 2)%R|exists (2, -2)%R|exists (-2, 2)%R|exists (-2, -2)%R]; (split; [cbn [In]; tauto|]); unfold vdot; cbn [fst snd]; nra.
  - intros i H. unfold zlen in H. cbn in H. assert (i = 0 \/ i = 1 \/ i = 2 \/ i = 3 \/ i = 4 \/ i = 5 \/ i = 6 \/ i = 7 \/ i = 8) as E by lia.
    repeat destruct E as [->|E]; try rewrite E; cbn; tauto.
  - exists [1; 2; 3; 4; 5; 6; 7; 0]. eexists. split; [exact win_border|]. split; [nodup_ok|]. split; [|exact win_strung]. rewrite win_points_R. repeat constructor; try lia.
  - intros a b A B HB V. apply win_border in HB. unfold output_sites. rewrite win_points_R in *. cbn [edges_of app pairs In] in HB.
    repeat destruct HB as [HB|HB]; try contradiction; injection HB as <- <-; ends_R V; intros q Hq; apply dist_le; cbn [map In] in Hq; unfold midpoint, vdot, vsub, xy in *; cbn [fst snd px py bp] in *;
    repeat destruct Hq as [<-|Hq]; try contradiction; cbn [fst snd] in *; lra.
  - intros a b c A B C HB HC V. apply win_border in HB, HC. rewrite win_points_R in *. cbn [edges_of app pairs In] in HB, HC.
    repeat destruct HB as [HB|HB]; try contradiction; injection HB as <- <-; repeat destruct HC as [HC|HC]; try contradiction; try discriminate HC; injection HC as <-; corners_R V;
    unfold orient, vcross, vsub, xy; cbn [fst snd px py bp]; first [left; lra|right; lra].
Qed.
