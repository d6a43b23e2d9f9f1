(** Example data for T_VorCell: the Voronoi cells of a rectangle with an inner point and of a square, over the reals. *)
From Coq Require Import Reals Lra Lia ZArith List Bool.
From Verif Require Import Base Spec MUtil MGeom MHull MPolygon MMaps MTriangle MGen MRegion MDelaunay MVoronoi Bridge.
From Verif Require Import PUtil PPoint PTri PDelaunay PVoronoi PFan PVorGeo PVorCell PDual PDualR Samples.
Import ListNotations.
Local Open Scope Z_scope.

Ltac corners_R H := unfold vertices_are in H; cbn [corners] in H;
  inversion_clear H as [|? ? ? ? [_ H1] H2]; inversion_clear H2 as [|? ? ? ? [_ H3] H4]; inversion_clear H4 as [|? ? ? ? [_ H5] H6];
  injection H1 as <-; injection H3 as <-; injection H5 as <-.
Ltac nodirected := intros k k' t t' s Hk Hk' S1 S2; nth_cases; try reflexivity; exfalso; cbn [sides In] in S1, S2;
  repeat match goal with H : _ \/ _ |- _ => destruct H as [H|H] | H : False |- _ => destruct H end; congruence.
Ltac delaunay_R := split; [unfold orient, vcross, vsub, xy; cbn [fst snd px py bp]; lra|];
  let z := fresh "z" in let E1 := fresh in let E2 := fresh in let q := fresh "q" in let Hq := fresh in
  intros z E1 E2 q Hq; apply dist_eq in E1; apply dist_eq in E2; apply dist_le; cbn [map In] in Hq;
  unfold vdot, vsub, xy in *; cbn [fst snd px py bp] in *;
  repeat destruct Hq as [<-|Hq]; try contradiction; cbn [fst snd px py bp] in *; lra.
Lemma wheel_delaunay : delaunay_output (wheel_out RNum).
Proof.
  split.
  - intros t A B C Ht H. unfold output_sites. rewrite wheel_points_R in *. cbn [wheel_out o_tris In] in Ht.
    destruct Ht as [<-|[<-|[<-|[<-|[]]]]]; corners_R H; delaunay_R.
  - unfold directed_once. cbn [wheel_out o_tris]. nodirected.
Qed.
Lemma sq_delaunay : delaunay_output (sq_out RNum).
Proof.
  split.
  - intros t A B C Ht H. unfold output_sites. rewrite sq_points_R in *. cbn [sq_out o_tris In] in Ht.
    destruct Ht as [<-|[<-|[]]]; corners_R H; delaunay_R.
  - unfold directed_once. cbn [sq_out o_tris]. nodirected.
Qed.
(** the circumcenters of the wheel *)
Lemma wheel_center k c : center_of (wheel_out RNum) k c ->
  (k = 0%nat /\ xy c = (4, -11 / 4) \/ k = 1%nat /\ xy c = (63 / 10, 3) \/ k = 2%nat /\ xy c = (4, 47 / 8) \/ k = 3%nat /\ xy c = (1 / 6, 3))%R.
Proof.
  intros (t & A & B & C & Hk & H & CC). rewrite wheel_points_R in H. cbn [wheel_out o_tris] in Hk.
  assert (NZ : orient (xy A) (xy B) (xy C) <> 0%R).
  { apply (wheel_proper t); [eapply nth_error_In; exact Hk|rewrite wheel_points_R; exact H]. }
  destruct (proj1 (circumcenter_correct A B C) NZ) as (c' & E' & D1 & D2 & _). rewrite CC in E'. injection E' as <-. clear CC NZ.
  apply dist_eq in D1; apply dist_eq in D2. destruct c as [x y b1 b2]. unfold xy in D1, D2 |- *. cbn [px py] in *.
  nth_cases; corners_R H; unfold vdot, vsub in *; cbn [fst snd px py bp] in *.
  - left; split; [reflexivity|]; f_equal; lra.
  - right; left; split; [reflexivity|]; f_equal; lra.
  - right; right; left; split; [reflexivity|]; f_equal; lra.
  - right; right; right; split; [reflexivity|]; f_equal; lra.
Qed.
Lemma wheel_centers_apart : centers_apart (1 / 100000)%R (wheel_out RNum).
Proof.
  intros k k' c c' H H' [C1 C2]. apply wheel_center in H, H'. apply Rabs_def2 in C1, C2.
  destruct H as [[_ E]|[[_ E]|[[_ E]|[_ E]]]], H' as [[_ E']|[[_ E']|[[_ E']|[_ E']]]]; rewrite E, E' in *; cbn [fst snd] in *; try reflexivity; exfalso; lra.
Qed.
Lemma sq_corner1 : open_fan (o_edges (sq_out RNum)) (o_tris (sq_out RNum)) 1%Z 0%Z [] 2%Z [0]%nat.
Proof. open_ok. Qed.
Lemma sq_fans v : In v (flat_map corners (o_tris (sq_out RNum))) ->
  (exists ws ts, closed_fan (map fst (o_edges (sq_out RNum))) (o_tris (sq_out RNum)) v ws ts) \/
  (exists w ws w' ts, open_fan (o_edges (sq_out RNum)) (o_tris (sq_out RNum)) v w ws w' ts).
Proof.
  intros H. right. assert (v = 0 \/ v = 1 \/ v = 2 \/ v = 3)%Z as [->|[->|[->| ->]]] by (cbn in H; lia); clear H.
  - exists 1%Z, [2]%Z, 3%Z, [0; 1]%nat. open_ok.
  - do 4 eexists. apply sq_corner1.
  - exists 1%Z, [0]%Z, 3%Z, [0; 1]%nat. open_ok.
  - exists 0%Z, [], 2%Z, [1]%nat. open_ok.
Qed.
(** at the corner (0, 0) of the square the two edges have empty diametral circles and the corner is convex *)
Lemma sq_gabriel : gabriel_edge (output_sites (sq_out RNum)) (0, 0)%R (4, 0)%R /\ gabriel_edge (output_sites (sq_out RNum)) (0, 0)%R (0, 4)%R /\
  convex_corner (0, 0)%R (4, 0)%R (0, 4)%R.
Proof.
  unfold output_sites. rewrite sq_points_R. split; [|split].
  - intros q Hq. apply dist_le. cbn [map In] in Hq. unfold midpoint, vdot, vsub, xy in *; cbn [fst snd px py bp] in *.
    repeat destruct Hq as [<-|Hq]; try contradiction; cbn [fst snd] in *; lra.
  - intros q Hq. apply dist_le. cbn [map In] in Hq. unfold midpoint, vdot, vsub, xy in *; cbn [fst snd px py bp] in *.
    repeat destruct Hq as [<-|Hq]; try contradiction; cbn [fst snd] in *; lra.
  - left. unfold orient, vcross, vsub; cbn [fst snd]. lra.
Qed.
Lemma sq_nonobtuse t A B C : In t (o_tris (sq_out RNum)) -> vertices_are (map read_point (o_points (sq_out RNum))) (corners t) [A; B; C] ->
  nonobtuse (xy A) (xy B) (xy C).
Proof.
  rewrite sq_points_R. cbn [sq_out o_tris In]. intros [<-|[<-|[]]] H; corners_R H; unfold nonobtuse, vdot, vsub, xy; cbn [fst snd px py bp]; repeat split; lra.
Qed.
(** a cell of the wheel leaves the rectangle *)
Lemma wheel_leaves : exists (o : trout RNum) d m g y, triangulation (zlen (o_points o)) (map fst (o_edges o)) (o_tris o) /\ delaunay_output o /\
  read_output (N := RNum) (1 / 100000)%R o = Ok d /\ voronoi (N := RNum) (1 / 100000)%R 5 d = Ok m /\
  In g (ms_polygons m) /\ (exists i, In i (pg_points g) /\ vertices_are (ul_list (ms_points m)) [i] [y]) /\ ~ in_hull (output_sites o) (xy y).
Proof.
  destruct (read_output_total (1 / 100000)%R (wheel_out RNum) (wheel_triangulation RNum) wheel_proper) as (d & RO).
  destruct (inner_regions_exact (1 / 100000)%R 5 (wheel_out RNum) d ltac:(lra) wheel_centers_apart (wheel_triangulation RNum) wheel_delaunay RO (wheel_fans RNum) ltac:(cbn; lia)) as (m & V & _).
  destruct (inner_regions (1 / 100000)%R 5 (wheel_out RNum) d ltac:(lra) (wheel_triangulation RNum) wheel_delaunay RO (wheel_fans RNum) ltac:(cbn; lia)) as (m' & V' & F).
  rewrite V in V'. injection V' as <-.
  assert (H4 : In 4%Z (dedup (flat_map corners (o_tris (wheel_out RNum))))) by (vm_compute; tauto).
  destruct (Forall2_in_left _ _ _ F 4%Z H4) as (g & Hg & H). destruct (H _ _ (wheel_inner RNum)) as (site & cs & vs & S1 & S2 & S3 & S4 & _).
  assert (ES : xy site = (3, 2)%R).
  { rewrite wheel_points_R in S1. inversion_clear S1 as [|? ? ? ? [_ H1] _]. injection H1 as <-. reflexivity. }
  assert (RG : voronoi_region (output_sites (wheel_out RNum)) (xy site) (4, - (11 / 4))%R).
  { rewrite ES. unfold output_sites. rewrite wheel_points_R. intros q Hq. apply dist_le. cbn [map In] in Hq. unfold vdot, vsub, xy in *; cbn [fst snd px py bp] in *.
    repeat destruct Hq as [<-|Hq]; try contradiction; cbn [fst snd] in *; lra. }
  apply S3 in RG. destruct (RG (0, -1)%R) as (c & Hc & L). destruct (S4 c Hc) as (p & Hp & [_ C2]). apply in_map_iff in Hp as (y & <- & Hy).
  destruct (in_located _ _ _ _ S2 Hy) as (i & Hi & Y).
  exists (wheel_out RNum), d, m, g, y. split; [apply wheel_triangulation|]. split; [exact wheel_delaunay|]. split; [exact RO|]. split; [exact V|]. split; [exact Hg|].
  split; [exists i; split; [exact Hi|exact Y]|]. intros HU. destruct (HU (0, -1)%R) as (q & Hq & Lq). apply Rabs_def2 in C2.
  unfold output_sites in Hq. rewrite wheel_points_R in Hq. cbn [map In] in Hq. unfold vdot, xy in *; cbn [fst snd px py bp] in *.
  repeat destruct Hq as [<-|Hq]; try contradiction; cbn [fst snd] in *; lra.
Qed.

(** the points the cells of the wheel are made of are told apart *)
Lemma middle_R (p : list (Point RNum)) i j A B m : nth_error p (Z.to_nat i) = Some A -> nth_error p (Z.to_nat j) = Some B ->
  iseg_middle (N := RNum) p (i, j) = Ok m -> xy (setBoundary m) = ((px A + px B) / 2, (py A + py B) / 2)%R.
Proof.
  intros HA HB H. unfold iseg_middle, vget, vgetn in H. cbn [fst snd] in H. destruct (i <? 0); [discriminate H|]. rewrite HA in H. cbn [bind] in H.
  destruct (j <? 0); [discriminate H|]. rewrite HB in H. cbn [bind] in H. injection H as <-. reflexivity.
Qed.
Lemma far (tol : R) (a b : pt) x y x' y' : (a = (x, y) -> b = (x', y') -> tol <= x - x' \/ tol <= x' - x \/ tol <= y - y' \/ tol <= y' - y -> ~ coincide tol a b)%R.
Proof. intros -> -> H [C1 C2]. cbn [fst snd] in *. apply Rabs_def2 in C1, C2. lra. Qed.
Ltac far_R := first [left; lra|right; left; lra|right; right; left; lra|right; right; right; lra].
Lemma wheel_distinct : distinct_sources (N := RNum) (1 / 100000)%R (wheel_out RNum).
Proof.
  split.
  - intros k k' c c' H H' NE. apply apart_told; [lra|]. apply wheel_center in H, H'.
    destruct H as [[-> E]|[[-> E]|[[-> E]|[-> E]]]], H' as [[-> E']|[[-> E']|[[-> E']|[-> E']]]]; try (exfalso; apply NE; reflexivity);
    apply (far _ _ _ _ _ _ _ E E'); far_R.
  - intros k t c e m Hk H He M1 HS MI. apply apart_told; [lra|]. apply wheel_center in H. rewrite wheel_points_R in MI.
    cbn [wheel_out o_edges In] in He. cbn [wheel_out o_tris] in Hk.
    destruct He as [<-|[<-|[<-|[<-|[<-|[<-|[<-|[<-|[]]]]]]]]]; try discriminate M1; cbn [fst snd] in MI;
    eapply middle_R in MI; try reflexivity; cbn [px py bp] in MI;
    destruct H as [[-> E]|[[-> E]|[[-> E]|[-> E]]]]; cbn [nth_error] in Hk; injection Hk as <-; try discriminate HS;
    apply (far _ _ _ _ _ _ _ MI E); far_R.
  - intros k c e v q H He M1 TV VQ. apply apart_told; [lra|]. apply wheel_center in H. rewrite wheel_points_R in VQ.
    unfold vertices_are in VQ. inversion_clear VQ as [|? ? ? ? [_ Q] _].
    cbn [wheel_out o_edges In] in He.
    assert (V : v = 0 \/ v = 1 \/ v = 2 \/ v = 3).
    { destruct He as [<-|[<-|[<-|[<-|[<-|[<-|[<-|[<-|[]]]]]]]]]; try discriminate M1; apply touches_iff in TV; cbn [fst snd] in TV; lia. }
    destruct V as [->|[->|[->| ->]]]; cbn [Z.to_nat Pos.to_nat Pos.iter_op Nat.add nth_error] in Q; injection Q as <-;
    destruct H as [[-> E]|[[-> E]|[[-> E]|[-> E]]]]; eapply (far _ _ _ _ _ _ _ eq_refl E); cbn [setBoundary px py bp]; far_R.
Qed.
Lemma wheel_stored_once : centers_stored_once (1 / 100000)%R (wheel_out RNum).
Proof.
  right. intros k k' c c' H H' EQ. apply wheel_center in H, H'.
  destruct H as [[-> E]|[[-> E]|[[-> E]|[-> E]]]], H' as [[-> E']|[[-> E']|[[-> E']|[-> E']]]]; try reflexivity; exfalso; rewrite E, E' in EQ; injection EQ; lra.
Qed.
Lemma dist_less x p q : (2 * vdot (vsub q p) (vsub x p) < vdot (vsub q p) (vsub q p) -> dist x p < dist x q)%R.
Proof.
  intros H. apply Rnot_le_lt. intros L. apply dist_le in L. unfold vdot, vsub in *; cbn [fst snd] in *. lra.
Qed.
Lemma wheel_sides :
  (forall s, In s (output_sites (wheel_out RNum)) -> s <> (3, 2)%R -> (dist (7 / 2, 5 / 2) (3, 2) < dist (7 / 2, 5 / 2) s)%R) /\
  (exists s, In s (output_sites (wheel_out RNum)) /\ (dist (1 / 4, 1 / 4) s < dist (1 / 4, 1 / 4) (3, 2))%R).
Proof.
  unfold output_sites. rewrite wheel_points_R. split.
  - intros s Hs N. cbn [map In] in Hs. unfold xy in Hs; cbn [px py bp] in Hs.
    repeat destruct Hs as [<-|Hs]; try contradiction; apply dist_less; unfold vdot, vsub; cbn [fst snd]; lra.
  - exists (0, 0)%R. split; [left; unfold xy; cbn [px py bp]; reflexivity|]. apply dist_less. unfold vdot, vsub; cbn [fst snd]; lra.
Qed.
