(** Example data for the cells at the border: a square, and a rectangle whose corner cell crosses itself. *)
From Coq Require Import Reals Lra Lia ZArith List Bool.
From Verif Require Import Base Spec MUtil MGeom MHull MPolygon MMaps MTriangle MGen MRegion MDelaunay MVoronoi Bridge.
From Verif Require Import PUtil PPoint PTri PMore PDelaunay PVoronoi PFan PVorGeo PVorCell PConvex PVorConvex PVorLocate PWedge PBorderCell PVorBorder Samples Samples6.
Import ListNotations.
Local Open Scope Z_scope.

(** points with coordinates in two lists of numbers far from each other *)
Lemma grid_apart (tol : R) (P : Point RNum -> Prop) (X Y : list R) : (0 < tol)%R -> (forall x, P x -> In (px x) X /\ In (py x) Y) ->
  (forall a b, In a X -> In b X -> a = b \/ tol <= Rabs (a - b))%R -> (forall a b, In a Y -> In b Y -> a = b \/ tol <= Rabs (a - b))%R ->
  separated tol P /\ forall x x', P x -> P x' -> coincide tol (xy x) (xy x') -> xy x = xy x'.
Proof.
  intros TP H HX HY. split.
  - apply separated_grid. intros a b Ha Hb. destruct (H a Ha), (H b Hb). auto.
  - intros x x' Hx Hx' [C1 C2]. destruct (H x Hx) as [A1 A2], (H x' Hx') as [B1 B2]. unfold xy in *. cbn [fst snd] in *.
    destruct (HX _ _ A1 B1) as [E1|E1]; [|lra]. destruct (HY _ _ A2 B2) as [E2|E2]; [|lra]. congruence.
Qed.
Ltac apart_list := let a := fresh in let b := fresh in let Ha := fresh in let Hb := fresh in intros a b Ha Hb; cbn [In] in Ha, Hb;
  repeat destruct Ha as [<-|Ha]; try contradiction; repeat destruct Hb as [<-|Hb]; try contradiction;
  first [left; reflexivity|right; unfold Rabs; destruct Rcase_abs; lra].
Lemma in_eq_R (a b : R) l : a = b -> In a (b :: l).
Proof. intros ->. left. reflexivity. Qed.
Ltac in_list := cbn [In]; repeat first [left; lra|right].
Lemma sq_center k c : center_of (sq_out RNum) k c -> xy c = (2, 2)%R.
Proof.
  intros (t & A & B & C & Hk & H & CC). rewrite sq_points_R in H. cbn [sq_out o_tris] in Hk.
  assert (NZ : orient (xy A) (xy B) (xy C) <> 0%R).
  { apply (sq_proper t); [eapply nth_error_In; exact Hk|rewrite sq_points_R; exact H]. }
  destruct (proj1 (circumcenter_correct A B C) NZ) as (c' & E' & D1 & D2 & _). rewrite CC in E'. injection E' as <-. clear CC NZ.
  apply dist_eq in D1; apply dist_eq in D2. destruct c as [x y b1 b2]. unfold xy in D1, D2 |- *. cbn [px py] in *.
  nth_cases; corners_R H; unfold vdot, vsub in *; cbn [fst snd px py bp] in *; f_equal; lra.
Qed.
Lemma at_site (l : list (Point RNum)) v q : vertices_are l [v] [q] -> In q l.
Proof. intros H. inversion_clear H as [|? ? ? ? [_ H1] _]. eapply nth_error_In; exact H1. Qed.
Lemma sq_sources : sources_apart (1 / 100000)%R (sq_out RNum).
Proof.
  apply (grid_apart _ _ [0; 2; 4]%R [0; 2; 4]%R); [lra| |apart_list|apart_list].
  intros x (v & H). destruct H as [t A B C Ht Hv V CC|e m He TV LI M ->|q V ->].
  - apply In_nth_error in Ht as (k & Hk). assert (E : xy x = (2, 2)%R) by (apply (sq_center k); exists t, A, B, C; auto). unfold xy in E. injection E as -> ->. split; in_list.
  - rewrite sq_points_R in M. cbn [sq_out o_edges In] in He.
    repeat destruct He as [<-|He]; try contradiction; cbn [fst snd] in M; eapply middle_R in M; try reflexivity; cbn [px py bp] in M; unfold xy in M; injection M as M1 M2; split; cbn [setBoundary px py]; rewrite ?M1, ?M2; in_list.
  - apply at_site in V. rewrite sq_points_R in V. cbn [In] in V. repeat destruct V as [<-|V]; try contradiction; cbn [setBoundary px py bp]; split; in_list.
Qed.
Lemma wheel_sources : sources_apart (1 / 100000)%R (wheel_out RNum).
Proof.
  apply (grid_apart _ _ [0; 1 / 6; 3 / 2; 3; 4; 11 / 2; 63 / 10; 8]%R [-11 / 4; 0; 1; 2; 3; 4; 47 / 8; 6]%R); [lra| |apart_list|apart_list].
  intros x (v & H). destruct H as [t A B C Ht Hv V CC|e m He TV LI M ->|q V ->].
  - apply In_nth_error in Ht as (k & Hk). assert (K : center_of (wheel_out RNum) k x) by (exists t, A, B, C; auto). apply wheel_center in K. unfold xy in K.
    destruct K as [[_ E]|[[_ E]|[[_ E]|[_ E]]]]; injection E as -> ->; split; in_list.
  - rewrite wheel_points_R in M. cbn [wheel_out o_edges In] in He.
    repeat destruct He as [<-|He]; try contradiction; cbn [fst snd] in M; eapply middle_R in M; try reflexivity; cbn [px py bp] in M; unfold xy in M; injection M as M1 M2; split; cbn [setBoundary px py]; rewrite ?M1, ?M2; in_list.
  - apply at_site in V. rewrite wheel_points_R in V. cbn [In] in V. repeat destruct V as [<-|V]; try contradiction; cbn [setBoundary px py bp]; split; in_list.
Qed.
Lemma sq_wedge s : In s (output_sites (sq_out RNum)) -> wedge (0, 0)%R (4, 0)%R (0, 4)%R s.
Proof.
  unfold output_sites. rewrite sq_points_R. cbn [map In]. unfold wedge, orient, vcross, vsub, xy; cbn [fst snd px py bp].
  intros H. repeat destruct H as [<-|H]; try contradiction; cbn [fst snd]; split; lra.
Qed.
Lemma wheel_wedge s : In s (output_sites (wheel_out RNum)) -> wedge (0, 0)%R (8, 0)%R (0, 6)%R s.
Proof.
  unfold output_sites. rewrite wheel_points_R. cbn [map In]. unfold wedge, orient, vcross, vsub, xy; cbn [fst snd px py bp].
  intros H. repeat destruct H as [<-|H]; try contradiction; cbn [fst snd]; split; lra.
Qed.
(** a point nearest to the corner of the square, a point nearer to another corner and a point outside of it *)
Lemma sq_points : (forall s, In s (output_sites (sq_out RNum)) -> s <> (0, 0)%R -> (dist (1, 1) (0, 0) < dist (1, 1) s)%R) /\
  (0 < orient (0, 0) (4, 0) (1, 1))%R /\ (orient (0, 0) (0, 4) (1, 1) < 0)%R /\
  (exists s, In s (output_sites (sq_out RNum)) /\ (dist (3, 1) s < dist (3, 1) (0, 0))%R) /\ ~ wedge (0, 0)%R (4, 0)%R (0, 4)%R (1, -1)%R.
Proof.
  unfold output_sites. rewrite sq_points_R. cbn [map]. split; [|split; [|split; [|split]]].
  - intros s Hs N. apply dist_less. cbn [In] in Hs. unfold vdot, vsub, xy in *; cbn [fst snd px py bp] in *.
    destruct Hs as [<-|Hs]; [exfalso; apply N; reflexivity|]. repeat destruct Hs as [<-|Hs]; try contradiction; cbn [fst snd]; lra.
  - unfold orient, vcross, vsub; cbn [fst snd]. lra.
  - unfold orient, vcross, vsub; cbn [fst snd]. lra.
  - exists (4, 0)%R. split; [right; left; reflexivity|]. apply dist_less. unfold vdot, vsub; cbn [fst snd]. lra.
  - unfold wedge, orient, vcross, vsub; cbn [fst snd]. lra.
Qed.

(** the cell of the corner (0, 0) of the wheel *)
Lemma dedup_id l : NoDup l -> dedup l = l.
Proof.
  induction l as [|x l IH] using rev_ind; intros ND; [reflexivity|]. apply NoDup_remove in ND as [ND N]. rewrite app_nil_r in *. rewrite dedup_snoc by exact N. rewrite IH by exact ND. reflexivity.
Qed.
Lemma five_crossing (pts : list pt) : (pts = [(4, 0); (4, -11 / 4); (1 / 6, 3); (0, 3); (0, 0)] \/ pts = [(0, 3); (1 / 6, 3); (4, -11 / 4); (4, 0); (0, 0)] \/
   pts = rev [(4, 0); (4, -11 / 4); (1 / 6, 3); (0, 3); (0, 0)] \/ pts = rev [(0, 3); (1 / 6, 3); (4, -11 / 4); (4, 0); (0, 0)])%R ->
  exists a b c d, In (a, b) (edges_of pts) /\ In (c, d) (edges_of pts) /\ crossing a b c d.
Proof.
  intros [->|[->|[->| ->]]].
  - exists (4, -11 / 4)%R, (1 / 6, 3)%R, (0, 0)%R, (4, 0)%R. split; [cbn; auto 10|]. split; [cbn; auto 10|]. unfold crossing, orient, vcross, vsub; cbn [fst snd]. lra.
  - exists (1 / 6, 3)%R, (4, -11 / 4)%R, (4, 0)%R, (0, 0)%R. split; [cbn; auto 10|]. split; [cbn; auto 10|]. unfold crossing, orient, vcross, vsub; cbn [fst snd]. lra.
  - exists (1 / 6, 3)%R, (4, -11 / 4)%R, (4, 0)%R, (0, 0)%R. split; [cbn; auto 10|]. split; [cbn; auto 10|]. unfold crossing, orient, vcross, vsub; cbn [fst snd]. lra.
  - exists (4, -11 / 4)%R, (1 / 6, 3)%R, (0, 0)%R, (4, 0)%R. split; [cbn; auto 10|]. split; [cbn; auto 10|]. unfold crossing, orient, vcross, vsub; cbn [fst snd]. lra.
Qed.
Lemma wheel_crosses : exists (o : trout RNum) d m g vs a b c e, sources_apart (1 / 100000)%R o /\ triangulation (zlen (o_points o)) (map fst (o_edges o)) (o_tris o) /\ delaunay_output o /\
  read_output (N := RNum) (1 / 100000)%R o = Ok d /\ voronoi (N := RNum) (1 / 100000)%R 5 d = Ok m /\
  In g (ms_polygons m) /\ vertices_are (ul_list (ms_points m)) (pg_points g) vs /\
  In (a, b) (edges_of (map xy vs)) /\ In (c, e) (edges_of (map xy vs)) /\ crossing a b c e.
Proof.
  destruct (read_output_total (1 / 100000)%R (wheel_out RNum) (wheel_triangulation RNum) wheel_proper) as (d & RO).
  assert (TP : (0 < 1 / 100000)%R) by lra.
  destruct (regions_built (1 / 100000)%R 5 (wheel_out RNum) d (fun a b => coincide (1 / 100000) a b) TP ltac:(auto) ltac:(auto) (wheel_triangulation RNum) wheel_delaunay RO (wheel_fans RNum) ltac:(cbn; lia)) as (m & ci & gs & V & E & CI & F).
  destruct (border_stored (1 / 100000)%R 5 (wheel_out RNum) d m TP wheel_sources (wheel_triangulation RNum) RO V) as [STA INJ].
  assert (H0 : In 0%Z (dedup (flat_map corners (o_tris (wheel_out RNum))))) by (vm_compute; tauto).
  destruct (Forall2_in_left _ _ _ F 0%Z H0) as ([g segs] & Hg & _ & H). specialize (H _ _ _ _ (wheel_corner RNum)). cbn [fst snd] in H.
  assert (Gm : In g (ms_polygons m)) by (rewrite <- E; apply in_map_iff; exists (g, segs); auto).
  set (o := wheel_out RNum) in *. set (tol := (1 / 100000)%R) in *.
  destruct H as (u & u' & l & ia & ib & q & fi & z & qf & qz & cell & UL & MA & MB & HQ & HF & HZ & VFZ & PT & CELL).
  assert (EI : forall u, u = 1 \/ u = 3 -> (length (incident (o_tris o) (0%Z, u)) <= 1)%nat) by (eapply end_incident; [apply wheel_triangulation|apply wheel_corner]).
  assert (PO : pos o 0 = (0, 0)%R /\ pos o 1 = (8, 0)%R /\ pos o 3 = (0, 6)%R) by (unfold pos, o; rewrite wheel_points_R; repeat split; reflexivity).
  destruct PO as (PO0 & PO1 & PO3).
  assert (EU : u = 1 \/ u = 3) by tauto. assert (EU' : u' = 1 \/ u' = 3) by tauto.
  pose proof (middle_exact tol o _ STA 0 u ia (EI u EU) MA) as SA. pose proof (middle_exact tol o _ STA 0 u' ib (EI u' EU') MB) as SB.
  assert (CK : forall k x y, center_of o k x -> xy x = y -> stored o (ul_list (ms_points m)) (ci k) y).
  { intros k x y C EX. pose proof C as (t & _ & _ & _ & Hk & _). destruct (CI k t Hk) as (c & yy & C' & Y & Q). rewrite (center_det o k c x C' C) in Q.
    destruct (STA (ci k) x (center_source o k x C)) as (y' & Y' & E').
    - exists yy. split; [exact Y|]. right. apply (incomparable_coincide tol TP). exact Q.
    - exists y', x. split; [exact Y'|]. split; [congruence|]. split; [exact (center_source o k x C)|exact EX]. }
  assert (C0 : stored o (ul_list (ms_points m)) (ci 0%nat) (4, -11 / 4)%R).
  { destruct (CI 0%nat _ eq_refl) as (c & _ & C & _). apply (CK _ c _ C). apply wheel_center in C. destruct C as [[_ C]|[[K _]|[[K _]|[K _]]]]; [exact C|discriminate..]. }
  assert (C3 : stored o (ul_list (ms_points m)) (ci 3%nat) (1 / 6, 3)%R).
  { destruct (CI 3%nat _ eq_refl) as (c & _ & C & _). apply (CK _ c _ C). apply wheel_center in C. destruct C as [[K _]|[[K _]|[[K _]|[_ C]]]]; [discriminate..|exact C]. }
  assert (Q0 : xy q = (0, 0)%R) by (destruct (at_pos o 0 q HQ) as [K _]; congruence).
  assert (SQ : forall r, stands_at (N := RNum) tol (ul_list (ms_points m)) r (setBoundary q) -> stored o (ul_list (ms_points m)) r (0, 0)%R).
  { intros r ST. assert (SR : vertex_source o (setBoundary q)) by (exists 0; apply (src_self o 0 _ q); auto).
    destruct (STA r _ SR ST) as (y & Y & E'). exists y, (setBoundary q). rewrite <- Q0. auto. }
  assert (MD : (midpoint (0, 0) (8, 0) = (4, 0) /\ midpoint (0, 0) (0, 6) = (0, 3))%R) by (unfold midpoint; cbn [fst snd]; split; f_equal; lra). destruct MD as [MD1 MD3].
  (* the four points of the chain *)
  assert (exists i1 i3, stored o (ul_list (ms_points m)) i1 (4, 0)%R /\ stored o (ul_list (ms_points m)) i3 (0, 3)%R /\
    (ia :: map ci l ++ [ib] = [i1; ci 0%nat; ci 3%nat; i3] \/ ia :: map ci l ++ [ib] = [i3; ci 3%nat; ci 0%nat; i1])) as (i1 & i3 & M1 & M3 & CH).
  { destruct UL as [(-> & -> & ->)|(-> & -> & ->)]; rewrite PO0 in SA, SB; [rewrite PO1, MD1 in SA; rewrite PO3, MD3 in SB|rewrite PO3, MD3 in SA; rewrite PO1, MD1 in SB].
    - exists ia, ib. split; [exact SA|]. split; [exact SB|]. left. reflexivity.
    - exists ib, ia. split; [exact SB|]. split; [exact SA|]. right. reflexivity. }
  assert (NEQ : forall i j x y, stored o (ul_list (ms_points m)) i x -> stored o (ul_list (ms_points m)) j y -> x <> y -> i <> j).
  { intros i j x y (yi & ? & Y & <- & _) (yj & ? & Y' & <- & _) N ->. pose proof (located_det _ _ _ _ Y Y') as K. congruence. }
  assert (N1 : i1 <> ci 0%nat) by (apply (NEQ _ _ _ _ M1 C0); intros K; injection K; lra). assert (N2 : i1 <> ci 3%nat) by (apply (NEQ _ _ _ _ M1 C3); intros K; injection K; lra).
  assert (N3 : i1 <> i3) by (apply (NEQ _ _ _ _ M1 M3); intros K; injection K; lra). assert (N4 : ci 0%nat <> ci 3%nat) by (apply (NEQ _ _ _ _ C0 C3); intros K; injection K; lra).
  assert (N5 : ci 0%nat <> i3) by (apply (NEQ _ _ _ _ C0 M3); intros K; injection K; lra). assert (N6 : ci 3%nat <> i3) by (apply (NEQ _ _ _ _ C3 M3); intros K; injection K; lra).
  assert (EF : fi = i1 /\ z = i3 \/ fi = i3 /\ z = i1).
  { destruct CH as [CH|CH]; rewrite CH, dedup_id in HF, HZ by (repeat constructor; cbn [In]; intuition congruence); cbn in HF, HZ; injection HF as <-; injection HZ as <-; auto. }
  assert (CO : collinear (N := RNum) tol qf q qz <> true).
  { intros K. apply collinear_orient in K. rewrite Q0 in K. inversion_clear VFZ as [|? ? ? ? V1 VZ]. inversion_clear VZ as [|? ? ? ? V2 _].
    rewrite <- (at_index_ok (ul_list (ms_points m)) fi qf), <- (at_index_ok (ul_list (ms_points m)) z qz) in K by (constructor; [assumption|constructor]).
    destruct EF as [[-> ->]|[-> ->]]; rewrite (stored_at _ _ _ _ M1), (stored_at _ _ _ _ M3) in K; apply Rabs_def2 in K; unfold tol, orient, vcross, vsub in K; cbn [fst snd] in K; lra. }
  destruct CELL as [(K & _)|(_ & r & ST & CE & _)]; [contradiction|]. pose proof (SQ r ST) as SR.
  assert (R1 : r <> i1) by (apply (NEQ _ _ _ _ SR M1); intros [= K]; lra). assert (R2 : r <> i3) by (apply (NEQ _ _ _ _ SR M3); intros [= K]; lra).
  assert (R3 : r <> ci 0%nat) by (apply (NEQ _ _ _ _ SR C0); intros [= K]; lra). assert (R4 : r <> ci 3%nat) by (apply (NEQ _ _ _ _ SR C3); intros [= K]; lra).
  assert (CL : map (at_index (ul_list (ms_points m))) cell = [(4, 0); (4, -11 / 4); (1 / 6, 3); (0, 3); (0, 0)]%R \/ map (at_index (ul_list (ms_points m))) cell = [(0, 3); (1 / 6, 3); (4, -11 / 4); (4, 0); (0, 0)]%R).
  { rewrite CE. destruct CH as [CH|CH]; rewrite CH; [left|right]; (rewrite dedup_id by (repeat constructor; cbn [In app]; intuition congruence)); cbn [map app];
    rewrite (stored_at _ _ _ _ M1), (stored_at _ _ _ _ M3), (stored_at _ _ _ _ C0), (stored_at _ _ _ _ C3), (stored_at _ _ _ _ SR); reflexivity. }
  destruct (locate (ul_list (ms_points m)) (pg_points g)) as (vs & VS).
  { intros i Hi. assert (Hc : In i cell) by (destruct PT as [K|K]; rewrite K, <- ?in_rev in Hi; exact Hi).
    assert (Hs : exists x, stored o (ul_list (ms_points m)) i x); [|destruct Hs as (x & y & s & Y & _); exists y; exact Y].
    rewrite CE, dedup_in in Hc. destruct CH as [CH|CH]; rewrite CH in Hc; cbn [In app] in Hc; decompose [or] Hc; try contradiction; subst i; eexists; eassumption. }
  destruct (five_crossing (map xy vs)) as (a & b & c & e & K1 & K2 & K3).
  { rewrite (at_index_map _ _ _ VS). destruct PT as [-> | ->]; [|rewrite map_rev]; destruct CL as [-> | ->]; auto. }
  exists o, d, m, g, vs, a, b, c, e. split; [exact wheel_sources|]. split; [apply wheel_triangulation|]. split; [exact wheel_delaunay|]. auto 10.
Qed.
