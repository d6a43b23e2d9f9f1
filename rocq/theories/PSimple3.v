(** Regions that lie plainly in the plane: cells and triangles tile them, each point in one. *)
From Coq Require Import Reals Lra Lia ZArith List Bool Permutation.
From Verif Require Import Base Spec MUtil MGeom MHull MPolygon MMaps MTriangle MGen MRegion MDelaunay MVoronoi Bridge BridgeTile BridgeHist BridgeFill BridgeAny BridgeWind BridgeSimple.
From Verif Require Import PUtil PPoint PPoly PPoly2 PTri PMore PContains PRegion PDelaunay PVoronoi PFan PVorGeo PVorCell PConvex PVorConvex PVorLocate PWedge PVorBorder PDual PHist PTile PTile2 PTile3 PTile4 PTile5 PTile6 PFill PFill2 PWind PAny PAny2 PAny3 PAny4 PAny5 PAny6 PWind2 PWind3 PWind4 PSimple PSimple2.
Import ListNotations.
Local Open Scope Z_scope.

Section Mesh.
  Variable tol : R.
  Hypothesis tol_pos : (0 < tol)%R.
  Variables (outlines : list (list pt)) (o : trout RNum).
  Notation tris := (o_tris o).
  Notation mp := (map read_point (o_points o)).
  Hypothesis TN : triangle_answer tol outlines o.
  Let T := tn_triangulation _ _ _ TN.
  Notation W q := (sumZ (map (winding q) outlines)).
  Lemma corner_points t : In t tris -> exists A B C, vertices_are mp (corners t) [A; B; C] /\ (0 < orient (xy A) (xy B) (xy C))%R /\ (forall w, tri_at o w t = tri_w w (xy A) (xy B) (xy C)) /\ no_short_edge tol [xy A; xy B; xy C].
  Proof.
    intros Ht. destruct t as [[a b] c]. assert (U : forall i, In i [a; b; c] -> In i (flat_map corners tris)) by (intros i Hi; apply (in_corners o i (a, b, c) Ht Hi)).
    destruct (used_site o T a) as (A & VA & EA & _); [apply U; left; reflexivity|]. destruct (used_site o T b) as (B & VB & EB & _); [apply U; right; left; reflexivity|]. destruct (used_site o T c) as (C & VC & EC & _); [apply U; right; right; left; reflexivity|].
    assert (VV : vertices_are mp (corners (a, b, c)) [A; B; C]). { clear - VA VB VC. inversion_clear VA as [|? ? ? ? Y1 _]. inversion_clear VB as [|? ? ? ? Y2 _]. inversion_clear VC as [|? ? ? ? Y3 _]. repeat (constructor; [assumption|]). constructor. }
    exists A, B, C. split; [exact VV|]. split; [exact (tn_ccw _ _ _ TN _ A B C Ht VV)|]. split; [intros w; unfold tri_at; rewrite EA, EB, EC; reflexivity|].
    pose proof (tg_corners _ _ _ T _ Ht) as NC. cbn [corners] in NC. inversion_clear NC as [|? ? N1 N2]. inversion_clear N2 as [|? ? N3 _]. cbn [In] in N1, N3.
    assert (AP : forall i j p q, vertices_are mp [i] [p] -> vertices_are mp [j] [q] -> i <> j -> ~ coincide tol (xy p) (xy q)).
    { intros i j p q Vi Vj NE. inversion_clear Vi as [|? ? ? ? [L1 Y1] _]. inversion_clear Vj as [|? ? ? ? [L2 Y2] _]. apply (tn_apart _ _ _ TN _ _ _ _ Y1 Y2). lia. }
    intros x y H. cbn in H. destruct H as [H|[H|[H|[]]]]; injection H as <- <-; [apply (AP a b)|apply (AP b c)|apply (AP c a)]; auto; intros ->; tauto.
  Qed.
  Lemma mesh_sum q : sumR (map (tri_at o (fw q)) tris) = IZR (W q).
  Proof.
    rewrite (rings_fill_w outlines o (tg_corners _ _ _ T) (tn_once _ _ _ TN) (tn_rings _ _ _ TN) _ (fw_additive q)), <- sumR_IZR, map_map. f_equal. apply map_ext. intros vs. apply loop_winding.
  Qed.
  Lemma mesh_located {G} (poly : G -> polygon RNum) (gs : list G) : map (fun g => pg_points (poly g)) gs = map corners tris -> forall q : Point RNum,
    exists fs, Forall2 (fun g e => holds_point tol mp q (poly g) e) gs fs /\ parity fs = Z.odd (W (xy q)) /\ 0 <= W (xy q) /\ (W (xy q) <= 1 -> Z.of_nat (count_occ bool_dec fs true) = W (xy q)).
  Proof.
    intros EG q. set (ws := map (fun t : Z * Z * Z => let '(A, B, C) := t in winding (xy q) [pos o A; pos o B; pos o C]) tris).
    assert (TE : forall A B C, tri_w (fw (xy q)) A B C = IZR (winding (xy q) [A; B; C])) by (intros A B C; rewrite <- loop_winding; unfold tri_w, loop_w, along_w, edges_of; cbn; lra).
    assert (SW : sumZ ws = W (xy q)). { apply eq_IZR. rewrite <- mesh_sum, <- sumR_IZR. unfold ws. rewrite map_map. f_equal. apply map_ext. intros [[A B] C]. symmetry. apply TE. }
    assert (WN : Forall (fun x => 0 <= x) ws).
    { apply Forall_forall. intros x Hx. apply in_map_iff in Hx as (t & <- & Ht). destruct (corner_points t Ht) as (A & B & C & VV & O & E & _). destruct t as [[a b] c]. pose proof (ring_pos o _ _ VV) as RP. cbn [map corners] in RP. rewrite <- RP.
      apply le_IZR. rewrite <- TE. apply tri_sides. lra. }
    exists (map Z.odd ws). rewrite <- SW. split; [|split; [apply sum_parity|split; [apply sumZ_nonneg, WN|apply sum_count, WN]]].
    assert (K2 : forall t g, In t tris -> pg_points (poly g) = corners t -> holds_point tol mp q (poly g) (Z.odd (let '(A, B, C) := t in winding (xy q) [pos o A; pos o B; pos o C]))).
    { intros t g Ht Eg. destruct (corner_points t Ht) as (A & B & C & VV & O & E & NS). pose proof (ring_pos o _ _ VV) as RP. rewrite <- Eg in VV. destruct (contains_char tol (pg_points (poly g)) mp q _ tol_pos VV NS) as (b & B1 & B2).
      assert (EW : Z.odd (let '(A, B, C) := t in winding (xy q) [pos o A; pos o B; pos o C]) = even_odd (xy q) (map xy [A; B; C])). { rewrite <- winding_odd, RP. destruct t as [[a0 b0] c0]. reflexivity. }
      rewrite EW. exists [A; B; C], b. split; [exact VV|]. split; [reflexivity|]. split; [exact B1|exact B2]. }
    unfold ws. clear - EG K2. revert gs EG. induction tris as [|t l IH]; intros gs EG; (destruct gs as [|g gs]; [|]); try discriminate EG; [constructor|]. cbn [map] in EG |- *. injection EG as E1 E2. constructor; [apply K2; [left; reflexivity|exact E1]|].
    apply IH; [intros t' g' Ht'; apply K2; right; exact Ht'|exact E2].
  Qed.
  (** the areas of triangles that have not been asked for them *)
  Lemma mesh_areas {G} (poly : G -> polygon RNum) (gs : list G) : map (fun g => pg_points (poly g)) gs = map corners tris -> Forall (fun g => pg_area (poly g) = nZ (n := RNum) (-1)) gs ->
    exists areas, Forall2 (fun g a => exists g', getArea (N := RNum) (poly g) mp = Ok (g', a) /\ (0 < a)%R) gs areas /\ sumR areas = sumR (map shoelace outlines).
  Proof.
    intros EG FRS. set (ar := fun t : Z * Z * Z => let '(A, B, C) := t in shoelace [pos o A; pos o B; pos o C]). exists (map ar tris). split.
    - assert (K : forall t g, In t tris -> pg_points (poly g) = corners t -> pg_area (poly g) = nZ (n := RNum) (-1) -> exists g', getArea (N := RNum) (poly g) mp = Ok (g', ar t) /\ (0 < ar t)%R).
      { intros t g Ht Eg Fg. destruct (corner_points t Ht) as (A & B & C & VV & O & _). assert (EA : ar t = shoelace (map xy [A; B; C])) by (destruct t as [[a b] c]; pose proof (ring_pos o _ _ VV) as RP; cbn [map corners] in RP; unfold ar; cbn [map]; rewrite RP; reflexivity).
        rewrite EA. rewrite <- Eg in VV. rewrite getArea_fresh by (rnum; apply Reqb_true; exact Fg). rewrite (geo_area_shoelace _ _ _ VV). cbn [bind]. eexists. split; [reflexivity|].
        cbn [map]. unfold shoelace, edges_of, sumR, orient, vcross, vsub in *. cbn. cbn in O. lra. }
      clear - EG FRS K. revert gs EG FRS. induction tris as [|t l IH]; intros gs EG FRS; (destruct gs as [|g gs]; [|]); try discriminate EG; [constructor|]. cbn [map] in EG |- *. injection EG as E1 E2. apply Forall_cons_iff in FRS as [F1 F2].
      constructor; [apply K; [left; reflexivity|exact E1|exact F1]|]. apply IH; [intros t' g' Ht'; apply K; right; exact Ht'|exact E2|exact F2].
    - assert (CA : additive vcross -> False \/ True) by auto. clear CA.
      destruct (tn_rings _ _ _ TN) as (rings & H & ND & F). set (f := fun e : Z * Z => vcross (pos o (fst e)) (pos o (snd e))).
      assert (E0 : sumR (map shoelace outlines) = (sumR (map f (flat_map edges_of rings)) / 2)%R).
      { clear - F. induction F as [|ring outline rings outlines (rs & V & S) F IH]; [cbn; lra|]. cbn [map flat_map]. rewrite map_app, sumR_app. change (sumR (shoelace outline :: map shoelace outlines)) with (shoelace outline + sumR (map shoelace outlines))%R. rewrite IH.
        rewrite <- (ring_area _ _ S), (ring_pos o _ _ V).
        assert (E1 : shoelace (map (pos o) ring) = (sumR (map f (edges_of ring)) / 2)%R); [|rewrite E1; lra].
        unfold shoelace. f_equal. f_equal. destruct ring as [|a l]; [reflexivity|]. unfold edges_of. cbn [map]. change (pos o a :: map (pos o) l) with (map (pos o) (a :: l)). change [pos o a] with (map (pos o) [a]). rewrite <- map_app, PVorGeo.pairs_map, map_map. reflexivity. }
      rewrite E0, <- (rings_sum f tris rings); [| |exact (sides_nodup _ (tg_corners _ _ _ T) (tn_once _ _ _ TN))|exact ND|exact H].
      + clear. induction tris as [|[[a b] c] l IH]; [cbn; lra|]. cbn [flat_map]. rewrite map_app, sumR_app. change (sumR (map ar ((a, b, c) :: l))) with (ar (a, b, c) + sumR (map ar l))%R. rewrite IH.
        assert (K : ar (a, b, c) = (sumR (map f (sides (a, b, c))) / 2)%R); [|lra]. unfold ar, shoelace, sides, f. reflexivity.
      + intros [a b]. unfold f, swap, vcross. cbn [fst snd]. ring.
  Qed.
End Mesh.

(** what a mesh holds has not been asked for its area *)
Lemma mesh_fresh {N : Num} {G} (tol : nT N) (ctor : list Z -> list (Point N) -> res G) (P : G -> Prop) (d : delaunay N) m :
  (forall idx p g, ctor idx p = Ok g -> P g) -> initializeMesh (N := N) tol ctor d = Ok m -> Forall P (ms_polygons m).
Proof.
  intros H E. unfold initializeMesh in E. destruct (ul_push_list (pt_ltb tol) ul_empty (dl_meshPoints d)) as [points indexes].
  match type of E with context [foldM ?F (dl_triangles d) ([], [])] => set (step := F) in E end.
  assert (K : forall l st polys pm, foldM step l st = Ok (polys, pm) -> Forall P (fst st) -> Forall P polys).
  { induction l as [|t l IH]; intros [ps pm0] polys pm; cbn [foldM fst]; [intros X F; injection X as <- <-; exact F|]. intros X F.
    destruct (step (ps, pm0) t) as [[ps' pm']|] eqn:S; [|discriminate X]. cbn [bind] in X. apply (IH _ _ _ X). cbn [fst]. unfold step in S. cbn zeta in S.
    destruct (mapM _ _) as [np|]; [|discriminate S]. cbn [bind] in S. destruct (foldM _ np pm0) as [pm1|]; [|discriminate S]. cbn [bind] in S. destruct (checkTriangleIntegrity np) as [u|]; [|discriminate S]. cbn [bind] in S.
    destruct (ctor np (dl_meshPoints d)) as [g|] eqn:EG; [|discriminate S]. cbn [bind] in S. injection S as <- _. apply Forall_app. split; [exact F|]. constructor; [exact (H _ _ _ EG)|constructor]. }
  destruct (foldM step (dl_triangles d) ([], [])) as [[polys pm]|] eqn:EF; [|discriminate E]. cbn [bind] in E. assert (KI : forall A (x y : A), Ok x = Ok y -> x = y) by congruence. apply KI in E. subst m. cbn [ms_polygons].
  exact (K _ _ _ _ EF (Forall_nil _)).
Qed.
Lemma polygon_fresh {N : Num} (tol : nT N) idx p (g : polygon N) : polygon_ctor_idx (N := N) tol idx p = Ok g -> pg_area g = nZ (-1).
Proof. unfold polygon_ctor_idx. destruct (isSelfIntersecting _ _ _) as [b|]; [|discriminate]. cbn [bind]. destruct b; [discriminate|]. assert (K : forall A (x y : A), Ok x = Ok y -> x = y) by congruence. intros H. apply K in H. subst g. reflexivity. Qed.
Lemma triangle_fresh {N : Num} (tol : nT N) idx p (g : triangle N) : triangle_ctor (N := N) tol idx p = Ok g -> pg_area (tr_poly g) = nZ (-1).
Proof.
  unfold triangle_ctor. destruct (polygon_ctor_idx tol idx p) as [g0|] eqn:E; [|discriminate]. cbn [bind]. destruct (tri_vertices idx p) as [[[A B] C]|]; [|discriminate]. cbn [bind].
  assert (K : forall A (x y : A), Ok x = Ok y -> x = y) by congruence. intros H. apply K in H. subst g. cbn [tr_poly]. exact (polygon_fresh tol idx p g0 E).
Qed.
Lemma region_parity (r : region RNum) outer inner q : (outer = map xy (rg_p r) \/ outer = rev (map xy (rg_p r))) ->
  Forall2 (fun (h : hole RNum) l => l = map xy (h_points h) \/ l = rev (map xy (h_points h))) (rg_holes r) inner ->
  Z.odd (sumZ (map (winding q) (outer :: inner))) = region_holds r q.
Proof.
  intros EO HO. rewrite <- sum_parity, map_map. unfold region_holds. cbn [map parity fold_right]. rewrite winding_odd. f_equal; [destruct EO as [-> | ->]; [reflexivity|apply even_odd_rev]|].
  change (fold_right xorb false (map (fun x => Z.odd (winding q x)) inner)) with (parity (map (fun x => Z.odd (winding q x)) inner)). f_equal. clear - HO.
  induction HO as [|h l hs inner EL F IH]; [reflexivity|]. cbn [map]. rewrite IH, winding_odd. f_equal. destruct EL as [-> | ->]; [reflexivity|apply even_odd_rev].
Qed.
Lemma signed_areas (r : region RNum) outer inner : (outer = map xy (rg_p r) \/ outer = rev (map xy (rg_p r))) -> (0 <= shoelace outer)%R ->
  Forall2 (fun (h : hole RNum) l => (l = map xy (h_points h) \/ l = rev (map xy (h_points h))) /\ (shoelace l <= 0)%R) (rg_holes r) inner ->
  sumR (map shoelace (outer :: inner)) = (Rabs (shoelace (map xy (rg_p r))) - sumR (map (fun h : hole RNum => Rabs (shoelace (map xy (h_points h)))) (rg_holes r)))%R.
Proof.
  intros EO SO HO. change (sumR (map shoelace (outer :: inner))) with (shoelace outer + sumR (map shoelace inner))%R.
  assert (A1 : shoelace outer = Rabs (shoelace (map xy (rg_p r)))).
  { destruct EO as [->| ->]; [symmetry; apply Rabs_pos_eq, SO|]. rewrite shoelace_rev in SO |- *. rewrite Rabs_left1 by lra. reflexivity. }
  assert (A2 : sumR (map shoelace inner) = (- sumR (map (fun h : hole RNum => Rabs (shoelace (map xy (h_points h)))) (rg_holes r)))%R); [|lra].
  clear - HO. induction HO as [|h l hs inner [EL SL] F IH]; [cbn; lra|]. cbn [map]. unfold sumR in *. cbn [fold_right]. rewrite IH.
  assert (A : shoelace l = (- Rabs (shoelace (map xy (h_points h))))%R); [|lra].
  destruct EL as [->| ->]; [rewrite Rabs_left1 by exact SL; lra|]. rewrite shoelace_rev in SL |- *. rewrite Rabs_pos_eq by lra. reflexivity.
Qed.
Lemma answer_triangles tol outlines o : delaunay_answer tol o -> fills_region tol outlines o -> triangle_answer tol outlines o.
Proof.
  intros DA FR. constructor; [exact (da_triangulation _ _ DA)| |exact (proj2 (da_delaunay _ _ DA))|exact (fr_rings _ _ _ FR)|exact (da_separated _ _ DA)|exact (da_apart _ _ DA)].
  intros t A B C Ht V. exact (proj1 (proj1 (da_delaunay _ _ DA) t A B C Ht V)).
Qed.
Lemma bit_count n z b : Z.of_nat n = z -> 0 <= z <= 1 -> Z.odd z = b -> n = if b : bool then 1%nat else 0%nat.
Proof. intros E L <-. assert (z = 0 \/ z = 1) as [-> | ->] by lia; cbn; lia. Qed.

Lemma triangles_apart (tol : R) outlines (o : trout RNum) : triangle_answer tol outlines o -> plain outlines ->
  forall t t' A B C A' B' C' q, In t (o_tris o) -> In t' (o_tris o) -> vertices_are (map read_point (o_points o)) (corners t) [A; B; C] -> vertices_are (map read_point (o_points o)) (corners t') [A'; B'; C'] ->
    (0 < orient (xy A) (xy B) q /\ 0 < orient (xy B) (xy C) q /\ 0 < orient (xy C) (xy A) q)%R -> (0 < orient (xy A') (xy B') q /\ 0 < orient (xy B') (xy C') q /\ 0 < orient (xy C') (xy A') q)%R -> t = t'.
Proof.
  intros TN PL t t' A B C A' B' C' q Ht Ht' V V' (O1 & O2 & O3) (P1 & P2 & P3).
  assert (DEC : {t = t'} + {t <> t'}) by (repeat decide equality). destruct DEC as [|NE]; [assumption|exfalso].
  assert (NN : forall x, In x (o_tris o) -> (0 <= tri_at o (fw q) x)%R) by (intros x Hx; destruct (corner_points tol outlines o TN x Hx) as (X & Y & Z & _ & O & E & _); rewrite E; apply tri_sides; lra).
  pose proof (sum_two (tri_at o (fw q)) (o_tris o) t t' NN Ht Ht' NE) as S. rewrite (mesh_sum tol outlines o TN) in S.
  destruct (corner_points tol outlines o TN t Ht) as (X & Y & Z & VX & _ & E & _). destruct (corner_points tol outlines o TN t' Ht') as (X' & Y' & Z' & VX' & _ & E' & _).
  pose proof (located_det _ _ _ _ VX V) as K. injection K as -> -> ->. pose proof (located_det _ _ _ _ VX' V') as K'. injection K' as -> -> ->. rewrite E, E' in S.
  pose proof (tri_inside q _ _ _ O1 O2 O3). pose proof (tri_inside q _ _ _ P1 P2 P3). assert (2 <= sumZ (map (winding q) outlines)) by (apply le_IZR; lra). specialize (PL q). lia.
Qed.

Lemma constrained_tiles (tol : R) triangulate seeds (r : region RNum) (c : gen_call RNum) restricted outer inner : (0 < tol)%R -> region_made r ->
  (c = CallConstrained /\ restricted = [] \/ c = CallConstrainedWith restricted) ->
  (outer = map xy (rg_p r) \/ outer = rev (map xy (rg_p r))) -> (0 <= shoelace outer)%R ->
  Forall2 (fun (h : hole RNum) l => (l = map xy (h_points h) \/ l = rev (map xy (h_points h))) /\ (shoelace l <= 0)%R) (rg_holes r) inner ->
  plain (outer :: inner) -> separated tol (fun q => In q (seeds ++ getRegionPoints r)) ->
  exists inp, build_pslg (N := RNum) tol (region_copy r) seeds restricted = Ok inp /\ in_holes inp = map (fun h : hole RNum => xy (h_center h)) (rg_holes r) /\
    let o := triangulate swConstrained inp in triangle_answer tol (outer :: inner) o ->
    exists g m areas, gen_do (N := RNum) triangulate tol (gen_ctor seeds r) c = (g, Ok (OutMesh (ByValue m))) /\ ul_list (ms_points m) = map read_point (o_points o) /\
      Forall2 (fun (t : triangle RNum) a => exists g', getArea (N := RNum) (tr_poly t) (ul_list (ms_points m)) = Ok (g', a) /\ (0 < a)%R) (ms_polygons m) areas /\
      sumR areas = (Rabs (shoelace (map xy (rg_p r))) - sumR (map (fun h : hole RNum => Rabs (shoelace (map xy (h_points h)))) (rg_holes r)))%R /\
      forall q : Point RNum, exists es, Forall2 (fun (t : triangle RNum) e => holds_point tol (ul_list (ms_points m)) q (tr_poly t) e) (ms_polygons m) es /\
        count_occ bool_dec es true = if region_holds r (xy q) then 1%nat else 0%nat.
Proof.
  intros TP M EC EO SO HO PL SE.
  destruct (build_pslg_correct tol TP (region_copy r) seeds restricted (rm_copy _ M) SE) as (pl & ss & rs & vs & E & _).
  eexists. split; [exact E|]. split; [reflexivity|]. cbn zeta. set (o := triangulate swConstrained _). intros TN.
  assert (HO' : Forall2 (fun (h : hole RNum) l => l = map xy (h_points h) \/ l = rev (map xy (h_points h))) (rg_holes r) inner) by (eapply Forall2_weaken; [|exact HO]; intros h l [H _]; exact H).
  destruct (read_output_total tol o (tn_triangulation _ _ _ TN)) as (d & RO); [intros t A B C Ht V; pose proof (tn_ccw _ _ _ TN t A B C Ht V); lra|].
  destruct (delaunay_mesh tol TP o d (tn_triangulation _ _ _ TN) RO (tn_separated _ _ _ TN) (tn_apart _ _ _ TN)) as (_ & m & _ & Em & _ & P1 & _ & P2 & _).
  destruct (mesh_areas tol (outer :: inner) o TN tr_poly (ms_polygons m) P2 (mesh_fresh (N := RNum) tol (triangle_ctor (N := RNum) tol) _ d m (triangle_fresh (N := RNum) tol) Em)) as (areas & A1 & A2).
  eexists. exists m, areas. split; [|split; [exact P1|split; [rewrite P1; exact A1|split; [rewrite A2; apply signed_areas; assumption|]]]].
  - unfold gen_do, ensure. cbn [gen_ctor gn_data]. unfold callTriangle. cbn [gen_ctor gn_region gn_seeds].
    assert (EQ : call_restricted c = restricted /\ call_switches c = swConstrained) by (destruct EC as [[-> ->]| ->]; split; reflexivity). destruct EQ as [-> ->]. rewrite E. fold o. rewrite RO. cbn [bind].
    destruct EC as [[-> ->]| ->]; rewrite Em; reflexivity.
  - intros q. rewrite P1. destruct (mesh_located tol TP (outer :: inner) o TN tr_poly (ms_polygons m) P2 q) as (fs & F & _ & L & C). exists fs. split; [exact F|].
    apply (bit_count _ _ _ (C (PL (xy q)))); [split; [exact L|apply PL]|apply region_parity; assumption].
Qed.

Lemma generator_tiles (tol : R) fuel triangulate seeds (r : region RNum) outer inner : (0 < tol)%R -> region_made r ->
  (outer = map xy (rg_p r) \/ outer = rev (map xy (rg_p r))) -> (0 <= shoelace outer)%R ->
  Forall2 (fun (h : hole RNum) l => (l = map xy (h_points h) \/ l = rev (map xy (h_points h))) /\ (shoelace l <= 0)%R) (rg_holes r) inner ->
  plain (outer :: inner) -> separated tol (fun q => In q (seeds ++ getRegionPoints r)) ->
  exists inp, build_pslg (N := RNum) tol (region_copy r) seeds [] = Ok inp /\ in_holes inp = map (fun h : hole RNum => xy (h_center h)) (rg_holes r) /\
    let o := triangulate swConforming inp in
    delaunay_answer tol o -> sources_apart tol o -> fills_region tol (outer :: inner) o -> (length (o_tris o) < fuel)%nat ->
    exists v m areas, voronoiGenerator (N := RNum) tol triangulate fuel seeds r = Ok (v, m) /\ ul_list (ms_points m) = map read_point (o_points o) /\
      Forall2 (fun k (g : polygon RNum) => exists site vs, vertices_are (ul_list (ms_points m)) [k] [site] /\
        vertices_are (ul_list (ms_points v)) (pg_points g) vs /\ (forall x y, In (x, y) (edges_of (map xy vs)) -> (0 <= orient (xy site) x y)%R) /\
        forall x, seen_part (xy site) (map xy vs) x -> voronoi_region (map xy (ul_list (ms_points m))) (xy site) x)
        (dedup (flat_map corners (o_tris o))) (ms_polygons v) /\
      Forall2 (fun g a => exists g', getArea (N := RNum) g (ul_list (ms_points v)) = Ok (g', a)) (ms_polygons v) areas /\
      sumR areas = (Rabs (shoelace (map xy (rg_p r))) - sumR (map (fun h : hole RNum => Rabs (shoelace (map xy (h_points h)))) (rg_holes r)))%R /\
      forall q : Point RNum, exists es ts, Forall2 (holds_point tol (ul_list (ms_points v)) q) (ms_polygons v) es /\ Forall2 (holds_point tol (ul_list (ms_points m)) q) (ms_polygons m) ts /\
        (count_occ bool_dec es true = if region_holds r (xy q) then 1%nat else 0%nat) /\ (count_occ bool_dec ts true = if region_holds r (xy q) then 1%nat else 0%nat) /\
        (region_holds r (xy q) = true -> exists k g site vs, In (k, g) (combine (dedup (flat_map corners (o_tris o))) (ms_polygons v)) /\ vertices_are (ul_list (ms_points m)) [k] [site] /\
          vertices_are (ul_list (ms_points v)) (pg_points g) vs /\ seen_part (xy site) (map xy vs) (xy q) /\ voronoi_region (map xy (ul_list (ms_points m))) (xy site) (xy q)).
Proof.
  intros TP M EO SO HO PL SE.
  assert (HO' : Forall2 (fun (h : hole RNum) l => l = map xy (h_points h) \/ l = rev (map xy (h_points h))) (rg_holes r) inner) by (eapply Forall2_weaken; [|exact HO]; intros h l [H _]; exact H).
  destruct (generator_any tol fuel triangulate seeds r outer inner TP M EO SO HO SE) as (inp & E & H & G1). destruct (generator_cover tol fuel triangulate seeds r outer inner TP M EO HO' SE) as (inp' & E' & _ & G2).
  assert (K : forall A (x y : A), Ok x = Ok y -> x = y) by congruence. rewrite E in E'. apply K in E'. subst inp'. exists inp. split; [exact E|]. split; [exact H|].
  cbn zeta in *. set (o := triangulate swConforming inp) in *. intros DA SA FR L. pose proof (region_any tol TP (outer :: inner) o DA FR PL) as FL.
  destruct (G1 DA SA FL L) as (v & m & areas & V1 & P1 & X1 & X2 & X3). destruct (G2 DA SA FL L) as (v' & m' & V2 & _ & _ & _ & X4). rewrite V1 in V2. apply K in V2. injection V2 as <- <-.
  exists v, m, areas. split; [exact V1|]. split; [exact P1|]. split; [exact X1|]. split; [exact X2|]. split; [exact X3|].
  pose proof (answer_triangles tol (outer :: inner) o DA FR) as TN.
  assert (P2 : map (fun g : polygon RNum => pg_points g) (ms_polygons m) = map corners (o_tris o)).
  { destruct (read_output_total tol o (da_triangulation _ _ DA) (delaunay_proper o (da_delaunay _ _ DA))) as (d & RO).
    destruct (delaunay_mesh tol TP o d (da_triangulation _ _ DA) RO (da_separated _ _ DA) (da_apart _ _ DA)) as (m2 & _ & Em & _ & _ & _ & P2 & _).
    unfold voronoiGenerator, ensure in V1. cbn [gen_ctor gn_data] in V1. unfold callTriangle in V1. cbn [gen_ctor gn_region gn_seeds] in V1. rewrite E in V1. fold o in V1. rewrite RO in V1. cbn [bind] in V1. rewrite Em in V1. cbn [bind] in V1.
    destruct (voronoi _ _ d) as [v2|]; [|discriminate V1]. cbn [bind] in V1. apply K in V1. injection V1 as _ <-. exact P2. }
  intros q. destruct (X4 q) as (es & F1 & _ & L0 & C1). destruct (mesh_located tol TP (outer :: inner) o TN (fun g => g) (ms_polygons m) P2 q) as (ts & F2 & _ & _ & C2).
  pose proof (region_parity r outer inner (xy q) EO HO') as RP.
  exists es, ts. split; [exact F1|]. split; [rewrite P1; exact F2|]. split; [apply (bit_count _ _ _ (C1 (PL (xy q)))); [split; [exact L0|apply PL]|exact RP]|].
  split; [apply (bit_count _ _ _ (C2 (PL (xy q)))); [split; [exact L0|apply PL]|exact RP]|].
  intros IN. destruct (read_output_total tol o (da_triangulation _ _ DA) (delaunay_proper o (da_delaunay _ _ DA))) as (d & RO).
  pose proof (any_fill_domain tol (outer :: inner) o DA SA TP FL) as CD.
  destruct (parts_wind tol TP o CD fuel d RO L) as (v2 & Ev & F & S).
  assert (EV : v2 = v).
  { unfold voronoiGenerator, ensure in V1. cbn [gen_ctor gn_data] in V1. unfold callTriangle in V1. cbn [gen_ctor gn_region gn_seeds] in V1. rewrite E in V1. fold o in V1. rewrite RO in V1. cbn [bind] in V1. destruct (initializeMesh _ _ d) as [m2|]; [|discriminate V1]. cbn [bind] in V1. rewrite Ev in V1. cbn [bind] in V1. apply K in V1. injection V1 as <- _. reflexivity. }
  subst v2. rewrite P1. destruct (positive_covered o v F S (xy q)) as (k & g & I & site & vs' & Y1 & Y2 & SP & VR); [|exists k, g, site, vs'; auto 10].
  rewrite (mesh_sum tol (outer :: inner) o TN). apply IZR_lt. rewrite IN in RP. assert (sumZ (map (winding (xy q)) (outer :: inner)) <> 0) by (intros Z0; rewrite Z0 in RP; discriminate). lia.
Qed.
