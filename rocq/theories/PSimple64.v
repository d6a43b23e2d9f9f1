(** The constrained Delaunay mesh tiles the region, on doubles. *)
From Coq Require Import Reals Lra Lia ZArith SpecFloat List Bool Permutation.
From Flocq Require Import Core.
From Verif Require Import Base Spec MUtil MGeom MHull MPolygon MMaps MTriangle MGen MRegion MDelaunay MVoronoi Bridge BridgeNum BridgeVor64 BridgeTile BridgeHist BridgeFill BridgeAny BridgeWind BridgeSimple BridgeSimple64.
From Verif Require Import PUtil PPoint PPoly PPoly2 PTri PMore PContains PRegion PDelaunay PVoronoi PFan PVorGeo PVorCell PConvex PVorConvex PVorLocate PWedge PVorBorder PDual PHist PTile PTile2 PTile3 PTile4 PTile5 PTile6 PFill PFill2 PWind PAny PAny2 PAny3 PAny4 PAny5 PAny6 PWind2 PWind3 PWind4 PSimple PSimple2 PSimple3.
From Verif Require Import SpecNum MMesh MFormat MHist MFile MProgram Bridge64 BridgeProg.
From Verif Require PHist64 PProgram PReg64 PGrid5 PGrid PPipe64 PVor64.
Import ListNotations.
Local Open Scope Z_scope.

Definition bare (idx : list Z) : polygon RNum := mkPoly (N := RNum) idx (nZ (n := RNum) (-1)) (nZ (n := RNum) (-1)) (point0 (N := RNum)) (calculateHash idx).
Section Answer.
  Variable e : Z.
  Hypothesis He : -200 <= e <= 200.
  Variable tol : f64.
  Hypothesis Ht : tolerance64 tol.
  Variables (outlines : list (list pt)) (o : trout F64).
  Hypothesis A64 : triangle_answer64 e tol outlines o.
  Notation mp := (map read_point (o_points o)).
  Notation xo := (PVor64.exact_output o).
  Let T64 := a64_triangulated _ _ _ _ A64.
  Let tol_pos : (0 < val tol)%R := PVor64.tol_pos tol Ht.
  Lemma exact_answer : triangle_answer (val tol) outlines xo.
  Proof.
    constructor.
    - apply PVor64.exact_triangulation. exact (t64_triangulation _ _ _ T64).
    - intros t A B C Hin V. rewrite PVor64.exact_points in V. apply PVor64.vertices_real in V as (vs & V & E). destruct vs as [|A' [|B' [|C' [|? ?]]]]; try discriminate. injection E as -> -> ->. exact (a64_ccw _ _ _ _ A64 t A' B' C' Hin V).
    - exact (a64_once _ _ _ _ A64).
    - destruct (a64_rings _ _ _ _ A64) as (rings & H & ND & F). exists rings. split; [exact H|]. split; [exact ND|]. eapply Forall2_weaken; [|exact F].
      intros ring outline (rs & V & S). exists (map PGrid.real_point rs). split; [rewrite PVor64.exact_points; apply PVor64.real_vertices, V|]. rewrite map_map. exact S.
    - rewrite PVor64.exact_points. intros a b c Ha Hb Hc. apply in_map_iff in Ha as (a' & <- & Ha), Hb as (b' & <- & Hb), Hc as (c' & <- & Hc).
      destruct (proj2 (t64_clustered _ _ _ T64) a' b' Ha Hb) as [X1 Y1]. destruct (proj2 (t64_clustered _ _ _ T64) b' c' Hb Hc) as [X2 Y2].
      assert (K : forall x y z t : R, clear_of t (x - y) -> clear_of t (y - z) -> (Rabs (x - y) < t -> Rabs (y - z) < t -> Rabs (x - z) < t)%R).
      { intros x y z t C1 C2 H1 H2. pose proof (Rabs_triang (x - y) (y - z)) as TR. replace (x - y + (y - z))%R with (x - z)%R in TR by ring. unfold clear_of in C1, C2. lra. }
      split; apply K; assumption.
    - rewrite PVor64.exact_points. intros i j a b Hi Hj N. rewrite nth_error_map in Hi, Hj. destruct (nth_error mp i) as [a'|] eqn:Ei; [|discriminate]. destruct (nth_error mp j) as [b'|] eqn:Ej; [|discriminate]. injection Hi as <-. injection Hj as <-.
      exact (t64_apart _ _ _ T64 i j a' b' Ei Ej N).
  Qed.
  Lemma corners_grid t : In t (o_tris o) -> exists A B C, vertices_are mp (corners t) [A; B; C] /\ Forall (grid_point e) [A; B; C] /\ (0 < orient (xyv A) (xyv B) (xyv C))%R /\
    no_short_edge (val tol) (map xyv [A; B; C]) /\ map (pos xo) (corners t) = map xyv [A; B; C].
  Proof.
    intros Hin. destruct (corner_points (val tol) outlines xo exact_answer t Hin) as (A & B & C & V & O & E & NS). pose proof (ring_pos xo _ _ V) as RP. rewrite PVor64.exact_points in V. apply PVor64.vertices_real in V as (vs & V & EV).
    destruct vs as [|A' [|B' [|C' [|? ?]]]]; try discriminate. injection EV as -> -> ->. exists A', B', C'. split; [exact V|]. split; [|split; [exact O|split; [exact NS|symmetry; exact RP]]].
    apply Forall_forall. intros q Hq. apply (proj1 (Forall_forall _ _) (t64_grid _ _ _ T64)). exact (PVor64.vertex_in _ _ _ _ V Hq).
  Qed.
  Lemma located64 {G} (poly : G -> polygon F64) (gs : list G) : map (fun g => pg_points (poly g)) gs = map corners (o_tris o) -> forall q : Point F64, grid_point e q ->
    exists fs, Forall2 (fun g b => holds_point64 tol mp q (poly g) b) gs fs /\ parity fs = Z.odd (sumZ (map (winding (xyv q)) outlines)) /\ 0 <= sumZ (map (winding (xyv q)) outlines) /\
      (sumZ (map (winding (xyv q)) outlines) <= 1 -> Z.of_nat (count_occ bool_dec fs true) = sumZ (map (winding (xyv q)) outlines)).
  Proof.
    intros EG q Gq.
    destruct (mesh_located (val tol) tol_pos outlines xo exact_answer (fun t => bare (corners t)) (o_tris o) eq_refl (PGrid.real_point q)) as (fs & F & P1 & P2 & P3).
    exists fs. split; [|split; [exact P1|split; [exact P2|exact P3]]].
    assert (K : forall t g b, In t (o_tris o) -> pg_points (poly g) = corners t -> holds_point (val tol) (map read_point (o_points xo)) (PGrid.real_point q) (bare (corners t)) b -> holds_point64 tol mp q (poly g) b).
    { intros t g b Hin Eg (vs & b' & V & Eb & _). cbn [pg_points] in V. destruct (corners_grid t Hin) as (A & B & C & V' & GR & O & NS & _). rewrite PVor64.exact_points in V. pose proof (located_det _ _ _ _ V (PVor64.real_vertices _ _ _ V')) as ->.
      rewrite <- Eg in V'. destruct (PGrid5.contains_doubles e He tol (proj1 Ht) tol_pos mp (pg_points (poly g)) q _ V' GR Gq NS) as (b2 & E2 & C2). exists [A; B; C], b2. split; [exact V'|].
      assert (EB : b = even_odd (xyv q) (map xyv [A; B; C])) by (rewrite Eb, map_map; reflexivity). split; [exact EB|]. split; [exact E2|]. rewrite EB. exact C2. }
    clear - F K EG. revert gs EG. induction F as [|t b l fs H F IH]; intros gs EG; (destruct gs as [|g gs]; [|]); try discriminate EG; [constructor|]. cbn [map] in EG. injection EG as E1 E2. constructor; [exact (K t g b (or_introl eq_refl) E1 H)|].
    apply IH; [intros t' g' b' Ht'; apply K; right; exact Ht'|exact E2].
  Qed.
  Lemma areas64 {G} (poly : G -> polygon F64) (gs : list G) : map (fun g => pg_points (poly g)) gs = map corners (o_tris o) -> Forall (fun g => pg_area (poly g) = @nZ F64 (-1)) gs ->
    exists areas, Forall2 (fun g a => exists g', getArea (N := F64) (poly g) mp = Ok (g', a) /\ fin a /\ (0 < val a)%R) gs areas /\ sumR (map val areas) = sumR (map shoelace outlines).
  Proof.
    intros EG FRS.
    destruct (mesh_areas (val tol) outlines xo exact_answer (fun t => bare (corners t)) (o_tris o) eq_refl) as (areas & F & S).
    { apply Forall_forall. intros t _. reflexivity. }
    rewrite <- S. clear S.
    assert (K : forall t g a, In t (o_tris o) -> pg_points (poly g) = corners t -> pg_area (poly g) = @nZ F64 (-1) ->
      (exists g', getArea (N := RNum) (bare (corners t)) (map read_point (o_points xo)) = Ok (g', a) /\ (0 < a)%R) ->
      exists a' g', getArea (N := F64) (poly g) mp = Ok (g', a') /\ fin a' /\ (0 < val a')%R /\ val a' = a).
    { intros t g a Hin Eg Fg (g' & GA & PA). destruct (corners_grid t Hin) as (A & B & C & V' & GR & O & _). assert (VR := PVor64.real_vertices _ _ _ V'). rewrite <- PVor64.exact_points in VR.
      rewrite <- Eg in V'. destruct (PGrid5.area_grid e He mp (pg_points (poly g)) _ V' GR ltac:(cbn; lia)) as (_ & _ & AG). destruct (AG (poly g) eq_refl Fg) as (g2 & a2 & E2 & F2 & V2 & _).
      exists a2, g2. split; [exact E2|]. split; [exact F2|]. rewrite getArea_fresh in GA by (rnum; apply Reqb_true; reflexivity). unfold bare in GA. cbn [pg_points] in GA. rewrite (geo_area_shoelace _ _ _ VR) in GA. cbn [bind] in GA. assert (KP : forall X Y (x x' : X) (y y' : Y), Ok (x, y) = Ok (x', y') -> y = y') by congruence. apply KP in GA.
      assert (EA : val a2 = a) by (rewrite V2, <- GA, map_map; reflexivity). rewrite EA. split; [exact PA|reflexivity]. }
    clear - F K EG FRS. revert gs EG FRS. induction F as [|t a l areas H F IH]; intros gs EG FRS; (destruct gs as [|g gs]; [|]); try discriminate EG; [exists []; split; [constructor|reflexivity]|]. cbn [map] in EG. injection EG as E1 E2. apply Forall_cons_iff in FRS as [F1 F2].
    destruct (K t g a (or_introl eq_refl) E1 F1 H) as (a' & g' & X1 & X2 & X3 & X4). destruct (IH (fun t' g'' a'' Ht' => K t' g'' a'' (or_intror Ht')) gs E2 F2) as (areas' & Y1 & Y2).
    exists (a' :: areas'). split; [constructor; [exists g'; auto|exact Y1]|]. cbn [map]. unfold sumR in *. cbn [fold_right]. rewrite Y2, X4. reflexivity.
  Qed.
End Answer.

Lemma region_parity64 (r : region F64) outer inner q : (outer = map xyv (rg_p r) \/ outer = rev (map xyv (rg_p r))) ->
  Forall2 (fun (h : hole F64) l => (l = map xyv (h_points h) \/ l = rev (map xyv (h_points h))) /\ (shoelace l <= 0)%R) (rg_holes r) inner ->
  Z.odd (sumZ (map (winding q) (outer :: inner))) = region_holds64 r q.
Proof.
  intros EO HO. rewrite <- sum_parity, map_map. unfold region_holds64. cbn [map parity fold_right]. rewrite winding_odd. f_equal; [destruct EO as [-> | ->]; [reflexivity|apply even_odd_rev]|].
  change (fold_right xorb false (map (fun x => Z.odd (winding q x)) inner)) with (parity (map (fun x => Z.odd (winding q x)) inner)). f_equal. clear - HO.
  induction HO as [|h l hs inner [EL _] F IH]; [reflexivity|]. cbn [map]. rewrite IH, winding_odd. f_equal. destruct EL as [-> | ->]; [reflexivity|apply even_odd_rev].
Qed.
Lemma signed_areas64 (r : region F64) outer inner : (outer = map xyv (rg_p r) \/ outer = rev (map xyv (rg_p r))) -> (0 <= shoelace outer)%R ->
  Forall2 (fun (h : hole F64) l => (l = map xyv (h_points h) \/ l = rev (map xyv (h_points h))) /\ (shoelace l <= 0)%R) (rg_holes r) inner ->
  sumR (map shoelace (outer :: inner)) = (Rabs (shoelace (map xyv (rg_p r))) - sumR (map (fun h : hole F64 => Rabs (shoelace (map xyv (h_points h)))) (rg_holes r)))%R.
Proof.
  intros EO SO HO. change (sumR (map shoelace (outer :: inner))) with (shoelace outer + sumR (map shoelace inner))%R.
  assert (A1 : shoelace outer = Rabs (shoelace (map xyv (rg_p r)))).
  { destruct EO as [->| ->]; [symmetry; apply Rabs_pos_eq, SO|]. rewrite shoelace_rev in SO |- *. rewrite Rabs_left1 by lra. reflexivity. }
  assert (A2 : sumR (map shoelace inner) = (- sumR (map (fun h : hole F64 => Rabs (shoelace (map xyv (h_points h)))) (rg_holes r)))%R); [|lra].
  clear - HO. induction HO as [|h l hs inner [EL SL] F IH]; [cbn; lra|]. cbn [map]. unfold sumR in *. cbn [fold_right]. rewrite IH.
  assert (A : shoelace l = (- Rabs (shoelace (map xyv (h_points h))))%R); [|lra].
  destruct EL as [->| ->]; [rewrite Rabs_left1 by exact SL; lra|]. rewrite shoelace_rev in SL |- *. rewrite Rabs_pos_eq by lra. reflexivity.
Qed.
Lemma answer_tiles e tol (r : region F64) outer inner o d (m : mesh F64 (triangle F64)) : -200 <= e <= 200 -> tolerance64 tol ->
  (outer = map xyv (rg_p r) \/ outer = rev (map xyv (rg_p r))) -> (0 <= shoelace outer)%R ->
  Forall2 (fun (h : hole F64) l => (l = map xyv (h_points h) \/ l = rev (map xyv (h_points h))) /\ (shoelace l <= 0)%R) (rg_holes r) inner ->
  plain (outer :: inner) -> triangle_answer64 e tol (outer :: inner) o -> initializeMesh (N := F64) tol (triangle_ctor (N := F64) tol) d = Ok m ->
  ul_list (ms_points m) = map read_point (o_points o) -> map (fun g : triangle F64 => pg_points (tr_poly g)) (ms_polygons m) = map corners (o_tris o) -> tiles64 e tol r m.
Proof.
  intros He Ht EO SO HO PL A64 Em P1 P2. split.
  - destruct (areas64 e He tol (outer :: inner) o A64 tr_poly (ms_polygons m) P2 (mesh_fresh (N := F64) tol (triangle_ctor (N := F64) tol) _ d m (triangle_fresh (N := F64) tol) Em)) as (areas & F & S). exists areas.
    split; [rewrite P1; exact F|]. rewrite S. apply signed_areas64; assumption.
  - intros q Gq. rewrite P1. destruct (located64 e He tol Ht (outer :: inner) o A64 tr_poly (ms_polygons m) P2 q Gq) as (fs & F & _ & L & C). exists fs. split; [exact F|].
    apply (bit_count _ _ _ (C (PL (xyv q)))); [split; [exact L|apply PL]|apply region_parity64; assumption].
Qed.
Lemma constrained_tiles64 (e : Z) (tol : f64) triangulate seeds (r : region F64) (c : gen_call F64) restricted outer inner : -200 <= e <= 200 -> tolerance64 tol -> region_made r ->
  (c = CallConstrained /\ restricted = [] \/ c = CallConstrainedWith restricted) ->
  (outer = map xyv (rg_p r) \/ outer = rev (map xyv (rg_p r))) -> (0 <= shoelace outer)%R ->
  Forall2 (fun (h : hole F64) l => (l = map xyv (h_points h) \/ l = rev (map xyv (h_points h))) /\ (shoelace l <= 0)%R) (rg_holes r) inner ->
  plain (outer :: inner) -> clustered tol (fun q => In q (seeds ++ getRegionPoints r ++ flat_map (fun s : pseg F64 => [fst s; snd s]) restricted)) ->
  exists inp, build_pslg (N := F64) tol (region_copy r) seeds restricted = Ok inp /\ in_holes inp = map (fun h : hole F64 => xy64 (h_center h)) (rg_holes r) /\
    let o := triangulate swConstrained inp in triangle_answer64 e tol (outer :: inner) o ->
    exists g m, gen_do (N := F64) triangulate tol (gen_ctor seeds r) c = (g, Ok (OutMesh (ByValue m))) /\ ul_list (ms_points m) = map read_point (o_points o) /\ tiles64 e tol r m.
Proof.
  intros He Ht M EC EO SO HO PL CL.
  destruct (PPipe64.pslg_doubles tol Ht (region_copy r) seeds restricted (rm_copy _ M) CL) as (pl & ss & rs & vs & E & _).
  eexists. split; [exact E|]. split; [reflexivity|]. cbn zeta. set (o := triangulate swConstrained _). intros A64. destruct (a64_triangulated _ _ _ _ A64) as [T G D S A].
  destruct (PPipe64.output_doubles e He tol o T G D) as (d & RO). destruct (PPipe64.mesh_doubles tol Ht o d T RO S A) as (_ & m & _ & Em & _ & P1 & _ & P2 & _).
  eexists. exists m. split; [|split; [exact P1|exact (answer_tiles e tol r outer inner o d m He Ht EO SO HO PL A64 Em P1 P2)]].
  unfold gen_do, ensure. cbn [gen_ctor gn_data]. unfold callTriangle. cbn [gen_ctor gn_region gn_seeds].
  assert (EQ : call_restricted c = restricted /\ call_switches c = swConstrained) by (destruct EC as [[-> ->]| ->]; split; reflexivity). destruct EQ as [-> ->]. rewrite E. fold o. rewrite RO. cbn [bind].
  destruct EC as [[-> ->]| ->]; rewrite Em; reflexivity.
Qed.

Lemma program_tiles64 (e : Z) (tol : f64) (triangulate : switches -> pslg F64 -> trout F64) (order : list iseg -> list iseg)
    (home : text) (d : disk) (name : text) (pts : list (Point F64)) (os : list (region_op F64)) (r0 r : region F64) outer inner :
  -199 <= e <= 200 -> tolerance64 tol -> (forall l, Permutation (order l) l) ->
  Forall op_built64 os -> region_ctor (N := F64) tol pts = Ok r0 -> region_run (N := F64) tol r0 os = Ok r ->
  clustered tol (fun q => In q (rg_seeds r ++ getRegionPoints r)) -> dk_writable d (home ++ slash :: name) = true ->
  (outer = map xyv (rg_p r) \/ outer = rev (map xyv (rg_p r))) -> (0 <= shoelace outer)%R ->
  Forall2 (fun (h : hole F64) l => (l = map xyv (h_points h) \/ l = rev (map xyv (h_points h))) /\ (shoelace l <= 0)%R) (rg_holes r) inner -> plain (outer :: inner) ->
  exists inp, build_pslg (N := F64) tol (region_copy r) (rg_seeds r) [] = Ok inp /\
    let o := triangulate swConstrained inp in triangle_answer64 e tol (outer :: inner) o ->
    exists d' t f, triangulation_program (N := F64) tol print_double triangulate order (Some home) d pts os name = Ok (d', t) /\
      dk_text d' (home ++ slash :: name) = Some f /\ ul_list (ms_points t) = map read_point (o_points o) /\ tiles64 e tol r t.
Proof.
  intros He Ht HP HB HC HR CL W EO SO HO PL. pose proof Ht as [Tf Tp]. assert (T0 : (0 < val tol)%R) by (eapply Rlt_le_trans; [|exact Tp]; apply Flocq.Core.Raux.bpow_gt_0).
  destruct (PReg64.region_history64 tol Tf T0 os r0 r (rm_ctor _ _ _ HC) HB HR) as [MR _].
  destruct (PProgram.triangulation_program_correct64 e tol triangulate order home d name pts os r0 r He Ht HP HB HC HR CL W) as (inp & E & _ & G1).
  destruct (constrained_tiles64 e tol triangulate (rg_seeds r) r CallConstrained [] outer inner ltac:(lia) Ht MR (or_introl (conj eq_refl eq_refl)) EO SO HO PL) as (inp' & E' & _ & G2).
  { cbn [flat_map]. rewrite app_nil_r. exact CL. }
  assert (K : forall A (x y : A), Ok x = Ok y -> x = y) by congruence. rewrite E in E'. apply K in E'. subst inp'. exists inp. split; [exact E|]. cbn zeta in *. set (o := triangulate swConstrained inp) in *. intros A64.
  destruct (G1 (a64_triangulated _ _ _ _ A64)) as (d' & t & f & TP & X1 & _ & _ & X2 & _). destruct (G2 A64) as (g & m & GD & _ & TL). exists d', t, f. split; [exact TP|]. split; [exact X1|]. split; [exact X2|].
  assert (EQ : t = m); [|subst t; exact TL].
  unfold triangulation_program, make_domain in TP. rewrite HC in TP. cbn [bind] in TP. rewrite HR in TP. cbn [bind] in TP. rewrite GD in TP. cbn [snd bind use] in TP. destruct (mesh_printInFile _ _ _ _ _ _ _) as [d2|]; [|discriminate TP]. cbn [bind] in TP.
  assert (KP : forall X Y (x x' : X) (y y' : Y), Ok (x, y) = Ok (x', y') -> y = y') by congruence. apply KP in TP. symmetry. exact TP.
Qed.
