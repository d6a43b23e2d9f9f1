(** The Voronoi generator covers a region of any shape, and containsPoint finds the cell of a point. *)
From Coq Require Import Reals Lra Lia ZArith List Bool Permutation.
From Verif Require Import Base Spec MUtil MGeom MHull MPolygon MMaps MTriangle MGen MRegion MDelaunay MVoronoi Bridge BridgeTile BridgeHist BridgeFill BridgeAny BridgeWind.
From Verif Require Import PUtil PPoint PPoly PPoly2 PTri PMore PContains PRegion PDelaunay PVoronoi PFan PVorGeo PVorCell PConvex PVorConvex PVorLocate PWedge PVorBorder PDual PHist PTile PTile2 PTile3 PTile4 PTile5 PTile6 PFill PFill2 PWind PAny PAny2 PAny3 PAny4 PAny5 PAny6 PWind2 PWind3.
Import ListNotations.

(** ** Strings do not change sums along lines *)
Section Strings.
  Local Open Scope R_scope.
  Variable w : pt -> pt -> R.
  Hypothesis W : additive w.
  Lemma strung_w b l : forall a, strung a b l -> along_w w (pairs (a :: l ++ [b])) = w a b.
  Proof.
    induction l as [|c l IH]; intros a S.
    - unfold along_w. cbn. lra.
    - destruct S as [(u & U & ->) S]. change (pairs (a :: (lerp a b u :: l) ++ [b])) with ([(a, lerp a b u)] ++ pairs (lerp a b u :: l ++ [b])). rewrite along_w_app, (IH _ S).
      rewrite (proj2 W a b (lerp a b u)); [unfold along_w; cbn; lra|]. unfold orient, vcross, vsub, lerp. cbn [fst snd]. ring.
  Qed.
  Lemma path_w vs r : strung_path vs r -> along_w w (pairs r) = along_w w (pairs vs).
  Proof.
    induction 1 as [a|a b vs l r S H IH]; [reflexivity|].
    change (a :: l ++ b :: r) with ((a :: l) ++ b :: r). rewrite pairs_app, along_w_app. change ((a :: l) ++ [b]) with (a :: l ++ [b]). rewrite (strung_w b l a S), IH. reflexivity.
  Qed.
  Lemma ring_w ring outline : subdivides ring outline -> loop_w w ring = loop_w w outline.
  Proof. intros S. destruct (subdivides_edges _ _ S) as (a & r & -> & SP & E). unfold loop_w. rewrite E. exact (path_w _ _ SP). Qed.
End Strings.

Section Fill.
  Local Open Scope Z_scope.
  Variable tol : R.
  Variables (outlines : list (list pt)) (o : trout RNum).
  Lemma rings_fill_w : (forall t, In t (o_tris o) -> NoDup (corners t)) -> directed_once (o_tris o) -> (exists rings, (forall a b, border_side (o_tris o) a b <-> exists ring, In ring rings /\ In (a, b) (edges_of ring)) /\ NoDup (concat rings) /\
      Forall2 (fun ring outline => exists rs, vertices_are (map read_point (o_points o)) ring rs /\ subdivides (map xy rs) outline) rings outlines) ->
    forall w, additive w -> sumR (map (tri_at o w) (o_tris o)) = sumR (map (loop_w w) outlines).
  Proof.
    intros TC TO (rings & H & ND & F) w W.
    set (f := fun e : Z * Z => w (pos o (fst e)) (pos o (snd e))).
    assert (E0 : sumR (map (loop_w w) outlines) = sumR (map f (flat_map edges_of rings))).
    { clear - F W. induction F as [|ring outline rings outlines (rs & V & S) F IH]; [reflexivity|]. cbn [map flat_map]. rewrite map_app, sumR_app. change (sumR (loop_w w outline :: map (loop_w w) outlines)) with (loop_w w outline + sumR (map (loop_w w) outlines))%R. rewrite IH.
      rewrite <- (ring_w w W _ _ S), (ring_pos o _ _ V). f_equal. unfold loop_w, along_w. rewrite edges_of_map, map_map. reflexivity. }
    rewrite E0, <- (rings_sum f (o_tris o) rings); [| |exact (sides_nodup _ TC TO)|exact ND|exact H].
    - clear - f. induction (o_tris o) as [|[[a b] c] ts IH]; [reflexivity|]. cbn [flat_map]. rewrite map_app, sumR_app, <- IH. cbn [map]. change (sumR (tri_at o w (a, b, c) :: map (tri_at o w) ts)) with (tri_at o w (a, b, c) + sumR (map (tri_at o w) ts))%R.
      assert (X : tri_at o w (a, b, c) = sumR (map f (sides (a, b, c)))) by (unfold tri_at, tri_w, f; cbn; lra). rewrite X. reflexivity.
    - intros [a b]. unfold f, swap. cbn [fst snd]. apply (proj1 W).
  Qed.
  Lemma any_fill_w : delaunay_answer tol o -> fills_any tol outlines o -> forall w, additive w -> sumR (map (tri_at o w) (o_tris o)) = sumR (map (loop_w w) outlines).
  Proof. intros DA FL. exact (rings_fill_w (tg_corners _ _ _ (da_triangulation _ _ DA)) (proj2 (da_delaunay _ _ DA)) (fa_rings _ _ _ FL)). Qed.
End Fill.

(** ** Counting *)
Local Open Scope Z_scope.
Notation sumZ := (fold_right Z.add 0).
Lemma sumR_IZR l : sumR (map IZR l) = IZR (sumZ l).
Proof. induction l as [|x l IH]; [reflexivity|]. cbn [map fold_right]. rewrite plus_IZR, <- IH. reflexivity. Qed.
Lemma sumZ_nonneg l : Forall (fun x => 0 <= x) l -> 0 <= sumZ l.
Proof. induction 1 as [|x l H F IH]; cbn [fold_right]; lia. Qed.
Lemma sum_parity l : parity (map Z.odd l) = Z.odd (sumZ l).
Proof. induction l as [|x l IH]; [reflexivity|]. cbn [map parity fold_right]. unfold parity in IH. rewrite IH, Z.odd_add. reflexivity. Qed.
Lemma sum_count l : Forall (fun x => 0 <= x) l -> sumZ l <= 1 -> Z.of_nat (count_occ bool_dec (map Z.odd l) true) = sumZ l.
Proof.
  induction 1 as [|x l H F IH]; intros S; [reflexivity|]. cbn [fold_right] in S. pose proof (sumZ_nonneg l F) as P. cbn [map fold_right].
  assert (X : x = 0 \/ x = 1) by lia. destruct X as [-> | ->].
  - rewrite count_occ_cons_neq by discriminate. rewrite IH by lia. lia.
  - rewrite count_occ_cons_eq by reflexivity. rewrite Nat2Z.inj_succ, IH by lia. lia.
Qed.

Section Tiles.
  Variable tol : R.
  Hypothesis tol_pos : (0 < tol)%R.
  Variable o : trout RNum.
  Hypothesis CD : any_domain tol o.
  Variable fuel : nat.
  Variable d : delaunay RNum.
  Hypothesis RO : read_output (N := RNum) tol o = Ok d.
  Hypothesis LF : (length (o_tris o) < fuel)%nat.
  Notation tris := (o_tris o).
  Notation mp := (map read_point (o_points o)).
  Notation sites := (output_sites o).
  Notation V := (dedup (flat_map corners tris)).
  (** consecutive corners of a cell do not coincide *)
  Lemma cells_long : exists m, voronoi (N := RNum) tol fuel d = Ok m /\
    Forall (fun g : polygon RNum => exists vs, vertices_are (ul_list (ms_points m)) (pg_points g) vs /\ no_short_edge tol (map xy vs)) (ms_polygons m).
  Proof.
    destruct (parts_built tol tol_pos o CD fuel d RO LF) as (m & ci & E & F). exists m. split; [exact E|]. pose proof (ad_triangulation _ _ CD) as T.
    destruct (ad_apart _ _ CD) as [SE AP]. pose proof (pt_swo tol tol_pos _ SE) as W.
    assert (I : ul_inv (vertex_source o) (pt_ltb (N := RNum) tol) (ms_points m)).
    { apply (voronoi_keeps (N := RNum) tol fuel o d m T RO E); [exact W|intros v x H; exists v; exact H|].
      apply (stored_inv (N := RNum) tol o d _ T RO W). intros k c H. eapply center_source; exact H. }
    destruct (border_stored tol fuel o d m tol_pos (ad_apart _ _ CD) T RO E) as [_ INJ].
    destruct (voronoi_cells (N := RNum) tol fuel o d m T RO E) as (FC & _). apply Forall_forall. intros g Hg. apply In_nth_error in Hg as (i & Hi).
    destruct (Forall2_nth' _ _ _ F i g Hi) as (v & _ & site & vs & ts & _ & VS & (_ & _ & L2) & _). destruct (Forall2_nth' _ _ _ FC i g Hi) as (v' & _ & ND & _). clear F FC.
    exists vs. split; [exact VS|]. intros a b H. rewrite (at_index_map _ _ _ VS), edges_of_map in H. apply in_map_iff in H as ([x y] & EQ & H). cbn [fst snd] in EQ. injection EQ as <- <-.
    assert (NE : x <> y).
    { assert (LP : (2 <= length (pg_points g))%nat) by (assert (EL : length (pg_points g) = length vs) by (clear - VS; induction VS; cbn [length]; congruence); lia). intros <-. clear - H ND LP. destruct (pg_points g) as [|z l]; [cbn in LP; lia|]. unfold edges_of in H.
      destruct l as [|z' l _] using rev_ind; [cbn in LP; lia|]. change ((z :: l ++ [z']) ++ [z]) with (((z :: l) ++ [z']) ++ [z]) in H. rewrite pairs_snoc in H. apply in_app_or in H as [H|[H|[]]].
      - revert H. change ((z :: l) ++ [z']) with (z :: l ++ [z']). generalize dependent (z :: l ++ [z']). clear. intros l ND _ H. induction l as [|a [|b l] IH]; [destruct H|destruct H|]. inversion_clear ND as [|? ? N1 N2]. destruct H as [H|H]; [injection H as -> ->; apply N1; left; reflexivity|apply IH; assumption].
      - injection H as -> ->. inversion_clear ND as [|? ? N1 N2]. apply N1. apply in_or_app. right. left. reflexivity. }
    intros CO. apply NE. destruct (edge_in _ _ _ H) as [Hx Hy].
    assert (ST : forall i, In i (pg_points g) -> exists p, vertices_are (ul_list (ms_points m)) [i] [p] /\ at_index (ul_list (ms_points m)) i = xy p /\ vertex_source o p).
    { intros j Hj. destruct (Forall2_in_left _ _ _ VS j Hj) as (p & _ & Y). exists p. assert (VJ : vertices_are (ul_list (ms_points m)) [j] [p]) by (constructor; [exact Y|constructor]).
      split; [exact VJ|]. split; [apply at_index_ok, VJ|]. apply (ui_P _ _ _ I). destruct Y as [_ Y]. eapply nth_error_In; exact Y. }
    destruct (ST x Hx) as (px & VX & EX & SX), (ST y Hy) as (py & VY & EY & SY). rewrite EX, EY in CO. apply (INJ _ _ _ _ VX VY). apply AP; assumption.
  Qed.
  (** each cell goes around a point as often as the triangles do, all together *)
  Lemma parts_count : exists m, voronoi (N := RNum) tol fuel d = Ok m /\
    forall q, exists ws ts, Forall2 (fun (g : polygon RNum) x => exists vs, vertices_are (ul_list (ms_points m)) (pg_points g) vs /\ no_short_edge tol (map xy vs) /\ x = winding q (map xy vs) /\ 0 <= x) (ms_polygons m) ws /\
      Forall2 (fun t x => exists A B C, vertices_are mp (corners t) [A; B; C] /\ x = winding q [xy A; xy B; xy C]) tris ts /\ sumZ ws = sumZ ts /\ IZR (sumZ ts) = sumR (map (tri_at o (fw q)) tris).
  Proof.
    destruct (parts_wind tol tol_pos o CD fuel d RO LF) as (m & E & F & S). destruct cells_long as (m' & E' & CL). assert (K : forall A (x y : A), Ok x = Ok y -> x = y) by congruence. rewrite E in E'. apply K in E'. subst m'.
    exists m. split; [exact E|]. intros q. set (f := at_index (ul_list (ms_points m))) in *.
    exists (map (fun g => winding q (map f (pg_points g))) (ms_polygons m)), (map (fun t : Z * Z * Z => let '(A, B, C) := t in winding q [pos o A; pos o B; pos o C]) tris).
    assert (TE : forall A B C, tri_w (fw q) A B C = IZR (winding q [A; B; C])) by (intros A B C; rewrite <- loop_winding; unfold tri_w, loop_w, along_w, edges_of; cbn; lra).
    assert (ST : IZR (sumZ (map (fun t : Z * Z * Z => let '(A, B, C) := t in winding q [pos o A; pos o B; pos o C]) tris)) = sumR (map (tri_at o (fw q)) tris)).
    { rewrite <- sumR_IZR, map_map. f_equal. apply map_ext. intros [[A B] C]. unfold tri_at. symmetry. apply TE. }
    split; [|split; [|split; [|exact ST]]].
    - assert (G : Forall2 (fun v g => exists vs, vertices_are (ul_list (ms_points m)) (pg_points g) vs /\ no_short_edge tol (map xy vs) /\ winding q (map f (pg_points g)) = winding q (map xy vs) /\ 0 <= winding q (map f (pg_points g))) V (ms_polygons m)).
      { clear S E ST. rewrite Forall_forall in CL. assert (CL' : forall g, In g (ms_polygons m) -> exists vs, vertices_are (ul_list (ms_points m)) (pg_points g) vs /\ no_short_edge tol (map xy vs)) by exact CL. clear CL.
        induction F as [|v g l gs (site & vs & V1 & V2 & O & _) F IH]; [constructor|]. constructor; [|apply IH; intros g' Hg'; apply CL'; right; exact Hg'].
        exists vs. split; [exact V2|]. destruct (CL' g (or_introl eq_refl)) as (vs' & V2' & NS). rewrite (located_det _ _ _ _ V2' V2) in NS. split; [exact NS|]. unfold f. rewrite <- (at_index_map _ _ _ V2). split; [reflexivity|].
        apply le_IZR. rewrite <- loop_winding, (loop_fan _ (fw_additive q) (xy site)). unfold fan_w. apply sumR_nonneg. intros y Hy. apply in_map_iff in Hy as (e & <- & He). apply (fan_nonneg q _ _ O e He). }
      clear - G. induction G as [|v g l gs (vs & H1 & H2 & H3 & H4) G IH]; cbn [map]; constructor; [|exact IH]. exists vs. auto.
    - assert (G : forall t, In t tris -> exists A B C, vertices_are mp (corners t) [A; B; C] /\ (let '(A, B, C) := t in winding q [pos o A; pos o B; pos o C]) = winding q [xy A; xy B; xy C]).
      { intros t Ht. destruct (tri_ccw tol o CD t Ht) as (A & B & C & VV & _). exists A, B, C. split; [exact VV|]. destruct t as [[a b] c]. pose proof (ring_pos o _ _ VV) as RP. cbn [map corners] in RP. rewrite RP. reflexivity. }
      clear - G. induction tris as [|t l IH]; cbn [map]; constructor; [apply G; left; reflexivity|]. apply IH. intros t' Ht'. apply G. right. exact Ht'.
    - apply eq_IZR. rewrite ST, <- (S _ (fw_additive q)), <- sumR_IZR, map_map. f_equal. apply map_ext. intros g. symmetry. apply loop_winding.
  Qed.
End Tiles.

Lemma generator_cover (tol : R) fuel triangulate seeds (r : region RNum) outer inner : (0 < tol)%R -> region_made r ->
  (outer = map xy (rg_p r) \/ outer = rev (map xy (rg_p r))) ->
  Forall2 (fun (h : hole RNum) l => l = map xy (h_points h) \/ l = rev (map xy (h_points h))) (rg_holes r) inner ->
  separated tol (fun q => In q (seeds ++ getRegionPoints r)) ->
  exists inp, build_pslg (N := RNum) tol (region_copy r) seeds [] = Ok inp /\ in_holes inp = map (fun h : hole RNum => xy (h_center h)) (rg_holes r) /\
    let o := triangulate swConforming inp in
    delaunay_answer tol o -> sources_apart tol o -> fills_any tol (outer :: inner) o -> (length (o_tris o) < fuel)%nat ->
    exists v m, voronoiGenerator (N := RNum) tol triangulate fuel seeds r = Ok (v, m) /\ ul_list (ms_points m) = map read_point (o_points o) /\
      (forall q, even_odd q (map xy (rg_p r)) = true -> Forall (fun h : hole RNum => even_odd q (map xy (h_points h)) = false) (rg_holes r) ->
        exists k g site vs, In (k, g) (combine (dedup (flat_map corners (o_tris o))) (ms_polygons v)) /\ vertices_are (ul_list (ms_points m)) [k] [site] /\
          vertices_are (ul_list (ms_points v)) (pg_points g) vs /\ seen_part (xy site) (map xy vs) q /\ voronoi_region (map xy (ul_list (ms_points m))) (xy site) q) /\
      (forall k g site vs q, In (k, g) (combine (dedup (flat_map corners (o_tris o))) (ms_polygons v)) -> vertices_are (ul_list (ms_points m)) [k] [site] ->
        vertices_are (ul_list (ms_points v)) (pg_points g) vs -> inside_part (xy site) (map xy vs) q -> 1 <= fold_right Z.add 0 (map (winding q) (outer :: inner))) /\
      (forall q : Point RNum, exists es, Forall2 (fun (g : polygon RNum) e => exists vs b, vertices_are (ul_list (ms_points v)) (pg_points g) vs /\ e = even_odd (xy q) (map xy vs) /\
          containsPoint (N := RNum) tol (pg_points g) (ul_list (ms_points v)) q = Ok b /\ (b = true <-> e = true \/ near_border tol (xy q) (map xy vs))) (ms_polygons v) es /\
        parity es = xorb (even_odd (xy q) (map xy (rg_p r))) (parity (map (fun h : hole RNum => even_odd (xy q) (map xy (h_points h))) (rg_holes r))) /\
        0 <= fold_right Z.add 0 (map (winding (xy q)) (outer :: inner)) /\
        (fold_right Z.add 0 (map (winding (xy q)) (outer :: inner)) <= 1 ->
           Z.of_nat (count_occ bool_dec es true) = fold_right Z.add 0 (map (winding (xy q)) (outer :: inner)))).
Proof.
  intros TP M EO HO SE.
  destruct (build_pslg_correct tol TP (region_copy r) seeds [] (rm_copy _ M) SE) as (pl & ss & rs & vs & E & _).
  eexists. split; [exact E|]. split; [reflexivity|]. cbn zeta. set (o := triangulate swConforming _). intros DA SA FL L.
  pose proof (any_fill_domain tol (outer :: inner) o DA SA TP FL) as CD.
  destruct (read_output_total tol o (da_triangulation _ _ DA) (delaunay_proper o (da_delaunay _ _ DA))) as (d & RO).
  destruct (delaunay_mesh tol TP o d (da_triangulation _ _ DA) RO (da_separated _ _ DA) (da_apart _ _ DA)) as (m & _ & Em & _ & P1 & _ & _).
  assert (K : forall A (x y : A), Ok x = Ok y -> x = y) by congruence.
  destruct (parts_wind tol TP o CD fuel d RO L) as (v & Ev & F & S).
  destruct (parts_count tol TP o CD fuel d RO L) as (v' & Ev' & PC). rewrite Ev in Ev'. apply K in Ev'. subst v'.
  set (W := fun q => sumZ (map (winding q) (outer :: inner))).
  assert (TW : forall q, sumR (map (tri_at o (fw q)) (o_tris o)) = IZR (W q)).
  { intros q. rewrite (any_fill_w tol (outer :: inner) o DA FL _ (fw_additive q)). unfold W. rewrite <- sumR_IZR, map_map. f_equal. apply map_ext. intros vs'. apply loop_winding. }
  assert (OD : forall q, Z.odd (W q) = xorb (even_odd q (map xy (rg_p r))) (parity (map (fun h : hole RNum => even_odd q (map xy (h_points h))) (rg_holes r)))).
  { intros q. unfold W. rewrite <- sum_parity, map_map. cbn [map parity fold_right]. rewrite winding_odd. f_equal; [destruct EO as [-> | ->]; [reflexivity|apply even_odd_rev]|].
    change (fold_right xorb false (map (fun x => Z.odd (winding q x)) inner)) with (parity (map (fun x => Z.odd (winding q x)) inner)). f_equal. clear - HO.
    induction HO as [|h l hs inner EL F IH]; [reflexivity|]. cbn [map]. rewrite IH, winding_odd. f_equal. destruct EL as [-> | ->]; [reflexivity|apply even_odd_rev]. }
  exists v, m. split; [|split; [exact P1|split; [|split]]].
  - unfold voronoiGenerator, ensure. cbn [gen_ctor gn_data]. unfold callTriangle. cbn [gen_ctor gn_region gn_seeds]. rewrite E. fold o. rewrite RO. cbn [bind]. rewrite Em. cbn [bind]. rewrite Ev. reflexivity.
  - intros q Q1 Q2. rewrite P1. assert (O1 : Z.odd (W q) = true).
    { rewrite OD, Q1. replace (parity _) with false; [reflexivity|]. symmetry. apply parity_false. rewrite Forall_forall in Q2. exact Q2. }
    destruct (positive_covered o v F S q) as (k & g & I & site & vs' & V1 & V2 & SP & VR); [|exists k, g, site, vs'; auto 10].
    destruct (PC q) as (ws & ts & _ & _ & SW & ST). rewrite TW. rewrite TW in ST. apply eq_IZR in ST. apply IZR_lt.
    assert (0 <= W q); [|assert (W q <> 0) by (intros Z0; rewrite Z0 in O1; discriminate); lia].
    apply le_IZR. rewrite <- TW. apply sumR_nonneg. intros y Hy. apply in_map_iff in Hy as (t & <- & Ht). apply (tri_at_nonneg tol o CD q t Ht).
  - intros k g site vs' q I V1 V2 (a & b & Hab & O1 & O2 & O3). rewrite P1 in V1. apply le_IZR. fold (W q). rewrite <- TW.
    apply (cell_sum o v k g q site vs' a b F S I V1 V2 Hab O1 O2 O3).
  - intros q. destruct (PC (xy q)) as (ws & ts & FW & _ & SW & ST). rewrite TW in ST. apply eq_IZR in ST. fold (W (xy q)). rewrite <- ST, <- SW.
    assert (WN : Forall (fun x => 0 <= x) ws). { clear - FW. induction FW as [|g x gs ws (vs & _ & _ & _ & H) F IH]; constructor; assumption. }
    exists (map Z.odd ws). split; [|split; [rewrite sum_parity, SW, ST; apply OD|split; [apply sumZ_nonneg, WN|apply sum_count, WN]]].
    clear - FW TP. induction FW as [|g x gs ws (vs & H1 & H2 & -> & _) F IH]; cbn [map]; constructor; [|exact IH].
    destruct (contains_char tol (pg_points g) (ul_list (ms_points v)) q vs TP H1 H2) as (b & B1 & B2). exists vs, b. rewrite winding_odd. auto.
Qed.

Lemma generator_covers (tol : R) fuel triangulate seeds (r : region RNum) outer inner : (0 < tol)%R -> region_made r ->
  (outer = map xy (rg_p r) \/ outer = rev (map xy (rg_p r))) ->
  Forall2 (fun (h : hole RNum) l => l = map xy (h_points h) \/ l = rev (map xy (h_points h))) (rg_holes r) inner ->
  separated tol (fun q => In q (seeds ++ getRegionPoints r)) ->
  exists inp, build_pslg (N := RNum) tol (region_copy r) seeds [] = Ok inp /\ in_holes inp = map (fun h : hole RNum => xy (h_center h)) (rg_holes r) /\
    let o := triangulate swConforming inp in
    delaunay_answer tol o -> sources_apart tol o -> fills_any tol (outer :: inner) o -> (length (o_tris o) < fuel)%nat ->
    exists v m, voronoiGenerator (N := RNum) tol triangulate fuel seeds r = Ok (v, m) /\ ul_list (ms_points m) = map read_point (o_points o) /\
      (forall q, even_odd q (map xy (rg_p r)) = true -> Forall (fun h : hole RNum => even_odd q (map xy (h_points h)) = false) (rg_holes r) ->
        exists k g site vs, In (k, g) (combine (dedup (flat_map corners (o_tris o))) (ms_polygons v)) /\ vertices_are (ul_list (ms_points m)) [k] [site] /\
          vertices_are (ul_list (ms_points v)) (pg_points g) vs /\ seen_part (xy site) (map xy vs) q /\ voronoi_region (map xy (ul_list (ms_points m))) (xy site) q) /\
      (forall k g site vs q, In (k, g) (combine (dedup (flat_map corners (o_tris o))) (ms_polygons v)) -> vertices_are (ul_list (ms_points m)) [k] [site] ->
        vertices_are (ul_list (ms_points v)) (pg_points g) vs -> inside_part (xy site) (map xy vs) q -> 1 <= fold_right Z.add 0 (map (winding q) (outer :: inner))).
Proof.
  intros TP M EO HO SE. destruct (generator_cover tol fuel triangulate seeds r outer inner TP M EO HO SE) as (inp & E & H & G). exists inp. split; [exact E|]. split; [exact H|].
  cbn zeta in *. intros DA SA FL L. destruct (G DA SA FL L) as (v & m & E1 & E2 & G1 & G2 & _). exists v, m. auto.
Qed.
Lemma generator_locates (tol : R) fuel triangulate seeds (r : region RNum) outer inner : (0 < tol)%R -> region_made r ->
  (outer = map xy (rg_p r) \/ outer = rev (map xy (rg_p r))) ->
  Forall2 (fun (h : hole RNum) l => l = map xy (h_points h) \/ l = rev (map xy (h_points h))) (rg_holes r) inner ->
  separated tol (fun q => In q (seeds ++ getRegionPoints r)) ->
  exists inp, build_pslg (N := RNum) tol (region_copy r) seeds [] = Ok inp /\ in_holes inp = map (fun h : hole RNum => xy (h_center h)) (rg_holes r) /\
    let o := triangulate swConforming inp in
    delaunay_answer tol o -> sources_apart tol o -> fills_any tol (outer :: inner) o -> (length (o_tris o) < fuel)%nat ->
    exists v m, voronoiGenerator (N := RNum) tol triangulate fuel seeds r = Ok (v, m) /\ ul_list (ms_points m) = map read_point (o_points o) /\
      (forall q : Point RNum, exists es, Forall2 (fun (g : polygon RNum) e => exists vs b, vertices_are (ul_list (ms_points v)) (pg_points g) vs /\ e = even_odd (xy q) (map xy vs) /\
          containsPoint (N := RNum) tol (pg_points g) (ul_list (ms_points v)) q = Ok b /\ (b = true <-> e = true \/ near_border tol (xy q) (map xy vs))) (ms_polygons v) es /\
        parity es = xorb (even_odd (xy q) (map xy (rg_p r))) (parity (map (fun h : hole RNum => even_odd (xy q) (map xy (h_points h))) (rg_holes r))) /\
        0 <= fold_right Z.add 0 (map (winding (xy q)) (outer :: inner)) /\
        (fold_right Z.add 0 (map (winding (xy q)) (outer :: inner)) <= 1 ->
           Z.of_nat (count_occ bool_dec es true) = fold_right Z.add 0 (map (winding (xy q)) (outer :: inner)))).
Proof.
  intros TP M EO HO SE. destruct (generator_cover tol fuel triangulate seeds r outer inner TP M EO HO SE) as (inp & E & H & G). exists inp. split; [exact E|]. split; [exact H|].
  cbn zeta in *. intros DA SA FL L. destruct (G DA SA FL L) as (v & m & E1 & E2 & _ & _ & G3). exists v, m. auto.
Qed.
Lemma windings_add_up (tol : R) : (0 < tol)%R -> forall (o : trout RNum), any_domain tol o -> forall fuel (d : delaunay RNum),
  read_output (N := RNum) tol o = Ok d -> (length (o_tris o) < fuel)%nat ->
  exists m, voronoi (N := RNum) tol fuel d = Ok m /\
    forall q, exists ws ts, Forall2 (fun (g : polygon RNum) x => exists vs, vertices_are (ul_list (ms_points m)) (pg_points g) vs /\ no_short_edge tol (map xy vs) /\ x = winding q (map xy vs) /\ 0 <= x) (ms_polygons m) ws /\
      Forall2 (fun t x => exists A B C, vertices_are (map read_point (o_points o)) (corners t) [A; B; C] /\ x = winding q [xy A; xy B; xy C]) (o_tris o) ts /\ fold_right Z.add 0 ws = fold_right Z.add 0 ts.
Proof.
  intros TP o CD fuel d RO L. destruct (parts_count tol TP o CD fuel d RO L) as (m & E & H). exists m. split; [exact E|]. intros q. destruct (H q) as (ws & ts & H1 & H2 & H3 & _). exists ws, ts. auto.
Qed.
