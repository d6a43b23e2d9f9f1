(** The Voronoi generator on a region of any shape, with holes: the areas of the cells add up to its area. *)
From Coq Require Import Reals Lra Lia ZArith List Bool Permutation.
From Verif Require Import Base Spec MUtil MGeom MHull MPolygon MMaps MTriangle MGen MRegion MDelaunay MVoronoi Bridge BridgeTile BridgeHist BridgeFill BridgeAny.
From Verif Require Import PUtil PPoint PPoly PPoly2 PTri PMore PRegion PDelaunay PVoronoi PFan PVorGeo PVorCell PConvex PVorConvex PWedge PDual PHist PTile PTile2 PTile3 PTile4 PTile5 PTile6 PFill PFill2 PAny5.
Import ListNotations.

Lemma flat_edges_nodup {A} (rings : list (list A)) : NoDup (concat rings) -> NoDup (flat_map edges_of rings).
Proof.
  intros ND. apply (NoDup_map_inv fst). replace (map fst (flat_map edges_of rings)) with (concat rings); [exact ND|]. clear.
  induction rings as [|r rings IH]; [reflexivity|]. cbn [concat flat_map]. rewrite map_app, <- IH. f_equal. destruct r as [|a l]; [reflexivity|]. unfold edges_of. rewrite snoc_pairs_fst. reflexivity.
Qed.
Lemma rings_sum (f : Z * Z -> R) tris rings : (forall e, f (swap e) = - f e)%R -> NoDup (flat_map sides tris) -> NoDup (concat rings) ->
  (forall a b, border_side tris a b <-> exists ring, In ring rings /\ In (a, b) (edges_of ring)) ->
  sumR (map f (flat_map sides tris)) = sumR (map f (flat_map edges_of rings)).
Proof.
  intros AF ND NR H. rewrite (split_sum f (both (flat_map sides tris))), (cancel f _ AF ND), Rplus_0_l. apply sumR_perm, Permutation_map, NoDup_Permutation.
  - apply NoDup_filter, ND.
  - apply flat_edges_nodup, NR.
  - intros [a b]. rewrite in_flat_map, <- H. unfold border_side. rewrite filter_In. unfold both, swap. cbn [fst snd]. split.
    + intros [I J]. apply in_flat_map in I as (t & Ht & I). destruct (in_dec side_dec (b, a) (flat_map sides tris)) as [|N]; [discriminate|]. split; [eauto|].
      intros t' Ht' K. apply N. apply in_flat_map. eauto.
    + intros [(t & Ht & I) J]. split; [apply in_flat_map; eauto|]. destruct (in_dec side_dec (b, a) (flat_map sides tris)) as [K|]; [|reflexivity].
      exfalso. apply in_flat_map in K as (t' & Ht' & K). exact (J t' Ht' K).
Qed.

Section Fill.
  Local Open Scope Z_scope.
  Variable tol : R.
  Variables (outlines : list (list pt)) (o : trout RNum).
  Notation tris := (o_tris o).
  Notation mp := (map read_point (o_points o)).
  Notation sites := (output_sites o).
  Hypothesis DA : delaunay_answer tol o.
  Hypothesis SA : sources_apart tol o.
  Hypothesis tol_pos : (0 < tol)%R.
  Hypothesis FL : fills_any tol outlines o.
  Let T := da_triangulation _ _ DA.
  Let D := da_delaunay _ _ DA.
  Lemma any_fill_border : any_border tol o.
  Proof.
    intros v w1 w2 site a b BC V. destruct (rim_border tol o DA v w1 w2 BC) as [B1 B2].
    inversion_clear V as [|? ? ? ? Y1 V']. inversion_clear V' as [|? ? ? ? Y2 V'']. inversion_clear V'' as [|? ? ? ? Y3 _].
    assert (V1 : vertices_are mp [v] [site]) by (constructor; [exact Y1|constructor]). assert (V2 : vertices_are mp [w1] [a]) by (constructor; [exact Y2|constructor]).
    assert (V4 : vertices_are mp [w2; v; w1] [b; site; a]) by (constructor; [exact Y3|]; constructor; [exact Y1|exact V2]).
    split; [|split; [|split]].
    - apply (fa_gabriel _ _ _ FL v w1); [exact B1|]. constructor; [exact Y1|exact V2].
    - assert (G : gabriel_edge sites (xy b) (xy site)) by (apply (fa_gabriel _ _ _ FL w2 v); [exact B2|]; constructor; [exact Y3|exact V1]).
      intros q Hq. specialize (G q Hq). apply dist_le in G. apply dist_le. unfold vdot, vsub, midpoint in *. cbn [fst snd] in *. lra.
    - exact (fa_inner _ _ _ FL w2 v w1 b site a B2 B1 V4).
    - pose proof (fa_corners _ _ _ FL w2 v w1 b site a B2 B1 V4) as C. rewrite <- (orient_rot (xy b) (xy site) (xy a)) in C. exact C.
  Qed.
  Lemma any_fill_domain : any_domain tol o.
  Proof. constructor; [exact T|exact D|exact (fill_sites tol tol_pos o DA)|exact SA|exact (da_fans _ _ DA)|exact any_fill_border]. Qed.
  Lemma any_fill_area tas : triangle_areas o tas -> sumR tas = sumR (map shoelace outlines).
  Proof.
    intros TA. destruct (fa_rings _ _ _ FL) as (rings & H & ND & F).
    set (f := fun e : Z * Z => vcross (pos o (fst e)) (pos o (snd e))).
    assert (E0 : sumR (map shoelace outlines) = (sumR (map f (flat_map edges_of rings)) / 2)%R).
    { clear - F. induction F as [|ring outline rings outlines (rs & V & S) F IH]; [cbn; lra|]. cbn [map flat_map]. rewrite map_app, sumR_app. change (sumR (shoelace outline :: map shoelace outlines)) with (shoelace outline + sumR (map shoelace outlines))%R. rewrite IH.
      rewrite <- (ring_area _ _ S), (ring_pos o _ _ V).
      assert (E1 : shoelace (map (pos o) ring) = (sumR (map f (edges_of ring)) / 2)%R); [|rewrite E1; lra].
      unfold shoelace. f_equal. f_equal. destruct ring as [|a l]; [reflexivity|]. unfold edges_of. cbn [map]. change (pos o a :: map (pos o) l) with (map (pos o) (a :: l)). change [pos o a] with (map (pos o) [a]). rewrite <- map_app, PVorGeo.pairs_map, map_map. reflexivity. }
    rewrite E0, <- (rings_sum f tris rings); [| |apply sides_nodup; [exact (tg_corners _ _ _ T)|exact (proj2 D)]|exact ND|exact H].
    - clear - TA. induction TA as [|t a ts as_ (A & B & C & V & ->) F IH]; [cbn; lra|]. cbn [flat_map]. rewrite map_app, sumR_app.
      change (sumR (shoelace [xy A; xy B; xy C] :: as_)) with (shoelace [xy A; xy B; xy C] + sumR as_)%R. rewrite IH.
      assert (K : shoelace [xy A; xy B; xy C] = (sumR (map f (sides t)) / 2)%R); [|lra].
      destruct t as [[a b] c]. cbn [corners] in V. inversion_clear V as [|? ? ? ? Y1 V']. inversion_clear V' as [|? ? ? ? Y2 V'']. inversion_clear V'' as [|? ? ? ? Y3 _].
      assert (P1 : pos o a = xy A) by (apply (at_pos o); constructor; [exact Y1|constructor]). assert (P2 : pos o b = xy B) by (apply (at_pos o); constructor; [exact Y2|constructor]). assert (P3 : pos o c = xy C) by (apply (at_pos o); constructor; [exact Y3|constructor]).
      unfold shoelace. cbn [sides map]. unfold f. cbn [fst snd]. rewrite P1, P2, P3. reflexivity.
    - intros [a b]. unfold f, swap, vcross. cbn [fst snd]. ring.
  Qed.
End Fill.

Local Open Scope Z_scope.
Lemma generator_any (tol : R) fuel triangulate seeds (r : region RNum) outer inner : (0 < tol)%R -> region_made r ->
  (outer = map xy (rg_p r) \/ outer = rev (map xy (rg_p r))) -> (0 <= shoelace outer)%R ->
  Forall2 (fun (h : hole RNum) l => (l = map xy (h_points h) \/ l = rev (map xy (h_points h))) /\ (shoelace l <= 0)%R) (rg_holes r) inner ->
  separated tol (fun q => In q (seeds ++ getRegionPoints r)) ->
  exists inp, build_pslg (N := RNum) tol (region_copy r) seeds [] = Ok inp /\ in_holes inp = map (fun h : hole RNum => xy (h_center h)) (rg_holes r) /\
    let o := triangulate swConforming inp in
    delaunay_answer tol o -> sources_apart tol o -> fills_any tol (outer :: inner) o -> (length (o_tris o) < fuel)%nat ->
    exists v m areas, voronoiGenerator (N := RNum) tol triangulate fuel seeds r = Ok (v, m) /\
      ul_list (ms_points m) = map read_point (o_points o) /\
      Forall2 (fun k (g : polygon RNum) => exists site vs, vertices_are (ul_list (ms_points m)) [k] [site] /\
        vertices_are (ul_list (ms_points v)) (pg_points g) vs /\ (forall x y, In (x, y) (edges_of (map xy vs)) -> (0 <= orient (xy site) x y)%R) /\
        forall x, seen_part (xy site) (map xy vs) x -> voronoi_region (map xy (ul_list (ms_points m))) (xy site) x)
        (dedup (flat_map corners (o_tris o))) (ms_polygons v) /\
      Forall2 (fun g a => exists g', getArea (N := RNum) g (ul_list (ms_points v)) = Ok (g', a)) (ms_polygons v) areas /\
      sumR areas = (Rabs (shoelace (map xy (rg_p r))) - sumR (map (fun h : hole RNum => Rabs (shoelace (map xy (h_points h)))) (rg_holes r)))%R.
Proof.
  intros TP M EO SO HO SE.
  destruct (build_pslg_correct tol TP (region_copy r) seeds [] (rm_copy _ M) SE) as (pl & ss & rs & vs & E & _).
  eexists. split; [exact E|]. split; [reflexivity|]. cbn zeta. set (o := triangulate swConforming _). intros DA SA FL L.
  pose proof (any_fill_domain tol (outer :: inner) o DA SA TP FL) as CD.
  destruct (read_output_total tol o (da_triangulation _ _ DA) (delaunay_proper o (da_delaunay _ _ DA))) as (d & RO).
  destruct (delaunay_mesh tol TP o d (da_triangulation _ _ DA) RO (da_separated _ _ DA) (da_apart _ _ DA)) as (m & _ & Em & _ & P1 & _ & _).
  destruct (parts_seen tol TP o CD fuel d RO L) as (v & Ev & X1). assert (K : forall A (x y : A), Ok x = Ok y -> x = y) by congruence.
  destruct (parts_add_up tol TP o CD fuel d RO L) as (v' & areas & tas & Ev' & X4 & X5 & X6). rewrite Ev in Ev'. apply K in Ev'. subst v'.
  exists v, m, areas. split; [|split; [exact P1|split; [|split; [exact X4|]]]].
  - unfold voronoiGenerator, ensure. cbn [gen_ctor gn_data]. unfold callTriangle. cbn [gen_ctor gn_region gn_seeds]. rewrite E. fold o. rewrite RO. cbn [bind]. rewrite Em. cbn [bind]. rewrite Ev. reflexivity.
  - rewrite P1. exact X1.
  - rewrite X6, (any_fill_area tol (outer :: inner) o DA FL tas X5). cbn [map]. change (sumR (shoelace outer :: map shoelace inner)) with (shoelace outer + sumR (map shoelace inner))%R.
    assert (A1 : shoelace outer = Rabs (shoelace (map xy (rg_p r)))).
    { destruct EO as [->| ->]; [symmetry; apply Rabs_pos_eq, SO|]. rewrite shoelace_rev in SO |- *. rewrite Rabs_left1 by lra. reflexivity. }
    assert (A2 : sumR (map shoelace inner) = (- sumR (map (fun h : hole RNum => Rabs (shoelace (map xy (h_points h)))) (rg_holes r)))%R); [|lra].
    clear - HO. induction HO as [|h l hs inner [EL SL] F IH]; [cbn; lra|]. cbn [map]. unfold sumR in *. cbn [fold_right]. rewrite IH.
    assert (A : shoelace l = (- Rabs (shoelace (map xy (h_points h))))%R); [|lra].
    destruct EL as [->| ->]; [rewrite Rabs_left1 by exact SL; lra|]. rewrite shoelace_rev in SL |- *. rewrite Rabs_pos_eq by lra. reflexivity.
Qed.
