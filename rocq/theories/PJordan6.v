(** Meshes of simple regions tile them. *)
From Coq Require Import Reals Lra Lia ZArith List Bool Permutation.
From Verif Require Import Base Spec SpecNum MUtil MGeom MHull MPolygon MMaps MTriangle MGen MRegion MDelaunay MVoronoi MMesh MFormat MHist MFile MProgram.
From Verif Require Import Bridge Bridge64 BridgeNum BridgeHist BridgeProg BridgeVor64 BridgeTile BridgeFill BridgeAny BridgeWind BridgeSimple BridgeSimple64 BridgeJordan.
From Verif Require Import PContains PWind2 PSimple3 PSimple4 PSimple64 PJordan PJordan2 PJordan3 PJordan4 PJordan5.
Import ListNotations.
Local Open Scope Z_scope.
Local Notation sumZ l := (fold_right Z.add 0%Z l).

(** ** a point is in a simple region if it is in the outline and in no hole *)
Lemma passes_right z a b : (fst z <= fst a)%R -> (fst z <= fst b)%R -> passes z a b = 0.
Proof.
  intros A B. pose proof (up_pass z (a, b)) as U. unfold up in U. cbn [fst snd] in U. rewrite U. unfold pass. destruct a as [a1 a2], b as [b1 b2], z as [z1 z2]. cbn [fst snd] in *.
  assert (O : orient (a1, a2) (b1, b2) (z1, z2) = ((b2 - z2) * (a1 - z1) + (z2 - a2) * (b1 - z1))%R) by (unfold orient, vcross, vsub; cbn [fst snd]; ring).
  destruct (leR_spec a2 z2), (leR_spec b2 z2); cbn [andb negb]; try reflexivity.
  - assert (0 <= orient (a1, a2) (b1, b2) (z1, z2))%R by (rewrite O; apply Rplus_le_le_0_compat; apply Rmult_le_pos; lra). destruct (ltR_spec (orient (a1, a2) (b1, b2) (z1, z2)) 0); [exfalso; lra|reflexivity].
  - assert (0 <= - orient (a1, a2) (b1, b2) (z1, z2))%R by (rewrite O; replace (- ((b2 - z2) * (a1 - z1) + (z2 - a2) * (b1 - z1)))%R with ((z2 - b2) * (a1 - z1) + (a2 - z2) * (b1 - z1))%R by ring; apply Rplus_le_le_0_compat; apply Rmult_le_pos; lra). destruct (ltR_spec 0 (orient (a1, a2) (b1, b2) (z1, z2))); [exfalso; lra|reflexivity].
Qed.
Lemma winding_leftmost z (vs : list pt) : (forall v, In v vs -> (fst z <= fst v)%R) -> winding z vs = 0.
Proof.
  intros H. rewrite winding_tot. apply tot_zero. intros [a b] He. apply edge_in in He as [A B]. unfold up. cbn [fst snd]. apply passes_right; apply H; assumption.
Qed.
Section Region.
  Variables (outer : list pt) (inner : list (list pt)).
  Hypothesis R : simple_region outer inner.
  Notation L := (outer :: inner).
  Let S := sr_simple _ _ R.
  Lemma outer_winding q : winding q outer = if even_odd q outer then 1 else 0.
  Proof. apply jordan_ccw; [apply (simple_sub _ _ S); left; reflexivity|apply (sr_outer _ _ R)]. Qed.
  Lemma inner_winding l q : In l inner -> winding q l = if even_odd q l then -1 else 0.
  Proof. intros Hl. pose proof (sr_inner _ _ R) as SI. rewrite Forall_forall in SI. apply jordan_cw; [apply (simple_sub _ _ S); right; exact Hl|apply SI, Hl]. Qed.
  Lemma outer_nonempty : outer <> [].
  Proof. pose proof (so_long _ S) as LL. apply Forall_cons_iff in LL as [LL _]. intros ->. cbn in LL. lia. Qed.
  (** the outer outline is outside the holes *)
  Lemma outer_clear l e : In l inner -> In e (edges_of outer) -> winding (lerp (fst e) (snd e) (1 / 2)) l = 0.
  Proof.
    intros Hl He. destruct (best (fun v : pt => (- fst v)%R) outer outer_nonempty) as (p & Ip & M). rewrite (along_outline L S [] inner outer eq_refl l p e Hl Ip He).
    destruct (Z.eq_dec (winding p l) 0) as [|N]; [assumption|]. exfalso. assert (Z : exists z, In z l /\ (fst z < fst p)%R).
    { destruct (existsb (fun z : pt => ltR (fst z) (fst p)) l) eqn:X.
      - apply existsb_exists in X as (z & Iz & Z). exists z. split; [exact Iz|]. revert Z. destruct (ltR_spec (fst z) (fst p)); [auto|discriminate].
      - exfalso. apply N, winding_leftmost. intros v Hv. destruct (Rlt_dec (fst v) (fst p)) as [K|K]; [|lra]. exfalso. assert (T : existsb (fun z : pt => ltR (fst z) (fst p)) l = true) by (apply existsb_exists; exists v; split; [exact Hv|]; destruct (ltR_spec (fst v) (fst p)); [reflexivity|contradiction]). congruence. }
    destruct Z as (z & Iz & Z). pose proof (sr_within _ _ R) as WI. rewrite Forall_forall in WI. destruct (WI l Hl) as (w & Iw & EW).
    pose proof Hl as Hl'. apply in_split in Hl' as (m1 & m2 & E). assert (O : L = (outer :: m1) ++ l :: m2) by (rewrite E; reflexivity).
    assert (NE : exists e', In e' (edges_of l)) by (destruct l as [|x m]; [destruct Iz|]; cbn [edges_of app]; destruct m as [|y m]; [exists (x, x)|exists (x, y)]; left; reflexivity). destruct NE as (e' & He').
    pose proof (along_outline L S (outer :: m1) m2 l O outer z e' (or_introl eq_refl) Iz He') as A1. pose proof (along_outline L S (outer :: m1) m2 l O outer w e' (or_introl eq_refl) Iw He') as A2.
    rewrite A1 in A2. rewrite (winding_leftmost z outer) in A2 by (intros v Hv; specialize (M v Hv); lra). rewrite outer_winding, EW in A2. discriminate.
  Qed.
  Lemma all_left e : In e (flat_map edges_of L) -> lam L e = 1.
  Proof.
    intros He. apply in_flat_map in He as (vs & [<-|V] & He).
    - rewrite (lam_parts L [] inner outer eq_refl). rewrite (proj1 (jordan_ccw outer (simple_sub _ _ S (or_introl eq_refl)) (sr_outer _ _ R)) e He). cbn [app]. rewrite sum_zero; [reflexivity|]. rewrite Forall_map, Forall_forall. intros l Hl. apply outer_clear; assumption.
    - pose proof (sr_inner _ _ R) as SI. rewrite Forall_forall in SI. pose proof (proj1 (jordan_cw vs (simple_sub _ _ S (or_intror V)) (SI vs V)) e He) as LV. pose proof (sr_within _ _ R) as WI. rewrite Forall_forall in WI. destruct (WI vs V) as (p & Ip & EP).
      pose proof V as V'. apply in_split in V' as (m1 & m2 & E). assert (O : L = (outer :: m1) ++ vs :: m2) by (rewrite E; reflexivity).
      rewrite (lam_parts _ _ _ _ O), LV. cbn [app map fold_right]. rewrite (along_outline _ S _ _ _ O outer p e) by (auto; left; reflexivity). rewrite outer_winding, EP.
      rewrite sum_zero; [reflexivity|]. rewrite Forall_map, Forall_forall. intros l' Hl'. destruct (sr_beside _ _ R m1 vs m2 l' E Hl') as (p' & Ip' & EP').
      rewrite (along_outline _ S _ _ _ O l' p' e) by (auto; right; exact Hl'). assert (I' : In l' inner) by (rewrite E; apply in_app_iff in Hl'; apply in_app_iff; cbn [In]; tauto). rewrite (inner_winding l' _ I'), EP'. reflexivity.
  Qed.
  Lemma total_bit q : 0 <= sumZ (map (winding q) L) <= 1.
  Proof.
    assert (T : sumZ (map (winding q) L) = tot (up q) (flat_map edges_of L)) by (rewrite tot_flat; reflexivity). rewrite T. destruct (sides_seen _ S q) as [->|(e & He & K)]; [lia|]. rewrite (all_left e He) in K. lia.
  Qed.
  Lemma inside_region q : (count_occ bool_dec (map (even_odd q) inner) true <= if even_odd q outer then 1 else 0)%nat /\
    xorb (even_odd q outer) (parity (map (even_odd q) inner)) = even_odd q outer && negb (existsb (even_odd q) inner).
  Proof.
    pose proof (total_bit q) as B. cbn [map fold_right] in B. rewrite outer_winding in B.
    assert (C : sumZ (map (winding q) inner) = - Z.of_nat (count_occ bool_dec (map (even_odd q) inner) true) /\ parity (map (even_odd q) inner) = Z.odd (Z.of_nat (count_occ bool_dec (map (even_odd q) inner) true)) /\
      (existsb (even_odd q) inner = false <-> count_occ bool_dec (map (even_odd q) inner) true = 0%nat)).
    { assert (I : forall l, In l inner -> winding q l = if even_odd q l then -1 else 0) by (intros l Hl; apply inner_winding, Hl). clear -I. induction inner as [|l m IH]; [repeat split|].
      destruct IH as (H1 & H2 & H3); [intros l' Hl'; apply I; right; exact Hl'|]. cbn [map fold_right existsb parity count_occ] in *. rewrite (I l (or_introl eq_refl)), H1. unfold parity in H2. cbn [fold_right]. rewrite H2.
      destruct (even_odd q l); cbn [orb xorb].
      - destruct (bool_dec true true) as [_|N]; [|contradiction N; reflexivity]. rewrite Nat2Z.inj_succ, Z.odd_succ, <- Z.negb_odd. split; [lia|]. split; [destruct (Z.odd _); reflexivity|]. split; [discriminate|lia].
      - destruct (bool_dec false true) as [N|_]; [discriminate|]. split; [lia|]. split; [destruct (Z.odd _); reflexivity|exact H3]. }
    destruct C as (C1 & C2 & C3). rewrite C1 in B. rewrite C2. set (n := count_occ bool_dec (map (even_odd q) inner) true) in *. clearbody n. destruct (even_odd q outer).
    - assert (n = 0 \/ n = 1)%nat as [-> | ->] by lia; (split; [lia|]).
      + rewrite (proj2 C3 eq_refl). reflexivity.
      + destruct (existsb (even_odd q) inner); [reflexivity|]. exfalso. pose proof (proj1 C3 eq_refl). discriminate.
    - assert (n = 0)%nat as -> by lia. split; [lia|]. reflexivity.
  Qed.
End Region.

Lemma simple_winds vs : simple_outlines [vs] ->
  ((0 < shoelace vs)%R -> forall q, winding q vs = if even_odd q vs then 1 else 0) /\ ((shoelace vs < 0)%R -> forall q, winding q vs = if even_odd q vs then -1 else 0).
Proof. intros S. split; intros A; [apply jordan_ccw|apply jordan_cw]; assumption. Qed.

(** ** the tiling theorems *)
Lemma holes_signed {H} (pts : H -> list pt) (hs : list H) inner : Forall (fun l => shoelace l < 0)%R inner -> Forall2 (fun h l => l = pts h \/ l = rev (pts h)) hs inner ->
  Forall2 (fun h l => (l = pts h \/ l = rev (pts h)) /\ (shoelace l <= 0)%R) hs inner.
Proof. intros N F. induction F as [|h l hs inner E F IH]; [constructor|]. apply Forall_cons_iff in N as [N1 N]. constructor; [split; [exact E|lra]|apply IH, N]. Qed.

Lemma simple_voronoi : forall (tol : R) fuel triangulate seeds (r : region RNum) outer inner, (0 < tol)%R -> region_made r ->
  (outer = map xy (rg_p r) \/ outer = rev (map xy (rg_p r))) ->
  Forall2 (fun (h : hole RNum) l => l = map xy (h_points h) \/ l = rev (map xy (h_points h))) (rg_holes r) inner ->
  simple_region outer inner -> separated tol (fun q => In q (seeds ++ getRegionPoints r)) ->
  exists inp, build_pslg (N := RNum) tol (region_copy r) seeds [] = Ok inp /\ in_holes inp = map (fun h : hole RNum => xy (h_center h)) (rg_holes r) /\
    let o := triangulate swConforming inp in
    delaunay_answer tol o -> sources_apart tol o -> fills_region tol (outer :: inner) o -> (length (o_tris o) < fuel)%nat ->
    exists v m areas, voronoiGenerator (N := RNum) tol triangulate fuel seeds r = Ok (v, m) /\ ul_list (ms_points m) = map read_point (o_points o) /\
      Forall2 (fun k (g : polygon RNum) => exists site vs, vertices_are (ul_list (ms_points m)) [k] [site] /\
        vertices_are (ul_list (ms_points v)) (pg_points g) vs /\ (forall x y, In (x, y) (edges_of (map xy vs)) -> (0 <= orient (xy site) x y)%R) /\
        forall x, seen_part (xy site) (map xy vs) x -> voronoi_region (map xy (ul_list (ms_points m))) (xy site) x)
        (dedup (flat_map corners (o_tris o))) (ms_polygons v) /\
      Forall2 (fun g a => exists g', getArea (N := RNum) g (ul_list (ms_points v)) = Ok (g', a)) (ms_polygons v) areas /\
      sumR areas = (Rabs (shoelace (map xy (rg_p r))) - sumR (map (fun h : hole RNum => Rabs (shoelace (map xy (h_points h)))) (rg_holes r)))%R /\
      forall q : Point RNum, exists es ts, Forall2 (holds_point tol (ul_list (ms_points v)) q) (ms_polygons v) es /\ Forall2 (holds_point tol (ul_list (ms_points m)) q) (ms_polygons m) ts /\
        (count_occ bool_dec es true = if region_holds r (xy q) then 1%nat else 0%nat) /\ (count_occ bool_dec ts true = if region_holds r (xy q) then 1%nat else 0%nat) /\
        (region_holds r (xy q) = true -> exists k g site vs, In (k, g) (combine (dedup (flat_map corners (o_tris o))) (ms_polygons v)) /\ vertices_are (ul_list (ms_points m)) [k] [site] /\
          vertices_are (ul_list (ms_points v)) (pg_points g) vs /\ seen_part (xy site) (map xy vs) (xy q) /\ voronoi_region (map xy (ul_list (ms_points m))) (xy site) (xy q)).
Proof.
  intros tol fuel triangulate seeds r outer inner Ht M EO F SR SEP. apply (generator_tiles tol fuel triangulate seeds r outer inner Ht M EO); auto.
  - apply Rlt_le, (sr_outer _ _ SR).
  - apply (holes_signed (fun h : hole RNum => map xy (h_points h))); [apply (sr_inner _ _ SR)|exact F].
  - apply simple_region_plain, SR.
Qed.
Lemma simple_constrained : forall (tol : R) triangulate seeds (r : region RNum) (c : gen_call RNum) restricted outer inner, (0 < tol)%R -> region_made r ->
  (c = CallConstrained /\ restricted = [] \/ c = CallConstrainedWith restricted) ->
  (outer = map xy (rg_p r) \/ outer = rev (map xy (rg_p r))) ->
  Forall2 (fun (h : hole RNum) l => l = map xy (h_points h) \/ l = rev (map xy (h_points h))) (rg_holes r) inner ->
  simple_region outer inner -> separated tol (fun q => In q (seeds ++ getRegionPoints r)) ->
  exists inp, build_pslg (N := RNum) tol (region_copy r) seeds restricted = Ok inp /\ in_holes inp = map (fun h : hole RNum => xy (h_center h)) (rg_holes r) /\
    let o := triangulate swConstrained inp in triangle_answer tol (outer :: inner) o ->
    exists g m areas, gen_do (N := RNum) triangulate tol (gen_ctor seeds r) c = (g, Ok (OutMesh (ByValue m))) /\ ul_list (ms_points m) = map read_point (o_points o) /\
      Forall2 (fun (t : triangle RNum) a => exists g', getArea (N := RNum) (tr_poly t) (ul_list (ms_points m)) = Ok (g', a) /\ (0 < a)%R) (ms_polygons m) areas /\
      sumR areas = (Rabs (shoelace (map xy (rg_p r))) - sumR (map (fun h : hole RNum => Rabs (shoelace (map xy (h_points h)))) (rg_holes r)))%R /\
      forall q : Point RNum, exists es, Forall2 (fun (t : triangle RNum) e => holds_point tol (ul_list (ms_points m)) q (tr_poly t) e) (ms_polygons m) es /\
        count_occ bool_dec es true = if region_holds r (xy q) then 1%nat else 0%nat.
Proof.
  intros tol triangulate seeds r c restricted outer inner Ht M EC EO F SR SEP. apply (constrained_tiles tol triangulate seeds r c restricted outer inner Ht M EC EO); auto.
  - apply Rlt_le, (sr_outer _ _ SR).
  - apply (holes_signed (fun h : hole RNum => map xy (h_points h))); [apply (sr_inner _ _ SR)|exact F].
  - apply simple_region_plain, SR.
Qed.
Lemma simple_constrained64 : forall (e : Z) (tol : f64) triangulate seeds (r : region F64) (c : gen_call F64) restricted outer inner, -200 <= e <= 200 -> tolerance64 tol -> region_made r ->
  (c = CallConstrained /\ restricted = [] \/ c = CallConstrainedWith restricted) ->
  (outer = map xyv (rg_p r) \/ outer = rev (map xyv (rg_p r))) ->
  Forall2 (fun (h : hole F64) l => l = map xyv (h_points h) \/ l = rev (map xyv (h_points h))) (rg_holes r) inner ->
  simple_region outer inner -> clustered tol (fun q => In q (seeds ++ getRegionPoints r ++ flat_map (fun s : pseg F64 => [fst s; snd s]) restricted)) ->
  exists inp, build_pslg (N := F64) tol (region_copy r) seeds restricted = Ok inp /\ in_holes inp = map (fun h : hole F64 => xy64 (h_center h)) (rg_holes r) /\
    let o := triangulate swConstrained inp in triangle_answer64 e tol (outer :: inner) o ->
    exists g m, gen_do (N := F64) triangulate tol (gen_ctor seeds r) c = (g, Ok (OutMesh (ByValue m))) /\ ul_list (ms_points m) = map read_point (o_points o) /\ tiles64 e tol r m.
Proof.
  intros e tol triangulate seeds r c restricted outer inner He Ht M EC EO F SR CL. apply (constrained_tiles64 e tol triangulate seeds r c restricted outer inner He Ht M EC EO); auto.
  - apply Rlt_le, (sr_outer _ _ SR).
  - apply (holes_signed (fun h : hole F64 => map xyv (h_points h))); [apply (sr_inner _ _ SR)|exact F].
  - apply simple_region_plain, SR.
Qed.
Lemma simple_program64 : forall (e : Z) (tol : f64) (triangulate : switches -> pslg F64 -> trout F64) (order : list iseg -> list iseg)
    (home : text) (d : disk) (name : text) (pts : list (Point F64)) (os : list (region_op F64)) (r0 r : region F64) outer inner,
  -199 <= e <= 200 -> tolerance64 tol -> (forall l, Permutation (order l) l) ->
  Forall op_built64 os -> region_ctor (N := F64) tol pts = Ok r0 -> region_run (N := F64) tol r0 os = Ok r ->
  clustered tol (fun q => In q (rg_seeds r ++ getRegionPoints r)) -> dk_writable d (home ++ slash :: name) = true ->
  (outer = map xyv (rg_p r) \/ outer = rev (map xyv (rg_p r))) ->
  Forall2 (fun (h : hole F64) l => l = map xyv (h_points h) \/ l = rev (map xyv (h_points h))) (rg_holes r) inner -> simple_region outer inner ->
  exists inp, build_pslg (N := F64) tol (region_copy r) (rg_seeds r) [] = Ok inp /\
    let o := triangulate swConstrained inp in triangle_answer64 e tol (outer :: inner) o ->
    exists d' t f, triangulation_program (N := F64) tol print_double triangulate order (Some home) d pts os name = Ok (d', t) /\
      dk_text d' (home ++ slash :: name) = Some f /\ ul_list (ms_points t) = map read_point (o_points o) /\ tiles64 e tol r t.
Proof.
  intros e tol triangulate order home d name pts os r0 r outer inner He Ht HP HB HC HR CL W EO F SR. apply (program_tiles64 e tol triangulate order home d name pts os r0 r outer inner He Ht HP HB HC HR CL W EO); auto.
  - apply Rlt_le, (sr_outer _ _ SR).
  - apply (holes_signed (fun h : hole F64 => map xyv (h_points h))); [apply (sr_inner _ _ SR)|exact F].
  - apply simple_region_plain, SR.
Qed.
