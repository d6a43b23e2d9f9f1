(** Histories of a region and the whole Voronoi generator. *)
From Coq Require Import Reals Lra Lia ZArith List Bool.
From Verif Require Import Base Spec MUtil MGeom MHull MPolygon MMaps MTriangle MGen MRegion MDelaunay MVoronoi MHist Bridge BridgeHist.
From Verif Require Import PUtil PPoly2 PRegion PDelaunay PVoronoi PVorGeo PVorCell.
Import ListNotations.
Open Scope Z_scope.

Lemma kept_filter {A} (P : A -> Prop) (keep : A -> bool) s : (forall q, keep q = true <-> P q) -> kept P s (filter keep s).
Proof.
  intros H. induction s as [|x s IH]; [constructor|]. cbn [filter]. destruct (keep x) eqn:E.
  - constructor; [apply H; exact E|exact IH].
  - constructor; [|exact IH]. intros K. apply H in K. congruence.
Qed.
Lemma fine_of tol r : plan_fine tol (plan_of r) -> region_no_short_edge tol r.
Proof. intros [H1 H2]. split; [exact H1|]. cbn [plan_of pl_holes] in H2. rewrite Forall_map in H2. exact H2. Qed.
Lemma seeded_filter tol r keep s : (0 < tol)%R -> region_made r -> (forall q, keep q = true <-> in_domain (N := RNum) tol r q) ->
  seeded tol (plan_of r) s (plan_of (with_seeds r (filter keep s))).
Proof.
  intros TP M K. split; [reflexivity|]. split; [reflexivity|]. split.
  - intros q Hq. apply filter_In in Hq. apply Hq.
  - intros F. apply kept_filter. intros q. rewrite K, (in_domain_plane tol r q TP M (fine_of tol r F)). unfold plan_inside. cbn [plan_of pl_outline pl_holes].
    rewrite Forall_map. reflexivity.
Qed.
Lemma addHole_parts clip (cf : config RNum) (r : region RNum) h :
  plan_of (fst (addHole clip cf r h)) = plan_of r \/
  plan_of (fst (addHole clip cf r h)) = mkPlan (rg_p r) (map h_points (rg_holes r) ++ [h_points h]) (rg_seeds r) \/
  exists pts, plan_of (fst (addHole clip cf r h)) = mkPlan pts (map h_points (rg_holes r)) (rg_seeds r).
Proof.
  unfold addHole. destruct (mapM _ (rg_p r)) as [s|]; [|left; reflexivity]. destruct (mapM _ (h_points h)) as [c|]; [|left; reflexivity].
  assert (G : let x := match containsPoint (N := RNum) (cf_tol cf) (pg_points (rg_poly r)) (rg_p r) (h_center h) with
                | Err e => (r, Err e) | Ok true => (mkRegion (rg_poly r) (rg_p r) (rg_holes r ++ [h]) (rg_seeds r), Ok tt)
                | Ok false => (r, Err (Throw "Hole lies completely outside of domain region")) end in
     plan_of (fst x) = plan_of r \/ plan_of (fst x) = mkPlan (rg_p r) (map h_points (rg_holes r) ++ [h_points h]) (rg_seeds r)).
  { cbn zeta. destruct (containsPoint _ _ _ _) as [[|]|]; [right|left; reflexivity|left; reflexivity]. unfold plan_of; cbn [fst rg_p rg_holes rg_seeds]. rewrite map_app. reflexivity. }
  destruct (clip s c) as [|path [|path2 l]]; try (destruct G as [G|G]; [left; exact G|right; left; exact G]).
  destruct (mapM _ path) as [pts|]; [|left; reflexivity]. right. right. exists pts. unfold region_mutate. destruct (polygon_mutate _ _ _). reflexivity.
Qed.
Lemma step_plan tol r o r' : (0 < tol)%R -> region_made r -> op_built o -> region_do (N := RNum) tol r o = Ok r' ->
  region_made r' /\ plan_step tol (plan_of r) o (plan_of r').
Proof.
  intros TP M B H. destruct (seeding_char (N := RNum) tol r M) as (keep & K & H1 & H2 & H3). destruct o as [s|s|g nX nY| |clip cf h| |pts|]; cbn [region_do plan_step] in *.
  - split; [exact (rm_addSeeds _ _ _ _ M H)|]. rewrite H1 in H. injection H as <-. apply seeded_filter; assumption.
  - split; [exact (rm_read _ _ _ _ M H)|]. rewrite H2 in H. injection H as <-. apply (seeded_filter tol r keep (rg_seeds r ++ s)); assumption.
  - apply bind_ok in H as ([r1 g1] & HG & E). injection E as <-. split; [exact (rm_generate _ _ _ _ _ _ _ M HG)|].
    destruct (proj1 (H3 _ _ _ _ _) HG) as (new & G & Er). rewrite Er. exists r, g1, new. split; [reflexivity|]. split; [exact G|]. apply (seeded_filter tol r keep (rg_seeds r ++ new)); assumption.
  - injection H as <-. split; [apply rm_cleanSeeds; exact M|reflexivity].
  - injection H as <-. split; [apply rm_addHole; assumption|]. apply addHole_parts.
  - injection H as <-. split; [apply rm_cleanHoles; exact M|reflexivity].
  - injection H as <-. split; [apply rm_mutate; exact M|]. unfold region_mutate. destruct (polygon_mutate _ _ _). reflexivity.
  - injection H as <-. split; [apply rm_copy; exact M|reflexivity].
Qed.
Lemma region_history tol : (0 < tol)%R -> forall os r r', region_made r -> Forall op_built os -> region_run (N := RNum) tol r os = Ok r' ->
  region_made r' /\ plan_run tol (plan_of r) os (plan_of r').
Proof.
  intros TP. induction os as [|o os IH]; intros r r' M B H; cbn [region_run] in H.
  - injection H as <-. split; [exact M|constructor].
  - apply bind_ok in H as (r1 & H1 & H). inversion_clear B as [|? ? B1 B2]. destruct (step_plan tol r o r1 TP M B1 H1) as [M1 S1].
    destruct (IH r1 r' M1 B2 H) as [M2 S2]. split; [exact M2|]. econstructor; eassumption.
Qed.

(** * From seeds and region to the diagram *)
Lemma delaunay_proper (o : trout RNum) : delaunay_output o -> forall t A B C, In t (o_tris o) -> vertices_are (map read_point (o_points o)) (corners t) [A; B; C] ->
  orient (xy A) (xy B) (xy C) <> 0%R.
Proof. intros [H _] t A B C Ht V. destruct (H t A B C Ht V) as [K _]. lra. Qed.
Lemma generator_diagram (tol : R) fuel triangulate seeds (r : region RNum) : (0 < tol)%R -> region_made r ->
  separated tol (fun q => In q (seeds ++ getRegionPoints r)) ->
  exists inp, build_pslg (N := RNum) tol (region_copy r) seeds [] = Ok inp /\
    (forall q, In q (seeds ++ getRegionPoints r) -> exists y, In y (in_points inp) /\ coincide tol y (xy q)) /\
    let o := triangulate swConforming inp in
    delaunay_answer tol o -> (length (o_tris o) < fuel)%nat ->
    exists v m, voronoiGenerator (N := RNum) tol triangulate fuel seeds r = Ok (v, m) /\
      ul_list (ms_points m) = map read_point (o_points o) /\
      map (fun g : polygon RNum => pg_points g) (ms_polygons m) = map corners (o_tris o) /\
      Forall2 (fun k (g : polygon RNum) => forall ws ts, closed_fan (map fst (o_edges o)) (o_tris o) k ws ts ->
        exists site vs, vertices_are (ul_list (ms_points m)) [k] [site] /\ vertices_are (ul_list (ms_points v)) (pg_points g) vs /\
          forall x, voronoi_region (map xy (ul_list (ms_points m))) (xy site) x <-> in_hull (map xy vs) x)
        (dedup (flat_map corners (o_tris o))) (ms_polygons v).
Proof.
  intros TP M SE. destruct (build_pslg_correct tol TP (region_copy r) seeds [] (rm_copy _ M) SE) as (pl & ss & rs & vs & E & _ & _ & _ & C & _).
  eexists. split; [exact E|]. split.
  - intros q Hq. destruct (C q Hq) as (y & Hy & K). exists (xy y). split; [apply in_map; exact Hy|exact K].
  - cbn zeta. set (o := triangulate swConforming _). intros [T D F S A CA] L.
    destruct (read_output_total tol o T (delaunay_proper o D)) as (d & RO).
    destruct (delaunay_mesh tol TP o d T RO S A) as (m & _ & Em & _ & P1 & _ & P2 & _).
    destruct (inner_regions_exact tol fuel o d TP CA T D RO F L) as (v & Ev & R).
    exists v, m. split; [|split; [exact P1|split; [exact P2|]]].
    + unfold voronoiGenerator, ensure. cbn [gen_ctor gn_data]. unfold callTriangle. cbn [gen_ctor gn_region gn_seeds]. rewrite E. fold o. rewrite RO. cbn [bind]. rewrite Em. cbn [bind]. rewrite Ev. reflexivity.
    + rewrite P1. exact R.
Qed.
(** only the generation of points can fail *)
Lemma history_total tol : (0 < tol)%R -> forall os r, region_made r -> Forall op_built os ->
  (forall o, In o os -> match o with OpGenerate _ _ _ => False | _ => True end) -> exists r', region_run (N := RNum) tol r os = Ok r'.
Proof.
  intros TP. induction os as [|o os IH]; intros r M B NG; [exists r; reflexivity|]. inversion_clear B as [|? ? B1 B2]. cbn [region_run].
  assert (K : exists r1, region_do (N := RNum) tol r o = Ok r1).
  { pose proof (NG o (or_introl eq_refl)) as N0. destruct (seeding_char (N := RNum) tol r M) as (keep & K & H1 & H2 & H3).
    destruct o as [s|s|g nX nY| |clip cf h| |pts|]; cbn [region_do]; try (eexists; reflexivity); [rewrite H1|rewrite H2|destruct N0]; eexists; reflexivity. }
  destruct K as (r1 & E). rewrite E. cbn [bind]. apply IH; [exact (proj1 (step_plan tol r o r1 TP M B1 E))|exact B2|intros o' Ho; apply NG; right; exact Ho].
Qed.
