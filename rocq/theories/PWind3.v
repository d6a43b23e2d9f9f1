(** The Voronoi cells cover the domain: counting how often a point is surrounded. *)
From Coq Require Import Reals Lra Lia ZArith List Bool Permutation.
From Verif Require Import Base Spec MUtil MGeom MHull MPolygon MMaps MTriangle MGen MRegion MDelaunay MVoronoi Bridge BridgeTile BridgeFill BridgeAny BridgeWind.
From Verif Require Import PUtil PPoint PPoly PPoly2 PTri PMore PContains PDelaunay PVoronoi PFan PVorGeo PVorCell PConvex PVorConvex PVorLocate PWedge PBorderCell PVorBorder PTile PTile2 PTile3 PTile4 PTile5 PTile6 PDual PFill PFill2 PAny PAny2 PAny3 PWind PAny4 PAny5 PWind2.
Import ListNotations.

Lemma Forall2_combine_in {A B} (P : A -> B -> Prop) l l' : Forall2 P l l' -> forall a b, In (a, b) (combine l l') -> P a b.
Proof. induction 1 as [|x y l l' H F IH]; intros a b I; [destruct I|]. destruct I as [E|I]; [injection E as <- <-; exact H|apply IH, I]. Qed.
Lemma nth_combine {A B} (l : list A) (l' : list B) : forall i a b, nth_error l i = Some a -> nth_error l' i = Some b -> In (a, b) (combine l l').
Proof.
  revert l'. induction l as [|x l IH]; intros [|y l'] [|i] a b H H'; try discriminate.
  - injection H as ->. injection H' as ->. left. reflexivity.
  - right. apply (IH l' i); assumption.
Qed.

Section Tiles.
  Local Open Scope Z_scope.
  Variable tol : R.
  Hypothesis tol_pos : (0 < tol)%R.
  Variable o : trout RNum.
  Hypothesis CD : any_domain tol o.
  Variable fuel : nat.
  Variable d : delaunay RNum.
  Hypothesis RO : read_output (N := RNum) tol o = Ok d.
  Hypothesis LF : (length (o_tris o) < fuel)%nat.
  Notation tris := (o_tris o).
  Notation mp := (map read_point (o_points o)).
  Notation sites := (output_sites o).
  Notation V := (dedup (flat_map corners tris)).
  Definition tri_at (w : pt -> pt -> R) (t : Z * Z * Z) : R := let '(A, B, C) := t in tri_w w (pos o A) (pos o B) (pos o C).
  (** the triangles seen from the site of a cell *)
  Definition pieces (m : mesh RNum (polygon RNum)) (v : Z) (g : polygon RNum) : list (list pt) :=
    map (fun e => [pos o v; fst e; snd e]) (edges_of (map (at_index (ul_list (ms_points m))) (pg_points g))).
  Lemma parts_wind : exists m, voronoi (N := RNum) tol fuel d = Ok m /\
    Forall2 (fun v (g : polygon RNum) => exists site vs, vertices_are mp [v] [site] /\ vertices_are (ul_list (ms_points m)) (pg_points g) vs /\
      (forall x y, In (x, y) (edges_of (map xy vs)) -> (0 <= orient (xy site) x y)%R) /\
      forall x, In x (map xy vs) -> voronoi_region sites (xy site) x) V (ms_polygons m) /\
    forall w, additive w -> sumR (map (fun g => loop_w w (map (at_index (ul_list (ms_points m))) (pg_points g))) (ms_polygons m)) = sumR (map (tri_at w) tris).
  Proof.
    destruct (parts_built tol tol_pos o CD fuel d RO LF) as (m & ci & E & F). exists m. split; [exact E|]. split.
    { eapply Forall2_weaken; [|exact F]. intros v g (site & vs & ts & H1 & H2 & (H3 & H4 & _) & _). exists site, vs. auto. }
    intros w W. destruct CD as [T D NS SA HF CB]. set (cc := ul_list (ms_points m)). set (q := fun v k => quad_w o cc ci w v k). set (ks := seq 0 (length tris)).
    assert (G : forall v g, part o m ci v g -> loop_w w (map (at_index cc) (pg_points g)) = sumR (map (q v) ks)).
    { intros v g (site & vs & ts & _ & VS & _ & (ND & AT) & _ & AW & _). specialize (AW w W). fold cc in AW. rewrite (at_index_map _ _ _ VS) in AW. fold cc in AW. rewrite AW.
      symmetry. apply (sumR_part (q v) ks ts); [apply seq_NoDup|exact ND| |].
      - intros k Hk. apply AT in Hk as (t & Hk & _). apply in_seq. split; [lia|]. apply nth_error_Some. congruence.
      - intros k Hk Nk. apply in_seq in Hk. destruct (nth_get tris k) as (t & Ht); [lia|]. apply (quad_w_outside o cc ci w v k t Ht). intros Hv. apply Nk, AT. eauto. }
    assert (L : map (fun g => loop_w w (map (at_index cc) (pg_points g))) (ms_polygons m) = map (fun v => sumR (map (q v) ks)) V).
    { clear - F G. induction F as [|v g l gs H F IH]; [reflexivity|]. cbn [map]. rewrite IH. f_equal. apply G, H. }
    rewrite L, (sumR_swap q). unfold ks. rewrite (map_seq_at (fun k => sumR (map (fun v => q v k) V)) (tri_at w) tris 0%nat); [reflexivity|].
    intros k [[A B] C] Hk. cbn [plus]. unfold q. pose proof (nth_error_In _ _ Hk) as Ht.
    assert (U : forall i, In i [A; B; C] -> In i V) by (intros i Hi; apply dedup_in, (in_corners o i (A, B, C) Ht Hi)).
    rewrite (quad_w_total o cc ci w W V k A B C Hk); [reflexivity|apply dedup_nodup|apply U; left; reflexivity|apply U; right; left; reflexivity|apply U; right; right; left; reflexivity].
  Qed.
  (** the sums of winding numbers around the cells and around the triangles *)
  Definition cell_seen (m : mesh RNum (polygon RNum)) (v : Z) (g : polygon RNum) (q : pt) : Prop :=
    exists site vs, vertices_are mp [v] [site] /\ vertices_are (ul_list (ms_points m)) (pg_points g) vs /\ seen_part (xy site) (map xy vs) q /\ voronoi_region sites (xy site) q.
  Lemma tri_ccw t : In t tris -> exists A B C, vertices_are mp (corners t) [A; B; C] /\ (0 < orient (xy A) (xy B) (xy C))%R /\ forall w, tri_at w t = tri_w w (xy A) (xy B) (xy C).
  Proof.
    destruct CD as [T D NS SA HF CB]. destruct t as [[a b] c]. intros Ht. assert (U : forall i, In i [a; b; c] -> In i (flat_map corners tris)) by (intros i Hi; apply (in_corners o i (a, b, c) Ht Hi)).
    destruct (used_site o T a) as (A & VA & EA & _); [apply U; left; reflexivity|]. destruct (used_site o T b) as (B & VB & EB & _); [apply U; right; left; reflexivity|]. destruct (used_site o T c) as (C & VC & EC & _); [apply U; right; right; left; reflexivity|].
    assert (VV : vertices_are mp (corners (a, b, c)) [A; B; C]). { clear - VA VB VC. inversion_clear VA as [|? ? ? ? Y1 _]. inversion_clear VB as [|? ? ? ? Y2 _]. inversion_clear VC as [|? ? ? ? Y3 _]. repeat (constructor; [assumption|]). constructor. }
    exists A, B, C. split; [exact VV|]. split; [exact (proj1 (proj1 D _ A B C Ht VV))|]. intros w. unfold tri_at. rewrite EA, EB, EC. reflexivity.
  Qed.
  Lemma tri_at_nonneg q t : In t tris -> (0 <= tri_at (fw q) t)%R.
  Proof. intros Ht. destruct (tri_ccw t Ht) as (A & B & C & _ & O & E). rewrite E. apply tri_sides. lra. Qed.
  Lemma fan_nonneg q p es : (forall x y, In (x, y) es -> (0 <= orient p x y)%R) -> forall e, In e es -> (0 <= tri_w (fw q) p (fst e) (snd e))%R.
  Proof. intros H [x y] He. apply tri_sides. apply H, He. Qed.
  Lemma positive_covered m : Forall2 (fun v (g : polygon RNum) => exists site vs, vertices_are mp [v] [site] /\ vertices_are (ul_list (ms_points m)) (pg_points g) vs /\
      (forall x y, In (x, y) (edges_of (map xy vs)) -> (0 <= orient (xy site) x y)%R) /\
      forall x, In x (map xy vs) -> voronoi_region sites (xy site) x) V (ms_polygons m) ->
    (forall w, additive w -> sumR (map (fun g => loop_w w (map (at_index (ul_list (ms_points m))) (pg_points g))) (ms_polygons m)) = sumR (map (tri_at w) tris)) ->
    forall q, (0 < sumR (map (tri_at (fw q)) tris))%R -> exists v g, In (v, g) (combine V (ms_polygons m)) /\ cell_seen m v g q.
  Proof.
    intros F S q P. rewrite <- (S _ (fw_additive q)) in P. clear S.
    induction F as [|v g l gs (site & vs & V1 & V2 & O & RG) F IH]; [cbn in P; lra|]. cbn [map] in P. unfold sumR in P. cbn [fold_right] in P. fold (sumR (map (fun g => loop_w (fw q) (map (at_index (ul_list (ms_points m))) (pg_points g))) gs)) in P.
    rewrite <- (at_index_map _ _ _ V2), (loop_fan _ (fw_additive q) (xy site)) in P.
    destruct (Rle_lt_dec (fan_w (fw q) (xy site) (edges_of (map xy vs))) 0) as [L|L].
    - destruct IH as (v' & g' & I & C); [lra|]. exists v', g'. split; [right; exact I|exact C].
    - clear IH P. exists v, g. split; [left; reflexivity|]. destruct (sum_positive _ _ (fan_nonneg q (xy site) _ O) L) as ([a b] & Hab & P). cbn [fst snd] in P.
      assert (HU : in_hull [xy site; a; b] q) by (apply tri_hull; [apply O, Hab|exact P]).
      exists site, vs. split; [exact V1|]. split; [exact V2|]. split; [exists a, b; auto|]. destruct (edge_in _ _ _ Hab) as [Ha Hb].
      apply (hull_region sites (xy site) [xy site; a; b]); [|exact HU]. intros c [<-|[<-|[<-|[]]]]; [apply p_region|apply RG, Ha|apply RG, Hb].
  Qed.
  Lemma triangle_sum q t A B C : In t tris -> vertices_are mp (corners t) [A; B; C] -> (0 < orient (xy A) (xy B) q)%R -> (0 < orient (xy B) (xy C) q)%R -> (0 < orient (xy C) (xy A) q)%R ->
    (0 < sumR (map (tri_at (fw q)) tris))%R.
  Proof.
    intros Ht VV O1 O2 O3. apply Rlt_le_trans with (tri_at (fw q) t); [|apply sumR_in_le; [|apply in_map, Ht]].
    - destruct (tri_ccw t Ht) as (A' & B' & C' & V' & _ & E). rewrite E. pose proof (located_det _ _ _ _ VV V') as K. injection K as <- <- <-. pose proof (tri_inside q _ _ _ O1 O2 O3). lra.
    - intros y Hy. apply in_map_iff in Hy as (t' & <- & Ht'). apply tri_at_nonneg, Ht'.
  Qed.
  Lemma parts_cover : exists m, voronoi (N := RNum) tol fuel d = Ok m /\
    forall t A B C q, In t tris -> vertices_are mp (corners t) [A; B; C] -> in_hull [xy A; xy B; xy C] q ->
      exists v g site vs, In (v, g) (combine V (ms_polygons m)) /\ vertices_are mp [v] [site] /\ vertices_are (ul_list (ms_points m)) (pg_points g) vs /\
        seen_part (xy site) (map xy vs) q /\ voronoi_region sites (xy site) q.
  Proof.
    destruct parts_wind as (m & E & F & S). exists m. split; [exact E|]. intros t A B C q Ht VV HU.
    assert (O : (0 < orient (xy A) (xy B) (xy C))%R) by exact (proj1 (proj1 (ad_delaunay _ _ CD) _ A B C Ht VV)).
    set (L := flat_map (fun vg => pieces m (fst vg) (snd vg)) (combine V (ms_polygons m))).
    destruct (hulls_closed L q ((fst (xy A) + fst (xy B) + fst (xy C)) / 3, (snd (xy A) + snd (xy B) + snd (xy C)) / 3)%R) as (pc & Hp & HP).
    - intros s Hs. destruct (inwards _ _ _ q s O HU Hs) as (I1 & I2 & I3). set (q' := lerp q _ s) in *.
      destruct (positive_covered m F S q' (triangle_sum q' t A B C Ht VV I1 I2 I3)) as (v & g & I & site & vs & V1 & V2 & (a & b & Hab & H) & _).
      exists [xy site; a; b]. split; [|exact H]. apply in_flat_map. exists (v, g). split; [exact I|]. unfold pieces. cbn [fst snd]. apply in_map_iff. exists (a, b). split.
      + cbn [fst snd]. destruct (at_pos o v site V1) as [-> _]. reflexivity.
      + rewrite <- (at_index_map _ _ _ V2). exact Hab.
    - apply in_flat_map in Hp as ([v g] & I & Hp). unfold pieces in Hp. cbn [fst snd] in Hp. apply in_map_iff in Hp as ([a b] & <- & Hab). cbn [fst snd] in HP.
      destruct (Forall2_combine_in _ _ _ F v g I) as (site & vs & V1 & V2 & _ & RG). rewrite <- (at_index_map _ _ _ V2) in Hab. destruct (at_pos o v site V1) as [P _]. rewrite P in HP.
      exists v, g, site, vs. split; [exact I|]. split; [exact V1|]. split; [exact V2|]. split; [exists a, b; auto|]. destruct (edge_in _ _ _ Hab) as [Ha Hb].
      apply (hull_region sites (xy site) [xy site; a; b]); [|exact HP]. intros c [<-|[<-|[<-|[]]]]; [apply p_region|apply RG, Ha|apply RG, Hb].
  Qed.
  Lemma cell_sum m v g q site vs a b : Forall2 (fun v (g : polygon RNum) => exists site vs, vertices_are mp [v] [site] /\ vertices_are (ul_list (ms_points m)) (pg_points g) vs /\
      (forall x y, In (x, y) (edges_of (map xy vs)) -> (0 <= orient (xy site) x y)%R) /\
      forall x, In x (map xy vs) -> voronoi_region sites (xy site) x) V (ms_polygons m) ->
    (forall w, additive w -> sumR (map (fun g => loop_w w (map (at_index (ul_list (ms_points m))) (pg_points g))) (ms_polygons m)) = sumR (map (tri_at w) tris)) ->
    In (v, g) (combine V (ms_polygons m)) -> vertices_are mp [v] [site] -> vertices_are (ul_list (ms_points m)) (pg_points g) vs -> In (a, b) (edges_of (map xy vs)) ->
    (0 < orient (xy site) a q)%R -> (0 < orient a b q)%R -> (0 < orient b (xy site) q)%R -> (1 <= sumR (map (tri_at (fw q)) tris))%R.
  Proof.
    intros F S I V1 V2 Hab O1 O2 O3. rewrite <- (S _ (fw_additive q)). clear S.
    assert (NN : forall v g, In (v, g) (combine V (ms_polygons m)) -> (0 <= loop_w (fw q) (map (at_index (ul_list (ms_points m))) (pg_points g)))%R).
    { intros v' g' I'. destruct (Forall2_combine_in _ _ _ F v' g' I') as (s' & vs' & _ & V2' & O' & _). rewrite <- (at_index_map _ _ _ V2'), (loop_fan _ (fw_additive q) (xy s')).
      unfold fan_w. apply sumR_nonneg. intros y Hy. apply in_map_iff in Hy as (e & <- & He). apply (fan_nonneg q _ _ O' e He). }
    apply Rle_trans with (loop_w (fw q) (map (at_index (ul_list (ms_points m))) (pg_points g))).
    - destruct (Forall2_combine_in _ _ _ F v g I) as (s' & vs' & V1' & V2' & O' & _). pose proof (located_det _ _ _ _ V1' V1) as K. injection K as ->. rewrite (located_det _ _ _ _ V2' V2) in O'.
      rewrite <- (at_index_map _ _ _ V2), (loop_fan _ (fw_additive q) (xy site)). apply Rle_trans with (tri_w (fw q) (xy site) a b); [apply tri_inside; assumption|].
      unfold fan_w. apply sumR_in_le; [|apply in_map_iff; exists (a, b); auto]. intros y Hy. apply in_map_iff in Hy as (e & <- & He). apply (fan_nonneg q _ _ O' e He).
    - apply sumR_in_le; [|apply in_map_iff; exists g; split; [reflexivity|apply (in_combine_r _ _ _ _ I)]].
      intros y Hy. apply in_map_iff in Hy as (g' & <- & Hg'). destruct (In_nth_error _ _ Hg') as (i & Hi). destruct (Forall2_nth' _ _ _ F i g' Hi) as (v' & Hv' & _). apply (NN v'). apply (nth_combine _ _ _ _ _ Hv' Hi).
  Qed.
  Lemma parts_inside : exists m, voronoi (N := RNum) tol fuel d = Ok m /\
    forall v g site vs a b q, In (v, g) (combine V (ms_polygons m)) -> vertices_are mp [v] [site] -> vertices_are (ul_list (ms_points m)) (pg_points g) vs ->
      In (a, b) (edges_of (map xy vs)) -> (0 < orient (xy site) a b)%R -> in_hull [xy site; a; b] q ->
      exists t A B C, In t tris /\ vertices_are mp (corners t) [A; B; C] /\ in_hull [xy A; xy B; xy C] q.
  Proof.
    destruct parts_wind as (m & E & F & S). exists m. split; [exact E|]. intros v g site vs a b q I V1 V2 Hab O HU.
    set (L := map (fun t => map (pos o) (corners t)) tris).
    assert (LT : forall t A B C, vertices_are mp (corners t) [A; B; C] -> map (pos o) (corners t) = [xy A; xy B; xy C]).
    { intros t A B C VV. symmetry. apply (ring_pos o (corners t) [A; B; C] VV). }
    destruct (hulls_closed L q ((fst (xy site) + fst a + fst b) / 3, (snd (xy site) + snd a + snd b) / 3)%R) as (pc & Hp & HP).
    - intros s Hs. destruct (inwards _ _ _ q s O HU Hs) as (I1 & I2 & I3). set (q' := lerp q _ s) in *.
      pose proof (cell_sum m v g q' site vs a b F S I V1 V2 Hab I1 I2 I3) as P.
      destruct (sum_positive _ _ (tri_at_nonneg q')) as (t & Ht & PT); [lra|]. destruct (tri_ccw t Ht) as (A & B & C & VV & OT & ET). rewrite ET in PT.
      exists [xy A; xy B; xy C]. split; [|apply tri_hull; [lra|exact PT]]. apply in_map_iff. exists t. split; [apply LT, VV|exact Ht].
    - apply in_map_iff in Hp as (t & <- & Ht). destruct (tri_ccw t Ht) as (A & B & C & VV & _). rewrite (LT t A B C VV) in HP. exists t, A, B, C. auto.
  Qed.
End Tiles.
