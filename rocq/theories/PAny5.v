(** The Voronoi cells in a domain of any shape: their areas add up and each is seen from its site. *)
From Coq Require Import Reals Lra Lia ZArith List Bool Permutation.
From Verif Require Import Base Spec MUtil MGeom MHull MPolygon MMaps MTriangle MGen MRegion MDelaunay MVoronoi Bridge BridgeTile BridgeAny.
From Verif Require Import PUtil PPoint PPoly PPoly2 PTri PMore PContains PDelaunay PVoronoi PFan PVorGeo PVorCell PConvex PVorConvex PVorLocate PWedge PBorderCell PVorBorder PTile PTile2 PTile3 PTile4 PTile5 PTile6 PDual PFill PAny PAny2 PAny3 PWind PAny4.
Import ListNotations.

Section Tiles.
  Local Open Scope Z_scope.
  Variable tol : R.
  Hypothesis tol_pos : (0 < tol)%R.
  Variable o : trout RNum.
  Hypothesis CD : any_domain tol o.
  Variable fuel : nat.
  Variable d : delaunay RNum.
  Hypothesis RO : read_output (N := RNum) tol o = Ok d.
  Hypothesis LF : (length (o_tris o) < fuel)%nat.
  Notation tris := (o_tris o).
  Notation mp := (map read_point (o_points o)).
  Notation sites := (output_sites o).
  Notation V := (dedup (flat_map corners tris)).

  Definition part (m : mesh RNum (polygon RNum)) (ci : nat -> Z) (v : Z) (g : polygon RNum) : Prop :=
    exists site vs ts, vertices_are mp [v] [site] /\ vertices_are (ul_list (ms_points m)) (pg_points g) vs /\
      ((forall x y, In (x, y) (edges_of (map xy vs)) -> (0 <= orient (xy site) x y)%R) /\
       (forall x, In x (map xy vs) -> voronoi_region sites (xy site) x) /\ (2 <= length vs)%nat) /\
      all_at o v ts /\ shoelace (map xy vs) = (sumR (map (quad o (ul_list (ms_points m)) ci v) ts) / 2)%R /\
      (forall fw, additive fw -> loop_w fw (map xy vs) = sumR (map (quad_w o (ul_list (ms_points m)) ci fw v) ts)) /\
      exists g', getArea g (ul_list (ms_points m)) = Ok (g', shoelace (map xy vs)).
  Lemma parts_built : exists m ci, voronoi (N := RNum) tol fuel d = Ok m /\ Forall2 (part m ci) V (ms_polygons m).
  Proof.
    destruct CD as [T D NS SA HF CB].
    destruct (regions_built tol fuel o d (fun a b => coincide tol a b) tol_pos ltac:(auto) ltac:(auto) T D RO HF LF) as (m & ci & gs & V & E & CI & F).
    exists m, ci. split; [exact V|]. pose proof (voronoi_not_clockwise tol fuel o d m T RO V) as NC. pose proof (voronoi_fresh (N := RNum) tol fuel d m V) as FR. rewrite <- E in NC, FR |- *.
    destruct (border_stored tol fuel o d m tol_pos SA T RO V) as [STA INJ]. destruct D as [DT DO].
    assert (CI' : forall k t, nth_error tris k = Some t -> exists c y, center_of o k c /\ vertices_are (ul_list (ms_points m)) [ci k] [y] /\ xy y = xy c).
    { intros k t Hk. destruct (CI k t Hk) as (c & y & C & Y & Q). destruct (STA (ci k) c (center_source o k c C)) as (y' & Y' & E').
      - exists y. split; [exact Y|]. right. apply (incomparable_coincide tol tol_pos). exact Q.
      - exists c, y'. auto. }
    assert (ON : forall k k' c c', center_of o k c -> center_of o k' c' -> xy c = xy c' -> ci k = ci k').
    { intros k k' c c' H H' EQ. assert (exists t, nth_error tris k = Some t) as (t & Hk) by (destruct H as (t & ? & ? & ? & Ht & _); eauto).
      assert (exists t, nth_error tris k' = Some t) as (t' & Hk') by (destruct H' as (t' & ? & ? & ? & Ht' & _); eauto).
      destruct (CI' k t Hk) as (c1 & y & K1 & Y & E1), (CI' k' t' Hk') as (c1' & y' & K1' & Y' & E1'). rewrite (center_det o k c1 c K1 H) in E1. rewrite (center_det o k' c1' c' K1' H') in E1'.
      apply (INJ _ _ _ _ Y Y'). congruence. }
    assert (US : Forall (fun v => In v (flat_map corners tris)) (dedup (flat_map corners tris))) by (apply Forall_forall; intros v Hv; apply (proj1 (dedup_in _ _)), Hv).
    clear E V CI RO. induction F as [|v g l gs H F IH]; cbn [map]; constructor; cbn [map] in NC, FR; inversion_clear NC as [|? ? N1 N2]; inversion_clear FR as [|? ? F1 F2]; inversion_clear US as [|? ? U1 U2].
    2: { apply IH; assumption. }
    clear IH N2 F2 U2 F. destruct N1 as (vs & VS & AR).
    assert (GA : exists g', getArea (fst g) (ul_list (ms_points m)) = Ok (g', shoelace (map xy vs))).
    { rewrite getArea_fresh by (rnum; apply Reqb_true; exact F1). rewrite (geo_area_shoelace _ _ _ VS). cbn [bind]. eauto. }
    assert (EM : map xy vs = map (at_index (ul_list (ms_points m))) (pg_points (fst g))) by exact (at_index_map _ _ _ VS).
    assert (ER : map xy (rev vs) = map (at_index (ul_list (ms_points m))) (rev (pg_points (fst g)))) by exact (at_index_map _ _ _ (vertices_rev _ _ _ VS)).
    destruct H as [HI HB]. destruct (HF v U1) as [(ws & ts & HC)|(w & ws & w' & ts & HO)].
    - clear HB. specialize (HI ws ts HC). destruct (inner_convex o T DO DT _ ci CI' ON v ws ts _ _ HC HI) as [CV ST].
      assert (SC : strictly_convex (map xy vs)) by (apply convex_either; [exact AR|]; rewrite <- map_rev, EM, ER; exact CV).
      destruct (inner_area o T DO DT NS _ ci CI' v ws ts _ _ HC HI) as (ts' & AT & AE); [rewrite <- EM; exact SC|].
      assert (AW : forall fw, additive fw -> loop_w fw (map xy vs) = sumR (map (quad_w o (ul_list (ms_points m)) ci fw v) ts')).
      { intros fw W. destruct (inner_loop_w o T DO DT NS _ ci CI' fw W v ws ts _ _ HC HI) as (ts2 & (A1 & A2) & AE2); [rewrite <- EM; exact SC|]. rewrite EM, AE2. apply sumR_perm, Permutation_map. destruct AT as [A3 A4].
        apply NoDup_Permutation; [exact A1|exact A3|]. intros k. rewrite A2, A4. reflexivity. }
      destruct (inner_region o T DO DT eq _ ci CI' v ws ts _ _ HC HI) as (site & cs & vs' & S1 & S2 & S3 & S4 & S5). rewrite (located_det _ _ _ _ S2 VS) in S4, S5. clear vs' S2.
      exists site, vs, ts'. split; [exact S1|]. split; [exact VS|]. split; [split; [|split]|].
      + intros x y H. assert (HU : in_hull (map xy vs) (xy site)).
        { apply (hull_mono cs); [intros z Hz; destruct (S4 z Hz) as (p & Hp & <-); exact Hp|]. apply S3. apply p_region. }
        pose proof (hull_left (map xy vs) SC (xy site) HU x y H) as K. unfold orient, vcross, vsub in *. cbn [fst snd] in *. lra.
      + intros x Hx. destruct (S5 x Hx) as (c & Hc & <-). apply S3, hull_member, Hc.
      + destruct SC as [L3 _]. rewrite map_length in L3. lia.
      + split; [exact AT|]. split; [|split; [exact AW|exact GA]]. rewrite EM. exact AE.
    - clear HI. specialize (HB w ws w' ts HO).
      destruct HB as (u & u' & l' & ia & ib & q & fi & z & qf & qz & cell & UL & MA & MB & HQ & HFI & HZ & VFZ & PT & CELL).
      pose proof (end_incident o T v w ws w' ts HO) as EI.
      assert (EU : u = w \/ u = w') by tauto. assert (EU' : u' = w \/ u' = w') by tauto.
      pose proof (middle_exact tol o _ STA v u ia (EI u EU) MA) as SA'. pose proof (middle_exact tol o _ STA v u' ib (EI u' EU') MB) as SB'. clear MA MB EI EU EU'.
      apply stored_kept in SA', SB'. destruct (at_pos o v q HQ) as [P1 P2].
      destruct (border_area_any tol o T DO DT NS (ul_list (ms_points m)) ci CI' (source_at o)) with (v := v) (w := w) (w' := w') (pts := pg_points (fst g)) (ws := ws) (ts := ts) (tst := collinear (N := RNum) tol qf q qz) (fi := fi) (z := z)
        as (x1 & x2 & site' & a' & b' & A1 & A2 & A3 & A5).
      + intros k c H. exists c. split; [exact (center_source o k c H)|reflexivity].
      + intros i j x (y & Y & E & _) (y' & Y' & E' & _). apply (INJ i j y y' Y Y'). congruence.
      + exact HO.
      + exists u, u', l', ia, ib, q, cell. do 7 (split; [assumption|]). destruct CELL as [(CO & CE & _)|(CO & r & ST' & CE & _)]; [left; auto|right]. split; [exact CO|].
        exists r. split; [|exact CE]. assert (SR : vertex_source o (setBoundary q)) by (exists v; apply (src_self o v _ q); auto).
        destruct (STA r _ SR ST') as (y & Y & E). exists y. rewrite P1. split; [exact Y|]. split; [exact E|]. exists (setBoundary q). auto.
      + intros u1 u2 _ _ Z1 Z2. generalize dependent (pos o u2). intros p2 Z2. generalize dependent (pos o u1). intros p1 Z1. inversion_clear VFZ as [|? ? ? ? V1 VZ]. inversion_clear VZ as [|? ? ? ? V2 _].
        assert (E1 : xy qf = midpoint (pos o v) p1) by (rewrite <- (kept_at _ _ _ _ Z1); symmetry; apply at_index_ok; constructor; [exact V1|constructor]).
        assert (E2 : xy qz = midpoint (pos o v) p2) by (rewrite <- (kept_at _ _ _ _ Z2); symmetry; apply at_index_ok; constructor; [exact V2|constructor]).
        assert (CO : (Rabs (orient (xy qf) (xy q) (xy qz)) = Rabs (orient (pos o v) p1 p2) / 4)%R) by (rewrite E1, E2, <- P1; apply quarter).
        split; intros H.
        * apply collinear_orient. rewrite CO, H, Rabs_R0. lra.
        * destruct (collinear (N := RNum) tol qf q qz) eqn:EC; [|reflexivity]. exfalso. apply collinear_orient in EC. rewrite CO in EC. lra.
      + destruct (CB v x1 x2 site' a' b') as (G1' & G2' & IN' & OR'); [exists w, ws, w', ts; auto|exact A3|].
        destruct (A5 G1' G2' IN' OR') as (AP & (ts' & AT & AE & AW) & STR1 & STR2); [rewrite <- EM; exact AR|]. rewrite <- EM in AP, AE, AW, STR1, STR2.
        assert (L2 : (2 <= length vs)%nat). { clear - AP. destruct vs as [|x [|y vs]]; [unfold shoelace, sumR, edges_of in AP; cbn [map fold_right] in AP; lra|unfold shoelace, sumR, edges_of, vcross in AP; cbn [map app pairs fold_right fst snd] in AP; lra|cbn; lia]. }
        assert (S1 : vertices_are mp [v] [site']) by (inversion_clear A3 as [|? ? ? ? Y1 _]; constructor; [exact Y1|constructor]).
        exists site', vs, ts'. split; [exact S1|]. split; [exact VS|]. split; [split; [exact STR1|split; [exact STR2|exact L2]]|]. split; [exact AT|]. split; [exact AE|]. split; [exact AW|exact GA].
  Qed.
  Lemma parts_seen : exists m, voronoi (N := RNum) tol fuel d = Ok m /\
    Forall2 (fun v (g : polygon RNum) => exists site vs, vertices_are mp [v] [site] /\ vertices_are (ul_list (ms_points m)) (pg_points g) vs /\
      (forall x y, In (x, y) (edges_of (map xy vs)) -> (0 <= orient (xy site) x y)%R) /\
      forall x, seen_part (xy site) (map xy vs) x -> voronoi_region sites (xy site) x) V (ms_polygons m).
  Proof.
    destruct parts_built as (m & ci & E & F). exists m. split; [exact E|]. eapply Forall2_weaken; [|exact F]. intros v g (site & vs & ts & H1 & H2 & (H3 & H4 & _) & _). exists site, vs.
    split; [exact H1|]. split; [exact H2|]. split; [exact H3|]. intros x (a & b & H & HU). destruct (edge_in _ _ _ H) as [Ha Hb].
    apply (hull_region sites (xy site) [xy site; a; b]); [|exact HU]. intros c [<-|[<-|[<-|[]]]]; [apply p_region|apply H4, Ha|apply H4, Hb].
  Qed.
  Lemma inside_triangle p a b x : (0 < orient p a x)%R -> (0 < orient a b x)%R -> (0 < orient b p x)%R -> strictly_convex [p; a; b].
  Proof.
    intros H1 H2 H3. assert (O : (0 < orient p a b)%R) by (unfold orient, vcross, vsub in *; cbn [fst snd] in *; lra). apply orient_degenerate in O as D. destruct D as [D1 D2].
    assert (D3 : a <> b) by (intros ->; unfold orient, vcross, vsub in O; cbn [fst snd] in O; lra).
    split; [cbn; lia|]. split; [repeat constructor; cbn [In]; intuition congruence|]. intros c e v H Hv N1 N2. cbn in H. cbn [In] in Hv.
    assert (O2 : (0 < orient a b p)%R) by (unfold orient, vcross, vsub in *; cbn [fst snd] in *; lra). assert (O3 : (0 < orient b p a)%R) by (unfold orient, vcross, vsub in *; cbn [fst snd] in *; lra).
    destruct H as [H|[H|[H|[]]]]; injection H as <- <-; destruct Hv as [<-|[<-|[<-|[]]]]; try contradiction; assumption.
  Qed.
  Lemma parts_apart : exists m, voronoi (N := RNum) tol fuel d = Ok m /\
    forall i j v v' g g' site site' vs vs' x, nth_error V i = Some v -> nth_error V j = Some v' -> nth_error (ms_polygons m) i = Some g -> nth_error (ms_polygons m) j = Some g' -> i <> j ->
      vertices_are mp [v; v'] [site; site'] -> vertices_are (ul_list (ms_points m)) (pg_points g) vs -> vertices_are (ul_list (ms_points m)) (pg_points g') vs' ->
      inside_part (xy site) (map xy vs) x -> ~ seen_part (xy site') (map xy vs') x.
  Proof.
    destruct parts_seen as (m & E & F). exists m. split; [exact E|]. intros i j v v' g g' site site' vs vs' x Hi Hj Gi Gj N SV VS VS' (a & b & Hab & O1 & O2 & O3) SP.
    destruct (Forall2_nth' _ _ _ F i g Gi) as (w & Hw & s & ws & A1 & A2 & A3 & A4). assert (w = v) by congruence. subst w.
    destruct (Forall2_nth' _ _ _ F j g' Gj) as (w & Hw' & s' & ws' & B1 & B2 & B3 & B4). assert (w = v') by congruence. subst w.
    rewrite (located_det _ _ _ _ A2 VS) in A4. rewrite (located_det _ _ _ _ B2 VS') in B4.
    inversion_clear SV as [|? ? ? ? Y1 SV']. inversion_clear SV' as [|? ? ? ? Y2 _].
    assert (V1 : vertices_are mp [v] [site]) by (constructor; [exact Y1|constructor]). assert (V2 : vertices_are mp [v'] [site']) by (constructor; [exact Y2|constructor]).
    assert (NV : v <> v'). { intros <-. apply N. apply (proj1 (NoDup_nth_error V) (dedup_nodup _)); [apply nth_error_Some; congruence|congruence]. }
    destruct CD as [T D NS SA HF CB]. destruct (at_pos o v site V1) as [P1 Q1], (at_pos o v' site' V2) as [P2 Q2].
    assert (NP : xy site <> xy site'). { intros EQ. apply NV. apply (pos_inj o (proj1 D) NS v v' site site' V1 V2). congruence. }
    assert (ES : s = site) by (pose proof (located_det _ _ _ _ A1 V1) as K; congruence). assert (ES' : s' = site') by (pose proof (located_det _ _ _ _ B1 V2) as K; congruence). subst s s'.
    apply (inside_region o (xy site) (xy site') [xy site; a; b] x (inside_triangle _ _ _ _ O1 O2 O3)); auto.
    - intros y Hy. apply A4. exists a, b. auto.
    - intros c e H. cbn in H. destruct H as [H|[H|[H|[]]]]; injection H as <- <-; assumption.
    - apply (B4 x SP). exact Q1.
  Qed.
  Lemma parts_add_up : exists m areas tas, voronoi (N := RNum) tol fuel d = Ok m /\
    Forall2 (fun g a => exists g', getArea (N := RNum) g (ul_list (ms_points m)) = Ok (g', a)) (ms_polygons m) areas /\
    triangle_areas o tas /\ sumR areas = sumR tas.
  Proof.
    destruct parts_built as (m & ci & E & F). destruct CD as [T D NS SA HF CB]. set (cc := ul_list (ms_points m)).
    set (q := fun v k => quad o cc ci v k). set (ks := seq 0 (length tris)).
    set (tri := fun t : Z * Z * Z => let '(A, B, C) := t in shoelace [pos o A; pos o B; pos o C]).
    exists m, (map (fun v => sumR (map (q v) ks) / 2)%R V), (map tri tris). split; [exact E|]. split; [|split].
    - assert (G : forall v g, part m ci v g -> exists g', getArea (N := RNum) g cc = Ok (g', (sumR (map (q v) ks) / 2)%R)).
      { intros v g (site & vs & ts & _ & _ & _ & (ND & AT) & AE & _ & g' & GA). exists g'. unfold cc. rewrite GA, AE. do 3 f_equal.
        symmetry. apply (sumR_part (q v) ks ts); [apply seq_NoDup|exact ND| |].
        - intros k Hk. apply AT in Hk as (t & Hk & _). apply in_seq. split; [lia|]. apply nth_error_Some. congruence.
        - intros k Hk Nk. apply in_seq in Hk. destruct (nth_get tris k) as (t & Ht); [lia|]. apply (quad_outside o cc ci v k t Ht). intros Hv. apply Nk, AT. eauto. }
      clear - F G. induction F as [|v g l gs H F IH]; cbn [map]; constructor; [apply G, H|exact IH].
    - unfold triangle_areas. assert (G : forall t, In t tris -> exists A B C, vertices_are mp (corners t) [A; B; C] /\ tri t = shoelace [xy A; xy B; xy C]).
      { intros [[a b] c] Ht. assert (U : forall i, In i [a; b; c] -> In i (flat_map corners tris)) by (intros i Hi; apply (in_corners o i (a, b, c) Ht Hi)).
        destruct (used_site o T a) as (A & VA & EA & _); [apply U; left; reflexivity|]. destruct (used_site o T b) as (B & VB & EB & _); [apply U; right; left; reflexivity|]. destruct (used_site o T c) as (C & VC & EC & _); [apply U; right; right; left; reflexivity|].
        exists A, B, C. split; [|unfold tri; rewrite EA, EB, EC; reflexivity].
        clear - VA VB VC. inversion_clear VA as [|? ? ? ? Y1 _]. inversion_clear VB as [|? ? ? ? Y2 _]. inversion_clear VC as [|? ? ? ? Y3 _]. repeat (constructor; [assumption|]). constructor. }
      clear - G. induction tris as [|t l IH]; cbn [map]; constructor; [apply G; left; reflexivity|]. apply IH. intros t' Ht'. apply G. right. exact Ht'.
    - rewrite <- (map_map (fun v => sumR (map (q v) ks)) (fun x => x / 2)%R), sumR_half, (sumR_swap q). unfold ks.
      rewrite (map_seq_at (fun k => sumR (map (fun v => q v k) V)) (fun t => 2 * tri t)%R tris 0%nat).
      + rewrite <- sumR_half, map_map. f_equal. apply map_ext. intros t. lra.
      + intros k [[A B] C] Hk. cbn [plus]. unfold q. pose proof (nth_error_In _ _ Hk) as Ht.
        assert (U : forall i, In i [A; B; C] -> In i V) by (intros i Hi; apply dedup_in, (in_corners o i (A, B, C) Ht Hi)).
        rewrite (quad_total o cc ci V k A B C Hk); [|apply dedup_nodup|apply U; left; reflexivity|apply U; right; left; reflexivity|apply U; right; right; left; reflexivity].
        unfold tri, shoelace, edges_of, sumR, orient, vcross, vsub. cbn. lra.
  Qed.
End Tiles.
