(** The Voronoi cells tile a convex domain. *)
From Coq Require Import Reals Lra Lia ZArith List Bool Permutation Classical_Prop.
From Verif Require Import Base Spec MUtil MGeom MHull MPolygon MMaps MTriangle MGen MRegion MDelaunay MVoronoi Bridge BridgeTile.
From Verif Require Import PUtil PPoint PPoly PPoly2 PTri PMore PContains PDelaunay PVoronoi PFan PVorGeo PVorCell PConvex PVorConvex PWedge PBorderCell PVorBorder PTile PTile2 PTile3 PTile4.
Import ListNotations.

(** ** The stored areas of new cells *)
Lemma fixCCW_fresh {N : Num} (g g' : polygon N) p : fixCCW g p = Ok g' -> pg_area g = nZ (-1) -> pg_area g' = nZ (-1).
Proof. unfold fixCCW. intros H E. apply bind_ok in H as ([|] & _ & H); injection H as <-; [reflexivity|exact E]. Qed.
Lemma cell_fresh {N : Num} tol fuel d i v cc m pm (g : polygon N) s : build_cell tol fuel d i v cc m pm = Ok (g, s) -> pg_area g = nZ (-1).
Proof.
  intros B. unfold build_cell in B. cbn zeta in B.
  apply bind_ok in B as (center & _ & B). apply bind_ok in B as (pd & _ & B). apply bind_ok in B as (init & _ & B).
  apply bind_ok in B as ([cc1 i1] & _ & B). apply bind_ok in B as ([cc2 i2] & _ & B). apply bind_ok in B as (s0 & _ & B).
  apply bind_ok in B as (tr & _ & B). apply bind_ok in B as (k & _ & B). apply bind_ok in B as (e & _ & B). apply bind_ok in B as ([e' s1] & _ & B).
  apply bind_ok in B as (s2 & _ & B). apply bind_ok in B as (g0 & G & B). apply bind_ok in B as (g' & FC & B). injection B as <- <-.
  apply (fixCCW_fresh _ _ _ FC). rewrite ctor_idx_ok in G. inversion G. reflexivity.
Qed.
Lemma cells_fresh {N : Num} tol fuel d vs : forall i cc m pm (gs : list (polygon N * _)) cc' m' pm', build_cells tol fuel d i vs cc m pm = Ok (gs, cc', m', pm') ->
  Forall (fun g => pg_area g = nZ (-1)) (map fst gs).
Proof.
  induction vs as [|v vs IH]; intros i cc m pm gs cc' m' pm' H; cbn [build_cells] in H.
  - injection H as <- <- <- <-. constructor.
  - apply bind_ok in H as ([g s] & B & H). apply bind_ok in H as ([[[gs1 cc1] m1] pm1] & Q & H). injection H as <- <- <- <-. cbn [map fst]. constructor; [exact (cell_fresh _ _ _ _ _ _ _ _ _ _ B)|exact (IH _ _ _ _ _ _ _ _ Q)].
Qed.
Lemma voronoi_fresh {N : Num} tol fuel d m : voronoi (N := N) tol fuel d = Ok m -> Forall (fun g => pg_area g = nZ (-1)) (ms_polygons m).
Proof. intros V. unfold voronoi in V. apply bind_ok in V as ([[[gs cc] em] pm] & B & V). injection V as <-. exact (cells_fresh _ _ _ _ _ _ _ _ _ _ _ _ B). Qed.

Lemma hull_member sites x : In x sites -> in_hull sites x.
Proof. intros H u. exists x. split; [exact H|]. lra. Qed.
Lemma hull_of_hull sites vs x : (forall v, In v vs -> in_hull sites v) -> in_hull vs x -> in_hull sites x.
Proof. intros H HX u. destruct (HX u) as (v & Hv & L). destruct (H v Hv u) as (s & Hs & L'). exists s. split; [exact Hs|lra]. Qed.

Section Tiles.
  Local Open Scope Z_scope.
  Variable tol : R.
  Hypothesis tol_pos : (0 < tol)%R.
  Variable o : trout RNum.
  Hypothesis T : triangulation (zlen (o_points o)) (map fst (o_edges o)) (o_tris o).
  Notation tris := (o_tris o).
  Notation mp := (map read_point (o_points o)).
  Notation sites := (output_sites o).
  Hypothesis D : delaunay_output o.
  Hypothesis HF : fans o.
  Hypothesis CB : convex_border tol o.

  Lemma source_hull x : vertex_source o x -> in_hull sites (xy x).
  Proof.
    intros (v & S). destruct S as [t A B C Ht Hv VA CC|e m He _ _ M ->|q VQ ->].
    - destruct D as [DT DO]. apply In_nth_error in Ht as (k & Hk). pose proof (nth_error_In _ _ Hk) as Ht.
      assert (CO : center_of o k x) by (exists t, A, B, C; auto). destruct t as [[a b] c].
      assert (N3 : forall i, In i [a; b; c] -> In i (flat_map corners tris)) by (intros i Hi; apply (in_corners o i (a, b, c) Ht Hi)).
      assert (C3 : ccw3 a b c (a, b, c)) by (unfold ccw3, sides; cbn; auto 10). destruct (corner_data o T DT k (a, b, c) a b c Hk C3) as (O & I1 & I2 & I3 & CD). destruct (CD x CO) as (D1 & D2 & R).
      apply (center_hull tol o T DO DT HF CB (xy x) (pos o a) (pos o b) (pos o c) I1 I2 I3 O R).
      + intros q Hq. specialize (R q Hq). lra.
      + intros q Hq. specialize (R q Hq). lra.
      + intros E. specialize (N3 a (or_introl eq_refl)). rewrite E in N3. destruct N3.
    - destruct e as [[a b] e3]. cbn [fst] in M. unfold iseg_middle in M. cbn [fst snd] in M. inv_ok M. injection M as <-. apply vget_ok in E as [A1 A2], E0 as [B1 B2].
      apply nth_error_In in A2, B2. apply (in_map xy) in A2, B2. fold (output_sites o) in A2, B2. apply (hull_of_hull sites [xy v0; xy v1]).
      + intros s [<-|[<-|[]]]; apply hull_member; assumption.
      + intros u. unfold setBoundary, mkP. destruct (Rle_dec (vdot u (xy v0)) (vdot u (xy v1))) as [L|L]; [exists (xy v1)|exists (xy v0)]; (split; [cbn; auto|]);
        unfold vdot, xy in *; cbn [px py fst snd] in *; rnum; lra.
    - inversion_clear VQ as [|? ? ? ? [_ Q] _]. apply nth_error_In in Q. apply hull_member. apply (in_map xy) in Q. exact Q.
  Qed.
  Hypothesis NS : NoDup sites.
  Hypothesis SA : sources_apart tol o.

  (** one cell *)
  Definition tile (m : mesh RNum (polygon RNum)) (ci : nat -> Z) (v : Z) (g : polygon RNum) : Prop :=
    exists site vs ts, vertices_are mp [v] [site] /\ vertices_are (ul_list (ms_points m)) (pg_points g) vs /\ strictly_convex (map xy vs) /\
      (forall x, in_hull (map xy vs) x <-> in_hull sites x /\ voronoi_region sites (xy site) x) /\
      all_at o v ts /\ shoelace (map xy vs) = (sumR (map (quad o (ul_list (ms_points m)) ci v) ts) / 2)%R /\
      exists g', getArea g (ul_list (ms_points m)) = Ok (g', shoelace (map xy vs)).
  Lemma tiles_built fuel d : read_output (N := RNum) tol o = Ok d -> (length tris < fuel)%nat ->
    exists m ci, voronoi (N := RNum) tol fuel d = Ok m /\ Forall2 (tile m ci) (dedup (flat_map corners tris)) (ms_polygons m).
  Proof.
    intros RO LF. destruct (regions_built tol fuel o d (fun a b => coincide tol a b) tol_pos ltac:(auto) ltac:(auto) T D RO HF LF) as (m & ci & gs & V & E & CI & F).
    exists m, ci. split; [exact V|]. pose proof (voronoi_not_clockwise tol fuel o d m T RO V) as NC. pose proof (voronoi_fresh (N := RNum) tol fuel d m V) as FR. rewrite <- E in NC, FR |- *.
    destruct (border_stored tol fuel o d m tol_pos SA T RO V) as [STA INJ]. destruct D as [DT DO].
    assert (CI' : forall k t, nth_error tris k = Some t -> exists c y, center_of o k c /\ vertices_are (ul_list (ms_points m)) [ci k] [y] /\ xy y = xy c).
    { intros k t Hk. destruct (CI k t Hk) as (c & y & C & Y & Q). destruct (STA (ci k) c (center_source o k c C)) as (y' & Y' & E').
      - exists y. split; [exact Y|]. right. apply (incomparable_coincide tol tol_pos). exact Q.
      - exists c, y'. auto. }
    assert (ON : forall k k' c c', center_of o k c -> center_of o k' c' -> xy c = xy c' -> ci k = ci k').
    { intros k k' c c' H H' EQ. assert (exists t, nth_error tris k = Some t) as (t & Hk) by (destruct H as (t & ? & ? & ? & Ht & _); eauto).
      assert (exists t, nth_error tris k' = Some t) as (t' & Hk') by (destruct H' as (t' & ? & ? & ? & Ht' & _); eauto).
      destruct (CI' k t Hk) as (c1 & y & K1 & Y & E1), (CI' k' t' Hk') as (c1' & y' & K1' & Y' & E1'). rewrite (center_det o k c1 c K1 H) in E1. rewrite (center_det o k' c1' c' K1' H') in E1'.
      apply (INJ _ _ _ _ Y Y'). congruence. }
    assert (US : Forall (fun v => In v (flat_map corners tris)) (dedup (flat_map corners tris))) by (apply Forall_forall; intros v Hv; apply (proj1 (dedup_in _ _)), Hv).
    clear E V CI RO. induction F as [|v g l gs H F IH]; cbn [map]; constructor; cbn [map] in NC, FR; inversion_clear NC as [|? ? N1 N2]; inversion_clear FR as [|? ? F1 F2]; inversion_clear US as [|? ? U1 U2].
    2: { apply IH; assumption. }
    clear IH N2 F2 U2 F. destruct N1 as (vs & VS & AR).
    assert (GA : exists g', getArea (fst g) (ul_list (ms_points m)) = Ok (g', shoelace (map xy vs))).
    { rewrite getArea_fresh by (rnum; apply Reqb_true; exact F1). rewrite (geo_area_shoelace _ _ _ VS). cbn [bind]. eauto. }
    assert (EM : map xy vs = map (at_index (ul_list (ms_points m))) (pg_points (fst g))) by exact (at_index_map _ _ _ VS).
    assert (ER : map xy (rev vs) = map (at_index (ul_list (ms_points m))) (rev (pg_points (fst g)))) by exact (at_index_map _ _ _ (vertices_rev _ _ _ VS)).
    destruct H as [HI HB]. destruct (HF v U1) as [(ws & ts & HC)|(w & ws & w' & ts & HO)].
    - clear HB. specialize (HI ws ts HC). destruct (inner_convex o T DO DT _ ci CI' ON v ws ts _ _ HC HI) as [CV ST].
      assert (SC : strictly_convex (map xy vs)) by (apply convex_either; [exact AR|]; rewrite <- map_rev, EM, ER; exact CV).
      destruct (inner_area o T DO DT NS _ ci CI' v ws ts _ _ HC HI) as (ts' & AT & AE); [rewrite <- EM; exact SC|].
      destruct (inner_region o T DO DT eq _ ci CI' v ws ts _ _ HC HI) as (site & cs & vs' & S1 & S2 & S3 & S4 & S5). rewrite (located_det _ _ _ _ S2 VS) in S4, S5. clear vs' S2.
      exists site, vs, ts'. split; [exact S1|]. split; [exact VS|]. split; [exact SC|]. split.
      + assert (RG : forall x, voronoi_region sites (xy site) x <-> in_hull (map xy vs) x).
        { intros x. rewrite S3. split; apply hull_mono; intros z Hz; [destruct (S4 z Hz) as (p & Hp & <-); exact Hp|destruct (S5 z Hz) as (c & Hc & ->); exact Hc]. }
        intros x. rewrite RG. split; [|tauto]. intros HX. split; [|exact HX]. apply (hull_of_hull sites (map xy vs)); [|exact HX].
        intros z Hz. rewrite EM in Hz. apply in_map_iff in Hz as (i & <- & Hi). destruct (ST i Hi) as (k & c & _ & CO & ->). apply source_hull. exact (center_source o k c CO).
      + split; [exact AT|]. split; [|exact GA]. rewrite EM. exact AE.
    - clear HI. specialize (HB w ws w' ts HO). 
      destruct (border_convex tol tol_pos o T DO DT _ ci CI' STA INJ v w ws w' ts _ _ HO HB) as (w1 & w2 & site & a & b & K1 & K2 & K3 & ST & K).
      destruct (CB v w1 w2 site a b) as (G1 & G2 & CV & WS & OR); [exists w, ws, w', ts; auto|exact K3|]. destruct (K G1 G2 CV WS OR) as [CVX HU]. clear K.
      assert (SC : strictly_convex (map xy vs)) by (apply convex_either; [exact AR|]; rewrite <- map_rev, EM, ER; exact CVX).
      assert (S1 : vertices_are mp [v] [site]) by (inversion_clear K3 as [|? ? ? ? Y1 _]; constructor; [exact Y1|constructor]).
      assert (AE : exists ts', all_at o v ts' /\ shoelace (map (at_index (ul_list (ms_points m))) (pg_points (fst g))) = (sumR (map (quad o (ul_list (ms_points m)) ci v) ts') / 2)%R).
      { destruct HB as (u & u' & l' & ia & ib & q & fi & z & qf & qz & cell & UL & MA & MB & HQ & HFI & HZ & VFZ & PT & CELL).
        pose proof (end_incident o T v w ws w' ts HO) as EI.
        assert (EU : u = w \/ u = w') by tauto. assert (EU' : u' = w \/ u' = w') by tauto.
        pose proof (middle_exact tol o _ STA v u ia (EI u EU) MA) as SA'. pose proof (middle_exact tol o _ STA v u' ib (EI u' EU') MB) as SB'. clear MA MB EI EU EU'.
        apply stored_kept in SA', SB'. destruct (at_pos o v q HQ) as [P1 P2].
        destruct (border_area tol tol_pos o T DO DT NS (ul_list (ms_points m)) ci CI' (source_at o)) with (v := v) (w := w) (w' := w') (pts := pg_points (fst g)) (ws := ws) (ts := ts) (tst := collinear (N := RNum) tol qf q qz) (fi := fi) (z := z)
          as (x1 & x2 & site' & a' & b' & A1 & A2 & A3 & A5).
        - intros k c H. exists c. split; [exact (center_source o k c H)|reflexivity].
        - intros i j x (y & Y & E & _) (y' & Y' & E' & _). apply (INJ i j y y' Y Y'). congruence.
        - exact HO.
        - exists u, u', l', ia, ib, q, cell. do 7 (split; [assumption|]). destruct CELL as [(CO & CE & _)|(CO & r & ST' & CE & _)]; [left; auto|right]. split; [exact CO|].
          exists r. split; [|exact CE]. assert (SR : vertex_source o (setBoundary q)) by (exists v; apply (src_self o v _ q); auto).
          destruct (STA r _ SR ST') as (y & Y & E). exists y. rewrite P1. split; [exact Y|]. split; [exact E|]. exists (setBoundary q). auto.
        - intros u1 u2 _ _ Z1 Z2. generalize dependent (pos o u2). intros p2 Z2. generalize dependent (pos o u1). intros p1 Z1. inversion_clear VFZ as [|? ? ? ? V1 VZ]. inversion_clear VZ as [|? ? ? ? V2 _].
          assert (E1 : xy qf = midpoint (pos o v) p1) by (rewrite <- (kept_at _ _ _ _ Z1); symmetry; apply at_index_ok; constructor; [exact V1|constructor]).
          assert (E2 : xy qz = midpoint (pos o v) p2) by (rewrite <- (kept_at _ _ _ _ Z2); symmetry; apply at_index_ok; constructor; [exact V2|constructor]).
          assert (CO : (Rabs (orient (xy qf) (xy q) (xy qz)) = Rabs (orient (pos o v) p1 p2) / 4)%R) by (rewrite E1, E2, <- P1; apply quarter).
          split; intros H.
          + apply collinear_orient. rewrite CO, H, Rabs_R0. lra.
          + destruct (collinear (N := RNum) tol qf q qz) eqn:EC; [|reflexivity]. exfalso. apply collinear_orient in EC. rewrite CO in EC. lra.
        - destruct (CB v x1 x2 site' a' b') as (G1' & G2' & CV' & WS' & OR'); [exists w, ws, w', ts; auto|exact A3|].
          apply A5; auto. rewrite <- EM. exact SC. }
      destruct AE as (ts' & AT & AE). rewrite <- EM in AE.
      exists site, vs, ts'. split; [exact S1|]. split; [exact VS|]. split; [exact SC|]. split; [|auto].
      intros x. rewrite EM, HU. split.
      + intros [R W]. split; [|exact R]. apply (hull_of_hull sites (map xy vs)); [|rewrite EM; apply HU; auto].
        intros z Hz. rewrite EM in Hz. apply in_map_iff in Hz as (i & <- & Hi). destruct (ST i Hi) as (x0 & y & s & Y & E1 & S2 & E2). rewrite (at_index_ok _ _ _ Y), E1, <- E2. apply source_hull. exact S2.
      + intros [HX R]. split; [exact R|]. exact (hull_wedge (xy site) (xy a) (xy b) sites x WS HX).
  Qed.
End Tiles.
