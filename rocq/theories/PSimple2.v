(** In a region whose outlines go around no point more than once the triangles around a border point stay on its inner side. *)
From Coq Require Import Reals Lra Lia ZArith List Bool Permutation.
From Verif Require Import Base Spec MUtil MGeom MHull MPolygon MMaps MTriangle MGen MRegion MDelaunay MVoronoi Bridge BridgeTile BridgeHist BridgeFill BridgeAny BridgeWind BridgeSimple.
From Verif Require Import PUtil PPoint PPoly PPoly2 PTri PMore PContains PRegion PDelaunay PVoronoi PFan PVorGeo PVorCell PConvex PVorConvex PVorLocate PWedge PVorBorder PDual PHist PTile PTile2 PTile3 PTile4 PTile5 PTile6 PFill PFill2 PWind PAny PAny2 PAny3 PAny4 PAny5 PAny6 PWind2 PWind3 PWind4 PSimple.
Import ListNotations.

(** two different members of a list of nonnegative numbers *)
Lemma sum_two {A} (f : A -> R) l a b : (forall x, In x l -> 0 <= f x)%R -> In a l -> In b l -> a <> b -> (f a + f b <= sumR (map f l))%R.
Proof.
  intros P Ha Hb N. apply in_split in Ha as (l1 & l2 & ->). rewrite map_app, sumR_app. change (sumR (map f (a :: l2))) with (f a + sumR (map f l2))%R.
  assert (P1 : (0 <= sumR (map f l1))%R) by (apply sumR_nonneg; intros y Hy; apply in_map_iff in Hy as (x & <- & Hx); apply P, in_or_app; auto).
  assert (P2 : (0 <= sumR (map f l2))%R) by (apply sumR_nonneg; intros y Hy; apply in_map_iff in Hy as (x & <- & Hx); apply P, in_or_app; right; right; exact Hx).
  apply in_app_or in Hb as [Hb|[Hb|Hb]]; [|congruence|].
  - assert (f b <= sumR (map f l1))%R; [|lra]. apply sumR_in_le; [intros y Hy; apply in_map_iff in Hy as (x & <- & Hx); apply P, in_or_app; auto|apply in_map, Hb].
  - assert (f b <= sumR (map f l2))%R; [|lra]. apply sumR_in_le; [intros y Hy; apply in_map_iff in Hy as (x & <- & Hx); apply P, in_or_app; right; right; exact Hx|apply in_map, Hb].
Qed.
(** a point close to a corner of a triangle, in a direction between its sides, is inside *)
Lemma close_inside p u a b : (vcross u (vsub a p) < 0)%R -> (0 < vcross u (vsub b p))%R -> (0 < orient p a b)%R ->
  exists e, (0 < e)%R /\ forall t, (0 < t <= e)%R -> let q := vadd p (vscale t u) in (0 < orient p a q /\ 0 < orient a b q /\ 0 < orient b p q)%R.
Proof.
  intros A B O. set (g := vcross (vsub b a) u). assert (GP : (0 < 2 * (Rabs g + 1))%R) by (pose proof (Rabs_pos g); lra).
  exists (orient p a b / (2 * (Rabs g + 1)))%R. split; [apply Rdiv_lt_0_compat; assumption|]. intros t [T1 T2] q.
  assert (Q1 : orient p a q = (t * - vcross u (vsub a p))%R) by (unfold q, orient, vcross, vadd, vscale, vsub; cbn [fst snd]; ring).
  assert (Q3 : orient b p q = (t * vcross u (vsub b p))%R) by (unfold q, orient, vcross, vadd, vscale, vsub; cbn [fst snd]; ring).
  assert (Q2 : orient a b q = (orient p a b + t * g)%R) by (unfold q, g, orient, vcross, vadd, vscale, vsub; cbn [fst snd]; ring).
  rewrite Q1, Q2, Q3. split; [apply Rmult_lt_0_compat; lra|]. split; [|apply Rmult_lt_0_compat; lra].
  assert (E : (t * (2 * (Rabs g + 1)) <= orient p a b)%R). { apply (Rmult_le_compat_r (2 * (Rabs g + 1))) in T2; [|lra]. unfold Rdiv in T2. rewrite Rmult_assoc, Rinv_l in T2 by lra. lra. }
  pose proof (Rle_abs (- g)) as G2. rewrite Rabs_Ropp in G2. assert (0 <= t * (Rabs g + g))%R by (apply Rmult_le_pos; lra). pose proof (Rabs_pos g). assert (0 <= t * Rabs g)%R by (apply Rmult_le_pos; lra). lra.
Qed.

Section Region.
  Local Open Scope Z_scope.
  Variable tol : R.
  Hypothesis tol_pos : (0 < tol)%R.
  Variables (outlines : list (list pt)) (o : trout RNum).
  Notation tris := (o_tris o).
  Notation mp := (map read_point (o_points o)).
  Notation sites := (output_sites o).
  Hypothesis DA : delaunay_answer tol o.
  Hypothesis FR : fills_region tol outlines o.
  Hypothesis PL : plain outlines.
  Let T := da_triangulation _ _ DA.
  Let D := da_delaunay _ _ DA.
  Lemma tri_at_corner w t v a b : ccw3 v a b t -> NoDup (corners t) -> tri_at o w t = tri_w w (pos o v) (pos o a) (pos o b).
  Proof.
    destruct t as [[x y] z]. intros (D1 & D2 & D3) ND. cbn [corners] in ND. inversion_clear ND as [|? ? N1 N2]. inversion_clear N2 as [|? ? N3 _]. cbn [In] in N1, N3. assert (x <> y /\ x <> z /\ y <> z) as (? & ? & ?) by intuition congruence.
    unfold sides in D1, D2, D3. cbn [In] in D1, D2, D3. unfold tri_at, tri_w.
    destruct D1 as [D1|[D1|[D1|[]]]], D2 as [D2|[D2|[D2|[]]]]; inversion D1; inversion D2; subst; try congruence; lra.
  Qed.
  Lemma at_nonneg q t : In t tris -> (0 <= tri_at o (fw q) t)%R.
  Proof.
    intros Ht. destruct t as [[a b] c]. assert (U : forall i, In i [a; b; c] -> In i (flat_map corners tris)) by (intros i Hi; apply (in_corners o i (a, b, c) Ht Hi)).
    destruct (used_site o T a) as (A & VA & EA & _); [apply U; left; reflexivity|]. destruct (used_site o T b) as (B & VB & EB & _); [apply U; right; left; reflexivity|]. destruct (used_site o T c) as (C & VC & EC & _); [apply U; right; right; left; reflexivity|].
    assert (VV : vertices_are mp (corners (a, b, c)) [A; B; C]). { clear - VA VB VC. inversion_clear VA as [|? ? ? ? Y1 _]. inversion_clear VB as [|? ? ? ? Y2 _]. inversion_clear VC as [|? ? ? ? Y3 _]. repeat (constructor; [assumption|]). constructor. }
    pose proof (proj1 (proj1 D _ A B C Ht VV)) as O. unfold tri_at. rewrite <- EA, <- EB, <- EC. apply tri_sides. lra.
  Qed.
  (** no point is inside two triangles *)
  Lemma inside_one q t t' v a b v' a' b' : In t tris -> In t' tris -> ccw3 v a b t -> ccw3 v' a' b' t' ->
    (0 < orient (pos o v) (pos o a) q /\ 0 < orient (pos o a) (pos o b) q /\ 0 < orient (pos o b) (pos o v) q)%R ->
    (0 < orient (pos o v') (pos o a') q /\ 0 < orient (pos o a') (pos o b') q /\ 0 < orient (pos o b') (pos o v') q)%R -> t = t'.
  Proof.
    intros Ht Ht' C C' (O1 & O2 & O3) (P1 & P2 & P3). destruct (in_dec side_dec (v, a) (sides t')) as [I|N].
    - pose proof (proj1 C) as I'. apply In_nth_error in Ht as (k & Hk). apply In_nth_error in Ht' as (k' & Hk'). pose proof (proj2 D k k' t t' _ Hk Hk' I' I) as E. congruence.
    - exfalso. assert (NE : t <> t') by (intros <-; apply N, C).
      pose proof (sum_two (tri_at o (fw q)) tris t t' (at_nonneg q) Ht Ht' NE) as S.
      rewrite (rings_fill_w outlines o (tg_corners _ _ _ T) (proj2 D) (fr_rings _ _ _ FR) _ (fw_additive q)) in S.
      rewrite (tri_at_corner _ t v a b C (tg_corners _ _ _ T t Ht)), (tri_at_corner _ t' v' a' b' C' (tg_corners _ _ _ T t' Ht')) in S.
      pose proof (tri_inside q _ _ _ O1 O2 O3) as W1. pose proof (tri_inside q _ _ _ P1 P2 P3) as W2.
      rewrite (map_ext _ (fun vs => IZR (winding q vs)) (loop_winding q)) in S. rewrite <- (map_map (winding q) IZR), sumR_IZR in S.
      assert (K : (2 <= fold_right Z.add 0 (map (winding q) outlines))) by (apply le_IZR; lra). specialize (PL q). lia.
  Qed.
  (** the border at a point of two sides of the border *)
  Lemma border_rim a b c : border_side tris a b -> border_side tris b c -> rim o b c a.
  Proof.
    intros [(t & Ht & S) NS] [(t' & Ht' & S') NS'].
    destruct (point_kind o T (proj2 D) (da_fans _ _ DA) b (in_corners o b t Ht (proj2 (side_corner _ _ _ S)))) as [(w & us & ts & F & _ & FU)|(x1 & x2 & BC & us & ts & F & ND & FU)].
    - exfalso. destruct (full_at o b ts _ t F FU Ht (proj2 (side_corner _ _ _ S))) as (a' & b' & He & C). pose proof (ccw3_in a b a' b' t (tg_corners _ _ _ T t Ht) C S) as <-.
      assert (Hv : In a (map snd (pairs (w :: us ++ [w])))) by (apply in_map_iff; exists (a', a); auto). rewrite pairs_snd in Hv.
      assert (Hv' : In a (map fst (pairs ((w :: us) ++ [w])))) by (rewrite snoc_pairs_fst; apply in_app_or in Hv as [Hv|[<-|[]]]; [right; exact Hv|left; reflexivity]).
      apply in_map_iff in Hv' as ([v' c'] & E & He'). cbn in E. subst v'. destruct (Forall2_in_left _ _ _ F _ He') as (k & _ & t2 & T1 & C'). apply (NS t2 (nth_error_In _ _ T1)). apply C'.
    - assert (E2 : a = x2).
      { destruct (full_at o b ts _ t F FU Ht (proj2 (side_corner _ _ _ S))) as (a' & b' & He & C). pose proof (ccw3_in a b a' b' t (tg_corners _ _ _ T t Ht) C S) as <-.
        assert (Hv : In a (map snd (pairs (x1 :: us ++ [x2])))) by (apply in_map_iff; exists (a', a); auto). rewrite pairs_snd in Hv. apply in_app_or in Hv as [Hv|[<-|[]]]; [|reflexivity]. exfalso.
        assert (Hv' : In a (map fst (pairs ((x1 :: us) ++ [x2])))) by (rewrite snoc_pairs_fst; right; exact Hv).
        apply in_map_iff in Hv' as ([v' c'] & E & He'). cbn in E. subst v'. destruct (Forall2_in_left _ _ _ F _ He') as (k & _ & t2 & T1 & C'). apply (NS t2 (nth_error_In _ _ T1)). apply C'. }
      assert (E1 : c = x1).
      { destruct (full_at o b ts _ t' F FU Ht' (proj1 (side_corner _ _ _ S'))) as (a' & b' & He & C). pose proof (ccw3_out c b a' b' t' (tg_corners _ _ _ T t' Ht') C S') as <-.
        assert (Hv : In c (map fst (pairs ((x1 :: us) ++ [x2])))) by (apply in_map_iff; exists (c, b'); auto). rewrite snoc_pairs_fst in Hv. destruct Hv as [<-|Hv]; [reflexivity|]. exfalso.
        assert (Hv' : In c (map snd (pairs (x1 :: us ++ [x2])))) by (rewrite pairs_snd; apply in_or_app; left; exact Hv).
        apply in_map_iff in Hv' as ([c' v'] & E & He'). cbn in E. subst v'. destruct (Forall2_in_left _ _ _ F _ He') as (k & _ & t2 & T1 & C'). apply (NS' t2 (nth_error_In _ _ T1)). apply C'. }
      subst x1 x2. exists us, ts. auto.
  Qed.
  Lemma region_inner a b c A B C : border_side tris a b -> border_side tris b c -> vertices_are mp [a; b; c] [A; B; C] ->
    forall w x, vertices_are mp [w] [x] -> (exists t, In t tris /\ In b (corners t) /\ In w (corners t)) -> w <> b -> inner_side (xy B) (xy C) (xy A) (xy x).
  Proof.
    intros B1 B2 V w x VX (t0 & Ht0 & Cb & Cw) NW. pose proof (border_rim a b c B1 B2) as (us & ts & F & ND & FU).
    inversion_clear V as [|? ? ? ? Y1 V']. inversion_clear V' as [|? ? ? ? Y2 V'']. inversion_clear V'' as [|? ? ? ? Y3 _].
    assert (VA : vertices_are mp [a] [A]) by (constructor; [exact Y1|constructor]). assert (VB : vertices_are mp [b] [B]) by (constructor; [exact Y2|constructor]). assert (VC : vertices_are mp [c] [C]) by (constructor; [exact Y3|constructor]).
    destruct (at_pos o a A VA) as [PA IA], (at_pos o b B VB) as [PB IB], (at_pos o c C VC) as [PC IC], (at_pos o w x VX) as [PX IX]. fold sites in IA, IB, IC, IX.
    assert (Hw : In w (c :: us ++ [a])).
    { destruct (full_at o b ts _ t0 F FU Ht0 Cb) as (y & z & He & CC). destruct (pairs_in _ _ He) as [I1 I2]. cbn [fst snd] in I1, I2.
      assert (K : w = y \/ w = z); [|destruct K as [-> | ->]; assumption].
      pose proof (tg_corners _ _ _ T t0 Ht0) as NC. clear - CC Cw NW NC. destruct t0 as [[t1 t2] t3]. destruct CC as (D1 & D2 & D3). unfold sides in *. cbn [In corners] in *. inversion_clear NC as [|? ? N1 N2]. inversion_clear N2 as [|? ? N3 _]. cbn [In] in N1, N3.
      destruct D1 as [D1|[D1|[D1|[]]]], D2 as [D2|[D2|[D2|[]]]]; inversion D1; inversion D2; subst; intuition congruence. }
    rewrite <- PA, <- PB, <- PC, <- PX.
    assert (EM : map (pos o) (c :: us ++ [a]) = pos o c :: map (pos o) us ++ [pos o a]) by (cbn [map]; rewrite map_app; reflexivity).
    apply (fan_inner (pos o b) (pos o c) (pos o a) (map (pos o) us)).
    - intros e He. rewrite <- EM, PVorGeo.pairs_map in He. apply in_map_iff in He as (e0 & <- & He0). cbn [fst snd]. destruct (Forall2_in_left _ _ _ F _ He0) as (k & _ & TE). apply (turn_used o T (proj1 D) b _ k TE).
    - intros u e1 e e2 e' e3 EP S1 S2 S3 S4. rewrite <- EM, PVorGeo.pairs_map in EP.
      apply map_eq_app in EP as (f1 & g1 & EP & _ & EG). apply map_eq_cons in EG as (f & g2 & -> & Ef & EG). apply map_eq_app in EG as (f2 & g3 & -> & _ & EG). apply map_eq_cons in EG as (f' & g4 & -> & Ef' & _).
      subst e e'. cbn [fst snd] in *.
      assert (I1 : In f (pairs (c :: us ++ [a]))) by (rewrite EP; apply in_or_app; right; left; reflexivity).
      assert (I2 : In f' (pairs (c :: us ++ [a]))) by (rewrite EP; apply in_or_app; right; right; apply in_or_app; right; left; reflexivity).
      destruct (Forall2_in_left _ _ _ F _ I1) as (k & _ & TE). destruct (Forall2_in_left _ _ _ F _ I2) as (k' & _ & TE').
      destruct (turn_used o T (proj1 D) b _ k TE) as (_ & _ & _ & O1). destruct (turn_used o T (proj1 D) b _ k' TE') as (_ & _ & _ & O2).
      destruct TE as (t & Hk & CC), TE' as (t' & Hk' & CC').
      destruct (close_inside _ u _ _ S1 S2 O1) as (r1 & R1 & H1). destruct (close_inside _ u _ _ S3 S4 O2) as (r2 & R2 & H2).
      set (r := Rmin r1 r2). assert (RP : (0 < r)%R) by (apply Rmin_glb_lt; assumption).
      specialize (H1 r). specialize (H2 r). cbv zeta in H1, H2.
      pose proof (inside_one (vadd (pos o b) (vscale r u)) t t' b _ _ b _ _ (nth_error_In _ _ Hk) (nth_error_In _ _ Hk') CC CC' (H1 (conj RP (Rmin_l _ _))) (H2 (conj RP (Rmin_r _ _)))) as <-.
      assert (EF : fst f = fst f') by (apply (ccw3_out (fst f) b (fst f') (snd f') t (tg_corners _ _ _ T t (nth_error_In _ _ Hk)) CC'), CC).
      assert (NF : NoDup (map fst (pairs ((c :: us) ++ [a])))). { rewrite snoc_pairs_fst. change (c :: us ++ [a]) with ((c :: us) ++ [a]) in ND. apply NoDup_remove_1 in ND. rewrite app_nil_r in ND. exact ND. }
      change ((c :: us) ++ [a]) with (c :: us ++ [a]) in NF. rewrite EP, map_app in NF. cbn [map] in NF. apply NoDup_remove_2 in NF. apply NF. apply in_or_app. right. rewrite map_app. apply in_or_app. right. left. symmetry. exact EF.
    - intros OZ. assert (NE : c <> a). { inversion_clear ND as [|? ? N _]. intros ->. apply N. apply in_or_app. right. left. reflexivity. }
      assert (INJ : forall i j p q, vertices_are mp [i] [p] -> vertices_are mp [j] [q] -> pos o i = pos o j -> i = j).
      { intros i j p q Vi Vj E. apply (pos_inj o (proj1 D) (fill_sites tol tol_pos o DA) i j p q Vi Vj E). }
      destruct (first_pair c us a) as (n & Hn). destruct (Forall2_in_left _ _ _ F _ Hn) as (k & _ & TE). destruct (turn_used o T (proj1 D) b _ k TE) as (_ & _ & _ & O1). cbn [fst snd] in O1.
      destruct (PVorCell.last_pair c us a) as (m & Hm). destruct (Forall2_in_left _ _ _ F _ Hm) as (k' & _ & TE'). destruct (turn_used o T (proj1 D) b _ k' TE') as (_ & _ & _ & O2). cbn [fst snd] in O2.
      assert (N1 : pos o c <> pos o b) by (intros E; rewrite E in O1; unfold orient, vcross, vsub in O1; cbn [fst snd] in O1; lra).
      assert (N2 : pos o a <> pos o b) by (intros E; rewrite E in O2; unfold orient, vcross, vsub in O2; cbn [fst snd] in O2; lra).
      assert (N3 : pos o c <> pos o a) by (intros E; apply NE; exact (INJ _ _ _ _ VC VA E)).
      assert (G1 : gabriel_edge sites (pos o b) (pos o c)) by (rewrite PB, PC; apply (fr_gabriel _ _ _ FR b c); [exact B2|constructor; [exact Y2|exact VC]]).
      assert (G2 : gabriel_edge sites (pos o b) (pos o a)).
      { assert (G : gabriel_edge sites (pos o a) (pos o b)) by (rewrite PB, PA; apply (fr_gabriel _ _ _ FR a b); [exact B1|constructor; [exact Y1|exact VB]]).
        intros q Hq. specialize (G q Hq). apply dist_le in G. apply dist_le. unfold vdot, vsub, midpoint in *. cbn [fst snd] in *. lra. }
      rewrite <- PC in IC. rewrite <- PA in IA.
      destruct (gabriel_corner sites (pos o b) (pos o c) (pos o a) G1 G2 IC IA N1 N2 N3) as [L|[_ L]]; [lra|lra|exact L].
    - rewrite <- EM. apply in_map, Hw.
  Qed.
  Lemma region_any : fills_any tol outlines o.
  Proof. constructor; [exact (fr_rings _ _ _ FR)|exact (fr_gabriel _ _ _ FR)|exact region_inner|exact (fr_corners _ _ _ FR)]. Qed.
End Region.
