(** What the tiling says: the cells are the nearest-site regions, they cover the domain, do not overlap, and have its area. *)
From Coq Require Import Reals Lra Lia ZArith List Bool Permutation.
From Verif Require Import Base Spec MUtil MGeom MHull MPolygon MMaps MTriangle MGen MRegion MDelaunay MVoronoi Bridge BridgeTile.
From Verif Require Import PUtil PPoint PPoly PPoly2 PTri PMore PContains PDelaunay PVoronoi PFan PVorGeo PVorCell PConvex PVorConvex PVorLocate PWedge PBorderCell PVorBorder PDual PTile PTile2 PTile3 PTile4 PTile5.
Import ListNotations.

Lemma map_seq_at {A B} (g : nat -> B) (h : A -> B) l : forall s, (forall k t, nth_error l k = Some t -> g (s + k)%nat = h t) -> map g (seq s (length l)) = map h l.
Proof.
  induction l as [|a l IH]; intros s H; [reflexivity|]. cbn [length seq map]. f_equal.
  - rewrite <- (H 0%nat a eq_refl). f_equal. lia.
  - apply IH. intros k t Hk. rewrite <- (H (S k) t Hk). f_equal. lia.
Qed.
Lemma sumR_half l : (sumR (map (fun x => x / 2) l) = sumR l / 2)%R.
Proof. unfold sumR. induction l as [|a l IH]; cbn; [lra|]. rewrite IH. lra. Qed.
Lemma nearest_exists (sites : list pt) x : sites <> [] -> exists p, In p sites /\ voronoi_region sites p x.
Proof.
  intros NE. induction sites as [|a sites IH]; [congruence|]. destruct sites as [|b sites].
  - exists a. split; [left; reflexivity|]. intros q [<-|[]]. lra.
  - destruct IH as (p & Hp & R); [discriminate|]. destruct (Rle_dec (dist x a) (dist x p)) as [L|L]; [exists a|exists p].
    + split; [left; reflexivity|]. intros q [<-|Hq]; [lra|]. specialize (R q Hq). lra.
    + split; [right; exact Hp|]. intros q [<-|Hq]; [lra|]. exact (R q Hq).
Qed.

Section Domain.
  Local Open Scope Z_scope.
  Variable tol : R.
  Hypothesis tol_pos : (0 < tol)%R.
  Variable o : trout RNum.
  Hypothesis CD : convex_domain tol o.
  Variable fuel : nat.
  Variable d : delaunay RNum.
  Hypothesis RO : read_output (N := RNum) tol o = Ok d.
  Hypothesis LF : (length (o_tris o) < fuel)%nat.
  Notation tris := (o_tris o).
  Notation mp := (map read_point (o_points o)).
  Notation sites := (output_sites o).
  Notation V := (dedup (flat_map corners tris)).

  Lemma domain_tiles : exists m ci, voronoi (N := RNum) tol fuel d = Ok m /\ Forall2 (tile o m ci) V (ms_polygons m).
  Proof. destruct CD as [T D NS SA HF CB]. exact (tiles_built tol tol_pos o T D HF CB NS SA fuel d RO LF). Qed.

  Lemma tiles_exact : exists m, voronoi (N := RNum) tol fuel d = Ok m /\
    Forall2 (fun v (g : polygon RNum) => exists site vs, vertices_are mp [v] [site] /\ vertices_are (ul_list (ms_points m)) (pg_points g) vs /\
      strictly_convex (map xy vs) /\ forall x, in_hull (map xy vs) x <-> in_hull sites x /\ voronoi_region sites (xy site) x) V (ms_polygons m).
  Proof.
    destruct domain_tiles as (m & ci & E & F). exists m. split; [exact E|]. eapply Forall2_weaken; [|exact F]. intros v g (site & vs & ts & H1 & H2 & H3 & H4 & _). exists site, vs. auto.
  Qed.

  (** a point inside one cell is in no other *)
  Lemma inside_region p p' vs x : strictly_convex vs -> (forall y, in_hull vs y -> voronoi_region sites p y) -> In p' sites -> p <> p' ->
    (forall a b, In (a, b) (edges_of vs) -> (0 < orient a b x)%R) -> ~ (dist x p' <= dist x p)%R.
  Proof.
    intros SC R Hp' N IN L. set (n := vsub p' p).
    set (S := map (fun e : pt * pt => ((snd (snd e) - snd (fst e), - (fst (snd e) - fst (fst e))), vdot (snd (snd e) - snd (fst e), - (fst (snd e) - fst (fst e))) (fst e))%R) (edges_of vs)).
    destruct (room S x n) as (t & T & K).
    { intros e He. apply in_map_iff in He as ([a b] & <- & Hab). pose proof (IN a b Hab) as O. unfold orient, vcross, vdot, vsub in *. cbn [fst snd] in *. lra. }
    assert (HU : in_hull vs (vadd x (vscale t n))).
    { apply (left_hull _ SC). intros a b Hab. specialize (K _ (in_map _ _ _ Hab)). cbn [fst snd] in K. unfold orient, vcross, vdot, vsub, vadd, vscale in *. cbn [fst snd] in *. lra. }
    pose proof (proj1 (dist_le _ _ _) (R _ HU p' Hp')) as L'. apply dist_le in L.
    assert (P : (0 < vdot n n)%R). { unfold n. clear - N. destruct p as [p1 p2], p' as [q1 q2]. unfold vdot, vsub. cbn [fst snd]. destruct (Req_dec q1 p1) as [E1|E1], (Req_dec q2 p2) as [E2|E2]; [subst; contradiction|nra|nra|nra]. }
    assert (TP : (0 < t * vdot n n)%R) by (apply Rmult_lt_0_compat; assumption). clear - L L' TP. unfold n, vdot, vsub, vadd, vscale in *. cbn [fst snd] in *. lra.
  Qed.
  Lemma tiles_cover : all_used o -> exists m, voronoi (N := RNum) tol fuel d = Ok m /\
    (forall x, in_hull sites x -> exists g vs, In g (ms_polygons m) /\ vertices_are (ul_list (ms_points m)) (pg_points g) vs /\ in_hull (map xy vs) x) /\
    (forall i j g g' vs vs' x, nth_error (ms_polygons m) i = Some g -> nth_error (ms_polygons m) j = Some g' -> i <> j ->
       vertices_are (ul_list (ms_points m)) (pg_points g) vs -> vertices_are (ul_list (ms_points m)) (pg_points g') vs' ->
       (forall a b, In (a, b) (edges_of (map xy vs)) -> (0 < orient a b x)%R) -> ~ in_hull (map xy vs') x).
  Proof.
    intros AU. destruct domain_tiles as (m & ci & E & F). exists m. split; [exact E|]. split.
    - intros x HX. destruct (nearest_exists sites x) as (p & Hp & R); [intros N; destruct (HX (0, 0)%R) as (q & Hq & _); rewrite N in Hq; destruct Hq|].
      apply in_map_iff in Hp as (q & <- & Hq). apply In_nth_error in Hq as (k & Hk).
      assert (Lk : (k < length (o_points o))%nat) by (rewrite <- (map_length read_point); apply nth_error_Some; congruence).
      assert (Hv : In (Z.of_nat k) V) by (apply dedup_in, AU; unfold zlen; lia).
      destruct (Forall2_in_left _ _ _ F _ Hv) as (g & Hg & site & vs & ts & H1 & H2 & H3 & H4 & _). exists g, vs. split; [exact Hg|]. split; [exact H2|]. apply H4. split; [exact HX|].
      inversion_clear H1 as [|? ? ? ? [_ Y] _]. rewrite Nat2Z.id, Hk in Y. injection Y as <-. exact R.
    - intros i j g g' vs vs' x Hi Hj N VS VS' IN HU.
      destruct (Forall2_nth' _ _ _ F i g Hi) as (v & Hv & site & ws & ts & A1 & A2 & A3 & A4 & _).
      destruct (Forall2_nth' _ _ _ F j g' Hj) as (v' & Hv' & site' & ws' & ts' & B1 & B2 & B3 & B4 & _).
      rewrite (located_det _ _ _ _ A2 VS) in A3, A4. rewrite (located_det _ _ _ _ B2 VS') in B3, B4.
      assert (NV : v <> v'). { intros <-. apply N. apply (proj1 (NoDup_nth_error V) (dedup_nodup _)); [apply nth_error_Some; congruence|congruence]. }
      destruct CD as [T D NS SA HF CB]. destruct (at_pos o v site A1) as [P1 Q1], (at_pos o v' site' B1) as [P2 Q2].
      assert (NP : xy site <> xy site'). { intros EQ. apply NV. apply (pos_inj o (proj1 D) NS v v' site site' A1 B1). congruence. }
      apply (inside_region (xy site) (xy site') (map xy vs) x A3); auto.
      + intros y Hy. apply A4, Hy.
      + apply B4 in HU as [_ R]. apply R. exact Q1.
  Qed.

  Lemma areas_add_up : exists m areas tas, voronoi (N := RNum) tol fuel d = Ok m /\
    Forall2 (fun g a => exists g', getArea (N := RNum) g (ul_list (ms_points m)) = Ok (g', a)) (ms_polygons m) areas /\
    triangle_areas o tas /\ sumR areas = sumR tas.
  Proof.
    destruct domain_tiles as (m & ci & E & F). destruct CD as [T D NS SA HF CB]. set (cc := ul_list (ms_points m)).
    set (q := fun v k => quad o cc ci v k). set (ks := seq 0 (length tris)).
    set (tri := fun t : Z * Z * Z => let '(A, B, C) := t in shoelace [pos o A; pos o B; pos o C]).
    exists m, (map (fun v => sumR (map (q v) ks) / 2)%R V), (map tri tris). split; [exact E|]. split; [|split].
    - assert (G : forall v g, tile o m ci v g -> exists g', getArea (N := RNum) g cc = Ok (g', (sumR (map (q v) ks) / 2)%R)).
      { intros v g (site & vs & ts & _ & _ & _ & _ & (ND & AT) & AE & g' & GA). exists g'. unfold cc. rewrite GA, AE. do 3 f_equal.
        symmetry. apply (sumR_part (q v) ks ts); [apply seq_NoDup|exact ND| |].
        - intros k Hk. apply AT in Hk as (t & Hk & _). apply in_seq. split; [lia|]. apply nth_error_Some. congruence.
        - intros k Hk Nk. apply in_seq in Hk. destruct (nth_get tris k) as (t & Ht); [lia|]. apply (quad_outside o cc ci v k t Ht). intros Hv. apply Nk, AT. eauto. }
      clear - F G. induction F as [|v g l gs H F IH]; cbn [map]; constructor; [apply G, H|exact IH].
    - unfold triangle_areas. assert (G : forall t, In t tris -> exists A B C, vertices_are mp (corners t) [A; B; C] /\ tri t = shoelace [xy A; xy B; xy C]).
      { intros [[a b] c] Ht. assert (U : forall i, In i [a; b; c] -> In i (flat_map corners tris)) by (intros i Hi; apply (in_corners o i (a, b, c) Ht Hi)).
        destruct (used_site o T a) as (A & VA & EA & _); [apply U; left; reflexivity|]. destruct (used_site o T b) as (B & VB & EB & _); [apply U; right; left; reflexivity|]. destruct (used_site o T c) as (C & VC & EC & _); [apply U; right; right; left; reflexivity|].
        exists A, B, C. split; [|unfold tri; rewrite EA, EB, EC; reflexivity].
        clear - VA VB VC. inversion_clear VA as [|? ? ? ? Y1 _]. inversion_clear VB as [|? ? ? ? Y2 _]. inversion_clear VC as [|? ? ? ? Y3 _]. repeat (constructor; [assumption|]). constructor. }
      clear - G. induction tris as [|t l IH]; cbn [map]; constructor; [apply G; left; reflexivity|]. apply IH. intros t' Ht'. apply G. right. exact Ht'.
    - rewrite <- (map_map (fun v => sumR (map (q v) ks)) (fun x => x / 2)%R), sumR_half, (sumR_swap q). unfold ks.
      rewrite (map_seq_at (fun k => sumR (map (fun v => q v k) V)) (fun t => 2 * tri t)%R tris 0%nat).
      + rewrite <- sumR_half, map_map. f_equal. apply map_ext. intros t. lra.
      + intros k [[A B] C] Hk. cbn [plus]. unfold q. pose proof (nth_error_In _ _ Hk) as Ht.
        assert (U : forall i, In i [A; B; C] -> In i V) by (intros i Hi; apply dedup_in, (in_corners o i (A, B, C) Ht Hi)).
        rewrite (quad_total o cc ci V k A B C Hk); [|apply dedup_nodup|apply U; left; reflexivity|apply U; right; left; reflexivity|apply U; right; right; left; reflexivity].
        unfold tri, shoelace, edges_of, sumR, orient, vcross, vsub. cbn. lra.
  Qed.
End Domain.
