(** The Voronoi cells on doubles add up to the region in spite of rounding. *)
From Coq Require Import Reals Lra Lia ZArith SpecFloat List Bool Permutation.
From Flocq Require Import Core BinarySingleNaN.
From Verif Require Import Base Spec MUtil MGeom MHull MPolygon MMaps MTriangle MGen MRegion MDelaunay MVoronoi Bridge BridgeNum BridgeVor64 BridgeTile BridgeHist BridgeFill BridgeAny BridgeWind BridgeSimple BridgeSimple64 BridgeRound.
From Verif Require Import PUtil PPoint PFloat PGrid PGrid3 PGrid4 PGrid6 PGrid7 PCluster PCircum PPoly PPoly2 PTri PMore PContains PDelaunay PVoronoi PFan PVorGeo PVorCell PConvex PVorConvex PVorLocate PWedge PBorderCell PVorBorder PVorMap PTile PTile2 PTile3 PTile4 PTile5 PTile6 PDual PFill PFill2 PPipe64 PVor64 PVor64b PWind PAny PAny2 PAny3 PAny4 PAny5 PAny6 PWind2 PWind3 PWind4 PSimple PSimple2 PSimple64 PRound PRound2 PRound3.
Import ListNotations.
Local Open Scope Z_scope.

(** ** A tolerance below all differences *)
Lemma below_all (l : list R) (b : R) : (0 < b)%R -> exists t, (0 < t <= b)%R /\ forall x, In x l -> x <> 0%R -> (t <= Rabs x)%R.
Proof.
  intros B. induction l as [|x l (t & T & H)]; [exists b; split; [lra|intros x []]|].
  destruct (Req_dec x 0) as [->|N].
  - exists t. split; [exact T|]. intros y [<-|Hy] Ny; [congruence|apply H; assumption].
  - pose proof (Rabs_pos_lt x N) as P. exists (Rmin t (Rabs x)). pose proof (Rmin_l t (Rabs x)). pose proof (Rmin_r t (Rabs x)). assert (0 < Rmin t (Rabs x))%R by (apply Rmin_glb_lt; lra).
    split; [lra|]. intros y [<-|Hy] Ny; [lra|]. specialize (H y Hy Ny). lra.
Qed.
Definition gaps (l : list pt) : list R := flat_map (fun a => flat_map (fun b => [fst a - fst b; snd a - snd b]%R) l) l.
Lemma gaps_in l a b : In a l -> In b l -> In (fst a - fst b)%R (gaps l) /\ In (snd a - snd b)%R (gaps l).
Proof. intros Ha Hb. split; apply in_flat_map; exists a; (split; [exact Ha|]); apply in_flat_map; exists b; (split; [exact Hb|]); cbn; auto. Qed.
Lemma listed_centers (o : trout RNum) n : exists l, forall k c, (k < n)%nat -> center_of o k c -> In (xy c) l.
Proof.
  induction n as [|n (l & H)]; [exists []; intros; lia|].
  destruct (Classical_Prop.classic (exists c, center_of o n c)) as [(c & C)|N].
  - exists (xy c :: l). intros k c' K C'. destruct (Nat.eq_dec k n) as [->|]; [left; rewrite (center_det o n c c' C C'); reflexivity|right; apply (H k); [lia|exact C']].
  - exists l. intros k c' K C'. destruct (Nat.eq_dec k n) as [->|]; [exfalso; apply N; exists c'; exact C'|apply (H k); [lia|exact C']].
Qed.

Section Exact.
  Variable e : Z.
  Variable m : Z.
  Variable tol : f64.
  Hypothesis Ht : tolerance64 tol.
  Variable o : trout F64.
  Hypothesis DA : delaunay_answer64 e m tol o.
  Notation oR := (exact_output o).
  Notation mp := (map read_point (o_points o)).
  Lemma sites_nodup : NoDup (output_sites oR).
  Proof.
    unfold output_sites. rewrite exact_sites. change (NoDup (map xyv mp)). apply NoDup_nth_error. intros i j Hi E. destruct (Nat.eq_dec i j) as [|N]; [assumption|]. exfalso. rewrite map_length in Hi.
    destruct (nth_get mp i Hi) as (a & Ha). rewrite (map_nth_error xyv _ _ Ha) in E. symmetry in E. destruct (nth_error mp j) as [b|] eqn:Hb; [|rewrite (proj2 (nth_error_None (map xyv mp) j)) in E; [discriminate|rewrite map_length; apply nth_error_None, Hb]].
    rewrite (map_nth_error xyv _ _ Hb) in E. assert (K : forall (x y : pt), Some x = Some y -> x = y) by congruence. apply K in E. apply (d64_apart _ _ _ _ DA i j a b Ha Hb N). unfold near64. rewrite E. apply (coincide_self tol Ht).
  Qed.
  Lemma small_answer : exists t, (0 < t <= val tol)%R /\ delaunay_answer t oR.
  Proof.
    destruct (listed_centers oR (length (o_tris o))) as (cs & HC).
    destruct (below_all (gaps (output_sites oR) ++ gaps cs) (val tol) (tol_pos tol Ht)) as (t & T & H). exists t. split; [exact T|].
    assert (SM : forall l a b, (forall x, In x (gaps l) -> x <> 0%R -> (t <= Rabs x)%R) -> In a l -> In b l -> ((Rabs (fst a - fst b) < t -> fst a = fst b) /\ (Rabs (snd a - snd b) < t -> snd a = snd b))%R).
    { intros l a b G Ia Ib. destruct (gaps_in l a b Ia Ib) as [G1 G2]. split; intros L.
      - destruct (Req_dec (fst a - fst b) 0) as [E|N]; [lra|]. specialize (G _ G1 N). lra.
      - destruct (Req_dec (snd a - snd b) 0) as [E|N]; [lra|]. specialize (G _ G2 N). lra. }
    assert (S1 := fun a b => SM (output_sites oR) a b (fun x Hx => H x (in_or_app _ _ _ (or_introl Hx)))).
    assert (S2 := fun a b => SM cs a b (fun x Hx => H x (in_or_app _ _ _ (or_intror Hx)))). clear SM H.
    assert (IP : forall a, In a (map read_point (o_points oR)) -> In (xy a) (output_sites oR)) by (intros a Ha; apply in_map, Ha).
    constructor.
    - apply exact_triangulation, (d64_triangulation _ _ _ _ DA).
    - apply exact_delaunay, (d64_delaunay _ _ _ _ DA).
    - exact (d64_fans _ _ _ _ DA).
    - intros a b c Ha Hb Hc. destruct (S1 (xy a) (xy b) (IP a Ha) (IP b Hb)) as [X Y]. destruct (S1 (xy b) (xy c) (IP b Hb) (IP c Hc)) as [X' Y']. unfold xy in X, Y, X', Y'. cbn [fst snd] in X, Y, X', Y'.
      split; intros L1 L2.
      + rewrite (X L1). exact L2.
      + rewrite (Y L1). exact L2.
    - intros i j a b Hi Hj N [C1 C2]. destruct (S1 (xy a) (xy b) (IP a (nth_error_In _ _ Hi)) (IP b (nth_error_In _ _ Hj))) as [X Y].
      assert (E : xy a = xy b) by (apply injective_projections; [apply X, C1|apply Y, C2]). apply N. apply (proj1 (NoDup_nth_error (output_sites oR)) sites_nodup).
      + unfold output_sites. rewrite map_length. apply nth_error_Some. congruence.
      + unfold output_sites. rewrite (map_nth_error xy _ _ Hi), (map_nth_error xy _ _ Hj), E. reflexivity.
    - intros k k' c c' C C' [C1 C2]. assert (B : forall k c, center_of oR k c -> (k < length (o_tris o))%nat). { intros k0 c0 (t0 & _ & _ & _ & Hk & _). apply nth_error_Some. cbn in Hk. congruence. }
      destruct (S2 (xy c) (xy c') (HC k c (B k c C) C) (HC k' c' (B k' c' C') C')) as [X Y]. apply injective_projections; [apply X, C1|apply Y, C2].
  Qed.
  Variable outlines : list (list pt).
  Hypothesis FR : fills_region (val tol) outlines oR.
  Hypothesis PL : plain outlines.
  Lemma exact_border : any_border (val tol) oR.
  Proof.
    destruct small_answer as (t & T & A).
    assert (FR' : fills_region t outlines oR).
    { constructor; [exact (fr_rings _ _ _ FR)|exact (fr_gabriel _ _ _ FR)|]. intros a b c A0 B0 C0 B1 B2 V. destruct (fr_corners _ _ _ FR a b c A0 B0 C0 B1 B2 V) as [K|K]; [left; exact K|right]. lra. }
    pose proof (any_fill_border t outlines oR A (region_any t (proj1 T) outlines oR A FR' PL)) as AB.
    intros v w1 w2 site a b BC V. destruct (AB v w1 w2 site a b BC V) as (G1 & G2 & IN & _). split; [exact G1|]. split; [exact G2|]. split; [exact IN|].
    destruct (rim_border t oR A v w1 w2 BC) as [B1 B2]. inversion_clear V as [|? ? ? ? Y1 V']. inversion_clear V' as [|? ? ? ? Y2 V'']. inversion_clear V'' as [|? ? ? ? Y3 _].
    assert (V4 : vertices_are (map read_point (o_points oR)) [w2; v; w1] [b; site; a]) by (repeat (constructor; [assumption|]); constructor).
    pose proof (fr_corners _ _ _ FR w2 v w1 b site a B2 B1 V4) as C. rewrite <- (orient_rot (xy b) (xy site) (xy a)) in C. exact C.
  Qed.
End Exact.

Lemma Forall2_turn {A B} (P : A -> B -> Prop) l l' : Forall2 P l l' -> Forall2 P (rev l) (rev l').
Proof. induction 1 as [|x y l l' H F IH]; [constructor|]. cbn [rev]. apply Forall2_app; [exact IH|constructor; [exact H|constructor]]. Qed.

(** ** The sums *)
Section Sums.
  Variable e : Z.
  Hypothesis He : -199 <= e <= 200.
  Variable m : Z.
  Hypothesis Hm : 0 <= m <= 16.
  Variable tol : f64.
  Hypothesis Ht : tolerance64 tol.
  Variable o : trout F64.
  Hypothesis DA : delaunay_answer64 e m tol o.
  Hypothesis SA : sources_apart64 tol o.
  Variable outlines : list (list pt).
  Notation oR := (exact_output o).
  Notation mp := (map read_point (o_points o)).
  Notation V := (dedup (flat_map corners (o_tris o))).
  Hypothesis FR : fills_region (val tol) outlines oR.
  Hypothesis PL : plain outlines.
  Variable d : delaunay F64.
  Hypothesis RO : read_output (N := F64) tol o = Ok d.
  Variable fuel : nat.
  Hypothesis LF : (length (o_tris o) < fuel)%nat.
  Let T := d64_triangulation _ _ _ _ DA.
  Let TR := exact_triangulation o T.
  Let DO : directed_once (o_tris oR) := proj2 (d64_delaunay _ _ _ _ DA).
  Lemma pos_grid v : In v (flat_map corners (o_tris o)) -> exists q, gpm e m q /\ pos oR v = xyv q.
  Proof.
    intros Hv. destruct (used_site oR TR v Hv) as (A & VA & EA & _). rewrite exact_points in VA. apply vertices_real in VA as (vs & VA & E). destruct vs as [|q [|? ?]]; try discriminate. exists q.
    split; [apply (site_gpm e m o (d64_grid _ _ _ _ DA) [v] [q] VA); left; reflexivity|exact (pos_exact o v q VA)].
  Qed.
  Definition rounding (w : pt -> pt -> R) (x y : pt) : R := w (rounded x) (rounded y).
  Lemma rounding_turns w : additive w -> turning (rounding w).
  Proof. intros W x y. apply (proj1 W). Qed.
  Lemma rounding_straight w : additive w -> straight e (rounding w).
  Proof.
    intros W a b c Ga Gb Gc O. unfold tri_w, rounding. rewrite !(on_grid_rounded (e - 1)) by (assumption || lia). destruct W as [W1 W2].
    rewrite (W1 a c). rewrite (W2 a c b); [lra|]. unfold orient, vcross, vsub in *. cbn [fst snd] in *. lra.
  Qed.
  Lemma bent_border w ccR ci a b : additive w -> border_side (o_tris o) a b -> bent oR ccR ci (rounding w) (a, b) = w (pos oR a) (pos oR b).
  Proof.
    intros W B. unfold bent, rounding. cbn [fst snd]. rewrite (cut_border oR ccR ci a b B). destruct B as [(t & Hin & S) _]. destruct (side_corner _ _ _ S) as [Ca Cb].
    destruct (pos_grid a (in_corners oR a t Hin Ca)) as (p & Gp & ->), (pos_grid b (in_corners oR b t Hin Cb)) as (q & Gq & ->).
    rewrite (on_grid_rounded (e - 1)), (on_grid_rounded (e - 1) (midpoint _ _)), (on_grid_rounded (e - 1) (xyv q)); try lia.
    - symmetry. apply (mid_w w W).
    - apply (gpm_on_half e m); assumption.
    - apply (gpm_midpoint e m); assumption.
    - apply (gpm_on_half e m); assumption.
  Qed.
  Lemma rounded_loop w zs : loop_w (rounding w) zs = loop_w w (map rounded zs).
  Proof. unfold loop_w, along_w, rounding. rewrite edges_of_map, map_map. reflexivity. Qed.
  Lemma cells_add_up : exists mm zss, voronoi (N := F64) tol fuel d = Ok mm /\ length V = length (ms_polygons mm) /\
    Forall2 (fun kg zs => rounded_cell o (ul_list (ms_points mm)) (fst kg) (snd kg) zs) (combine V (ms_polygons mm)) zss /\
    forall w, additive w -> sumR (map (fun zs => loop_w w (map rounded zs)) zss) = sumR (map (loop_w w) outlines).
  Proof.
    destruct (parts_built64 e He m Hm tol Ht o T (d64_grid _ _ _ _ DA) (d64_delaunay _ _ _ _ DA) (sites_nodup e m tol Ht o DA) (exact_border e m tol Ht o DA outlines FR PL) SA d RO (d64_fans _ _ _ _ DA) fuel LF)
      as (mm & ci & ccR & E & F). exists mm.
    set (ks := seq 0 (length (o_tris o))).
    assert (G : exists zss, Forall2 (fun kg zs => rounded_cell o (ul_list (ms_points mm)) (fst kg) (snd kg) zs) (combine V (ms_polygons mm)) zss /\
      forall w, turning w -> straight e w -> map (fun zs => loop_w w zs) zss = map (fun v => sumR (map (quad_a oR ccR ci w v) ks)) V).
    { clear E. induction F as [|v g l gs (site & pts & vs & ts & P1 & P2 & P3 & P4 & P5 & P6 & P7 & P8 & (ND & AT) & P10) F (zss & Z1 & Z2)]; [exists []; split; [constructor|intros; reflexivity]|].
      exists (map (at_index ccR) pts :: zss). cbn [combine map]. split.
      - constructor; [|exact Z1]. cbn [fst snd]. destruct P1 as [-> | ->].
        + exists site, vs. split; [exact P2|]. split; [exact P3|]. split; [left; exact P4|]. auto.
        + exists site, (rev vs). split; [exact P2|]. split; [rewrite <- (rev_involutive (pg_points g)); apply Forall2_turn, P3|]. split; [right; rewrite !map_rev in *; rewrite P4, !rev_involutive; reflexivity|]. auto.
      - intros w W1 W2. rewrite (Z2 w W1 W2). f_equal. rewrite (P10 w W1 W2). symmetry. apply (sumR_part (quad_a oR ccR ci w v) ks ts); [apply seq_NoDup|exact ND| |].
        + intros k Hk. apply AT in Hk as (t & Hk & _). apply in_seq. split; [lia|]. apply nth_error_Some. cbn in Hk. congruence.
        + intros k Hk Nk. apply in_seq in Hk. destruct (nth_get (o_tris o) k) as (t & Hk'); [lia|]. apply (quad_a_outside oR ccR ci w v k t Hk'). intros Hv. apply Nk, AT. exists t. auto. }
    destruct G as (zss & Z1 & Z2). exists zss. split; [exact E|]. split; [clear - F; induction F; [reflexivity|cbn; congruence]|]. split; [exact Z1|]. intros w W.
    assert (M : map (fun zs => loop_w w (map rounded zs)) zss = map (fun zs => loop_w (rounding w) zs) zss) by (apply map_ext; intros zs; symmetry; apply rounded_loop). rewrite M, (Z2 _ (rounding_turns w W) (rounding_straight w W)).
    set (bw := bent oR ccR ci (rounding w)).
    transitivity (sumR (map bw (flat_map sides (o_tris o)))).
    - rewrite (sumR_swap (fun v k => quad_a oR ccR ci (rounding w) v k)). unfold ks.
      rewrite (map_seq_at (fun k => sumR (map (fun v => quad_a oR ccR ci (rounding w) v k) V)) (fun t => sumR (map bw (sides t))) (o_tris o) 0%nat).
      + clear. induction (o_tris o) as [|t ts IH]; [reflexivity|]. cbn [flat_map]. rewrite map_app, sumR_app, <- IH. reflexivity.
      + intros k [[A B] C] Hk. cbn [plus]. pose proof (nth_error_In _ _ Hk) as Hin.
        assert (U : forall i, In i [A; B; C] -> In i V) by (intros i Hi; apply dedup_in, (in_corners oR i (A, B, C) Hin Hi)).
        apply (quad_a_total oR ccR ci (rounding w)); [apply rounding_turns, W|exact Hk|apply dedup_nodup|apply U; left; reflexivity|apply U; right; left; reflexivity|apply U; right; right; left; reflexivity].
    - destruct (fr_rings _ _ _ FR) as (rings & H & NR & FO).
      rewrite (rings_sum bw (o_tris o) rings); [|intros x; apply bent_swap, rounding_turns, W|exact (sides_nodup _ (tg_corners _ _ _ TR) DO)|exact NR|exact H].
      assert (EB : map bw (flat_map edges_of rings) = map (fun x => w (pos oR (fst x)) (pos oR (snd x))) (flat_map edges_of rings)).
      { apply map_ext_in. intros [a b] Hin. apply (bent_border w ccR ci a b W). apply H. apply in_flat_map in Hin as (ring & H1 & H2). exists ring. auto. }
      rewrite EB. clear - FO W. induction FO as [|ring outline rings outlines (rs & VR & S) FO IH]; [reflexivity|]. cbn [map flat_map]. rewrite map_app, sumR_app, IH.
      change (sumR (loop_w w outline :: map (loop_w w) outlines)) with (loop_w w outline + sumR (map (loop_w w) outlines))%R. f_equal.
      rewrite <- (ring_w w W _ _ S), (ring_pos oR _ _ VR). unfold loop_w, along_w. rewrite edges_of_map, map_map. reflexivity.
  Qed.
End Sums.
