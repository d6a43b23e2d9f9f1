(** Point location in the inner Voronoi cells. *)
From Coq Require Import Reals Lra Lia ZArith List Bool Permutation.
From Verif Require Import Base Spec MUtil MGeom MHull MPolygon MMaps MTriangle MGen MRegion MDelaunay MVoronoi Bridge.
From Verif Require Import PUtil PPoint PPoly PPoly2 PTri PMore PContains PDelaunay PVoronoi PFan PVorGeo PVorCell PConvex PVorConvex.
Import ListNotations.

Section Hull.
  Local Open Scope R_scope.
  Variable vs : list pt.
  Hypothesis SC : strictly_convex vs.
  Lemma furthest u : exists v, In v vs /\ forall w, In w vs -> vdot u w <= vdot u v.
  Proof.
    destruct SC as (L & _). clear SC. destruct vs as [|a l]; [cbn in L; lia|]. clear L. revert a. induction l as [|b l IH]; intros a.
    - exists a. split; [left; reflexivity|]. intros w [<-|[]]. lra.
    - destruct (IH b) as (v & Hv & M). destruct (Rle_dec (vdot u v) (vdot u a)) as [D|D].
      + exists a. split; [left; reflexivity|]. intros w [<-|Hw]; [lra|]. specialize (M w Hw). lra.
      + exists v. split; [right; exact Hv|]. intros w [<-|Hw]; [lra|auto].
  Qed.
  (** the edges into and out of a vertex *)
  Lemma around v : In v vs -> exists a b, In (a, v) (edges_of vs) /\ In (v, b) (edges_of vs) /\ 0 < orient a v b.
  Proof.
    intros Hv. pose proof SC as (L & ND & H).
    assert (exists b, In (v, b) (edges_of vs)) as (b & Hb).
    { pose proof Hv as K. rewrite <- (edges_of_fst vs) in K. apply in_map_iff in K as ([x b] & E & K). cbn in E. subst x. exists b. exact K. }
    assert (exists a, In (a, v) (edges_of vs)) as (a & Ha).
    { pose proof (Permutation_in _ (Permutation_sym (edges_of_snd vs)) Hv) as K. apply in_map_iff in K as ([a x] & E & K). cbn in E. subst x. exists a. exact K. }
    exists a, b. split; [exact Ha|]. split; [exact Hb|]. destruct (edge_in _ _ _ Ha) as [Ia _], (edge_in _ _ _ Hb) as [_ Ib].
    pose proof (convex_edge vs SC _ _ Ha) as N1. pose proof (convex_edge vs SC _ _ Hb) as N2.
    apply H; auto. intros ->.
    assert (exists w, In w vs /\ w <> a /\ w <> v) as (w & Hw & W1 & W2).
    { destruct (Exists_dec (fun w => w <> a /\ w <> v) vs) as [D|D].
      - intros w. destruct (pair_eq_dec w a); [right; tauto|]. destruct (pair_eq_dec w v); [right; tauto|left; tauto].
      - apply Exists_exists in D. exact D.
      - exfalso. assert (IN : incl vs [a; v]).
        { intros w Hw. destruct (pair_eq_dec w a) as [->|Wa]; [left; reflexivity|]. destruct (pair_eq_dec w v) as [->|Wv]; [right; left; reflexivity|].
          exfalso. apply D, Exists_exists. exists w. auto. }
        pose proof (NoDup_incl_length ND IN) as K. cbn in K. lia. }
    pose proof (H a v w Ha Hw W1 W2) as O1. pose proof (H v a w Hb Hw W2 W1) as O2. unfold orient, vcross, vsub in *. cbn [fst snd] in *. lra.
  Qed.
  Lemma hull_left x : in_hull vs x -> forall a b, In (a, b) (edges_of vs) -> 0 <= orient a b x.
  Proof.
    intros HX a b Hab. destruct (HX (snd b - snd a, - (fst b - fst a))) as (v & Hv & L).
    assert (W : 0 <= orient a b v).
    { destruct SC as (_ & _ & H). destruct (pair_eq_dec v a) as [->|N1]; [unfold orient, vcross, vsub; cbn; lra|]. destruct (pair_eq_dec v b) as [->|N2]; [unfold orient, vcross, vsub; cbn; lra|].
      left. apply H; assumption. }
    unfold orient, vcross, vsub, vdot in *. cbn [fst snd] in *. lra.
  Qed.
  Lemma left_hull x : (forall a b, In (a, b) (edges_of vs) -> 0 <= orient a b x) -> in_hull vs x.
  Proof.
    intros H u. destruct (furthest u) as (v & Hv & M). exists v. split; [exact Hv|].
    destruct (around v Hv) as (a & b & Ha & Hb & O). pose proof (H _ _ Ha) as O1. pose proof (H _ _ Hb) as O2.
    destruct (edge_in _ _ _ Ha) as [Ia _], (edge_in _ _ _ Hb) as [_ Ib]. pose proof (M a Ia) as M1. pose proof (M b Ib) as M2.
    clear - O O1 O2 M1 M2. unfold orient, vcross, vsub, vdot in *. destruct a as [a1 a2], b as [b1 b2], v as [v1 v2], x as [x1 x2], u as [u1 u2]. cbn [fst snd] in *.
    set (A1 := a1 - v1). set (A2 := a2 - v2). set (B1 := b1 - v1) in *. set (B2 := b2 - v2) in *. set (X1 := x1 - v1) in *. set (X2 := x2 - v2) in *.
    assert (D : 0 < B1 * A2 - B2 * A1) by (unfold A1, A2, B1, B2 in *; lra).
    assert (E1 : 0 <= X1 * A2 - X2 * A1) by (unfold A1, A2, X1, X2 in *; lra).
    assert (M1' : u1 * A1 + u2 * A2 <= 0) by (unfold A1, A2; lra). assert (M2' : u1 * B1 + u2 * B2 <= 0) by (unfold B1, B2; lra).
    assert (G : (B1 * A2 - B2 * A1) * (u1 * X1 + u2 * X2) = (B1 * X2 - B2 * X1) * (u1 * A1 + u2 * A2) + (X1 * A2 - X2 * A1) * (u1 * B1 + u2 * B2)) by ring.
    assert (K : u1 * X1 + u2 * X2 <= 0) by nra. unfold X1, X2 in K. lra.
  Qed.
End Hull.

Definition vscale (t : R) (a : pt) : pt := (t * fst a, t * snd a)%R.
Section Near.
  Local Open Scope R_scope.
  (** finitely many strict inequalities leave room in every direction *)
  Lemma room (l : list (pt * R)) x n : (forall e, In e l -> vdot (fst e) x < snd e) -> exists t, 0 < t /\ forall e, In e l -> vdot (fst e) (vadd x (vscale t n)) <= snd e.
  Proof.
    induction l as [|e l IH]; intros H; [exists 1; split; [lra|intros ? []]|].
    destruct IH as (t & T & K); [intros e' He'; apply H; right; exact He'|].
    pose proof (H e (or_introl eq_refl)) as L.
    assert (exists s, 0 < s <= t /\ vdot (fst e) (vadd x (vscale s n)) <= snd e) as (s & S1 & S2).
    { set (g := vdot (fst e) n). assert (F : forall s, vdot (fst e) (vadd x (vscale s n)) = vdot (fst e) x + s * g) by (intros; unfold g, vdot, vadd, vscale; cbn; ring).
      destruct (Rle_dec g 0) as [G|G]; [exists t; split; [lra|]; rewrite F; nra|].
      exists (Rmin t ((snd e - vdot (fst e) x) / g)). assert (P : 0 < (snd e - vdot (fst e) x) / g) by (apply Rdiv_lt_0_compat; lra).
      split; [unfold Rmin; destruct Rle_dec; lra|]. rewrite F.
      assert (Q : Rmin t ((snd e - vdot (fst e) x) / g) * g <= snd e - vdot (fst e) x); [|lra].
      apply Rle_trans with ((snd e - vdot (fst e) x) / g * g); [apply Rmult_le_compat_r; [lra|apply Rmin_r]|]. right. field. lra. }
    exists s. split; [lra|]. intros e' [<-|He']; [exact S2|]. specialize (K e' He'). pose proof (H e' (or_intror He')) as L'.
    set (g := vdot (fst e') n) in *. assert (F : forall s, vdot (fst e') (vadd x (vscale s n)) = vdot (fst e') x + s * g) by (intros; unfold g, vdot, vadd, vscale; cbn; ring).
    rewrite F in *. destruct (Rle_dec g 0) as [G|G]; nra.
  Qed.
  Lemma dist_lt x p q : dist x p < dist x q <-> 2 * vdot (vsub q p) (vsub x p) < vdot (vsub q p) (vsub q p).
  Proof.
    pose proof (dist_le x q p) as H. assert (E : (2 * vdot (vsub p q) (vsub x q) <= vdot (vsub p q) (vsub p q)) <-> (vdot (vsub q p) (vsub q p) <= 2 * vdot (vsub q p) (vsub x p))) by (unfold vdot, vsub; cbn [fst snd]; split; intros; lra).
    split; intros K; apply Rnot_le_lt; intros L; [apply E in L; apply H in L; lra|apply H in L; apply E in L; lra].
  Qed.
  Lemma strict_interior sites p vs x : strictly_convex vs -> (forall y, voronoi_region sites p y -> in_hull vs y) ->
    (forall q, In q sites -> q <> p -> dist x p < dist x q) -> forall a b, In (a, b) (edges_of vs) -> 0 < orient a b x.
  Proof.
    intros SC R H a b Hab.
    set (n := (snd b - snd a, - (fst b - fst a))).
    destruct (room (map (fun q => (vsub q p, vdot (vsub q p) (vsub q p) / 2 + vdot (vsub q p) p)) (filter (fun q => if pair_eq_dec q p then false else true) sites)) x n) as (t & T & K).
    { intros e He. apply in_map_iff in He as (q & <- & Hq). apply filter_In in Hq as [Hq N]. destruct (pair_eq_dec q p) as [E|E]; [discriminate|].
      pose proof (proj1 (dist_lt _ _ _) (H q Hq E)) as L. unfold vdot, vsub in *. cbn [fst snd] in *. lra. }
    assert (RG : voronoi_region sites p (vadd x (vscale t n))).
    { intros q Hq. destruct (pair_eq_dec q p) as [->|E]; [lra|]. apply dist_le.
      assert (L := K (vsub q p, vdot (vsub q p) (vsub q p) / 2 + vdot (vsub q p) p)). cbn [fst snd] in L.
      assert (I : In (vsub q p, vdot (vsub q p) (vsub q p) / 2 + vdot (vsub q p) p) (map (fun q => (vsub q p, vdot (vsub q p) (vsub q p) / 2 + vdot (vsub q p) p)) (filter (fun q => if pair_eq_dec q p then false else true) sites))).
      { apply in_map_iff. exists q. split; [reflexivity|]. apply filter_In. split; [exact Hq|]. destruct (pair_eq_dec q p); [contradiction|reflexivity]. }
      specialize (L I). clear I K. unfold vdot, vsub, vadd, vscale in *. cbn [fst snd] in *. lra. }
    pose proof (hull_left vs SC _ (R _ RG) a b Hab) as O. pose proof (convex_edge vs SC a b Hab) as NE.
    assert (P : 0 < (fst b - fst a) * (fst b - fst a) + (snd b - snd a) * (snd b - snd a)).
    { destruct a as [a1 a2], b as [b1 b2]. cbn [fst snd] in *. destruct (Req_dec b1 a1) as [E1|E1], (Req_dec b2 a2) as [E2|E2]; [subst; contradiction|nra|nra|nra]. }
    unfold n, orient, vcross, vsub, vadd, vscale in *. cbn [fst snd] in *. nra.
  Qed.
End Near.

Lemma inner_location (tol : R) fuel (o : trout RNum) d : (0 < tol)%R -> centers_apart tol o -> centers_stored_once tol o ->
  triangulation (zlen (o_points o)) (map fst (o_edges o)) (o_tris o) -> delaunay_output o -> read_output (N := RNum) tol o = Ok d ->
  (forall v, In v (flat_map corners (o_tris o)) -> (exists ws ts, closed_fan (map fst (o_edges o)) (o_tris o) v ws ts) \/
     (exists w ws w' ts, open_fan (o_edges o) (o_tris o) v w ws w' ts)) -> (length (o_tris o) < fuel)%nat ->
  exists m, voronoi (N := RNum) tol fuel d = Ok m /\
    Forall2 (fun v (g : polygon RNum) => forall ws ts, closed_fan (map fst (o_edges o)) (o_tris o) v ws ts ->
      exists site vs, vertices_are (map read_point (o_points o)) [v] [site] /\ vertices_are (ul_list (ms_points m)) (pg_points g) vs /\ forall q : Point RNum,
        ((forall s, In s (output_sites o) -> s <> xy site -> (dist (xy q) (xy site) < dist (xy q) s)%R) ->
           containsPoint (N := RNum) tol (pg_points g) (ul_list (ms_points m)) q = Ok true) /\
        ((exists s, In s (output_sites o) /\ (dist (xy q) s < dist (xy q) (xy site))%R) ->
           exists b, containsPoint (N := RNum) tol (pg_points g) (ul_list (ms_points m)) q = Ok b /\ (b = true <-> near_border tol (xy q) (map xy vs))))
      (dedup (flat_map corners (o_tris o))) (ms_polygons m).
Proof.
  intros TP CA SO T D RO HF LF. destruct (inner_cells_convex tol fuel o d TP CA SO T D RO HF LF) as (m & V & F).
  destruct (inner_regions_exact tol fuel o d TP CA T D RO HF LF) as (m' & V' & F'). rewrite V in V'. injection V' as <-. exists m. split; [exact V|].
  clear V. induction F as [|v g l gs H F IH]; [constructor|]. inversion_clear F' as [|? ? ? ? H' F'']. constructor; [|exact (IH F'')].
  intros ws ts HC. destruct (H ws ts HC) as (vs & VS & SC & NS), (H' ws ts HC) as (site & vs' & S1 & VS' & RG). rewrite (located_det _ _ _ _ VS' VS) in *. clear VS'.
  exists site, vs. split; [exact S1|]. split; [exact VS|]. intros q.
  destruct (contains_convex tol (pg_points g) (ul_list (ms_points m)) q vs TP VS NS SC) as [CI CE]. split.
  - intros N. apply CI. apply (strict_interior (output_sites o) (xy site)); [exact SC|intros y; apply RG|exact N].
  - intros (s & Hs & L). apply CE.
    destruct (Exists_dec (fun e => (orient (fst e) (snd e) (xy q) < 0)%R) (edges_of (map xy vs)) (fun e => Rlt_dec _ _)) as [X|X].
    + apply Exists_exists in X as ([a b] & Hab & O). exists a, b. auto.
    + exfalso. assert (R : voronoi_region (output_sites o) (xy site) (xy q)); [|specialize (R s Hs); lra].
      apply RG. apply (left_hull _ SC). intros a b Hab. apply Rnot_lt_le. intros O. apply X, Exists_exists. exists (a, b). auto.
Qed.
