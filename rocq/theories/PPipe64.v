(** Maps, the planar graph and the mesh on doubles. *)
From Coq Require Import Reals Lra Lia ZArith SpecFloat List Bool.
From Flocq Require Import Core BinarySingleNaN.
From Verif Require Import Base Spec MUtil MGeom MHull MPolygon MMaps MTriangle MGen MRegion MDelaunay Bridge BridgeNum.
From Verif Require Import PUtil PPoint PMaps PFloat PGrid PGrid6 PGrid7 PContains PDelaunay PCluster PCircum.
Import ListNotations.
Local Open Scope Z_scope.

Lemma clustered_sub tol (P P' : Point F64 -> Prop) : clustered tol P -> (forall q, P' q -> P q) -> clustered tol P'.
Proof. intros [C1 C2] H. split; auto. Qed.
Lemma grid_clustered e tol : -200 <= e <= 200 -> (val tol <= bpow radix2 e)%R -> (0 < val tol)%R -> clustered tol (grid_point e).
Proof.
  intros He Ht T0. split.
  - intros a [[Fx (k & Hk & Vx)] [Fy (l & Hl & Vy)]]. split; [exact Fx|]. split; [exact Fy|].
    assert (B : forall n, Z.abs n <= 2 ^ 20 -> (Rabs (IZR n * bpow radix2 e) <= bpow radix2 1000)%R).
    { intros n Hn. rewrite Rabs_mult, (Rabs_pos_eq (bpow radix2 e)), <- abs_IZR by apply bpow_ge_0.
      apply Rle_trans with (bpow radix2 20 * bpow radix2 e)%R.
      - apply Rmult_le_compat_r; [apply bpow_ge_0|]. change (bpow radix2 20) with (IZR (2 ^ 20)). apply IZR_le. lia.
      - rewrite <- bpow_plus. apply bpow_le. lia. }
    rewrite Vx, Vy. split; apply B; assumption.
  - intros a b [Ax Ay] [Bx By].
    assert (K : forall x y, grid e (2 ^ 20) x -> grid e (2 ^ 20) y -> clear_of (val tol) (val x - val y)).
    { intros x y [_ (k & _ & Vk)] [_ (l & _ & Vl)]. unfold clear_of. destruct (Z.eq_dec k l) as [->|N].
      - left. rewrite Vk, Vl, Rminus_diag_eq, Rabs_R0 by reflexivity. lra.
      - right. replace (val x - val y)%R with (IZR (k - l) * bpow radix2 e)%R by (rewrite Vk, Vl, minus_IZR; ring).
        rewrite Rabs_mult, (Rabs_pos_eq (bpow radix2 e)), <- abs_IZR by apply bpow_ge_0.
        assert (1 <= IZR (Z.abs (k - l)))%R by (apply IZR_le; lia). pose proof (bpow_gt_0 radix2 e). nra. }
    split; apply K; assumption.
Qed.

Section Doubles.
  Variable tol : f64.
  Hypothesis Ht : tolerance64 tol.
  Notation PF := (Point F64).
  Notation lt := (pt_ltb (N := F64) tol).
  Notation eqp := (pt_eqb (N := F64) tol).

  Lemma order_doubles P : clustered tol P ->
    strict_weak_order_on P lt /\
    (forall a b, P a -> P b -> (eqp a b = true <-> near64 tol a b) /\ (equivb lt a b = true <-> near64 tol a b)) /\
    (forall a b, P a -> P b -> (lt a b = true <->
       (val (px a) + val tol <= val (px b) \/ Rabs (val (px a) - val (px b)) < val tol /\ val (py a) + val tol <= val (py b))%R)).
  Proof.
    intros C. split; [apply clustered_swo; assumption|]. split.
    - intros a b Pa Pb. split; [apply (EQ_64 tol Ht P C); assumption|].
      rewrite <- (INC_64 tol Ht P C a b Pa Pb). unfold equivb, incomparable. rewrite andb_true_iff, !negb_true_iff. reflexivity.
    - intros a b Pa Pb. rewrite (pt_ltb_clear tol Ht P C a b Pa Pb). apply (pt_ltb_iff (val tol) (Tpos tol Ht)).
  Qed.

  Lemma unique_doubles P : clustered tol P -> forall h : list (set_op PF), (forall o, In o h -> forall x, In x (set_op_elems o) -> P x) ->
    exists u, ul_run lt h = Ok u /\ ul_list u = set_run eqp h /\ apart_by (near64 tol) (ul_list u) /\
      (forall x, P x -> (ul_contains lt u x = true <-> exists y, In y (ul_list u) /\ near64 tol x y)).
  Proof.
    intros C h Hh. destruct (uniquelist_refines_set PF P lt (clustered_swo tol Ht P C) h Hh) as (u & Eu & L & U & Cn & _).
    assert (EV : forall a b, P a -> P b -> equivb lt a b = eqp a b).
    { intros a b Pa Pb. apply (equivb_eqp (N := F64) tol P (near64 tol) (EQ_64 tol Ht P C) (INC_64 tol Ht P C)); assumption. }
    assert (G : forall h l, (forall q, In q l -> P q) -> (forall o, In o h -> forall x, In x (set_op_elems o) -> P x) ->
      fold_left (set_step (equivb lt)) h l = fold_left (set_step eqp) h l /\ forall q, In q (fold_left (set_step (equivb lt)) h l) -> P q).
    { clear - EV.
      assert (SA : forall l x, (forall q, In q l -> P q) -> P x -> set_add (equivb lt) l x = set_add eqp l x /\ forall q, In q (set_add (equivb lt) l x) -> P q).
      { intros l x Hl Px. split.
        - unfold set_add, set_mem. replace (existsb (equivb lt x) l) with (existsb (eqp x) l); [reflexivity|].
          induction l as [|y l IH]; cbn; [reflexivity|]. rewrite IH, EV; [reflexivity|exact Px|apply Hl; now left|intros; apply Hl; now right].
        - intros q. unfold set_add. destruct (set_mem _ _ _); [apply Hl|]. intros K. apply in_app_or in K as [K|[<-|[]]]; auto. }
      induction h as [|o h IH]; intros l Hl Hh; [split; [reflexivity|exact Hl]|]. cbn [fold_left].
      assert (S : set_step (equivb lt) l o = set_step eqp l o /\ forall q, In q (set_step (equivb lt) l o) -> P q).
      { assert (Ho := Hh o (or_introl eq_refl)). clear - Hl Ho SA EV. destruct o as [x|xs| |x]; cbn [set_step set_op_elems] in *.
        - apply SA; [exact Hl|apply Ho; now left].
        - revert l Hl. induction xs as [|x xs IH]; intros l Hl; [split; [reflexivity|exact Hl]|]. cbn [fold_left].
          destruct (SA l x Hl (Ho x (or_introl eq_refl))) as [E S]. rewrite <- E. apply IH; [intros; apply Ho; now right|exact S].
        - split; [reflexivity|intros q []].
        - split; [|intros q K; apply filter_In in K as [K _]; apply Hl, K].
          clear SA. unfold set_remove. induction l as [|y l IH]; [reflexivity|]. cbn [filter].
          rewrite (EV x y), IH; [reflexivity|intros; apply Hl; now right|apply Ho; now left|apply Hl; now left]. }
      destruct S as [E S]. rewrite <- E. apply IH; [exact S|intros o' Ho' x Hx; exact (Hh o' (or_intror Ho') x Hx)]. }
    destruct (G h [] (fun q F => match F with end) Hh) as [G1 G2].
    assert (PL : forall q, In q (ul_list u) -> P q) by (rewrite L; exact G2).
    exists u. split; [exact Eu|]. split; [rewrite L; exact G1|]. split.
    - intros i j a b Ha Hb Hij N. apply Hij, (U i j a b Ha Hb). rewrite EV by (apply PL; eapply nth_error_In; eassumption).
      apply (EQ_64 tol Ht P C); [apply PL; eapply nth_error_In; eassumption|apply PL; eapply nth_error_In; eassumption|exact N].
    - intros x Px. rewrite (Cn x Px). unfold set_mem. rewrite existsb_exists. split; intros (y & Hy & K); exists y; (split; [exact Hy|]).
      + rewrite EV in K by auto. apply (EQ_64 tol Ht P C) in K; auto.
      + rewrite EV by auto. apply (EQ_64 tol Ht P C); auto.
  Qed.

  Lemma pointmap_doubles P : clustered tol P -> forall h : list (pm_op F64), (forall o, In o h -> P (pm_op_point o)) ->
    (forall p, P p -> snd (pm_get (N := F64) tol (pm_run (N := F64) tol h) p) = pm_collected eqp p h) /\
    pm_size (pm_run (N := F64) tol h) = zlen (fold_left (set_add eqp) (map pm_op_point h) []).
  Proof.
    intros C. apply (pointmap_history_on (N := F64) tol P (clustered_swo tol Ht P C)).
    intros a b Pa Pb. apply (equivb_eqp (N := F64) tol P (near64 tol) (EQ_64 tol Ht P C) (INC_64 tol Ht P C)); assumption.
  Qed.

  Lemma pslg_doubles (r : region F64) seeds (restricted : list (pseg F64)) :
    region_made r -> clustered tol (fun q => In q (seeds ++ getRegionPoints r ++ flat_map (fun s : pseg F64 => [fst s; snd s]) restricted)) ->
    exists pl ssegs rsegs vs,
      build_pslg (N := F64) tol r seeds restricted =
        Ok (mkPslg (N := F64) (map xy64 pl) (ssegs ++ rsegs) (map (fun h : hole F64 => xy64 (h_center h)) (rg_holes r))) /\
      apart_by (near64 tol) pl /\ incl pl (seeds ++ getRegionPoints r) /\
      (forall q, In q (seeds ++ getRegionPoints r) -> exists y, In y pl /\ near64 tol y q) /\
      (vs = rg_p r \/ vs = rev (rg_p r)) /\
      Forall2 (denotes_by (near64 tol) pl) ssegs (edges_of vs ++ flat_map (fun h : hole F64 => edges_of (h_points h)) (rg_holes r)) /\
      Forall2 (fun s (e : pseg F64) => index_by (near64 tol) pl (fst e) (fst s) /\ index_by (near64 tol) pl (snd e) (snd s)) rsegs restricted.
  Proof.
    intros HM C. set (P := fun q : PF => In q (seeds ++ getRegionPoints r ++ flat_map (fun s : pseg F64 => [fst s; snd s]) restricted)) in C.
    assert (I1 : forall q, In q (seeds ++ getRegionPoints r) -> P q).
    { intros q H. unfold P. rewrite app_assoc. apply in_or_app. left. exact H. }
    assert (I2 : forall e, In e restricted -> P (fst e) /\ P (snd e)).
    { intros e H. unfold P. rewrite app_assoc. split; apply in_or_app; right; apply in_flat_map; exists e; (split; [exact H|]); cbn; auto. }
    destruct (build_pslg_on (N := F64) tol P (near64 tol) (EQ_64 tol Ht P C) (INC_64 tol Ht P C) r seeds restricted HM) as (pl & ss & rs & vs & E & _ & A & I & K & V & F1 & F2).
    - apply clustered_swo; [exact Ht|]. exact (clustered_sub tol P _ C I1).
    - exact I1.
    - exact I2.
    - exists pl, ss, rs, vs. repeat (split; [assumption|]). assumption.
  Qed.

  Lemma mesh_doubles (o : trout F64) d :
    triangulation (zlen (o_points o)) (map fst (o_edges o)) (o_tris o) -> read_output (N := F64) tol o = Ok d ->
    clustered tol (fun q => In q (map read_point (o_points o))) -> apart_by (near64 tol) (map read_point (o_points o)) ->
    exists m mt, initializeMesh (N := F64) tol (polygon_ctor_idx (N := F64) tol) d = Ok m /\ initializeMesh (N := F64) tol (triangle_ctor (N := F64) tol) d = Ok mt /\
      ul_list (ms_points m) = map read_point (o_points o) /\ ul_list (ms_points mt) = map read_point (o_points o) /\
      map (fun g : polygon F64 => pg_points g) (ms_polygons m) = map corners (o_tris o) /\
      map (fun g : triangle F64 => pg_points (tr_poly g)) (ms_polygons mt) = map corners (o_tris o) /\
      ms_edges m = dl_delaunayEdges d /\ ms_edges mt = dl_delaunayEdges d /\
      forall k q, nth_error (map read_point (o_points o)) k = Some q ->
        snd (pm_get (N := F64) tol (ms_pointMap m) q) = positions (fun t => existsb (Z.eqb (Z.of_nat k)) (corners t)) (o_tris o) 0 /\
        snd (pm_get (N := F64) tol (ms_pointMap mt) q) = positions (fun t => existsb (Z.eqb (Z.of_nat k)) (corners t)) (o_tris o) 0.
  Proof.
    intros T H C. exact (delaunay_mesh_on (N := F64) tol _ (near64 tol) (EQ_64 tol Ht _ C) (INC_64 tol Ht _ C) o d T H (clustered_swo tol Ht _ C) (fun q Hq => Hq)).
  Qed.
  Lemma mesh_any_doubles (o : trout F64) d :
    triangulation (zlen (o_points o)) (map fst (o_edges o)) (o_tris o) -> read_output (N := F64) tol o = Ok d ->
    clustered tol (fun q => In q (map read_point (o_points o))) ->
    (Forall (fun t => spread_by (near64 tol) (map read_point (o_points o)) (corners t)) (o_tris o) ->
     exists m, initializeMesh (N := F64) tol (triangle_ctor (N := F64) tol) d = Ok m /\
       ul_list (ms_points m) = fold_left (set_add eqp) (map read_point (o_points o)) [] /\
       ms_edges m = dl_delaunayEdges d /\
       Forall2 (fun t (g : triangle F64) => Forall2 (fun k i => exists q, nth_error (map read_point (o_points o)) (Z.to_nat k) = Some q /\
           index_by (near64 tol) (ul_list (ms_points m)) q i /\ 0 <= i) (corners t) (pg_points (tr_poly g))) (o_tris o) (ms_polygons m)) /\
    (Exists (fun t => ~ spread_by (near64 tol) (map read_point (o_points o)) (corners t)) (o_tris o) ->
     initializeMesh (N := F64) tol (triangle_ctor (N := F64) tol) d = Err (Throw integrity_msg)).
  Proof.
    intros T H C. exact (delaunay_mesh_any_on (N := F64) tol _ (near64 tol) (EQ_64 tol Ht _ C) (INC_64 tol Ht _ C) o d T H (clustered_swo tol Ht _ C) (fun q Hq => Hq)).
  Qed.
End Doubles.

(** an output with grid coordinates and no flat triangle is read *)
Lemma output_doubles e : -200 <= e <= 200 -> forall (tol : f64) (o : trout F64),
  triangulation (zlen (o_points o)) (map fst (o_edges o)) (o_tris o) -> Forall (grid_point e) (map read_point (o_points o)) ->
  (forall t A B C, In t (o_tris o) -> vertices_are (map read_point (o_points o)) (corners t) [A; B; C] -> orient (xyv A) (xyv B) (xyv C) <> 0%R) ->
  exists d, read_output (N := F64) tol o = Ok d.
Proof.
  intros He tol o T G D. apply read_output_total_on; [exact T|]. intros t A B C Hi V.
  assert (K : forall q, In q [A; B; C] -> grid_point e q).
  { intros q Hq. rewrite Forall_forall in G. apply G. clear - V Hq. induction V as [|k w idx vs [_ H] _ IH]; [destruct Hq|].
    destruct Hq as [<-|Hq]; [eapply nth_error_In; eassumption|auto]. }
  apply (circumcenter_total e He A B C); [apply K; now left|apply K; right; now left|apply K; right; right; now left|]. exact (D t A B C Hi V).
Qed.
