(** The polygon theorems on doubles with grid coordinates. *)
From Coq Require Import Reals Lra Lia Psatz ZArith SpecFloat List Bool Permutation.
From Flocq Require Import Core BinarySingleNaN.
From Verif Require Import Base Spec MUtil MGeom MHull MPolygon MMaps MTriangle Bridge BridgeNum PPoint PSegment PFloat PPoly PPoly2 PContains PHull PTri PGrid PGrid2 PGrid3 PGrid4.
Import ListNotations.
Local Open Scope Z_scope.

Lemma map_xyv vs : map xyv vs = map xy (map real_point vs).
Proof. rewrite map_map. reflexivity. Qed.

Section Grid.
  Variable e : Z.
  Hypothesis He : -200 <= e <= 200.
  Notation gp := (grid_point e).
  Notation PF := (Point F64).

  Lemma rel_ok_r {A B} (Q : A -> B -> Prop) x b : rel Q x (Ok b) -> exists a, x = Ok a /\ Q a b.
  Proof. destruct x; cbn; intros H; [eauto|contradiction]. Qed.

  Lemma area_grid (p : list PF) idx vs : vertices_are p idx vs -> Forall gp vs -> (length vs <= 1024)%nat ->
    (exists a, geo_area (N := F64) p idx = Ok a /\ fin a /\ val a = shoelace (map xyv vs)) /\
    (exists a, signedArea (N := F64) p idx = Ok a /\ fin a /\ val a = shoelace (map xyv vs)) /\
    (forall g : polygon F64, pg_points g = idx -> pg_area g = @nZ F64 (-1) ->
       exists g' a, getArea (N := F64) g p = Ok (g', a) /\ fin a /\ val a = shoelace (map xyv vs) /\ pg_area g' = a).
  Proof.
    intros V G L. pose proof (on_grid_vertices e p idx vs V G) as OG. pose proof (vertices_length _ _ _ V) as VL. rewrite VL in L.
    destruct (area_functions_agree _ _ _ (vertices_real _ _ _ V)) as (A1 & _ & A2 & _). rewrite <- map_xyv in A1, A2.
    pose proof (geo_area_rel e He p idx OG L) as R1. rewrite A1 in R1. apply rel_ok_r in R1 as (a1 & E1 & [G1 V1]).
    pose proof (signedArea_rel e He p idx OG L) as R2. rewrite A2 in R2. apply rel_ok_r in R2 as (a2 & E2 & [G2 V2]).
    split; [|split].
    - exists a1. split; [exact E1|]. split; [eapply grid_fin; exact G1|exact V1].
    - exists a2. split; [exact E2|]. split; [eapply grid_fin; exact G2|exact V2].
    - intros g <- Ha. unfold getArea. rewrite Ha. change (neqb (@nZ F64 (-1)) (@nZ F64 (-1))) with true. cbv iota. unfold calculateArea. rewrite E1. cbn [bind].
      eexists _, a1. split; [reflexivity|]. split; [eapply grid_fin; exact G1|]. split; [exact V1|reflexivity].
  Qed.
  Lemma clockwise_grid (p : list PF) idx vs : vertices_are p idx vs -> Forall gp vs -> (1 <= length vs <= 1024)%nat ->
    exists b, isClockwise (N := F64) idx p = Ok b /\ (b = true <-> (shoelace (map xyv vs) < 0)%R).
  Proof.
    intros V G L. pose proof (on_grid_vertices e p idx vs V G) as OG. pose proof (vertices_length _ _ _ V) as VL.
    rewrite (isClockwise_eq e He p idx OG) by lia. rewrite map_xyv. apply isClockwise_iff; [apply vertices_real, V|].
    destruct idx; [cbn in VL; lia|discriminate].
  Qed.
  Lemma fixCCW_grid (g : polygon F64) p vs : vertices_are p (pg_points g) vs -> Forall gp vs -> (1 <= length vs <= 1024)%nat ->
    exists g', fixCCW (N := F64) g p = Ok g' /\
      ((shoelace (map xyv vs) < 0)%R /\ pg_points g' = rev (pg_points g) \/ (0 <= shoelace (map xyv vs))%R /\ g' = g) /\
      isClockwise (N := F64) (pg_points g') p = Ok false /\ fixCCW (N := F64) g' p = Ok g' /\
      (pg_area g = @nZ F64 (-1) -> exists g'' a, getArea (N := F64) g' p = Ok (g'', a) /\ fin a /\ val a = Rabs (shoelace (map xyv vs))).
  Proof.
    intros V G L. destruct (clockwise_grid p _ vs V G L) as (b & E & Hb).
    assert (W : forall g' vs', vertices_are p (pg_points g') vs' -> Forall gp vs' -> length vs' = length vs -> (0 <= shoelace (map xyv vs'))%R ->
      isClockwise (N := F64) (pg_points g') p = Ok false /\ fixCCW (N := F64) g' p = Ok g').
    { intros g' vs' V' G' L' S. destruct (clockwise_grid p _ vs' V' G' ltac:(lia)) as (b' & E' & Hb').
      assert (b' = false) by (destruct b'; [exfalso; pose proof (proj1 Hb' eq_refl); lra|reflexivity]). subst b'.
      split; [exact E'|]. unfold fixCCW. rewrite E'. reflexivity. }
    unfold fixCCW at 1. rewrite E. cbn [bind]. destruct b.
    - pose proof (proj1 Hb eq_refl) as S. eexists. split; [reflexivity|]. split; [left; split; [exact S|reflexivity]|].
      assert (GR : Forall gp (rev vs)) by (apply Forall_rev; exact G).
      assert (SR : (shoelace (map xyv (rev vs)) = - shoelace (map xyv vs))%R) by (rewrite map_rev; apply shoelace_rev).
      destruct (W (mkPoly (N := F64) (rev (pg_points g)) (pg_diam g) (nZ (-1)) (pg_cen g) (pg_hash g)) (rev vs)) as [W1 W2];
        [apply vertices_rev, V|exact GR|apply rev_length|lra|].
      split; [exact W1|]. split; [exact W2|]. intros _.
      destruct (area_grid p _ _ (vertices_rev _ _ _ V) GR) as (_ & _ & A); [rewrite rev_length; lia|].
      destruct (A (mkPoly (N := F64) (rev (pg_points g)) (pg_diam g) (nZ (-1)) (pg_cen g) (pg_hash g)) eq_refl eq_refl) as (g'' & a & Ea & Fa & Va & _).
      exists g'', a. split; [exact Ea|]. split; [exact Fa|]. rewrite Va, SR, Rabs_left by assumption. reflexivity.
    - assert (S : (0 <= shoelace (map xyv vs))%R).
      { apply Rnot_lt_le. intros H. apply Hb in H. discriminate. }
      exists g. split; [reflexivity|]. split; [right; split; [exact S|reflexivity]|]. destruct (W g vs V G eq_refl S) as [W1 W2].
      split; [exact W1|]. split; [exact W2|]. intros Ha.
      destruct (area_grid p _ _ V G) as (_ & _ & A); [lia|]. destruct (A g eq_refl Ha) as (g'' & a & Ea & Fa & Va & _).
      exists g'', a. split; [exact Ea|]. split; [exact Fa|]. rewrite Va, Rabs_pos_eq by assumption. reflexivity.
  Qed.
  Lemma convex_grid (p : list PF) idx vs : vertices_are p idx vs -> Forall gp vs -> (3 <= length idx)%nat ->
    let turn := turn_at (map xyv vs) in let n := length vs in
    exists b, isConvex (N := F64) idx p = Ok b /\
      ((forall i, (i < n)%nat -> 0 <= turn i)%R \/ (forall i, (i < n)%nat -> turn i <= 0)%R -> b = true) /\
      (turn 0%nat <> 0%R -> (b = false <-> exists i, (i < n)%nat /\ (turn 0%nat * turn i < 0)%R)) /\
      (turn 0%nat = 0%R -> b = true) /\ (n = 3%nat -> b = true).
  Proof.
    intros V G L. cbv zeta. rewrite (isConvex_eq e He p idx (on_grid_vertices e p idx vs V G)). rewrite map_xyv.
    pose proof (isConvex_correct _ _ _ (vertices_real _ _ _ V) L) as H. cbv zeta in H. rewrite map_length in H. exact H.
  Qed.
  Lemma hull_grid (pts : list PF) : Forall gp pts -> pts <> [] ->
    let (u, l) := convexHull (N := F64) pts in
    hull_chain 1 (map xyv pts) (map xyv u) /\ hull_chain (-1) (map xyv pts) (map xyv l) /\ incl u pts /\ incl l pts.
  Proof.
    intros G NE. destruct (convexHull_grid e He pts G) as (E1 & E2 & _). pose proof (convexHull_correct (map real_point pts)) as H.
    assert (I : forall f, (forall x st, incl (f x st) st) -> incl (chain (N := F64) f (hull_sort (N := F64) pts)) pts).
    { intros f Hf x Hx. apply (pop_incl f _ Hf) in Hx. revert Hx. unfold hull_sort.
      assert (P : forall l acc, Permutation (fold_left (fun acc a => hull_ins (N := F64) a acc) l acc) (l ++ acc)).
      { assert (IP : forall a l, Permutation (hull_ins (N := F64) a l) (a :: l)).
        { intros a l. induction l as [|b l IH]; [apply Permutation_refl|]. cbn [hull_ins]. destruct (hull_ltb a b); [apply Permutation_refl|].
          eapply perm_trans; [apply perm_skip, IH|apply perm_swap]. }
        induction l as [|a l IH]; intros acc; [apply Permutation_refl|]. cbn [fold_left app]. eapply perm_trans; [apply IH|].
        eapply perm_trans; [apply Permutation_app_head, IP|]. apply Permutation_sym, Permutation_middle. }
      intros Hx. apply (Permutation_in _ (P pts [])) in Hx. rewrite app_nil_r in Hx. exact Hx. }
    pose proof (I _ pop_upper_incl) as I1. pose proof (I _ pop_lower_incl) as I2.
    unfold convexHull in *. cbn [fst snd] in *. cbv zeta in H. rewrite <- E1, <- E2, <- !map_xyv in H.
    destruct H as (H1 & H2 & _); [destruct pts; [congruence|discriminate]|]. auto.
  Qed.
  Lemma hull_extreme_grid (pts : list PF) (d q : pt) : Forall gp pts -> In q (map xyv pts) ->
    (forall r, In r (map xyv pts) -> r <> q -> (vdot d r < vdot d q)%R) ->
    ((0 < snd d)%R -> In q (map xyv (fst (convexHull (N := F64) pts)))) /\ ((snd d < 0)%R -> In q (map xyv (snd (convexHull (N := F64) pts)))).
  Proof.
    intros G. destruct (convexHull_grid e He pts G) as (E1 & E2 & _). rewrite !map_xyv, E1, E2. apply hull_extreme.
  Qed.
  Lemma diameter_doubles (g : polygon F64) p vs : vertices_are p (pg_points g) vs -> Forall gp vs -> nltb (pg_diam g) (@nZ F64 0) = true -> (2 <= length vs)%nat ->
    exists g' d D, getDiameter (N := F64) g p = Ok (g', d) /\ fin d /\ is_diameter (map xyv vs) D /\ val d = nearest D /\
      forall p', getDiameter (N := F64) g' p' = Ok (g', d).
  Proof. rewrite map_xyv. apply getDiameter_grid. exact He. Qed.

  Section Tol.
    Variable tol : f64.
    Hypothesis Ft : fin tol.
    Hypothesis Tpos : (0 < val tol)%R.
    Lemma contains_doubles (p : list PF) idx (q : PF) vs : vertices_are p idx vs -> Forall gp vs -> gp q -> no_short_edge (val tol) (map xyv vs) ->
      exists b, containsPoint (N := F64) tol idx p q = Ok b /\
        (b = true <-> even_odd (xyv q) (map xyv vs) = true \/ near_border (val tol) (xyv q) (map xyv vs)).
    Proof.
      intros V G Q NS. rewrite map_xyv in *. rewrite (contains_grid e He tol Ft Tpos p idx q vs V G Q NS).
      apply contains_char; [exact Tpos|apply vertices_real, V|exact NS].
    Qed.
    Lemma contains_border_doubles (p : list PF) idx (q : PF) vs : vertices_are p idx vs -> Forall gp vs -> gp q -> on_border (xyv q) (map xyv vs) ->
      containsPoint (N := F64) tol idx p q = Ok true.
    Proof.
      intros V G Q (a & b & Hab & S). rewrite (containsPoint_walk (N := F64) tol idx p q vs q V). rewrite (existsb_border e He tol Ft) by assumption.
      rewrite edges_of_map in Hab. apply in_map_iff in Hab as ([a' b'] & E & Hab). injection E as <- <-.
      rewrite (border_found tol Tpos q vs a' b'); [now rewrite orb_true_r|now left|exact S].
    Qed.
    Lemma contains_convex_doubles (p : list PF) idx (q : PF) vs : vertices_are p idx vs -> Forall gp vs -> gp q ->
      no_short_edge (val tol) (map xyv vs) -> strictly_convex (map xyv vs) ->
      ((forall a b, In (a, b) (edges_of (map xyv vs)) -> (0 < orient a b (xyv q))%R) -> containsPoint (N := F64) tol idx p q = Ok true) /\
      ((exists a b, In (a, b) (edges_of (map xyv vs)) /\ (orient a b (xyv q) < 0)%R) ->
       exists b, containsPoint (N := F64) tol idx p q = Ok b /\ (b = true <-> near_border (val tol) (xyv q) (map xyv vs))).
    Proof.
      intros V G Q NS. rewrite map_xyv in *. rewrite (contains_grid e He tol Ft Tpos p idx q vs V G Q NS).
      intros SC. apply (contains_convex (val tol) idx (map real_point p) (real_point q) (map real_point vs)); [exact Tpos|apply vertices_real, V|exact NS|exact SC].
    Qed.

    Lemma rel_mapM2 {A B C D} (Q : A -> B -> Prop) (S : C -> D -> Prop) f g l m : Forall2 Q l m ->
      (forall a b, In a l -> Q a b -> rel S (f a) (g b)) -> rel (Forall2 S) (mapM f l) (mapM g m).
    Proof.
      intros F. induction F as [|a b l m H F IH]; intros K; [constructor|]. cbn [mapM]. apply (rel_bind S); [apply K; [now left|exact H]|]. intros c d Hcd.
      apply (rel_bind (Forall2 S)); [apply IH; intros; apply K; [now right|assumption]|]. intros; cbn; now constructor.
    Qed.
    Lemma Forall2_val E n l m : Forall2 (exactly E n) l m -> map val l = m /\ Forall fin l.
    Proof. induction 1 as [|a r l m [G V] _ [IH1 IH2]]; [split; constructor|]. cbn. subst. split; [reflexivity|]. constructor; [eapply grid_fin; exact G|assumption]. Qed.
    Lemma Forall2_In_l {A B} (Q : A -> B -> Prop) l m a : Forall2 Q l m -> In a l -> exists b, In b m /\ Q a b.
    Proof. intros F. induction F as [|x y l m H F IH]; intros K; [destruct K|]. destruct K as [<-|K]; [exists y; split; [now left|exact H]|]. destruct (IH K) as (b & B1 & B2). exists b. split; [now right|exact B2]. Qed.
    Lemma ears_doubles (p : list PF) idx vs : vertices_are p idx vs -> Forall gp vs -> (length vs <= 1024)%nat ->
      exists ts rest areas ra a, ear_triangulate (N := F64) tol idx p = Ok ts /\
        ear_loop (N := F64) (length idx) tol p idx = Ok (ts, rest) /\ incl rest idx /\
        (forall t, In t ts -> exists i j k, pg_points (tr_poly t) = [i; j; k] /\ incl [i; j; k] idx /\ (NoDup idx -> NoDup [i; j; k])) /\
        mapM (fun t : triangle F64 => geo_area (N := F64) p (pg_points (tr_poly t))) ts = Ok areas /\
        geo_area (N := F64) p rest = Ok ra /\ geo_area (N := F64) p idx = Ok a /\
        Forall fin (a :: ra :: areas) /\ val a = shoelace (map xyv vs) /\
        (sumR (map val areas) + val ra)%R = val a /\ (length ts <= length idx - 2)%nat /\
        ((length rest < 3)%nat -> length ts = (length idx - 2)%nat /\ sumR (map val areas) = val a) /\
        ((3 <= length rest)%nat -> (length ts + length rest = length idx)%nat).
    Proof.
      intros V G L. pose proof (on_grid_vertices e p idx vs V G) as OG. pose proof (vertices_length _ _ _ V) as VL.
      assert (IR : in_range p idx) by (apply vertices_exist; eauto).
      destruct (ear_triangulation_correct (val tol) (map real_point p) idx (proj1 (in_range_map p idx) IR))
        as (ts' & rest & areas' & ra' & a' & _ & E & I & T & MA & RA & A & S1 & S2 & S3 & S4).
      pose proof (ear_loop_rel e He tol Ft Tpos p (length idx) idx IR OG) as K. rewrite E in K. apply rel_ok_r in K as ([ts rest'] & E' & F & Er).
      cbn [fst snd] in F, Er. subst rest'.
      assert (T' : forall t, In t ts -> exists i j k, pg_points (tr_poly t) = [i; j; k] /\ incl [i; j; k] idx /\ (NoDup idx -> NoDup [i; j; k])).
      { intros t Ht. destruct (Forall2_In_l _ _ _ _ F Ht) as (t' & Ht' & R). destruct (T t' Ht') as (i & j & k & X). exists i, j, k. rewrite R. exact X. }
      assert (K1 : rel (Forall2 (exactly (2 * e - 1) (2 ^ 53))) (mapM (fun t : triangle F64 => geo_area (N := F64) p (pg_points (tr_poly t))) ts)
                 (mapM (fun t : triangle RNum => geo_area (N := RNum) (map real_point p) (pg_points (tr_poly t))) ts')).
      { apply (rel_mapM2 rtri); [exact F|]. intros t t' Ht R. destruct (T' t Ht) as (i & j & k & X & Y & _). rewrite <- R, X.
        apply geo_area_rel; [exact He|eapply on_grid_incl; eassumption|cbn; lia]. }
      rewrite MA in K1. apply rel_ok_r in K1 as (areas & EA & FA). apply Forall2_val in FA as [FA1 FA2].
      assert (LR : (length rest <= 1024)%nat).
      { destruct (Nat.lt_ge_cases (length rest) 3) as [H|H]; [lia|]. specialize (S4 H). lia. }
      pose proof (geo_area_rel e He p rest (on_grid_incl e p idx rest I OG) LR) as K2. rewrite RA in K2. apply rel_ok_r in K2 as (ra & ER & [GR VR]).
      pose proof (geo_area_rel e He p idx OG ltac:(lia)) as K3. rewrite A in K3. apply rel_ok_r in K3 as (a & EE & [GA VA]).
      exists ts, rest, areas, ra, a. split; [unfold ear_triangulate; rewrite E'; reflexivity|]. split; [exact E'|]. split; [exact I|]. split; [exact T'|].
      split; [exact EA|]. split; [exact ER|]. split; [exact EE|]. split; [repeat (apply Forall_cons; [eapply grid_fin; eassumption|]); exact FA2|].
      assert (SH : val a = shoelace (map xyv vs)).
      { rewrite VA. destruct (area_functions_agree _ _ _ (vertices_real _ _ _ V)) as (A1 & _). rewrite A in A1. injection A1 as ->. now rewrite map_xyv. }
      split; [exact SH|]. rewrite FA1, VR, VA. assert (LT : length ts = length ts') by (clear - F; induction F; cbn; congruence). rewrite LT.
      split; [exact S1|]. split; [exact S2|]. split; [exact S3|exact S4].
    Qed.
  End Tol.
End Grid.
