(** Polygon computations on grid coordinates: doubles against reals. *)
From Coq Require Import Reals Lra Lia Psatz ZArith SpecFloat List Bool Permutation.
From Flocq Require Import Core BinarySingleNaN.
From Verif Require Import Base Spec MUtil MGeom MHull MPolygon MMaps MTriangle Bridge BridgeNum PPoint PFloat PPoly PPoly2 PContains PGrid.
Import ListNotations.
Local Open Scope Z_scope.

(** * Related outcomes *)
Definition rel {A B} (Q : A -> B -> Prop) (x : res A) (y : res B) : Prop :=
  match x, y with Ok a, Ok b => Q a b | Err e, Err f => e = f | _, _ => False end.

Lemma rel_ok {A B} (Q : A -> B -> Prop) a b : Q a b -> rel Q (Ok a) (Ok b).
Proof. intros H; exact H. Qed.
Lemma rel_bind {A B C D} (Q : A -> B -> Prop) (S : C -> D -> Prop) x y f g :
  rel Q x y -> (forall a b, Q a b -> rel S (f a) (g b)) -> rel S (bind x f) (bind y g).
Proof. destruct x, y; cbn; intros H K; try contradiction; [now apply K|exact H]. Qed.
Lemma rel_weaken {A B} (Q S : A -> B -> Prop) x y : rel Q x y -> (forall a b, Q a b -> S a b) -> rel S x y.
Proof. destruct x, y; cbn; auto. Qed.
Lemma rel_eq {A} (x y : res A) : rel eq x y <-> x = y.
Proof. destruct x, y; cbn; split; intros H; try contradiction; congruence. Qed.
Lemma rel_refl {A} (x : res A) : rel eq x x.
Proof. now apply rel_eq. Qed.
Lemma rel_foldM {A B C} (Q : B -> C -> Prop) (f : B -> A -> res B) g l b c :
  (forall a b c, In a l -> Q b c -> rel Q (f b a) (g c a)) -> Q b c -> rel Q (foldM f l b) (foldM g l c).
Proof.
  revert b c. induction l as [|a l IH]; intros b c H K; cbn; [exact K|].
  apply (rel_bind Q); [apply H; [now left|exact K]|]. intros b' c' K'. apply IH; [|exact K']. intros; apply H; [now right|assumption].
Qed.
Lemma rel_existsM {A} f g (l : list A) : (forall a, In a l -> f a = g a) -> existsM f l = existsM g l.
Proof. intros H. now apply existsM_ext. Qed.
Lemma rel_mapM {A B C} (Q : B -> C -> Prop) (f : A -> res B) g l :
  (forall a, In a l -> rel Q (f a) (g a)) -> rel (Forall2 Q) (mapM f l) (mapM g l).
Proof.
  induction l as [|a l IH]; intros H; cbn; [constructor|]. apply (rel_bind Q); [apply H; now left|]. intros b c K.
  apply (rel_bind (Forall2 Q)); [apply IH; intros; apply H; now right|]. intros bs cs K'. cbn. now constructor.
Qed.

(** A sum of terms on a grid is exact. *)
Lemma rel_sum {A} E b (f : f64 -> A -> res f64) (g : R -> A -> res R) l m a r :
  0 <= b -> okexp E ->
  (forall i m a r, In i l -> grid E m a -> val a = r -> m + b <= 2 ^ 53 -> rel (fun a r => grid E (m + b) a /\ val a = r) (f a i) (g r i)) ->
  grid E m a -> val a = r -> m + b * Z.of_nat (length l) <= 2 ^ 53 ->
  rel (fun a r => grid E (m + b * Z.of_nat (length l)) a /\ val a = r) (foldM f l a) (foldM g l r).
Proof.
  intros Hb HE. revert m a r. induction l as [|i l IH]; intros m a r H G V M.
  - cbn. split; [|exact V]. eapply grid_mono; [|exact G]. lia.
  - cbn [foldM]. cbn [length] in M. rewrite Nat2Z.inj_succ in M.
    apply (rel_bind (fun a r => grid E (m + b) a /\ val a = r)).
    + apply H; [now left|exact G|exact V|nia].
    + intros a' r' [G' V']. cbn [length]. rewrite Nat2Z.inj_succ. replace (m + b * Z.succ (Z.of_nat (length l))) with (m + b + b * Z.of_nat (length l)) by ring.
      apply IH; [|exact G'|exact V'|lia]. intros; apply H; [now right|assumption..].
Qed.

Section Grid.
  Variable e : Z.
  Hypothesis He : -200 <= e <= 200.
  Notation gp := (grid_point e).
  Notation PF := (Point F64).
  Ltac ex := unfold okexp in *; lia.
  Definition rpt (a : PF) (b : Point RNum) : Prop := gp a /\ b = real_point a.

  Lemma vgetn_map {A B} (f : A -> B) l i : vgetn (map f l) i = match vgetn l i with Ok a => Ok (f a) | Err x => Err x end.
  Proof. unfold vgetn. rewrite nth_error_map. destruct (nth_error l i); reflexivity. Qed.
  Lemma vget_map {A B} (f : A -> B) l k : vget (map f l) k = match vget l k with Ok a => Ok (f a) | Err x => Err x end.
  Proof. unfold vget. destruct (k <? 0); [reflexivity|apply vgetn_map]. Qed.

  (** The points named by the index list are on the grid. *)
  Definition on_grid (p : list PF) (idx : list Z) : Prop := forall k q, In k idx -> vget p k = Ok q -> gp q.
  Lemma on_grid_incl p i1 i2 : incl i2 i1 -> on_grid p i1 -> on_grid p i2.
  Proof. intros I H k q K. apply H, I, K. Qed.
  Lemma on_grid_vertices p idx vs : vertices_are p idx vs -> Forall gp vs -> on_grid p idx.
  Proof.
    unfold vertices_are. intros V F k q K E. apply vget_ok in E. destruct E as [E0 E]. revert F. induction V as [|k' v' idx' vs' [H1 H2] V IH]; intros F; [destruct K|].
    inversion F; subst. destruct K as [->|K]; [|auto]. rewrite E in H2. injection H2 as ->. assumption.
  Qed.

  Variable p : list PF.
  Notation P := (map real_point p).

  Lemma vget_rel idx k : on_grid p idx -> In k idx -> rel rpt (vget p k) (vget P k).
  Proof.
    intros G K. rewrite vget_map. destruct (vget p k) eqn:E; cbn; [|reflexivity]. split; [|reflexivity]. eapply G; eassumption.
  Qed.
  Lemma vpt_rel idx i : on_grid p idx -> rel rpt (vpt p idx i) (vpt P idx i).
  Proof.
    intros G. unfold vpt. unfold vgetn at 1 2. destruct (nth_error idx i) eqn:E; cbn; [|reflexivity]. eapply vget_rel; [exact G|].
    eapply nth_error_In; eassumption.
  Qed.

  (** * Areas and orientation of the outline *)
  Definition exactly (E n : Z) (a : f64) (r : R) : Prop := grid E n a /\ val a = r.

  Lemma geo_area_rel idx : on_grid p idx -> (length idx <= 1024)%nat ->
    rel (exactly (2 * e - 1) (2 ^ 53)) (geo_area (N := F64) p idx) (geo_area (N := RNum) P idx).
  Proof.
    intros G L. unfold geo_area. eapply rel_weaken.
    - apply (rel_sum (2 * e - 1) (2 ^ 43)) with (m := 0).
      + lia.
      + ex.
      + intros i m a r Hi Ga Va M. eapply rel_bind; [apply vpt_rel, G|]. intros x1 y1 [G1 ->].
        eapply rel_bind; [apply vpt_rel, G|]. intros x2 y2 [G2 ->]. eapply rel_bind; [apply vpt_rel, G|]. intros x3 y3 [G3 ->].
        destruct (triangleArea_grid e He _ _ _ G1 G2 G3) as [T V]. destruct (grid_add _ _ _ _ _ Ga T M) as [H1 H2]; [ex|].
        split; [exact H1|]. rewrite H2, Va, V. reflexivity.
      + apply grid_zero.
      + apply (proj2 (grid_zero (2 * e - 1))).
      + rewrite seq_length. lia.
    - intros a b [H1 H2]. split; [|exact H2]. eapply grid_mono; [|exact H1]. rewrite seq_length. lia.
  Qed.
  Lemma signedArea_rel idx : on_grid p idx -> (length idx <= 1024)%nat ->
    rel (exactly (2 * e - 1) (2 ^ 53)) (signedArea (N := F64) p idx) (signedArea (N := RNum) P idx).
  Proof.
    intros G L. unfold signedArea. eapply (rel_bind (exactly (2 * e) (2 ^ 51))).
    - eapply rel_weaken.
      + apply (rel_sum (2 * e) (2 ^ 41)) with (m := 0).
        * lia.
        * ex.
        * intros i m a r Hi Ga Va M. eapply rel_bind; [apply vpt_rel, G|]. intros x1 y1 [G1 ->].
          eapply rel_bind; [apply vpt_rel, G|]. intros x2 y2 [G2 ->]. destruct G1 as [G1x G1y], G2 as [G2x G2y].
          destruct (grid_mul e e (2 ^ 20) (2 ^ 20) _ _ G1x G2y) as [A1 B1]; [lia|ex|].
          destruct (grid_mul e e (2 ^ 20) (2 ^ 20) _ _ G2x G1y) as [A2 B2]; [lia|ex|].
          replace (e + e) with (2 * e) in * by lia.
          destruct (grid_sub _ _ _ _ _ A1 A2) as [A3 B3]; [lia|ex|].
          destruct (grid_add _ _ _ _ _ Ga A3) as [A4 B4]; [lia|ex|].
          split; [exact A4|]. rewrite B4, B3, B2, B1, Va. reflexivity.
        * apply grid_zero.
        * apply (proj2 (grid_zero (2 * e))).
        * rewrite seq_length. lia.
      + intros a b [H1 H2]. split; [|exact H2]. eapply grid_mono; [|exact H1]. rewrite seq_length. lia.
    - intros a r [Ga Va]. destruct (grid_int 1) as [G1 V1]; [lia|]. destruct (grid_half 0 1 _ G1) as [G2 V2]; [lia|ex|].
      destruct (grid_mul _ _ _ _ _ _ G2 Ga) as [A B]; [lia|ex|]. split.
      + replace (2 * e - 1) with (0 - 1 + 2 * e) by ring. eapply grid_mono; [|exact A]. lia.
      + rewrite B, V2, V1, Va. reflexivity.
  Qed.
  Lemma Rltb_val E n a (r : R) : exactly E n a r -> @nltb F64 (@nZ F64 0) a = Rltb 0 r /\ @nltb F64 a (@nZ F64 0) = Rltb r 0.
  Proof.
    intros [G <-]. destruct (grid_zero 0) as [Z0 V0]. rewrite !ltb_correct by (eapply grid_fin; eassumption). rewrite V0. split; reflexivity.
  Qed.
  Lemma isClockwise_eq idx : on_grid p idx -> (length idx <= 1024)%nat ->
    isClockwise (N := F64) idx p = isClockwise (N := RNum) idx P.
  Proof.
    intros G L. apply rel_eq. unfold isClockwise. eapply rel_bind; [apply vpt_rel, G|]. intros x0 y0 [G0 ->].
    eapply rel_bind; [apply vpt_rel, G|]. intros xn yn [Gn ->].
    assert (T : forall a b : PF, gp a -> gp b -> grid (2 * e) (2 ^ 42) (@nmul F64 (@nsub F64 (px b) (px a)) (@nadd F64 (py b) (py a))) /\
       val (@nmul F64 (@nsub F64 (px b) (px a)) (@nadd F64 (py b) (py a))) = ((val (px b) - val (px a)) * (val (py b) + val (py a)))%R).
    { intros a b [Ax Ay] [Bx By]. destruct (sub_coord e He _ _ Bx Ax) as [A1 B1]. destruct (add_coord e He _ _ By Ay) as [A2 B2].
      destruct (mul_diff e He _ _ A1 A2) as [A B]. split; [exact A|]. rewrite B, B1, B2. reflexivity. }
    eapply (rel_bind (exactly (2 * e) (2 ^ 53))).
    - eapply rel_weaken.
      + apply (rel_sum (2 * e) (2 ^ 42)) with (m := 2 ^ 42).
        * lia.
        * ex.
        * intros i m a r Hi Ga Va M. eapply rel_bind; [apply vpt_rel, G|]. intros x1 y1 [G1 ->].
          eapply rel_bind; [apply vpt_rel, G|]. intros x2 y2 [G2 ->]. destruct (T _ _ G2 G1) as [A B].
          destruct (grid_add _ _ _ _ _ Ga A M) as [A4 B4]; [ex|]. split; [exact A4|]. rewrite B4, B, Va. reflexivity.
        * apply (T _ _ Gn G0).
        * apply (T _ _ Gn G0).
        * rewrite seq_length. lia.
      + intros a b [H1 H2]. split; [|exact H2]. eapply grid_mono; [|exact H1]. rewrite seq_length. lia.
    - intros a r Ha. destruct (Rltb_val _ _ _ _ Ha) as [H _]. cbn. f_equal. exact H.
  Qed.

  (** * The convexity test *)
  Lemma rnd_le x y : (x <= y)%R -> (rnd x <= rnd y)%R.
  Proof. apply round_le; auto with typeclass_instances. Qed.
  Lemma rnd_0 : rnd 0 = 0%R.
  Proof. apply round_0; auto with typeclass_instances. Qed.
  Lemma sign_of_product E x y : -400 <= E <= 400 -> grid E (2 ^ 43) x -> grid E (2 ^ 43) y ->
    @nltb F64 (@nmul F64 x y) (@nZ F64 0) = Rltb (val x * val y) 0.
  Proof.
    intros HE [Fx (k & Hk & Vx)] [Fy (l & Hl & Vy)].
    assert (V : (val x * val y = IZR (k * l) * bpow radix2 (2 * E))%R).
    { rewrite Vx, Vy, mult_IZR. replace (2 * E) with (E + E) by ring. rewrite bpow_plus. ring. }
    assert (K : Z.abs (k * l) <= 2 ^ 86) by (rewrite Z.abs_mul; change (2 ^ 86) with (2 ^ 43 * 2 ^ 43); apply Z.mul_le_mono_nonneg; lia).
    assert (B : (Rabs (rnd (val x * val y)) <= bpow radix2 (86 + 2 * E))%R).
    { apply abs_round_le_generic; auto with typeclass_instances.
      - apply generic_format_bpow. unfold fexp64, SpecFloat.fexp, SpecFloat.emin. lia.
      - rewrite V, Rabs_mult, (Rabs_pos_eq (bpow radix2 (2 * E))) by apply bpow_ge_0. rewrite bpow_plus. apply Rmult_le_compat_r; [apply bpow_ge_0|].
        rewrite <- abs_IZR. change (bpow radix2 86) with (IZR (2 ^ 86)). apply IZR_le. exact K. }
    destruct (mul_correct x y Fx Fy) as [F W].
    { eapply Rle_lt_trans; [exact B|]. apply bpow_lt. lia. }
    destruct (grid_zero 0) as [[Z0 _] V0]. rewrite ltb_correct by assumption. rewrite W, V0.
    unfold Rltb. destruct (Rlt_dec (val x * val y) 0) as [H|H], (Rlt_dec (rnd (val x * val y)) 0) as [H'|H']; try reflexivity; exfalso.
    - apply H'. apply Rle_lt_trans with (- bpow radix2 (2 * E))%R.
      + rewrite <- (round_generic radix2 fexp64 ZnearestE (- bpow radix2 (2 * E))).
        * apply rnd_le. rewrite V. rewrite V in H.
          assert (k * l < 0). { apply lt_IZR. apply Rmult_lt_reg_r with (bpow radix2 (2 * E)); [apply bpow_gt_0|]. lra. }
          assert (IZR (k * l) <= -1)%R by (apply IZR_le; lia). pose proof (bpow_gt_0 radix2 (2 * E)). nra.
        * apply generic_format_opp, generic_format_bpow. unfold fexp64, SpecFloat.fexp, SpecFloat.emin. lia.
      + pose proof (bpow_gt_0 radix2 (2 * E)). lra.
    - apply Rnot_lt_le in H. apply rnd_le in H. rewrite rnd_0 in H. lra.
  Qed.
  Lemma isConvex_eq idx : on_grid p idx -> isConvex (N := F64) idx p = isConvex (N := RNum) idx P.
  Proof.
    intros G. apply rel_eq. unfold isConvex. eapply rel_bind; [apply vpt_rel, G|]. intros a ? [Ga ->].
    eapply rel_bind; [apply vpt_rel, G|]. intros b ? [Gb ->]. eapply rel_bind; [apply vpt_rel, G|]. intros c ? [Gc ->].
    apply (rel_bind eq).
    - apply rel_eq. apply existsM_ext. intros i _. apply rel_eq. eapply rel_bind; [apply vpt_rel, G|]. intros x ? [Gx ->].
      eapply rel_bind; [apply vpt_rel, G|]. intros y ? [Gy ->]. eapply rel_bind; [apply vpt_rel, G|]. intros z ? [Gz ->].
      destruct (orientation_grid e He _ _ _ Ga Gb Gc) as [G1 V1]. destruct (orientation_grid e He _ _ _ Gx Gy Gz) as [G2 V2].
      cbn [rel]. rewrite (sign_of_product (2 * e)) by (assumption || lia). rewrite V1, V2. reflexivity.
    - intros x y ->. reflexivity.
  Qed.

  (** * Borders *)
  Section Tol.
    Variable tol : f64.
    Hypothesis Ft : fin tol.
    Lemma containerEdge_eq idx (q : PF) : on_grid p idx -> gp q ->
      containerEdge (N := F64) tol idx p q = containerEdge (N := RNum) (val tol) idx P (real_point q).
    Proof.
      intros G Q. unfold containerEdge. rewrite getSegments_edges. cbn [bind app].
      assert (K : forall s, In s (edges_of idx) -> In (fst s) idx /\ In (snd s) idx).
      { intros [a b] H. now apply edge_in in H. }
      revert K. generalize (edges_of idx). intros l K. induction l as [|s l IH]; [reflexivity|].
      cbn [bind]. destruct (K s (or_introl eq_refl)) as [K1 K2].
      assert (E : iseg_contains (N := F64) tol p s q = iseg_contains (N := RNum) (val tol) P s (real_point q)).
      { apply rel_eq. unfold iseg_contains. eapply rel_bind; [eapply vget_rel; eassumption|]. intros a ? [Ga ->].
        eapply rel_bind; [eapply vget_rel; eassumption|]. intros b ? [Gb ->]. cbn [rel]. apply seg_contains_grid with (e := e); assumption. }
      rewrite E. clear E. destruct (iseg_contains (N := RNum) (val tol) P s (real_point q)) as [[|]|]; cbn [bind]; try reflexivity. apply IH. intros; apply K; now right.
    Qed.
    Lemma inEdges_eq idx (q : PF) : on_grid p idx -> gp q ->
      inEdges (N := F64) tol idx p q = inEdges (N := RNum) (val tol) idx P (real_point q).
    Proof. intros G Q. unfold inEdges. rewrite containerEdge_eq by assumption. reflexivity. Qed.
  End Tol.
End Grid.
