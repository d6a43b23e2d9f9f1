(** Hulls, diameters and ears on grid coordinates: doubles against reals. *)
From Coq Require Import Reals Lra Lia Psatz ZArith SpecFloat List Bool Permutation.
From Flocq Require Import Core BinarySingleNaN.
From Verif Require Import Base Spec MUtil MGeom MHull MPolygon MMaps MTriangle Bridge BridgeNum PPoint PSegment PFloat PPoly PPoly2 PContains PHull PTri PGrid PGrid2 PGrid3.
Import ListNotations.
Local Open Scope Z_scope.

Lemma sqrt_correct x : fin x -> (0 <= val x)%R -> fin (@nsqrt F64 x) /\ val (@nsqrt F64 x) = rnd (sqrt (val x)).
Proof.
  intros Hx Hp. destruct (fin_as_B x Hx) as (b & -> & Fb & Vb). change (@nsqrt F64 (B2SF b)) with (SFsqrt 53 1024 (B2SF b)). rewrite sqrt_equiv.
  destruct (Bsqrt_correct 53 1024 prec64 emax64 mode_NE b) as (H1 & H2 & _). rewrite Vb in *. rewrite val_B. split; [|exact H1].
  apply fin_B. rewrite H2. destruct b as [| | |s m ex B]; try discriminate; [reflexivity|]. destruct s; [|reflexivity].
  exfalso. cbn in Hp. revert Hp. apply Rlt_not_le. apply F2R_lt_0. reflexivity.
Qed.
Lemma nearest_rnd r : nearest r = rnd r.
Proof. reflexivity. Qed.

Section Grid.
  Variable e : Z.
  Hypothesis He : -200 <= e <= 200.
  Notation gp := (grid_point e).
  Notation PF := (Point F64).
  Ltac ex := unfold okexp in *; lia.
  Notation rp := real_point.
  Ltac fa := repeat first [apply Forall_cons|apply Forall_nil]; assumption.

  Lemma hull_ltb_grid (a b : PF) : gp a -> gp b -> hull_ltb (N := F64) a b = hull_ltb (N := RNum) (rp a) (rp b).
  Proof.
    intros [Ax Ay] [Bx By]. unfold hull_ltb. rewrite eqb_correct by (eapply grid_fin; eassumption).
    rewrite !(ltb_grid e e (2 ^ 20) (2 ^ 20)) by assumption. reflexivity.
  Qed.
  Lemma hull_ins_grid (a : PF) l : gp a -> Forall gp l ->
    map rp (hull_ins (N := F64) a l) = hull_ins (N := RNum) (rp a) (map rp l) /\ Forall gp (hull_ins (N := F64) a l).
  Proof.
    intros A G. induction G as [|b l B G [IH1 IH2]]; [split; [reflexivity|fa]|]. cbn [hull_ins map].
    rewrite hull_ltb_grid by assumption. destruct (hull_ltb _ _); [split; [reflexivity|fa]|].
    cbn [map]. rewrite IH1. split; [reflexivity|fa].
  Qed.
  Lemma hull_sort_grid l : Forall gp l -> map rp (hull_sort (N := F64) l) = hull_sort (N := RNum) (map rp l) /\ Forall gp (hull_sort (N := F64) l).
  Proof.
    intros G. unfold hull_sort. change (@nil (Point RNum)) with (map rp []).
    assert (G0 : Forall gp []) by constructor. revert G0. generalize (@nil PF). induction G as [|a l A G IH]; intros acc Ga; [now split|].
    cbn [fold_left map]. destruct (hull_ins_grid a acc A Ga) as [E1 E2]. rewrite <- E1. apply IH, E2.
  Qed.
  Lemma leb_orient (a b c : PF) : gp a -> gp b -> gp c ->
    @nleb F64 (@nZ F64 0) (orientation a b c) = Rleb 0 (orientation (N := RNum) (rp a) (rp b) (rp c)) /\
    @nleb F64 (orientation a b c) (@nZ F64 0) = Rleb (orientation (N := RNum) (rp a) (rp b) (rp c)) 0.
  Proof.
    intros A B C. destruct (orientation_grid e He a b c A B C) as [G V]. destruct (grid_zero 0) as [Z0 V0].
    rewrite !leb_correct by (eapply grid_fin; eassumption). rewrite V0, V. split; reflexivity.
  Qed.
  Lemma pop_upper_grid (x : PF) st : gp x -> Forall gp st -> map rp (pop_upper (N := F64) x st) = pop_upper (N := RNum) (rp x) (map rp st).
  Proof.
    intros X G. induction st as [|b [|a r] IH]; try reflexivity. inversion G as [|? ? B G']; subst. inversion G' as [|? ? A G'']; subst.
    cbn [pop_upper map]. rewrite (proj1 (leb_orient a b x A B X)). change (@nleb RNum) with Rleb. change (@nZ RNum 0) with 0%R.
    destruct (Rleb _ _); [exact (IH G')|reflexivity].
  Qed.
  Lemma pop_lower_grid (x : PF) st : gp x -> Forall gp st -> map rp (pop_lower (N := F64) x st) = pop_lower (N := RNum) (rp x) (map rp st).
  Proof.
    intros X G. induction st as [|b [|a r] IH]; try reflexivity. inversion G as [|? ? B G']; subst. inversion G' as [|? ? A G'']; subst.
    cbn [pop_lower map]. rewrite (proj2 (leb_orient a b x A B X)). change (@nleb RNum) with Rleb. change (@nZ RNum 0) with 0%R.
    destruct (Rleb _ _); [exact (IH G')|reflexivity].
  Qed.
  Lemma Forall_incl {A} (Q : A -> Prop) l1 l2 : incl l1 l2 -> Forall Q l2 -> Forall Q l1.
  Proof. rewrite !Forall_forall. auto. Qed.
  Lemma chain_grid (f : PF -> list PF -> list PF) (g : Point RNum -> list (Point RNum) -> list (Point RNum)) l :
    (forall x st, gp x -> Forall gp st -> map rp (f x st) = g (rp x) (map rp st)) -> (forall x st, incl (f x st) st) -> Forall gp l ->
    map rp (chain (N := F64) f l) = chain (N := RNum) g (map rp l) /\ Forall gp (chain (N := F64) f l).
  Proof.
    intros H I G. unfold chain. rewrite map_rev.
    assert (K : forall st, Forall gp st -> map rp (fold_left (fun st p => p :: f p st) l st) = fold_left (fun st p => p :: g p st) (map rp l) (map rp st) /\
                Forall gp (fold_left (fun st p => p :: f p st) l st)).
    { induction G as [|a l A G IH]; intros st S; [now split|]. cbn [fold_left map]. rewrite <- H by assumption.
      change (rp a :: map rp (f a st)) with (map rp (a :: f a st)). apply IH. constructor; [assumption|]. eapply Forall_incl; [apply I|assumption]. }
    destruct (K [] ltac:(constructor)) as [K1 K2]. rewrite K1. split; [reflexivity|]. now apply Forall_rev.
  Qed.
  Lemma convexHull_grid l : Forall gp l ->
    map rp (fst (convexHull (N := F64) l)) = fst (convexHull (N := RNum) (map rp l)) /\
    map rp (snd (convexHull (N := F64) l)) = snd (convexHull (N := RNum) (map rp l)) /\
    Forall gp (fst (convexHull (N := F64) l)) /\ Forall gp (snd (convexHull (N := F64) l)).
  Proof.
    intros G. unfold convexHull. cbn [fst snd]. destruct (hull_sort_grid l G) as [S1 S2]. rewrite <- S1.
    destruct (chain_grid _ _ _ pop_upper_grid pop_upper_incl S2) as [U1 U2]. destruct (chain_grid _ _ _ pop_lower_grid pop_lower_incl S2) as [L1 L2].
    auto.
  Qed.

  (** * Calipers *)
  Definition rpair (pr : PF * PF) : Point RNum * Point RNum := (rp (fst pr), rp (snd pr)).
  Lemma vgetn_rel l i : Forall gp l -> rel (rpt e) (vgetn l i) (vgetn (map rp l) i).
  Proof.
    intros G. rewrite vgetn_map. unfold vgetn. destruct (nth_error l i) eqn:E; cbn; [|reflexivity]. split; [|reflexivity].
    rewrite Forall_forall in G. apply G. eapply nth_error_In; eassumption.
  Qed.
  Lemma calipers_grid u l : Forall gp u -> Forall gp l -> forall fuel i j,
    rel (fun x y => y = map rpair x /\ Forall (fun pr => gp (fst pr) /\ gp (snd pr)) x)
      (calipers (N := F64) fuel u l i j) (calipers (N := RNum) fuel (map rp u) (map rp l) i j).
  Proof.
    intros U L. induction fuel as [|fuel IH]; intros i j; [reflexivity|]. cbn [calipers]. rewrite map_length.
    destruct (_ : bool); [|now split].
    eapply rel_bind; [apply vgetn_rel, U|]. intros a ? [A ->]. eapply rel_bind; [apply vgetn_rel, L|]. intros b ? [B ->].
    eapply (rel_bind eq).
    - destruct (Nat.eqb i _); [apply rel_refl|]. destruct (Nat.eqb j 0); [apply rel_refl|].
      eapply rel_bind; [apply vgetn_rel, U|]. intros a1 ? [[A1x A1y] ->]. eapply rel_bind; [apply vgetn_rel, L|]. intros b1 ? [[B1x B1y] ->].
      destruct A as [Ax Ay], B as [Bx By].
      destruct (sub_coord e He _ _ A1y Ay) as [G1 V1]. destruct (sub_coord e He _ _ Bx B1x) as [G2 V2].
      destruct (sub_coord e He _ _ By B1y) as [G3 V3]. destruct (sub_coord e He _ _ A1x Ax) as [G4 V4].
      destruct (mul_diff e He _ _ G1 G2) as [H1 W1]. destruct (mul_diff e He _ _ G3 G4) as [H2 W2].
      rewrite ltb_correct by (eapply grid_fin; eassumption). rewrite W1, W2, V1, V2, V3, V4.
      cbn [real_point px py]. change (@nltb RNum) with Rltb. change (@nmul RNum) with Rmult. change (@nsub RNum) with Rminus.
      destruct (Rltb _ _); reflexivity.
    - intros [i' j'] ? <-. eapply rel_bind; [apply IH|]. intros x ? [-> Hx]. cbn. split; [reflexivity|]. constructor; [split; assumption|exact Hx].
  Qed.
  Lemma rotatingCalipers_grid pts : Forall gp pts ->
    rel (fun x y => y = map rpair x /\ Forall (fun pr => gp (fst pr) /\ gp (snd pr)) x)
      (rotatingCalipers (N := F64) pts) (rotatingCalipers (N := RNum) (map rp pts)).
  Proof.
    intros G. destruct (convexHull_grid pts G) as (E1 & E2 & G1 & G2). unfold rotatingCalipers.
    destruct (convexHull (N := F64) pts) as [u l]. destruct (convexHull (N := RNum) (map rp pts)) as [u' l']. cbn [fst snd] in *. subst u' l'.
    destruct u as [|x u]; [reflexivity|]. rewrite !map_length. exact (calipers_grid (x :: u) l G1 G2 _ 0%nat (length l - 1)%nat).
  Qed.

  (** * The diameter *)
  Lemma norm_grid (a b : PF) : gp a -> gp b -> fin (norm (N := F64) (pt_sub (N := F64) a b)) /\
    val (norm (N := F64) (pt_sub (N := F64) a b)) = rnd (norm (N := RNum) (pt_sub (N := RNum) (rp a) (rp b))).
  Proof.
    intros [Ax Ay] [Bx By]. unfold norm, squareNorm, pt_sub, mkP. cbn [px py].
    destruct (sub_coord e He _ _ Ax Bx) as [G1 V1]. destruct (sub_coord e He _ _ Ay By) as [G2 V2].
    destruct (mul_diff e He _ _ G1 G1) as [H1 W1]. destruct (mul_diff e He _ _ G2 G2) as [H2 W2].
    destruct (grid_add _ _ _ _ _ H1 H2) as [H3 W3]; [lia|ex|]. rewrite W1, W2, V1, V2 in W3.
    destruct (sqrt_correct _ (grid_fin _ _ _ H3)) as [F V]; [rewrite W3; apply Rplus_le_le_0_compat; apply Rle_0_sqr|]. split; [exact F|]. rewrite V, W3. reflexivity.
  Qed.
  Lemma max_grid (prs : list (PF * PF)) : Forall (fun pr => gp (fst pr) /\ gp (snd pr)) prs -> forall m r, fin m -> val m = rnd r ->
    let x := fold_left (fun mx (pr : PF * PF) => let d := norm (N := F64) (pt_sub (N := F64) (fst pr) (snd pr)) in if @nltb F64 mx d then d else mx) prs m in
    fin x /\ val x = rnd (fold_left (fun mx (pr : Point RNum * Point RNum) =>
     let d := norm (N := RNum) (pt_sub (N := RNum) (fst pr) (snd pr)) in if Rltb mx d then d else mx) (map rpair prs) r).
  Proof.
    intros G. induction G as [|[a b] prs [A B] G IH]; intros m r F V; [now split|]. cbn [fold_left map rpair fst snd] in *.
    destruct (norm_grid a b A B) as [Fd Vd]. rewrite ltb_correct by assumption. rewrite Vd, V.
    set (d := norm (N := F64) (pt_sub (N := F64) a b)) in *. set (D := norm (N := RNum) (pt_sub (N := RNum) (rp a) (rp b))) in *.
    destruct (Rltb_spec (rnd r) (rnd D)) as [H|H].
    - apply IH; [exact Fd|]. destruct (Rltb_spec r D) as [K|K]; [exact Vd|]. exfalso. apply Rnot_lt_le in K. apply rnd_le in K. apply (Rlt_irrefl (rnd r)). eapply Rlt_le_trans; [exact H|exact K].
    - apply IH; [exact F|]. destruct (Rltb_spec r D) as [K|K]; [|exact V]. rewrite V. apply Rle_antisym; [apply rnd_le; left; exact K|]. apply Rnot_lt_le. exact H.
  Qed.
  Lemma diameter_grid pts : Forall gp pts -> (2 <= length pts)%nat ->
    exists d D, calculateDiameter (N := F64) pts = Ok d /\ fin d /\ is_diameter (map xy (map rp pts)) D /\ val d = nearest D.
  Proof.
    intros G L. destruct (calculateDiameter_correct (map rp pts)) as (D & E & HD); [rewrite map_length; exact L|].
    unfold calculateDiameter in *. pose proof (rotatingCalipers_grid pts G) as K.
    destruct (rotatingCalipers (N := RNum) (map rp pts)) as [prs'|]; [|discriminate]. destruct (rotatingCalipers (N := F64) pts) as [prs|]; [|destruct K].
    destruct K as [-> K]. cbn [bind] in *. injection E as E.
    destruct (grid_int (-1)) as [[F1 _] V1]; [lia|].
    destruct (max_grid prs K (@nZ F64 (-1)) (-1)%R F1) as [FX VX]; [rewrite V1; symmetry; apply rnd_int; lia|].
    eexists _, D. split; [reflexivity|]. split; [exact FX|]. split; [exact HD|]. rewrite nearest_rnd, <- E. exact VX.
  Qed.
  Lemma getDiameter_grid (g : polygon F64) p vs : vertices_are p (pg_points g) vs -> Forall gp vs -> nltb (pg_diam g) (@nZ F64 0) = true -> (2 <= length vs)%nat ->
    exists g' d D, getDiameter (N := F64) g p = Ok (g', d) /\ fin d /\ is_diameter (map xy (map rp vs)) D /\ val d = nearest D /\
      forall p', getDiameter (N := F64) g' p' = Ok (g', d).
  Proof.
    intros V G N L. destruct (diameter_grid vs G L) as (d & D & E & F & HD & VD). unfold getDiameter at 1. rewrite N.
    rewrite (getPoints_vertices _ _ _ V). cbn [bind]. rewrite E. cbn [bind]. eexists _, d, D. split; [reflexivity|]. repeat (split; [assumption|]).
    intros p'. unfold getDiameter. cbn [pg_diam]. destruct (grid_zero 0) as [[Z0 _] V0]. rewrite ltb_correct by assumption. rewrite V0, VD.
    replace (Rltb (nearest D) 0) with false; [reflexivity|]. symmetry. unfold Rltb. destruct (Rlt_dec (nearest D) 0) as [H|]; [|reflexivity].
    exfalso. destruct HD as [(a & b & _ & _ & ->) _]. assert (P : (0 <= dist a b)%R) by (unfold dist; apply sqrt_pos).
    apply rnd_le in P. rewrite rnd_0 in P. rewrite nearest_rnd in H. lra.
  Qed.

  (** * Ears *)
  Section Ears.
    Variable tol : f64.
    Hypothesis Ft : fin tol.
    Hypothesis Tpos : (0 < val tol)%R.
    Variable p : list PF.
    Notation P := (map rp p).
    Definition rtri (t : triangle F64) (t' : triangle RNum) : Prop := pg_points (tr_poly t) = pg_points (tr_poly t').

    Lemma in_range_map l : in_range p l <-> in_range P l.
    Proof. unfold in_range, zlen. rewrite map_length. reflexivity. Qed.
    Lemma triangle_ctor_rel l : rel (fun t t' => rtri t t' /\ pg_points (tr_poly t) = l) (triangle_ctor (N := F64) tol l p) (triangle_ctor (N := RNum) (val tol) l P).
    Proof.
      unfold triangle_ctor, tri_vertices. change (polygon_ctor_idx (N := F64) tol l p) with (Ok (mkPoly (N := F64) l (nZ (-1)) (nZ (-1)) point0 (calculateHash l))).
      change (polygon_ctor_idx (N := RNum) (val tol) l P) with (Ok (mkPoly (N := RNum) l (nZ (-1)) (nZ (-1)) point0 (calculateHash l))). cbn [bind].
      assert (V : forall i, rel (fun _ _ => True) (vpt p l i) (vpt P l i)).
      { intros i. unfold vpt. unfold vgetn at 1 2. destruct (nth_error l i); [|reflexivity]. cbn [bind]. rewrite vget_map. destruct (vget p z); cbn; auto. }
      eapply (rel_bind (fun _ _ => True)).
      - eapply rel_bind; [apply V|]. intros a b _. eapply rel_bind; [apply V|]. intros a2 b2 _. eapply rel_bind; [apply V|]. intros a3 b3 _. exact I.
      - intros [[A B] C] [[A' B'] C'] _. cbn. split; reflexivity.
    Qed.
    Lemma ear_blocked_eq l a b c : in_range p l -> incl [a; b; c] l -> on_grid e p l ->
      ear_blocked (N := F64) tol p l [a; b; c] = ear_blocked (N := RNum) (val tol) P l [a; b; c].
    Proof.
      intros IR I G. apply rel_eq. unfold ear_blocked. apply rel_foldM; [|reflexivity]. intros k t ? K <-.
      destruct (isVertex _ k); cbn [negb]; [apply rel_refl|]. eapply rel_bind; [eapply vget_rel; eassumption|]. intros q ? [Q ->].
      rewrite (contains_triangle_grid e He tol Ft Tpos); [apply rel_refl|eapply on_grid_incl; eassumption|exact Q|].
      unfold in_range in *. rewrite Forall_forall in *. auto.
    Qed.
    Definition rfound (x : option (triangle F64 * list Z)) (y : option (triangle RNum * list Z)) : Prop :=
      match x, y with Some (t, l), Some (t', l') => rtri t t' /\ l = l' | None, None => True | _, _ => False end.
    Lemma nth_mod_in {A} (l : list A) i (x : A) : vgetn l i = Ok x -> In x l.
    Proof. intros H. apply vgetn_ok in H. eapply nth_error_In; eassumption. Qed.
    Lemma ear_search_rel l k : in_range p l -> on_grid e p l -> forall i,
      rel rfound (ear_search (N := F64) tol p l i k) (ear_search (N := RNum) (val tol) P l i k).
    Proof.
      intros IR G. induction k as [|k IH]; intros i; [exact I|]. cbn [ear_search].
      destruct (vgetn l ((length l + i - 1) mod length l)) as [a|] eqn:Ea; [|reflexivity]. cbn [bind].
      destruct (vgetn l (i mod length l)) as [b|] eqn:Eb; [|reflexivity]. cbn [bind].
      destruct (vgetn l ((length l + i + 1) mod length l)) as [c|] eqn:Ec; [|reflexivity]. cbn [bind].
      apply nth_mod_in in Ea, Eb, Ec. assert (Inc : incl [a; b; c] l) by (intros x [<-|[<-|[<-|[]]]]; assumption).
      eapply rel_bind; [apply triangle_ctor_rel|]. intros t t' [T _].
      rewrite (isConvex_eq e He p [a; b; c]) by (eapply on_grid_incl; eassumption).
      apply (rel_bind eq); [apply rel_refl|]. intros cv ? <-. destruct cv; [|apply IH].
      rewrite ear_blocked_eq by assumption. apply (rel_bind eq); [apply rel_refl|]. intros bl ? <-. destruct bl; [apply IH|]. cbn. now split.
    Qed.
    Lemma getEar_rel l : in_range p l -> on_grid e p l -> rel rfound (getEar (N := F64) tol p l) (getEar (N := RNum) (val tol) P l).
    Proof.
      intros IR G. unfold getEar. destruct l as [|a [|b [|c [|d l]]]]; try exact I; [|apply ear_search_rel; assumption].
      eapply rel_bind; [apply triangle_ctor_rel|]. intros t t' [T _]. cbn. now split.
    Qed.
    Lemma remove_nth_incl {A} i (l : list A) : incl (remove_nth i l) l.
    Proof.
      revert i. induction l as [|a l IH]; intros i x H; [destruct i; exact H|]. destruct i; cbn in H; [now right|]. destruct H as [<-|H]; [now left|right; eapply IH; exact H].
    Qed.
    Lemma ear_search_incl l k : forall i t l', ear_search (N := F64) tol p l i k = Ok (Some (t, l')) -> incl l' l.
    Proof.
      induction k as [|k IH]; intros i t l' H; [discriminate|]. cbn [ear_search] in H.
      destruct (vgetn l ((length l + i - 1) mod length l)) as [a|]; [|discriminate]. cbn [bind] in H.
      destruct (vgetn l (i mod length l)) as [b|]; [|discriminate]. cbn [bind] in H.
      destruct (vgetn l ((length l + i + 1) mod length l)) as [c|]; [|discriminate]. cbn [bind] in H.
      destruct (triangle_ctor (N := F64) tol [a; b; c] p) as [t0|]; [|discriminate]. cbn [bind] in H.
      destruct (isConvex (N := F64) [a; b; c] p) as [[|]|]; try discriminate; cbn [bind] in H; [|eapply IH; exact H].
      destruct (ear_blocked (N := F64) tol p l [a; b; c]) as [[|]|]; try discriminate; cbn [bind] in H; [eapply IH; exact H|].
      injection H as _ <-. apply remove_nth_incl.
    Qed.
    Lemma getEar_incl l t l' : getEar (N := F64) tol p l = Ok (Some (t, l')) -> incl l' l.
    Proof.
      unfold getEar. destruct l as [|a [|b [|c [|d l]]]]; try discriminate; [|apply ear_search_incl].
      destruct (triangle_ctor _ _ _); cbn; [|discriminate]. intros [= _ <-]. intros x [].
    Qed.
    Lemma ear_loop_rel : forall fuel l, in_range p l -> on_grid e p l ->
      rel (fun x y => Forall2 rtri (fst x) (fst y) /\ snd x = snd y) (ear_loop (N := F64) fuel tol p l) (ear_loop (N := RNum) fuel (val tol) P l).
    Proof.
      induction fuel as [|fuel IH]; intros l IR G; cbn [ear_loop]; (destruct (Nat.ltb (length l) 3); [now repeat constructor|]); [reflexivity|].
      pose proof (getEar_rel l IR G) as K. destruct (getEar (N := F64) tol p l) as [x|x] eqn:E; destruct (getEar (N := RNum) (val tol) P l) as [y|y]; cbn in K; try contradiction; [|exact K].
      cbn [bind]. destruct x as [[t l1]|], y as [[t' l2]|]; try contradiction; [|now repeat constructor]. destruct K as [K1 K2].
      subst l2. pose proof (getEar_incl _ _ _ E) as Inc.
      eapply rel_bind; [apply IH|].
      - unfold in_range in *. rewrite Forall_forall in *. auto.
      - eapply on_grid_incl; eassumption.
      - intros [ts r] [ts' r'] [H1 H2]. cbn in *. split; [now constructor|exact H2].
    Qed.
  End Ears.
End Grid.
