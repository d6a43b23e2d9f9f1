(** Point containment on grid coordinates: doubles against reals. *)
From Coq Require Import Reals Lra Lia Psatz ZArith SpecFloat List Bool Permutation.
From Flocq Require Import Core BinarySingleNaN.
From Verif Require Import Base Spec MUtil MGeom MHull MPolygon MMaps MTriangle Bridge BridgeNum PPoint PSegment PFloat PPoly PPoly2 PContains PGrid PGrid2.
Import ListNotations.
Local Open Scope Z_scope.

(** The rounding error of a number of at most [2^k]. *)
Lemma rnd_error x k : -1000 <= k <= 1000 -> (Rabs x <= bpow radix2 k)%R -> (Rabs (rnd x - x) <= bpow radix2 (k - 53))%R /\ (Rabs (rnd x) <= bpow radix2 k)%R.
Proof.
  intros Hk Hx. split.
  - eapply Rle_trans; [apply error_le_half_ulp; auto with typeclass_instances|].
    assert (U : (ulp radix2 fexp64 x <= bpow radix2 (k + 1 - 53))%R).
    { replace (bpow radix2 (k + 1 - 53)) with (ulp radix2 fexp64 (bpow radix2 k)).
      - apply ulp_le; auto with typeclass_instances. rewrite (Rabs_pos_eq (bpow radix2 k)) by apply bpow_ge_0. exact Hx.
      - rewrite ulp_bpow. f_equal. unfold fexp64, SpecFloat.fexp, SpecFloat.emin. lia. }
    replace (k + 1 - 53) with (k - 53 + 1) in U by ring. rewrite bpow_plus in U. change (bpow radix2 1) with 2%R in U. lra.
  - apply abs_round_le_generic; auto with typeclass_instances. apply generic_format_bpow. unfold fexp64, SpecFloat.fexp, SpecFloat.emin. lia.
Qed.
Lemma bpow_big k : k <= 1000 -> (bpow radix2 k < big)%R.
Proof. intros. apply bpow_lt. lia. Qed.

Lemma grid_bound E n k x : grid E n x -> n <= 2 ^ k -> 0 <= k -> (Rabs (val x) <= bpow radix2 (k + E))%R.
Proof.
  intros [_ (m & Hm & V)] Hn Hk. rewrite V, Rabs_mult, (Rabs_pos_eq (bpow radix2 E)), bpow_plus by apply bpow_ge_0.
  apply Rmult_le_compat_r; [apply bpow_ge_0|]. rewrite <- abs_IZR. rewrite <- IZR_Zpower by assumption. apply IZR_le. change (radix_val radix2) with 2. lia.
Qed.

Section Grid.
  Variable e : Z.
  Hypothesis He : -200 <= e <= 200.
  Notation gp := (grid_point e).
  Notation PF := (Point F64).
  Ltac ex := unfold okexp in *; lia.

  Lemma crosses_grid (q I J : PF) : gp q -> gp I -> gp J ->
    crosses (N := F64) q I J = crosses (N := RNum) (real_point q) (real_point I) (real_point J) \/
    on_segment (xy (real_point I)) (xy (real_point J)) (xy (real_point q)).
  Proof.
    intros [Qx Qy] [Ix Iy] [Jx Jy].
    pose proof (sub_coord e He _ _ Qy Iy) as [Ga Va]. pose proof (sub_coord e He _ _ Jy Iy) as [Gb Vb]. pose proof (sub_coord e He _ _ Jx Ix) as [Gc Vc].
    unfold crosses. rewrite !(leb_coord e), !(ltb_grid e e (2 ^ 20) (2 ^ 20)) by assumption.
    cbn [real_point px py]. change (@nleb RNum) with Rleb. change (@nltb RNum) with Rltb.
    match goal with |- (?h && _ = ?h && _) \/ _ => destruct h eqn:H end; [|now left]. cbn [andb].
    assert (Hab : (let a := (val (py q) - val (py I))%R in let b := (val (py J) - val (py I))%R in b <> 0 /\ 0 <= a / b <= 1)%R).
    { cbv zeta. apply orb_true_iff in H. rewrite !andb_true_iff, !Rleb_iff, !Rltb_iff in H.
      set (a := (val (py q) - val (py I))%R). set (b := (val (py J) - val (py I))%R). destruct H as [[H1 H2]|[H1 H2]].
      - assert (0 < b)%R by (unfold b; lra). split; [lra|]. split.
        + apply Rmult_le_reg_r with b; [assumption|]. unfold Rdiv. rewrite Rmult_assoc, Rinv_l by lra. unfold a. lra.
        + apply Rmult_le_reg_r with b; [assumption|]. unfold Rdiv. rewrite Rmult_assoc, Rinv_l by lra. unfold a, b. lra.
      - assert (0 < -b)%R by (unfold b; lra). split; [lra|].
        assert (E : (a / b = (- a) / (- b))%R) by (field; lra). rewrite E. split.
        + apply Rmult_le_reg_r with (- b)%R; [assumption|]. unfold Rdiv. rewrite Rmult_assoc, Rinv_l by lra. unfold a, b in *. lra.
        + apply Rmult_le_reg_r with (- b)%R; [assumption|]. unfold Rdiv. rewrite Rmult_assoc, Rinv_l by lra. unfold a, b in *. lra. }
    cbv zeta in Hab. clear H. destruct Hab as [Hb Ht].
    set (fa := @nsub F64 (py q) (py I)) in *. set (fb := @nsub F64 (py J) (py I)) in *. set (fc := @nsub F64 (px J) (px I)) in *.
    pose proof (grid_bound _ _ 21 _ Gc ltac:(lia) ltac:(lia)) as Bc. rewrite Vc in Bc.
    pose proof (grid_bound _ _ 21 _ Gb ltac:(lia) ltac:(lia)) as Bb. rewrite Vb in Bb.
    pose proof (grid_bound _ _ 20 _ Ix ltac:(lia) ltac:(lia)) as Bi.
    set (t := ((val (py q) - val (py I)) / (val (py J) - val (py I)))%R) in *. set (c := (val (px J) - val (px I))%R) in *.
    (* the quotient *)
    assert (Bt : (Rabs t <= bpow radix2 0)%R) by (rewrite Rabs_pos_eq by lra; cbn; lra).
    destruct (rnd_error t 0 ltac:(lia) Bt) as [E1 B1].
    destruct (div_correct fa fb (grid_fin _ _ _ Ga) (grid_fin _ _ _ Gb)) as [F1 V1].
    { rewrite Vb. exact Hb. }
    { rewrite Va, Vb. fold t. eapply Rle_lt_trans; [exact B1|apply bpow_big; lia]. }
    rewrite Va, Vb in V1. fold t in V1.
    (* the product *)
    assert (Bp : (Rabs (rnd t * c) <= bpow radix2 (21 + e))%R).
    { rewrite Rabs_mult. rewrite <- (Rmult_1_l (bpow radix2 (21 + e))). apply Rmult_le_compat; try apply Rabs_pos; assumption. }
    destruct (rnd_error (rnd t * c) (21 + e) ltac:(lia) Bp) as [E2 B2].
    destruct (mul_correct (@ndiv F64 fa fb) fc F1 (grid_fin _ _ _ Gc)) as [F2 V2].
    { rewrite V1, Vc. fold c. eapply Rle_lt_trans; [exact B2|apply bpow_big; lia]. }
    rewrite V1, Vc in V2. fold c in V2.
    (* the sum *)
    assert (Bs : (Rabs (val (px I) + rnd (rnd t * c)) <= bpow radix2 (22 + e))%R).
    { eapply Rle_trans; [apply Rabs_triang|]. apply Rle_trans with (bpow radix2 (21 + e) + bpow radix2 (21 + e))%R.
      - apply Rplus_le_compat; [|assumption]. eapply Rle_trans; [exact Bi|]. apply bpow_le. lia.
      - replace (22 + e) with (1 + (21 + e)) by ring. rewrite (bpow_plus radix2 1). change (bpow radix2 1) with 2%R. lra. }
    destruct (rnd_error (val (px I) + rnd (rnd t * c)) (22 + e) ltac:(lia) Bs) as [E3 B3].
    destruct (add_correct (px I) (@nmul F64 (@ndiv F64 fa fb) fc) (grid_fin _ _ _ Ix) F2) as [F3 V3].
    { rewrite V2. eapply Rle_lt_trans; [exact B3|apply bpow_big; lia]. }
    rewrite V2 in V3.
    rewrite ltb_correct by (assumption || eapply grid_fin; eassumption). rewrite V3.
    change (@nadd RNum) with Rplus. change (@nmul RNum) with Rmult. change (@nsub RNum) with Rminus. change (@ndiv RNum) with Rdiv. fold t c.
    set (v := (val (px I) + t * c)%R). set (s := rnd (val (px I) + rnd (rnd t * c))%R) in *.
    assert (Er : (Rabs (s - v) <= bpow radix2 (e - 30))%R).
    { replace (s - v)%R with ((s - (val (px I) + rnd (rnd t * c))) + ((rnd (rnd t * c) - rnd t * c) + (rnd t - t) * c))%R by (unfold v; ring).
      eapply Rle_trans; [apply Rabs_triang|]. apply Rle_trans with (bpow radix2 (e - 31) + (bpow radix2 (e - 32) + bpow radix2 (e - 32)))%R.
      - apply Rplus_le_compat; [eapply Rle_trans; [exact E3|apply bpow_le; lia]|]. eapply Rle_trans; [apply Rabs_triang|].
        apply Rplus_le_compat; [eapply Rle_trans; [exact E2|apply bpow_le; lia]|]. rewrite Rabs_mult.
        replace (e - 32) with ((0 - 53) + (21 + e)) by ring. rewrite bpow_plus. apply Rmult_le_compat; try apply Rabs_pos; assumption.
      - replace (e - 31) with (1 + (e - 32)) by ring. replace (e - 30) with (1 + (1 + (e - 32))) by ring. rewrite !(bpow_plus radix2 1).
        change (bpow radix2 1) with 2%R. lra. }
    destruct (Req_dec v (val (px q))) as [Hv|Hv].
    - right. exists t. split; [exact Ht|]. unfold lerp, xy, real_point. cbn [px py fst snd]. fold c. f_equal; [symmetry; exact Hv|].
      unfold t. field. exact Hb.
    - left. 
      assert (Gap : (bpow radix2 (e - 21) <= Rabs (v - val (px q)))%R).
      { destruct Ix as [_ (kix & _ & Wix)], Iy as [_ (kiy & _ & Wiy)], Jx as [_ (kjx & _ & Wjx)], Jy as [_ (kjy & _ & Wjy)], Qx as [_ (kqx & _ & Wqx)], Qy as [_ (kqy & _ & Wqy)].
        set (b := (val (py J) - val (py I))%R) in *.
        assert (N : ((v - val (px q)) * b = IZR ((kix - kqx) * (kjy - kiy) + (kqy - kiy) * (kjx - kix)) * bpow radix2 (e + e))%R).
        { transitivity ((val (px I) - val (px q)) * b + (val (py q) - val (py I)) * c)%R.
          - unfold v, t. field. exact Hb.
          - unfold b, c. rewrite Wix, Wiy, Wjx, Wjy, Wqx, Wqy. rewrite plus_IZR, !mult_IZR, !minus_IZR, bpow_plus. ring. }
        set (m := (kix - kqx) * (kjy - kiy) + (kqy - kiy) * (kjx - kix)) in *.
        assert (M : m <> 0).
        { intros M. rewrite M, Rmult_0_l in N. apply Rmult_integral in N. destruct N; [apply Hv; lra|contradiction]. }
        assert (A : (bpow radix2 (e + e) <= Rabs (v - val (px q)) * Rabs b)%R).
        { rewrite <- Rabs_mult, N, Rabs_mult, (Rabs_pos_eq (bpow radix2 (e + e))) by apply bpow_ge_0. rewrite <- (Rmult_1_l (bpow radix2 (e + e))) at 1.
          apply Rmult_le_compat_r; [apply bpow_ge_0|]. rewrite <- abs_IZR. apply IZR_le. lia. }
        apply Rmult_le_reg_r with (bpow radix2 (21 + e)); [apply bpow_gt_0|]. rewrite <- bpow_plus. replace (e - 21 + (21 + e)) with (e + e) by ring.
        eapply Rle_trans; [exact A|]. apply Rmult_le_compat_l; [apply Rabs_pos|exact Bb]. }
      assert (L : (bpow radix2 (e - 30) < bpow radix2 (e - 21))%R) by (apply bpow_lt; lia).
      unfold Rltb. destruct (Rlt_dec s (val (px q))) as [H1|H1], (Rlt_dec v (val (px q))) as [H2|H2]; try reflexivity; exfalso; revert Er Gap; unfold Rabs;
        repeat destruct (Rcase_abs _); lra.
  Qed.

  Section Tol.
    Variable tol : f64.
    Hypothesis Ft : fin tol.
    Hypothesis Tpos : (0 < val tol)%R.
    Notation W := (walk (N := F64) tol).
    Notation WR := (walk (N := RNum) (val tol)).

    (** Walks along vertices whose tested pairs give the same answer. *)
    Lemma walk_chain (q : PF) : forall l prev b, Forall gp (prev :: l) ->
      (forall x, In x (pairs (prev :: l)) -> pt_eqb (N := RNum) (val tol) (real_point (snd x)) (real_point (fst x)) = false /\
         crosses (N := F64) q (snd x) (fst x) = crosses (N := RNum) (real_point q) (real_point (snd x)) (real_point (fst x))) ->
      W q prev b l = WR (real_point q) (real_point prev) b (map real_point l).
    Proof.
      induction l as [|v l IH]; intros prev b G H; [reflexivity|]. inversion G as [|? ? Gp G']; subst. inversion G' as [|? ? Gv G'']; subst.
      cbn [walk map]. rewrite (pt_eqb_grid e He tol Ft) by assumption.
      destruct (H (prev, v)) as [E1 E2]; [rewrite pairs_cons2; now left|]. cbn [fst snd] in E1, E2. rewrite E1, E2. apply IH; [exact G'|].
      intros x Hx. apply H. rewrite pairs_cons2. now right.
    Qed.
    Lemma walk_all (q : PF) (S : list PF) : Forall gp S ->
      (forall x y, In x S -> In y S -> pt_eqb (N := RNum) (val tol) (real_point x) (real_point y) = true \/
         crosses (N := F64) q x y = crosses (N := RNum) (real_point q) (real_point x) (real_point y)) ->
      forall l prev b, incl (prev :: l) S -> W q prev b l = WR (real_point q) (real_point prev) b (map real_point l).
    Proof.
      intros G H. rewrite Forall_forall in G. induction l as [|v l IH]; intros prev b I; [reflexivity|]. cbn [walk map].
      assert (Iv : In v S) by (apply I; right; now left). assert (Ip : In prev S) by (apply I; now left).
      rewrite (pt_eqb_grid e He tol Ft) by auto.
      destruct (H v prev Iv Ip) as [E|E].
      - rewrite E. apply IH. intros x [<-|Hx]; [exact Ip|]. apply I. right; now right.
      - rewrite E. destruct (pt_eqb _ _ _); apply IH; intros x [<-|Hx]; try assumption; apply I; right; now right.
    Qed.

    Lemma existsb_border (q : PF) vs : gp q -> Forall gp vs ->
      existsb (fun x : PF * PF => seg_contains (N := F64) tol q (fst x) (snd x)) (edges_of vs) =
      existsb (fun x => seg_contains (N := RNum) (val tol) (real_point q) (fst x) (snd x)) (edges_of (map real_point vs)).
    Proof.
      intros Q G. rewrite Forall_forall in G. rewrite edges_of_map.
      assert (K : forall x, In x (edges_of vs) -> In (fst x) vs /\ In (snd x) vs) by (intros [a b]; apply edge_in).
      revert K. generalize (edges_of vs). intros l K. induction l as [|x l IH]; [reflexivity|]. cbn [existsb map fst snd].
      destruct (K x (or_introl eq_refl)) as [K1 K2]. rewrite (seg_contains_grid e He tol Ft) by auto. rewrite IH; [reflexivity|].
      intros; apply K; now right.
    Qed.
    Lemma on_segment_sym a b q : on_segment a b q -> on_segment b a q.
    Proof. intros (t & Ht & ->). exists (1 - t)%R. split; [lra|]. unfold lerp. cbn [fst snd]. f_equal; ring. Qed.
    Lemma border_found (q : PF) vs a b : In (a, b) (edges_of vs) \/ In (b, a) (edges_of vs) ->
      on_segment (xy (real_point a)) (xy (real_point b)) (xy (real_point q)) ->
      existsb (fun x => seg_contains (N := RNum) (val tol) (real_point q) (fst x) (snd x)) (edges_of (map real_point vs)) = true.
    Proof.
      intros H S. rewrite edges_of_map. apply existsb_exists. destruct H as [H|H].
      - exists (real_point a, real_point b). split; [apply in_map_iff; exists (a, b); auto|]. cbn [fst snd]. apply seg_contains_segment; assumption.
      - exists (real_point b, real_point a). split; [apply in_map_iff; exists (b, a); auto|]. cbn [fst snd]. apply seg_contains_segment; [assumption|].
        now apply on_segment_sym.
    Qed.

    Lemma vertices_real p idx vs : vertices_are p idx vs -> vertices_are (map real_point p) idx (map real_point vs).
    Proof.
      intros H. induction H as [|k v idx vs [K1 K2] H IH]; [constructor|]. constructor; [|exact IH]. split; [exact K1|].
      rewrite nth_error_map, K2. reflexivity.
    Qed.
    Lemma last_map {A B} (f : A -> B) l d : last (map f l) (f d) = f (last l d).
    Proof. induction l as [|a l IH]; [reflexivity|]. destruct l as [|b l]; [reflexivity|]. exact IH. Qed.
    Lemma last_in {A} (l : list A) d : l <> [] -> In (last l d) l.
    Proof. induction l as [|a l IH]; [congruence|]. intros _. destruct l as [|b l]; [now left|]. right. apply IH. discriminate. Qed.

    Lemma contains_grid p idx (q : PF) vs : vertices_are p idx vs -> Forall gp vs -> gp q -> no_short_edge (val tol) (map xy (map real_point vs)) ->
      containsPoint (N := F64) tol idx p q = containsPoint (N := RNum) (val tol) idx (map real_point p) (real_point q).
    Proof.
      intros V G Q NS. rewrite (containsPoint_walk (N := F64) tol idx p q vs q V).
      rewrite (containsPoint_walk (N := RNum) (val tol) idx _ (real_point q) _ (real_point q) (vertices_real _ _ _ V)). f_equal.
      rewrite existsb_border by assumption. rewrite last_map.
      destruct (existsb _ (edges_of (map real_point vs))) eqn:B; [now rewrite !orb_true_r|]. rewrite !orb_false_r.
      destruct vs as [|v vs]; [reflexivity|].
      assert (PE : Permutation (pairs (last (v :: vs) q :: v :: vs)) (edges_of (v :: vs))) by (apply pairs_last_edges; discriminate).
      apply walk_chain.
      - constructor; [|exact G]. rewrite Forall_forall in G. apply G. apply last_in. discriminate.
      - intros [a b] H. cbn [fst snd]. apply (Permutation_in _ PE) in H. split.
        + pose proof (no_short_near _ _ NS) as NN.
          assert (E : pt_eqb (N := RNum) (val tol) (real_point a) (real_point b) = false).
          { apply (NN (real_point a, real_point b)). rewrite edges_of_map. apply in_map_iff. exists (a, b). auto. }
          rewrite <- E. unfold pt_eqb; rnum. rewrite (Rabs_minus_sym (px (real_point b))), (Rabs_minus_sym (py (real_point b))). reflexivity.
        + destruct (edge_in _ _ _ H) as [Ia Ib]. rewrite Forall_forall in G.
          destruct (crosses_grid q b a Q (G _ Ib) (G _ Ia)) as [E|E]; [exact E|]. exfalso.
          rewrite (border_found q (v :: vs) b a) in B; [discriminate|right; exact H|exact E].
    Qed.
    Lemma contains_triangle_grid p a b c (q : PF) : on_grid e p [a; b; c] -> gp q -> in_range p [a; b; c] ->
      containsPoint (N := F64) tol [a; b; c] p q = containsPoint (N := RNum) (val tol) [a; b; c] (map real_point p) (real_point q).
    Proof.
      intros G Q IR.
      assert (V : exists va vb vc, vertices_are p [a; b; c] [va; vb; vc]).
      { unfold in_range in IR. inversion IR as [|? ? Ra IR1]; subst. inversion IR1 as [|? ? Rb IR2]; subst. inversion IR2 as [|? ? Rc _]; subst.
        apply vget_range in Ra as [va Ea]. apply vget_range in Rb as [vb Eb]. apply vget_range in Rc as [vc Ec].
        apply vget_ok in Ea, Eb, Ec. exists va, vb, vc. repeat constructor; tauto. }
      destruct V as (va & vb & vc & V).
      assert (GV : Forall gp [va; vb; vc]).
      { unfold vertices_are in V. inversion V as [|? ? ? ? [Ka Ea] V1]; subst. inversion V1 as [|? ? ? ? [Kb Eb] V2]; subst. inversion V2 as [|? ? ? ? [Kc Ec] _]; subst.
        repeat constructor; first [apply (G a va)|apply (G b vb)|apply (G c vc)]; cbn; auto; apply vget_ok; auto. }
      rewrite (containsPoint_walk (N := F64) tol [a; b; c] p q _ q V).
      rewrite (containsPoint_walk (N := RNum) (val tol) _ _ (real_point q) _ (real_point q) (vertices_real _ _ _ V)). f_equal.
      rewrite existsb_border by assumption. rewrite last_map.
      destruct (existsb _ (edges_of (map real_point [va; vb; vc]))) eqn:B; [now rewrite !orb_true_r|]. rewrite !orb_false_r.
      apply (walk_all q [va; vb; vc] GV).
      - intros x y Hx Hy.
        assert (HE : x = y \/ In (x, y) (edges_of [va; vb; vc]) \/ In (y, x) (edges_of [va; vb; vc])).
        { cbn. cbn in Hx, Hy. destruct Hx as [<-|[<-|[<-|[]]]], Hy as [<-|[<-|[<-|[]]]]; auto 10. }
        destruct HE as [<-|HE].
        + left. unfold pt_eqb; rnum. rewrite !Rminus_eq_0, Rabs_R0. rewrite andb_true_iff, !Rltb_iff. split; exact Tpos.
        + rewrite Forall_forall in GV. destruct (crosses_grid q x y Q (GV _ Hx) (GV _ Hy)) as [E|E]; [now right|]. exfalso.
          rewrite (border_found q _ x y) in B; [discriminate|exact HE|exact E].
      - intros x [<-|Hx]; [cbn; auto|exact Hx].
    Qed.
  End Tol.
End Grid.
