(** The chain of a border cell at a corner of any shape repeats no index but consecutively; areas of chains. *)
From Coq Require Import Reals Lra Lia ZArith List Bool Permutation.
From Verif Require Import Base Spec MUtil MGeom Bridge BridgeTile BridgeAny PUtil PContains PPoly PPoly2 PVoronoi PFan PVorGeo PVorCell PConvex PVorConvex PWedge PBorderCell PVorLocate PTile PFill PAny PAny2.
Import ListNotations.

Lemma sumR_nonneg l : (forall x, In x l -> (0 <= x)%R) -> (0 <= sumR l)%R.
Proof.
  induction l as [|x l IH]; intros H; cbn; [lra|]. pose proof (H x (or_introl eq_refl)). assert (0 <= sumR l)%R by (apply IH; intros y Hy; apply H; right; exact Hy). unfold sumR in *. lra.
Qed.
Section Chain.
  Local Open Scope R_scope.
  Variable sites : list pt.
  Variables p a b : pt.
  Variable us : list pt.
  Variable g : Z -> pt.
  Variable ci : nat -> Z.
  Variable ts : list nat.
  Variables i1 i2 : Z.
  Notation region := (voronoi_region sites p).
  Notation C := (i1 :: map ci ts ++ [i2]).
  Hypothesis F : Forall2 (spoke sites p g ci) (pairs (a :: us ++ [b])) ts.
  Hypothesis G1 : g i1 = midpoint p a.
  Hypothesis G2 : g i2 = midpoint p b.
  Hypothesis G0 : g (-1)%Z = p.
  Hypothesis No : ~ In (-1)%Z C.
  Hypothesis inj : forall i j, In i (C ++ [(-1)%Z]) -> In j (C ++ [(-1)%Z]) -> g i = g j -> i = j.
  Hypothesis GA : gabriel_edge sites p a.
  Hypothesis GB : gabriel_edge sites p b.
  Hypothesis ND : NoDup (a :: us ++ [b]).
  Hypothesis IN : forall w, In w us -> inner_side p a b w.

  Lemma pos_sq (q x : pt) : x <> q -> 0 < vdot (vsub x q) (vsub x q).
  Proof. intros N. destruct x as [x1 x2], q as [p1 p2]. unfold vdot, vsub. cbn [fst snd]. destruct (Req_dec x1 p1) as [E1|E1], (Req_dec x2 p2) as [E2|E2]; [subst; contradiction|nra|nra|nra]. Qed.
  Lemma ends : (In a sites /\ a <> p) /\ (In b sites /\ b <> p).
  Proof.
    destruct (first_pair a us b) as (n & Hn), (PVorCell.last_pair a us b) as (n' & Hn'). destruct (Forall2_in_left _ _ _ F _ Hn) as (k & _ & O & I1 & _), (Forall2_in_left _ _ _ F _ Hn') as (k' & _ & O' & _ & I2 & _). cbn [fst snd] in *.
    apply orient_degenerate in O as [O _]. apply orient_degenerate in O' as [_ O']. auto.
  Qed.
  Lemma chain_region i : In i C -> region (g i).
  Proof. intros H. apply (C_region sites p a b us g ci ts i1 i2); assumption. Qed.
  Lemma chain_equi : Forall2 (equi p) (pairs (a :: us ++ [b])) (map (fun k => g (ci k)) ts).
  Proof.
    pose proof F as F'. clear inj No F. revert F'. generalize (pairs (a :: us ++ [b])). induction 1 as [|e k es ks H _ IH]; [constructor|]. cbn [map]. constructor; [|exact IH].
    destruct H as (O & _ & _ & D1 & D2 & _). apply orient_degenerate in O as [O1 O2]. unfold equi. auto.
  Qed.
  Lemma map_C : map g C = midpoint p a :: map (fun k => g (ci k)) ts ++ [midpoint p b].
  Proof. cbn [map]. rewrite map_app, map_map. cbn [map]. rewrite G1, G2. reflexivity. Qed.
  Lemma chain_along : Forall2 (along p) (pairs (map g C)) (a :: us ++ [b]).
  Proof. rewrite map_C. exact (open_along p a b us _ chain_equi). Qed.
  Lemma along_apart x y w : along p (x, y) w -> orient p x y = 0 -> x = y.
  Proof.
    intros (N & D1 & D2) O. cbn [fst snd] in *. pose proof (pos_sq p w N) as S. apply dist_eq in D1, D2. unfold orient in O.
    assert (E : vsub x p = vsub y p); [|unfold vsub in E; destruct x, y; cbn [fst snd] in E; injection E as E1 E2; f_equal; lra].
    set (X := vsub x p) in *. set (Y := vsub y p) in *. set (W := vsub w p) in *. clearbody X Y W. destruct X as [x1 x2], Y as [y1 y2], W as [w1 w2]. unfold vdot, vcross in *. cbn [fst snd] in *.
    set (n := w1 * w1 + w2 * w2) in *. assert (E : w1 * (x1 - y1) + w2 * (x2 - y2) = 0) by lra.
    assert (K1 : (w1 * x1 + w2 * x2) * (x1 - y1) = 0). { replace ((w1 * x1 + w2 * x2) * (x1 - y1)) with (x1 * (w1 * (x1 - y1) + w2 * (x2 - y2)) + w2 * (x1 * y2 - x2 * y1)) by ring. rewrite E, O. ring. }
    assert (K2 : (w1 * x1 + w2 * x2) * (x2 - y2) = 0). { replace ((w1 * x1 + w2 * x2) * (x2 - y2)) with (x2 * (w1 * (x1 - y1) + w2 * (x2 - y2)) - w1 * (x1 * y2 - x2 * y1)) by ring. rewrite E, O. ring. }
    assert (P : w1 * x1 + w2 * x2 <> 0) by lra. apply Rmult_integral in K1 as [K1|K1]; [lra|]. apply Rmult_integral in K2 as [K2|K2]; [lra|]. f_equal; lra.
  Qed.
  Lemma chain_pair_step i j : In (i, j) (pairs C) -> g i = g j \/ 0 < orient p (g i) (g j).
  Proof.
    intros H. assert (L : 0 <= orient p (g i) (g j)).
    { pose proof (C_steps sites p a b us g ci ts i1 i2 F G1 G2 G0 No inj GA GB i j H (-1)%Z) as K. rewrite G0 in K. specialize (K ltac:(apply in_or_app; right; left; reflexivity)).
      unfold orient, vcross, vsub in *. cbn [fst snd] in *. lra. }
    destruct (Rle_lt_or_eq_dec _ _ L) as [L'|E]; [right; exact L'|]. left.
    assert (H' : In (g i, g j) (pairs (map g C))) by (rewrite pairs_map; apply in_map_iff; exists (i, j); auto).
    destruct (Forall2_in_left _ _ _ chain_along _ H') as (w & _ & A). apply (along_apart _ _ w A). auto.
  Qed.
  Lemma chain_stutters : stutters C.
  Proof.
    intros l1 x l2 l3 E y Hy. destruct (Z.eq_dec y x) as [Q|NE]; [exact Q|]. exfalso.
    destruct ends as [[Sa_ Na_] [Sb_ Nb_]].
    assert (Nab : a <> b) by (intros Q; inversion_clear ND as [|? ? N _]; apply N; rewrite Q; apply in_or_app; right; left; reflexivity).
    pose proof (leaving_a sites p a b Na_ Nb_ GA GB) as LA. pose proof (leaving_b sites p a b Sa_ Sb_ Na_ Nb_ Nab GA GB) as LB. set (u := leaving p a b) in *.
    assert (SUB : forall i, In i (x :: l2 ++ [x]) -> In i C). { intros i Hi. rewrite E. apply in_or_app. right. change (x :: l2 ++ x :: l3) with ((x :: l2) ++ ([x] ++ l3)). rewrite app_assoc. apply in_or_app. left. exact Hi. }
    assert (SUBP : forall e, In e (pairs (x :: l2 ++ [x])) -> In e (pairs C)).
    { intros e He. rewrite E. apply pairs_mid. change (x :: l2 ++ x :: l3) with ((x :: l2) ++ x :: l3). rewrite pairs_app. apply in_or_app. left. exact He. }
    assert (U : 0 < vdot u u). { destruct (Req_dec (fst u) 0) as [Z1|Z1], (Req_dec (snd u) 0) as [Z2|Z2]; unfold vdot; [unfold vcross in LB; rewrite Z1, Z2 in LB; lra|nra|nra|nra]. }
    assert (PE : pairs (g x :: map g l2 ++ [g x]) = map (fun e => (g (fst e), g (snd e))) (pairs (x :: l2 ++ [x]))) by (rewrite <- pairs_map; cbn [map]; rewrite map_app; reflexivity).
    destruct (loop_crosses p u U (g x) (map g l2)) as (e & He & S1 & S2 & O).
    { intros e He. rewrite PE in He. apply in_map_iff in He as ([i j] & <- & He). cbn [fst snd]. apply chain_pair_step, SUBP, He. }
    { destruct (Exists_dec (fun e : pt * pt => fst e <> snd e) (pairs (g x :: map g l2 ++ [g x]))) as [D|D].
      - intros e. destruct (pair_eq_dec (fst e) (snd e)); [right; auto|left; assumption].
      - apply Exists_exists in D. exact D.
      - exfalso. apply NE. apply inj; [apply in_or_app; left; apply SUB; right; apply in_or_app; left; exact Hy|apply in_or_app; left; apply SUB; left; reflexivity|].
        symmetry. apply (chain_all (fun z => g x = z) (fun z => g x = z) (g x) (map g l2 ++ [g x])); auto; [|apply in_or_app; left; apply in_map, Hy].
        intros e He Q. destruct (pair_eq_dec (fst e) (snd e)) as [W|W]; [congruence|]. exfalso. apply D, Exists_exists. exists e. auto. }
    rewrite PE in He. apply in_map_iff in He as ([i j] & <- & He). apply SUBP in He. cbn [fst snd] in *.
    assert (HE : In (g i, g j) (pairs (map g C))) by (rewrite pairs_map; apply in_map_iff; exists (i, j); auto).
    destruct (crossing_point p u U (g i) (g j) S1 S2 O) as (t & k & T & K & Q).
    destruct (PVorGeo.pairs_in _ _ He) as [Ci Cj]. cbn [fst snd] in Ci, Cj.
    assert (RQ : region (vadd p (vscale k u))).
    { rewrite <- Q. apply (hull_region sites p [g i; g j]); [intros c [<-|[<-|[]]]; apply chain_region; assumption|].
      intros d. destruct (Rle_dec (vdot d (g i)) (vdot d (g j))) as [L|L]; [exists (g j)|exists (g i)]; (split; [cbn; auto|]); unfold vdot, lerp in *; cbn [fst snd] in *; nra. }
    assert (MID : forall w, In w us -> along p (g i, g j) w -> False).
    { intros w Hw (Nw & D1 & D2). cbn [fst snd] in *. assert (Dq : dist (vadd p (vscale k u)) p = dist (vadd p (vscale k u)) w).
      { rewrite <- Q. apply dist_eq in D1, D2. assert (X : 2 * vdot (vsub w p) (vsub (lerp (g i) (g j) t) p) = vdot (vsub w p) (vsub w p)).
        { replace (vdot (vsub w p) (vsub (lerp (g i) (g j) t) p)) with ((1 - t) * vdot (vsub w p) (vsub (g i) p) + t * vdot (vsub w p) (vsub (g j) p)) by (unfold lerp, vdot, vsub; cbn [fst snd]; ring).
          replace (2 * ((1 - t) * vdot (vsub w p) (vsub (g i) p) + t * vdot (vsub w p) (vsub (g j) p))) with ((1 - t) * (2 * vdot (vsub w p) (vsub (g i) p)) + t * (2 * vdot (vsub w p) (vsub (g j) p))) by ring. rewrite D1, D2. ring. }
        apply Rle_antisym; [apply dist_le; lra|]. apply dist_le. unfold vdot, vsub in *. cbn [fst snd] in *. lra. }
      assert (Sw : In w sites). { destruct us as [|u0 us'] eqn:EU; [destruct Hw|]. rewrite <- EU in *. assert (Hi : In w (map fst (pairs ((a :: us) ++ [b])))) by (rewrite snoc_pairs_fst; right; exact Hw). apply in_map_iff in Hi as (e & <- & Hi).
        destruct (Forall2_in_left _ _ _ F e Hi) as (k0 & _ & SP). apply SP. }
      destruct (no_way_out sites p a b Sa_ Sb_ Na_ Nb_ Nab GA GB w k Sw Nw (IN w Hw) K Dq RQ) as [->| ->].
      - inversion_clear ND as [|? ? N _]. apply N, in_or_app. left. exact Hw.
      - inversion_clear ND as [|? ? _ N]. apply NoDup_remove_2 in N. rewrite app_nil_r in N. contradiction. }
    assert (NT : ts <> []) by (intros Q0; destruct (first_pair a us b) as (n & Hn); destruct (Forall2_in_left _ _ _ F _ Hn) as (k0 & Hk0 & _); rewrite Q0 in Hk0; destruct Hk0).
    assert (exists k1 r, ts = k1 :: r) as (k1 & r & ET) by (destruct ts; [contradiction|eauto]).
    pose proof chain_along as AL. destruct (Forall2_in_left _ _ _ AL _ HE) as (w & Hw & Aw).
    (* the first and the last step do not cross *)
    assert (X1 : vcross u (vsub (midpoint p a) p) > 0) by (unfold vcross, vsub, midpoint in *; cbn [fst snd] in *; lra).
    assert (X2 : vcross u (vsub (midpoint p b) p) < 0) by (unfold vcross, vsub, midpoint in *; cbn [fst snd] in *; lra).
    rewrite map_C in AL, HE. destruct (exists_last (l := map (fun k => g (ci k)) ts)) as (r' & z & EZ); [rewrite ET; discriminate|].
    assert (HE' : (g i, g j) = (midpoint p a, hd p (map (fun k => g (ci k)) ts)) \/ (g i, g j) = (z, midpoint p b) \/ exists w, In w us /\ along p (g i, g j) w).
    { assert (EQ : g (ci k1) :: map (fun k => g (ci k)) r ++ [midpoint p b] = (r' ++ [z]) ++ [midpoint p b]) by (rewrite <- EZ, ET; reflexivity).
      rewrite ET in AL, HE. cbn [map app] in AL, HE. rewrite pairs_cons, EQ, pairs_snoc in AL, HE. apply cons_forall2 in AL as (w0 & ws0 & E0 & A1 & A2). injection E0 as <- <-.
      destruct HE as [HE|HE]; [left; rewrite ET; cbn [map hd]; congruence|]. right. apply in_app_or in HE as [HE|[HE|[]]]; [|left; congruence]. right.
      apply Forall2_app_inv_l in A2 as (v1 & v2 & B1 & B2 & EV). inversion B2 as [|? ? ? ? B3 B4]; subst. inversion B4; subst. apply app_inj_tail in EV as [-> _]. destruct (Forall2_in_left _ _ _ B1 _ HE) as (w' & Hw' & Aw'). exists w'. auto. }
    destruct HE' as [Q'|[Q'|(w' & Hw' & Aw')]].
    - injection Q' as Q1 Q2. rewrite Q1 in S1. lra.
    - injection Q' as Q1 Q2. rewrite Q2 in S2. lra.
    - exact (MID w' Hw' Aw').
  Qed.
  Lemma around_C_nonneg : 0 <= around_p p (pairs (map g C)).
  Proof.
    unfold around_p. rewrite pairs_map, map_map. apply sumR_nonneg. intros x Hx. apply in_map_iff in Hx as ([i j] & <- & H). cbn [fst snd].
    destruct (chain_pair_step i j H) as [E|L]; [rewrite E; unfold orient, vcross, vsub; cbn [fst snd]; lra|lra].
  Qed.
End Chain.

(** * Areas of cells *)
Section Areas.
  Local Open Scope R_scope.
  Variable p : pt.
  Lemma around_closed x l : around_p p (edges_of (x :: l)) = around_p p (pairs (x :: l)) + orient p (last l x) x.
  Proof.
    unfold edges_of. destruct l as [|y l] using rev_ind; [cbn; unfold around_p; cbn; lra|]. clear IHl. rewrite last_last.
    change ((x :: l ++ [y]) ++ [x]) with (((x :: l) ++ [y]) ++ [x]). rewrite pairs_snoc, around_app. unfold around_p at 2. cbn. lra.
  Qed.
  Lemma around_same x : orient p x x = 0.
  Proof. unfold orient, vcross, vsub. cbn [fst snd]. lra. Qed.
  Variable h : Z -> pt.
  Lemma last_map (A B : Type) (k : A -> B) l d : last (map k l) (k d) = k (last l d).
  Proof. induction l as [|x [|y l] IH]; [reflexivity|reflexivity|]. exact IH. Qed.
  Lemma chain_cell i l : stutters (i :: l) -> orient p (h (last (i :: l) i)) (h i) = 0 ->
    shoelace (map h (dedup (i :: l))) = around_p p (pairs (map h (i :: l))) / 2.
  Proof.
    intros S O. destruct (stutters_dedup h (fun e => orient p (fst e) (snd e)) (i :: l) i around_same S) as [L E].
    rewrite (shoelace_around p). f_equal. pose proof (dedup_head i l) as HD. destruct (dedup (i :: l)) as [|j d]; [discriminate|]. injection HD as ->.
    cbn [map]. rewrite around_closed. unfold around_p in *. cbn [map] in E. rewrite E. rewrite (last_map _ _ h). replace (last d i) with (last (i :: l) i); [rewrite O; cbn [map]; lra|]. rewrite <- L. destruct d as [|y d]; [reflexivity|]. reflexivity.
  Qed.
  Lemma chain_cell_site i l r : stutters (i :: l) -> ~ In r (i :: l) -> h r = p -> shoelace (map h (dedup ((i :: l) ++ [r]))) = around_p p (pairs (map h (i :: l))) / 2.
  Proof.
    intros S N HR. destruct (stutters_dedup h (fun e => orient p (fst e) (snd e)) (i :: l) i around_same S) as [L E].
    rewrite dedup_snoc by exact N. rewrite (shoelace_around p). f_equal. pose proof (dedup_head i l) as HD. destruct (dedup (i :: l)) as [|j d]; [discriminate|]. injection HD as ->.
    rewrite map_app. cbn [map app]. rewrite around_closed, last_last, HR. assert (Z1 : orient p p (h i) = 0) by (unfold orient, vcross, vsub; cbn [fst snd]; lra). rewrite Z1.
    unfold around_p in *. cbn [map] in E. rewrite <- E. destruct d as [|z d] using rev_ind; cbn [map app].
    - cbn. unfold orient, vcross, vsub; cbn [fst snd]; lra.
    - clear IHd. rewrite map_app. cbn [map app]. change (h i :: (map h d ++ [h z]) ++ [p]) with ((((h i :: map h d) ++ [h z])) ++ [p]). rewrite pairs_snoc, map_app, sumR_app. cbn. unfold orient at 2, vcross, vsub. cbn [fst snd].
      lra.
  Qed.
  Lemma around_rev es : around_p p (pairs (rev es)) = - around_p p (pairs es).
  Proof.
    induction es as [|x [|y es] IH]; [unfold around_p; cbn; lra|unfold around_p; cbn; lra|]. cbn [rev] in *. rewrite pairs_snoc, around_app, IH, pairs_cons. unfold around_p. cbn. unfold orient at 2 3, vcross, vsub. cbn [fst snd]. lra.
  Qed.
End Areas.
