(** Sums along closed paths that vanish on lines, as the area and the winding number, around a Voronoi cell. *)
From Coq Require Import Reals Lra Lia ZArith List Bool Permutation.
From Verif Require Import Base Spec MUtil MGeom MHull MPolygon MMaps MTriangle MGen MRegion MDelaunay MVoronoi Bridge.
From Verif Require Import PUtil PPoint PPoly PPoly2 PTri PMore PContains PDelaunay PVoronoi PFan PVorGeo PVorCell PConvex PVorConvex PWedge PBorderCell PVorBorder PTile PTile2 PAny2.
Import ListNotations.

(** a quantity of steps that changes its sign with the direction and adds up along lines *)
Definition additive (w : pt -> pt -> R) : Prop :=
  (forall a b, w b a = - w a b)%R /\ (forall a b m, orient a b m = 0%R -> w a b = (w a m + w m b)%R).

Section Additive.
  Local Open Scope R_scope.
  Variable w : pt -> pt -> R.
  Hypothesis W : additive w.
  Let anti := proj1 W.
  Let line := proj2 W.
  Lemma w_same x : w x x = 0.
  Proof. pose proof (anti x x). lra. Qed.
  Definition along_w (es : list (pt * pt)) : R := sumR (map (fun e => w (fst e) (snd e)) es).
  Definition loop_w (Q : list pt) : R := along_w (edges_of Q).
  Lemma along_w_app es es' : along_w (es ++ es') = along_w es + along_w es'.
  Proof. unfold along_w. rewrite map_app. apply sumR_app. Qed.
  Definition tri_w (p x y : pt) : R := w p x + w x y + w y p.
  Lemma tri_same p x : tri_w p x x = 0.
  Proof. unfold tri_w. rewrite (w_same x), (anti p x). lra. Qed.
  Lemma tri_p p x : tri_w p x p = 0.
  Proof. unfold tri_w. rewrite (w_same p), (anti p x). lra. Qed.
  Lemma tri_p' p x : tri_w p p x = 0.
  Proof. unfold tri_w. rewrite (w_same p), (anti p x). lra. Qed.
  Lemma tri_anti p x y : tri_w p y x = - tri_w p x y.
  Proof. unfold tri_w. rewrite (anti p x), (anti p y), (anti x y). lra. Qed.
  Lemma tri_flat p x y : orient x y p = 0 -> tri_w p x y = 0.
  Proof. intros O. unfold tri_w. rewrite (line x y p O), (anti p x), (anti p y). lra. Qed.
  Definition fan_w (p : pt) (es : list (pt * pt)) : R := sumR (map (fun e => tri_w p (fst e) (snd e)) es).
  Lemma fan_w_app p es es' : fan_w p (es ++ es') = fan_w p es + fan_w p es'.
  Proof. unfold fan_w. rewrite map_app. apply sumR_app. Qed.
  Lemma pairs_fan p x l : fan_w p (pairs (x :: l)) = w p x + along_w (pairs (x :: l)) + w (last l x) p.
  Proof.
    revert x. induction l as [|y l IH]; intros x.
    - unfold fan_w, along_w. cbn. pose proof (anti p x). lra.
    - rewrite pairs_cons. unfold fan_w, along_w in *. cbn [map fst snd sumR fold_right]. specialize (IH y). unfold sumR in IH. rewrite IH. unfold tri_w. rewrite (anti p y).
      replace (last (y :: l) x) with (last l y); [lra|]. destruct l as [|z l]; [reflexivity|]. exact (last_any z l y x).
  Qed.
  Lemma loop_fan p Q : loop_w Q = fan_w p (edges_of Q).
  Proof.
    destruct Q as [|x l]; [reflexivity|]. unfold loop_w, edges_of. cbn [app]. rewrite (pairs_fan p). rewrite last_last, (anti p x). lra.
  Qed.
  Lemma along_rev es : along_w (pairs (rev es)) = - along_w (pairs es).
  Proof.
    induction es as [|x [|y es] IH]; [unfold along_w; cbn; lra|unfold along_w; cbn; lra|]. cbn [rev] in *. rewrite pairs_snoc, along_w_app, IH, pairs_cons. unfold along_w. cbn. rewrite (anti x y). lra.
  Qed.
  Lemma fan_rev p es : fan_w p (pairs (rev es)) = - fan_w p (pairs es).
  Proof.
    induction es as [|x [|y es] IH]; [unfold fan_w; cbn; lra|unfold fan_w; cbn; lra|]. cbn [rev] in *. rewrite pairs_snoc, fan_w_app, IH, pairs_cons. unfold fan_w. cbn. rewrite (tri_anti p x y). lra.
  Qed.
  Lemma loop_rev Q : loop_w (rev Q) = - loop_w Q.
  Proof.
    unfold loop_w, along_w. rewrite (sumR_perm _ _ (Permutation_map _ (edges_of_rev Q))), map_map. cbn [fst snd].
    induction (edges_of Q) as [|[x y] es IH]; [cbn; lra|]. cbn [map fst snd]. unfold sumR in *. cbn [fold_right] in *. rewrite (anti x y). lra.
  Qed.

  Section Kites.
    Variable p : pt.
    Definition kite_w (a b c : pt) : R := tri_w p (midpoint p a) c + tri_w p c (midpoint p b).
    Definition kites_w (l : list ((pt * pt) * pt)) : R := sumR (map (fun x => kite_w (fst (fst x)) (snd (fst x)) (snd x)) l).
    Lemma along_cut_w x y u : along p (x, y) u -> tri_w p x y = tri_w p x (midpoint p u) + tri_w p (midpoint p u) y.
    Proof.
      intros A. pose proof (along_cut p x y u A) as C. set (m := midpoint p u) in *.
      assert (O : orient x y m = 0) by (unfold orient, vcross, vsub in *; cbn [fst snd] in *; lra). unfold tri_w. rewrite (line x y m O), (anti m p). lra.
    Qed.
    Lemma equi_area_w us : forall a b c cs, Forall2 (equi p) (pairs (a :: us ++ [b])) (c :: cs) ->
      tri_w p (midpoint p a) c + fan_w p (pairs (c :: cs)) + tri_w p (last (c :: cs) c) (midpoint p b) = kites_w (combine (pairs (a :: us ++ [b])) (c :: cs)).
    Proof.
      induction us as [|u us IH]; intros a b c cs F.
      - cbn [app] in *. rewrite pairs_cons in *. inversion F as [|? ? ? ? _ F2]; subst. inversion F2; subst. cbn. unfold kites_w, kite_w, fan_w. cbn. lra.
      - cbn [app] in *. rewrite pairs_cons in *. apply cons_forall2 in F as (c0 & cs0 & E0 & F1 & F2). injection E0 as <- <-.
        destruct cs as [|c' cs]; [destruct (equi_ne _ _ _ _ F2)|].
        specialize (IH u b c' cs F2). destruct (equi_first p us u b c' cs F2) as (z & F3).
        cbn [combine]. unfold kites_w in *. cbn [map fst snd sumR fold_right]. fold (sumR (map (fun x => kite_w (fst (fst x)) (snd (fst x)) (snd x)) (combine (pairs (u :: us ++ [b])) (c' :: cs)))).
        rewrite <- IH. rewrite (pairs_cons c c' cs). unfold fan_w. cbn [map fst snd sumR fold_right]. fold (sumR (map (fun e => tri_w p (fst e) (snd e)) (pairs (c' :: cs)))).
        rewrite (along_cut_w c c' u) by (unfold equi, along in *; cbn [fst snd] in *; tauto).
        replace (last (c :: c' :: cs) c) with (last (c' :: cs) c'); [unfold kite_w; lra|].
        apply (last_any c' cs c' c).
    Qed.
    Lemma closed_loop_w us x cs : Forall2 (equi p) (pairs (x :: us ++ [x])) cs -> loop_w cs = kites_w (combine (pairs (x :: us ++ [x])) cs).
    Proof.
      intros F. destruct cs as [|c cs]; [destruct (equi_ne _ _ _ _ F)|].
      rewrite (loop_fan p). rewrite <- (equi_area_w us x x c cs F).
      destruct (exists_last (l := c :: cs) ltac:(discriminate)) as (r & z & E). unfold edges_of.
      rewrite E, pairs_snoc, <- E, fan_w_app. unfold fan_w at 2. cbn [map fst snd sumR fold_right].
      replace (last (c :: cs) c) with z by (rewrite E, last_last; reflexivity).
      rewrite E in F. destruct (equi_last p us x x r z F) as (y & F2). rewrite <- E in F. destruct (equi_first p us x x c cs F) as (y' & F1).
      rewrite (along_cut_w z c x) by (unfold equi, along in *; cbn [fst snd] in *; tauto). lra.
    Qed.
    Lemma open_pairs_w a b us cs : Forall2 (equi p) (pairs (a :: us ++ [b])) cs -> fan_w p (pairs (midpoint p a :: cs ++ [midpoint p b])) = kites_w (combine (pairs (a :: us ++ [b])) cs).
    Proof.
      intros F. destruct cs as [|c r]; [destruct (equi_ne _ _ _ _ F)|]. rewrite <- (equi_area_w us a b c r F).
      destruct (exists_last (l := c :: r) ltac:(discriminate)) as (r' & z & E). cbn [app]. rewrite pairs_cons.
      change (c :: r ++ [midpoint p b]) with ((c :: r) ++ [midpoint p b]). replace (last (c :: r) c) with z by (rewrite E, last_last; reflexivity). rewrite E, pairs_snoc, <- E. unfold fan_w. cbn [map fst snd sumR fold_right]. fold (sumR (map (fun e => tri_w p (fst e) (snd e)) (pairs (c :: r) ++ [(z, midpoint p b)]))).
      rewrite map_app, sumR_app. cbn. lra.
    Qed.
  End Kites.
  Lemma chain_loop_w P Q : strictly_convex P -> (forall x, In x P <-> In x Q) ->
    (forall x y, In (x, y) (edges_of Q) -> forall z, In z Q -> (0 <= orient x y z)%R) -> NoDup (filter moves (edges_of Q)) -> loop_w P = loop_w Q.
  Proof.
    intros SC S L ND. pose proof SC as (L3 & NP & ST).
    assert (E1 : forall x y, In (x, y) (edges_of Q) -> x <> y -> In (x, y) (edges_of P)).
    { intros x y H N. destruct (edge_in _ _ _ H) as [Ix Iy]. apply S in Ix. destruct (proj1 (in_edge_of P x Ix)) as (z & Hz).
      destruct (pair_eq_dec z y) as [->|NZ]; [exact Hz|]. exfalso. destruct (edge_in _ _ _ Hz) as [_ Iz].
      assert (A : (0 < orient x z y)%R) by (apply (ST x z y Hz); [apply S; exact Iy|congruence|congruence]).
      pose proof (L x y H z (proj1 (S z) Iz)) as B. unfold orient, vcross, vsub in *. cbn [fst snd] in *. lra. }
    assert (PE : Permutation (edges_of P) (filter moves (edges_of Q))).
    { apply NoDup_Permutation; [apply edges_nodup; exact SC|exact ND|]. intros [x y]. rewrite filter_In, moves_iff. cbn [fst snd]. split; [|intros [H N]; apply E1; assumption].
      intros H. pose proof (convex_edge P SC x y H) as N. split; [|exact N]. destruct (edge_in _ _ _ H) as [Ix Iy]. apply S in Ix. pose proof (proj1 (S y) Iy) as Iy'.
      destruct (leaves Q x y Ix Iy' N) as (z & Hz & NZ). pose proof (E1 x z Hz ltac:(congruence)) as K. rewrite (same_fst P SC x y z H K). exact Hz. }
    unfold loop_w, along_w. rewrite (sum_moves _ (edges_of Q)) by (intros a; apply w_same). apply sumR_perm, Permutation_map, PE.
  Qed.
  (** the cells of chains *)
  Section Cells.
    Variable p : pt.
    Variable h : Z -> pt.
    Lemma last_map_w (A B : Type) (k : A -> B) l d : last (map k l) (k d) = k (last l d).
    Proof. induction l as [|x [|y l] IH]; [reflexivity|reflexivity|]. exact IH. Qed.
    Lemma fan_closed x l : fan_w p (edges_of (x :: l)) = fan_w p (pairs (x :: l)) + tri_w p (last l x) x.
    Proof.
      unfold edges_of. destruct l as [|y l] using rev_ind; [cbn; unfold fan_w; cbn; lra|]. clear IHl. rewrite last_last.
      change ((x :: l ++ [y]) ++ [x]) with (((x :: l) ++ [y]) ++ [x]). rewrite pairs_snoc, fan_w_app. unfold fan_w at 2. cbn. lra.
    Qed.
    Lemma chain_cell_w i l : stutters (i :: l) -> tri_w p (h (last (i :: l) i)) (h i) = 0 ->
      loop_w (map h (dedup (i :: l))) = fan_w p (pairs (map h (i :: l))).
    Proof.
      intros S O. destruct (stutters_dedup h (fun e => tri_w p (fst e) (snd e)) (i :: l) i (tri_same p) S) as [L E].
      rewrite (loop_fan p). pose proof (dedup_head i l) as HD. destruct (dedup (i :: l)) as [|j d]; [discriminate|]. injection HD as ->.
      cbn [map]. rewrite fan_closed. unfold fan_w in *. cbn [map] in E. rewrite E. rewrite (last_map_w _ _ h). replace (last d i) with (last (i :: l) i); [rewrite O; cbn [map]; lra|]. rewrite <- L. destruct d as [|y d]; [reflexivity|]. reflexivity.
    Qed.
    Lemma chain_cell_site_w i l r : stutters (i :: l) -> ~ In r (i :: l) -> h r = p -> loop_w (map h (dedup ((i :: l) ++ [r]))) = fan_w p (pairs (map h (i :: l))).
    Proof.
      intros S N HR. destruct (stutters_dedup h (fun e => tri_w p (fst e) (snd e)) (i :: l) i (tri_same p) S) as [L E].
      rewrite dedup_snoc by exact N. rewrite (loop_fan p). pose proof (dedup_head i l) as HD. destruct (dedup (i :: l)) as [|j d]; [discriminate|]. injection HD as ->.
      rewrite map_app. cbn [map app]. rewrite fan_closed, last_last, HR, tri_p'.
      unfold fan_w in *. cbn [map] in E. rewrite <- E. destruct d as [|z d] using rev_ind; cbn [map app].
      - cbn. rewrite tri_p. lra.
      - clear IHd. rewrite map_app. cbn [map app]. change (h i :: (map h d ++ [h z]) ++ [p]) with ((((h i :: map h d) ++ [h z])) ++ [p]). rewrite pairs_snoc, map_app, sumR_app. cbn. rewrite tri_p. lra.
    Qed.
  End Cells.
End Additive.

Section Fans.
  Local Open Scope Z_scope.
  Notation Pt := (Point RNum).
  Variable o : trout RNum.
  Hypothesis T : triangulation (zlen (o_points o)) (map fst (o_edges o)) (o_tris o).
  Notation tris := (o_tris o).
  Notation mp := (map read_point (o_points o)).
  Notation sites := (map xy mp).
  Hypothesis DO : directed_once tris.
  Hypothesis DT : forall t A B C, In t tris -> vertices_are mp (corners t) [A; B; C] -> delaunay_triangle sites (xy A) (xy B) (xy C).
  Hypothesis NS : NoDup sites.
  Variable cc : list Pt.
  Variable ci : nat -> Z.
  Hypothesis CI : forall k t, nth_error tris k = Some t -> exists c y, center_of o k c /\ vertices_are cc [ci k] [y] /\ xy y = xy c.
  Notation f := (at_index cc).
  Notation ctr := (fun k => f (ci k)).
  Variable w : pt -> pt -> R.
  Hypothesis W : additive w.
  Definition quad_w (v : Z) (k : nat) : R :=
    match nth_error tris k with
    | Some (A, B, C) => (if v =? A then kite_w w (pos o A) (pos o B) (pos o C) (f (ci k)) else 0) +
        (if v =? B then kite_w w (pos o B) (pos o C) (pos o A) (f (ci k)) else 0) + (if v =? C then kite_w w (pos o C) (pos o A) (pos o B) (f (ci k)) else 0)
    | None => 0
    end%R.
  Lemma quad_w_turn v a b k : turn_left tris v (a, b) k -> quad_w v k = kite_w w (pos o v) (pos o a) (pos o b) (f (ci k)).
  Proof.
    intros (t & Hk & D). unfold quad_w. rewrite Hk. pose proof (tg_corners _ _ _ T t (nth_error_In _ _ Hk)) as ND. destruct t as [[A B] C]. cbn [corners] in ND.
    inversion_clear ND as [|? ? N1 N2]. inversion_clear N2 as [|? ? N3 _]. cbn [In] in *.
    assert (Q : (v = A /\ a = B /\ b = C) \/ (v = B /\ a = C /\ b = A) \/ (v = C /\ a = A /\ b = B)).
    { destruct D as (D1 & D2 & _). unfold sides in *. cbn [In fst snd] in *. destruct D1 as [D1|[D1|[D1|[]]]], D2 as [D2|[D2|[D2|[]]]]; inversion D1; inversion D2; subst; intuition congruence. }
    destruct Q as [(-> & -> & ->)|[(-> & -> & ->)|(-> & -> & ->)]];
    repeat match goal with |- context [?x =? ?y] => destruct (Z.eqb_spec x y); [try (exfalso; intuition congruence)|try (exfalso; intuition congruence)] end; lra.
  Qed.
  Lemma quad_w_outside v k t : nth_error tris k = Some t -> ~ In v (corners t) -> quad_w v k = 0%R.
  Proof.
    intros Hk N. unfold quad_w. rewrite Hk. destruct t as [[A B] C]. cbn [corners In] in N.
    repeat match goal with |- context [?x =? ?y] => destruct (Z.eqb_spec x y); [exfalso; intuition congruence|] end; lra.
  Qed.
  Lemma mid_sym a b : midpoint a b = midpoint b a.
  Proof. unfold midpoint. f_equal; lra. Qed.
  Lemma mid_w a b : (w a b = w a (midpoint a b) + w (midpoint a b) b)%R.
  Proof. apply (proj2 W). unfold orient, vcross, vsub, midpoint. cbn [fst snd]. lra. Qed.
  Lemma quad_w_total V k A B C : nth_error tris k = Some (A, B, C) -> NoDup V -> In A V -> In B V -> In C V ->
    sumR (map (fun v => quad_w v k) V) = tri_w w (pos o A) (pos o B) (pos o C).
  Proof.
    intros Hk ND IA IB IC. unfold quad_w. rewrite Hk. rewrite !sumR_map_add, !sumR_delta by assumption.
    set (a := pos o A). set (b := pos o B). set (c := pos o C). set (x := f (ci k)). clearbody a b c x. unfold kite_w, tri_w.
    rewrite (mid_w a b), (mid_w b c), (mid_w c a), (mid_sym b a), (mid_sym c b), (mid_sym a c). destruct W as [anti _].
    set (ab := midpoint a b). set (bc := midpoint b c). set (ca := midpoint c a).
    rewrite (anti x ab), (anti x bc), (anti x ca), (anti a x), (anti b x), (anti c x). lra.
  Qed.
  Lemma turns_kites_w v X ts : Forall2 (turn_left tris v) (pairs X) ts -> kites_w w (pos o v) (combine (pairs (map (pos o) X)) (map ctr ts)) = sumR (map (quad_w v) ts).
  Proof.
    intros F. rewrite pairs_map. revert F. generalize (pairs X). unfold kites_w. induction 1 as [|[a b] k es ts H F IH]; [reflexivity|]. cbn [map combine fst snd sumR fold_right] in *.
    rewrite (quad_w_turn v a b k H). f_equal. exact IH.
  Qed.
  Lemma inner_loop_w v ws ts pts segs : closed_fan (map fst (o_edges o)) tris v ws ts -> inner_cell ci ts pts segs -> strictly_convex (map f pts) ->
    exists ts', all_at o v ts' /\ loop_w w (map f pts) = sumR (map (quad_w v) ts').
  Proof.
    intros (u & ws' & -> & SEC & ND & L3 & AR & _) (l & TU & PT & _) SC. cbn [app] in SEC.
    assert (exists us ts', Forall2 (turn_left tris v) (pairs (u :: us ++ [u])) ts' /\ (ts' = ts \/ ts' = rev ts) /\ NoDup (u :: us)) as (us & ts' & F & TS & NU).
    { destruct (sector_turn tris v (tg_corners _ _ _ T) DO _ _ SEC (closed_simple u ws' ND L3)) as [F|F]; [exists ws', ts; tauto|].
      apply turn_rev in F. cbn [rev] in F. rewrite rev_app_distr in F. exists (rev ws'), (rev ts). split; [exact F|]. split; [tauto|].
      inversion_clear ND as [|? ? N1 N2]. constructor; [rewrite <- in_rev; exact N1|apply NoDup_rev, N2]. }
    clear SEC. exists ts'.
    assert (IT : forall k, In k ts' <-> In k ts) by (intros k; destruct TS as [-> | ->]; [reflexivity|symmetry; apply in_rev]).
    split.
    { split; [exact (turn_nodup o T v (u :: us) u ts' F NU)|]. intros k. split.
      - intros H. destruct (Forall2_in_right _ _ _ F k H) as (e & _ & TE). destruct (turn_corner o v e k TE) as (t & H1 & H2 & _). exists t. auto.
      - intros (t & H1 & H2). apply IT, (AR k t H1 H2). }
    pose proof (turns_equi o T DT cc ci CI v _ ts' F) as FE. cbn [map] in FE. rewrite map_app in FE. cbn [map] in FE.
    rewrite <- (turns_kites_w v _ ts' F). cbn [map]. rewrite map_app. cbn [map]. rewrite <- (closed_loop_w w W (pos o v) (map (pos o) us) (pos o u) (map ctr ts') FE).
    apply (chain_loop_w w W); [exact SC| | |].
    - intros x. split.
      + intros H. apply in_map_iff in H as (i & <- & Hi). assert (Hl : In i (map ci l)) by (destruct PT as [-> | ->]; rewrite <- ?in_rev, dedup_in in Hi; exact Hi).
        apply in_map_iff in Hl as (k & <- & Hk). apply in_map_iff. exists k. split; [reflexivity|]. apply IT, (turned_in _ _ _ TU), Hk.
      + intros H. apply in_map_iff in H as (k & <- & Hk). apply in_map. assert (Hl : In (ci k) (map ci l)) by (apply in_map, (turned_in _ _ _ TU), IT, Hk).
        destruct PT as [-> | ->]; rewrite <- ?in_rev, dedup_in; exact Hl.
    - intros x y H z Hz. rewrite edges_of_map in H. apply in_map_iff in H as ([k k'] & E & H). cbn [fst snd] in E. injection E as <- <-.
      apply in_map_iff in Hz as (k2 & <- & Hk2). destruct (Forall2_in_right _ _ _ F k2 Hk2) as ([a2 b2] & _ & H2).
      destruct (fan_center o T DT cc ci CI v a2 b2 k2 H2) as (c2 & _ & -> & _ & _ & _ & _ & _ & R2).
      destruct (consecutive_closed _ _ _ _ F k k' H) as (a & b & d & H1 & H3).
      destruct (fan_center o T DT cc ci CI v a b k H1) as (c & _ & -> & O & I1 & I2 & D1 & D2 & _), (fan_center o T DT cc ci CI v b d k' H3) as (c' & _ & -> & _ & _ & _ & D3 & _ & R').
      apply (step_left sites (pos o v) (pos o a) (pos o b)); auto.
    - apply (closed_nodup (pos o v) (map (pos o) us) (pos o u)); [exact FE|]. change (pos o u :: map (pos o) us) with (map (pos o) (u :: us)). apply (map_pos_nodup o DT NS); [|exact NU].
      intros i Hi. assert (Hi' : In i (map fst (pairs ((u :: us) ++ [u])))) by (rewrite snoc_pairs_fst; exact Hi). apply in_map_iff in Hi' as (e & <- & He).
      destruct (Forall2_in_left _ _ _ F e He) as (k & _ & TE). apply (turn_site o T DT cc ci CI v e k); auto.
  Qed.
End Fans.
