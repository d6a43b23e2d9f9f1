(** Property theorems: point containment (C22, C23). *)
From Coq Require Import Reals Lra Psatz Permutation.
From Verif Require Import Base Spec MUtil MGeom MHull MPolygon MMaps MTriangle MGen MRegion Bridge PUtil PPoint PSegment PPoly PContains PRegion PBorder Samples.
Local Open Scope R_scope.

(** C22 *)
Theorem C22_even_odd_or_border : forall tol (idx : list Z) (p : list (Point RNum)) (q : Point RNum) vs,
  0 < tol -> vertices_are p idx vs -> no_short_edge tol (map xy vs) ->
  exists b, containsPoint (N := RNum) tol idx p q = Ok b /\
    (b = true <-> even_odd (xy q) (map xy vs) = true \/ near_border tol (xy q) (map xy vs)).
Proof. exact contains_char. Qed.
Print Assumptions C22_even_odd_or_border.

(** the border test, and the edge it finds *)
Theorem C22_container_edge : forall tol (idx : list Z) (p : list (Point RNum)) (q : Point RNum) vs,
  0 < tol -> vertices_are p idx vs ->
  exists s b, containerEdge (N := RNum) tol idx p q = Ok s /\ inEdges (N := RNum) tol idx p q = Ok b /\
    (b = true <-> near_border tol (xy q) (map xy vs)) /\
    (b = false -> s = (-1, -1)%Z) /\
    (b = true -> exists k A B, nth_error (edges_of idx) k = Some s /\ nth_error (edges_of (map xy vs)) k = Some (A, B) /\ near_segment tol A B (xy q) /\
       forall j A' B', (j < k)%nat -> nth_error (edges_of (map xy vs)) j = Some (A', B') -> ~ near_segment tol A' B' (xy q)).
Proof. exact container_plane. Qed.
Print Assumptions C22_container_edge.

Theorem C22_border_contained : forall tol (idx : list Z) (p : list (Point RNum)) (q : Point RNum) vs,
  0 < tol -> vertices_are p idx vs -> on_border (xy q) (map xy vs) ->
  containsPoint (N := RNum) tol idx p q = Ok true.
Proof. exact contains_border. Qed.
Print Assumptions C22_border_contained.

Theorem C22_outside_box : forall tol (idx : list Z) (p : list (Point RNum)) (q : Point RNum) vs,
  0 < tol -> vertices_are p idx vs -> no_short_edge tol (map xy vs) ->
  (forall v, In v vs -> px v + tol <= px q) \/ (forall v, In v vs -> px q <= px v - tol) \/
  (forall v, In v vs -> py v + tol <= py q) \/ (forall v, In v vs -> py q <= py v - tol) ->
  containsPoint (N := RNum) tol idx p q = Ok false.
Proof. exact contains_outside. Qed.
Print Assumptions C22_outside_box.

Theorem C22_crossing_rule : forall (q : pt) (vs : list pt),
  (forall l1 l2, vs = l1 ++ l2 -> even_odd q (l2 ++ l1) = even_odd q vs) /\
  even_odd q (rev vs) = even_odd q vs /\ even_odd q vs = parity (map (even_odd q) (fan vs)).
Proof. exact even_odd_invariant. Qed.
Print Assumptions C22_crossing_rule.

Theorem C22_convex : forall tol (idx : list Z) (p : list (Point RNum)) (q : Point RNum) vs,
  0 < tol -> vertices_are p idx vs -> no_short_edge tol (map xy vs) -> strictly_convex (map xy vs) ->
  ((forall a b, In (a, b) (edges_of (map xy vs)) -> 0 < orient a b (xy q)) -> containsPoint (N := RNum) tol idx p q = Ok true) /\
  ((exists a b, In (a, b) (edges_of (map xy vs)) /\ orient a b (xy q) < 0) ->
   exists b, containsPoint (N := RNum) tol idx p q = Ok b /\ (b = true <-> near_border tol (xy q) (map xy vs))).
Proof. exact contains_convex. Qed.
Print Assumptions C22_convex.

Example C22_instance :
  vertices_are (N := RNum) quad [0; 1; 2; 3]%Z quad /\ no_short_edge (1 / 100000) (map xy quad) /\ strictly_convex (map xy quad) /\
  (forall a b, In (a, b) (edges_of (map xy quad)) -> 0 < orient a b (1, 1)) /\
  (exists a b, In (a, b) (edges_of (map xy quad)) /\ orient a b (5, 3) < 0) /\
  on_border (9 / 2, 3 / 2) (map xy quad).
Proof.
  unfold quad, xy; cbn [map px py]. split; [repeat constructor; discriminate|]. split.
  { intros a b H. unfold edges_of in H; cbn in H. unfold coincide.
    repeat (destruct H as [[= <- <-]|H]; [cbn [fst snd]; unfold Rabs; repeat destruct Rcase_abs; lra|]). destruct H. }
  split.
  { split; [cbn; lia|]. split.
    - repeat (apply NoDup_cons; [cbn; intros H; repeat (destruct H as [[= H1 H2]|H]; [lra|]); destruct H|]). apply NoDup_nil.
    - intros a b v H Hv N1 N2. unfold edges_of in H; cbn in H, Hv. unfold orient, vcross, vsub.
      repeat (destruct H as [[= <- <-]|H]; [repeat (destruct Hv as [<-|Hv]; [first [congruence|cbn [fst snd]; lra]|]); destruct Hv|]). destruct H. }
  split.
  { intros a b H. unfold edges_of in H; cbn in H. unfold orient, vcross, vsub.
    repeat (destruct H as [[= <- <-]|H]; [cbn [fst snd]; lra|]). destruct H. }
  split.
  - exists (5, -1), (4, 4). split; [unfold edges_of; cbn; auto|]. unfold orient, vcross, vsub; cbn [fst snd]. lra.
  - exists (5, -1), (4, 4). split; [unfold edges_of; cbn; auto|]. exists (1 / 2). split; [lra|]. unfold lerp; cbn [fst snd]. f_equal; lra.
Qed.

(** C23: [q] may be at any distance to the right of the outline. *)
Theorem C23_gap : forall tol (idx : list Z) (p : list (Point RNum)) (q : Point RNum) m (l l' : Point RNum),
  0 < tol -> vertices_are p idx (m ++ [l; l']) -> coincide tol (xy l) (xy l') ->
  (forall a b, In (a, b) (pairs (xy l' :: map xy m ++ [xy l])) -> ~ coincide tol a b) ->
  exists b, containsPoint (N := RNum) tol idx p q = Ok b /\
    (b = true <-> xorb (even_odd (xy q) (map xy (m ++ [l; l']))) (crosses_left (xy q) (xy l) (xy l')) = true \/
                  near_border tol (xy q) (map xy (m ++ [l; l']))).
Proof. exact gap_char. Qed.
Print Assumptions C23_gap.

Theorem C23_far_points_accepted : forall tol (idx : list Z) (p : list (Point RNum)) (q : Point RNum) m (l l' : Point RNum),
  0 < tol -> vertices_are p idx (m ++ [l; l']) -> coincide tol (xy l) (xy l') ->
  (forall a b, In (a, b) (pairs (xy l' :: map xy m ++ [xy l])) -> ~ coincide tol a b) ->
  (forall v, In v (m ++ [l; l']) -> px v < px q) ->
  Rmin (py l) (py l') <= py q < Rmax (py l) (py l') ->
  containsPoint (N := RNum) tol idx p q = Ok true.
Proof. exact gap_far. Qed.
Print Assumptions C23_far_points_accepted.

Theorem C23_refuted : exists (idx : list Z) (p : list (Point F64)),
  containsPoint (N := F64) (F64_dec 1 100000) idx p (dpt 20 1 9999997 1000000) = Ok true /\
  containsPoint (N := F64) (F64_dec 1 100000) idx p (dpt 1000000 1 9999997 1000000) = Ok true /\
  containsPoint (N := F64) (F64_dec 1 100000) idx p (dpt 20 1 5 1) = Ok false /\
  forallb (fun v : Point F64 => nleb (n := F64) (px v) (nZ 10)) p = true.
Proof.
  exists [0; 1; 2; 3; 4]%Z, [dpt 0 1 0 1; dpt 10 1 0 1; dpt 10 1 10 1; dpt 0 1 10 1; dpt 0 1 9999995 1000000].
  repeat split; vm_compute; reflexivity.
Qed.
Print Assumptions C23_refuted.

Definition gap_outline : list (Point RNum) := [mkP (N := RNum) 0 0; mkP (N := RNum) 10 0; mkP (N := RNum) 10 10].
Example C23_instance : forall x, 10 < x ->
  let l := mkP (N := RNum) 0 10 in let l' := mkP (N := RNum) 0 (9999995 / 1000000) in
  let q := mkP (N := RNum) x (9999997 / 1000000) in
  vertices_are (N := RNum) (gap_outline ++ [l; l']) [0; 1; 2; 3; 4]%Z (gap_outline ++ [l; l']) /\ coincide (1 / 100000) (xy l) (xy l') /\
  (forall a b, In (a, b) (pairs (xy l' :: map xy gap_outline ++ [xy l])) -> ~ coincide (1 / 100000) a b) /\
  (forall v, In v (gap_outline ++ [l; l']) -> px v < px q) /\
  Rmin (py l) (py l') <= py q < Rmax (py l) (py l').
Proof.
  intros x Hx l l' q. split; [repeat constructor; discriminate|]. split.
  { unfold coincide, xy; cbn. unfold Rabs; repeat destruct Rcase_abs; lra. }
  split.
  { intros a b H. unfold xy in H; cbn in H. unfold coincide.
    repeat (destruct H as [[= <- <-]|H]; [cbn [fst snd]; unfold Rabs; repeat destruct Rcase_abs; lra|]). destruct H. }
  split.
  - intros v Hv. cbn in Hv. repeat (destruct Hv as [<-|Hv]; [cbn; lra|]). destruct Hv.
  - cbn. rewrite Rmin_right, Rmax_left by lra. lra.
Qed.
