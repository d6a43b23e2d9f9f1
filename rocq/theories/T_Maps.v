(** Property theorems: hash keys, SegmentMap, PointMap (C06, C08, C09, C10). *)
From Coq Require Import Reals Lra.
From Verif Require Import Base Spec MUtil MGeom MMaps Bridge PUtil PPoint PMaps.

(** C06: == on IndexSegment, Key, NeighboursBySegment and EdgeData is equality of
    unordered pairs ([canon] sorts a pair), hence an equivalence. *)
Theorem C06_equality_is_unordered :
  (forall a b : iseg, iseg_eqb a b = true <-> (a = b \/ a = (snd b, fst b))) /\
  (forall a b : key, key_eqb a b = true <-> (a = b \/ a = (snd b, fst b))) /\
  (forall a b : Z * Z, nb_eqb a b = true <-> (a = b \/ a = (snd b, fst b))) /\
  (forall a b : edge, edge_eqb a b = true <->
     ((e_p1 a, e_p2 a) = (e_p1 b, e_p2 b) \/ (e_p1 a, e_p2 a) = (e_p2 b, e_p1 b))).
Proof. exact equality_unordered. Qed.
Print Assumptions C06_equality_is_unordered.

(** C06: equal keys hash equally; a lookup finds the same entry whatever the number of
    buckets and the orientation of the key. *)
Theorem C06_lookup_independent_of_orientation_and_buckets :
  (forall a b : iseg, iseg_eqb a b = true -> iseg_hash a = iseg_hash b) /\
  (forall a b : key, key_eqb a b = true -> key_hash a = key_hash b) /\
  (forall a b : Z * Z, nb_eqb a b = true -> nb_hash a = nb_hash b) /\
  (forall V (m : umap iseg V) nb nb' a b,
     um_find (match_in iseg_hash iseg_eqb nb) (a, b) m = um_find (match_in iseg_hash iseg_eqb nb') (a, b) m /\
     um_find (match_in iseg_hash iseg_eqb nb) (a, b) m = um_find (match_in iseg_hash iseg_eqb nb') (b, a) m) /\
  (forall V (m : umap key V) nb nb' a b,
     um_find (match_in key_hash key_eqb nb) (a, b) m = um_find (match_in key_hash key_eqb nb') (a, b) m /\
     um_find (match_in key_hash key_eqb nb) (a, b) m = um_find (match_in key_hash key_eqb nb') (b, a) m).
Proof. exact lookup_independent. Qed.
Print Assumptions C06_lookup_independent_of_orientation_and_buckets.

(** C06: < on IndexSegment is a strict total order on ordered pairs, separating
    the two orientations that == identifies. *)
Theorem C06_segment_order :
  (forall a b c : iseg,
     iseg_ltb a a = false /\ (iseg_ltb a b = true -> iseg_ltb b c = true -> iseg_ltb a c = true) /\
     (a <> b -> iseg_ltb a b = true \/ iseg_ltb b a = true) /\
     (iseg_ltb a b = true -> iseg_ltb b a = false)) /\
  (forall i j, (i < j)%Z -> iseg_ltb (i, j) (j, i) = true /\ iseg_eqb (i, j) (j, i) = true).
Proof. exact segment_order. Qed.
Print Assumptions C06_segment_order.

Example C06_hypotheses_met :
  iseg_eqb (3, 7)%Z (7, 3)%Z = true /\ iseg_hash (3, 7)%Z = iseg_hash (7, 3)%Z /\
  um_find (match_in iseg_hash iseg_eqb 13) (7, 3)%Z [((1, 2)%Z, 5%Z); ((3, 7)%Z, 9%Z)] = Some 9%Z.
Proof. vm_compute. repeat split; reflexivity. Qed.

(** C08: the map agrees with a finite map on unordered pairs after every history, whatever
    the bucket counts during the history and at the lookup. *)
Theorem C08_segment_map_history : forall h : list (Z * sm_op),
  let m := sm_run h in
  (forall nb s, sm_contains (iseg_match nb) m s = true <->
     exists o, In o (map snd h) /\ canon (sm_op_segment o) = canon s) /\
  (forall nb s n, spec_sm_run (map snd h) (canon s) = Some n -> sm_get (iseg_match nb) m s = (m, n)) /\
  sm_size m = zlen (fold_left (set_add (fun a b => pair_eqb (canon a) (canon b))) (map sm_op_segment (map snd h)) []).
Proof. exact (fun h => proj2 (segmap_refines h)). Qed.
Print Assumptions C08_segment_map_history.

(** C08: with insertions of single polygons, in any orientation: the first one and the last
    of the others, or -1. *)
Theorem C08_first_and_latest_polygon : forall (h : list (Z * sm_op)) nb s i rest,
  forallb is_insert (map snd h) = true -> inserted_at s (map snd h) = i :: rest ->
  sm_get (iseg_match nb) (sm_run h) s = (sm_run h, mkNb (Some i) (last rest (-1))).
Proof. exact segmap_inserts. Qed.
Print Assumptions C08_first_and_latest_polygon.

Example C08_hypotheses_met :
  let h := [(13, SmInsert (1, 2) 7); (13, SmInsert (4, 2) 7); (29, SmInsert (2, 1) 8); (29, SmInsert (1, 2) 9)]%Z in
  forallb is_insert (map snd h) = true /\ inserted_at (2, 1)%Z (map snd h) = [7; 8; 9]%Z /\
  snd (sm_get (iseg_match 5) (sm_run h) (2, 1)%Z) = mkNb (Some 7) 9%Z /\ sm_size (sm_run h) = 2%Z.
Proof. vm_compute. repeat split; reflexivity. Qed.

(** C09 *)
Theorem C09_lookup_inserts : forall (m : segmap) nb s,
  sm_contains (iseg_match nb) m s = false ->
  exists m', sm_get (iseg_match nb) m s = (m', mkNb None (-1)) /\
    sm_size m' = (sm_size m + 1)%Z /\ sm_contains (iseg_match nb) m' s = true /\
    forall i, sm_get (iseg_match nb) (sm_insert (iseg_match nb) m' s i) s =
              (sm_insert (iseg_match nb) m' s i, mkNb None i).
Proof. exact segmap_get_impure. Qed.
Print Assumptions C09_lookup_inserts.

Example C09_hypotheses_met :
  sm_contains (iseg_match 13) (sm_run [(13, SmInsert (1, 2) 7)]%Z) (2, 3)%Z = false.
Proof. vm_compute. reflexivity. Qed.

(** C10 *)
Theorem C10_point_map_history : forall tol, (0 < tol)%R -> forall P, separated tol P ->
  forall h : list (pm_op RNum), (forall o, In o h -> P (pm_op_point o)) ->
  (forall p, P p -> snd (pm_get (N := RNum) tol (pm_run (N := RNum) tol h) p) = pm_collected (pt_eqb (N := RNum) tol) p h) /\
  pm_size (pm_run (N := RNum) tol h) = zlen (fold_left (set_add (pt_eqb (N := RNum) tol)) (map pm_op_point h) []).
Proof. exact pointmap_history. Qed.
Print Assumptions C10_point_map_history.

Example C10_hypotheses_met :
  separated (1 / 10)%R (fun p : Point RNum => p = mkP (N := RNum) 0%R 0%R \/ p = mkP (N := RNum) 1%R 0%R) /\
  pm_collected (N := F64) (pt_eqb (N := F64) (F64_dec 1 10)) (dpt 0 1 0 1)
    [PmInsert (dpt 0 1 0 1) 3; PmInsert (dpt 1 1 0 1) 4; PmInsertList (dpt 1 100 0 1) [5; 6]]%Z = [3; 5; 6]%Z.
Proof.
  split; [|vm_compute; reflexivity].
  apply separated_grid. intros a b [-> | ->] [-> | ->]; cbn; (split; [|left; reflexivity]); auto;
    right; unfold Rabs; destruct Rcase_abs; lra.
Qed.
