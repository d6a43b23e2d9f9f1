(** Property theorems: polygons (C11, C12, C13, C14, C15, C16, C18, C24, C25, C26, C29). *)
From Coq Require Import Reals Lra Psatz Permutation.
From Verif Require Import Base Spec MUtil MGeom MHull MPolygon Bridge PUtil PPoint PSegment PPoly PPoly2.
Local Open Scope R_scope.

(** C11 *)
Theorem C11_segments_form_a_closed_chain : forall (idx : list Z) (segs : list iseg),
  exists es, getSegments idx segs = Ok (segs ++ es) /\ length es = length idx /\
    (forall i a b, (i < length idx)%nat ->
       (nth_error es i = Some (a, b) <-> nth_error idx i = Some a /\ nth_error idx ((i + 1) mod length idx) = Some b)) /\
    map fst es = idx /\ Permutation (map snd es) idx.
Proof. exact segments_closed_chain. Qed.
Print Assumptions C11_segments_form_a_closed_chain.

Example C11_instance : getSegments [4; 7; 9]%Z [(1, 2)%Z] = Ok [(1, 2); (4, 7); (7, 9); (9, 4)]%Z.
Proof. reflexivity. Qed.

(** C12: the three area functions give the shoelace value of the designated vertices. *)
Theorem C12_area_is_shoelace : forall (p : list (Point RNum)) idx vs, vertices_are p idx vs ->
  geo_area (N := RNum) p idx = Ok (shoelace (map xy vs)) /\
  calculateArea (N := RNum) p idx = Ok (shoelace (map xy vs)) /\
  signedArea (N := RNum) p idx = Ok (shoelace (map xy vs)) /\
  geo_area_pts (N := RNum) vs = Ok (shoelace (map xy vs)) /\
  (forall g : polygon RNum, pg_points g = idx -> pg_area g = -1 -> exists g', getArea g p = Ok (g', shoelace (map xy vs))).
Proof. exact area_functions_agree. Qed.
Print Assumptions C12_area_is_shoelace.

Theorem C12_area_invariances : forall (p : list (Point RNum)) i1 i2 dx dy, in_range p (i1 ++ i2) ->
  let area := geo_area (N := RNum) in
  exists a, area p (i1 ++ i2) = Ok a /\ area p (i2 ++ i1) = Ok a /\ area p (rev (i1 ++ i2)) = Ok (- a) /\
    area (map (fun q : Point RNum => mkP (N := RNum) (dx + px q) (dy + py q)) p) (i1 ++ i2) = Ok a.
Proof. exact area_invariances. Qed.
Print Assumptions C12_area_invariances.

Theorem C12_out_of_range_is_undefined : forall (p : list (Point RNum)) idx,
  geo_area (N := RNum) p idx = Err (UB "vector index out of range") <-> ~ in_range p idx.
Proof. exact geo_area_err. Qed.
Print Assumptions C12_out_of_range_is_undefined.

Definition unit_square : list (Point F64) := [dpt 0 1 0 1; dpt 1 1 0 1; dpt 1 1 1 1; dpt 0 1 1 1].
Example C12_instance :
  (match geo_area (N := F64) unit_square [1; 2; 3; 0]%Z with Ok a => neqb a (nZ (n := F64) 1) | _ => false end) = true /\
  vertices_are (N := RNum) [mkP (N := RNum) 0 0; mkP (N := RNum) 1 0; mkP (N := RNum) 1 1] [2; 0; 1]%Z
    [mkP (N := RNum) 1 1; mkP (N := RNum) 0 0; mkP (N := RNum) 1 0] /\
  shoelace [(0, 0); (1, 0); (1, 1)] = 1 / 2.
Proof.
  split; [vm_compute; reflexivity|]. split.
  - repeat constructor; discriminate.
  - unfold shoelace, sumR, vcross; cbn. lra.
Qed.

(** C13 *)
Theorem C13_isClockwise_is_negative_area : forall (p : list (Point RNum)) idx vs,
  vertices_are p idx vs -> idx <> [] ->
  exists b, isClockwise (N := RNum) idx p = Ok b /\ (b = true <-> shoelace (map xy vs) < 0).
Proof. exact isClockwise_iff. Qed.
Print Assumptions C13_isClockwise_is_negative_area.

Theorem C13_fixCCW_normalises : forall (g : polygon RNum) p vs, vertices_are p (pg_points g) vs -> pg_points g <> [] ->
  exists g' vs', fixCCW g p = Ok g' /\ vertices_are p (pg_points g') vs' /\
    shoelace (map xy vs') = Rabs (shoelace (map xy vs)) /\
    isClockwise (pg_points g') p = Ok false /\
    (consistent_area g vs -> exists g'', getArea g' p = Ok (g'', Rabs (shoelace (map xy vs)))) /\
    Permutation (pg_points g') (pg_points g) /\ pg_hash g' = pg_hash g /\
    Permutation (map canon (edges_of (pg_points g'))) (map canon (edges_of (pg_points g))) /\
    fixCCW g' p = Ok g'.
Proof. exact fixCCW_correct. Qed.
Print Assumptions C13_fixCCW_normalises.

Example C13_instance :
  (match polygon_ctor_idx (N := F64) (F64_dec 1 100000) [3; 2; 1; 0]%Z unit_square with
   | Ok g => match fixCCW g unit_square with Ok g' => forallb (fun x => Z.eqb (fst x) (snd x)) (combine (pg_points g') [0; 1; 2; 3]%Z) | _ => false end
   | _ => false end) = true.
Proof. vm_compute. reflexivity. Qed.

(** C14 *)
Theorem C14_area_is_cached : forall (N : Num) (g g1 : polygon N) p a,
  getArea g p = Ok (g1, a) ->
  (neqb (pg_area g) (nZ (-1)) = true -> geo_area p (pg_points g) = Ok a) /\
  (neqb a (nZ (-1)) = false -> forall qs g2, pg_asks qs g1 = Ok g2 -> forall p', getArea g2 p' = Ok (g2, a)) /\
  (neqb a (nZ (-1)) = true -> forall p', getArea g1 p' = (a' <- geo_area p' (pg_points g) ;;
      Ok (mkPoly (pg_points g) (pg_diam g) a' (pg_cen g) (pg_hash g), a'))).
Proof. exact @area_cached_forever. Qed.
Print Assumptions C14_area_is_cached.

Theorem C14_diameter_is_cached : forall (N : Num) (g g1 : polygon N) p d,
  getDiameter g p = Ok (g1, d) ->
  (nltb (pg_diam g) (nZ 0) = true -> (pts <- getPoints (pg_points g) p ;; calculateDiameter pts) = Ok d) /\
  (nltb d (nZ 0) = false -> forall qs g2, pg_asks qs g1 = Ok g2 -> forall p', getDiameter g2 p' = Ok (g2, d)).
Proof. exact @diameter_cached_forever. Qed.
Print Assumptions C14_diameter_is_cached.

(** the cache is observable: another vector gives the first answer, except when it is -1 *)
Definition cache_test (first second : list (Point F64)) : option (f64 * f64) :=
  match polygon_ctor_idx (N := F64) (F64_dec 1 100000) [0; 1; 2; 3]%Z first with
  | Ok g => match getArea g first with
            | Ok (g1, a) => match getArea g1 second with Ok (_, b) => Some (a, b) | _ => None end
            | _ => None end
  | _ => None end.
Example C14_instances :
  cache_test unit_square [dpt 0 1 0 1; dpt 5 1 0 1; dpt 5 1 5 1; dpt 0 1 5 1] = Some (F64_ofZ 1, F64_ofZ 1) /\
  cache_test (rev unit_square) [dpt 0 1 0 1; dpt 5 1 0 1; dpt 5 1 5 1; dpt 0 1 5 1] = Some (F64_ofZ (-1), F64_ofZ 25).
Proof. split; vm_compute; reflexivity. Qed.

(** C15: whatever happened to the polygon before, getCentroid answers (0,0). *)
Theorem C15_getCentroid_is_the_origin : forall (N : Num) tol (g : polygon N), made tol g -> forall p,
  getCentroid g p = Ok (g, point0) /\ px (point0 (N := N)) = nZ 0 /\ py (point0 (N := N)) = nZ 0.
Proof. exact @centroid_always_origin. Qed.
Print Assumptions C15_getCentroid_is_the_origin.

(** C15: the unused formula is the area-weighted centroid of the fan around any point [o]. *)
Theorem C15_centroid_formula : forall p idx (vs : list (Point RNum)), vertices_are p idx vs ->
  (shoelace (map xy vs) <> 0 ->
     exists c, calculateCentroid (N := RNum) p idx = Ok c /\ forall o, xy c = centroid_from o (map xy vs)) /\
  (shoelace (map xy vs) = 0 -> calculateCentroid (N := RNum) p idx = Err NonFinite).
Proof. exact calculateCentroid_ok. Qed.
Print Assumptions C15_centroid_formula.

Theorem C15_centroid_invariances : forall o (l1 l2 : list pt) d, shoelace (l1 ++ l2) <> 0 ->
  centroid_from o (l2 ++ l1) = centroid_from o (l1 ++ l2) /\
  centroid_from o (rev (l1 ++ l2)) = centroid_from o (l1 ++ l2) /\
  centroid_from o (map (vadd d) (l1 ++ l2)) = vadd d (centroid_from o (l1 ++ l2)) /\
  (forall a b c, shoelace [a; b; c] <> 0 ->
     centroid_from o [a; b; c] = ((fst a + fst b + fst c) / 3, (snd a + snd b + snd c) / 3)).
Proof. exact centroid_invariances. Qed.
Print Assumptions C15_centroid_invariances.

Example C15_instance :
  (exists g, polygon_ctor_idx (N := F64) (F64_dec 1 100000) [0; 1; 2; 3]%Z unit_square = Ok g /\ made (N := F64) (F64_dec 1 100000) g) /\
  (match calculateCentroid (N := F64) unit_square [0; 1; 2; 3]%Z with
   | Ok c => (neqb (px c) (F64_dec 1 2) && neqb (py c) (F64_dec 1 2))%bool | _ => false end) = true.
Proof.
  split; [|vm_compute; reflexivity]. eexists. split; [reflexivity|].
  eapply (made_idx (N := F64) _ [0; 1; 2; 3]%Z unit_square). reflexivity.
Qed.

(** C16: no index list or point vector is rejected. *)
Theorem C16_constructors_never_throw : forall (N : Num) (tol : nT N) (idx : list Z) (p : list (Point N)),
  (exists g, polygon_ctor_idx tol idx p = Ok g /\ pg_points g = idx) /\
  (exists g, polygon_ctor_pts tol p = Ok g /\ pg_points g = trivialIndex (length p)).
Proof. exact ctors_never_throw. Qed.
Print Assumptions C16_constructors_never_throw.

Definition bow_tie : list (Point F64) := [dpt 0 1 0 1; dpt 1 1 1 1; dpt 1 1 0 1; dpt 0 1 1 1].
Theorem C16_guard_refuted : exists (tol : f64) (p : list (Point F64)),
  isSelfIntersecting (N := F64) tol (trivialIndex (length p)) p = Ok true /\
  is_ok (polygon_ctor_idx (N := F64) tol (trivialIndex (length p)) p) = true /\
  is_ok (polygon_ctor_pts (N := F64) tol p) = true.
Proof. exact (ex_intro _ (F64_dec 1 100000) (ex_intro _ bow_tie (conj eq_refl (conj eq_refl eq_refl)))). Qed.
Print Assumptions C16_guard_refuted.

(** C18 *)
Theorem C18_isSelfIntersecting_iff : forall (N : Num) tol p idx (vs : list (Point N)), vertices_are p idx vs ->
  exists b, isSelfIntersecting tol idx p = Ok b /\
    (b = true <-> exists i j, non_adjacent (length vs) i j /\ crossing_pair tol vs i j).
Proof. exact @isSelfIntersecting_iff. Qed.
Print Assumptions C18_isSelfIntersecting_iff.

(** with tolerance 0, [crossing_pair] is: not parallel and sharing a point *)
Theorem C18_crossing_pair_exact : forall vs : list (Point RNum),
  (exists i j, non_adjacent (length vs) i j /\ crossing_pair (N := RNum) 0 vs i j) <->
  exists i j a b c d z, non_adjacent (length vs) i j /\
    nth_error vs i = Some a /\ nth_error vs ((i + 1) mod length vs) = Some b /\
    nth_error vs j = Some c /\ nth_error vs ((j + 1) mod length vs) = Some d /\
    ~ parallel (xy a) (xy b) (xy c) (xy d) /\ on_segment (xy a) (xy b) z /\ on_segment (xy c) (xy d) z.
Proof. exact self_crossing_exact. Qed.
Print Assumptions C18_crossing_pair_exact.

Theorem C18_small_and_rotated : forall (N : Num) tol (p : list (Point N)),
  (forall idx, in_range p idx -> (length idx <= 3)%nat -> isSelfIntersecting tol idx p = Ok false) /\
  (forall i1 i2, in_range p (i1 ++ i2) ->
     isSelfIntersecting tol (i2 ++ i1) p = isSelfIntersecting tol (i1 ++ i2) p).
Proof. exact (fun N tol p => conj (isSelfIntersecting_triangle tol p) (isSelfIntersecting_rotate tol p)). Qed.
Print Assumptions C18_small_and_rotated.

Example C18_instance :
  isSelfIntersecting (N := F64) (F64_dec 1 100000) [0; 1; 2; 3]%Z bow_tie = Ok true /\
  isSelfIntersecting (N := F64) (F64_dec 1 100000) [2; 3; 0; 1]%Z bow_tie = Ok true /\
  isSelfIntersecting (N := F64) (F64_dec 1 100000) [0; 1; 2; 3]%Z unit_square = Ok false.
Proof. split; [|split]; vm_compute; reflexivity. Qed.

(** C24 *)
Theorem C24_isConvex_is_the_first_turn_test : forall p idx (vs : list (Point RNum)),
  vertices_are p idx vs -> (3 <= length idx)%nat ->
  let turn := turn_at (map xy vs) in let n := length vs in
  exists b, isConvex (N := RNum) idx p = Ok b /\
    ((forall i, (i < n)%nat -> 0 <= turn i) \/ (forall i, (i < n)%nat -> turn i <= 0) -> b = true) /\
    (turn 0%nat <> 0 -> (b = false <-> exists i, (i < n)%nat /\ turn 0%nat * turn i < 0)) /\
    (turn 0%nat = 0 -> b = true) /\
    (n = 3%nat -> b = true).
Proof. exact isConvex_correct. Qed.
Print Assumptions C24_isConvex_is_the_first_turn_test.

(** C24: a polygon with both a strict left and a strict right turn is accepted, and so is a
    pentagram, all of whose turns are to the left. *)
Definition dented : list (Point F64) := [dpt 0 1 0 1; dpt 1 1 0 1; dpt 2 1 0 1; dpt 2 1 2 1; dpt 1 1 1 1; dpt 0 1 2 1].
Definition pentagram : list (Point F64) := [dpt 0 1 10 1; dpt (-6) 1 (-8) 1; dpt 10 1 3 1; dpt (-10) 1 3 1; dpt 6 1 (-8) 1].
Theorem C24_isConvex_refuted :
  (let o i j k := orientation (nth i dented point0) (nth j dented point0) (nth k dented point0) in
   nltb (nZ 0) (o 1%nat 2%nat 3%nat) = true /\ nltb (o 3%nat 4%nat 5%nat) (nZ 0) = true /\
   isConvex (N := F64) [0; 1; 2; 3; 4; 5]%Z dented = Ok true) /\
  (isConvex (N := F64) [0; 1; 2; 3; 4]%Z pentagram = Ok true /\
   isSelfIntersecting (N := F64) (F64_dec 1 100000) [0; 1; 2; 3; 4]%Z pentagram = Ok true).
Proof. exact (conj (conj eq_refl (conj eq_refl eq_refl)) (conj eq_refl eq_refl)). Qed.
Print Assumptions C24_isConvex_refuted.

Example C24_instance :
  isConvex (N := F64) [0; 1; 2; 3]%Z unit_square = Ok true /\
  isConvex (N := F64) [1; 2; 3; 4; 5; 0]%Z dented = Ok false.
Proof. split; vm_compute; reflexivity. Qed.

(** C25 *)
Theorem C25_containsEdge_iff_segment : forall (idx : list Z) (s : iseg), NoDup idx -> (3 <= length idx)%nat ->
  exists es, getSegments idx [] = Ok es /\ (containsEdge idx s = true <-> In (canon s) (map canon es)).
Proof. exact containsEdge_segments. Qed.
Print Assumptions C25_containsEdge_iff_segment.

Example C25_instance :
  NoDup [4; 7; 9; 2]%Z /\ containsEdge [4; 7; 9; 2]%Z (4, 2)%Z = true /\ containsEdge [4; 7; 9; 2]%Z (4, 9)%Z = false.
Proof. split; [repeat constructor; cbn; lia|split; reflexivity]. Qed.

(** C26 *)
Theorem C26_same_vertices_are_equal : forall (N : Num) tol i1 i2 (p1 p2 : list (Point N)) g1 g2,
  polygon_ctor_idx tol i1 p1 = Ok g1 -> polygon_ctor_idx tol i2 p2 = Ok g2 ->
  Permutation i1 i2 -> polygon_eqb g1 g2 = true.
Proof. exact permuted_polygons_equal. Qed.
Print Assumptions C26_same_vertices_are_equal.

Theorem C26_order_is_strict_weak : forall (N : Num),
  strict_weak_order_on (fun _ : polygon N => True) polygon_ltb /\
  (forall a b : polygon N, equivb polygon_ltb a b = polygon_eqb a b).
Proof. exact polygon_order. Qed.
Print Assumptions C26_order_is_strict_weak.

(** the converse fails, even for disjoint vertex sets *)
Theorem C26_equality_refuted : forall (N : Num) tol (p : list (Point N)),
  exists g1 g2 g3 g4,
    polygon_ctor_idx tol [0; 1; 2; 3]%Z p = Ok g1 /\ polygon_ctor_idx tol [0; 2; 1; 3]%Z p = Ok g2 /\ polygon_eqb g1 g2 = true /\
    polygon_ctor_idx tol [5; 14; 46]%Z p = Ok g3 /\ polygon_ctor_idx tol [40; 51; 52]%Z p = Ok g4 /\ polygon_eqb g3 g4 = true.
Proof. exact equal_but_different. Qed.
Print Assumptions C26_equality_refuted.

(** C29 *)
Theorem C29_getMaxDistance_is_the_longest_edge : forall p idx (vs : list (Point RNum)),
  vertices_are p idx vs -> idx <> [] ->
  exists m, getMaxDistance (N := RNum) idx p = Ok m /\
    (forall a b, In (a, b) (edges_of vs) -> dist (xy a) (xy b) <= m) /\
    (exists a b, In (a, b) (edges_of vs) /\ m = dist (xy a) (xy b)) /\
    (exists a b, In a vs /\ In b vs /\ m = dist (xy a) (xy b)).
Proof. exact getMaxDistance_correct. Qed.
Print Assumptions C29_getMaxDistance_is_the_longest_edge.

(** the documented value (largest vertex distance) is missed on every rectangle *)
Theorem C29_documented_value_refuted : forall x y w h, 0 < w -> 0 < h ->
  let P a b := mkP (N := RNum) a b in
  let p := [P x y; P (x + w) y; P (x + w) (y + h); P x (y + h)] in
  exists m, getMaxDistance (N := RNum) [0; 1; 2; 3]%Z p = Ok m /\ m < dist (x, y) (x + w, y + h).
Proof. exact getMaxDistance_rectangle. Qed.
Print Assumptions C29_documented_value_refuted.

Example C29_instance :
  (match getMaxDistance (N := F64) [0; 1; 2; 3]%Z unit_square with Ok m => neqb m (F64_ofZ 1) | _ => false end) = true.
Proof. vm_compute. reflexivity. Qed.
