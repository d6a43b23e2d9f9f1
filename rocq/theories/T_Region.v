(** Property theorems: holes and regions (C17, C35-C42, C44, C64). *)
From Coq Require Import Reals Lra Psatz Permutation.
From Verif Require Import Base Spec MUtil MGeom MHull MPolygon MMaps MGen MRegion Bridge PUtil PPoint PSegment PPoly PPoly2 PContains PRegion PBorder Samples.
Local Open Scope R_scope.

(** C17 *)
Theorem C17_mutate : forall (N : Num) (tol : nT N) (r : region N) (pts : list (Point N)),
  let r' := fst (region_mutate tol r pts) in
  rg_p r' = pts /\ pg_points (rg_poly r') = trivialIndex (length pts) /\ rg_holes r' = rg_holes r /\ rg_seeds r' = rg_seeds r /\
  ((exists i j, non_adjacent (length pts) i j /\ crossing_pair tol pts i j) ->
   snd (region_mutate tol r pts) = Err (Throw "Self intersecting polygons are not supported") /\
   pg_area (rg_poly r') = pg_area (rg_poly r) /\ pg_diam (rg_poly r') = pg_diam (rg_poly r) /\
   pg_cen (rg_poly r') = pg_cen (rg_poly r) /\ pg_hash (rg_poly r') = pg_hash (rg_poly r)) /\
  (~ (exists i j, non_adjacent (length pts) i j /\ crossing_pair tol pts i j) ->
   snd (region_mutate tol r pts) = Ok tt /\ pg_area (rg_poly r') = nZ (-1) /\ pg_diam (rg_poly r') = nZ (-1)).
Proof. exact @mutate_char. Qed.
Print Assumptions C17_mutate.

(** the failed call leaves a region whose area is that of the old outline *)
Theorem C17_refuted : exists (r : region F64) (pts : list (Point F64)), region_made r /\
  (exists m, snd (region_mutate (N := F64) tol64 r pts) = Err (Throw m)) /\
  list_eqb (pt_eqb (N := F64) tol64) (rg_p (fst (region_mutate (N := F64) tol64 r pts))) (rg_p r) = false /\
  list_eqb (pt_eqb (N := F64) tol64) (rg_p (fst (region_mutate (N := F64) tol64 r pts))) pts = true /\
  (match getArea (N := F64) (rg_poly (fst (region_mutate (N := F64) tol64 r pts))) pts with
   | Ok a => neqb (n := F64) (snd a) (nZ 64) | _ => false end) = true.
Proof.
  exists (mkRegion (N := F64) (ok_or (rg_poly r_square) (pg_ask (rg_poly r_square) (QArea (square 0 4)))) (rg_p r_square) (rg_holes r_square) (rg_seeds r_square)), bowtie.
  split.
  { destruct (pg_ask (rg_poly r_square) (QArea (square 0 4))) as [g|] eqn:E; cbn [ok_or].
    - exact (rm_ask _ _ _ r_square_made E).
    - destruct r_square as [a b c d] eqn:ER. cbn. rewrite <- ER. apply r_square_made. }
  split; [eexists; vm_compute; reflexivity|]. repeat split; vm_compute; reflexivity.
Qed.
Print Assumptions C17_refuted.

(** C35 *)
Theorem C35_box : forall r : region RNum,
  let b := getBox (N := RNum) r in
  (forall v, In v (rg_p r) -> bb_xMin b <= px v <= bb_xMax b /\ bb_yMin b <= py v <= bb_yMax b) /\
  (rg_p r <> [] -> (forall v, In v (rg_p r) -> - big <= px v <= big /\ - big <= py v <= big) ->
   (exists v, In v (rg_p r) /\ px v = bb_xMin b) /\ (exists v, In v (rg_p r) /\ px v = bb_xMax b) /\
   (exists v, In v (rg_p r) /\ py v = bb_yMin b) /\ (exists v, In v (rg_p r) /\ py v = bb_yMax b)) /\
  (rg_p r <> [] -> (forall v, In v (rg_p r) -> big < px v) -> bb_xMin b = big).
Proof. exact getBox_correct. Qed.
Print Assumptions C35_box.

Example C35_instance :
  big = 9223372036854775808 /\
  (exists r, region_ctor (N := RNum) 1 quad = Ok r /\ rg_p r = quad) /\
  (forall v, In v quad -> - big <= px v <= big /\ - big <= py v <= big) /\
  (let b := getBox (N := F64) r_square in neqb (n := F64) (bb_xMin b) (nZ (-4)) && neqb (n := F64) (bb_yMax b) (nZ 4)) = true.
Proof.
  split; [reflexivity|]. split; [|split].
  - unfold region_ctor. destruct (proj2 (ctors_never_throw RNum 1 [] quad)) as (g & -> & _). eexists. split; reflexivity.
  - intros v Hv. unfold quad, big in *. cbn in Hv. repeat (destruct Hv as [<-|Hv]; [cbn; lra|]). destruct Hv.
  - vm_compute. reflexivity.
Qed.

(** C36: [in_domain] are the answers of the containment tests of the code; in the plane they are the even-odd rule with its border. *)
Theorem C36_seeding : forall (N : Num) (tol : nT N) (r : region N), region_made r ->
  exists keep : Point N -> bool, (forall q, keep q = true <-> in_domain tol r q) /\
  (forall s, addSeedPoints tol r s = Ok (with_seeds r (filter keep s))) /\
  (forall s, addSeedsRead tol r s = Ok (with_seeds r (filter keep (rg_seeds r ++ s)))) /\
  (forall g nX nY r' g', generateSeedPoints tol r g nX nY = Ok (r', g') <->
     exists new, generate g [] (getBox r) nX nY = Ok (g', new) /\ r' = with_seeds r (filter keep (rg_seeds r ++ new))).
Proof. exact @seeding_char. Qed.
Print Assumptions C36_seeding.

Theorem C36_domain_in_the_plane : forall tol (r : region RNum) (q : Point RNum), 0 < tol -> region_made r -> region_no_short_edge tol r ->
  in_domain (N := RNum) tol r q <->
  inside_or_near tol (xy q) (map xy (rg_p r)) /\ Forall (fun h => ~ inside_or_near tol (xy q) (map xy (h_points h))) (rg_holes r).
Proof. exact in_domain_plane. Qed.
Print Assumptions C36_domain_in_the_plane.

Theorem C36_seeds_not_cleaned : forall (N : Num) (r : region N),
  (forall clip cf h, rg_seeds (fst (addHole clip cf r h)) = rg_seeds r) /\
  (forall tol pts, rg_seeds (fst (region_mutate tol r pts)) = rg_seeds r).
Proof. exact @seeds_not_cleaned. Qed.
Print Assumptions C36_seeds_not_cleaned.

Theorem C36_refuted : exists r : region F64, region_made r /\
  existsb (fun q => existsb (fun h => match hole_containsPoint (N := F64) tol64 h q with Ok b => b | _ => false end) (rg_holes r)) (rg_seeds r) = true.
Proof. exists r_holed. split; [exact r_holed_made|]. vm_compute. reflexivity. Qed.
Print Assumptions C36_refuted.

Example C36_instance :
  region_made r_quad /\ region_no_short_edge (1 / 100000) r_quad /\ length (rg_holes r_quad) = 1%nat /\
  region_made r_square /\ list_eqb (pt_eqb (N := F64) tol64) (rg_seeds r_seeded) [dpt 1 1 1 1; dpt 3 1 3 1] = true.
Proof. split; [exact r_quad_made|]. split; [exact r_quad_edges|]. split; [reflexivity|]. split; [exact r_square_made|vm_compute; reflexivity]. Qed.

(** C37 *)
Theorem C37_addSeedPoints_replaces : forall (N : Num) (tol : nT N) (r : region N) old s, region_made r ->
  addSeedPoints tol (with_seeds r old) s = addSeedPoints tol r s /\
  exists r', addSeedPoints tol r s = Ok r' /\ incl (rg_seeds r') s.
Proof. exact @addSeeds_replaces. Qed.
Print Assumptions C37_addSeedPoints_replaces.

Theorem C37_others_append : forall (N : Num) (tol : nT N) (r : region N) s, region_made r ->
  (exists r', addSeedsRead tol r s = Ok r' /\ (forall q, In q (rg_seeds r) \/ In q s -> in_domain tol r q -> In q (rg_seeds r'))) /\
  (forall g nX nY r' g', generateSeedPoints tol r g nX nY = Ok (r', g') ->
     forall q, In q (rg_seeds r) -> in_domain tol r q -> In q (rg_seeds r')).
Proof. exact @others_append. Qed.
Print Assumptions C37_others_append.

Example C37_instance :
  region_made r_seeded /\ length (rg_seeds r_seeded) = 2%nat /\
  (match addSeedPoints (N := F64) tol64 r_seeded [dpt 2 1 1 1] with Ok r => list_eqb (pt_eqb (N := F64) tol64) (rg_seeds r) [dpt 2 1 1 1] | _ => false end) = true /\
  (match addSeedsRead (N := F64) tol64 r_seeded [dpt 2 1 1 1] with
   | Ok r => list_eqb (pt_eqb (N := F64) tol64) (rg_seeds r) [dpt 1 1 1 1; dpt 3 1 3 1; dpt 2 1 1 1] | _ => false end) = true.
Proof. split; [exact r_seeded_made|]. repeat split; vm_compute; reflexivity. Qed.

(** C38 *)
Theorem C38_copy : forall (N : Num) (r : region N),
  rg_seeds (region_copy r) = [] /\ rg_p (region_copy r) = rg_p r /\ rg_holes (region_copy r) = rg_holes r /\
  pg_points (rg_poly (region_copy r)) = pg_points (rg_poly r) /\ pg_area (rg_poly (region_copy r)) = pg_area (rg_poly r) /\
  pg_diam (rg_poly (region_copy r)) = pg_diam (rg_poly r) /\ pg_cen (rg_poly (region_copy r)) = pg_cen (rg_poly r).
Proof. exact @copy_char. Qed.
Print Assumptions C38_copy.

Theorem C38_copy_answers : forall (N : Num) (r : region N),
  (forall tol q, region_containsPoint tol (region_copy r) q = region_containsPoint tol r q) /\
  (forall tol q, in_domain tol (region_copy r) q <-> in_domain tol r q) /\
  (forall s, region_getSegments (region_copy r) s = region_getSegments r s) /\
  getRegionPoints (region_copy r) = getRegionPoints r /\ getBox (region_copy r) = getBox r.
Proof. exact @copy_answers. Qed.
Print Assumptions C38_copy_answers.

Theorem C38_refuted : exists r : region F64, region_made r /\ length (rg_seeds r) = 2%nat /\ rg_seeds (region_copy r) = [].
Proof. exists r_seeded. split; [exact r_seeded_made|]. split; [vm_compute; reflexivity|reflexivity]. Qed.
Print Assumptions C38_refuted.

(** C39 *)
Theorem C39_segments : forall (N : Num) (r : region N) s, region_made r -> exists vs segs,
  (vs = rg_p r \/ vs = rev (rg_p r)) /\ region_getSegments r s = Ok (s ++ segs) /\
  Forall2 (denotes (getRegionPoints r)) segs (edges_of vs ++ flat_map (fun h => edges_of (h_points h)) (rg_holes r)).
Proof. exact @region_segments. Qed.
Print Assumptions C39_segments.

Example C39_instance :
  region_made r_holed /\
  (match region_getSegments (N := F64) r_holed [] with
   | Ok l => list_eqb pair_eqb l [(0, 1); (1, 2); (2, 3); (3, 0); (4, 5); (5, 6); (6, 7); (7, 4)]%Z | _ => false end) = true.
Proof. split; [exact r_holed_made|]. vm_compute. reflexivity. Qed.

(** C40 *)
Theorem C40_outline_only : forall tol (r : region RNum) (q : Point RNum), 0 < tol -> region_made r -> no_short_edge tol (map xy (rg_p r)) ->
  exists b, region_containsPoint (N := RNum) tol r q = Ok b /\ (b = true <-> inside_or_near tol (xy q) (map xy (rg_p r))).
Proof. exact region_contains_plane. Qed.
Print Assumptions C40_outline_only.

Theorem C40_on_outline : forall tol (r : region RNum) (q : Point RNum), 0 < tol -> region_made r ->
  exists b, region_inEdges (N := RNum) tol r q = Ok b /\ (b = true <-> near_border tol (xy q) (map xy (rg_p r))).
Proof. exact region_border_plane. Qed.
Print Assumptions C40_on_outline.

Theorem C40_interior_hole : forall (N : Num) clip cf (r : region N) h r',
  addHole clip cf r h = (r', Ok tt) -> rg_holes r' <> rg_holes r ->
  rg_holes r' = rg_holes r ++ [h] /\ forall tol q, region_containsPoint tol r' q = region_containsPoint tol r q.
Proof. exact @contains_ignores_hole. Qed.
Print Assumptions C40_interior_hole.

Theorem C40_refuted : exists (r : region F64) (h : hole F64) (q : Point F64), region_made r /\ In h (rg_holes r) /\
  hole_containsPoint (N := F64) tol64 h q = Ok true /\ region_containsPoint (N := F64) tol64 r q = Ok true.
Proof.
  exists r_holed, h_square, (dpt 1 1 1 1). split; [exact r_holed_made|]. split; [exact r_holed_hole|]. split; vm_compute; reflexivity.
Qed.
Print Assumptions C40_refuted.

(** C41 *)
Theorem C41_outcomes : forall clip cf (r : region RNum) (h : hole RNum), cf_scale cf <> 0%Z -> region_made r ->
  (forall v, In v (rg_p r ++ h_points h) -> fits (cf_scale cf) v) ->
  exists S H, Forall2 (on_grid (cf_scale cf)) (rg_p r) S /\ Forall2 (on_grid (cf_scale cf)) (h_points h) H /\
  let r' := fst (addHole clip cf r h) in let o := snd (addHole clip cf r h) in
  (forall path, clip S H = [path] ->
     rg_p r' = map (off_grid (cf_scale cf)) path /\ pg_points (rg_poly r') = trivialIndex (length path) /\
     rg_holes r' = rg_holes r /\ rg_seeds r' = rg_seeds r /\
     (self_crossing_outline (cf_tol cf) (rg_p r') -> o = Err (Throw "Self intersecting polygons are not supported")) /\
     (~ self_crossing_outline (cf_tol cf) (rg_p r') -> o = Ok tt)) /\
  (length (clip S H) <> 1%nat ->
     (region_containsPoint (N := RNum) (cf_tol cf) r (h_center h) = Ok true ->
        o = Ok tt /\ r' = mkRegion (rg_poly r) (rg_p r) (rg_holes r ++ [h]) (rg_seeds r)) /\
     (region_containsPoint (N := RNum) (cf_tol cf) r (h_center h) = Ok false ->
        o = Err (Throw "Hole lies completely outside of domain region") /\ r' = r)).
Proof. exact addHole_outcomes. Qed.
Print Assumptions C41_outcomes.

Theorem C41_out_of_range : forall clip cf (r : region RNum) (h : hole RNum),
  (exists v, In v (rg_p r ++ h_points h) /\ ~ fits (cf_scale cf) v) ->
  addHole clip cf r h = (r, Err (UB "double to int conversion overflow")).
Proof. exact addHole_out_of_range. Qed.
Print Assumptions C41_out_of_range.

Theorem C41_disjoint_hole : forall clip cf (r : region RNum) (h : hole RNum), (0 < cf_scale cf)%Z -> region_made r ->
  (forall v, In v (rg_p r ++ h_points h) -> fits (cf_scale cf) v) ->
  (forall S H, Forall2 (on_grid (cf_scale cf)) (rg_p r) S -> Forall2 (on_grid (cf_scale cf)) (h_points h) H -> clip S H = [S]) ->
  let r' := fst (addHole clip cf r h) in
  snd (addHole clip cf r h) <> Err (Throw "Hole lies completely outside of domain region") /\
  rg_holes r' = rg_holes r /\
  Forall2 (fun v v' : Point RNum => exists k, on_grid (cf_scale cf) v k /\ v' = off_grid (cf_scale cf) k) (rg_p r) (rg_p r').
Proof. exact addHole_disjoint. Qed.
Print Assumptions C41_disjoint_hole.

Theorem C41_refuted : exists (r : region F64) (h : hole F64), region_made r /\ hole_built h /\
  list_eqb (pt_eqb (N := F64) tol64) (h_points h) (square 50 1) = true /\
  (match snd (addHole clip_disjoint cf64 r h) with Ok _ => true | _ => false end) = true /\
  list_eqb (fun a b : Point F64 => neqb (n := F64) (px a) (px b) && neqb (n := F64) (py a) (py b)) (rg_p (fst (addHole clip_disjoint cf64 r h))) (rg_p r) = false.
Proof.
  exists r_thin, h_far. split; [exact r_thin_made|]. split; [exact h_far_built|]. repeat split; vm_compute; reflexivity.
Qed.
Print Assumptions C41_refuted.

Example C41_instance :
  region_made r_quad /\ (forall v, In v (rg_p r_quad ++ quad_hole) -> fits 100000 v) /\ ~ fits 100000 (mkP (N := RNum) 21475 0).
Proof.
  split; [exact r_quad_made|]. split.
  - intros v Hv. unfold r_quad, quad, quad_hole in Hv. cbn in Hv. unfold fits. repeat (destruct Hv as [<-|Hv]; [cbn; lra|]). destruct Hv.
  - unfold fits. cbn. lra.
Qed.

(** C42 *)
Theorem C42_roundtrip : forall scale (v : Point RNum), (0 < scale)%Z -> fits scale v ->
  exists k v', scalePoint (N := RNum) scale v = Ok k /\ unscalePoint (N := RNum) scale k = Ok v' /\
    Rabs (px v' - px v) < 1 / IZR scale /\ Rabs (py v' - py v) < 1 / IZR scale /\
    Rabs (px v') <= Rabs (px v) /\ Rabs (py v') <= Rabs (py v) /\ 0 <= px v * px v' /\ 0 <= py v * py v' /\
    (forall m : Z, px v = IZR m / IZR scale -> px v' = px v) /\ (forall m : Z, py v = IZR m / IZR scale -> py v' = py v).
Proof. exact roundtrip. Qed.
Print Assumptions C42_roundtrip.

(** the decimal 0.00007 is moved to 0.00006 *)
Theorem C42_binary64_refuted :
  scalePoint (N := F64) 100000 (dpt 7 100000 3 1) = Ok (6, 300000)%Z /\
  (match unscalePoint (N := F64) 100000 (6, 300000)%Z with
   | Ok v => neqb (n := F64) (px v) (F64_dec 6 100000) && negb (neqb (n := F64) (px v) (F64_dec 7 100000)) | _ => false end) = true.
Proof. split; vm_compute; reflexivity. Qed.
Print Assumptions C42_binary64_refuted.

Example C42_instance : (0 < 100000)%Z /\ fits 100000 (mkP (N := RNum) (7 / 3) (-1 / 3)).
Proof. split; [lia|]. unfold fits. cbn. lra. Qed.

(** C44 *)
Theorem C44_center : forall (N : Num) (tol : nT N) (p : list (Point N)),
  exists h, polygonalHole tol p = Ok h /\ h_points h = p /\ px (h_center h) = nZ 0 /\ py (h_center h) = nZ 0.
Proof. exact @polygonal_center. Qed.
Print Assumptions C44_center.

Theorem C44_decides_addHole : forall (N : Num) clip cf (r : region N) (p : list (Point N)) tol h S H,
  polygonalHole tol p = Ok h -> region_made r ->
  mapM (scalePoint (cf_scale cf)) (rg_p r) = Ok S -> mapM (scalePoint (cf_scale cf)) p = Ok H -> length (clip S H) <> 1%nat ->
  (region_containsPoint (cf_tol cf) r (mkP (nZ 0) (nZ 0)) = Ok true /\ snd (addHole clip cf r h) = Ok tt) \/
  (region_containsPoint (cf_tol cf) r (mkP (nZ 0) (nZ 0)) = Ok false /\
   snd (addHole clip cf r h) = Err (Throw "Hole lies completely outside of domain region")).
Proof. exact @polygonal_accepted. Qed.
Print Assumptions C44_decides_addHole.

(** the centre is not a point of the hole; a hole inside the outline is rejected *)
Theorem C44_refuted :
  (match polygonalHole (N := F64) tol64 (square 10 1) with
   | Ok h => match hole_containsPoint (N := F64) tol64 h (h_center h) with Ok b => negb b | _ => false end | _ => false end) = true /\
  (match region_ctor (N := F64) tol64 (square 10 4), polygonalHole (N := F64) tol64 (square 10 1) with
   | Ok r, Ok h => match snd (addHole clip_inside cf64 r h) with Err (Throw _) => true | _ => false end | _, _ => false end) = true.
Proof. split; vm_compute; reflexivity. Qed.
Print Assumptions C44_refuted.

Example C44_instance :
  region_made r_square /\ is_ok (mapM (scalePoint (N := F64) (cf_scale cf64)) (rg_p r_square)) = true /\
  is_ok (mapM (scalePoint (N := F64) (cf_scale cf64)) (square 1 1)) = true /\ (forall S H, length (clip_inside S H) <> 1%nat).
Proof. split; [exact r_square_made|]. split; [vm_compute; reflexivity|]. split; [vm_compute; reflexivity|]. discriminate. Qed.

(** C64 *)
Theorem C64_difference : forall (N : Num) (clip : clip_type -> list (Z * Z) -> list (Z * Z) -> list (list (Z * Z)))
    (parent child : list (Point N)) scale S C,
  mapM (scalePoint scale) parent = Ok S -> mapM (scalePoint scale) child = Ok C ->
  (polyIntersection clip parent child scale = Ok (clip ctIntersection S C) <-> clip ctDifference S C = clip ctIntersection S C) /\
  polyIntersection clip parent child scale = Ok (clip ctDifference S C).
Proof. exact @intersection_is_difference. Qed.
Print Assumptions C64_difference.

Example C64_instance :
  mapM (scalePoint (N := F64) 100000) (square 0 1) = Ok [(-100000, -100000); (100000, -100000); (100000, 100000); (-100000, 100000)]%Z.
Proof. vm_compute. reflexivity. Qed.
