(** Property theorems: convex hull and diameter (C27, C28). *)
From Coq Require Import Reals Lra Psatz Permutation.
From Verif Require Import Base Spec MUtil MGeom MHull MPolygon MMaps MGen MRegion Bridge PUtil PPoint PPoly PPoly2 PRegion PHull Samples.
Local Open Scope R_scope.

(** C27: the chains of [convexHull] (upper, lower) *)
Theorem C27_hull : forall pts : list (Point RNum), pts <> [] ->
  let (u, l) := convexHull (N := RNum) pts in
  hull_chain 1 (map xy pts) (map xy u) /\ hull_chain (-1) (map xy pts) (map xy l) /\ incl u pts /\ incl l pts.
Proof. exact convexHull_correct. Qed.
Print Assumptions C27_hull.

(** every strictly extreme point of the set is on one of the chains *)
Theorem C27_extreme_points : forall (pts : list (Point RNum)) (d P : pt), In P (map xy pts) ->
  (forall q, In q (map xy pts) -> q <> P -> vdot d q < vdot d P) ->
  (0 < snd d -> In P (map xy (fst (convexHull (N := RNum) pts)))) /\ (snd d < 0 -> In P (map xy (snd (convexHull (N := RNum) pts)))).
Proof. exact hull_extreme. Qed.
Print Assumptions C27_extreme_points.

(** a square with its centre and a point on a side: the same computation in binary64 *)
Example C27_instance :
  quad <> [] /\
  (let (u, l) := convexHull (N := F64) (dpt 0 1 0 1 :: dpt 0 1 4 1 :: square 0 4) in
   list_eqb (pt_eqb (N := F64) tol64) u [dpt (-4) 1 (-4) 1; dpt (-4) 1 4 1; dpt 4 1 4 1] &&
   list_eqb (pt_eqb (N := F64) tol64) l [dpt (-4) 1 (-4) 1; dpt 4 1 (-4) 1; dpt 4 1 4 1]) = true.
Proof. split; [discriminate|]. vm_compute. reflexivity. Qed.
Example C27_extreme_instance :
  In (4, 4) (map xy quad) /\ (forall q, In q (map xy quad) -> q <> (4, 4) -> vdot (1, 2) q < vdot (1, 2) (4, 4)) /\ 0 < snd (1, 2).
Proof.
  split; [right; right; left; reflexivity|]. split; [|cbn; lra]. intros q Hq Hne. unfold quad, xy in Hq. cbn in Hq.
  repeat (destruct Hq as [<-|Hq]; [unfold vdot; cbn; try lra; congruence|]). destruct Hq.
Qed.

(** C28 *)
Theorem C28_diameter : forall (g : polygon RNum) p (vs : list (Point RNum)),
  vertices_are p (pg_points g) vs -> pg_diam g < 0 -> (2 <= length vs)%nat ->
  exists g' d, getDiameter (N := RNum) g p = Ok (g', d) /\ is_diameter (map xy vs) d /\
    forall p', getDiameter (N := RNum) g' p' = Ok (g', d).
Proof. exact getDiameter_correct. Qed.
Print Assumptions C28_diameter.

(** the calipers end normally, i.e. within the bounds of both vectors, for every set of points and any arithmetic *)
Theorem C28_calipers_terminate : forall (N : Num) (u l : list (Point N)) i j, (i < length u)%nat -> (j < length l)%nat ->
  exists prs, calipers (length u + length l) u l i j = Ok prs /\ (forall a b, In (a, b) prs -> In a u /\ In b l).
Proof. exact @calipers_ends. Qed.
Print Assumptions C28_calipers_terminate.

Theorem C28_small_polygons : forall (N : Num) (g : polygon N) p (vs : list (Point N)),
  vertices_are p (pg_points g) vs -> nltb (pg_diam g) (nZ 0) = true ->
  (forall v, vs = [v] -> exists g', getDiameter g p = Ok (g', nZ (-1))) /\
  (vs = [] -> getDiameter g p = Err (UB "vector index out of range")).
Proof. exact @getDiameter_small. Qed.
Print Assumptions C28_small_polygons.

Example C28_instance : exists g, polygon_ctor_pts (N := RNum) 1 quad = Ok g /\ vertices_are quad (pg_points g) quad /\ pg_diam g < 0 /\
  (2 <= length quad)%nat.
Proof. exact quad_fresh. Qed.
Example C28_binary64_instance :
  (match polygon_ctor_pts (N := F64) tol64 (square 0 4) with
   | Ok g => match getDiameter (N := F64) g (square 0 4) with Ok (_, d) => neqb (n := F64) d (nsqrt (n := F64) (F64_ofZ 128)) | _ => false end
   | _ => false end) = true.
Proof. vm_compute. reflexivity. Qed.
