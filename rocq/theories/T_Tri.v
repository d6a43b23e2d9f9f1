(** Property theorems: triangles and triangulations of a polygon (C30, C31, C32, C33, C34). *)
From Coq Require Import Reals Lra Psatz Permutation.
From Verif Require Import Base Spec MUtil MGeom MHull MPolygon MMaps MTriangle Bridge PUtil PPoint PSegment PPoly PPoly2 PTri.
Local Open Scope R_scope.

(** C30 *)
Theorem C30_circumcenter : forall A B C : Point RNum,
  (orient (xy A) (xy B) (xy C) <> 0 ->
   exists c, circumcenter (N := RNum) A B C = Ok c /\
     dist (xy c) (xy A) = dist (xy c) (xy B) /\ dist (xy c) (xy B) = dist (xy c) (xy C) /\
     (forall q, dist q (xy A) = dist q (xy B) -> dist q (xy B) = dist q (xy C) -> q = xy c) /\
     (forall A' B' C', Permutation [A; B; C] [A'; B'; C'] -> circumcenter (N := RNum) A' B' C' = Ok c)) /\
  (orient (xy A) (xy B) (xy C) = 0 -> circumcenter (N := RNum) A B C = Err NonFinite).
Proof. exact circumcenter_correct. Qed.
Print Assumptions C30_circumcenter.

Theorem C30_triangle_stores_it : forall tol (p : list (Point RNum)) i j k A B C,
  vertices_are p [i; j; k] [A; B; C] ->
  exists t, triangle_ctor (N := RNum) tol [i; j; k] p = Ok t /\ pg_points (tr_poly t) = [i; j; k] /\
    tr_cc t = circumcenter (N := RNum) A B C.
Proof. exact triangle_stores_circumcenter. Qed.
Print Assumptions C30_triangle_stores_it.

Example C30_instance :
  orient (0, 0) (4, 0) (0, 2) <> 0 /\
  (match circumcenter (N := F64) (dpt 0 1 0 1) (dpt 4 1 0 1) (dpt 0 1 2 1) with
   | Ok c => neqb (n := F64) (px c) (nZ 2) && neqb (n := F64) (py c) (nZ 1) | _ => false end) = true /\
  (match circumcenter (N := F64) (dpt 0 1 0 1) (dpt 1 1 1 1) (dpt 2 1 2 1) with Err NonFinite => true | _ => false end) = true /\
  vertices_are (N := RNum) [mkP (N := RNum) 0 0; mkP (N := RNum) 4 0; mkP (N := RNum) 0 2] [2; 0; 1]%Z
    [mkP (N := RNum) 0 2; mkP (N := RNum) 0 0; mkP (N := RNum) 4 0].
Proof.
  split; [unfold orient, vcross, vsub; cbn [fst snd]; lra|]. split; [vm_compute; reflexivity|]. split; [vm_compute; reflexivity|].
  repeat constructor; discriminate.
Qed.

(** C31: the permutation ranges over the three edges in both directions. *)
Theorem C31_thirdPoint : forall a b c x y z : Z, NoDup [a; b; c] -> Permutation [a; b; c] [x; y; z] ->
  thirdPoint [a; b; c] x y = Ok z.
Proof. exact thirdPoint_correct. Qed.
Print Assumptions C31_thirdPoint.

Theorem C31_nextEdge : forall (a b c : Z) x y z (e : edge) (em : umap key Z) i,
  NoDup [a; b; c] -> Permutation [a; b; c] [x; y; z] ->
  (e_p1 e, e_p2 e) = (x, y) \/ (e_p1 e, e_p2 e) = (y, x) ->
  um_find key_eqb (x, z) em = Some i \/ um_find key_eqb (z, x) em = Some i ->
  nextEdge [a; b; c] x e em = Ok i.
Proof. exact nextEdge_correct. Qed.
Print Assumptions C31_nextEdge.

Example C31_instance :
  NoDup [4; 7; 9]%Z /\ Permutation [4; 7; 9]%Z [9; 4; 7]%Z /\
  thirdPoint [4; 7; 9]%Z 9 4 = Ok 7%Z /\
  nextEdge [4; 7; 9]%Z 9 (mkEdge 4 9 0 1) [((4, 9), 0); ((7, 9), 5)]%Z = Ok 5%Z.
Proof.
  split; [repeat constructor; cbn; intuition discriminate|].
  split; [|split; reflexivity]. change (Permutation ([4; 7] ++ [9])%Z ([9] ++ [4; 7])%Z). apply Permutation_app_comm.
Qed.

(** C32 *)
Theorem C32_center_triangulation : forall tol (idx : list Z) (p vs : list (Point RNum)), vertices_are p idx vs ->
  isConvex (N := RNum) idx p = Ok true ->
  exists c ts areas, center_triangulate (N := RNum) tol idx p = (p ++ [c], Ok ts) /\
    xy c = (sumR (map (fun v : Point RNum => px v) vs) / INR (length vs), sumR (map (fun v : Point RNum => py v) vs) / INR (length vs)) /\
    map (fun t : triangle RNum => pg_points (tr_poly t)) ts = map (fun e => [fst e; snd e; zlen p]) (edges_of idx) /\
    length ts = length idx /\
    mapM (fun t : triangle RNum => geo_area (N := RNum) (p ++ [c]) (pg_points (tr_poly t))) ts = Ok areas /\
    sumR areas = shoelace (map xy vs) /\
    ((forall a b v, In (a, b) (edges_of vs) -> In v vs -> 0 <= orient (xy a) (xy b) (xy v)) ->
     (forall a b, In (a, b) (edges_of vs) -> exists v, In v vs /\ 0 < orient (xy a) (xy b) (xy v)) ->
     Forall (fun x => 0 < x) areas).
Proof. exact center_triangulation_correct. Qed.
Print Assumptions C32_center_triangulation.

Theorem C32_rejects_non_convex : forall (N : Num) tol (idx : list Z) (p : list (Point N)),
  isConvex idx p = Ok false ->
  center_triangulate tol idx p = (p, Err (Throw "Can not use a center triangulation scheme on a non convex polygon")).
Proof. exact center_triangulation_rejects. Qed.
Print Assumptions C32_rejects_non_convex.

Definition house : list (Point F64) := [dpt 0 1 0 1; dpt 4 1 0 1; dpt 4 1 3 1; dpt 2 1 5 1; dpt 0 1 3 1].
Definition dart : list (Point F64) := [dpt 1 1 0 1; dpt 0 1 (-2) 1; dpt 4 1 0 1; dpt 0 1 2 1].
Example C32_instance :
  isConvex (N := F64) [0; 1; 2; 3; 4]%Z house = Ok true /\ isConvex (N := F64) [0; 1; 2; 3]%Z dart = Ok false /\
  (match snd (center_triangulate (N := F64) (F64_dec 1 100000) [0; 1; 2; 3; 4]%Z house) with
   | Ok ts => list_eqb (list_eqb Z.eqb) (map (fun t => pg_points (tr_poly t)) ts) [[0; 1; 5]; [1; 2; 5]; [2; 3; 5]; [3; 4; 5]; [4; 0; 5]]%Z
   | _ => false end) = true.
Proof. repeat split; vm_compute; reflexivity. Qed.

(** C33: [rest] are the vertices that are left when no ear is found. *)
Theorem C33_ear_triangulation : forall tol (p : list (Point RNum)) idx, in_range p idx ->
  exists ts rest areas ra a, ear_triangulate (N := RNum) tol idx p = Ok ts /\
    ear_loop (N := RNum) (length idx) tol p idx = Ok (ts, rest) /\ incl rest idx /\
    (forall t, In t ts -> exists i j k, pg_points (tr_poly t) = [i; j; k] /\ incl [i; j; k] idx /\ (NoDup idx -> NoDup [i; j; k])) /\
    mapM (fun t : triangle RNum => geo_area (N := RNum) p (pg_points (tr_poly t))) ts = Ok areas /\
    geo_area (N := RNum) p rest = Ok ra /\ geo_area (N := RNum) p idx = Ok a /\
    sumR areas + ra = a /\ (length ts <= length idx - 2)%nat /\
    ((length rest < 3)%nat -> length ts = (length idx - 2)%nat /\ sumR areas = a) /\
    ((3 <= length rest)%nat -> (length ts + length rest = length idx)%nat).
Proof. exact ear_triangulation_correct. Qed.
Print Assumptions C33_ear_triangulation.

Example C33_instance :
  in_range house [0; 1; 2; 3; 4]%Z /\
  (match ear_triangulate (N := F64) (F64_dec 1 100000) [0; 1; 2; 3; 4]%Z house with
   | Ok ts => list_eqb (list_eqb Z.eqb) (map (fun t => pg_points (tr_poly t)) ts) [[4; 0; 1]; [4; 1; 2]; [2; 3; 4]]%Z
   | _ => false end) = true.
Proof.
  split; [|vm_compute; reflexivity]. unfold in_range. repeat constructor; cbn; lia.
Qed.

(** C34: the convexity test accepts every triangle, so the first corner is cut unless a vertex lies in it. *)
Theorem C34_every_triangle_passes : forall (p : list (Point RNum)) a b c,
  in_range p [a; b; c] -> isConvex (N := RNum) [a; b; c] p = Ok true.
Proof. exact triangle_convex. Qed.
Print Assumptions C34_every_triangle_passes.

Theorem C34_first_corner_is_cut : forall tol (p : list (Point RNum)) a b c d m, in_range p (b :: c :: m ++ [d; a]) ->
  ear_blocked (N := RNum) tol p (b :: c :: m ++ [d; a]) [a; b; c] = Ok false ->
  exists t ts, ear_triangulate (N := RNum) tol (b :: c :: m ++ [d; a]) p = Ok (t :: ts) /\ pg_points (tr_poly t) = [a; b; c].
Proof. exact first_corner_is_cut. Qed.
Print Assumptions C34_first_corner_is_cut.

(** a simple counter-clockwise polygon; its first ear is clockwise and contains (0.25, 0), which is
    outside the polygon *)
Theorem C34_tiling_refuted : exists (tol : f64) (p : list (Point F64)) (idx t : list Z) (ts : list (triangle F64)) (q : Point F64),
  isSelfIntersecting (N := F64) tol idx p = Ok false /\ isClockwise (N := F64) idx p = Ok false /\
  containsPoint (N := F64) tol idx p q = Ok false /\
  ear_triangulate (N := F64) tol idx p = Ok ts /\
  match ts with t1 :: _ => pg_points (tr_poly t1) = t | [] => False end /\
  isClockwise (N := F64) t p = Ok true /\ containsPoint (N := F64) tol t p q = Ok true.
Proof.
  exists (F64_dec 1 100000), dart, [0; 1; 2; 3]%Z, [3; 0; 1]%Z.
  assert (X : match ear_triangulate (N := F64) (F64_dec 1 100000) [0; 1; 2; 3]%Z dart with
              | Ok (t1 :: _) => pg_points (tr_poly t1) = [3; 0; 1]%Z | _ => False end) by (vm_compute; reflexivity).
  destruct (ear_triangulate (N := F64) (F64_dec 1 100000) [0; 1; 2; 3]%Z dart) as [ts|e]; [|destruct X].
  exists ts, (dpt 1 4 0 1). repeat split; try (vm_compute; reflexivity). destruct ts; exact X.
Qed.
Print Assumptions C34_tiling_refuted.

Example C34_instance : in_range dart [0; 1; 2; 3]%Z /\
  ear_blocked (N := F64) (F64_dec 1 100000) dart [0; 1; 2; 3]%Z [3; 0; 1]%Z = Ok false.
Proof. split; [unfold in_range; repeat constructor; cbn; lia|vm_compute; reflexivity]. Qed.
