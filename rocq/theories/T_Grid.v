(** Property theorems C74 to C80: the geometry on IEEE doubles whose coordinates are integer
    multiples (up to 2^20) of one power of two. *)
From Coq Require Import Reals Lra ZArith SpecFloat List.
From Flocq Require Import Core.
From Verif Require Import Base Spec MUtil MGeom MHull MPolygon MMaps MTriangle MGen MRegion Bridge BridgeNum.
From Verif Require Import PGrid5 PGrid6 PGrid7 Samples Samples4.
Import ListNotations.
Open Scope Z_scope.

(** C74: areas, orientation and convexity. *)
Theorem C74_area_exact : forall e, -200 <= e <= 200 -> forall (p : list (Point F64)) idx vs,
  vertices_are p idx vs -> Forall (grid_point e) vs -> (length vs <= 1024)%nat ->
  (exists a, geo_area (N := F64) p idx = Ok a /\ fin a /\ val a = shoelace (map xyv vs)) /\
  (exists a, signedArea (N := F64) p idx = Ok a /\ fin a /\ val a = shoelace (map xyv vs)) /\
  (forall g : polygon F64, pg_points g = idx -> pg_area g = @nZ F64 (-1) ->
     exists g' a, getArea (N := F64) g p = Ok (g', a) /\ fin a /\ val a = shoelace (map xyv vs) /\ pg_area g' = a).
Proof. exact area_grid. Qed.
Print Assumptions C74_area_exact.

Theorem C74_clockwise_exact : forall e, -200 <= e <= 200 -> forall (p : list (Point F64)) idx vs,
  vertices_are p idx vs -> Forall (grid_point e) vs -> (1 <= length vs <= 1024)%nat ->
  exists b, isClockwise (N := F64) idx p = Ok b /\ (b = true <-> (shoelace (map xyv vs) < 0)%R).
Proof. exact clockwise_grid. Qed.
Print Assumptions C74_clockwise_exact.

Theorem C74_fixCCW_exact : forall e, -200 <= e <= 200 -> forall (g : polygon F64) p vs,
  vertices_are p (pg_points g) vs -> Forall (grid_point e) vs -> (1 <= length vs <= 1024)%nat ->
  exists g', fixCCW (N := F64) g p = Ok g' /\
    ((shoelace (map xyv vs) < 0)%R /\ pg_points g' = rev (pg_points g) \/ (0 <= shoelace (map xyv vs))%R /\ g' = g) /\
    isClockwise (N := F64) (pg_points g') p = Ok false /\ fixCCW (N := F64) g' p = Ok g' /\
    (pg_area g = @nZ F64 (-1) -> exists g'' a, getArea (N := F64) g' p = Ok (g'', a) /\ fin a /\ val a = Rabs (shoelace (map xyv vs))).
Proof. exact fixCCW_grid. Qed.
Print Assumptions C74_fixCCW_exact.

Theorem C74_convexity_exact : forall e, -200 <= e <= 200 -> forall (p : list (Point F64)) idx vs,
  vertices_are p idx vs -> Forall (grid_point e) vs -> (3 <= length idx)%nat ->
  let turn := turn_at (map xyv vs) in let n := length vs in
  exists b, isConvex (N := F64) idx p = Ok b /\
    ((forall i, (i < n)%nat -> 0 <= turn i)%R \/ (forall i, (i < n)%nat -> turn i <= 0)%R -> b = true) /\
    (turn 0%nat <> 0%R -> (b = false <-> exists i, (i < n)%nat /\ (turn 0%nat * turn i < 0)%R)) /\
    (turn 0%nat = 0%R -> b = true) /\ (n = 3%nat -> b = true).
Proof. exact convex_grid. Qed.
Print Assumptions C74_convexity_exact.

Example C74_hypotheses_met :
  vertices_are dart [0; 1; 2; 3; 4] dart /\ Forall (grid_point 0) dart /\ (3 <= length dart <= 1024)%nat /\
  shoelace (map xyv dart) = 32%R /\ turn_at (map xyv dart) 0 <> 0%R.
Proof.
  split; [exact dart_vertices|]. split; [exact dart_grid|]. split; [cbn; lia|]. rewrite dart_xyv. split.
  - unfold shoelace, sumR, vcross; cbn. lra.
  - unfold turn_at, orient, vcross, vsub; cbn. lra.
Qed.
Example C74_case : match geo_area (N := F64) dart [0; 1; 2; 3; 4] with Ok a => neqb (n := F64) a (nZ 32) | _ => false end = true /\
  isConvex (N := F64) [0; 1; 2; 3; 4] dart = Ok false /\ isConvex (N := F64) [0; 1; 2; 3] kite = Ok true /\ isClockwise (N := F64) [4; 3; 2; 1; 0] dart = Ok true.
Proof. repeat split; vm_compute; reflexivity. Qed.

(** C75: hull and diameter. *)
Theorem C75_hull_exact : forall e, -200 <= e <= 200 -> forall pts : list (Point F64), Forall (grid_point e) pts -> pts <> [] ->
  let (u, l) := convexHull (N := F64) pts in
  hull_chain 1 (map xyv pts) (map xyv u) /\ hull_chain (-1) (map xyv pts) (map xyv l) /\ incl u pts /\ incl l pts.
Proof. exact hull_grid. Qed.
Print Assumptions C75_hull_exact.

Theorem C75_extreme_points : forall e, -200 <= e <= 200 -> forall (pts : list (Point F64)) (d q : pt), Forall (grid_point e) pts -> In q (map xyv pts) ->
  (forall r, In r (map xyv pts) -> r <> q -> (vdot d r < vdot d q)%R) ->
  ((0 < snd d)%R -> In q (map xyv (fst (convexHull (N := F64) pts)))) /\ ((snd d < 0)%R -> In q (map xyv (snd (convexHull (N := F64) pts)))).
Proof. exact hull_extreme_grid. Qed.
Print Assumptions C75_extreme_points.

Theorem C75_diameter_correctly_rounded : forall e, -200 <= e <= 200 -> forall (g : polygon F64) p vs,
  vertices_are p (pg_points g) vs -> Forall (grid_point e) vs -> nltb (pg_diam g) (@nZ F64 0) = true -> (2 <= length vs)%nat ->
  exists g' d D, getDiameter (N := F64) g p = Ok (g', d) /\ fin d /\ is_diameter (map xyv vs) D /\ val d = nearest D /\
    forall p', getDiameter (N := F64) g' p' = Ok (g', d).
Proof. exact diameter_doubles. Qed.
Print Assumptions C75_diameter_correctly_rounded.

Example C75_hypotheses_met : exists g, polygon_ctor_idx (N := F64) tol64 [0; 1; 2; 3; 4] dart = Ok g /\ vertices_are dart (pg_points g) dart /\
  Forall (grid_point 0) dart /\ nltb (pg_diam g) (@nZ F64 0) = true /\ (2 <= length dart)%nat /\ dart <> [].
Proof.
  eexists. split; [reflexivity|]. split; [exact dart_vertices|]. split; [exact dart_grid|]. split; [vm_compute; reflexivity|]. split; [cbn; lia|discriminate].
Qed.
Example C75_extreme_case : In (8, 6)%R (map xyv dart) /\
  (forall r, In r (map xyv dart) -> r <> (8, 6)%R -> (vdot (1, 1) r < vdot (1, 1) (8, 6))%R) /\ (0 < snd (1, 1))%R.
Proof.
  rewrite dart_xyv. split; [cbn; auto|]. split; [|cbn; lra]. intros r Hr Nr. cbn in Hr. unfold vdot.
  repeat destruct Hr as [Hr|Hr]; try (exfalso; exact Hr); subst r; cbn [fst snd]; try (exfalso; congruence); lra.
Qed.
Example C75_case : match calculateDiameter (N := F64) dart with Ok d => neqb (n := F64) d (nZ 10) | _ => false end = true.
Proof. vm_compute. reflexivity. Qed.

(** C76: containsPoint. *)
Theorem C76_contains_even_odd : forall e, -200 <= e <= 200 -> forall tol, fin tol -> (0 < val tol)%R -> forall (p : list (Point F64)) idx (q : Point F64) vs,
  vertices_are p idx vs -> Forall (grid_point e) vs -> grid_point e q -> no_short_edge (val tol) (map xyv vs) ->
  exists b, containsPoint (N := F64) tol idx p q = Ok b /\
    (b = true <-> even_odd (xyv q) (map xyv vs) = true \/ near_border (val tol) (xyv q) (map xyv vs)).
Proof. exact contains_doubles. Qed.
Print Assumptions C76_contains_even_odd.

Theorem C76_contains_border : forall e, -200 <= e <= 200 -> forall tol, fin tol -> (0 < val tol)%R -> forall (p : list (Point F64)) idx (q : Point F64) vs,
  vertices_are p idx vs -> Forall (grid_point e) vs -> grid_point e q -> on_border (xyv q) (map xyv vs) ->
  containsPoint (N := F64) tol idx p q = Ok true.
Proof. exact contains_border_doubles. Qed.
Print Assumptions C76_contains_border.

Theorem C76_contains_convex : forall e, -200 <= e <= 200 -> forall tol, fin tol -> (0 < val tol)%R -> forall (p : list (Point F64)) idx (q : Point F64) vs,
  vertices_are p idx vs -> Forall (grid_point e) vs -> grid_point e q -> no_short_edge (val tol) (map xyv vs) -> strictly_convex (map xyv vs) ->
  ((forall a b, In (a, b) (edges_of (map xyv vs)) -> (0 < orient a b (xyv q))%R) -> containsPoint (N := F64) tol idx p q = Ok true) /\
  ((exists a b, In (a, b) (edges_of (map xyv vs)) /\ (orient a b (xyv q) < 0)%R) ->
   exists b, containsPoint (N := F64) tol idx p q = Ok b /\ (b = true <-> near_border (val tol) (xyv q) (map xyv vs))).
Proof. exact contains_convex_doubles. Qed.
Print Assumptions C76_contains_convex.

Example C76_hypotheses_met :
  (fin tol64 /\ (0 < val tol64)%R) /\ vertices_are dart [0; 1; 2; 3; 4] dart /\ Forall (grid_point 0) dart /\ grid_point 0 (zpt 3 4) /\
  no_short_edge (val tol64) (map xyv dart) /\ on_border (xyv (zpt 4 0)) (map xyv dart).
Proof.
  split; [exact (conj tol64_fin tol64_pos)|]. split; [exact dart_vertices|]. split; [exact dart_grid|]. split; [apply zpt_grid; cbn; lia|].
  split; [exact dart_no_short|]. rewrite dart_xyv, zpt_xyv by (cbn; lia). exists (0, 0)%R, (8, 0)%R. split; [cbn; auto|].
  exists (/ 2)%R. split; [lra|]. unfold lerp; cbn [fst snd]. f_equal; lra.
Qed.
Example C76_convex_hypotheses_met :
  vertices_are kite [0; 1; 2; 3] kite /\ Forall (grid_point 0) kite /\ no_short_edge (val tol64) (map xyv kite) /\ strictly_convex (map xyv kite) /\
  (forall a b, In (a, b) (edges_of (map xyv kite)) -> (0 < orient a b (xyv (zpt 3 3)))%R) /\
  (exists a b, In (a, b) (edges_of (map xyv kite)) /\ (orient a b (xyv (zpt 9 3)) < 0)%R).
Proof.
  split; [exact kite_vertices|]. split; [exact kite_grid|]. split; [exact kite_no_short|]. split; [exact kite_convex|].
  rewrite kite_xyv, !zpt_xyv by (cbn; lia). split.
  - intros a b H. cbn in H. repeat destruct H as [H|H]; try (exfalso; exact H); injection H as <- <-; unfold orient, vcross, vsub; cbn [fst snd]; lra.
  - exists (6, 1)%R, (5, 7)%R. split; [cbn; auto|]. unfold orient, vcross, vsub; cbn [fst snd]; lra.
Qed.
Example C76_case : containsPoint (N := F64) tol64 [0; 1; 2; 3; 4] dart (zpt 3 4) = Ok false /\ containsPoint (N := F64) tol64 [0; 1; 2; 3; 4] dart (zpt 1 2) = Ok true.
Proof. split; vm_compute; reflexivity. Qed.

(** C77: ear triangulation. *)
Theorem C77_ear_triangulation_exact : forall e, -200 <= e <= 200 -> forall tol, fin tol -> (0 < val tol)%R -> forall (p : list (Point F64)) idx vs,
  vertices_are p idx vs -> Forall (grid_point e) vs -> (length vs <= 1024)%nat ->
  exists ts rest areas ra a, ear_triangulate (N := F64) tol idx p = Ok ts /\
    ear_loop (N := F64) (length idx) tol p idx = Ok (ts, rest) /\ incl rest idx /\
    (forall t, In t ts -> exists i j k, pg_points (tr_poly t) = [i; j; k] /\ incl [i; j; k] idx /\ (NoDup idx -> NoDup [i; j; k])) /\
    mapM (fun t : triangle F64 => geo_area (N := F64) p (pg_points (tr_poly t))) ts = Ok areas /\
    geo_area (N := F64) p rest = Ok ra /\ geo_area (N := F64) p idx = Ok a /\
    Forall fin (a :: ra :: areas) /\ val a = shoelace (map xyv vs) /\
    (sumR (map val areas) + val ra)%R = val a /\ (length ts <= length idx - 2)%nat /\
    ((length rest < 3)%nat -> length ts = (length idx - 2)%nat /\ sumR (map val areas) = val a) /\
    ((3 <= length rest)%nat -> (length ts + length rest = length idx)%nat).
Proof. exact ears_doubles. Qed.
Print Assumptions C77_ear_triangulation_exact.

Example C77_hypotheses_met :
  (fin tol64 /\ (0 < val tol64)%R) /\ vertices_are dart [0; 1; 2; 3; 4] dart /\ Forall (grid_point 0) dart /\ (length dart <= 1024)%nat /\
  match ear_triangulate (N := F64) tol64 [0; 1; 2; 3; 4] dart with Ok ts => length ts = 3%nat | _ => False end.
Proof.
  split; [exact (conj tol64_fin tol64_pos)|]. split; [exact dart_vertices|]. split; [exact dart_grid|]. split; [cbn; lia|]. vm_compute. reflexivity.
Qed.

(** C78: segment intersection. *)
Theorem C78_intersection_on_doubles : forall e, -200 <= e <= 200 -> forall p1 p2 o1 o2 : Point F64,
  grid_point e p1 -> grid_point e p2 -> grid_point e o1 -> grid_point e o2 ->
  forall tol, fin tol -> (bpow radix2 (-50) <= val tol)%R -> (val tol <= / 4)%R -> forall inter,
  (parallel (xyv p1) (xyv p2) (xyv o1) (xyv o2) -> intersects (N := F64) tol p1 p2 o1 o2 inter = (false, inter)) /\
  (forall q, intersects (N := F64) tol p1 p2 o1 o2 inter = (false, q) -> q = inter) /\
  (~ parallel (xyv p1) (xyv p2) (xyv o1) (xyv o2) -> forall z, on_segment (xyv p1) (xyv p2) z -> on_segment (xyv o1) (xyv o2) z ->
     exists q, intersects (N := F64) tol p1 p2 o1 o2 inter = (true, q) /\ close_point (bpow radix2 (e - 29)) q z) /\
  (forall q, intersects (N := F64) tol p1 p2 o1 o2 inter = (true, q) ->
     ~ parallel (xyv p1) (xyv p2) (xyv o1) (xyv o2) /\ pbd q = pbd inter /\ pempty q = pempty inter /\
     exists t s z, (- 2 * val tol <= t <= 1 + 2 * val tol)%R /\ (- 2 * val tol <= s <= 1 + 2 * val tol)%R /\
       z = lerp (xyv p1) (xyv p2) t /\ z = lerp (xyv o1) (xyv o2) s /\ close_point (bpow radix2 (e - 29)) q z).
Proof. exact intersects_doubles. Qed.
Print Assumptions C78_intersection_on_doubles.

Theorem C78_infinite_on_doubles : forall e, -200 <= e <= 200 -> forall p1 p2 o1 o2 : Point F64,
  grid_point e p1 -> grid_point e p2 -> grid_point e o1 -> grid_point e o2 ->
  forall tol, fin tol -> (bpow radix2 (-50) <= val tol)%R -> (val tol <= / 4)%R -> forall inter,
  (parallel (xyv p1) (xyv p2) (xyv o1) (xyv o2) -> intersectionInfinite (N := F64) tol p1 p2 o1 o2 inter = (false, inter)) /\
  (forall q, intersectionInfinite (N := F64) tol p1 p2 o1 o2 inter = (false, q) -> q = inter) /\
  (~ parallel (xyv p1) (xyv p2) (xyv o1) (xyv o2) -> forall z s, on_segment (xyv p1) (xyv p2) z -> z = lerp (xyv o1) (xyv o2) s ->
     exists q, intersectionInfinite (N := F64) tol p1 p2 o1 o2 inter = (true, q) /\ close_point (bpow radix2 (e - 29)) q z) /\
  (forall q, intersectionInfinite (N := F64) tol p1 p2 o1 o2 inter = (true, q) ->
     ~ parallel (xyv p1) (xyv p2) (xyv o1) (xyv o2) /\ pbd q = pbd inter /\ pempty q = pempty inter /\
     exists t s z, (- 2 * val tol <= t <= 1 + 2 * val tol)%R /\ z = lerp (xyv p1) (xyv p2) t /\ z = lerp (xyv o1) (xyv o2) s /\ close_point (bpow radix2 (e - 29)) q z).
Proof. exact infinite_doubles. Qed.
Print Assumptions C78_infinite_on_doubles.

Example C78_hypotheses_met :
  Forall (grid_point 0) [zpt 0 0; zpt 7 5; zpt 0 3; zpt 7 2] /\ fin tol64 /\ (bpow radix2 (-50) <= val tol64 /\ val tol64 <= / 4)%R /\
  ~ parallel (xyv (zpt 0 0)) (xyv (zpt 7 5)) (xyv (zpt 0 3)) (xyv (zpt 7 2)) /\
  on_segment (xyv (zpt 0 0)) (xyv (zpt 7 5)) (7 / 2, 5 / 2)%R /\ on_segment (xyv (zpt 0 3)) (xyv (zpt 7 2)) (7 / 2, 5 / 2)%R.
Proof.
  split; [repeat first [apply Forall_cons|apply Forall_nil]; apply zpt_grid; cbn; lia|]. split; [exact tol64_fin|]. split; [exact tol64_range|].
  rewrite !zpt_xyv by (cbn; lia). split; [unfold parallel, vcross, vsub; cbn [fst snd]; lra|].
  split; exists (/ 2)%R; (split; [lra|]); unfold lerp; cbn [fst snd]; f_equal; lra.
Qed.

(** C79: self-intersection and mutate. *)
Theorem C79_selfintersection_on_doubles : forall e, -200 <= e <= 200 ->
  forall tol, fin tol -> (bpow radix2 (-50) <= val tol)%R -> (val tol <= / 4)%R -> forall (p : list (Point F64)) idx vs,
  vertices_are p idx vs -> Forall (grid_point e) vs ->
  exists b, isSelfIntersecting (N := F64) tol idx p = Ok b /\
    (crossing_within 0 (map xyv vs) -> b = true) /\ (b = true -> crossing_within (2 * val tol) (map xyv vs)) /\
    (forall m, 0 <= m <= 20 -> Forall (gpm e m) vs -> (2 * val tol < bpow radix2 (- (2 * m + 3)))%R -> (b = true <-> crossing_within 0 (map xyv vs))).
Proof. exact selfintersecting_doubles. Qed.
Print Assumptions C79_selfintersection_on_doubles.

Theorem C79_mutate_on_doubles : forall e, -200 <= e <= 200 ->
  forall tol, fin tol -> (bpow radix2 (-50) <= val tol)%R -> (val tol <= / 4)%R -> forall (r : region F64) (pts : list (Point F64)), Forall (grid_point e) pts ->
  let r' := fst (region_mutate (N := F64) tol r pts) in let o := snd (region_mutate (N := F64) tol r pts) in
  rg_p r' = pts /\ pg_points (rg_poly r') = trivialIndex (length pts) /\ rg_holes r' = rg_holes r /\ rg_seeds r' = rg_seeds r /\
  (crossing_within 0 (map xyv pts) -> o = Err (Throw "Self intersecting polygons are not supported")) /\
  (~ crossing_within (2 * val tol) (map xyv pts) -> o = Ok tt) /\
  (forall m, 0 <= m <= 20 -> Forall (gpm e m) pts -> (2 * val tol < bpow radix2 (- (2 * m + 3)))%R ->
    ~ crossing_within 0 (map xyv pts) -> o = Ok tt).
Proof. exact mutate_doubles. Qed.
Print Assumptions C79_mutate_on_doubles.

Example C79_hypotheses_met :
  (fin tol64 /\ (bpow radix2 (-50) <= val tol64 /\ val tol64 <= / 4)%R) /\ (2 * val tol64 < bpow radix2 (- (2 * 3 + 3)))%R /\
  (vertices_are dart [0; 1; 2; 3; 4] dart /\ Forall (gpm 0 3) dart /\ ~ crossing_within 0 (map xyv dart)) /\
  (vertices_are bow [0; 1; 2; 3] bow /\ Forall (gpm 0 3) bow /\ crossing_within 0 (map xyv bow)).
Proof.
  split; [exact (conj tol64_fin tol64_range)|]. split; [exact tol64_sharp|].
  split; [exact (conj dart_vertices (conj dart_gpm dart_simple))|exact (conj bow_vertices (conj bow_gpm bow_crosses64))].
Qed.

(** C80: the order of points and unique lists of points. *)
Theorem C80_point_order_exact : forall e, -200 <= e <= 200 -> forall tol, fin tol -> (0 < val tol)%R -> (val tol <= bpow radix2 e)%R ->
  forall a b : Point F64, grid_point e a -> grid_point e b ->
  (pt_ltb (N := F64) tol a b = true <-> lex (xyv a) (xyv b)) /\ (pt_eqb (N := F64) tol a b = true <-> xyv a = xyv b).
Proof. exact (fun e He tol Ft T1 T2 a b Ga Gb => conj (pt_ltb_doubles e He tol Ft T1 T2 a b Ga Gb) (pt_eqb_doubles e He tol Ft T1 T2 a b Ga Gb)). Qed.
Print Assumptions C80_point_order_exact.

Theorem C80_unique_list_of_points : forall e, -200 <= e <= 200 -> forall tol, fin tol -> (0 < val tol <= bpow radix2 e)%R ->
  forall h : list (set_op (Point F64)), (forall o, In o h -> forall x, In x (set_op_elems o) -> grid_point e x) ->
  exists u, ul_run (pt_ltb (N := F64) tol) h = Ok u /\
    (forall q, In q (ul_list u) -> grid_point e q) /\
    NoDup (map xyv (ul_list u)) /\
    (forall x, grid_point e x -> (ul_contains (pt_ltb (N := F64) tol) u x = true <-> In (xyv x) (map xyv (ul_list u)))) /\
    (forall x u' i, grid_point e x -> ul_push_back (pt_ltb (N := F64) tol) u x = (u', i) ->
       (In (xyv x) (map xyv (ul_list u)) /\ ul_list u' = ul_list u \/ ~ In (xyv x) (map xyv (ul_list u)) /\ ul_list u' = ul_list u ++ [x]) /\
       exists y, vget (ul_list u') i = Ok y /\ xyv y = xyv x).
Proof. exact uniquelist_doubles. Qed.
Print Assumptions C80_unique_list_of_points.

Example C80_hypotheses_met :
  fin tol64 /\ (0 < val tol64 <= bpow radix2 0)%R /\ (forall o, In o [AddListOp dart; AddOp (zpt 8 6); RemoveOp (zpt 0 0); AddListOp kite] -> forall x, In x (set_op_elems o) -> grid_point 0 x).
Proof.
  split; [exact tol64_fin|]. split; [exact (conj tol64_pos tol64_one)|]. intros o Ho x Hx.
  repeat destruct Ho as [Ho|Ho]; try (exfalso; exact Ho); subst o; cbn [set_op_elems] in Hx.
  - exact (proj1 (Forall_forall _ _) dart_grid x Hx).
  - destruct Hx as [<-|[]]. apply zpt_grid; cbn; lia.
  - destruct Hx as [<-|[]]. apply zpt_grid; cbn; lia.
  - exact (proj1 (Forall_forall _ _) kite_grid x Hx).
Qed.
