(** Containment tests on doubles of bounded size that lie on no particular grid: property C128. *)
From Coq Require Import Reals Lra Lia ZArith List.
From Flocq Require Import Core.
From Verif Require Import Base Spec MUtil MGeom MHull MPolygon MMaps MTriangle MGen MRegion MDelaunay Bridge BridgeNum Bridge64 BridgeErr.
From Verif Require Import PFloat PErr5 Samples Samples4 Samples5 Samples27 Samples28.
Import ListNotations.

(** C128 *)
Theorem C128_segment : forall (M : R), scale M -> forall tol, fin tol -> (0 < val tol)%R -> forall q a b : Point F64, within M q -> within M a -> within M b ->
  (near_segment (val tol - contain_slack M) (xyv a) (xyv b) (xyv q) -> seg_contains (N := F64) tol q a b = true) /\
  (seg_contains (N := F64) tol q a b = true -> near_segment (val tol + contain_slack M) (xyv a) (xyv b) (xyv q)).
Proof. exact segment_any. Qed.
Print Assumptions C128_segment.

Theorem C128_edges : forall (M : R), scale M -> forall tol, fin tol -> (0 < val tol)%R -> forall (idx : list Z) (p : list (Point F64)) (q : Point F64) vs,
  vertices_are p idx vs -> Forall (within M) vs -> within M q ->
  exists b, inEdges (N := F64) tol idx p q = Ok b /\
    (near_border (val tol - contain_slack M) (xyv q) (map xyv vs) -> b = true) /\
    (b = true -> near_border (val tol + contain_slack M) (xyv q) (map xyv vs)).
Proof. exact border_any. Qed.
Print Assumptions C128_edges.

Theorem C128_contains : forall (M : R), scale M -> forall tol, fin tol -> (0 < val tol)%R -> (contain_slack M < val tol)%R ->
  forall (idx : list Z) (p : list (Point F64)) (q : Point F64) vs,
  vertices_are p idx vs -> Forall (within M) vs -> within M q -> no_short_edge (val tol) (map xyv vs) ->
  exists b, containsPoint (N := F64) tol idx p q = Ok b /\
    (inside_or_near (val tol - contain_slack M) (xyv q) (map xyv vs) -> b = true) /\
    (b = true -> inside_or_near (val tol + contain_slack M) (xyv q) (map xyv vs)).
Proof. exact contains_any. Qed.
Print Assumptions C128_contains.

Example C128_contains_met : scale 16 /\ fin tol64 /\ (0 < val tol64)%R /\ (contain_slack 16 < val tol64)%R /\ vertices_are five [0; 1; 2; 3; 4]%Z five /\
  Forall (within 16) five /\ within 16 (dpt 55 47) /\ no_short_edge (val tol64) (map xyv five) /\
  containsPoint (N := F64) tol64 [0; 1; 2; 3; 4]%Z five (dpt 55 47) = Ok true /\ containsPoint (N := F64) tol64 [0; 1; 2; 3; 4]%Z five (dpt 55 49) = Ok false.
Proof.
  split; [exact scale16|]. split; [exact tol64_fin|]. split; [exact tol64_pos|]. split; [exact slack16|]. split; [exact five_vertices|]. split; [exact five_within|].
  split; [apply within16; vm_compute; reflexivity|]. split; [exact five_long|]. split; vm_compute; reflexivity.
Qed.

Theorem C128_border : forall (M : R), scale M -> forall tol, fin tol -> (contain_slack M < val tol)%R ->
  forall (idx : list Z) (p : list (Point F64)) (q : Point F64) vs,
  vertices_are p idx vs -> Forall (within M) vs -> within M q -> on_border (xyv q) (map xyv vs) ->
  containsPoint (N := F64) tol idx p q = Ok true.
Proof. exact contains_border_any. Qed.
Print Assumptions C128_border.

Example C128_border_met : scale 16 /\ fin tol64 /\ (0 < val tol64)%R /\ (contain_slack 16 < val tol64)%R /\ vertices_are slab [0; 1; 2; 3]%Z slab /\
  Forall (within 16) (dpt 5 7 :: slab) /\ on_border (xyv (dpt 5 7)) (map xyv slab).
Proof.
  split; [exact scale16|]. split; [exact tol64_fin|]. split; [exact tol64_pos|]. split; [exact slack16|]. split; [exact slab_vertices|]. split; [exact slab_within|exact slab_border].
Qed.

(** The bound on the coordinates cannot be left out: with the default tolerance, the exact middle of a side
    of a triangle with coordinates in tenths below 2^20 is reported to be outside. *)
Theorem C128_border_refuted : exists (p : list (Point F64)) (q : Point F64), vertices_are p [0; 1; 2]%Z p /\ Forall (within (bpow radix2 20)) (q :: p) /\
  no_short_edge (val tol64) (map xyv p) /\ on_border (xyv q) (map xyv p) /\ containsPoint (N := F64) tol64 [0; 1; 2]%Z p q = Ok false.
Proof. exact far_missed. Qed.
Print Assumptions C128_border_refuted.

Theorem C128_convex : forall (M : R), scale M -> forall tol, fin tol -> (0 < val tol)%R -> (contain_slack M < val tol)%R ->
  forall (idx : list Z) (p : list (Point F64)) (q : Point F64) vs,
  vertices_are p idx vs -> Forall (within M) vs -> within M q -> no_short_edge (val tol) (map xyv vs) -> strictly_convex (map xyv vs) ->
  ((forall a b, In (a, b) (edges_of (map xyv vs)) -> (0 < orient a b (xyv q))%R) -> containsPoint (N := F64) tol idx p q = Ok true) /\
  ((exists a b, In (a, b) (edges_of (map xyv vs)) /\ (orient a b (xyv q) < 0)%R) ->
   exists b, containsPoint (N := F64) tol idx p q = Ok b /\ (b = true -> near_border (val tol + contain_slack M) (xyv q) (map xyv vs))).
Proof. exact contains_convex_any. Qed.
Print Assumptions C128_convex.

Example C128_convex_met : vertices_are kite4 [0; 1; 2; 3]%Z kite4 /\ Forall (within 16) kite4 /\ no_short_edge (val tol64) (map xyv kite4) /\
  strictly_convex (map xyv kite4) /\ (within 16 (dpt 71 42) /\ forall a b, In (a, b) (edges_of (map xyv kite4)) -> (0 < orient a b (xyv (dpt 71 42)))%R) /\
  (within 16 (dpt 71 3) /\ exists a b, In (a, b) (edges_of (map xyv kite4)) /\ (orient a b (xyv (dpt 71 3)) < 0)%R).
Proof.
  split; [exact kite4_vertices|]. split; [exact kite4_within|]. split; [exact kite4_long|]. split; [exact kite4_convex|].
  split; (split; [apply within16; vm_compute; reflexivity|]); [apply inside_ok|apply outside_ok]; vm_compute; reflexivity.
Qed.

Theorem C128_region : forall (M : R), scale M -> forall tol, fin tol -> (0 < val tol)%R -> (contain_slack M < val tol)%R -> forall (r : region F64) (q : Point F64),
  region_made r -> region_within M r -> within M q -> long_edges tol r ->
  (domain_between (val tol - contain_slack M) (val tol + contain_slack M) r q -> in_domain (N := F64) tol r q) /\
  (in_domain (N := F64) tol r q -> domain_between (val tol + contain_slack M) (val tol - contain_slack M) r q).
Proof. exact domain_any. Qed.
Print Assumptions C128_region.

Theorem C128_seeding : forall (M : R), scale M -> forall tol, fin tol -> (0 < val tol)%R -> (contain_slack M < val tol)%R -> forall (r : region F64) (s : list (Point F64)),
  region_made r -> region_within M r -> long_edges tol r -> Forall (within M) s ->
  exists kept, addSeedPoints (N := F64) tol r s = Ok (with_seeds r kept) /\
    (forall q, In q kept -> In q s /\ domain_between (val tol + contain_slack M) (val tol - contain_slack M) r q) /\
    (forall q, In q s -> domain_between (val tol - contain_slack M) (val tol + contain_slack M) r q -> In q kept).
Proof. exact seeding_any. Qed.
Print Assumptions C128_seeding.

Example C128_seeding_met : region_made r_nicked /\ region_within 16 r_nicked /\ long_edges tol64 r_nicked /\ Forall (within 16) offered /\
  rg_holes r_nicked <> [] /\ match addSeedPoints (N := F64) tol64 r_nicked offered with Ok r => Nat.eqb (length (rg_seeds r)) 2 | _ => false end = true.
Proof.
  split; [exact r_nicked_made|]. split; [exact r_nicked_within|]. split; [exact r_nicked_long|]. split; [exact offered_within|].
  split; [rewrite (proj2 r_nicked_shape); discriminate|exact offered_kept].
Qed.
