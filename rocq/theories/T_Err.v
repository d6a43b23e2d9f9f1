(** Geometry on doubles of bounded size that lie on no particular grid: property C127. *)
From Coq Require Import Reals Lra Lia ZArith List.
From Verif Require Import Base Spec MUtil MGeom MHull MPolygon MMaps MTriangle MGen MRegion MDelaunay MVoronoi Bridge BridgeNum BridgeVor64 BridgeErr.
From Verif Require Import PFloat PErr2 PErr3 PErr4 Samples Samples4 Samples5 Samples6 Samples27.
Import ListNotations.

(** C127 *)
Theorem C127_turn : forall (M : R), scale M -> forall p q r : Point F64, within M p -> within M q -> within M r ->
  let t := orientation (N := F64) p q r in let o := orient (xyv p) (xyv q) (xyv r) in
  fin t /\ (Rabs (val t - o) <= 45 * u53 * (M * M))%R /\
  ((45 * u53 * (M * M) < Rabs o)%R -> (@nltb F64 (@nZ F64 0) t = true <-> (0 < o)%R) /\ (@nltb F64 t (@nZ F64 0) = true <-> (o < 0)%R)).
Proof. exact turn_sign. Qed.
Print Assumptions C127_turn.

Example C127_turn_met : scale 16 /\ within 16 (dpt 2 1) /\ within 16 (dpt 112 7) /\ within 16 (dpt 121 93) /\
  (45 * u53 * (16 * 16) < Rabs (orient (xyv (dpt 2 1)) (xyv (dpt 112 7)) (xyv (dpt 121 93))))%R.
Proof. split; [exact scale16|]. repeat (split; [apply within16; vm_compute; reflexivity|]). apply fat16. vm_compute. reflexivity. Qed.

Theorem C127_area : forall (M : R), scale M -> forall (p : list (Point F64)) idx vs, vertices_are p idx vs -> Forall (within M) vs -> (zlen idx <= 2 ^ 20)%Z ->
  exists a, geo_area (N := F64) p idx = Ok a /\ fin a /\
    (Rabs (val a - shoelace (map xyv vs)) <= 64 * (IZR (zlen idx) * IZR (zlen idx)) * u53 * (M * M))%R.
Proof. exact area_any. Qed.
Print Assumptions C127_area.

Example C127_area_met : scale 16 /\ vertices_are five [0; 1; 2; 3; 4]%Z five /\ Forall (within 16) five /\ (zlen [0; 1; 2; 3; 4]%Z <= 2 ^ 20)%Z.
Proof. split; [exact scale16|]. split; [exact five_vertices|]. split; [exact five_within|]. vm_compute. discriminate. Qed.

Theorem C127_orientation : forall (M : R), scale M -> forall (p : list (Point F64)) idx vs, vertices_are p idx vs -> Forall (within M) vs -> idx <> [] -> (zlen idx <= 2 ^ 20)%Z ->
  (12 * (IZR (zlen idx) * IZR (zlen idx)) * u53 * (M * M) < Rabs (shoelace (map xyv vs)))%R ->
  exists b, isClockwise (N := F64) idx p = Ok b /\ (b = true <-> (shoelace (map xyv vs) < 0)%R).
Proof. exact clockwise_any. Qed.
Print Assumptions C127_orientation.

Theorem C127_counterclockwise : forall (M : R), scale M -> forall (g : polygon F64) (p : list (Point F64)) vs,
  vertices_are p (pg_points g) vs -> Forall (within M) vs -> pg_points g <> [] -> (zlen (pg_points g) <= 2 ^ 20)%Z ->
  (12 * (IZR (zlen (pg_points g)) * IZR (zlen (pg_points g))) * u53 * (M * M) < Rabs (shoelace (map xyv vs)))%R ->
  exists g' vs', fixCCW (N := F64) g p = Ok g' /\ vertices_are p (pg_points g') vs' /\
    ((shoelace (map xyv vs) < 0)%R /\ pg_points g' = rev (pg_points g) /\ vs' = rev vs \/ (0 < shoelace (map xyv vs))%R /\ g' = g /\ vs' = vs) /\
    (0 < shoelace (map xyv vs'))%R.
Proof. exact fixCCW_any. Qed.
Print Assumptions C127_counterclockwise.

(** The area cannot be left out: a thin triangle with coordinates in tenths, counterclockwise, is called clockwise. *)
Theorem C127_orientation_refuted : exists (p : list (Point F64)), Forall (within 16) p /\ length p = 3%nat /\ vertices_are p [0; 1; 2]%Z p /\
  (0 < shoelace (map xyv p))%R /\ isClockwise (N := F64) [0; 1; 2]%Z p = Ok true.
Proof. exact sliver_wrong. Qed.
Print Assumptions C127_orientation_refuted.

Example C127_orientation_met : scale 16 /\ vertices_are five [0; 1; 2; 3; 4]%Z five /\ Forall (within 16) five /\
  (12 * (IZR (zlen [0; 1; 2; 3; 4]%Z) * IZR (zlen [0; 1; 2; 3; 4]%Z)) * u53 * (16 * 16) < Rabs (shoelace (map xyv five)))%R.
Proof.
  split; [exact scale16|]. split; [exact five_vertices|]. split; [exact five_within|]. eapply Rlt_le_trans; [exact five_area|]. apply Rle_abs.
Qed.

Theorem C127_circumcenter : forall (M : R), scale M -> forall A B C : Point F64, within M A -> within M B -> within M C -> not_thin M (xyv A) (xyv B) (xyv C) ->
  exists c z, circumcenter (N := F64) A B C = Ok c /\ fin (px c) /\ fin (py c) /\
    dist z (xyv A) = dist z (xyv B) /\ dist z (xyv B) = dist z (xyv C) /\
    (forall q, dist q (xyv A) = dist q (xyv B) -> dist q (xyv B) = dist q (xyv C) -> q = z) /\
    (Rabs (val (px c) - fst z) <= cc_slack M (orient (xyv A) (xyv B) (xyv C)) (fst z))%R /\
    (Rabs (val (py c) - snd z) <= cc_slack M (orient (xyv A) (xyv B) (xyv C)) (snd z))%R.
Proof. exact circumcenter_any. Qed.
Print Assumptions C127_circumcenter.

Example C127_circumcenter_met : scale 16 /\ within 16 (dpt 2 1) /\ within 16 (dpt 112 7) /\ within 16 (dpt 121 93) /\
  not_thin 16 (xyv (dpt 2 1)) (xyv (dpt 112 7)) (xyv (dpt 121 93)).
Proof. split; [exact scale16|]. repeat (split; [apply within16; vm_compute; reflexivity|]). apply fat16. vm_compute. reflexivity. Qed.

Theorem C127_diagram : forall (M : R), scale M -> forall o : trout F64, Forall (within M) (map read_point (o_points o)) ->
  triangulation (zlen (o_points o)) (map fst (o_edges o)) (o_tris o) ->
  (forall t A B C, In t (o_tris o) -> vertices_are (map read_point (o_points o)) (corners t) [A; B; C] -> not_thin M (xyv A) (xyv B) (xyv C)) ->
  forall (tol : f64) fuel, tolerance64 tol -> clustered tol (vertex_source o) ->
  (forall v, In v (flat_map corners (o_tris o)) -> (exists ws ts, closed_fan (map fst (o_edges o)) (o_tris o) v ws ts) \/
    (exists w ws w' ts, open_fan (o_edges o) (o_tris o) v w ws w' ts)) ->
  (length (o_tris o) < fuel)%nat ->
  exists d m ci, read_output (N := F64) tol o = Ok d /\ voronoi (N := F64) tol fuel d = Ok m /\
    (forall k t, nth_error (o_tris o) k = Some t -> exists A B C y z, vertices_are (map read_point (o_points o)) (corners t) [A; B; C] /\
       vertices_are (ul_list (ms_points m)) [ci k] [y] /\
       dist z (xyv A) = dist z (xyv B) /\ dist z (xyv B) = dist z (xyv C) /\
       (Rabs (val (px y) - fst z) < val tol + cc_slack M (orient (xyv A) (xyv B) (xyv C)) (fst z))%R /\
       (Rabs (val (py y) - snd z) < val tol + cc_slack M (orient (xyv A) (xyv B) (xyv C)) (snd z))%R) /\
    Forall2 (fun v (g : polygon F64) => forall ws ts, closed_fan (map fst (o_edges o)) (o_tris o) v ws ts -> exists ss, inner_cell ci ts (pg_points g) ss)
      (dedup (flat_map corners (o_tris o))) (ms_polygons m).
Proof. exact diagram_any. Qed.
Print Assumptions C127_diagram.

Example C127_diagram_met : scale 16 /\ Forall (within 16) (map read_point (o_points dwheel)) /\
  triangulation (zlen (o_points dwheel)) (map fst (o_edges dwheel)) (o_tris dwheel) /\
  (forall t A B C, In t (o_tris dwheel) -> vertices_are (map read_point (o_points dwheel)) (corners t) [A; B; C] -> not_thin 16 (xyv A) (xyv B) (xyv C)) /\
  tolerance64 tol64 /\ clustered tol64 (vertex_source dwheel) /\
  (forall v, In v (flat_map corners (o_tris dwheel)) -> (exists ws ts, closed_fan (map fst (o_edges dwheel)) (o_tris dwheel) v ws ts) \/
    (exists w ws w' ts, open_fan (o_edges dwheel) (o_tris dwheel) v w ws w' ts)) /\
  closed_fan (map fst (o_edges dwheel)) (o_tris dwheel) 4%Z [0; 1; 2; 3]%Z [0; 1; 2; 3]%nat.
Proof.
  split; [exact scale16|]. split; [exact dwheel_within|]. split; [exact dwheel_triangulation|]. split; [exact dwheel_fat|].
  split; [exact tol64_usable|]. split; [exact dwheel_clustered|]. split; [exact dwheel_fans|]. exact dwheel_inner.
Qed.
