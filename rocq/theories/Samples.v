(** Concrete outlines, holes and regions used in the examples beside the theorems. *)
From Coq Require Import Reals Lra.
From Verif Require Import Base Spec MUtil MGeom MHull MPolygon MMaps MTriangle MGen MRegion MDelaunay MVoronoi MMesh Bridge PUtil PPoint PSegment PPoly PPoly2 PContains PRegion PTri PDelaunay.

Definition ok_or {A} (d : A) (m : res A) : A := match m with Ok a => a | Err _ => d end.
Definition tol64 : f64 := F64_dec 1 100000.
Definition cf64 : config F64 := default_config (N := F64).
Definition square (c r : Z) : list (Point F64) := [dpt (c - r) 1 (c - r) 1; dpt (c + r) 1 (c - r) 1; dpt (c + r) 1 (c + r) 1; dpt (c - r) 1 (c + r) 1].
Definition bowtie : list (Point F64) := [dpt 0 1 0 1; dpt 4 1 4 1; dpt 4 1 0 1; dpt 0 1 4 1].
Definition r_none : region F64 := region_default (N := F64) (F64_ofZ 0) (F64_ofZ 0) 0.
Definition r_square : region F64 := ok_or r_none (region_ctor (N := F64) tol64 (square 0 4)).
Definition r_seeded : region F64 := ok_or r_none (addSeedPoints (N := F64) tol64 r_square [dpt 1 1 1 1; dpt 9 1 9 1; dpt 3 1 3 1]).
Definition h_none : hole F64 := mkHole (N := F64) [] (dpt 0 1 0 1) [].
Definition h_square : hole F64 := ok_or h_none (polygonalHole (N := F64) tol64 (square 1 1)).
(** the answer of the clipping library for a hole inside the outline *)
Definition clip_inside (s c : list (Z * Z)) : list (list (Z * Z)) := [s; c].
Definition clip_disjoint (s c : list (Z * Z)) : list (list (Z * Z)) := [s].
Definition r_holed : region F64 := fst (addHole clip_inside cf64 r_seeded h_square).

Lemma made_ok_or (d : region F64) m : region_made d -> (forall r, m = Ok r -> region_made r) -> region_made (ok_or d m).
Proof. destruct m; cbn; auto. Qed.
Lemma r_square_made : region_made r_square.
Proof. apply made_ok_or; [apply rm_default|]. intros r E. exact (rm_ctor _ _ _ E). Qed.
Lemma r_seeded_made : region_made r_seeded.
Proof. apply made_ok_or; [apply rm_default|]. intros r E. exact (rm_addSeeds _ _ _ _ r_square_made E). Qed.
Lemma h_square_built : hole_built h_square.
Proof. apply (built_polygonal (N := F64) tol64 (square 1 1)). unfold h_square. rewrite polygonalHole_ok. reflexivity. Qed.
Lemma r_holed_made : region_made r_holed.
Proof. apply rm_addHole; [apply r_seeded_made|apply h_square_built]. Qed.

Definition quad : list (Point RNum) := ([mkP (N := RNum) 0 0; mkP (N := RNum) 5 (-1); mkP (N := RNum) 4 4; mkP (N := RNum) (-1) 3])%R.

(** a region with a hole, in exact arithmetic *)
Definition quad_hole : list (Point RNum) := [mkP (N := RNum) 1 1; mkP (N := RNum) 2 1; mkP (N := RNum) 1 2]%R.
Definition poly_none : polygon RNum := mkPoly (N := RNum) [] 0%R 0%R (mkP (N := RNum) 0%R 0%R) 0.
Definition r_quad0 : region RNum := ok_or (mkRegion (N := RNum) poly_none [] [] []) (region_ctor (N := RNum) 1%R quad).
Definition h_quad : hole RNum := ok_or (mkHole (N := RNum) [] (mkP (N := RNum) 0%R 0%R) []) (polygonalHole (N := RNum) 1%R quad_hole).
Definition r_quad : region RNum := mkRegion (N := RNum) (rg_poly r_quad0) (rg_p r_quad0) [h_quad] (rg_seeds r_quad0).
Lemma r_quad0_ok : region_ctor (N := RNum) 1%R quad = Ok r_quad0.
Proof.
  unfold r_quad0, region_ctor. destruct (proj2 (ctors_never_throw RNum 1%R [] quad)) as (g & -> & _). reflexivity.
Qed.
Lemma h_quad_ok : polygonalHole (N := RNum) 1%R quad_hole = Ok h_quad.
Proof. unfold h_quad. rewrite polygonalHole_ok. reflexivity. Qed.
Lemma h_quad_points : h_points h_quad = quad_hole.
Proof. unfold h_quad. rewrite polygonalHole_ok. reflexivity. Qed.
Lemma r_quad_p : rg_p r_quad = quad.
Proof. unfold r_quad, r_quad0, region_ctor. destruct (proj2 (ctors_never_throw RNum 1%R [] quad)) as (g & -> & _). reflexivity. Qed.
Lemma r_quad_made : region_made r_quad.
Proof.
  apply (rm_getHoles r_quad0 [h_quad]).
  - exact (rm_ctor _ _ _ r_quad0_ok).
  - constructor; [|constructor]. exact (built_polygonal _ _ _ h_quad_ok).
Qed.
Lemma r_quad_edges : region_no_short_edge (1 / 100000)%R r_quad.
Proof.
  split; [rewrite r_quad_p|unfold r_quad; cbn [rg_holes]; constructor; [rewrite h_quad_points|constructor]].
  - intros a b H. unfold quad, xy, edges_of in H; cbn in H. unfold coincide.
    repeat (destruct H as [[= <- <-]|H]; [cbn [fst snd]; unfold Rabs; repeat destruct Rcase_abs; lra|]). destruct H.
  - intros a b H. unfold quad_hole, xy, edges_of in H; cbn in H. unfold coincide.
    repeat (destruct H as [[= <- <-]|H]; [cbn [fst snd]; unfold Rabs; repeat destruct Rcase_abs; lra|]). destruct H.
Qed.
(** an outline with a coordinate that is not representable on the grid, and a hole outside *)
Definition r_thin : region F64 := ok_or r_none (region_ctor (N := F64) tol64 [dpt 0 1 0 1; dpt 4 1 7 100000; dpt 4 1 4 1; dpt 0 1 4 1]).
Definition h_far : hole F64 := ok_or h_none (polygonalHole (N := F64) tol64 (square 50 1)).
Lemma r_thin_made : region_made r_thin.
Proof. apply made_ok_or; [apply rm_default|]. intros r E. exact (rm_ctor _ _ _ E). Qed.
Lemma h_far_built : hole_built h_far.
Proof. apply (built_polygonal (N := F64) tol64 (square 50 1)). unfold h_far. rewrite polygonalHole_ok. reflexivity. Qed.
Lemma inside_kept {N : Num} cf (r : region N) (h : hole N) :
  is_ok (mapM (scalePoint (cf_scale cf)) (rg_p r)) = true -> is_ok (mapM (scalePoint (cf_scale cf)) (h_points h)) = true ->
  match region_containsPoint (cf_tol cf) r (h_center h) with Ok b => b | _ => false end = true ->
  In h (rg_holes (fst (addHole clip_inside cf r h))).
Proof.
  unfold addHole, region_containsPoint. intros E1 E2 E3.
  destruct (mapM _ (rg_p r)) as [s|]; [|discriminate]. destruct (mapM _ (h_points h)) as [c|]; [|discriminate]. cbn [clip_inside].
  destruct (containsPoint _ _ _ _) as [[|]|]; try discriminate. cbn [fst rg_holes]. apply in_or_app. right. left. reflexivity.
Qed.
Lemma r_holed_hole : In h_square (rg_holes r_holed).
Proof. apply (inside_kept cf64 r_seeded h_square); vm_compute; reflexivity. Qed.
Lemma quad_fresh : exists g, polygon_ctor_pts (N := RNum) 1%R quad = Ok g /\ vertices_are quad (pg_points g) quad /\ (pg_diam g < 0)%R /\
  (2 <= length quad)%nat.
Proof.
  destruct (proj2 (ctors_never_throw RNum 1%R [] quad)) as (g & E & Hg). exists g. split; [exact E|].
  rewrite Hg. split; [apply vertices_trivial|]. split; [|cbn; lia].
  unfold polygon_ctor_pts in E. apply bind_ok in E as (b & _ & E).
  apply bind_ok in E as (vs & _ & E). apply (f_equal (fun m : res (polygon RNum) => match m return R with Ok x => pg_diam x | _ => 0%R end)) in E. cbn [pg_diam] in E. rnum. lra.
Qed.

(** a square cut along a diagonal, as the triangulator would report it *)
Definition sq_out (N : Num) : trout N :=
  mkTrout (N := N) [(nZ 0, nZ 0, 1); (nZ 4, nZ 0, 1); (nZ 4, nZ 4, 1); (nZ 0, nZ 4, 1)]
    [(0, 1, 1); (1, 2, 1); (2, 3, 1); (3, 0, 1); (0, 2, 0)] [(0, 1, 2); (0, 2, 3)].
Definition half_out (N : Num) : trout N :=
  mkTrout (N := N) [(nZ 0, nZ 0, 1); (nZ 4, nZ 0, 1); (nZ 4, nZ 4, 1)] [(0, 1, 1); (1, 2, 1); (2, 0, 1)] [(0, 1, 2)].
Ltac nth_cases :=
  repeat match goal with
  | H : nth_error [] ?i = Some _ |- _ => destruct i; discriminate H
  | H : nth_error (_ :: _) ?i = Some _ |- _ => destruct i as [|i]; cbn [nth_error] in H; [injection H as <-|]
  end.
Lemma sq_triangulation N : triangulation (zlen (o_points (sq_out N))) (map fst (o_edges (sq_out N))) (o_tris (sq_out N)).
Proof.
  constructor; cbn [sq_out o_points o_edges o_tris map fst].
  - intros a b H. cbn in H. unfold zlen; cbn [length]. repeat destruct H as [H|H]; try injection H as <- <-; try contradiction; lia.
  - intros i j s s' Hi Hj E. nth_cases; try reflexivity; discriminate E.
  - intros t [<-|[<-|[]]]; repeat constructor; cbn; intuition lia.
  - intros t s [<-|[<-|[]]] H; cbn in H; repeat destruct H as [<-|H]; try contradiction;
    apply existsb_exists; reflexivity.
Qed.
Definition bp (x y : R) : Point RNum := mkPoint (N := RNum) x y true false.
Lemma sq_points_R : map read_point (o_points (sq_out RNum)) = [bp 0 0; bp 4 0; bp 4 4; bp 0 4]%R.
Proof. reflexivity. Qed.
Lemma sq_integer q : In q (map read_point (o_points (sq_out RNum))) -> exists i j : Z, px q = IZR i /\ py q = IZR j.
Proof. rewrite sq_points_R. intros [<-|[<-|[<-|[<-|[]]]]]; do 2 eexists; split; reflexivity. Qed.
Lemma integer_separated tol (P : Point RNum -> Prop) : (0 < tol <= 1)%R -> (forall q, P q -> exists i j : Z, px q = IZR i /\ py q = IZR j) -> separated tol P.
Proof.
  intros Ht HP. apply separated_grid. intros a b Ha Hb.
  destruct (HP a Ha) as (i & j & -> & ->), (HP b Hb) as (k & l & -> & ->).
  assert (G : forall x y : Z, (tol <= Rabs (IZR x - IZR y))%R \/ IZR x = IZR y).
  { intros x y. destruct (Z.eq_dec x y) as [->|H]; [right; reflexivity|]. left. rewrite <- minus_IZR, <- abs_IZR.
    apply Rle_trans with 1%R; [tauto|]. apply IZR_le. lia. }
  split.
  - destruct (G i k) as [H|H]; [right|left]; assumption.
  - destruct (G j l) as [H|H]; [right|left]; assumption.
Qed.
Lemma sq_apart : all_apart (1 / 100000)%R (map read_point (o_points (sq_out RNum))).
Proof.
  rewrite sq_points_R. intros i j a b Hi Hj D [C1 C2]. unfold xy in C1, C2; cbn [fst snd] in C1, C2.
  nth_cases; try (apply D; reflexivity); cbn [px py bp] in C1, C2; clear D;
  apply Rabs_def2 in C1, C2; lra.
Qed.
Lemma sq_proper t A B C : In t (o_tris (sq_out RNum)) -> vertices_are (map read_point (o_points (sq_out RNum))) (corners t) [A; B; C] ->
  orient (xy A) (xy B) (xy C) <> 0%R.
Proof.
  rewrite sq_points_R. intros [<-|[<-|[]]] H; unfold vertices_are in H; cbn [corners] in H;
  inversion_clear H as [|? ? ? ? [_ H1] H2]; inversion_clear H2 as [|? ? ? ? [_ H3] H4]; inversion_clear H4 as [|? ? ? ? [_ H5] H6];
  injection H1 as <-; injection H3 as <-; injection H5 as <-;
  unfold orient, vcross, vsub, xy; cbn [fst snd px py bp]; lra.
Qed.
Lemma r_quad_integer q : In q ([mkP (N := RNum) 2%R 2%R; mkP (N := RNum) 0%R 0%R] ++ getRegionPoints r_quad) -> exists i j : Z, px q = IZR i /\ py q = IZR j.
Proof.
  unfold getRegionPoints. rewrite r_quad_p. cbn [rg_holes r_quad flat_map]. rewrite h_quad_points. cbn [app quad quad_hole In].
  intros H. repeat destruct H as [<-|H]; try contradiction; do 2 eexists; split; reflexivity.
Qed.

Definition n_triangles (o : res (gen_out F64)) : Z :=
  match held o with Ok (Some m) => zlen (ms_polygons m) | _ => -1 end.
Definition by_switches (sw : switches) (i : pslg F64) : trout F64 := match sw with swConforming => sq_out F64 | _ => half_out F64 end.
Definition by_segments (sw : switches) (i : pslg F64) : trout F64 := if Z.ltb 4 (zlen (in_segments i)) then half_out F64 else sq_out F64.
(** two of the output points coincide within the tolerance *)
Definition twin_out : trout F64 :=
  mkTrout (N := F64) [(F64_ofZ 0, F64_ofZ 0, 1); (F64_ofZ 4, F64_ofZ 0, 1); (F64_ofZ 4, F64_dec 1 10000000, 1); (F64_ofZ 0, F64_ofZ 4, 1); (F64_ofZ 4, F64_ofZ 4, 1)]%Z
    [(0, 1, 1); (1, 2, 1); (2, 4, 1); (4, 3, 1); (3, 0, 1); (0, 2, 0); (2, 3, 0)]%Z [(0, 2, 3); (2, 4, 3)]%Z.
Definition mesh_none {T} : mesh F64 T := mkMesh (N := F64) (mkUL [] []) [] [] [].
Definition twin_mesh : mesh F64 (triangle F64) :=
  ok_or mesh_none (d <- read_output (N := F64) tol64 twin_out ;; initializeMesh (N := F64) tol64 (triangle_ctor (N := F64) tol64) d).

Lemma sq_vertices t A B C : In t (o_tris (sq_out RNum)) -> vertices_are (map read_point (o_points (sq_out RNum))) (corners t) [A; B; C] ->
  (A = bp 0 0 /\ B = bp 4 0 /\ C = bp 4 4)%R \/ (A = bp 0 0 /\ B = bp 4 4 /\ C = bp 0 4)%R.
Proof.
  rewrite sq_points_R. intros [<-|[<-|[]]] H; unfold vertices_are in H; cbn [corners] in H;
  inversion_clear H as [|? ? ? ? [_ H1] H2]; inversion_clear H2 as [|? ? ? ? [_ H3] H4]; inversion_clear H4 as [|? ? ? ? [_ H5] H6];
  injection H1 as <-; injection H3 as <-; injection H5 as <-; auto.
Qed.
Lemma sq_spread : Forall (fun t => spread (1 / 100000)%R (map read_point (o_points (sq_out RNum))) (corners t)) (o_tris (sq_out RNum)).
Proof.
  rewrite sq_points_R. constructor; [|constructor; [|constructor]].
  - exists (bp 0 0), (bp 4 0), (bp 4 4). split.
    + do 3 (constructor; [split; [lia|reflexivity]|]). constructor.
    + unfold coincide, xy; cbn [fst snd px py bp]. repeat split; intros [C1 C2]; apply Rabs_def2 in C1, C2; lra.
  - exists (bp 0 0), (bp 4 4), (bp 0 4). split.
    + do 3 (constructor; [split; [lia|reflexivity]|]). constructor.
    + unfold coincide, xy; cbn [fst snd px py bp]. repeat split; intros [C1 C2]; apply Rabs_def2 in C1, C2; lra.
Qed.
Lemma sq_close : separated 5%R (fun q => In q (map read_point (o_points (sq_out RNum)))) /\
  (exists d, read_output (N := RNum) 5%R (sq_out RNum) = Ok d) /\
  Exists (fun t => ~ spread 5%R (map read_point (o_points (sq_out RNum))) (corners t)) (o_tris (sq_out RNum)).
Proof.
  split; [|split; [apply read_output_total; [apply sq_triangulation|exact sq_proper]|]].
  - rewrite sq_points_R. intros a b c Ha Hb Hc.
    repeat destruct Ha as [<-|Ha]; try contradiction; repeat destruct Hc as [<-|Hc]; try contradiction;
    cbn [px py bp]; split; intros _ _; apply Rabs_def1; lra.
  - constructor. intros (A & B & C & V & H1 & _). apply H1.
    destruct (sq_vertices _ A B C (or_introl eq_refl) V) as [(-> & -> & ->)|(-> & -> & ->)];
    split; unfold xy; cbn [fst snd px py bp]; apply Rabs_def1; lra.
Qed.
Lemma twin_gen {N : Num} (tol : nT N) (o : trout N) (Q : mesh N (triangle N) -> bool) (P : mesh N (triangle N) -> Prop) :
  (forall m, Q m = true -> P m) ->
  match (d <- read_output tol o ;; initializeMesh tol (triangle_ctor tol) d) with Ok m => Q m | _ => false end = true ->
  exists d m, read_output tol o = Ok d /\ initializeMesh tol (triangle_ctor tol) d = Ok m /\ P m.
Proof.
  intros HQ. destruct (read_output tol o) as [d|]; cbn [bind]; [|discriminate].
  destruct (initializeMesh tol (triangle_ctor tol) d) as [m|] eqn:E; [|discriminate]. intros H. exists d, m. auto.
Qed.
Lemma twin_refuted : exists o : trout F64,
  triangulation (zlen (o_points o)) (map fst (o_edges o)) (o_tris o) /\
  exists d m, read_output (N := F64) tol64 o = Ok d /\ initializeMesh (N := F64) tol64 (triangle_ctor (N := F64) tol64) d = Ok m /\
  map (fun g : triangle F64 => pg_points (tr_poly g)) (ms_polygons m) = [[0; 1; 2]; [1; 3; 2]]%Z /\
  snd (sm_get (iseg_match 0) (ms_edges m) (1, 2)%Z) = mkNb (Some (-1)%Z) (-1)%Z /\
  zlen (ul_list (ms_points m)) = 4%Z /\ In (2, 4)%Z (map fst (ms_edges m)).
Proof.
  exists twin_out. split.
  - constructor; cbn [twin_out o_points o_edges o_tris map fst].
    + intros a b H. cbn in H. unfold zlen; cbn [length]. repeat destruct H as [H|H]; try injection H as <- <-; try contradiction; lia.
    + intros i j s s' Hi Hj E. nth_cases; try reflexivity; discriminate E.
    + intros t [<-|[<-|[]]]; repeat constructor; cbn; intuition lia.
    + intros t s [<-|[<-|[]]] H; cbn in H; repeat destruct H as [<-|H]; try contradiction;
      apply existsb_exists; reflexivity.
  - apply (twin_gen (N := F64) tol64 twin_out
      (fun m => list_eqb (list_eqb Z.eqb) (map (fun g : triangle F64 => pg_points (tr_poly g)) (ms_polygons m)) [[0; 1; 2]; [1; 3; 2]]%Z &&
        (match snd (sm_get (iseg_match 0) (ms_edges m) (1, 2)%Z) with mkNb (Some a) b => Z.eqb a (-1) && Z.eqb b (-1) | _ => false end) &&
        Z.eqb (zlen (ul_list (ms_points m))) 4 && existsb (fun s => Z.eqb (fst s) 2 && Z.eqb (snd s) 4) (map fst (ms_edges m)))).
    + intros m H. apply andb_prop in H as [H H4]. apply andb_prop in H as [H H3]. apply andb_prop in H as [H1 H2].
      split; [|split; [|split]].
      * revert H1. generalize (map (fun g : triangle F64 => pg_points (tr_poly g)) (ms_polygons m)). intros l.
        assert (L : forall a b : list Z, list_eqb Z.eqb a b = true -> a = b).
        { induction a as [|x a IH]; intros [|y b] E; try discriminate; [reflexivity|]. cbn in E. apply andb_prop in E as [E1 E2]. f_equal; [apply Z.eqb_eq; assumption|auto]. }
        destruct l as [|x [|y [|? ?]]]; cbn; rewrite ?andb_false_r, ?andb_true_r; try discriminate. intros E. apply andb_prop in E as [E1 E2].
        rewrite (L x _ E1), (L y _ E2). reflexivity.
      * destruct (snd (sm_get (iseg_match 0) (ms_edges m) (1, 2)%Z)) as [[a|] b]; [|discriminate]. apply andb_prop in H2 as [A B].
        apply Z.eqb_eq in A, B. subst. reflexivity.
      * apply Z.eqb_eq. assumption.
      * apply existsb_exists in H4 as ([a b] & Hin & E). cbn in E. apply andb_prop in E as [A B]. apply Z.eqb_eq in A, B. subst. assumption.
    + vm_compute. reflexivity.
Qed.

(** a rectangle with a point inside *)
Definition wheel_out (N : Num) : trout N :=
  mkTrout (N := N) [(nZ 0, nZ 0, 1); (nZ 8, nZ 0, 1); (nZ 8, nZ 6, 1); (nZ 0, nZ 6, 1); (nZ 3, nZ 2, 0)]
    [(0, 1, 1); (1, 2, 1); (2, 3, 1); (3, 0, 1); (0, 4, 0); (1, 4, 0); (2, 4, 0); (3, 4, 0)]
    [(0, 1, 4); (1, 2, 4); (2, 3, 4); (3, 0, 4)]%Z.
Lemma wheel_triangulation N : triangulation (zlen (o_points (wheel_out N))) (map fst (o_edges (wheel_out N))) (o_tris (wheel_out N)).
Proof.
  constructor; cbn [wheel_out o_points o_edges o_tris map fst].
  - intros a b H. cbn in H. unfold zlen; cbn [length]. repeat destruct H as [H|H]; try injection H as <- <-; try contradiction; lia.
  - intros i j s s' Hi Hj E. nth_cases; try reflexivity; discriminate E.
  - intros t [<-|[<-|[<-|[<-|[]]]]]; repeat constructor; cbn; intuition lia.
  - intros t s [<-|[<-|[<-|[<-|[]]]]] H; cbn in H; repeat destruct H as [<-|H]; try contradiction;
    apply existsb_exists; reflexivity.
Qed.
Ltac sector_ok := repeat (eapply sector_step; [reflexivity|reflexivity|reflexivity|lia|]); apply sector_end.
Ltac around_ok := split;
  [intros k t H Hv; nth_cases; cbn in Hv |- *; intuition lia
  |intros s Hs Hv; cbn [In map fst] in Hs; repeat destruct Hs as [<-|Hs]; try contradiction; try discriminate Hv;
   cbn [In]; match goal with |- exists w, _ /\ same_side (?v, w) (?a, ?b) = true => first [exists a; split; [tauto|reflexivity]|exists b; split; [tauto|reflexivity]] end].
Ltac nodup_ok := repeat (constructor; [cbn [In]; intuition lia|]); constructor.
Lemma wheel_inner N : closed_fan (map fst (o_edges (wheel_out N))) (o_tris (wheel_out N)) 4%Z [0; 1; 2; 3]%Z [0; 1; 2; 3]%nat.
Proof.
  exists 0%Z, [1; 2; 3]%Z. split; [reflexivity|]. cbn [wheel_out o_edges o_tris app].
  split; [sector_ok|]. split; [nodup_ok|]. split; [cbn; lia|around_ok].
Qed.
Ltac markers_ok := intros e He Hv; cbn [In] in He; repeat destruct He as [<-|He]; try contradiction; try discriminate Hv; cbn [snd fst];
  (split; [intros E; try discriminate E; first [left; reflexivity|right; reflexivity]|intros [E|E]; try discriminate E; reflexivity]).
Ltac open_ok := cbn [wheel_out sq_out o_edges o_tris]; split; [cbn [app]; sector_ok|]; split; [cbn [app]; nodup_ok|]; split; [cbn [app]; around_ok|markers_ok].
Lemma wheel_corner N : open_fan (o_edges (wheel_out N)) (o_tris (wheel_out N)) 0%Z 1%Z [4]%Z 3%Z [0; 3]%nat.
Proof. open_ok. Qed.
Lemma wheel_fans N v : In v (flat_map corners (o_tris (wheel_out N))) ->
  (exists ws ts, closed_fan (map fst (o_edges (wheel_out N))) (o_tris (wheel_out N)) v ws ts) \/
  (exists w ws w' ts, open_fan (o_edges (wheel_out N)) (o_tris (wheel_out N)) v w ws w' ts).
Proof.
  intros H. assert (v = 4 \/ v = 0 \/ v = 1 \/ v = 2 \/ v = 3)%Z as [->|[->|[->|[->| ->]]]] by (cbn in H; lia); clear H.
  - left. do 2 eexists. apply wheel_inner.
  - right. do 4 eexists. apply wheel_corner.
  - right. exists 2%Z, [4]%Z, 0%Z, [1; 0]%nat. open_ok.
  - right. exists 3%Z, [4]%Z, 1%Z, [2; 1]%nat. open_ok.
  - right. exists 0%Z, [4]%Z, 2%Z, [3; 2]%nat. open_ok.
Qed.
Lemma wheel_points_R : map read_point (o_points (wheel_out RNum)) = [bp 0 0; bp 8 0; bp 8 6; bp 0 6; mkPoint (N := RNum) 3 2 false false]%R.
Proof. reflexivity. Qed.
Lemma wheel_proper t A B C : In t (o_tris (wheel_out RNum)) -> vertices_are (map read_point (o_points (wheel_out RNum))) (corners t) [A; B; C] ->
  orient (xy A) (xy B) (xy C) <> 0%R.
Proof.
  rewrite wheel_points_R. intros [<-|[<-|[<-|[<-|[]]]]] H; unfold vertices_are in H; cbn [corners] in H;
  inversion_clear H as [|? ? ? ? [_ H1] H2]; inversion_clear H2 as [|? ? ? ? [_ H3] H4]; inversion_clear H4 as [|? ? ? ? [_ H5] H6];
  injection H1 as <-; injection H3 as <-; injection H5 as <-;
  unfold orient, vcross, vsub, xy; cbn [fst snd px py bp]; lra.
Qed.
(** the cells computed for an output, as index lists, and the number of points *)
Definition cells64 (o : trout F64) (fuel : nat) : list (list Z) * Z :=
  match (d <- read_output (N := F64) tol64 o ;; voronoi (N := F64) tol64 fuel d) with
  | Ok m => (map (fun g : polygon F64 => pg_points g) (ms_polygons m), zlen (ul_list (ms_points m)))
  | Err _ => ([], -1)%Z
  end.

(** Printing and reading of integral coordinates. *)
Definition fmt_int (x : f64) : text := match ntrunc (n := F64) x with Some z => print_int z | None => [] end.
Definition atof_int (t : text) : f64 := match atoi t with Ok z => F64_ofZ z | Err _ => F64_ofZ 0 end.
Definition house : list (Point F64) := [dpt 0 1 0 1; dpt 4 1 0 1; dpt 4 1 4 1; dpt 0 1 4 1; dpt 2 1 6 1].
Definition house_polys : list (list Z) := [[0; 1; 2; 3]; [3; 2; 4]]%Z.
Definition house_edges : list iseg := [(0, 1); (1, 2); (2, 3); (3, 0); (2, 4); (4, 3)]%Z.
Lemma house_printable : Forall (printable (N := F64) fmt_int) house.
Proof. unfold house. repeat constructor; vm_compute; (discriminate || tauto || (intros H; repeat (destruct H as [H|H]; [discriminate|]); exact H)). Qed.
(** Decision of the order axioms on a finite list. *)
Definition swo_check {A} (lt : A -> A -> bool) (l : list A) : bool :=
  forallb (fun a => negb (lt a a)) l &&
  forallb (fun a => forallb (fun b => forallb (fun c =>
     implb (lt a b && lt b c) (lt a c) && implb (equivb lt a b && equivb lt b c) (equivb lt a c)) l) l) l.
Lemma swo_checked {A} (lt : A -> A -> bool) l : swo_check lt l = true -> strict_weak_order_on (fun q => In q l) lt.
Proof.
  unfold swo_check. rewrite andb_true_iff, !forallb_forall. intros [H1 H2].
  assert (E : forall a b, incomparable lt a b <-> equivb lt a b = true).
  { intros a b. unfold incomparable, equivb. rewrite andb_true_iff, !negb_true_iff. tauto. }
  assert (G : forall a b c, In a l -> In b l -> In c l ->
    implb (lt a b && lt b c) (lt a c) = true /\ implb (equivb lt a b && equivb lt b c) (equivb lt a c) = true).
  { intros a b c Ha Hb Hc. specialize (H2 a Ha). rewrite forallb_forall in H2. specialize (H2 b Hb). rewrite forallb_forall in H2.
    specialize (H2 c Hc). apply andb_true_iff in H2. exact H2. }
  constructor.
  - intros a Ha. apply negb_true_iff. auto.
  - intros a b c Ha Hb Hc L1 L2. destruct (G a b c Ha Hb Hc) as [X _]. rewrite L1, L2 in X. exact X.
  - intros a b c Ha Hb Hc L1 L2. apply E. apply E in L1, L2. destruct (G a b c Ha Hb Hc) as [_ X]. rewrite L1, L2 in X. exact X.
Qed.
Fixpoint distinct_check {A} (eqv : A -> A -> bool) (l : list A) : bool :=
  match l with [] => true | a :: l' => forallb (fun b => negb (eqv a b || eqv b a)) l' && distinct_check eqv l' end.
Lemma distinct_checked {A} (eqv : A -> A -> bool) l : distinct_check eqv l = true ->
  forall i j a b, nth_error l i = Some a -> nth_error l j = Some b -> eqv a b = true -> i = j.
Proof.
  induction l as [|x l IH]; intros H i j a b Hi Hj E; [destruct i; discriminate|].
  cbn in H. apply andb_true_iff in H as [H1 H2]. rewrite forallb_forall in H1.
  assert (K : forall y, In y l -> eqv x y = false /\ eqv y x = false).
  { intros y Hy. specialize (H1 y Hy). rewrite negb_true_iff, orb_false_iff in H1. exact H1. }
  destruct i, j; [reflexivity| | |f_equal; eapply IH; eauto].
  - injection Hi as <-. cbn in Hj. apply nth_error_In in Hj. destruct (K b Hj). congruence.
  - injection Hj as <-. cbn in Hi. apply nth_error_In in Hi. destruct (K a Hi). congruence.
Qed.
(** The polygon section and point section of [house]. *)
Definition house_file : text :=
  unlines (print_int (zlen house) :: map (point_string (N := F64) fmt_int) house ++ print_int (zlen house_polys) :: map polygon_string house_polys).
(** An empty mesh object, its copy, and the house read into the copy. *)
Definition house_run : res (heap F64 * mobj F64 (polygon F64) * mobj F64 (polygon F64)) :=
  let o := mkObj ul_empty [] 0%nat 0%nat in
  foldM (pair_step (N := F64) atof_int tol64 (polygon_ctor_idx (N := F64) tol64) (@pg_points F64)) [(false, MReadFile house_file 0%Z); (true, MNeighbours (7, 8)%Z)]
    (mkHeap [[]] [[]], o, mesh_copy o).
Definition house_check : bool :=
  match house_run with
  | Ok (h, o1, o2) => match mesh_view h o1 with
      | Ok m1 => (zlen (ms_polygons m1) =? 0) && (sm_size (ms_edges m1) =? 7) &&
          match um_find (iseg_match 13) (2, 3) (ms_edges m1) with Some (mkNb (Some a) b) => (a =? 0) && (b =? 1) | _ => false end
      | Err _ => false end
  | Err _ => false end%Z.
Lemma house_shared : exists h o1 o2 m1, house_run = Ok (h, o1, o2) /\ mesh_view h o1 = Ok m1 /\
    zlen (ms_polygons m1) = 0%Z /\ sm_size (ms_edges m1) = 7%Z /\
    um_find (iseg_match 13) (2, 3)%Z (ms_edges m1) = Some (mkNb (Some 0%Z) 1%Z).
Proof.
  assert (H : house_check = true) by (vm_compute; reflexivity). unfold house_check in H.
  destruct house_run as [[[h o1] o2]|]; [|discriminate]. destruct (mesh_view h o1) as [m1|] eqn:E; [|discriminate].
  destruct (um_find _ _ _) as [[[a|] b]|] eqn:U; rewrite ?andb_false_r in H; try discriminate.
  rewrite !andb_true_iff, !Z.eqb_eq in H. destruct H as [[H1 H2] [-> ->]]. exists h, o1, o2, m1. auto.
Qed.
