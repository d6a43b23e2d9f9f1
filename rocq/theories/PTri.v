(** Proofs: circumcenter, triangles, center and ear triangulation (C30-C34). *)
From Coq Require Import Reals Lra Psatz Permutation.
From Verif Require Import Base Spec MUtil MGeom MHull MPolygon MMaps MTriangle Bridge PUtil PPoint PSegment PMaps PPoly PPoly2.
Local Open Scope R_scope.

(** * C30 *)
Notation Pt := (Point RNum).

Lemma dist_eq_sq a b c d : dist a b = dist c d <->
  (fst a - fst b) * (fst a - fst b) + (snd a - snd b) * (snd a - snd b) =
  (fst c - fst d) * (fst c - fst d) + (snd c - snd d) * (snd c - snd d).
Proof.
  unfold dist. split; intros H; [|rewrite H; reflexivity].
  apply sqrt_inj; [apply Rplus_le_le_0_compat; apply Rle_0_sqr|apply Rplus_le_le_0_compat; apply Rle_0_sqr|exact H].
Qed.

Lemma circumcenter_ok (A B C : Pt) : orient (xy A) (xy B) (xy C) <> 0 ->
  exists c, circumcenter (N := RNum) A B C = Ok c /\ pbd c = false /\ pempty c = false /\
    dist (xy c) (xy A) = dist (xy c) (xy B) /\ dist (xy c) (xy B) = dist (xy c) (xy C).
Proof.
  destruct A as [ax ay ? ?], B as [bx by_ ? ?], C as [cx cy ? ?].
  unfold orient, vcross, vsub, xy; cbn [fst snd px py]. intros H.
  unfold circumcenter, divr, squareNorm. rnum. cbn [px py].
  rewrite Reqb_false by nra. cbn [bind]. eexists. split; [reflexivity|]. split; [reflexivity|]. split; [reflexivity|].
  cbn [px py mkP]. split; apply dist_eq_sq; cbn [fst snd]; field; nra.
Qed.

Lemma circumcenter_degenerate (A B C : Pt) : orient (xy A) (xy B) (xy C) = 0 ->
  circumcenter (N := RNum) A B C = Err NonFinite.
Proof.
  destruct A as [ax ay ? ?], B as [bx by_ ? ?], C as [cx cy ? ?].
  unfold orient, vcross, vsub, xy; cbn [fst snd px py]. intros H.
  unfold circumcenter, divr, squareNorm. rnum. cbn [px py]. rewrite Reqb_true by nra. reflexivity.
Qed.

Lemma equidistant_unique (a b c p q : pt) : orient a b c <> 0 ->
  dist p a = dist p b -> dist p b = dist p c -> dist q a = dist q b -> dist q b = dist q c -> p = q.
Proof.
  destruct a as [ax ay], b as [bx by_], c as [cx cy], p as [u v], q as [w z].
  rewrite !dist_eq_sq. unfold orient, vcross, vsub; cbn [fst snd]. intros H H1 H2 H3 H4.
  assert (E1 : (u - w) * (bx - ax) + (v - z) * (by_ - ay) = 0) by nra.
  assert (E2 : (u - w) * (cx - bx) + (v - z) * (cy - by_) = 0) by nra.
  assert (K : (bx - ax) * (cy - ay) - (by_ - ay) * (cx - ax) = (bx - ax) * (cy - by_) - (by_ - ay) * (cx - bx)) by ring.
  rewrite K in H. set (D := (bx - ax) * (cy - by_) - (by_ - ay) * (cx - bx)) in *.
  assert (U : (u - w) * D = 0).
  { unfold D. replace ((u - w) * ((bx - ax) * (cy - by_) - (by_ - ay) * (cx - bx))) with
      (((u - w) * (bx - ax) + (v - z) * (by_ - ay)) * (cy - by_) - ((u - w) * (cx - bx) + (v - z) * (cy - by_)) * (by_ - ay)) by ring.
    rewrite E1, E2. ring. }
  assert (V : (v - z) * D = 0).
  { unfold D. replace ((v - z) * ((bx - ax) * (cy - by_) - (by_ - ay) * (cx - bx))) with
      (((u - w) * (cx - bx) + (v - z) * (cy - by_)) * (bx - ax) - ((u - w) * (bx - ax) + (v - z) * (by_ - ay)) * (cx - bx)) by ring.
    rewrite E1, E2. ring. }
  apply Rmult_integral in U as [U|U]; [|contradiction]. apply Rmult_integral in V as [V|V]; [|contradiction].
  f_equal; lra.
Qed.

Lemma perm3 {A} (a b c x y z : A) : Permutation [a; b; c] [x; y; z] ->
  (x, y, z) = (a, b, c) \/ (x, y, z) = (a, c, b) \/ (x, y, z) = (b, a, c) \/
  (x, y, z) = (b, c, a) \/ (x, y, z) = (c, a, b) \/ (x, y, z) = (c, b, a).
Proof.
  intros H. assert (Hx : In x [a; b; c]) by (apply (Permutation_in _ (Permutation_sym H)); left; reflexivity).
  assert (K : forall (u v w l : A), Permutation [u; v] [w; l] -> (w, l) = (u, v) \/ (w, l) = (v, u)).
  { intros u v w l HP. apply Permutation_length_2 in HP as [[-> ->]|[-> ->]]; auto. }
  destruct Hx as [->|[->|[->|[]]]].
  - apply Permutation_cons_inv in H. apply K in H as [H|H]; injection H as -> ->; auto.
  - assert (H' : Permutation [x; a; c] [x; y; z]) by (eapply perm_trans; [apply perm_swap|exact H]).
    apply Permutation_cons_inv in H'. apply K in H' as [E|E]; injection E as -> ->; auto 6.
  - assert (H' : Permutation [x; a; b] [x; y; z]).
    { eapply perm_trans; [|exact H]. change (Permutation ([x] ++ [a; b]) ([a; b] ++ [x])). apply Permutation_app_comm. }
    apply Permutation_cons_inv in H'. apply K in H' as [E|E]; injection E as -> ->; auto 6.
Qed.

Lemma circumcenter_correct : forall A B C : Pt,
  (orient (xy A) (xy B) (xy C) <> 0 ->
   exists c, circumcenter (N := RNum) A B C = Ok c /\
     dist (xy c) (xy A) = dist (xy c) (xy B) /\ dist (xy c) (xy B) = dist (xy c) (xy C) /\
     (forall q, dist q (xy A) = dist q (xy B) -> dist q (xy B) = dist q (xy C) -> q = xy c) /\
     (forall A' B' C', Permutation [A; B; C] [A'; B'; C'] -> circumcenter (N := RNum) A' B' C' = Ok c)) /\
  (orient (xy A) (xy B) (xy C) = 0 -> circumcenter (N := RNum) A B C = Err NonFinite).
Proof.
  intros A B C. split; [|apply circumcenter_degenerate]. intros H.
  destruct (circumcenter_ok A B C H) as (c & E & F1 & F2 & D1 & D2). exists c. split; [exact E|].
  split; [exact D1|]. split; [exact D2|]. split; [intros q Q1 Q2; eapply equidistant_unique; eauto|].
  intros A' B' C' HP.
  assert (HO : orient (xy A') (xy B') (xy C') <> 0 /\ dist (xy c) (xy A') = dist (xy c) (xy B') /\ dist (xy c) (xy B') = dist (xy c) (xy C')).
  { unfold orient, vcross, vsub in *; cbn [fst snd] in *.
    destruct (perm3 _ _ _ _ _ _ HP) as [E'|[E'|[E'|[E'|[E'|E']]]]]; injection E' as -> -> ->;
      (split; [intros HH; apply H; lra|split; congruence]). }
  destruct HO as (HO & P1 & P2). destruct (circumcenter_ok A' B' C' HO) as (c' & E' & G1 & G2 & Q1 & Q2).
  rewrite E'. f_equal. assert (EQ : xy c' = xy c) by (eapply equidistant_unique; eauto).
  destruct c as [cx cy ? ?], c' as [cx' cy' ? ?]. unfold xy in EQ. cbn in *. injection EQ as -> ->. congruence.
Qed.

(** the constructor stores it *)
Lemma triangle_stores_circumcenter : forall tol (p : list Pt) i j k A B C,
  vertices_are p [i; j; k] [A; B; C] ->
  exists t, triangle_ctor (N := RNum) tol [i; j; k] p = Ok t /\ pg_points (tr_poly t) = [i; j; k] /\
    tr_cc t = circumcenter (N := RNum) A B C.
Proof.
  intros tol p i j k A B C H. unfold triangle_ctor. rewrite ctor_idx_ok. cbn [bind]. unfold tri_vertices.
  rewrite !(vertices_vpt _ _ _ _ H). cbn. eexists. split; [reflexivity|]. split; reflexivity.
Qed.

(** * C31 *)
Lemma thirdPoint_correct : forall a b c x y z : Z, NoDup [a; b; c] -> Permutation [a; b; c] [x; y; z] ->
  thirdPoint [a; b; c] x y = Ok z.
Proof.
  intros a b c x y z HN HP.
  assert (D : a <> b /\ a <> c /\ b <> c).
  { inversion_clear HN as [|? ? H1 H2]. inversion_clear H2 as [|? ? H3 H4]. cbn in *. repeat split; intros ->; tauto. }
  destruct D as (D1 & D2 & D3). unfold thirdPoint, vgetn; cbn.
  destruct (perm3 _ _ _ _ _ _ HP) as [E'|[E'|[E'|[E'|[E'|E']]]]]; injection E' as -> -> ->;
    rewrite ?Z.eqb_refl; cbn; rewrite ?Z.eqb_refl; cbn;
    repeat match goal with |- context [(?u =? ?v)%Z] => destruct (Z.eqb_spec u v); [congruence|]; cbn end;
    rewrite ?Z.eqb_refl; reflexivity.
Qed.

Lemma nextEdge_correct : forall (a b c : Z) x y z (e : edge) (em : umap key Z) i,
  NoDup [a; b; c] -> Permutation [a; b; c] [x; y; z] ->
  (e_p1 e, e_p2 e) = (x, y) \/ (e_p1 e, e_p2 e) = (y, x) ->
  um_find key_eqb (x, z) em = Some i \/ um_find key_eqb (z, x) em = Some i ->
  nextEdge [a; b; c] x e em = Ok i.
Proof.
  intros a b c x y z e em i HN HP He Hi. unfold nextEdge.
  assert (T : thirdPoint [a; b; c] (e_p1 e) (e_p2 e) = Ok z).
  { apply thirdPoint_correct; [exact HN|]. destruct He as [E|E]; injection E as -> ->; [exact HP|].
    eapply perm_trans; [exact HP|apply perm_swap]. }
  rewrite T. cbn [bind]. unfold edgeMap_get.
  assert (EQ : um_find key_eqb (z, x) em = um_find key_eqb (x, z) em).
  { apply um_find_ext. intros k. apply eq_true_iff_eq. rewrite !key_eqb_iff. rewrite <- (canon_swap (z, x)). reflexivity. }
  rewrite EQ in Hi. destruct Hi as [-> | ->]; reflexivity.
Qed.

(** * C32 *)
Lemma getAverage_ok p idx (vs : list Pt) : vertices_are p idx vs -> idx <> [] ->
  getAverage (N := RNum) idx p = Ok (mkP (N := RNum) (sumR (map (fun v : Pt => px v) vs) / INR (length vs)) (sumR (map (fun v : Pt => py v) vs) / INR (length vs))).
Proof.
  intros H Hne. unfold getAverage. rnum.
  assert (F : forall acc : R * R, foldM (fun (acc : R * R) v => a <- vget p v ;; Ok (fst acc + px a, snd acc + py a)) idx acc =
     Ok (fst acc + sumR (map (fun v : Pt => px v) vs), snd acc + sumR (map (fun v : Pt => py v) vs))).
  { clear Hne. unfold vertices_are in H. induction H as [|k v idx vs [Hk Hv] H IH]; intros acc.
    - cbn. rewrite !Rplus_0_r. destruct acc; reflexivity.
    - cbn [foldM]. assert (E : vget p k = Ok v) by (apply vget_ok; split; assumption). rewrite E. cbn [bind].
      rewrite IH. cbn [fst snd map sumR fold_right]. apply f_equal. apply f_equal2; change (nT RNum) with R; apply Rplus_assoc. }
  change (nT RNum) with R. rewrite F. cbn [bind fst snd]. rewrite !Rplus_0_l.
  pose proof (vertices_length _ _ _ H) as HL. unfold divr. rnum. unfold zlen. rewrite <- HL, <- INR_IZR_INZ.
  rewrite Reqb_false. 2:{ apply not_0_INR. destruct idx; [congruence|]. cbn in HL. lia. }
  reflexivity.
Qed.

Lemma sumR_div {A} (f : A -> R) c l : sumR (map (fun a => f a / c) l) = sumR (map f l) / c.
Proof. unfold Rdiv. rewrite Rmult_comm, <- sumR_map_scal. apply sumR_map_ext. intros; ring. Qed.

Lemma vertices_snoc_pt p idx (vs : list Pt) (c : Pt) : vertices_are p idx vs -> vertices_are (p ++ [c]) idx vs.
Proof.
  unfold vertices_are. induction 1 as [|k v idx vs [Hk Hv] H IH]; constructor; [|exact IH].
  split; [exact Hk|]. rewrite nth_error_app1; [exact Hv|]. apply nth_error_Some. congruence.
Qed.

Lemma orient_avg (a b : pt) (vs : list Pt) : (0 < length vs)%nat ->
  INR (length vs) * orient a b (sumR (map (fun v : Pt => px v) vs) / INR (length vs), sumR (map (fun v : Pt => py v) vs) / INR (length vs)) =
  sumR (map (fun v => orient a b (xy v)) vs).
Proof.
  intros Hn. set (n := INR (length vs)). assert (n <> 0) by (apply not_0_INR; lia).
  assert (E : sumR (map (fun v => orient a b (xy v)) vs) =
    (fst b - fst a) * (sumR (map (fun v : Pt => py v) vs) - n * snd a) - (snd b - snd a) * (sumR (map (fun v : Pt => px v) vs) - n * fst a)).
  { unfold n. clear. induction vs as [|v vs IH]; [cbn; ring|].
    cbn [map sumR fold_right length]. fold (sumR (map (fun v => orient a b (xy v)) vs)). rewrite IH. rewrite S_INR.
    unfold orient, vcross, vsub, xy; cbn [fst snd]. fold (sumR (map (fun v : Pt => px v) vs)) (sumR (map (fun v : Pt => py v) vs)). ring. }
  rewrite E. unfold orient, vcross, vsub; cbn [fst snd]. field. assumption.
Qed.

Lemma center_triangulation_correct : forall tol (idx : list Z) (p vs : list Pt), vertices_are p idx vs ->
  isConvex (N := RNum) idx p = Ok true ->
  exists c ts areas, center_triangulate (N := RNum) tol idx p = (p ++ [c], Ok ts) /\
    xy c = (sumR (map (fun v : Pt => px v) vs) / INR (length vs), sumR (map (fun v : Pt => py v) vs) / INR (length vs)) /\
    map (fun t => pg_points (tr_poly t)) ts = map (fun e => [fst e; snd e; zlen p]) (edges_of idx) /\
    length ts = length idx /\
    mapM (fun t => geo_area (N := RNum) (p ++ [c]) (pg_points (tr_poly t))) ts = Ok areas /\
    sumR areas = shoelace (map xy vs) /\
    ((forall a b v, In (a, b) (edges_of vs) -> In v vs -> 0 <= orient (xy a) (xy b) (xy v)) ->
     (forall a b, In (a, b) (edges_of vs) -> exists v, In v vs /\ 0 < orient (xy a) (xy b) (xy v)) ->
     Forall (fun x => 0 < x) areas).
Proof.
  intros tol idx p vs H HC.
  assert (Hne : idx <> []).
  { intros ->. unfold isConvex in HC. cbn in HC. discriminate. }
  pose proof (vertices_length _ _ _ H) as HL.
  assert (Hn : (0 < length vs)%nat) by (destruct idx; [congruence|cbn in HL; lia]).
  unfold center_triangulate. rewrite HC, (getAverage_ok _ _ _ H Hne).
  set (c := mkP (N := RNum) (sumR (map (fun v : Pt => px v) vs) / INR (length vs)) (sumR (map (fun v : Pt => py v) vs) / INR (length vs))).
  set (p' := p ++ [c]).
  assert (Hci : (zlen p' - 1)%Z = zlen p) by (unfold p', zlen; rewrite app_length; cbn; lia). rewrite Hci.
  pose proof (vertices_snoc_pt _ _ _ c H) as H'. fold p' in H'.
  assert (Hc : nth_error p' (Z.to_nat (zlen p)) = Some c).
  { unfold p', zlen. rewrite Nat2Z.id, nth_error_app2, Nat.sub_diag by lia. reflexivity. }
  (* edges of idx and of vs together *)
  assert (HE : Forall2 (fun (e : Z * Z) (f : Pt * Pt) => vertices_are p' [fst e; snd e; zlen p] [fst f; snd f; c]) (edges_of idx) (edges_of vs)).
  { assert (HP : forall (i : list Z) v, Forall2 (fun k (v : Pt) => (0 <= k)%Z /\ nth_error p' (Z.to_nat k) = Some v) i v ->
      Forall2 (fun (e : Z * Z) (f : Pt * Pt) => vertices_are p' [fst e; snd e; zlen p] [fst f; snd f; c]) (pairs i) (pairs v)).
    { induction 1 as [|k v i l Hk Hi IH]; [constructor|].
      destruct Hi as [|k2 v2 i l Hk2 Hi]; [constructor|].
      rewrite !pairs_cons2. constructor; [|exact IH].
      cbn [fst snd]. constructor; [exact Hk|]. constructor; [exact Hk2|]. constructor; [|constructor].
      split; [unfold zlen; lia|exact Hc]. }
    clear -H' HP. unfold vertices_are in H'. revert H' HP. generalize (fun k (v : Pt) => (0 <= k)%Z /\ nth_error p' (Z.to_nat k) = Some v). intros Q H' HP. destruct H' as [|k v i l Hk Hi]; [constructor|]. unfold edges_of.
    apply HP. apply Forall2_app; [constructor; assumption|]. constructor; [exact Hk|constructor]. }
  set (n := length idx).
  assert (HM : mapM (fun i => a <- vgetn idx i ;; b <- vgetn idx ((i + 1) mod n) ;; triangle_ctor (N := RNum) tol [a; b; zlen p] p') (seq 0 n) =
               mapM (fun e => triangle_ctor (N := RNum) tol [fst e; snd e; zlen p] p') (edges_of idx)).
  { destruct idx as [|z0 idx']; [congruence|]. rewrite (edges_of_map_seq z0).
    fold n. rewrite <- (map_id (seq 0 n)) at 1.
    assert (G : forall l, (forall i, In i l -> (i < n)%nat) ->
      mapM (fun i => a <- vgetn (z0 :: idx') i ;; b <- vgetn (z0 :: idx') ((i + 1) mod n) ;; triangle_ctor (N := RNum) tol [a; b; zlen p] p') l =
      mapM (fun e => triangle_ctor (N := RNum) tol [fst e; snd e; zlen p] p') (map (fun i => (nth i (z0 :: idx') z0, nth ((i + 1) mod n) (z0 :: idx') z0)) l)).
    { induction l as [|i l IH]; intros Hl; [reflexivity|]. cbn [mapM map].
      rewrite (vgetn_lt _ i z0) by (apply Hl; left; reflexivity).
      rewrite (vgetn_lt _ ((i + 1) mod n) z0) by (apply Nat.mod_upper_bound; unfold n; cbn; lia).
      cbn [bind fst snd]. rewrite IH by (intros; apply Hl; right; assumption). reflexivity. }
    rewrite map_id. apply G. intros i Hi. apply in_seq in Hi. lia. }
  rewrite HM. clear HM.
  (* build the triangles *)
  assert (HT : exists ts, mapM (fun e => triangle_ctor (N := RNum) tol [fst e; snd e; zlen p] p') (edges_of idx) = Ok ts /\
     map (fun t => pg_points (tr_poly t)) ts = map (fun e => [fst e; snd e; zlen p]) (edges_of idx)).
  { induction HE as [|e f es fs He HE IH]; [exists []; split; reflexivity|].
    destruct IH as (ts & E1 & E2). destruct (triangle_stores_circumcenter tol p' _ _ _ _ _ _ He) as (t & Et & Ep & _).
    exists (t :: ts). cbn [mapM]. rewrite Et. cbn [bind]. rewrite E1. cbn [bind map]. split; [reflexivity|]. rewrite Ep, E2. reflexivity. }
  destruct HT as (ts & E1 & E2). rewrite E1.
  exists c, ts, (map (fun f : Pt * Pt => orient (xy (fst f)) (xy (snd f)) (xy c) / 2) (edges_of vs)).
  split; [reflexivity|]. split; [reflexivity|]. split; [exact E2|].
  split; [rewrite <- (map_length (fun t => pg_points (tr_poly t))), E2, map_length; apply edges_of_length|].
  split; [|split].
  - assert (G : mapM (fun t => geo_area (N := RNum) p' (pg_points (tr_poly t))) ts = mapM (geo_area (N := RNum) p') (map (fun t => pg_points (tr_poly t)) ts)).
    { clear. induction ts as [|t ts IH]; [reflexivity|]. cbn [mapM map]. rewrite IH. reflexivity. }
    fold p'. rewrite G, E2. clear -HE. induction HE as [|e f es fs He HE IH]; [reflexivity|].
    cbn [mapM map]. rewrite (geo_area_shoelace _ _ _ He), IH. cbn [bind].
    replace (shoelace (map xy [fst f; snd f; c])) with (orient (xy (fst f)) (xy (snd f)) (xy c) / 2); [reflexivity|].
    cbn [map]. generalize (xy c). intros q. unfold shoelace, sumR, orient, vcross, vsub, xy; cbn. field.
  - rewrite (shoelace_fan (xy c)). rewrite edges_of_map, map_map. reflexivity.
  - intros Hpos Hstrict. apply Forall_forall. intros x Hx. apply in_map_iff in Hx as ([a b] & <- & Hin). cbn [fst snd].
    destruct (Hstrict a b Hin) as (v0 & Hv0 & Hv0').
    assert (S : 0 < sumR (map (fun v => orient (xy a) (xy b) (xy v)) vs)).
    { assert (G : forall l, (forall v, In v l -> 0 <= orient (xy a) (xy b) (xy v)) ->
         0 <= sumR (map (fun v => orient (xy a) (xy b) (xy v)) l) /\ (In v0 l -> 0 < sumR (map (fun v => orient (xy a) (xy b) (xy v)) l))).
      { induction l as [|v l IH]; intros Hl; [cbn; split; [lra|intros []]|].
        destruct IH as [I1 I2]; [intros; apply Hl; right; assumption|].
        pose proof (Hl v (or_introl eq_refl)). cbn [map sumR fold_right]. fold (sumR (map (fun v => orient (xy a) (xy b) (xy v)) l)).
        split; [lra|]. intros [->|Hi]; [lra|]. apply I2 in Hi. lra. }
      apply G; [|exact Hv0]. intros v Hv. apply Hpos; assumption. }
    rewrite <- (orient_avg (xy a) (xy b) vs Hn) in S. fold (xy c) in S. change (_, _) with (xy c) in S.
    assert (0 < INR (length vs)) by (apply lt_0_INR; lia). nra.
Qed.

Lemma center_triangulation_rejects : forall (N : Num) tol (idx : list Z) (p : list (Point N)),
  isConvex idx p = Ok false ->
  center_triangulate tol idx p = (p, Err (Throw "Can not use a center triangulation scheme on a non convex polygon")).
Proof. intros N tol idx p H. unfold center_triangulate. rewrite H. reflexivity. Qed.

(** * C33, C34 *)
(** cutting off the corner b of the closed chain (b, c, ..., a) *)
Lemma cut_corner {A} (a b c : A) m : 
  edges_of (b :: (c :: m) ++ [a]) = (b, c) :: pairs (c :: m ++ [a]) ++ [(a, b)] /\
  edges_of ((c :: m) ++ [a]) = pairs (c :: m ++ [a]) ++ [(a, c)].
Proof.
  split.
  - unfold edges_of. cbn [app]. rewrite pairs_cons2. f_equal.
    change (pairs ((c :: m ++ [a]) ++ [b]) = pairs (c :: m ++ [a]) ++ [(a, b)]).
    rewrite <- app_assoc with (l := c :: m) at 1 || idtac.
    change (c :: m ++ [a]) with ((c :: m) ++ [a]). rewrite <- app_assoc. cbn [app].
    change (c :: m ++ a :: [b]) with ((c :: m) ++ a :: [b]). rewrite pairs_app. reflexivity.
  - unfold edges_of. cbn [app]. change (c :: m ++ [a]) with ((c :: m) ++ [a]).
    change (c :: (m ++ [a]) ++ [c]) with (((c :: m) ++ [a]) ++ [c]). rewrite <- app_assoc. cbn [app].
    change (c :: m ++ a :: [c]) with ((c :: m) ++ a :: [c]). rewrite pairs_app. reflexivity.
Qed.

Lemma shoelace_cut (a b c : pt) m :
  shoelace (b :: (c :: m) ++ [a]) = orient a b c / 2 + shoelace ((c :: m) ++ [a]).
Proof.
  unfold shoelace. destruct (cut_corner a b c m) as [-> ->].
  cbn [map]. rewrite !map_app. cbn [map fst snd]. cbn [sumR fold_right]. fold sumR.
  change (fold_right Rplus 0 ?l) with (sumR l). rewrite !sumR_app. cbn [sumR fold_right].
  unfold orient, vcross, vsub; cbn [fst snd]. field.
Qed.

(** position i of a list, with its cyclic neighbours *)
Lemma corner_at {A} (l : list A) i : (3 <= length l)%nat -> (i < length l)%nat ->
  exists l1 b l2 a c m, l = l1 ++ b :: l2 /\ length l1 = i /\ l2 ++ l1 = (c :: m) ++ [a] /\
    vgetn l ((length l + i - 1) mod length l) = Ok a /\ vgetn l (i mod length l) = Ok b /\
    vgetn l ((length l + i + 1) mod length l) = Ok c /\ remove_nth i l = l1 ++ l2.
Proof.
  intros Hn Hi. destruct (nth_error l i) as [b|] eqn:Eb; [|apply nth_error_None in Eb; lia].
  destruct (nth_error_split _ _ Eb) as (l1 & l2 & -> & Hl1).
  set (n := length (l1 ++ b :: l2)) in *. assert (Hlen : n = (length l1 + S (length l2))%nat) by (unfold n; rewrite app_length; reflexivity).
  assert (Hm : (2 <= length (l2 ++ l1))%nat) by (rewrite app_length; lia).
  destruct (l2 ++ l1) as [|c m'] eqn:Em; [cbn in Hm; lia|].
  destruct m' as [|x0 m0] using rev_ind; [cbn in Hm; lia|]. clear IHm0.
  exists l1, b, l2, x0, c, m0. split; [reflexivity|]. split; [exact Hl1|]. split; [exact Em|].
  assert (HA : forall k, (k < length (l2 ++ l1))%nat -> nth_error (l1 ++ b :: l2) ((i + 1 + k) mod n) = nth_error (l2 ++ l1) k).
  { intros k Hk. rewrite app_length in Hk. destruct (Nat.lt_ge_cases k (length l2)) as [H1|H1].
    - rewrite Nat.mod_small by lia. rewrite (nth_error_app1 l2) by exact H1. rewrite nth_error_app2 by lia.
      replace (i + 1 + k - length l1)%nat with (S k) by lia. reflexivity.
    - replace (i + 1 + k)%nat with ((k - length l2) + 1 * n)%nat by lia. rewrite Nat.mod_add, Nat.mod_small by lia.
      rewrite (nth_error_app2 l2) by lia. rewrite nth_error_app1 by lia. reflexivity. }
  rewrite Em in HA. cbn [app] in HA.
  split; [|split; [|split]].
  - apply vgetn_ok. pose proof (HA (n - 2)%nat) as H2. cbn [length] in H2. rewrite <- Em in H2.
    assert (Hl : S (length (m0 ++ [x0])) = (n - 1)%nat).
    { change (length (c :: m0 ++ [x0]) = (n - 1)%nat). rewrite <- Em, app_length. lia. }
    replace (i + 1 + (n - 2))%nat with (n + i - 1)%nat in H2 by lia. rewrite H2 by lia. rewrite Em.
    change (c :: m0 ++ [x0]) with ((c :: m0) ++ [x0]). rewrite app_length in Hl. cbn in Hl. rewrite nth_error_app2 by (cbn; lia).
    replace (n - 2 - length (c :: m0))%nat with 0%nat by (cbn; lia). reflexivity.
  - apply vgetn_ok. rewrite Nat.mod_small by lia. exact Eb.
  - apply vgetn_ok. pose proof (HA 0%nat) as H2. cbn [length] in H2. rewrite Nat.add_0_r in H2.
    replace (n + i + 1)%nat with ((i + 1) + 1 * n)%nat by lia. rewrite Nat.mod_add by lia. rewrite H2 by lia. reflexivity.
  - rewrite <- Hl1. apply remove_nth_app.
Qed.

Section Ear.
  Variable tol : R.
  Variable p : list Pt.

  Lemma in_range_vget k l : in_range p l -> In k l -> exists v, vget p k = Ok v.
  Proof. intros H Hk. apply vget_range. unfold in_range in H. rewrite Forall_forall in H. exact (H k Hk). Qed.

  Lemma containsPoint_total idx q : in_range p idx -> exists b, containsPoint (N := RNum) tol idx p q = Ok b.
  Proof.
    intros H. apply vertices_exist in H as [vs H]. unfold containsPoint, crossing_loop.
    pose proof (vertices_length _ _ _ H) as HL.
    assert (G : forall l st, (forall i, In i l -> (i < length idx)%nat) -> (fst st < length idx)%nat ->
      exists st', foldM (fun (st : nat * bool) i => pI <- vpt p idx i ;; pJ <- vpt p idx (fst st) ;;
        if pt_eqb (N := RNum) tol pI pJ then Ok st else Ok (i, xorb (snd st) (crosses (N := RNum) q pI pJ))) l st = Ok st').
    { induction l as [|i l IH]; intros st Hl Hst; [cbn; eauto|]. cbn [foldM].
      rewrite !(vertices_vpt _ _ _ _ H). assert (Hi : (i < length idx)%nat) by (apply Hl; left; reflexivity).
      destruct vs as [|d vs]; [cbn in HL; lia|]. rewrite !(vgetn_lt _ _ d) by lia. cbn [bind].
      destruct (pt_eqb _ _ _); cbn [bind]; apply IH; cbn; auto; intros; apply Hl; right; assumption. }
    destruct (Nat.eq_dec (length idx) 0) as [E0|E0].
    - destruct idx; [|discriminate]. cbn. eauto.
    - destruct (G (seq 0 (length idx)) ((length idx - 1)%nat, false)) as [st' E].
      + intros i Hi. apply in_seq in Hi. lia.
      + cbn. lia.
      + rewrite E. cbn [bind]. destruct (snd st'); [eauto|].
        unfold inEdges, containerEdge. rewrite getSegments_edges. cbn [bind app].
        assert (K : forall es : list iseg, (forall e, In e es -> In (fst e) idx /\ In (snd e) idx) -> exists s,
          (fix go (l : list iseg) : res iseg := match l with [] => Ok (-1, -1)%Z | s :: l' => b <- iseg_contains (N := RNum) tol p s q ;; if b : bool then Ok s else go l' end) es = Ok s).
        { induction es as [|e es IH]; intros He; [eauto|]. destruct (He e (or_introl eq_refl)) as [H1 H2].
          destruct (vertices_vget _ _ _ _ H H1) as (a & Ea & _). destruct (vertices_vget _ _ _ _ H H2) as (b & Eb & _).
          unfold iseg_contains at 1. rewrite Ea, Eb. cbn [bind]. destruct (seg_contains _ _ _ _); [eauto|].
          apply IH. intros; apply He; right; assumption. }
        destruct (K (edges_of idx)) as [s Es].
        { intros [a b] He. split.
          - rewrite <- (edges_of_fst idx). apply (in_map fst) in He. exact He.
          - apply (Permutation_in _ (edges_of_snd idx)). apply (in_map snd) in He. exact He. }
        rewrite Es. cbn. eauto.
  Qed.

  Lemma in_range_incl l1 l2 : in_range p l2 -> incl l1 l2 -> in_range p l1.
  Proof. unfold in_range. rewrite !Forall_forall. intros H1 H2 x Hx. apply H1, H2, Hx. Qed.

  Lemma ear_blocked_total l tri : in_range p l -> in_range p tri -> exists b, ear_blocked (N := RNum) tol p l tri = Ok b.
  Proof.
    intros Hl Ht. unfold ear_blocked.
    assert (G : forall l' b, incl l' l -> exists b', foldM (fun (test : bool) k => if negb (isVertex tri k) then q <- vget p k ;; b <- containsPoint (N := RNum) tol tri p q ;; Ok (if b : bool then true else test) else Ok test) l' b = Ok b').
    { induction l' as [|k l' IH]; intros b Hi; [cbn; eauto|]. cbn [foldM].
      destruct (in_range_vget k l Hl) as [v Ev]; [apply Hi; left; reflexivity|].
      destruct (negb (isVertex tri k)).
      - rewrite Ev. cbn [bind]. destruct (containsPoint_total tri v Ht) as [b' Eb]. rewrite Eb. cbn [bind]. apply IH. intros x Hx; apply Hi; right; exact Hx.
      - cbn [bind]. apply IH. intros x Hx; apply Hi; right; exact Hx. }
    apply G. apply incl_refl.
  Qed.

  Lemma triangle_convex a b c : in_range p [a; b; c] -> isConvex (N := RNum) [a; b; c] p = Ok true.
  Proof.
    intros H. apply vertices_exist in H as [vs H]. pose proof (vertices_length _ _ _ H) as HL.
    destruct (isConvex_correct _ _ _ H) as (x & E & _ & _ & _ & H3); [cbn; lia|]. rewrite H3 in E by exact HL. exact E.
  Qed.

  (** the area of the closed chain through the indices *)
  Definition chain_area (l : list Z) : R := match geo_area (N := RNum) p l with Ok a => a | Err _ => 0 end.
  Lemma chain_area_ok l : in_range p l -> geo_area (N := RNum) p l = Ok (chain_area l).
  Proof. intros H. apply vertices_exist in H as [vs H]. unfold chain_area. rewrite (geo_area_shoelace _ _ _ H). reflexivity. Qed.

  (** what one step of the ear search removes *)
  Definition corner_of (l : list Z) (i : nat) (tri l' : list Z) : Prop :=
    exists l1 b l2 a c m, l = l1 ++ b :: l2 /\ length l1 = i /\ l2 ++ l1 = (c :: m) ++ [a] /\ tri = [a; b; c] /\ l' = l1 ++ l2.

  Lemma corner_area l i tri l' : in_range p l -> corner_of l i tri l' ->
    chain_area l = chain_area tri + chain_area l' /\ incl tri l /\ incl l' l /\ length l = S (length l') /\
    (NoDup l -> NoDup tri /\ NoDup l').
  Proof.
    intros H (l1 & b & l2 & a & c & m & -> & Hi & Hm & -> & ->).
    assert (I2 : incl (l1 ++ l2) (l1 ++ b :: l2)).
    { intros x Hx. apply in_app_or in Hx as [Hx|Hx]; apply in_or_app; [left|right; right]; exact Hx. }
    assert (I1 : incl [a; b; c] (l1 ++ b :: l2)).
    { assert (Hin : forall x, In x (l2 ++ l1) -> In x (l1 ++ b :: l2)).
      { intros x Hx. apply I2. apply in_app_or in Hx. apply in_or_app. tauto. }
      intros x [<-|[<-|[<-|[]]]].
      - apply Hin. rewrite Hm. apply in_or_app. right. left. reflexivity.
      - apply in_or_app. right. left. reflexivity.
      - apply Hin. rewrite Hm. left. reflexivity. }
    split; [|split; [exact I1|split; [exact I2|split; [rewrite !app_length; cbn; lia|]]]].
    - pose proof (in_range_incl _ _ H I1) as R1.
      pose proof (proj1 (vertices_exist _ _) H) as [vs HV].
      apply vertices_split in HV as (v1 & v2' & -> & HV1 & HV2).
      inversion HV2 as [|? vb ? v2 Hb HV2' Eb]; subst.
      assert (HM : vertices_are p (l2 ++ l1) (v2 ++ v1)) by (apply vertices_app; assumption).
      rewrite Hm in HM. apply vertices_split in HM as (vcm & va' & Ev & HM1 & HM2).
      inversion HM2 as [|? va ? ? Ha HM2' Ea]; subst. inversion HM2'; subst.
      inversion HM1 as [|? vc ? vm Hc HM1' Ec]; subst.
      assert (HT : vertices_are p [a; b; c] [va; vb; vc]) by (repeat constructor; tauto).
      assert (HL : vertices_are p (l1 ++ b :: l2) (v1 ++ vb :: v2)) by (apply vertices_app; assumption).
      assert (HL' : vertices_are p (l1 ++ l2) (v1 ++ v2)) by (apply vertices_app; assumption).
      unfold chain_area. rewrite (geo_area_shoelace _ _ _ HT), (geo_area_shoelace _ _ _ HL), (geo_area_shoelace _ _ _ HL').
      rewrite !map_app. rewrite (shoelace_rotate (map xy v1) (map xy v2)). rewrite (shoelace_rotate (map xy v1) (map xy (vb :: v2))).
      rewrite <- !map_app. cbn [app map]. rewrite Ev. rewrite !map_app. cbn [map].
      rewrite (shoelace_cut (xy va) (xy vb) (xy vc) (map xy vm)). cbn [app]. f_equal.
      unfold shoelace, orient, sumR, vcross, vsub; cbn. field.
    - intros HN. apply NoDup_remove in HN as HN'. destruct HN' as [HN1 HN2]. split; [|exact HN1].
      assert (HR : NoDup (l2 ++ l1)) by (eapply Permutation_NoDup; [apply Permutation_app_comm|exact HN1]).
      rewrite Hm in HR. cbn [app] in HR.
      assert (Hb : ~ In b (l2 ++ l1)) by (intros Hx; apply HN2; apply in_or_app; apply in_app_or in Hx; tauto).
      rewrite Hm in Hb. constructor; [|constructor; [|constructor; [intros []|constructor]]].
      + intros [E|[E|[]]]; subst.
        * apply Hb. apply in_or_app. right. left. reflexivity.
        * apply NoDup_cons_iff in HR as [HR _]. apply HR. apply in_or_app. right. left. reflexivity.
      + intros [E|[]]; subst. apply Hb. left. reflexivity.
  Qed.

  Lemma triangle_ctor_ok a b c : in_range p [a; b; c] -> exists t, triangle_ctor (N := RNum) tol [a; b; c] p = Ok t /\ pg_points (tr_poly t) = [a; b; c].
  Proof.
    intros H. apply vertices_exist in H as [vs H]. pose proof (vertices_length _ _ _ H) as HL.
    destruct vs as [|A [|B [|C [|]]]]; try discriminate.
    destruct (triangle_stores_circumcenter tol p _ _ _ _ _ _ H) as (t & E & Ep & _). eauto.
  Qed.

  Lemma ear_search_spec l k : in_range p l -> (3 <= length l)%nat -> forall i, (i + k <= length l)%nat ->
    (ear_search (N := RNum) tol p l i k = Ok None) \/
    (exists j t l', ear_search (N := RNum) tol p l i k = Ok (Some (t, l')) /\ corner_of l j (pg_points (tr_poly t)) l' /\
       ear_blocked (N := RNum) tol p l (pg_points (tr_poly t)) = Ok false).
  Proof.
    intros H Hn. induction k as [|k IH]; intros i Hi; [left; reflexivity|].
    cbn [ear_search]. destruct (corner_at l i Hn ltac:(lia)) as (l1 & b & l2 & a & c & m & El & Hl1 & Em & -> & -> & -> & Er).
    assert (HCo : corner_of l i [a; b; c] (remove_nth i l)) by (rewrite Er; exists l1, b, l2, a, c, m; auto).
    cbn [bind]. destruct (corner_area _ _ _ _ H HCo) as (_ & I1 & _).
    pose proof (in_range_incl _ _ H I1) as R1.
    destruct (triangle_ctor_ok a b c R1) as (t & Et & Ep). rewrite Et, (triangle_convex _ _ _ R1). cbn [bind].
    destruct (ear_blocked_total l [a; b; c] H R1) as [bl Eb]. rewrite Eb. cbn [bind]. destruct bl.
    - apply IH. lia.
    - right. exists i, t, (remove_nth i l). split; [reflexivity|]. rewrite Ep. split; [exact HCo|exact Eb].
  Qed.

  Lemma ear_loop_spec : forall fuel l, in_range p l -> (length l <= fuel)%nat ->
    exists ts rest, ear_loop (N := RNum) fuel tol p l = Ok (ts, rest) /\
      (forall t, In t ts -> exists a b c, pg_points (tr_poly t) = [a; b; c] /\ incl [a; b; c] l /\ (NoDup l -> NoDup [a; b; c])) /\
      incl rest l /\
      sumR (map (fun t => chain_area (pg_points (tr_poly t))) ts) + chain_area rest = chain_area l /\
      ((length rest < 3)%nat /\ length ts = (length l - 2)%nat \/ (4 <= length rest)%nat /\ (length ts + length rest = length l)%nat).
  Proof.
    induction fuel as [|fuel IH]; intros l H Hf.
    - destruct l; [|cbn in Hf; lia]. exists [], []. cbn. repeat split; auto.
      + intros t [].
      + intros x Hx; exact Hx.
      + lra.
      + left. lia.
    - cbn [ear_loop]. destruct (Nat.ltb_spec (length l) 3) as [H3|H3].
      { exists [], l. split; [reflexivity|]. split; [intros t []|]. split; [apply incl_refl|]. split; [cbn; lra|]. left. cbn. lia. }
      destruct (Nat.eq_dec (length l) 3) as [E3|E3].
      + destruct l as [|a [|b [|c [|]]]]; try discriminate.
        unfold getEar. destruct (triangle_ctor_ok a b c H) as (t & Et & Ep). rewrite Et. cbn [bind].
        replace (ear_loop (N := RNum) fuel tol p []) with (Ok ([], []) : res (list (triangle RNum) * list Z)) by (destruct fuel; reflexivity).
        cbn [bind]. exists [t], []. split; [reflexivity|]. split; [|split; [intros x []|split; [|left; cbn; lia]]].
        * intros t' [<-|[]]. exists a, b, c. split; [exact Ep|]. split; [apply incl_refl|auto].
        * change (chain_area []) with 0. cbn [map sumR fold_right]. rewrite Ep. lra.
      + assert (EG : getEar (N := RNum) tol p l = ear_search (N := RNum) tol p l 0 (length l)).
        { destruct l as [|a [|b [|c [|]]]]; try (cbn in *; lia). reflexivity. }
        rewrite EG. destruct (ear_search_spec l (length l) H H3 0%nat ltac:(lia)) as [E|(j & t & l' & E & HC & _)]; rewrite E; cbn [bind].
        * exists [], l. split; [reflexivity|]. split; [intros t []|]. split; [apply incl_refl|]. split; [cbn; lra|]. right. cbn. lia.
        * destruct (corner_area _ _ _ _ H HC) as (A1 & I1 & I2 & L & ND).
          destruct (IH l' (in_range_incl _ _ H I2) ltac:(lia)) as (ts & rest & E' & T & I & A & LL).
          rewrite E'. cbn [bind]. exists (t :: ts), rest. split; [reflexivity|]. split; [|split; [|split]].
          -- intros t' [<-|Ht].
             ++ destruct HC as (l1 & b & l2 & a & c & m & _ & _ & _ & Ep & _). exists a, b, c. rewrite Ep in *. split; [reflexivity|].
                split; [exact I1|]. intros; apply ND; assumption.
             ++ destruct (T t' Ht) as (a & b & c & Ep & Ic & Nc). exists a, b, c. split; [exact Ep|]. split; [|intros; apply Nc, ND; assumption].
                intros x Hx. apply I2, Ic, Hx.
          -- intros x Hx. apply I2, I, Hx.
          -- cbn [map sumR fold_right]. change (fold_right Rplus 0 ?l) with (sumR l). rewrite A1, <- A. lra.
          -- cbn [length]. destruct LL as [[L1 L2]|[L1 L2]]; [left|right]; lia.
  Qed.

  Lemma mapM_areas (ts : list (triangle RNum)) : (forall t, In t ts -> in_range p (pg_points (tr_poly t))) ->
    mapM (fun t : triangle RNum => geo_area (N := RNum) p (pg_points (tr_poly t))) ts = Ok (map (fun t : triangle RNum => chain_area (pg_points (tr_poly t))) ts).
  Proof. intros H. apply mapM_pure. intros t Ht. apply chain_area_ok, H, Ht. Qed.

  Lemma ear_triangulation_correct : forall idx, in_range p idx ->
    exists ts rest areas ra a, ear_triangulate (N := RNum) tol idx p = Ok ts /\
      ear_loop (N := RNum) (length idx) tol p idx = Ok (ts, rest) /\ incl rest idx /\
      (forall t, In t ts -> exists i j k, pg_points (tr_poly t) = [i; j; k] /\ incl [i; j; k] idx /\ (NoDup idx -> NoDup [i; j; k])) /\
      mapM (fun t : triangle RNum => geo_area (N := RNum) p (pg_points (tr_poly t))) ts = Ok areas /\
      geo_area (N := RNum) p rest = Ok ra /\ geo_area (N := RNum) p idx = Ok a /\
      sumR areas + ra = a /\ (length ts <= length idx - 2)%nat /\
      ((length rest < 3)%nat -> length ts = (length idx - 2)%nat /\ sumR areas = a) /\
      ((3 <= length rest)%nat -> (length ts + length rest = length idx)%nat).
  Proof.
    intros idx H. destruct (ear_loop_spec (length idx) idx H (le_n _)) as (ts & rest & E & T & I & A & L).
    exists ts, rest, (map (fun t : triangle RNum => chain_area (pg_points (tr_poly t))) ts), (chain_area rest), (chain_area idx).
    split; [unfold ear_triangulate; rewrite E; reflexivity|]. split; [exact E|]. split; [exact I|]. split; [exact T|].
    split; [|split; [|split; [|split; [exact A|split; [|split]]]]].
    - apply mapM_areas. intros t Ht. destruct (T t Ht) as (a & b & c & -> & Hi & _). exact (in_range_incl _ _ H Hi).
    - apply chain_area_ok. exact (in_range_incl _ _ H I).
    - apply chain_area_ok. exact H.
    - lia.
    - intros Hr. split; [lia|]. rewrite <- A.
      assert (Z0 : chain_area rest = 0).
      { pose proof (in_range_incl _ _ H I) as HR. apply vertices_exist in HR as [vs HV]. pose proof (vertices_length _ _ _ HV).
        unfold chain_area. rewrite (geo_area_shoelace _ _ _ HV).
        destruct vs as [|x [|y [|]]]; cbn in *; try lia; unfold shoelace, sumR, vcross; cbn; lra. }
      rewrite Z0. lra.
    - lia.
  Qed.

  (** the first corner is cut off whatever its orientation, as soon as it contains no other vertex *)
  Lemma first_corner_is_cut : forall a b c d m, in_range p (b :: c :: m ++ [d; a]) ->
    ear_blocked (N := RNum) tol p (b :: c :: m ++ [d; a]) [a; b; c] = Ok false ->
    exists t ts, ear_triangulate (N := RNum) tol (b :: c :: m ++ [d; a]) p = Ok (t :: ts) /\ pg_points (tr_poly t) = [a; b; c].
  Proof.
    intros a b c d m H HB. set (l := b :: c :: m ++ [d; a]) in *.
    assert (HL : (4 <= length l)%nat) by (unfold l; cbn; rewrite app_length; cbn; lia).
    unfold ear_triangulate. remember (length l) as fuel. destruct fuel as [|fuel]; [lia|].
    cbn [ear_loop]. replace (Nat.ltb (length l) 3) with false by (symmetry; apply Nat.ltb_ge; lia).
    assert (EG : getEar (N := RNum) tol p l = ear_search (N := RNum) tol p l 0 (length l)).
    { unfold l. destruct m as [|x [|y m]]; reflexivity. }
    rewrite EG. rewrite <- Heqfuel. cbn [ear_search].
    destruct (corner_at l 0 ltac:(lia) ltac:(lia)) as (l1 & b' & l2 & a' & c' & m' & El & Hl1 & Em & Ea & Eb & Ec & Er).
    destruct l1; [|discriminate]. unfold l in El. cbn [app] in El. injection El as <- <-. rewrite app_nil_r in Em.
    assert (EE : a' = a /\ c' = c).
    { cbn [app] in Em. injection Em as -> Em. split; [|reflexivity]. change [d; a] with ([d] ++ [a]) in Em. rewrite app_assoc in Em.
      apply app_inj_tail in Em. symmetry. apply Em. }
    destruct EE as [-> ->]. rewrite Ea, Eb, Ec. cbn [bind].
    assert (R1 : in_range p [a; b; c]).
    { apply (in_range_incl _ _ H). intros x [<-|[<-|[<-|[]]]]; unfold l; cbn; auto. right. right. apply in_or_app. right. right. left. reflexivity. }
    destruct (triangle_ctor_ok a b c R1) as (t & Et & Ep). rewrite Et, (triangle_convex _ _ _ R1). cbn [bind]. rewrite HB. cbn [bind].
    assert (R2 : in_range p (remove_nth 0 l)).
    { apply (in_range_incl _ _ H). unfold l. cbn. intros x Hx. right. exact Hx. }
    assert (L2 : (length (remove_nth 0 l) <= fuel)%nat) by (rewrite remove_nth_length by lia; lia).
    destruct (ear_loop_spec fuel _ R2 L2) as (ts & rest & E & _). rewrite E. cbn [bind]. exists t, ts. auto.
  Qed.
End Ear.
