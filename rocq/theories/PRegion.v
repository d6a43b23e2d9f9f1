(** Proofs about holes and regions (C17, C35-C42, C44, C64). *)
From Coq Require Import Reals Lra Psatz Permutation.
From Verif Require Import Base Spec MUtil MGeom MHull MPolygon MMaps MGen MRegion Bridge PUtil PPoint PSegment PPoly PPoly2 PTri PTrig PGen PContains.

Section Holes.
  Context {N : Num}.
  Notation Point := (Point N).

  Lemma polygonalHole_ok tol (p : list Point) :
    polygonalHole tol p = Ok (mkHole p point0 (edges_of (trivialIndex (length p)))).
  Proof.
    unfold polygonalHole. destruct (ctors_never_throw N tol [] p) as [_ (g & E & Hg)]. rewrite E. cbn [bind].
    assert (M : made tol g) by (eapply made_pts; exact E).
    rewrite (proj1 (centroid_always_origin tol g M p)). cbn [bind]. rewrite Hg, getSegments_edges. reflexivity.
  Qed.
  Lemma circularHole_ok tol (pts : list Point) c :
    circularHole tol pts c = Ok (mkHole pts c (edges_of (trivialIndex (length pts)))).
  Proof.
    unfold circularHole. destruct (ctors_never_throw N tol (trivialIndex (length pts)) pts) as [(g & E & Hg) _]. rewrite E. cbn [bind].
    rewrite Hg, getSegments_edges. reflexivity.
  Qed.
  Lemma hole_built_segs (h : hole N) : hole_built h -> h_segs h = edges_of (trivialIndex (length (h_points h))).
  Proof.
    intros [tol p h' E|tol pts c h' E].
    - rewrite polygonalHole_ok in E. injection E as <-. reflexivity.
    - rewrite circularHole_ok in E. injection E as <-. reflexivity.
  Qed.

  (** segments given by indices *)
  Lemma denotes_edges (P : list Point) idx vs : vertices_are P idx vs -> Forall2 (denotes P) (edges_of idx) (edges_of vs).
  Proof.
    intros H. destruct idx as [|k0 idx]; [inversion H; constructor|]. destruct vs as [|v0 vs]; [inversion H|].
    unfold edges_of.
    assert (H' : vertices_are P ((k0 :: idx) ++ [k0]) ((v0 :: vs) ++ [v0])).
    { apply vertices_app; [exact H|]. inversion H; subst. constructor; [assumption|constructor]. }
    revert H'. generalize ((k0 :: idx) ++ [k0]) ((v0 :: vs) ++ [v0]). clear. intros l1 l2 H.
    induction H as [|k v l1 l2 [K1 K2] H IH]; [constructor|]. destruct H as [|k' v' l1 l2 [K3 K4] H]; [constructor|].
    rewrite !pairs_cons2. constructor; [|exact IH]. unfold denotes. cbn [fst snd]. auto.
  Qed.

  Lemma hole_crossing_eq tol (hp : list Point) q : hole_crossing tol hp q = crossing_loop tol (trivialIndex (length hp)) hp q.
  Proof.
    unfold hole_crossing, crossing_loop.
    assert (L : length (trivialIndex (length hp)) = length hp) by (unfold trivialIndex; rewrite map_length, seq_length; reflexivity).
    rewrite L. apply foldM_ext. intros st i _. rewrite !(vertices_vpt _ _ _ _ (vertices_trivial hp)). reflexivity.
  Qed.

  Lemma hole_container_eq tol (h : hole N) q : hole_built h -> exists c,
    hole_container tol h q = Ok c /\
    negb (fst c =? -1)%Z && negb (snd c =? -1)%Z = existsb (fun e : Point * Point => seg_contains tol q (fst e) (snd e)) (edges_of (h_points h)).
  Proof.
    intros HB. unfold hole_container, hole_getSegments. rewrite (hole_built_segs h HB). cbn [app].
    assert (E0 : map (fun sg => iseg_add sg 0) (edges_of (trivialIndex (length (h_points h)))) = edges_of (trivialIndex (length (h_points h)))).
    { rewrite <- (map_id (edges_of _)) at 2. apply map_ext. intros [a b]. unfold iseg_add. cbn. f_equal; lia. }
    rewrite E0. pose proof (denotes_edges _ _ _ (vertices_trivial (h_points h))) as HD. revert HD.
    generalize (edges_of (trivialIndex (length (h_points h)))) (edges_of (h_points h)). intros l1 l2 HD.
    assert (G : forall c0, exists c, foldM (fun (c : iseg) s => b <- iseg_contains tol (h_points h) s q ;; Ok (if b : bool then s else c)) l1 c0 = Ok c /\
      negb (fst c =? -1)%Z && negb (snd c =? -1)%Z = (negb (fst c0 =? -1)%Z && negb (snd c0 =? -1)%Z) || existsb (fun e : Point * Point => seg_contains tol q (fst e) (snd e)) l2).
    { induction HD as [|s e l1 l2 (K1 & K2 & K3 & K4) HD IH]; intros c0.
      - exists c0. cbn. rewrite orb_false_r. auto.
      - cbn [foldM existsb]. unfold iseg_contains at 1. rewrite (proj2 (vget_ok _ _ _) (conj K1 K2)), (proj2 (vget_ok _ _ _) (conj K3 K4)). cbn [bind].
        destruct (seg_contains tol q (fst e) (snd e)).
        + destruct (IH s) as (c & E1 & E2). exists c. split; [exact E1|]. rewrite E2. cbn [orb]. rewrite orb_true_r.
          destruct (Z.eqb_spec (fst s) (-1)), (Z.eqb_spec (snd s) (-1)); first [lia|reflexivity].
        + destruct (IH c0) as (c & E1 & E2). exists c. auto. }
    destruct (G (-1, -1)%Z) as (c & E1 & E2). exists c. split; [exact E1|]. exact E2.
  Qed.

  (** a hole answers as the polygon through its points *)
  Lemma hole_contains_polygon tol (h : hole N) q : hole_built h ->
    hole_containsPoint tol h q = containsPoint tol (trivialIndex (length (h_points h))) (h_points h) q.
  Proof.
    intros HB. unfold hole_containsPoint, containsPoint. rewrite hole_crossing_eq.
    destruct (crossing_loop _ _ _ _) as [[j b]|e]; [|reflexivity]. cbn [bind snd]. destruct b; [reflexivity|].
    rewrite (inEdges_iff _ _ _ _ _ (vertices_trivial _)). destruct (hole_container_eq tol h q HB) as (c & E1 & E2).
    rewrite E1. cbn [bind]. rewrite E2. reflexivity.
  Qed.
  Lemma contains_total tol (p : list Point) idx vs q : vertices_are p idx vs -> exists b, containsPoint tol idx p q = Ok b.
  Proof. intros H. eexists. apply (containsPoint_walk tol idx p q vs q H). Qed.
  Lemma hole_contains_total tol (h : hole N) q : hole_built h -> exists b, hole_containsPoint tol h q = Ok b.
  Proof. intros HB. rewrite hole_contains_polygon by exact HB. apply (contains_total _ _ _ _ _ (vertices_trivial _)). Qed.
End Holes.

Section Regions.
  Context {N : Num}.
  Notation Point := (Point N).

  Definition outline_ok (r : region N) : Prop :=
    pg_points (rg_poly r) = trivialIndex (length (rg_p r)) \/ pg_points (rg_poly r) = rev (trivialIndex (length (rg_p r))).

  Lemma mutate_points tol (g : polygon N) p : pg_points (fst (polygon_mutate tol g p)) = trivialIndex (length p).
  Proof. unfold polygon_mutate. destruct (isSelfIntersecting _ _ _) as [[|]|]; reflexivity. Qed.
  Lemma ask_points (g g' : polygon N) q : pg_ask g q = Ok g' -> pg_points g' = pg_points g.
  Proof.
    destruct q; cbn; intros E.
    - unfold getArea in E. destruct (neqb _ _); cbn in E.
      + destruct (calculateArea p (pg_points g)); cbn in E; [injection E as <-; reflexivity|discriminate].
      + injection E as <-; reflexivity.
    - unfold getDiameter in E. destruct (nltb _ _); cbn in E.
      + destruct (getPoints _ _) as [ps|]; [|discriminate]. cbn in E. destruct (calculateDiameter _); cbn in E; [injection E as <-; reflexivity|discriminate].
      + injection E as <-; reflexivity.
    - unfold getCentroid in E. destruct (negb _); cbn in E.
      + destruct (calculateCentroid p (pg_points g)); cbn in E; [injection E as <-; reflexivity|discriminate].
      + injection E as <-; reflexivity.
    - injection E as <-; reflexivity.
  Qed.
  Lemma clean_fields tol (r r' : region N) : clean tol r = Ok r' ->
    rg_poly r' = rg_poly r /\ rg_p r' = rg_p r /\ rg_holes r' = rg_holes r.
  Proof. unfold clean. intros E. apply bind_ok in E as (s & _ & E). injection E as <-. auto. Qed.

  Lemma made_inv (r : region N) : region_made r -> outline_ok r /\ Forall hole_built (rg_holes r).
  Proof.
    unfold outline_ok. induction 1 as [d a h|tol pts r E|tol g0 idx pts r E|tol r pts H IH|r H IH|clip cf r h H IH HB|r H IH|r hs H IH HB|r H IH
      |tol r s r' H IH E|tol r g nX nY r' g' H IH E|tol r s r' H IH E|r q g H IH E|r p g H IH E].
    - split; [left; reflexivity|constructor].
    - unfold region_ctor in E. destruct (ctors_never_throw N tol [] pts) as [_ (g & E' & Hg)]. rewrite E' in E. cbn in E. injection E as <-.
      split; [left; exact Hg|constructor].
    - unfold region_of_polygon in E. apply bind_ok in E as (ps & _ & E). pose proof (mutate_points tol g0 ps) as Hm.
      destruct (polygon_mutate tol g0 ps) as [g o]. apply bind_ok in E as (u & _ & E). injection E as <-. split; [left; exact Hm|constructor].
    - destruct IH as [IH1 IH2]. unfold region_mutate. pose proof (mutate_points tol (rg_poly r) pts) as Hm.
      destruct (polygon_mutate tol (rg_poly r) pts) as [g o]. split; [left; exact Hm|exact IH2].
    - exact IH.
    - destruct IH as [IH1 IH2]. unfold addHole.
      destruct (mapM _ (rg_p r)) as [s|]; [|auto]. destruct (mapM _ (h_points h)) as [c|]; [|auto].
      assert (G : forall o : res bool, outline_ok (fst match o with
                | Err e => (r, Err e)
                | Ok true => (mkRegion (rg_poly r) (rg_p r) (rg_holes r ++ [h]) (rg_seeds r), Ok tt)
                | Ok false => (r, Err (Throw "Hole lies completely outside of domain region"))
                end) /\ Forall hole_built (rg_holes (fst match o with
                | Err e => (r, Err e)
                | Ok true => (mkRegion (rg_poly r) (rg_p r) (rg_holes r ++ [h]) (rg_seeds r), Ok tt)
                | Ok false => (r, Err (Throw "Hole lies completely outside of domain region"))
                end))).
      { intros [[|]|]; cbn; auto. split; [exact IH1|]. apply Forall_app. auto. }
      destruct (clip s c) as [|path [|path2 l]]; [apply G| |apply G].
      destruct (mapM _ path) as [np|]; [|auto]. unfold region_mutate. pose proof (mutate_points (cf_tol cf) (rg_poly r) np) as Hm.
      destruct (polygon_mutate _ (rg_poly r) np) as [g o]. split; [left; exact Hm|exact IH2].
    - destruct IH. split; [assumption|constructor].
    - destruct IH. auto.
    - exact IH.
    - apply clean_fields in E as (-> & -> & ->). exact IH.
    - unfold generateSeedPoints in E. apply bind_ok in E as ([g1 pts] & _ & E). apply bind_ok in E as (r1 & E1 & E). injection E as <- <-.
      apply clean_fields in E1 as (-> & -> & ->). exact IH.
    - apply clean_fields in E as (-> & -> & ->). exact IH.
    - destruct IH as [IH1 IH2]. cbn. rewrite (ask_points _ _ _ E). auto.
    - destruct IH as [IH1 IH2]. cbn. split; [|exact IH2]. unfold fixCCW in E. apply bind_ok in E as (b & _ & E). injection E as <-.
      destruct b; cbn; [|exact IH1]. destruct IH1 as [-> | ->]; [right; reflexivity|left; apply rev_involutive].
  Qed.

  (** the outline in the order of the vertex indices *)
  Lemma made_outline (r : region N) : region_made r -> exists vs,
    (vs = rg_p r \/ vs = rev (rg_p r)) /\ vertices_are (rg_p r) (pg_points (rg_poly r)) vs.
  Proof.
    intros H. destruct (made_inv r H) as [[-> | ->] _].
    - exists (rg_p r). split; [auto|apply vertices_trivial].
    - exists (rev (rg_p r)). split; [auto|apply vertices_rev, vertices_trivial].
  Qed.
  Lemma region_contains_total tol (r : region N) q : region_made r -> exists b, region_containsPoint tol r q = Ok b.
  Proof. intros H. destruct (made_outline r H) as (vs & _ & HV). apply (contains_total _ _ _ _ _ HV). Qed.

  (** * Cleaning *)
  Lemma seed_kept_char tol (r : region N) q : region_made r -> exists b, seed_kept tol r q = Ok b /\ (b = true <-> in_domain tol r q).
  Proof.
    intros H. unfold seed_kept, in_domain, region_containsPoint. destruct (region_contains_total tol r q H) as [b E].
    unfold region_containsPoint in E. rewrite E. cbn [bind]. destruct b.
    2:{ exists false. split; [reflexivity|]. split; [discriminate|]. intros [X _]; discriminate. }
    destruct (made_inv r H) as [_ HB].
    assert (G : forall keep, exists b, foldM (fun (keep : bool) h => if keep then b <- hole_containsPoint tol h q ;; Ok (negb b) else Ok false) (rg_holes r) keep = Ok b /\
      (b = true <-> keep = true /\ Forall (fun h => hole_containsPoint tol h q = Ok false) (rg_holes r))).
    { induction HB as [|h hs Hh HB IH]; intros keep.
      - exists keep. split; [reflexivity|]. intuition.
      - cbn [foldM]. destruct keep.
        + destruct (hole_contains_total tol h q Hh) as [c Ec]. rewrite Ec. cbn [bind]. destruct (IH (negb c)) as (b & E1 & E2).
          exists b. split; [exact E1|]. rewrite E2. destruct c; cbn [negb]; split.
          * intros [X _]; discriminate.
          * intros [_ X]. inversion X; congruence.
          * intros [_ X]. split; [reflexivity|]. constructor; assumption.
          * intros [_ X]. split; [reflexivity|]. inversion X; assumption.
        + cbn [bind]. destruct (IH false) as (b & E1 & E2). exists b. split; [exact E1|]. rewrite E2. intuition discriminate. }
    destruct (G true) as (b & E1 & E2). exists b. split; [exact E1|]. rewrite E2. intuition.
  Qed.

  Lemma filterM_char {A} (f : A -> res bool) (g : A -> bool) l : (forall a, f a = Ok (g a)) -> filterM f l = Ok (filter g l).
  Proof. intros H. induction l as [|a l IH]; [reflexivity|]. cbn. rewrite H, IH. cbn. destruct (g a); reflexivity. Qed.

  (** the answer of [seed_kept] as a boolean *)
  Definition keeps (tol : nT N) (r : region N) (q : Point) : bool := match seed_kept tol r q with Ok b => b | Err _ => false end.
  Lemma keeps_iff tol (r : region N) q : region_made r -> keeps tol r q = true <-> in_domain tol r q.
  Proof. intros H. unfold keeps. destruct (seed_kept_char tol r q H) as (b & -> & Hb). exact Hb. Qed.
  Lemma clean_char tol (r : region N) seeds : region_made r ->
    clean tol (with_seeds r seeds) = Ok (with_seeds r (filter (keeps tol r) seeds)).
  Proof.
    intros H. unfold clean. cbn [rg_seeds rg_poly rg_p rg_holes with_seeds].
    rewrite (filterM_char _ (keeps tol r)); [reflexivity|].
    intros q. unfold keeps. change (seed_kept tol (with_seeds r seeds) q) with (seed_kept tol r q).
    destruct (seed_kept_char tol r q H) as (b & E & _). rewrite E. reflexivity.
  Qed.

  Lemma addSeeds_char tol (r : region N) s : region_made r -> exists keep : Point -> bool,
    (forall q, keep q = true <-> in_domain tol r q) /\ addSeedPoints tol r s = Ok (with_seeds r (filter keep s)).
  Proof. intros H. exists (keeps tol r). split; [intros q; apply keeps_iff; exact H|apply clean_char; exact H]. Qed.
  Lemma readSeeds_char tol (r : region N) s : region_made r -> exists keep : Point -> bool,
    (forall q, keep q = true <-> in_domain tol r q) /\ addSeedsRead tol r s = Ok (with_seeds r (filter keep (rg_seeds r ++ s))).
  Proof. intros H. exists (keeps tol r). split; [intros q; apply keeps_iff; exact H|apply clean_char; exact H]. Qed.

  Lemma generate_append (g g' : generator N) pts pts' box nX nY : generate g pts box nX nY = Ok (g', pts') <->
    exists new, generate g [] box nX nY = Ok (g', new) /\ pts' = pts ++ new.
  Proof.
    unfold generate.
    assert (G : forall l g0 a b, foldM (fun (st : generator N * list Point) (ij : Z * Z) =>
        dX <- divr (bb_width box) (nZ (nX - 1)) ;; dY <- divr (bb_height box) (nZ (nY - 1)) ;;
        '(g'0, q) <- result (fst st) (bb_xMin box + nZ (snd ij) * dX)%num (bb_yMin box + nZ (fst ij) * dY)%num ;; Ok (g'0, snd st ++ [q])) l (g0, a ++ b) =
      (r <- foldM (fun (st : generator N * list Point) (ij : Z * Z) =>
        dX <- divr (bb_width box) (nZ (nX - 1)) ;; dY <- divr (bb_height box) (nZ (nY - 1)) ;;
        '(g'0, q) <- result (fst st) (bb_xMin box + nZ (snd ij) * dX)%num (bb_yMin box + nZ (fst ij) * dY)%num ;; Ok (g'0, snd st ++ [q])) l (g0, b) ;; Ok (fst r, a ++ snd r))).
    { induction l as [|ij l IH]; intros g0 a b; [reflexivity|]. cbn [foldM fst snd].
      destruct (divr (bb_width box) _) as [dX|]; [|reflexivity]. destruct (divr (bb_height box) _) as [dY|]; [|reflexivity]. cbn [bind].
      destruct (result g0 _ _) as [[g1 q]|]; [|reflexivity]. cbn [bind]. rewrite <- app_assoc. apply IH. }
    rewrite <- (app_nil_r pts) at 1. cbn zeta in *. rewrite G. split.
    - intros E. apply bind_ok in E as ([g1 new] & E & E2). injection E2 as <- <-. exists new. split; [exact E|reflexivity].
    - intros (new & E & ->). rewrite E. reflexivity.
  Qed.
  Lemma genSeeds_char tol (r : region N) g nX nY : region_made r -> exists keep : Point -> bool,
    (forall q, keep q = true <-> in_domain tol r q) /\
    (forall r' g', generateSeedPoints tol r g nX nY = Ok (r', g') <->
     exists new, generate g [] (getBox r) nX nY = Ok (g', new) /\ r' = with_seeds r (filter keep (rg_seeds r ++ new))).
  Proof.
    intros H. exists (keeps tol r). split; [intros q; apply keeps_iff; exact H|]. intros r' g'. unfold generateSeedPoints. split.
    - intros E. apply bind_ok in E as ([g1 pts] & E & E2). apply generate_append in E as (new & E & ->).
      rewrite clean_char in E2 by exact H. cbn [bind] in E2. injection E2 as <- <-. exists new. auto.
    - intros (new & E & ->). rewrite (proj2 (generate_append g g' (rg_seeds r) (rg_seeds r ++ new) _ _ _)) by eauto. cbn [bind].
      rewrite clean_char by exact H. reflexivity.
  Qed.

  (** addHole and mutate do not look at the seeds *)
  Lemma mutate_seeds tol (r : region N) pts : rg_seeds (fst (region_mutate tol r pts)) = rg_seeds r.
  Proof. unfold region_mutate. destruct (polygon_mutate _ _ _). reflexivity. Qed.
  Lemma addHole_seeds clip cf (r : region N) h : rg_seeds (fst (addHole clip cf r h)) = rg_seeds r.
  Proof.
    unfold addHole. destruct (mapM _ (rg_p r)) as [s|]; [|reflexivity]. destruct (mapM _ (h_points h)) as [c|]; [|reflexivity].
    destruct (clip s c) as [|path [|path2 l]]; try (destruct (containsPoint _ _ _ _) as [[|]|]; reflexivity).
    destruct (mapM _ path); [apply mutate_seeds|reflexivity].
  Qed.
End Regions.

(** * The domain in the plane *)
Section Plane.
  Local Open Scope R_scope.
  Notation Pt := (Point RNum).
  Lemma in_edges_rev {A} (vs : list A) a b : In (a, b) (edges_of (rev vs)) <-> In (b, a) (edges_of vs).
  Proof.
    split; intros H.
    - apply (Permutation_in _ (edges_of_rev vs)) in H. apply in_map_iff in H as ([x y] & E & H). cbn in E. injection E as -> ->. exact H.
    - apply (Permutation_in _ (Permutation_sym (edges_of_rev vs))). apply in_map_iff. exists (b, a). auto.
  Qed.
  Lemma near_segment_sym tol a b q : near_segment tol a b q -> near_segment tol b a q.
  Proof.
    intros (H1 & H2 & H3). unfold near_segment. rewrite (Rmin_comm (fst b)), (Rmax_comm (fst b)), (Rmin_comm (snd b)), (Rmax_comm (snd b)).
    split; [exact H1|]. split; [exact H2|]. replace (orient b a q) with (- orient a b q) by (unfold orient, vcross, vsub; cbn; ring).
    rewrite Rabs_Ropp. exact H3.
  Qed.
  Lemma near_border_rev tol q vs : near_border tol q (rev vs) <-> near_border tol q vs.
  Proof.
    split; intros (a & b & H & H'); exists b, a; (split; [|apply near_segment_sym; exact H']); [apply (proj1 (in_edges_rev vs a b)); exact H|apply (proj2 (in_edges_rev vs b a)); exact H].
  Qed.
  Lemma inside_or_near_rev tol q vs : inside_or_near tol q (rev vs) <-> inside_or_near tol q vs.
  Proof. unfold inside_or_near. rewrite even_odd_rev, near_border_rev. reflexivity. Qed.
  Lemma no_short_edge_rev tol vs : no_short_edge tol vs -> no_short_edge tol (rev vs).
  Proof.
    intros H a b He [H1 H2]. apply (proj1 (in_edges_rev vs a b)) in He. apply (H b a He). split; [rewrite Rabs_minus_sym; exact H1|rewrite Rabs_minus_sym; exact H2].
  Qed.

  Lemma region_contains_plane tol (r : region RNum) (q : Pt) : 0 < tol -> region_made r -> no_short_edge tol (map xy (rg_p r)) ->
    exists b, region_containsPoint (N := RNum) tol r q = Ok b /\ (b = true <-> inside_or_near tol (xy q) (map xy (rg_p r))).
  Proof.
    intros Ht H HN. destruct (made_outline r H) as (vs & [-> | ->] & HV).
    - exact (contains_char tol _ _ q _ Ht HV HN).
    - assert (HN' : no_short_edge tol (map xy (rev (rg_p r)))) by (rewrite map_rev; apply no_short_edge_rev; exact HN).
      destruct (contains_char tol _ _ q _ Ht HV HN') as (b & E & Hb). exists b. split; [exact E|].
      rewrite Hb. rewrite map_rev. apply inside_or_near_rev.
  Qed.
  Lemma hole_contains_plane tol (h : hole RNum) (q : Pt) : 0 < tol -> hole_built h -> no_short_edge tol (map xy (h_points h)) ->
    exists b, hole_containsPoint (N := RNum) tol h q = Ok b /\ (b = true <-> inside_or_near tol (xy q) (map xy (h_points h))).
  Proof.
    intros Ht H HN. rewrite hole_contains_polygon by exact H. exact (contains_char tol _ _ q _ Ht (vertices_trivial _) HN).
  Qed.
  Lemma in_domain_plane tol (r : region RNum) (q : Pt) : 0 < tol -> region_made r -> region_no_short_edge tol r ->
    in_domain (N := RNum) tol r q <->
    inside_or_near tol (xy q) (map xy (rg_p r)) /\ Forall (fun h => ~ inside_or_near tol (xy q) (map xy (h_points h))) (rg_holes r).
  Proof.
    intros Ht H [HN HH]. unfold in_domain. destruct (region_contains_plane tol r q Ht H HN) as (b & E & Hb). rewrite E.
    assert (F : Forall (fun h => hole_containsPoint (N := RNum) tol h q = Ok false) (rg_holes r) <-> Forall (fun h => ~ inside_or_near tol (xy q) (map xy (h_points h))) (rg_holes r)).
    { destruct (made_inv r H) as [_ HB]. rewrite !Forall_forall in *.
      split; intros G h Hh; specialize (G h Hh); destruct (hole_contains_plane tol h q Ht (HB h Hh) (HH h Hh)) as (c & Ec & Hc).
      - rewrite Ec in G. injection G as ->. rewrite <- Hc. discriminate.
      - rewrite Ec. destruct c; [|reflexivity]. exfalso. apply G, Hc. reflexivity. }
    rewrite F. split; intros [G1 G2]; (split; [|exact G2]).
    - injection G1 as ->. apply Hb. reflexivity.
    - f_equal. apply Hb. exact G1.
  Qed.

  (** C36, packaged *)
  Lemma seeding_plane tol (r : region RNum) : 0 < tol -> region_made r -> region_no_short_edge tol r ->
    forall s, exists (keep : Pt -> bool), 
    (forall q, keep q = true <-> inside_or_near tol (xy q) (map xy (rg_p r)) /\ Forall (fun h => ~ inside_or_near tol (xy q) (map xy (h_points h))) (rg_holes r)) /\
    addSeedPoints (N := RNum) tol r s = Ok (with_seeds r (filter keep s)) /\
    addSeedsRead (N := RNum) tol r s = Ok (with_seeds r (filter keep (rg_seeds r ++ s))).
  Proof.
    intros Ht H HN s. exists (keeps (N := RNum) tol r). split; [|split; apply clean_char; exact H].
    intros q. rewrite (keeps_iff (N := RNum) tol r q H). apply in_domain_plane; assumption.
  Qed.

  (** * C35 *)
  Lemma box_fold (l : list Pt) x0 x1 y0 y1 :
    exists X0 X1 Y0 Y1,
    fold_left (fun '(x0, x1, y0, y1) (v : Pt) =>
        (if nltb (n := RNum) (px v) x0 then px v else x0, if nltb (n := RNum) x1 (px v) then px v else x1,
         if nltb (n := RNum) (py v) y0 then py v else y0, if nltb (n := RNum) y1 (py v) then py v else y1)) l (x0, x1, y0, y1) = (X0, X1, Y0, Y1) /\
    ((X0 <= x0 /\ (forall v, In v l -> X0 <= px v)) /\ (X0 = x0 \/ exists v, In v l /\ X0 = px v)) /\
    ((x1 <= X1 /\ (forall v, In v l -> px v <= X1)) /\ (X1 = x1 \/ exists v, In v l /\ X1 = px v)) /\
    ((Y0 <= y0 /\ (forall v, In v l -> Y0 <= py v)) /\ (Y0 = y0 \/ exists v, In v l /\ Y0 = py v)) /\
    ((y1 <= Y1 /\ (forall v, In v l -> py v <= Y1)) /\ (Y1 = y1 \/ exists v, In v l /\ Y1 = py v)).
  Proof.
    revert x0 x1 y0 y1. induction l as [|w l IH]; intros x0 x1 y0 y1.
    - exists x0, x1, y0, y1. cbn. repeat split; try lra; try contradiction; left; reflexivity.
    - cbn [fold_left].
      destruct (IH (if Rltb (px w) x0 then px w else x0) (if Rltb x1 (px w) then px w else x1)
                   (if Rltb (py w) y0 then py w else y0) (if Rltb y1 (py w) then py w else y1))
        as (X0 & X1 & Y0 & Y1 & E & ((A1 & A2) & A3) & ((B1 & B2) & B3) & ((C1 & C2) & C3) & ((D1 & D2) & D3)).
      exists X0, X1, Y0, Y1. split; [exact E|]. cbn [In].
      assert (T : forall (P : Pt -> Prop), (exists v, In v l /\ P v) -> exists v, (w = v \/ In v l) /\ P v) by (intros P (v & H1 & H2); eauto).
      split; [|split; [|split]]; split.
      + split; [revert A1; rcase; lra|]. intros v [<-|Hv]; [revert A1; rcase; lra|auto].
      + destruct A3 as [->|A3]; [|right; auto]. rcase; [right; eauto|left; reflexivity].
      + split; [revert B1; rcase; lra|]. intros v [<-|Hv]; [revert B1; rcase; lra|auto].
      + destruct B3 as [->|B3]; [|right; auto]. rcase; [right; eauto|left; reflexivity].
      + split; [revert C1; rcase; lra|]. intros v [<-|Hv]; [revert C1; rcase; lra|auto].
      + destruct C3 as [->|C3]; [|right; auto]. rcase; [right; eauto|left; reflexivity].
      + split; [revert D1; rcase; lra|]. intros v [<-|Hv]; [revert D1; rcase; lra|auto].
      + destruct D3 as [->|D3]; [|right; auto]. rcase; [right; eauto|left; reflexivity].
  Qed.
  Lemma getBox_correct (r : region RNum) :
    let b := getBox (N := RNum) r in
    (forall v, In v (rg_p r) -> bb_xMin b <= px v <= bb_xMax b /\ bb_yMin b <= py v <= bb_yMax b) /\
    (rg_p r <> [] -> (forall v, In v (rg_p r) -> - big <= px v <= big /\ - big <= py v <= big) ->
     (exists v, In v (rg_p r) /\ px v = bb_xMin b) /\ (exists v, In v (rg_p r) /\ px v = bb_xMax b) /\
     (exists v, In v (rg_p r) /\ py v = bb_yMin b) /\ (exists v, In v (rg_p r) /\ py v = bb_yMax b)) /\
    (rg_p r <> [] -> (forall v, In v (rg_p r) -> big < px v) -> bb_xMin b = big).
  Proof.
    cbn zeta. unfold big.
    destruct (box_fold (rg_p r) 9223372036854775808 (-9223372036854775808) 9223372036854775808 (-9223372036854775808))
      as (X0 & X1 & Y0 & Y1 & E & ((A1 & A2) & A3) & ((B1 & B2) & B3) & ((C1 & C2) & C3) & ((D1 & D2) & D3)).
    assert (EB : getBox (N := RNum) r = mkBox (N := RNum) (mkP (N := RNum) X0 Y0) (mkP (N := RNum) X1 Y1)).
    { match type of E with ?L = _ => transitivity (let '(x0, x1, y0, y1) := L in mkBox (N := RNum) (mkP (N := RNum) x0 y0) (mkP (N := RNum) x1 y1)); [reflexivity|rewrite E; reflexivity] end. }
    rewrite EB. clear E EB.
    assert (NE : forall w, In w (rg_p r) -> X0 <= X1 /\ Y0 <= Y1).
    { intros w Hw. specialize (A2 w Hw); specialize (B2 w Hw); specialize (C2 w Hw); specialize (D2 w Hw). cbn in *. split; lra. }
    assert (BX : X0 <= X1 /\ Y0 <= Y1 -> bb_xMin (N := RNum) (mkBox (N := RNum) (mkP (N := RNum) X0 Y0) (mkP (N := RNum) X1 Y1)) = X0 /\
                 bb_xMax (N := RNum) (mkBox (N := RNum) (mkP (N := RNum) X0 Y0) (mkP (N := RNum) X1 Y1)) = X1 /\
                 bb_yMin (N := RNum) (mkBox (N := RNum) (mkP (N := RNum) X0 Y0) (mkP (N := RNum) X1 Y1)) = Y0 /\
                 bb_yMax (N := RNum) (mkBox (N := RNum) (mkP (N := RNum) X0 Y0) (mkP (N := RNum) X1 Y1)) = Y1).
    { intros [L1 L2]. unfold bb_xMin, bb_xMax, bb_yMin, bb_yMax, nmin, nmax; cbn. repeat split; rcase; lra. }
    split; [|split].
    - intros v Hv. destruct (BX (NE v Hv)) as (-> & -> & -> & ->). specialize (A2 v Hv); specialize (B2 v Hv); specialize (C2 v Hv); specialize (D2 v Hv). cbn in *. lra.
    - intros Hne Hr. destruct (rg_p r) as [|w l] eqn:EP; [congruence|]. destruct (Hr w (or_introl eq_refl)) as [R1 R2].
      destruct (BX (NE w (or_introl eq_refl))) as (-> & -> & -> & ->).
      pose proof (A2 w (or_introl eq_refl)). pose proof (B2 w (or_introl eq_refl)). pose proof (C2 w (or_introl eq_refl)). pose proof (D2 w (or_introl eq_refl)).
      cbn [nT RNum] in *.
      repeat split.
      + destruct A3 as [->|(v & Hv & ->)]; [|eauto]. exists w. split; [left; reflexivity|lra].
      + destruct B3 as [->|(v & Hv & ->)]; [|eauto]. exists w. split; [left; reflexivity|lra].
      + destruct C3 as [->|(v & Hv & ->)]; [|eauto]. exists w. split; [left; reflexivity|lra].
      + destruct D3 as [->|(v & Hv & ->)]; [|eauto]. exists w. split; [left; reflexivity|lra].
    - intros Hne Hb. destruct (rg_p r) as [|w l] eqn:EP; [congruence|]. destruct (BX (NE w (or_introl eq_refl))) as (-> & _ & _ & _).
      destruct A3 as [->|(v & Hv & ->)]; [reflexivity|]. specialize (Hb v Hv). cbn in *. lra.
  Qed.
End Plane.

(** * C17 *)
Section Mutate.
  Context {N : Num}.
  Notation Point := (Point N).
  Lemma mutate_char tol (r : region N) (pts : list Point) :
    let r' := fst (region_mutate tol r pts) in
    rg_p r' = pts /\ pg_points (rg_poly r') = trivialIndex (length pts) /\ rg_holes r' = rg_holes r /\ rg_seeds r' = rg_seeds r /\
    ((exists i j, non_adjacent (length pts) i j /\ crossing_pair tol pts i j) ->
     snd (region_mutate tol r pts) = Err (Throw "Self intersecting polygons are not supported") /\
     pg_area (rg_poly r') = pg_area (rg_poly r) /\ pg_diam (rg_poly r') = pg_diam (rg_poly r) /\
     pg_cen (rg_poly r') = pg_cen (rg_poly r) /\ pg_hash (rg_poly r') = pg_hash (rg_poly r)) /\
    (~ (exists i j, non_adjacent (length pts) i j /\ crossing_pair tol pts i j) ->
     snd (region_mutate tol r pts) = Ok tt /\ pg_area (rg_poly r') = nZ (-1) /\ pg_diam (rg_poly r') = nZ (-1)).
  Proof.
    cbn zeta. unfold region_mutate, polygon_mutate.
    destruct (isSelfIntersecting_iff tol pts (trivialIndex (length pts)) pts (vertices_trivial pts)) as (b & E & Hb). rewrite E.
    destruct b; cbn; repeat (split; [reflexivity|]); split.
    - intros _. repeat split.
    - intros H. exfalso. apply H. apply Hb. reflexivity.
    - intros H. apply Hb in H. discriminate.
    - intros _. repeat split.
  Qed.
End Mutate.

(** * C39 *)
Section Segments.
  Context {N : Num}.
  Notation Point := (Point N).
  Lemma denotes_app_l (P Q : list Point) s e : denotes P s e -> denotes (P ++ Q) s e.
  Proof.
    intros (H1 & H2 & H3 & H4). unfold denotes.
    assert (G : forall i a, nth_error P i = Some a -> nth_error (P ++ Q) i = Some a).
    { intros i a H. rewrite nth_error_app1; [exact H|]. apply nth_error_Some. congruence. }
    auto.
  Qed.
  Lemma denotes_shift (P Q : list Point) s e : denotes Q s e -> denotes (P ++ Q) (iseg_add s (zlen P)) e.
  Proof.
    intros (H1 & H2 & H3 & H4). unfold denotes, iseg_add, zlen. cbn [fst snd].
    assert (G : forall i a, (0 <= i)%Z -> nth_error Q (Z.to_nat i) = Some a -> nth_error (P ++ Q) (Z.to_nat (i + Z.of_nat (length P))) = Some a).
    { intros i a Hi H. rewrite nth_error_app2 by lia. replace (Z.to_nat (i + Z.of_nat (length P)) - length P)%nat with (Z.to_nat i) by lia. exact H. }
    repeat split; try lia; apply G; assumption.
  Qed.
  Lemma Forall2_impl {A B} (P Q : A -> B -> Prop) l1 l2 : (forall a b, P a b -> Q a b) -> Forall2 P l1 l2 -> Forall2 Q l1 l2.
  Proof. intros H; induction 1; constructor; auto. Qed.
  Lemma Forall2_map_l {A B C} (P : A -> B -> Prop) (f : C -> A) l1 l2 : Forall2 (fun c b => P (f c) b) l1 l2 -> Forall2 P (map f l1) l2.
  Proof. induction 1; constructor; auto. Qed.

  Lemma hole_fold hs : forall (P0 : list Point) acc es, Forall hole_built hs -> Forall2 (denotes P0) acc es ->
    Forall2 (denotes (P0 ++ flat_map h_points hs))
      (fst (fold_left (fun '(acc, off) h => (hole_getSegments h acc off, (off + zlen (h_points h))%Z)) hs (acc, zlen P0)))
      (es ++ flat_map (fun h => edges_of (h_points h)) hs).
  Proof.
    induction hs as [|h hs IH]; intros P0 acc es HB HD.
    - cbn. rewrite !app_nil_r. exact HD.
    - inversion HB; subst. cbn [fold_left flat_map].
      replace (zlen P0 + zlen (h_points h))%Z with (zlen (P0 ++ h_points h)) by (unfold zlen; rewrite app_length; lia).
      rewrite !app_assoc. apply IH; [assumption|]. unfold hole_getSegments. apply Forall2_app.
      + eapply Forall2_impl; [|exact HD]. intros; apply denotes_app_l; assumption.
      + apply Forall2_map_l. rewrite (hole_built_segs h) by assumption.
        eapply Forall2_impl; [|apply denotes_edges, vertices_trivial]. intros; apply denotes_shift; assumption.
  Qed.

  Lemma fold_acc hs : forall (s acc : list iseg) off,
    fst (fold_left (fun '(acc, off) (h : hole N) => (hole_getSegments h acc off, (off + zlen (h_points h))%Z)) hs (s ++ acc, off)) =
    s ++ fst (fold_left (fun '(acc, off) (h : hole N) => (hole_getSegments h acc off, (off + zlen (h_points h))%Z)) hs (acc, off)).
  Proof.
    induction hs as [|h hs IH]; intros s acc off; [reflexivity|]. cbn [fold_left]. unfold hole_getSegments at 2 4. rewrite <- app_assoc. apply IH.
  Qed.

  Lemma region_segments (r : region N) s : region_made r -> exists vs segs,
    (vs = rg_p r \/ vs = rev (rg_p r)) /\ region_getSegments r s = Ok (s ++ segs) /\
    Forall2 (denotes (getRegionPoints r)) segs (edges_of vs ++ flat_map (fun h => edges_of (h_points h)) (rg_holes r)).
  Proof.
    intros H. destruct (made_outline r H) as (vs & Hvs & HV). destruct (made_inv r H) as [_ HB].
    exists vs. eexists. split; [exact Hvs|]. split.
    - unfold region_getSegments. rewrite getSegments_edges. cbn [bind]. rewrite fold_acc. reflexivity.
    - unfold getRegionPoints. apply hole_fold; [exact HB|]. apply denotes_edges. exact HV.
  Qed.

  (** * C38 *)
  Lemma copy_char (r : region N) :
    rg_seeds (region_copy r) = [] /\ rg_p (region_copy r) = rg_p r /\ rg_holes (region_copy r) = rg_holes r /\
    pg_points (rg_poly (region_copy r)) = pg_points (rg_poly r) /\ pg_area (rg_poly (region_copy r)) = pg_area (rg_poly r) /\
    pg_diam (rg_poly (region_copy r)) = pg_diam (rg_poly r) /\ pg_cen (rg_poly (region_copy r)) = pg_cen (rg_poly r).
  Proof. repeat split. Qed.
  Lemma copy_answers (r : region N) :
    (forall tol q, region_containsPoint tol (region_copy r) q = region_containsPoint tol r q) /\
    (forall tol q, in_domain tol (region_copy r) q <-> in_domain tol r q) /\
    (forall s, region_getSegments (region_copy r) s = region_getSegments r s) /\
    getRegionPoints (region_copy r) = getRegionPoints r /\ getBox (region_copy r) = getBox r.
  Proof. repeat split; intros; try reflexivity; destruct H; assumption. Qed.
End Segments.

(** * The integer grid (C41, C42) *)
Section GridProofs.
  Local Open Scope R_scope.
  Notation Pt := (Point RNum).
  Lemma Rtrunc_truncates x : truncates x (Rtrunc x).
  Proof.
    unfold truncates. destruct (Rle_lt_dec 0 x) as [H|H].
    - destruct (Rtrunc_pos x H) as [H1 H2]. apply IZR_le in H2. rewrite !Rabs_right by lra. split; [lra|nra].
    - destruct (Rtrunc_neg x ltac:(lra)) as [H1 H2]. apply IZR_le in H2. rewrite (Rabs_left x) by lra. rewrite Rabs_left1 by lra. split; [lra|nra].
  Qed.
  Lemma truncates_unique x k k' : truncates x k -> truncates x k' -> k = k'.
  Proof.
    intros [[H1 H2] H3] [[H4 H5] H6].
    assert (E : (Z.abs k = Z.abs k')%Z).
    { rewrite <- !abs_IZR in *. assert (A1 : IZR (Z.abs k) < IZR (Z.abs k' + 1)) by (rewrite plus_IZR; lra).
      assert (A2 : IZR (Z.abs k') < IZR (Z.abs k + 1)) by (rewrite plus_IZR; lra). apply lt_IZR in A1. apply lt_IZR in A2. lia. }
    destruct (Z.eq_dec k k') as [|Hne]; [assumption|]. assert (k' = - k)%Z by lia. subst k'. rewrite opp_IZR in *.
    assert (x * IZR k = 0) by nra. assert (IZR k <> 0). { intros Z0. apply (eq_IZR k 0) in Z0. lia. }
    assert (x = 0) by (apply Rmult_integral in H as [|]; [assumption|contradiction]). subst x. rewrite Rabs_R0 in H1.
    assert (0 < Rabs (IZR k)) by (apply Rabs_pos_lt; assumption). lra.
  Qed.
  Lemma in_int_range x : in_int (Rtrunc x) = true <-> -2147483649 < x < 2147483648.
  Proof.
    unfold in_int, int_min, int_max. rewrite andb_true_iff, !Z.leb_le.
    assert (UP : IZR (Rtrunc x) < 2147483648 <-> (Rtrunc x <= 2147483647)%Z).
    { split; intros H; [apply (lt_IZR _ 2147483648) in H; lia|]. apply IZR_le in H. lra. }
    assert (LO : -2147483649 < IZR (Rtrunc x) <-> (-2147483648 <= Rtrunc x)%Z).
    { split; intros H; [apply (lt_IZR (-2147483649)) in H; lia|]. apply IZR_le in H. lra. }
    destruct (Rle_lt_dec 0 x) as [H|H].
    - destruct (Rtrunc_pos x H) as [[H1 H2] H3]. rewrite <- UP. split.
      + intros [_ G]. split; [lra|]. assert (Rtrunc x <= 2147483647)%Z by (apply UP; exact G). apply IZR_le in H0. lra.
      + intros [_ G]. split; [lia|lra].
    - destruct (Rtrunc_neg x ltac:(lra)) as [[H1 H2] H3]. rewrite <- LO. split.
      + intros [G _]. split; [|lra]. assert (-2147483648 <= Rtrunc x)%Z by (apply LO; exact G). apply IZR_le in H0. lra.
      + intros [G _]. split; [lra|lia].
  Qed.
  Lemma to_int_R x : (-2147483649 < x < 2147483648 -> to_int (N := RNum) x = Ok (Rtrunc x)) /\
    (~ (-2147483649 < x < 2147483648) -> to_int (N := RNum) x = Err (UB "double to int conversion overflow")).
  Proof.
    unfold to_int. cbn [ntrunc RNum]. rewrite <- in_int_range. destruct (in_int (Rtrunc x)); split; intros H; try reflexivity; [congruence|discriminate].
  Qed.
  Lemma fits_dec scale (v : Pt) : {fits scale v} + {~ fits scale v}.
  Proof.
    unfold fits. destruct (Rlt_dec (-2147483649) (IZR scale * px v)), (Rlt_dec (IZR scale * px v) 2147483648), (Rlt_dec (-2147483649) (IZR scale * py v)), (Rlt_dec (IZR scale * py v) 2147483648);
      [left; tauto|right; tauto..].
  Qed.
  Lemma scalePoint_R scale (v : Pt) :
    (fits scale v -> scalePoint (N := RNum) scale v = Ok (Rtrunc (IZR scale * px v), Rtrunc (IZR scale * py v))) /\
    (~ fits scale v -> scalePoint (N := RNum) scale v = Err (UB "double to int conversion overflow")).
  Proof.
    unfold fits, scalePoint. rnum. split.
    - intros [H1 H2]. rewrite (proj1 (to_int_R _) H1). cbn [bind]. rewrite (proj1 (to_int_R _) H2). reflexivity.
    - intros H. destruct (Rlt_dec (-2147483649) (IZR scale * px v)), (Rlt_dec (IZR scale * px v) 2147483648);
        try (rewrite (proj2 (to_int_R (IZR scale * px v))) by (intros [? ?]; contradiction); reflexivity).
      rewrite (proj1 (to_int_R (IZR scale * px v))) by auto. cbn [bind]. rewrite (proj2 (to_int_R (IZR scale * py v))) by tauto. reflexivity.
  Qed.
  Lemma scale_list scale (l : list Pt) :
    ((forall v, In v l -> fits scale v) -> exists S, mapM (scalePoint (N := RNum) scale) l = Ok S /\ Forall2 (on_grid scale) l S) /\
    ((exists v, In v l /\ ~ fits scale v) -> mapM (scalePoint (N := RNum) scale) l = Err (UB "double to int conversion overflow")).
  Proof.
    induction l as [|v l [IH1 IH2]]; split.
    - intros _. exists []. split; [reflexivity|constructor].
    - intros (v & [] & _).
    - intros H. destruct IH1 as (S & E & HS); [intros; apply H; right; assumption|].
      cbn [mapM]. rewrite (proj1 (scalePoint_R scale v)) by (apply H; left; reflexivity). cbn [bind]. rewrite E. cbn [bind].
      eexists. split; [reflexivity|]. constructor; [|exact HS]. split; apply Rtrunc_truncates.
    - intros (w & [->|Hw] & Hf); cbn [mapM].
      + rewrite (proj2 (scalePoint_R scale w) Hf). reflexivity.
      + destruct (fits_dec scale v) as [Hv|Hv].
        * rewrite (proj1 (scalePoint_R scale v) Hv). cbn [bind]. rewrite IH2 by eauto. reflexivity.
        * rewrite (proj2 (scalePoint_R scale v) Hv). reflexivity.
  Qed.
  Lemma unscale_list scale path : scale <> 0%Z -> mapM (unscalePoint (N := RNum) scale) path = Ok (map (off_grid scale) path).
  Proof.
    intros Hs. apply mapM_pure. intros k _. unfold unscalePoint, divr, off_grid. rnum.
    assert (NZ : IZR scale <> 0) by (intros H; apply (eq_IZR scale 0) in H; contradiction).
    rewrite !Reqb_false by (rewrite Rmult_1_l; exact NZ). cbn [bind]. rewrite Rmult_1_l. reflexivity.
  Qed.
  Lemma grid_functional scale (v : Pt) k k' : on_grid scale v k -> on_grid scale v k' -> k = k'.
  Proof.
    intros [H1 H2] [H3 H4]. destruct k, k'. cbn in *. f_equal; eapply truncates_unique; eassumption.
  Qed.

  (** C42 *)
  Lemma grid_coordinate scale x k : (0 < scale)%Z -> truncates (IZR scale * x) k ->
    Rabs (IZR k / IZR scale - x) < 1 / IZR scale /\ Rabs (IZR k / IZR scale) <= Rabs x /\ 0 <= x * (IZR k / IZR scale) /\
    (forall m : Z, x = IZR m / IZR scale -> IZR k / IZR scale = x).
  Proof.
    intros Hs HT. apply (IZR_lt 0) in Hs. set (s := IZR scale) in *.
    assert (HI : 0 < / s) by (apply Rinv_0_lt_compat; exact Hs).
    pose proof HT as [[H1 H2] H3]. rewrite Rabs_mult, (Rabs_right s) in H1, H2 by lra.
    assert (P : 0 <= x * IZR k) by nra.
    assert (D : Rabs (IZR k - s * x) < 1).
    { assert (HX : IZR k - s * x = 0 \/ IZR k - s * x <> 0) by lra.
      destruct (Rle_lt_dec 0 x) as [Hx|Hx].
      - rewrite (Rabs_right x) in * by lra. destruct (Rle_lt_dec 0 (IZR k)) as [Hk|Hk].
        + rewrite (Rabs_right (IZR k)) in * by lra. unfold Rabs. destruct (Rcase_abs _); nra.
        + rewrite (Rabs_left (IZR k)) in * by lra. assert (x = 0) by nra. subst x. lra.
      - rewrite (Rabs_left x) in * by lra. destruct (Rle_lt_dec (IZR k) 0) as [Hk|Hk].
        + rewrite (Rabs_left1 (IZR k)) in * by lra. unfold Rabs. destruct (Rcase_abs _); nra.
        + exfalso. nra. }
    repeat split.
    - replace (IZR k / s - x) with ((IZR k - s * x) * / s) by (field; lra). rewrite Rabs_mult, (Rabs_right (/ s)) by lra. unfold Rdiv. nra.
    - unfold Rdiv. rewrite Rabs_mult, (Rabs_right (/ s)) by lra.
      apply (Rmult_le_reg_r s); [exact Hs|]. rewrite Rmult_assoc, Rinv_l by lra. lra.
    - unfold Rdiv. rewrite <- Rmult_assoc. nra.
    - intros m E. assert (EK : s * x = IZR m) by (rewrite E; field; lra). rewrite EK in HT.
      assert (k = m). { apply (truncates_unique (IZR m)); [exact HT|]. rewrite <- (Rtrunc_IZR m) at 2. apply Rtrunc_truncates. }
      subst k. symmetry. exact E.
  Qed.
  Lemma roundtrip scale (v : Pt) : (0 < scale)%Z -> fits scale v ->
    exists k v', scalePoint (N := RNum) scale v = Ok k /\ unscalePoint (N := RNum) scale k = Ok v' /\
      Rabs (px v' - px v) < 1 / IZR scale /\ Rabs (py v' - py v) < 1 / IZR scale /\
      Rabs (px v') <= Rabs (px v) /\ Rabs (py v') <= Rabs (py v) /\ 0 <= px v * px v' /\ 0 <= py v * py v' /\
      (forall m : Z, px v = IZR m / IZR scale -> px v' = px v) /\ (forall m : Z, py v = IZR m / IZR scale -> py v' = py v).
  Proof.
    intros Hs Hf. eexists. exists (off_grid scale (Rtrunc (IZR scale * px v), Rtrunc (IZR scale * py v))).
    split; [apply (proj1 (scalePoint_R scale v) Hf)|]. split.
    - pose proof (unscale_list scale [(Rtrunc (IZR scale * px v), Rtrunc (IZR scale * py v))] ltac:(lia)) as E. cbn [mapM map] in E.
      destruct (unscalePoint _ _); cbn in E; [|discriminate]. injection E as ->. reflexivity.
    - unfold off_grid. cbn [fst snd px py].
      destruct (grid_coordinate scale (px v) _ Hs (Rtrunc_truncates _)) as (A1 & A2 & A3 & A4).
      destruct (grid_coordinate scale (py v) _ Hs (Rtrunc_truncates _)) as (B1 & B2 & B3 & B4).
      repeat split; assumption.
  Qed.

  (** C41 *)
  Lemma addHole_out_of_range clip cf (r : region RNum) (h : hole RNum) :
    (exists v, In v (rg_p r ++ h_points h) /\ ~ fits (cf_scale cf) v) ->
    addHole clip cf r h = (r, Err (UB "double to int conversion overflow")).
  Proof.
    intros (v & Hv & Hf). unfold addHole. apply in_app_or in Hv as [Hv|Hv].
    - rewrite (proj2 (scale_list (cf_scale cf) (rg_p r))) by eauto. reflexivity.
    - destruct (mapM _ (rg_p r)) as [S|e] eqn:E.
      + rewrite (proj2 (scale_list (cf_scale cf) (h_points h))) by eauto. reflexivity.
      + assert (e = UB "double to int conversion overflow"); [|congruence].
        assert (X : (exists v, In v (rg_p r) /\ ~ fits (cf_scale cf) v) \/ forall v, In v (rg_p r) -> fits (cf_scale cf) v).
        { generalize (rg_p r). intros l. induction l as [|w l IH]; [right; intros ? []|].
          destruct (fits_dec (cf_scale cf) w) as [Hw|Hw]; [|left; exists w; cbn; auto].
          destruct IH as [(u & Hu & Hu')|IH]; [left; exists u; cbn; auto|]. right. intros u [<-|Hu]; auto. }
        destruct X as [X|X].
        * rewrite (proj2 (scale_list (cf_scale cf) (rg_p r)) X) in E. congruence.
        * destruct (proj1 (scale_list (cf_scale cf) (rg_p r)) X) as (S & E' & _). rewrite E' in E. discriminate.
  Qed.

  Lemma addHole_outcomes clip cf (r : region RNum) (h : hole RNum) : cf_scale cf <> 0%Z -> region_made r ->
    (forall v, In v (rg_p r ++ h_points h) -> fits (cf_scale cf) v) ->
    exists S H, Forall2 (on_grid (cf_scale cf)) (rg_p r) S /\ Forall2 (on_grid (cf_scale cf)) (h_points h) H /\
    let r' := fst (addHole clip cf r h) in let o := snd (addHole clip cf r h) in
    (forall path, clip S H = [path] ->
       rg_p r' = map (off_grid (cf_scale cf)) path /\ pg_points (rg_poly r') = trivialIndex (length path) /\
       rg_holes r' = rg_holes r /\ rg_seeds r' = rg_seeds r /\
       (self_crossing_outline (cf_tol cf) (rg_p r') -> o = Err (Throw "Self intersecting polygons are not supported")) /\
       (~ self_crossing_outline (cf_tol cf) (rg_p r') -> o = Ok tt)) /\
    (length (clip S H) <> 1%nat ->
       (region_containsPoint (N := RNum) (cf_tol cf) r (h_center h) = Ok true ->
          o = Ok tt /\ r' = mkRegion (rg_poly r) (rg_p r) (rg_holes r ++ [h]) (rg_seeds r)) /\
       (region_containsPoint (N := RNum) (cf_tol cf) r (h_center h) = Ok false ->
          o = Err (Throw "Hole lies completely outside of domain region") /\ r' = r)).
  Proof.
    intros Hs HM Hf.
    destruct (proj1 (scale_list (cf_scale cf) (rg_p r))) as (S & ES & HS); [intros; apply Hf, in_or_app; auto|].
    destruct (proj1 (scale_list (cf_scale cf) (h_points h))) as (H & EH & HH); [intros; apply Hf, in_or_app; auto|].
    exists S, H. split; [exact HS|]. split; [exact HH|]. cbn zeta. unfold addHole. rewrite ES, EH. split.
    - intros path ->. rewrite unscale_list by exact Hs.
      pose proof (mutate_char (N := RNum) (cf_tol cf) r (map (off_grid (cf_scale cf)) path)) as MC. cbn zeta in MC.
      destruct MC as (M1 & M2 & M3 & M4 & M5 & M6). rewrite map_length in M2. split; [exact M1|]. split; [exact M2|]. split; [exact M3|]. split; [exact M4|].
      rewrite M1. split.
      + intros X. apply M5. exact X.
      + intros X. apply M6. exact X.
    - intros HL. unfold region_containsPoint. destruct (clip S H) as [|p1 [|p2 l]]; [|cbn in HL; lia|].
      + split; intros E; rewrite E; auto.
      + split; intros E; rewrite E; auto.
  Qed.

  Lemma addHole_disjoint clip cf (r : region RNum) (h : hole RNum) : (0 < cf_scale cf)%Z -> region_made r ->
    (forall v, In v (rg_p r ++ h_points h) -> fits (cf_scale cf) v) ->
    (forall S H, Forall2 (on_grid (cf_scale cf)) (rg_p r) S -> Forall2 (on_grid (cf_scale cf)) (h_points h) H -> clip S H = [S]) ->
    let r' := fst (addHole clip cf r h) in
    snd (addHole clip cf r h) <> Err (Throw "Hole lies completely outside of domain region") /\
    rg_holes r' = rg_holes r /\
    Forall2 (fun v v' : Pt => exists k, on_grid (cf_scale cf) v k /\ v' = off_grid (cf_scale cf) k) (rg_p r) (rg_p r').
  Proof.
    intros Hs HM Hf HC. destruct (addHole_outcomes clip cf r h ltac:(lia) HM Hf) as (S & H & HS & HH & G). cbn zeta in *. destruct G as [G _].
    destruct (G S (HC S H HS HH)) as (G1 & _ & G3 & _ & G5 & G6). split; [|split; [exact G3|]].
    - intros E. rewrite E in G5, G6.
      assert (X : ~ self_crossing_outline (cf_tol cf) (rg_p (fst (addHole clip cf r h)))) by (intros X; discriminate (G5 X)).
      discriminate (G6 X).
    - rewrite G1. clear - HS. induction HS; cbn; constructor; eauto.
  Qed.
End GridProofs.

(** * C40 *)
Section Ignored.
  Context {N : Num}.
  Lemma contains_ignores_hole clip cf (r : region N) h r' : addHole clip cf r h = (r', Ok tt) -> rg_holes r' <> rg_holes r ->
    rg_holes r' = rg_holes r ++ [h] /\ forall tol q, region_containsPoint tol r' q = region_containsPoint tol r q.
  Proof.
    unfold addHole. destruct (mapM _ (rg_p r)) as [s|]; [|discriminate]. destruct (mapM _ (h_points h)) as [c|]; [|discriminate].
    assert (G : forall o : res bool, match o with
                | Err e => (r, Err e)
                | Ok true => (mkRegion (rg_poly r) (rg_p r) (rg_holes r ++ [h]) (rg_seeds r), Ok tt)
                | Ok false => (r, Err (Throw "Hole lies completely outside of domain region"))
                end = (r', Ok tt) -> rg_holes r' = rg_holes r ++ [h] /\ forall tol q, region_containsPoint tol r' q = region_containsPoint tol r q).
    { intros [[|]|] E; try discriminate. injection E as <-. split; reflexivity. }
    destruct (clip s c) as [|path [|path2 l]]; intros E Hne; [exact (G _ E)| |exact (G _ E)].
    destruct (mapM _ path); [|discriminate]. exfalso. apply Hne. unfold region_mutate in E. destruct (polygon_mutate _ _ _). injection E as <- _. reflexivity.
  Qed.
  Lemma contains_any_holes tol (r : region N) hs q :
    region_containsPoint tol (mkRegion (rg_poly r) (rg_p r) hs (rg_seeds r)) q = region_containsPoint tol r q.
  Proof. reflexivity. Qed.
  (** C44 *)
  Lemma polygonal_center tol (p : list (Point N)) : exists h, polygonalHole tol p = Ok h /\ h_points h = p /\ px (h_center h) = nZ 0 /\ py (h_center h) = nZ 0.
  Proof. eexists. split; [apply polygonalHole_ok|]. repeat split. Qed.
  Lemma polygonal_accepted clip cf (r : region N) (p : list (Point N)) tol h S H : polygonalHole tol p = Ok h -> region_made r ->
    mapM (scalePoint (cf_scale cf)) (rg_p r) = Ok S -> mapM (scalePoint (cf_scale cf)) p = Ok H -> length (clip S H) <> 1%nat ->
    (region_containsPoint (cf_tol cf) r (mkP (nZ 0) (nZ 0)) = Ok true /\ snd (addHole clip cf r h) = Ok tt) \/
    (region_containsPoint (cf_tol cf) r (mkP (nZ 0) (nZ 0)) = Ok false /\
     snd (addHole clip cf r h) = Err (Throw "Hole lies completely outside of domain region")).
  Proof.
    intros EH HM ES EP HL. rewrite polygonalHole_ok in EH. injection EH as <-.
    unfold addHole. cbn [h_points h_center]. rewrite ES, EP.
    destruct (region_contains_total (cf_tol cf) r (mkP (nZ 0) (nZ 0)) HM) as [b Eb]. rewrite Eb. unfold region_containsPoint in Eb.
    assert (G : containsPoint (cf_tol cf) (pg_points (rg_poly r)) (rg_p r) point0 = Ok b) by exact Eb.
    destruct (clip S H) as [|p1 [|p2 l]]; [|cbn in HL; lia|]; rewrite G; destruct b; auto.
  Qed.
  (** C64 *)
  Lemma intersection_is_difference (clip : clip_type -> list (Z * Z) -> list (Z * Z) -> list (list (Z * Z))) (parent child : list (Point N)) scale S C :
    mapM (scalePoint scale) parent = Ok S -> mapM (scalePoint scale) child = Ok C ->
    (polyIntersection clip parent child scale = Ok (clip ctIntersection S C) <-> clip ctDifference S C = clip ctIntersection S C) /\
    polyIntersection clip parent child scale = Ok (clip ctDifference S C).
  Proof.
    intros ES EC. unfold polyIntersection. rewrite ES. cbn [bind]. rewrite EC. cbn [bind]. split; [|reflexivity]. split; intros H; [congruence|]. rewrite H. reflexivity.
  Qed.
End Ignored.

(** * C36 and C37, packaged *)
Section Packaged.
  Context {N : Num}.
  Lemma seeding_char (tol : nT N) (r : region N) : region_made r ->
    exists keep : Point N -> bool, (forall q, keep q = true <-> in_domain tol r q) /\
    (forall s, addSeedPoints tol r s = Ok (with_seeds r (filter keep s))) /\
    (forall s, addSeedsRead tol r s = Ok (with_seeds r (filter keep (rg_seeds r ++ s)))) /\
    (forall g nX nY r' g', generateSeedPoints tol r g nX nY = Ok (r', g') <->
       exists new, generate g [] (getBox r) nX nY = Ok (g', new) /\ r' = with_seeds r (filter keep (rg_seeds r ++ new))).
  Proof.
    intros H. exists (keeps tol r). split; [intros q; apply keeps_iff; exact H|]. split; [intros s; apply clean_char; exact H|].
    split; [intros s; apply clean_char; exact H|]. intros g nX nY r' g'. unfold generateSeedPoints. split.
    - intros E. apply bind_ok in E as ([g1 pts] & E & E2). apply generate_append in E as (new & E & ->).
      rewrite clean_char in E2 by exact H. cbn [bind] in E2. injection E2 as <- <-. exists new. auto.
    - intros (new & E & ->). rewrite (proj2 (generate_append g g' (rg_seeds r) (rg_seeds r ++ new) _ _ _)) by eauto. cbn [bind].
      rewrite clean_char by exact H. reflexivity.
  Qed.
  Lemma seeds_not_cleaned (r : region N) :
    (forall clip cf h, rg_seeds (fst (addHole clip cf r h)) = rg_seeds r) /\
    (forall tol pts, rg_seeds (fst (region_mutate tol r pts)) = rg_seeds r).
  Proof. split; intros; [apply addHole_seeds|apply mutate_seeds]. Qed.
  Lemma addSeeds_replaces (tol : nT N) (r : region N) old s : region_made r ->
    addSeedPoints tol (with_seeds r old) s = addSeedPoints tol r s /\
    exists r', addSeedPoints tol r s = Ok r' /\ incl (rg_seeds r') s.
  Proof.
    intros H. split; [reflexivity|]. destruct (seeding_char tol r H) as (keep & _ & E & _). rewrite E.
    eexists. split; [reflexivity|]. intros q Hq. apply filter_In in Hq. apply Hq.
  Qed.
  Lemma others_append (tol : nT N) (r : region N) s : region_made r ->
    (exists r', addSeedsRead tol r s = Ok r' /\ (forall q, In q (rg_seeds r) \/ In q s -> in_domain tol r q -> In q (rg_seeds r'))) /\
    (forall g nX nY r' g', generateSeedPoints tol r g nX nY = Ok (r', g') ->
       forall q, In q (rg_seeds r) -> in_domain tol r q -> In q (rg_seeds r')).
  Proof.
    intros H. destruct (seeding_char tol r H) as (keep & K & _ & E & G). split.
    - rewrite E. eexists. split; [reflexivity|]. intros q Hq HD. cbn. apply filter_In. split; [apply in_or_app; exact Hq|apply K; exact HD].
    - intros g nX nY r' g' HG q Hq HD. apply G in HG as (new & _ & ->). cbn. apply filter_In. split; [apply in_or_app; auto|apply K; exact HD].
  Qed.
End Packaged.
