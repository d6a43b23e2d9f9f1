(** The documented programs, from the domain to the file. *)
From Coq Require Import Reals Lra Lia ZArith SpecFloat List Bool Permutation Ascii.
From Verif Require Import Base Spec SpecNum MUtil MGeom MHull MPolygon MMaps MTriangle MGen MRegion MDelaunay MVoronoi MMesh MFormat MHist MFile MProgram.
From Verif Require Import Bridge BridgeNum BridgeHist BridgeVor64 Bridge64 BridgeProg.
From Verif Require Import PUtil PMaps PMesh PPoly2 PRegion PDelaunay PFan PDump PFile PPipe64 PReg64 PVoronoi PVor64 PVor64b PHist64 PFormat.
Import ListNotations.
Local Open Scope Z_scope.

(** ** The text of a mesh *)
Definition small (k : Z) : Prop := Z.abs k < 1000000.
Lemma fields_ints k ks : fields_of blank (print_int k ++ flat_map (fun j => space :: print_int j) ks) (map print_int (k :: ks)) /\
  ~ In newline (print_int k ++ flat_map (fun j => space :: print_int j) ks).
Proof.
  assert (E : flat_map (fun j => space :: print_int j) ks = flat_map (fun g => space :: g) (map print_int ks)).
  { induction ks as [|j ks IH]; [reflexivity|]. cbn [flat_map map]. rewrite IH. reflexivity. }
  assert (F : Forall field (print_int k :: map print_int ks)).
  { constructor; [apply print_int_field|]. apply Forall_forall. intros x Hx. apply in_map_iff in Hx as (j & <- & _). apply print_int_field. }
  rewrite E. split; [apply fields_line|apply line_no_newline]; exact F.
Qed.
Lemma ints_text ks : Forall2 integer_text (map print_int ks) ks.
Proof. induction ks; cbn [map]; constructor; [apply print_int_text|assumption]. Qed.

Lemma printed_rows {N : Num} (fmt : nT N -> text) (pts : list (Point N)) (es : list iseg) (polys : list (list Z)) :
  (forall x, field (fmt x)) -> Forall (fun e : iseg => small (fst e) /\ small (snd e)) es ->
  Forall (fun ks => zlen ks < 1000000 /\ Forall small ks) polys -> mesh_text fmt pts es polys (printInStream fmt pts es polys).
Proof.
  intros FMT HE HP.
  exists (print_int (zlen pts)), (print_int (zlen es)), (print_int (zlen polys)),
    (map (fun q : Point N => [fmt (px q); fmt (py q)]) pts), (map (fun e : iseg => map print_int [fst e; snd e]) es), (map (fun ks => map print_int (zlen ks :: ks)) polys).
  assert (LP : forall q : Point N, fields_of blank (point_string fmt q) [fmt (px q); fmt (py q)] /\ ~ In newline (point_string fmt q)).
  { intros q. assert (F : Forall field (fmt (px q) :: [fmt (py q)])) by (repeat constructor; apply FMT).
    assert (E : point_string fmt q = fmt (px q) ++ flat_map (fun g => space :: g) [fmt (py q)]) by (unfold point_string; cbn [flat_map]; rewrite app_nil_r; reflexivity).
    rewrite E. split; [apply fields_line|apply line_no_newline]; exact F. }
  assert (LE : forall e, In e es -> fields_of blank (iseg_string e) (map print_int [fst e; snd e]) /\ ~ In newline (iseg_string e)).
  { intros e He. rewrite Forall_forall in HE. destruct (HE e He) as [H1 H2]. unfold iseg_string. rewrite !print_g_small by assumption.
    replace (print_int (fst e) ++ space :: print_int (snd e)) with (print_int (fst e) ++ flat_map (fun j => space :: print_int j) [snd e]) by (cbn [flat_map]; rewrite app_nil_r; reflexivity).
    apply fields_ints. }
  assert (LC : forall ks, In ks polys -> fields_of blank (polygon_string ks) (map print_int (zlen ks :: ks)) /\ ~ In newline (polygon_string ks)).
  { intros ks Hk. rewrite Forall_forall in HP. destruct (HP ks Hk) as [H1 H2]. unfold polygon_string. rewrite print_g_small by (unfold zlen in *; lia).
    replace (flat_map (fun k => space :: print_g k) ks) with (flat_map (fun j => space :: print_int j) ks); [apply fields_ints|].
    clear - H2. induction ks as [|k ks IH]; [reflexivity|]. inversion_clear H2. cbn [flat_map]. rewrite print_g_small by assumption. rewrite IH by assumption. reflexivity. }
  assert (LN : forall n, fields_of blank (print_int n) [print_int n] /\ ~ In newline (print_int n)).
  { intros n. pose proof (fields_ints n []) as H. cbn [flat_map map] in H. rewrite app_nil_r in H. exact H. }
  split; [|split; [apply print_int_text|split; [apply print_int_text|split; [apply print_int_text|]]]].
  - exists (mesh_lines fmt pts es polys). split; [reflexivity|]. unfold mesh_lines. split.
    + constructor; [apply LN|]. apply Forall_app. split; [apply Forall_forall; intros x Hx; apply in_map_iff in Hx as (q & <- & _); apply LP|].
      constructor; [apply LN|]. apply Forall_app. split; [apply Forall_forall; intros x Hx; apply in_map_iff in Hx as (q & <- & Hq); apply (LE q Hq)|].
      constructor; [apply LN|]. apply Forall_forall; intros x Hx; apply in_map_iff in Hx as (q & <- & Hq); apply (LC q Hq).
    + assert (FM : forall A (f : A -> text) g l, (forall a, In a l -> fields_of blank (f a) (g a)) -> Forall2 (fields_of blank) (map f l) (map g l)).
      { intros A f g l H. induction l as [|a l IH]; cbn [map]; constructor; [apply H; left; reflexivity|apply IH; intros b Hb; apply H; right; exact Hb]. }
      constructor; [apply LN|]. apply Forall2_app; [apply FM; intros q _; apply LP|].
      constructor; [apply LN|]. apply Forall2_app; [apply FM; intros q Hq; apply (LE q Hq)|].
      constructor; [apply LN|]. apply FM; intros q Hq; apply (LC q Hq).
  - assert (FM : forall A B (R : A -> B -> Prop) (g : A -> B) l, (forall a, R a (g a)) -> Forall2 R l (map g l)).
    { intros A B R g l H. induction l; cbn [map]; constructor; auto. }
    split; [apply FM; reflexivity|]. split; [apply FM; intros s; apply (ints_text [fst s; snd s])|apply FM; intros ks; apply (ints_text (zlen ks :: ks))].
Qed.

(** ** The edges of the two meshes *)
Lemma lists_keys (m : segmap) (es : list iseg) : keys_ok m -> Permutation es (map fst m) -> lists_once (fun s => um_find iseg_eqb s m) es.
Proof.
  intros K P. split.
  - eapply Permutation_NoDup; [apply Permutation_sym, Permutation_map; exact P|exact K].
  - intros s. split.
    + intros H. apply (Permutation_in _ (Permutation_map canon P)) in H. intros E. exact (um_find_none s m E H).
    + intros H. destruct (um_find iseg_eqb s m) as [n|] eqn:E; [|congruence]. destruct (entry_found m s n E) as (s' & C & I).
      rewrite <- C. apply in_map. apply (Permutation_in _ (Permutation_sym P)). apply (in_map fst) in I. exact I.
Qed.

Lemma voronoi_keys {N : Num} (tol : nT N) fuel (o : trout N) d m :
  triangulation (zlen (o_points o)) (map fst (o_edges o)) (o_tris o) -> read_output tol o = Ok d ->
  (forall v, In v (flat_map corners (o_tris o)) -> (exists ws ts, closed_fan (map fst (o_edges o)) (o_tris o) v ws ts) \/
     (exists w ws w' ts, open_fan (o_edges o) (o_tris o) v w ws w' ts)) ->
  (length (o_tris o) < fuel)%nat -> voronoi tol fuel d = Ok m -> keys_ok (ms_edges m).
Proof.
  intros T H HF Lf V. pose proof (read_output_ok tol o d T H) as O.
  destruct (cells_total tol o d T O fuel (dedup (flat_map corners (o_tris o))) Lf) with (c := 0) (cc := dl_circumcenters d) (m := @nil (iseg * nbseg)) (pm := @nil (Point N * list Z))
    as (gs & cc & pm & B & X & F).
  - apply Forall_forall. intros v Hv. apply HF. apply (proj1 (dedup_in _ _)). assumption.
  - apply (oo_cc _ _ _ O).
  - apply ext_refl.
  - unfold voronoi in V. rewrite (oo_real _ _ _ O) in V. fold (dedup (flat_map corners (o_tris o))) in V. rewrite B in V. cbn [bind] in V.
    injection V as <-. cbn [ms_edges]. change (@nil (iseg * nbseg)) with (sm_run []). rewrite (register_all_run (map snd gs) 0 []). apply run_keys.
Qed.

Lemma voronoi_small {N : Num} (tol : nT N) fuel (o : trout N) d m :
  triangulation (zlen (o_points o)) (map fst (o_edges o)) (o_tris o) -> read_output tol o = Ok d -> voronoi tol fuel d = Ok m ->
  zlen (ul_list (ms_points m)) < 1000000 ->
  Forall (fun e : iseg => small (fst e) /\ small (snd e)) (map fst (ms_edges m)) /\
  Forall (fun ks => zlen ks < 1000000 /\ Forall small ks) (map (fun g : polygon N => pg_points g) (ms_polygons m)).
Proof.
  intros T H V L. destruct (voronoi_cells tol fuel o d m T H V) as (C & _ & EL).
  assert (PS : forall g, In g (ms_polygons m) -> NoDup (pg_points g) /\ Forall (fun k => 0 <= k < zlen (ul_list (ms_points m))) (pg_points g)).
  { intros g Hg. clear EL. induction C as [|v g' vs gs (C1 & _ & C3) C IH]; [contradiction|]. destruct Hg as [<-|Hg]; [|exact (IH Hg)].
    split; [exact C1|]. eapply Forall_impl; [|exact C3]. intros k (y & x & Hy & _). unfold vertices_are in Hy. inversion Hy as [|? ? ? ? [H1 H2] _]; subst.
    assert (nth_error (ul_list (ms_points m)) (Z.to_nat k) <> None) as Hn by congruence. apply nth_error_Some in Hn. unfold zlen. lia. }
  assert (SM : forall g k, In g (ms_polygons m) -> In k (pg_points g) -> small k).
  { intros g k Hg Hk. destruct (PS g Hg) as [_ R]. rewrite Forall_forall in R. specialize (R k Hk). unfold small. lia. }
  split.
  - apply Forall_forall. intros s Hs. apply in_map_iff in Hs as ([s' n] & <- & Hs). unfold edges_linked in EL. rewrite Forall_forall in EL.
    destruct (EL _ Hs) as (c & _ & (l & _ & Hl & I1 & I2) & _). cbn [fst] in *. apply nth_error_In in Hl. apply in_map_iff in Hl as (g & <- & Hg).
    split; eapply SM; eassumption.
  - apply Forall_forall. intros ks Hks. apply in_map_iff in Hks as (g & <- & Hg). destruct (PS g Hg) as [ND R]. split; [|apply Forall_forall; intros k Hk; exact (SM g k Hg Hk)].
    assert (I : incl (map Z.to_nat (pg_points g)) (seq 0 (length (ul_list (ms_points m))))).
    { intros i Hi. apply in_map_iff in Hi as (k & <- & Hk). rewrite Forall_forall in R. specialize (R k Hk). apply in_seq. unfold zlen in R. lia. }
    assert (ND' : NoDup (map Z.to_nat (pg_points g))).
    { rewrite Forall_forall in R. clear - ND R. induction ND as [|k ks Hk ND IH]; cbn [map]; constructor.
      - intros Hi. apply in_map_iff in Hi as (j & E & Hj). pose proof (R k (or_introl eq_refl)). pose proof (R j (or_intror Hj)). assert (j = k) by lia. congruence.
      - apply IH. intros j Hj. apply R. right. exact Hj. }
    pose proof (NoDup_incl_length ND' I) as LE. rewrite map_length, seq_length in LE. unfold zlen in *. lia.
Qed.

Lemma delaunay_keys {N : Num} (tol : nT N) (o : trout N) d :
  triangulation (zlen (o_points o)) (map fst (o_edges o)) (o_tris o) -> read_output tol o = Ok d ->
  map fst (dl_delaunayEdges d) = map fst (o_edges o).
Proof.
  intros T H. pose proof (read_output_ok tol o d T H) as O. rewrite (oo_map _ _ _ O), (oo_edges _ _ _ O). unfold delaunay_edges.
  assert (ND : NoDup (map canon (map fst (o_edges o)))).
  { pose proof (tg_once _ _ _ T) as U. revert U. generalize (map fst (o_edges o)). intros l U. apply NoDup_nth_error. intros i j Hi E.
    rewrite map_length in Hi. rewrite !nth_error_map in E. destruct (nth_error l i) as [a|] eqn:A; [|apply nth_error_None in A; lia].
    destruct (nth_error l j) as [b|] eqn:B; [|discriminate]. cbn [option_map] in E. assert (E' : canon a = canon b) by congruence. clear E. rename E' into E. apply (U i j a b A B).
    change same_side with iseg_eqb. rewrite iseg_eqb_canon. apply pair_eqb_iff. exact E. }
  assert (G : forall es m, NoDup (map canon (map fst m ++ map fst es)) ->
    map fst (fold_left (fun m e => sm_put iseg_eqb m (e_p1 e, e_p2 e) (nb_two (e_t1 e) (e_t2 e))) (map (edge_after (o_tris o)) es) m) = map fst m ++ map fst es).
  { induction es as [|e es IH]; intros m K; [cbn [map fold_left]; rewrite app_nil_r; reflexivity|]. cbn [map fold_left].
    assert (F : um_find iseg_eqb (fst e) m = None).
    { destruct (um_find iseg_eqb (fst e) m) as [n|] eqn:E; [|reflexivity]. exfalso. destruct (entry_found m _ n E) as (s' & C & I).
      rewrite map_app in K. cbn [map] in K. apply NoDup_remove_2 in K. apply K. apply in_or_app. left. rewrite <- C. apply in_map. apply (in_map fst) in I. exact I. }
    unfold sm_put at 2. cbn [edge_after e_p1 e_p2 e_t1 e_t2]. rewrite <- surjective_pairing, F. unfold um_add.
    assert (AP : forall n : nbseg, map fst (m ++ [(fst e, n)]) ++ map fst es = map fst m ++ map fst (e :: es)).
    { intros n. rewrite map_app. symmetry. apply (app_assoc (map fst m) [fst e] (map fst es)). }
    rewrite IH; [apply AP|]. eapply eq_ind; [exact K|]. f_equal. symmetry. apply AP. }
  apply (G (o_edges o) []). exact ND.
Qed.

(** ** The programs *)
Lemma mesh_program_correct (e m : Z) (tol : f64) fuel (triangulate : switches -> pslg F64 -> trout F64) (fmt : f64 -> text) (order : list iseg -> list iseg)
    (home : text) (d : disk) (name : text) (pts : list (Point F64)) (os : list (region_op F64)) (r0 r : region F64) :
  -199 <= e <= 200 -> 0 <= m <= 16 -> tolerance64 tol -> (forall x, field (fmt x)) -> (forall l, Permutation (order l) l) ->
  Forall op_built64 os -> region_ctor (N := F64) tol pts = Ok r0 -> region_run (N := F64) tol r0 os = Ok r ->
  clustered tol (fun q => In q (rg_seeds r ++ getRegionPoints r)) -> dk_writable d (home ++ slash :: name) = true ->
  plan64_run tol (mkPlan64 pts [] []) os (plan64_of r) /\
  exists inp, build_pslg (N := F64) tol (region_copy r) (rg_seeds r) [] = Ok inp /\
    (forall q, In q (rg_seeds r ++ getRegionPoints r) -> exists y, In (xy64 y) (in_points inp) /\ near64 tol y q) /\
    let o := triangulate swConforming inp in
    delaunay_answer64 e m tol o -> (length (o_tris o) < fuel)%nat ->
    exists d' v mm t, mesh_program (N := F64) tol fmt triangulate fuel order (Some home) d pts os name = Ok (d', (v, mm)) /\
      dk_text d' (home ++ slash :: name) = Some t /\ (forall p, p <> home ++ slash :: name -> dk_text d' p = dk_text d p) /\
      (forall p, dk_writable d' p = dk_writable d p) /\
      voronoiGenerator (N := F64) tol triangulate fuel (rg_seeds r) r = Ok (v, mm) /\
      (zlen (ul_list (ms_points v)) < 1000000 -> exists segs, lists_once (fun s => um_find iseg_eqb s (ms_edges v)) segs /\
        mesh_text (N := F64) fmt (ul_list (ms_points v)) segs (map (fun g : polygon F64 => pg_points g) (ms_polygons v)) t) /\
      (vertices_apart tol o -> vertices_stored_once tol o ->
       Forall2 (fun k (g : polygon F64) => forall ws ts, closed_fan (map fst (o_edges o)) (o_tris o) k ws ts ->
        exists site zs vs, vertices_are (map read_point (o_points o)) [k] [site] /\ vertices_are (ul_list (ms_points v)) (pg_points g) vs /\
          (strictly_convex zs \/ strictly_convex (rev zs)) /\ (forall x, voronoi_region (sites64 o) (xyv site) x <-> in_hull zs x) /\
          map xyv vs = map rounded zs)
        (dedup (flat_map corners (o_tris o))) (ms_polygons v)).
Proof.
  intros He Hm Ht FMT HO HB HC HR CL W.
  assert (Hp : plan64_of r0 = mkPlan64 pts [] []).
  { unfold region_ctor in HC. destruct (polygon_ctor_pts (N := F64) tol pts); [|discriminate]. cbn [bind] in HC. injection HC as <-. reflexivity. }
  destruct Ht as [Tf Tp]. assert (T0 : (0 < val tol)%R) by (eapply Rlt_le_trans; [|exact Tp]; apply Flocq.Core.Raux.bpow_gt_0).
  destruct (region_history64 tol Tf T0 os r0 r (rm_ctor _ _ _ HC) HB HR) as [MR PL]. rewrite Hp in PL. split; [exact PL|].
  assert (Ht : tolerance64 tol) by (split; assumption).
  destruct (generator64 e m tol fuel triangulate (rg_seeds r) r He Hm Ht MR CL) as (inp & E & C & G). exists inp. split; [exact E|]. split; [exact C|].
  cbv zeta in G |- *. set (o := triangulate swConforming inp) in *. intros D L. destruct (G D L) as (v & mm & VG & P1 & _ & IC & _).
  assert (VV : exists dl, read_output (N := F64) tol o = Ok dl /\ voronoi (N := F64) tol fuel dl = Ok v).
  { clear - VG E. unfold voronoiGenerator, ensure in VG. cbn [gen_ctor gn_data] in VG. unfold callTriangle in VG. cbn [gen_ctor gn_region gn_seeds] in VG. rewrite E in VG. fold o in VG.
    destruct (read_output (N := F64) tol o) as [dl|]; [|discriminate]. cbn [bind] in VG. destruct (initializeMesh (N := F64) tol _ dl) as [x|]; [|discriminate]. cbn [bind] in VG.
    destruct (voronoi (N := F64) tol fuel dl) as [v'|] eqn:Ev; [|discriminate]. cbn [bind] in VG. injection VG as <- _. exists dl. split; [reflexivity|exact Ev]. }
  destruct VV as (dl & RO & V). pose proof (d64_triangulation _ _ _ _ D) as T. pose proof (d64_fans _ _ _ _ D) as F.
  unfold mesh_program, make_domain. rewrite HC. cbn [bind]. rewrite HR. cbn [bind]. rewrite VG. cbn [bind]. unfold mesh_printInFile.
  set (segs := order (map fst (ms_edges v))).
  destruct (print_file_spec home d name (printInStream (N := F64) fmt (ul_list (ms_points v)) segs (map (fun g : polygon F64 => pg_points g) (ms_polygons v)))) as (d' & EP & TX & WR).
  rewrite EP. cbn [bind]. eexists d', v, mm, _. split; [reflexivity|]. split; [rewrite TX, W; destruct list_eq_dec; [reflexivity|congruence]|].
  split; [intros p Hp'; rewrite TX, W; destruct list_eq_dec; [congruence|reflexivity]|]. split; [exact WR|]. split; [reflexivity|]. split.
  - intros LP. exists segs. split; [apply lists_keys; [exact (voronoi_keys (N := F64) tol fuel o dl v T RO F L V)|apply HO]|].
    destruct (voronoi_small (N := F64) tol fuel o dl v T RO V LP) as [S1 S2]. apply (printed_rows (N := F64)); [exact FMT| |exact S2].
    apply Forall_forall. intros s Hs. rewrite Forall_forall in S1. apply S1. exact (Permutation_in _ (HO _) Hs).
  - intros VA VS. rewrite P1 in IC. exact (IC VA VS).
Qed.

Lemma triangulation_program_correct (e : Z) (tol : f64) (triangulate : switches -> pslg F64 -> trout F64) (fmt : f64 -> text) (order : list iseg -> list iseg)
    (home : text) (d : disk) (name : text) (pts : list (Point F64)) (os : list (region_op F64)) (r0 r : region F64) :
  -199 <= e <= 200 -> tolerance64 tol -> (forall x, field (fmt x)) -> (forall l, Permutation (order l) l) ->
  Forall op_built64 os -> region_ctor (N := F64) tol pts = Ok r0 -> region_run (N := F64) tol r0 os = Ok r ->
  clustered tol (fun q => In q (rg_seeds r ++ getRegionPoints r)) -> dk_writable d (home ++ slash :: name) = true ->
  exists inp, build_pslg (N := F64) tol (region_copy r) (rg_seeds r) [] = Ok inp /\
    (forall q, In q (rg_seeds r ++ getRegionPoints r) -> exists y, In (xy64 y) (in_points inp) /\ near64 tol y q) /\
    let o := triangulate swConstrained inp in
    triangulated64 e tol o ->
    exists d' t f, triangulation_program (N := F64) tol fmt triangulate order (Some home) d pts os name = Ok (d', t) /\
      dk_text d' (home ++ slash :: name) = Some f /\ (forall p, p <> home ++ slash :: name -> dk_text d' p = dk_text d p) /\
      (forall p, dk_writable d' p = dk_writable d p) /\
      ul_list (ms_points t) = map read_point (o_points o) /\
      (zlen (o_points o) < 1000000 -> exists segs, Permutation segs (map fst (o_edges o)) /\
        mesh_text (N := F64) fmt (map read_point (o_points o)) segs (map corners (o_tris o)) f).
Proof.
  intros He Ht FMT HO HB HC HR CL W. pose proof Ht as [Tf Tp]. assert (T0 : (0 < val tol)%R) by (eapply Rlt_le_trans; [|exact Tp]; apply Flocq.Core.Raux.bpow_gt_0).
  destruct (region_history64 tol Tf T0 os r0 r (rm_ctor _ _ _ HC) HB HR) as [MR _].
  destruct (pslg_doubles tol Ht (region_copy r) (rg_seeds r) [] (rm_copy _ MR)) as (pl & ss & rs & vs & E & _ & _ & C & _).
  { cbn [flat_map]. rewrite app_nil_r. exact CL. }
  eexists. split; [exact E|]. split.
  { intros q Hq. destruct (C q Hq) as (y & Hy & K). exists y. split; [|exact K]. cbn [in_points]. apply in_map. exact Hy. }
  cbn zeta. set (o := triangulate swConstrained _). intros [T G D S A].
  destruct (output_doubles e ltac:(lia) tol o T G D) as (dl & RO).
  destruct (mesh_doubles tol Ht o dl T RO S A) as (_ & t & _ & Et & _ & P1 & _ & P2 & _ & P3 & _).
  unfold triangulation_program, make_domain. rewrite HC. cbn [bind]. rewrite HR. cbn [bind].
  unfold gen_do, ensure. cbn [gen_ctor gn_data call_switches call_restricted]. unfold callTriangle. cbn [gen_ctor gn_region gn_seeds]. rewrite E. fold o. rewrite RO. cbn [bind snd]. rewrite Et. cbn [bind use].
  unfold mesh_printInFile. rewrite P1, P2, P3. set (segs := order (map fst (dl_delaunayEdges dl))).
  destruct (print_file_spec home d name (printInStream (N := F64) fmt (map read_point (o_points o)) segs (map corners (o_tris o)))) as (d' & EP & TX & WR).
  rewrite EP. cbn [bind]. eexists d', t, _. split; [reflexivity|]. split; [rewrite TX, W; destruct list_eq_dec; [reflexivity|congruence]|].
  split; [intros p Hp'; rewrite TX, W; destruct list_eq_dec; [congruence|reflexivity]|]. split; [exact WR|]. split; [exact P1|].
  intros L. exists segs. assert (PS : Permutation segs (map fst (o_edges o))).
  { unfold segs. etransitivity; [apply HO|]. rewrite (delaunay_keys (N := F64) tol o dl T RO). apply Permutation_refl. }
  split; [exact PS|]. apply (printed_rows (N := F64)); [exact FMT| |].
  - eapply Permutation_Forall; [apply Permutation_sym; exact PS|]. apply Forall_forall. intros s Hs.
    destruct s as [a b]. destruct (tg_ends _ _ _ T a b Hs) as [H1 H2]. unfold small. cbn [fst snd]. lia.
  - apply Forall_forall. intros ks Hk. apply in_map_iff in Hk as (g & <- & Hg). split; [destruct g as [[a b] c]; cbn; lia|].
    apply Forall_forall. intros k Hk. pose proof (corner_range _ _ _ k T ltac:(apply in_flat_map; exists g; split; assumption)). unfold small. lia.
Qed.

(** both programs on one domain, two files *)
Lemma square_program_correct (e m : Z) (tol : f64) fuel (triangulate : switches -> pslg F64 -> trout F64) (fmt : f64 -> text) (order : list iseg -> list iseg)
    (home : text) (d : disk) (name name_t : text) (pts : list (Point F64)) (os : list (region_op F64)) (r0 r : region F64) :
  -199 <= e <= 200 -> 0 <= m <= 16 -> tolerance64 tol -> (forall x, field (fmt x)) -> (forall l, Permutation (order l) l) ->
  Forall op_built64 os -> region_ctor (N := F64) tol pts = Ok r0 -> region_run (N := F64) tol r0 os = Ok r ->
  clustered tol (fun q => In q (rg_seeds r ++ getRegionPoints r)) -> name <> name_t ->
  dk_writable d (home ++ slash :: name) = true -> dk_writable d (home ++ slash :: name_t) = true ->
  exists inp, build_pslg (N := F64) tol (region_copy r) (rg_seeds r) [] = Ok inp /\
    let o := triangulate swConforming inp in let c := triangulate swConstrained inp in
    delaunay_answer64 e m tol o -> (length (o_tris o) < fuel)%nat -> triangulated64 e tol c ->
    exists d' v mm t f g, square_program (N := F64) tol fmt triangulate fuel order (Some home) d pts os name name_t = Ok (d', (v, t)) /\
      voronoiGenerator (N := F64) tol triangulate fuel (rg_seeds r) r = Ok (v, mm) /\
      dk_text d' (home ++ slash :: name) = Some f /\ dk_text d' (home ++ slash :: name_t) = Some g /\
      (forall p, p <> home ++ slash :: name -> p <> home ++ slash :: name_t -> dk_text d' p = dk_text d p) /\
      (zlen (ul_list (ms_points v)) < 1000000 -> exists segs, lists_once (fun s => um_find iseg_eqb s (ms_edges v)) segs /\
        mesh_text (N := F64) fmt (ul_list (ms_points v)) segs (map (fun g : polygon F64 => pg_points g) (ms_polygons v)) f) /\
      (zlen (o_points c) < 1000000 -> exists segs, Permutation segs (map fst (o_edges c)) /\
        mesh_text (N := F64) fmt (map read_point (o_points c)) segs (map corners (o_tris c)) g).
Proof.
  intros He Hm Ht FMT HO HB HC HR CL ND W W'.
  destruct (mesh_program_correct e m tol fuel triangulate fmt order home d name pts os r0 r He Hm Ht FMT HO HB HC HR CL W) as (_ & inp & E & _ & P).
  exists inp. split; [exact E|]. cbv zeta in P |- *. intros A L T. destruct (P A L) as (d1 & v & mm & f & R1 & F1 & O1 & WR & VG & X1 & _).
  destruct (triangulation_program_correct e tol triangulate fmt order home d1 name_t pts os r0 r He Ht FMT HO HB HC HR CL ltac:(rewrite WR; exact W')) as (inp' & E' & _ & Q).
  rewrite E in E'. injection E' as <-. cbv zeta in Q. destruct (Q T) as (d2 & t & g & R2 & F2 & O2 & _ & _ & X2).
  assert (NP : home ++ slash :: name <> home ++ slash :: name_t) by (intros K; apply app_inv_head in K; congruence).
  exists d2, v, mm, t, f, g. unfold square_program. rewrite R1. cbn [bind]. rewrite R2. cbn [bind]. split; [reflexivity|]. split; [exact VG|].
  split; [rewrite (O2 _ NP); exact F1|]. split; [exact F2|]. split; [intros p H1 H2; rewrite (O2 _ H2); exact (O1 _ H1)|]. split; [exact X1|exact X2].
Qed.

(** with the coordinates printed as the code prints them *)
Lemma mesh_program_correct64 : forall (e m : Z) (tol : f64) fuel (triangulate : switches -> pslg F64 -> trout F64) (order : list iseg -> list iseg)
    (home : text) (d : disk) (name : text) (pts : list (Point F64)) (os : list (region_op F64)) (r0 r : region F64),
  -199 <= e <= 200 -> 0 <= m <= 16 -> tolerance64 tol -> (forall l, Permutation (order l) l) ->
  Forall op_built64 os -> region_ctor (N := F64) tol pts = Ok r0 -> region_run (N := F64) tol r0 os = Ok r ->
  clustered tol (fun q => In q (rg_seeds r ++ getRegionPoints r)) -> dk_writable d (home ++ slash :: name) = true ->
  plan64_run tol (mkPlan64 pts [] []) os (plan64_of r) /\
  exists inp, build_pslg (N := F64) tol (region_copy r) (rg_seeds r) [] = Ok inp /\
    (forall q, In q (rg_seeds r ++ getRegionPoints r) -> exists y, In (xy64 y) (in_points inp) /\ near64 tol y q) /\
    let o := triangulate swConforming inp in
    delaunay_answer64 e m tol o -> (length (o_tris o) < fuel)%nat ->
    exists d' v mm t, mesh_program (N := F64) tol print_double triangulate fuel order (Some home) d pts os name = Ok (d', (v, mm)) /\
      dk_text d' (home ++ slash :: name) = Some t /\ (forall p, p <> home ++ slash :: name -> dk_text d' p = dk_text d p) /\
      (forall p, dk_writable d' p = dk_writable d p) /\
      voronoiGenerator (N := F64) tol triangulate fuel (rg_seeds r) r = Ok (v, mm) /\
      (zlen (ul_list (ms_points v)) < 1000000 -> exists segs, lists_once (fun s => um_find iseg_eqb s (ms_edges v)) segs /\
        mesh_text (N := F64) print_double (ul_list (ms_points v)) segs (map (fun g : polygon F64 => pg_points g) (ms_polygons v)) t) /\
      (vertices_apart tol o -> vertices_stored_once tol o ->
       Forall2 (fun k (g : polygon F64) => forall ws ts, closed_fan (map fst (o_edges o)) (o_tris o) k ws ts ->
        exists site zs vs, vertices_are (map read_point (o_points o)) [k] [site] /\ vertices_are (ul_list (ms_points v)) (pg_points g) vs /\
          (strictly_convex zs \/ strictly_convex (rev zs)) /\ (forall x, voronoi_region (sites64 o) (xyv site) x <-> in_hull zs x) /\
          map xyv vs = map rounded zs)
        (dedup (flat_map corners (o_tris o))) (ms_polygons v)).
Proof. intros. apply mesh_program_correct with (r0 := r0); try assumption. exact print_double_field. Qed.
Lemma triangulation_program_correct64 : forall (e : Z) (tol : f64) (triangulate : switches -> pslg F64 -> trout F64) (order : list iseg -> list iseg)
    (home : text) (d : disk) (name : text) (pts : list (Point F64)) (os : list (region_op F64)) (r0 r : region F64),
  -199 <= e <= 200 -> tolerance64 tol -> (forall l, Permutation (order l) l) ->
  Forall op_built64 os -> region_ctor (N := F64) tol pts = Ok r0 -> region_run (N := F64) tol r0 os = Ok r ->
  clustered tol (fun q => In q (rg_seeds r ++ getRegionPoints r)) -> dk_writable d (home ++ slash :: name) = true ->
  exists inp, build_pslg (N := F64) tol (region_copy r) (rg_seeds r) [] = Ok inp /\
    (forall q, In q (rg_seeds r ++ getRegionPoints r) -> exists y, In (xy64 y) (in_points inp) /\ near64 tol y q) /\
    let o := triangulate swConstrained inp in
    triangulated64 e tol o ->
    exists d' t f, triangulation_program (N := F64) tol print_double triangulate order (Some home) d pts os name = Ok (d', t) /\
      dk_text d' (home ++ slash :: name) = Some f /\ (forall p, p <> home ++ slash :: name -> dk_text d' p = dk_text d p) /\
      (forall p, dk_writable d' p = dk_writable d p) /\
      ul_list (ms_points t) = map read_point (o_points o) /\
      (zlen (o_points o) < 1000000 -> exists segs, Permutation segs (map fst (o_edges o)) /\
        mesh_text (N := F64) print_double (map read_point (o_points o)) segs (map corners (o_tris o)) f).
Proof. intros. apply triangulation_program_correct with (r0 := r0); try assumption. exact print_double_field. Qed.
Lemma square_program_correct64 : forall (e m : Z) (tol : f64) fuel (triangulate : switches -> pslg F64 -> trout F64) (order : list iseg -> list iseg)
    (home : text) (d : disk) (name name_t : text) (pts : list (Point F64)) (os : list (region_op F64)) (r0 r : region F64),
  -199 <= e <= 200 -> 0 <= m <= 16 -> tolerance64 tol -> (forall l, Permutation (order l) l) ->
  Forall op_built64 os -> region_ctor (N := F64) tol pts = Ok r0 -> region_run (N := F64) tol r0 os = Ok r ->
  clustered tol (fun q => In q (rg_seeds r ++ getRegionPoints r)) -> name <> name_t ->
  dk_writable d (home ++ slash :: name) = true -> dk_writable d (home ++ slash :: name_t) = true ->
  exists inp, build_pslg (N := F64) tol (region_copy r) (rg_seeds r) [] = Ok inp /\
    let o := triangulate swConforming inp in let c := triangulate swConstrained inp in
    delaunay_answer64 e m tol o -> (length (o_tris o) < fuel)%nat -> triangulated64 e tol c ->
    exists d' v mm t f g, square_program (N := F64) tol print_double triangulate fuel order (Some home) d pts os name name_t = Ok (d', (v, t)) /\
      voronoiGenerator (N := F64) tol triangulate fuel (rg_seeds r) r = Ok (v, mm) /\
      dk_text d' (home ++ slash :: name) = Some f /\ dk_text d' (home ++ slash :: name_t) = Some g /\
      (forall p, p <> home ++ slash :: name -> p <> home ++ slash :: name_t -> dk_text d' p = dk_text d p) /\
      (zlen (ul_list (ms_points v)) < 1000000 -> exists segs, lists_once (fun s => um_find iseg_eqb s (ms_edges v)) segs /\
        mesh_text (N := F64) print_double (ul_list (ms_points v)) segs (map (fun g : polygon F64 => pg_points g) (ms_polygons v)) f) /\
      (zlen (o_points c) < 1000000 -> exists segs, Permutation segs (map fst (o_edges c)) /\
        mesh_text (N := F64) print_double (map read_point (o_points c)) segs (map corners (o_tris c)) g).
Proof. intros. apply square_program_correct with (r0 := r0); try assumption. exact print_double_field. Qed.
