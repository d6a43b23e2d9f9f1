(** Proofs about seed files, the functors with noise or curves and DelaunayTriangulationGenerator. *)
From Coq Require Import Reals Lra Psatz Ascii.
From Verif Require Import Base Spec MUtil MGeom MTrig MHull MPolygon MMaps MTriangle MGen MRegion MDelaunay MMesh MFormat MMore Bridge BridgeNum
  PUtil PPoint PSegment PContains PPoly PPoly2 PHull PRegion PDelaunay PMesh PDecimal PMore.

(** * Seed files *)
Section SeedFiles.
  Context {N : Num}.
  Notation Point := (Point N).
  Variable atof : text -> nT N.
  Variable fmt : nT N -> text.
  Variable tol : nT N.
  Notation reread := (reread atof fmt).
  Notation printable := (printable fmt).

  Lemma no_newline_int n : ~ In newline (print_int n).
  Proof. apply field_no_newline. apply print_int_field. Qed.

  Lemma seed_lines (pts : list Point) rest : Forall printable pts -> zlen pts <= int_max ->
    read_seed_file atof (unlines (print_int (zlen pts) :: map (point_string fmt) pts) ++ rest) = Ok (map reread pts).
  Proof.
    intros H L. unfold read_seed_file. rewrite unlines_cons, <- app_assoc. cbn [app].
    rewrite getline_line by apply no_newline_int.
    rewrite atoi_print_int by (unfold zlen in *; unfold int_min in *; lia). cbn [bind].
    unfold zlen. rewrite Nat2Z.id.
    destruct (read_points_lines atof fmt pts H rest (print_int (Z.of_nat (length pts)))) as [l ->]. reflexivity.
  Qed.

  Lemma region_file (r r' : region N) : region_made r -> region_made r' ->
    Forall printable (getRegionPoints r ++ rg_seeds r) -> zlen (getRegionPoints r ++ rg_seeds r) <= int_max ->
    exists txt (keep : Point -> bool), region_print fmt r = Ok txt /\ (forall q, keep q = true <-> in_domain tol r' q) /\
      addSeedsFromFile atof tol r' txt = Ok (with_seeds r' (filter keep (rg_seeds r' ++ map reread (getRegionPoints r ++ rg_seeds r)))).
  Proof.
    intros M M' H L. destruct (region_segments r [] M) as (vs & segs & _ & Hseg & _). cbn [app] in Hseg.
    destruct (readSeeds_char tol r' (map reread (getRegionPoints r ++ rg_seeds r)) M') as (keep & K1 & K2).
    unfold region_print. rewrite Hseg. cbn [bind]. eexists. exists keep. split; [reflexivity|]. split; [assumption|].
    unfold addSeedsFromFile.
    match goal with |- context [read_seed_file _ ?t] => set (txt := t) end.
    assert (E : exists rest, txt = unlines (print_int (zlen (getRegionPoints r ++ rg_seeds r)) :: map (point_string fmt) (getRegionPoints r ++ rg_seeds r)) ++ rest).
    { eexists. subst txt. rewrite <- unlines_app, zlen_app, map_app. cbn [app]. rewrite <- !app_assoc. reflexivity. }
    destruct E as [rest ->]. rewrite seed_lines by assumption. cbn [bind]. assumption.
  Qed.

  Lemma take_line_last l : ~ In newline l -> forall acc, take_line l acc = (rev acc ++ l, [], true).
  Proof.
    induction l as [|c l IH]; intros H acc; cbn [take_line].
    - rewrite app_nil_r. reflexivity.
    - rewrite eqb_false by (intros ->; apply H; now left).
      rewrite IH by (intros Hi; apply H; now right). cbn [rev]. rewrite <- app_assoc. reflexivity.
  Qed.

  Lemma read_points_eof (q : Point) m rest : printable q ->
    exists st l, read_points atof m (mkStream rest true) (point_string fmt q) = Ok (repeat (reread q) m, st, l).
  Proof.
    intros Hq. destruct (point_line fmt q Hq) as [A B]. induction m as [|m (st & l & IH)]; [cbn; eauto|].
    cbn [read_points]. unfold getline at 1. cbn [st_eof]. rewrite A. cbn [vgetn vget nth_error bind Z.of_nat].
    cbn [repeat]. cbn. rewrite IH. cbn. eauto.
  Qed.

  Lemma read_points_more pts : Forall printable pts -> forall n rest old,
    exists l, read_points atof (length pts + n) (mkStream (unlines (map (point_string fmt) pts) ++ rest) false) old =
      ('(ps, st, l) <- read_points atof n (mkStream rest false) l ;; Ok (map reread pts ++ ps, st, l)).
  Proof.
    induction 1 as [|q pts Hq _ IH]; intros n rest old.
    - exists old. cbn. destruct (read_points atof n (mkStream rest false) old) as [[[? ?] ?]|]; reflexivity.
    - cbn [map length read_points Nat.add]. rewrite unlines_cons, <- app_assoc. cbn [app].
      destruct (point_line fmt q Hq) as [A B]. rewrite getline_line by assumption. rewrite A.
      destruct (IH n rest (point_string fmt q)) as [l Hl]. exists l. cbn. rewrite Hl.
      destruct (read_points atof n (mkStream rest false) l) as [[[? ?] ?]|]; reflexivity.
  Qed.

  (** the file announces [n] points and has fewer lines *)
  Lemma short_file (pts : list Point) (q : Point) n : Forall printable (pts ++ [q]) -> zlen (pts ++ [q]) <= n <= int_max ->
    read_seed_file atof (unlines (print_int n :: map (point_string fmt) pts) ++ point_string fmt q) =
      Ok (map reread pts ++ repeat (reread q) (Z.to_nat n - length pts)) /\
    (zlen (pts ++ [q]) < n -> exists msg,
      read_seed_file atof (unlines (print_int n :: map (point_string fmt) (pts ++ [q]))) = Err (UB msg)).
  Proof.
    intros H L. pose proof H as H'. apply Forall_app in H' as [Hp Hq]. inversion Hq as [|? ? Hq' _]; subst. clear Hq.
    rewrite zlen_app in L. unfold zlen in L. cbn [length] in L.
    assert (A : atoi (print_int n) = Ok n) by (apply atoi_print_int; unfold int_min in *; lia).
    split.
    - unfold read_seed_file. rewrite unlines_cons, <- app_assoc. cbn [app].
      rewrite getline_line by apply no_newline_int. rewrite A. cbn [bind].
      replace (Z.to_nat n) with (length pts + (Z.to_nat n - length pts))%nat at 1 by lia.
      destruct (read_points_more pts Hp (Z.to_nat n - length pts) (point_string fmt q) (print_int n)) as [l ->].
      destruct (Z.to_nat n - length pts)%nat as [|m] eqn:Em; [lia|].
      cbn [read_points]. unfold getline at 1. cbn [st_eof st_rest].
      destruct (point_line fmt q Hq') as [B C]. rewrite take_line_last by assumption. cbn [rev app]. rewrite B.
      destruct (read_points_eof q m [] Hq') as (st & l' & E). cbn. rewrite E. reflexivity.
    - rewrite zlen_app. unfold zlen. cbn [length]. intros L2. unfold read_seed_file. rewrite unlines_cons.
      rewrite getline_line by apply no_newline_int. rewrite A. cbn [bind].
      destruct (read_points_more (pts ++ [q]) H (Z.to_nat n - length (pts ++ [q])) [] (print_int n)) as [l E].
      rewrite app_nil_r in E. replace (length (pts ++ [q]) + (Z.to_nat n - length (pts ++ [q])))%nat with (Z.to_nat n) in E
        by (rewrite app_length; cbn [length]; lia).
      rewrite E. rewrite app_length. cbn [length].
      destruct (Z.to_nat n - (length pts + 1))%nat as [|m] eqn:Em; [lia|]. cbn. eauto.
  Qed.
End SeedFiles.

Lemma double_seed_file (tol : f64) (r r' : region F64) : region_made r -> region_made r' ->
  Forall (fun q => six_digit (@px F64 q) /\ six_digit (@py F64 q)) (getRegionPoints r ++ rg_seeds r) ->
  zlen (getRegionPoints r ++ rg_seeds r) <= int_max ->
  exists txt (keep : Point F64 -> bool), region_print (N := F64) print_double r = Ok txt /\ (forall q, keep q = true <-> in_domain (N := F64) tol r' q) /\
    addSeedsFromFile (N := F64) atof64 tol r' txt = Ok (with_seeds r' (filter keep (rg_seeds r' ++ map unmarked (getRegionPoints r ++ rg_seeds r)))).
Proof.
  intros M M' D L. rewrite <- (reread_points _ D). apply region_file; auto. apply points_printable.
Qed.

(** * Noise *)
Section Noise.
  Local Open Scope R_scope.
  Lemma noise_term_R (n : R) k : noise_term (N := RNum) n k = if Z.odd k then n else - n.
  Proof.
    unfold noise_term. rnum.
    assert ((Z.rem k 2 =? 0)%Z = negb (Z.odd k)) as ->.
    { rewrite Z.negb_odd. apply eq_true_iff_eq. rewrite Z.eqb_eq, Z.even_spec, Z.rem_divide by discriminate.
      split; intros [m ->]; exists m; lia. }
    destruct (Z.odd k); cbn; ring.
  Qed.

  Lemma noise_all (f : functor RNum) (o : nat -> R) xs : forall k0 F ys,
    apply_all (N := RNum) (FNoise f o k0) xs = Ok (F, ys) <->
    exists g zs, apply_all (N := RNum) f xs = Ok (g, zs) /\ F = FNoise g o (k0 + length xs) /\
      ys = map (fun p => snd p + o (k0 + fst p)%nat) (combine (seq 0 (length zs)) zs) /\ length zs = length xs.
  Proof.
    revert f; induction xs as [|x xs IH]; intros f k0 F ys; cbn [apply_all].
    - split.
      + intros E. injection E as <- <-. exists f, []. rewrite Nat.add_0_r. auto.
      + intros (g & zs & E & -> & -> & _). injection E as <- <-. rewrite Nat.add_0_r. reflexivity.
    - cbn [apply]. destruct (apply (N := RNum) f x) as [[f1 y]|e]; cbn [bind].
      + specialize (IH f1 (S k0)).
        assert (S1 : forall zs : list R, map (fun p : nat * R => snd p + o (k0 + fst p)%nat) (combine (seq 0 (length (y :: zs))) (y :: zs)) =
          (y + o k0) :: map (fun p : nat * R => snd p + o (S k0 + fst p)%nat) (combine (seq 0 (length zs)) zs)).
        { intros zs. cbn [length seq combine map fst snd]. rewrite Nat.add_0_r. f_equal.
          rewrite <- seq_shift.
          assert (G : forall (zs : list R) l, map (fun p : nat * R => snd p + o (k0 + fst p)%nat) (combine (map S l) zs) =
            map (fun p : nat * R => snd p + o (S k0 + fst p)%nat) (combine l zs)).
          { clear. induction zs as [|z zs IHz]; intros [|n l]; cbn [map combine fst snd]; try reflexivity.
            rewrite (IHz l), (Nat.add_succ_r k0 n). reflexivity. }
          apply (G zs). }
        split.
        * destruct (apply_all (N := RNum) (FNoise f1 o (S k0)) xs) as [[F' ys']|e] eqn:E; cbn [bind]; [|discriminate].
          intros H. injection H as <- <-. destruct (proj1 (IH F' ys') eq_refl) as (g & zs & -> & -> & -> & Hl). cbn [bind].
          exists g, (y :: zs). split; [reflexivity|]. split; [cbn [length]; rewrite Nat.add_succ_r; reflexivity|]. split; [|cbn [length]; rewrite Hl; reflexivity]. rewrite S1. reflexivity.
        * intros (g & zs & E & -> & -> & Hl). destruct (apply_all (N := RNum) f1 xs) as [[g' zs']|e] eqn:E'; cbn [bind] in E; [|discriminate].
          injection E as <- <-. cbn [length] in Hl.
          assert (X : apply_all (N := RNum) (FNoise f1 o (S k0)) xs = Ok (FNoise g' o (S k0 + length xs),
            map (fun p : nat * R => snd p + o (S k0 + fst p)%nat) (combine (seq 0 (length zs')) zs'))).
          { apply IH. exists g', zs'. injection Hl as Hl. auto. }
          rewrite X.
          cbn [bind]. rewrite S1. cbn [length]. rewrite Nat.add_succ_r. reflexivity.
      + split; [discriminate|]. intros (? & ? & H & _). discriminate.
  Qed.

  Lemma combine_seq_nth {A} (l : list A) : forall s i, nth_error (combine (seq s (length l)) l) i = option_map (fun a => ((s + i)%nat, a)) (nth_error l i).
  Proof.
    induction l as [|a l IH]; intros s [|i]; cbn; try reflexivity.
    - rewrite Nat.add_0_r. reflexivity.
    - rewrite IH. destruct (nth_error l i); cbn; [|reflexivity]. do 2 f_equal. lia.
  Qed.

  Lemma noise_history (f : functor RNum) (ns : nat -> R) (ks : nat -> Z) xs g zs : apply_all (N := RNum) f xs = Ok (g, zs) ->
    exists F ys, apply_all (N := RNum) (noise_functor (N := RNum) f ns ks) xs = Ok (F, ys) /\ length ys = length xs /\
      (forall i y z, nth_error ys i = Some y -> nth_error zs i = Some z ->
         y - z = (if Z.odd (ks i) then ns i else - ns i) /\
         (forall lo hi, (forall j, lo <= ns j <= hi) -> Rabs (y - z) <= Rmax (Rabs lo) (Rabs hi))).
  Proof.
    intros E.
    assert (L : length zs = length xs).
    { clear - E. revert f g zs E. induction xs as [|x xs IH]; intros f g zs E; cbn [apply_all] in E.
      - injection E as <- <-. reflexivity.
      - destruct (apply (N := RNum) f x) as [[f1 y]|]; cbn [bind] in E; [|discriminate].
        destruct (apply_all (N := RNum) f1 xs) as [[f2 ys]|] eqn:E1; cbn [bind] in E; [|discriminate].
        injection E as <- <-. cbn. f_equal. eapply IH; eassumption. }
    set (o := fun i => noise_term (N := RNum) (ns i) (ks i)).
    assert (HO : forall i, o i = if Z.odd (ks i) then ns i else - ns i) by (intros i; apply noise_term_R).
    change (noise_functor (N := RNum) f ns ks) with (@FNoise RNum f o 0). clearbody o.
    exists (FNoise g o (0 + length xs)), (map (fun p : nat * R => snd p + o (0 + fst p)%nat) (combine (seq 0 (length zs)) zs)).
    split; [apply noise_all; exists g, zs; auto|]. split; [rewrite map_length, combine_length, seq_length; lia|].
    intros i y z Hy Hz. change (nT RNum) with R in *. rewrite nth_error_map, combine_seq_nth, Hz in Hy. cbn in Hy. injection Hy as <-.
    rewrite HO. split; [destruct (Z.odd (ks i)); ring|].
    intros lo hi Hb. specialize (Hb i).
    replace (z + (if Z.odd (ks i) then ns i else - ns i) - z) with (if Z.odd (ks i) then ns i else - ns i) by ring.
    assert (Rabs (if Z.odd (ks i) then ns i else - ns i) = Rabs (ns i)) as -> by (destruct (Z.odd (ks i)); [reflexivity|apply Rabs_Ropp]).
    pose proof (Rmax_l (Rabs lo) (Rabs hi)). pose proof (Rmax_r (Rabs lo) (Rabs hi)).
    pose proof (Rle_abs (- lo)). rewrite Rabs_Ropp in *. pose proof (Rle_abs hi).
    unfold Rabs at 1. destruct (Rcase_abs (ns i)); lra.
  Qed.
End Noise.

(** * Curves *)
Section Curves.
  Local Open Scope R_scope.
  Lemma sine_form a f p x : sine_apply a f p x = a * sin (PI * f * x + p * PI / 180).
  Proof. unfold sine_apply, radian. do 2 f_equal. field. Qed.
  Lemma cosine_form a f p x : cosine_apply a f p x = a * cos (PI * f * x + p * PI / 180).
  Proof. unfold cosine_apply, radian. do 2 f_equal. field. Qed.
  Lemma sine_facts a f p x :
    sine_apply a f p x = a * sin (PI * f * x + p * PI / 180) /\
    cosine_apply a f p x = sine_apply a f (p + 90) x /\
    Rabs (sine_apply a f p x) <= Rabs a /\ Rabs (cosine_apply a f p x) <= Rabs a /\
    (f <> 0 -> sine_apply a f p (x + 1 / f) = - sine_apply a f p x /\ sine_apply a f p (x + 2 / f) = sine_apply a f p x).
  Proof.
    split; [apply sine_form|]. split.
    { rewrite cosine_form, sine_form. replace (PI * f * x + (p + 90) * PI / 180) with (PI / 2 + (PI * f * x + p * PI / 180)) by field.
      rewrite cos_sin. reflexivity. }
    split; [|split].
    - rewrite sine_form, Rabs_mult. pose proof (SIN_bound (PI * f * x + p * PI / 180)). pose proof (Rabs_pos a).
      assert (Rabs (sin (PI * f * x + p * PI / 180)) <= 1) by (apply Rabs_le; lra). nra.
    - rewrite cosine_form, Rabs_mult. pose proof (COS_bound (PI * f * x + p * PI / 180)). pose proof (Rabs_pos a).
      assert (Rabs (cos (PI * f * x + p * PI / 180)) <= 1) by (apply Rabs_le; lra). nra.
    - intros Hf. rewrite !sine_form. split.
      + replace (PI * f * (x + 1 / f) + p * PI / 180) with ((PI * f * x + p * PI / 180) + PI) by (field; assumption). rewrite neg_sin. ring.
      + replace (PI * f * (x + 2 / f) + p * PI / 180) with ((PI * f * x + p * PI / 180) + 2 * PI) by (field; assumption).
        rewrite sin_plus, sin_2PI, cos_2PI. ring.
  Qed.
  Lemma sine_doc_refuted : exists a f p x, sine_apply a f p x <> a * sin (f * x + p).
  Proof.
    exists 1, 1, 0, 1. rewrite sine_form. replace (PI * 1 * 1 + 0 * PI / 180) with PI by field. rewrite sin_PI.
    replace (1 * 1 + 0) with 1 by ring. pose proof PI2_3_2. pose proof (sin_gt_0 1). lra.
  Qed.
End Curves.

(** * DelaunayTriangulationGenerator *)
Section Triangulator.
  Variable tol : R.
  Hypothesis tol_pos : (0 < tol)%R.
  Notation Pt := (Point RNum).
  Notation lt := (pt_ltb (N := RNum) tol).
  Notation eqp := (pt_eqb (N := RNum) tol).

  Lemma fold_set_add_absorb (xs l : list Pt) : incl xs l -> (0 < tol)%R -> fold_left (set_add eqp) xs l = l.
  Proof.
    intros H T. induction xs as [|x xs IH]; [reflexivity|]. cbn [fold_left].
    assert (set_add eqp l x = l) as ->.
    { unfold set_add. assert (set_mem eqp x l = true) as ->; [|reflexivity].
      apply existsb_exists. exists x. split; [apply H; left; reflexivity|]. apply coincide_iff.
      unfold coincide. rewrite !Rminus_diag_eq, Rabs_R0 by reflexivity. auto. }
    apply IH. intros y Hy. apply H. right. assumption.
  Qed.

  Lemma pslg_of_polygon (r : region RNum) points idx vs : vertices_are points idx vs -> separated tol (fun q => In q points) -> all_apart tol points ->
    rg_p r = vs -> pg_points (rg_poly r) = trivialIndex (length vs) -> rg_holes r = [] ->
    build_pslg (N := RNum) tol r points [] = Ok (mkPslg (N := RNum) (map xy points) (edges_of idx) []).
  Proof.
    intros HV HS HA Hp Hi Hh. unfold build_pslg.
    assert (HR : getRegionPoints r = vs) by (unfold getRegionPoints; rewrite Hp, Hh; apply app_nil_r).
    rewrite HR. pose proof (pt_swo tol tol_pos _ HS) as W.
    destruct (ul_push_list lt ul_empty points) as [u1 i1] eqn:E1.
    destruct (ul_push_list_spec _ lt W ul_empty points u1 i1 (ul_inv_empty _ lt) (fun x H => H) E1) as (I1 & L1 & _ & _).
    assert (L : ul_list u1 = points) by (apply (push_apart tol tol_pos points u1 i1 HS HA E1)).
    assert (Hin : incl vs points).
    { intros v Hv. clear - HV Hv. induction HV as [|k w idx vs [_ H] _ IH]; [destruct Hv|]. destruct Hv as [<-|Hv]; [eapply nth_error_In; eassumption|auto]. }
    destruct (ul_push_list lt u1 vs) as [pl ri] eqn:E2.
    destruct (ul_push_list_spec _ lt W u1 vs pl ri I1 (fun x H => Hin x H) E2) as (I2 & L2 & _ & F2).
    rewrite L, (fold_set_add_equiv_R tol tol_pos), (fold_set_add_absorb vs points Hin tol_pos) in L2.
    assert (ri = idx).
    { rewrite L2 in F2. clear - HV F2 HA tol_pos. revert ri F2. induction HV as [|k w idx vs [Hk H] _ IH]; intros ri F2; inversion F2 as [|? i ? ri' (y & Y1 & Y2 & Y3) F2']; subst; [reflexivity|].
      f_equal; [|apply IH; assumption]. assert (Z.to_nat i = Z.to_nat k); [|lia].
      destruct (Nat.eq_dec (Z.to_nat i) (Z.to_nat k)) as [E|D]; [assumption|]. exfalso. apply (HA _ _ _ _ Y2 H D).
      apply (incomparable_coincide tol tol_pos). assumption. }
    subst ri. unfold region_getSegments. rewrite Hi, getSegments_edges, Hh. cbn [app bind fold_left fst map flat_map].
    assert (M : mapM (fun s : Z * Z => a <- vget idx (fst s);; b <- vget idx (snd s);; Ok (a, b)) (edges_of (trivialIndex (length vs))) = Ok (edges_of idx)).
    { assert (length vs = length idx) as -> by (symmetry; eapply Forall2_len; eassumption).
      clear. destruct idx as [|d idx']; [reflexivity|]. set (idx := d :: idx'). clearbody idx.
      assert (X : edges_of idx = edges_of (map (fun k => nth (Z.to_nat k) idx d) (trivialIndex (length idx)))).
      { f_equal. unfold trivialIndex. rewrite map_map. apply nth_error_ext. intros n. rewrite nth_error_map.
        destruct (Nat.lt_ge_cases n (length idx)) as [H|H].
        - rewrite (nth_error_nth' idx d H), (nth_error_nth' (seq 0 (length idx)) 0%nat) by (rewrite seq_length; assumption).
          rewrite seq_nth by assumption. cbn. rewrite Nat2Z.id. reflexivity.
        - rewrite !(proj2 (nth_error_None _ _)); [reflexivity| |assumption]. rewrite seq_length. assumption. }
      rewrite X, edges_of_map.
      assert (G : forall es, (forall e, In e es -> in_range idx [fst e; snd e]) ->
        mapM (fun s : Z * Z => a <- vget idx (fst s);; b <- vget idx (snd s);; Ok (a, b)) es = Ok (map (fun e => (nth (Z.to_nat (fst e)) idx d, nth (Z.to_nat (snd e)) idx d)) es)).
      { induction es as [|e es IH]; intros H; [reflexivity|]. cbn [mapM map].
        assert (V : forall k, 0 <= k < zlen idx -> vget idx k = Ok (nth (Z.to_nat k) idx d)).
        { intros k Hk. apply vget_ok. split; [lia|]. apply nth_error_nth'. unfold zlen in Hk. lia. }
        pose proof (H e (or_introl eq_refl)) as He. inversion He as [|? ? H1 He']; subst. inversion He' as [|? ? H2 _]; subst.
        rewrite (V _ H1), (V _ H2), IH by (intros; apply H; right; assumption). reflexivity. }
      apply G. intros e He.
      assert (A : forall a, In a (trivialIndex (length idx)) -> 0 <= a < zlen idx).
      { intros a Ha. apply in_map_iff in Ha as (n & <- & Hn). apply in_seq in Hn. unfold zlen. lia. }
      destruct e as [a b]. apply edge_in in He as [Ha Hb]. constructor; [apply A; assumption|]. constructor; [apply A; assumption|constructor]. }
    rewrite M. cbn [bind]. rewrite L2. cbn [map]. rewrite app_nil_r. reflexivity.
  Qed.

  Lemma delaunay_triangulate triangulate g0 idx points vs : vertices_are points idx vs -> separated tol (fun q => In q points) -> all_apart tol points ->
    (self_crossing_outline tol vs ->
       delaunayTriangulate (N := RNum) triangulate tol g0 idx points = Err (Throw "Self intersecting polygons are not supported")) /\
    (~ self_crossing_outline tol vs ->
       let o := triangulate swConstrained (mkPslg (N := RNum) (map xy points) (edges_of idx) []) in
       map fst (o_points o) = map xy points ->
       triangulation (zlen (o_points o)) (map fst (o_edges o)) (o_tris o) ->
       (forall t A B C, In t (o_tris o) -> vertices_are points (corners t) [A; B; C] -> orient (xy A) (xy B) (xy C) <> 0%R) ->
       exists ts, delaunayTriangulate (N := RNum) triangulate tol g0 idx points = Ok ts /\
         map (fun t : triangle RNum => pg_points (tr_poly t)) ts = map corners (o_tris o)).
  Proof.
    intros HV HS HA. unfold delaunayTriangulate, region_of_polygon.
    change (mapM (fun i => vpt points idx i) (seq 0 (length idx))) with (getPoints (N := RNum) idx points). rewrite (getPoints_vertices points idx vs HV). cbn [bind].
    unfold polygon_mutate.
    destruct (isSelfIntersecting_iff (N := RNum) tol vs (trivialIndex (length vs)) vs (vertices_trivial vs)) as (b & E & Hb). rewrite E.
    split.
    - intros X. apply Hb in X. subst b. reflexivity.
    - intros X. destruct b; [exfalso; apply X, Hb; reflexivity|]. cbn zeta. cbn [bind].
      set (g := mkPoly _ _ _ _ _). set (r := mkRegion g vs [] []).
      set (o := triangulate _ _). intros HP HT HF.
      assert (HM : map xy (map read_point (o_points o)) = map xy points).
      { rewrite <- HP, map_map. apply map_ext. intros [[x y] m]. unfold read_point. destruct (m =? 1)%Z; reflexivity. }
      assert (PL : build_pslg (N := RNum) tol (region_copy r) points [] = Ok (mkPslg (N := RNum) (map xy points) (edges_of idx) [])).
      { apply (pslg_of_polygon (region_copy r) points idx vs); auto. }
      assert (NE : forall n q, nth_error (map read_point (o_points o)) n = Some q -> exists q', nth_error points n = Some q' /\ xy q = xy q').
      { intros n q Hq. assert (Y : nth_error (map xy (map read_point (o_points o))) n = Some (xy q)) by (rewrite nth_error_map, Hq; reflexivity).
        rewrite HM, nth_error_map in Y. destruct (nth_error points n) as [q'|]; [|discriminate]. injection Y as Y. exists q'.
        split; [reflexivity|]. unfold xy. f_equal; congruence. }
      assert (HD : forall t A B C, In t (o_tris o) -> vertices_are (map read_point (o_points o)) (corners t) [A; B; C] -> orient (xy A) (xy B) (xy C) <> 0%R).
      { intros t A B C Ht H. assert (exists vs', vertices_are points (corners t) vs' /\ map xy vs' = map xy [A; B; C]) as (vs' & H1 & H2).
        { clear - H NE. revert H. generalize (corners t) [A; B; C]. intros l l' H. induction H as [|k v l l' [Hk H] _ (vs' & I1 & I2)]; [exists []; split; constructor|].
          destruct (NE _ _ H) as (q' & Q1 & Q2). exists (q' :: vs'). split; [constructor; auto|]. cbn [map]. rewrite I2, Q2. reflexivity. }
        destruct vs' as [|A' [|B' [|C' [|? ?]]]]; try discriminate. cbn [map] in H2. apply list3_inj in H2 as (<- & <- & <-).
        apply (HF t); assumption. }
      destruct (read_output_total tol o HT HD) as (d & Hd).
      assert (HS' : separated tol (fun q => In q (map read_point (o_points o)))).
      { assert (G : forall q, In q (map read_point (o_points o)) -> exists q', In q' points /\ px q = px q' /\ py q = py q').
        { intros q Hq. apply In_nth_error in Hq as [n Hn]. destruct (NE _ _ Hn) as (q' & Q1 & Q2). exists q'. split; [eapply nth_error_In; eassumption|].
          unfold xy in Q2. injection Q2 as -> ->. auto. }
        intros a b c Ha Hb' Hc. destruct (G a Ha) as (a' & Ha' & -> & ->). destruct (G b Hb') as (b' & Hb'' & -> & ->). destruct (G c Hc) as (c' & Hc' & -> & ->).
        apply HS; assumption. }
      assert (HA' : all_apart tol (map read_point (o_points o))).
      { intros i j a b Ha Hb' Hij. destruct (NE _ _ Ha) as (a' & A1 & ->). destruct (NE _ _ Hb') as (b' & B1 & ->). apply (HA i j); assumption. }
      destruct (delaunay_mesh tol tol_pos o d HT Hd HS' HA') as (m & mt & _ & M1 & _ & _ & _ & M2 & _).
      unfold gen_do, ensure, gen_ctor, callTriangle. cbn [gn_data gn_region gn_seeds call_switches call_restricted].
      change (region_copy (mkRegion (mkPoly (trivialIndex (length vs)) (nZ (-1)) (nZ (-1)) point0 (calculateHash (trivialIndex (length vs)))) vs [] [])) with (region_copy r) in *.
      rewrite PL. fold o. rewrite Hd. cbn [snd bind]. rewrite M1. cbn [bind use]. eexists. split; [reflexivity|assumption].
  Qed.
End Triangulator.
