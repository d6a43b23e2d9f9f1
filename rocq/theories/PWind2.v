(** The winding number adds up along lines, and around a triangle. *)
From Coq Require Import Reals Lra Lia ZArith List Bool Permutation Classical.
From Verif Require Import Base Spec MUtil Bridge BridgeTile BridgeWind PUtil PContains PPoly PPoly2 PVoronoi PFan PVorGeo PVorCell PConvex PVorLocate PWedge PTile PTile5 PAny4 PAny5 PWind.
Import ListNotations.
Local Open Scope R_scope.

Definition hi (q a : pt) : Z := if ltR (snd q) (snd a) then 1%Z else 0%Z.
Lemma passes_hi q a b : passes q a b = if ltR 0 ((snd a - snd b) * orient a b q) then (hi q a - hi q b)%Z else 0%Z.
Proof.
  unfold passes, rises, falls, hi. set (o := orient a b q). clearbody o. destruct a as [ax ay], b as [bx by_], q as [qx qy]. cbn [fst snd].
  destruct (leR_spec ay qy), (ltR_spec qy by_), (leR_spec by_ qy), (ltR_spec qy ay), (ltR_spec o 0), (ltR_spec 0 o), (ltR_spec 0 ((ay - by_) * o)); cbn [andb]; try reflexivity; exfalso; try lra; nra.
Qed.
Definition fw (q a b : pt) : R := IZR (passes q a b).
Lemma fw_anti q a b : fw q b a = - fw q a b.
Proof.
  unfold fw. rewrite <- opp_IZR. f_equal. rewrite !passes_hi. replace (orient b a q) with (- orient a b q) by (unfold orient, vcross, vsub; cbn [fst snd]; lra).
  replace ((snd b - snd a) * - orient a b q) with ((snd a - snd b) * orient a b q) by ring. destruct (ltR 0 _); lia.
Qed.
Lemma hi_same q a b : snd a = snd b -> hi q a = hi q b.
Proof. unfold hi. intros ->. reflexivity. Qed.
Lemma fw_line q a b m : orient a b m = 0 -> fw q a b = fw q a m + fw q m b.
Proof.
  intros O. destruct (Req_dec (snd a) (snd b)) as [E|N].
  - destruct (Req_dec (fst a) (fst b)) as [E'|N'].
    + replace b with a by (destruct a, b; cbn [fst snd] in *; f_equal; assumption). pose proof (fw_anti q a m). pose proof (fw_anti q a a). lra.
    + assert (M : snd m = snd a). { unfold orient, vcross, vsub in O. cbn [fst snd] in O. assert (K : (fst b - fst a) * (snd m - snd a) = 0) by (rewrite E in *; lra). apply Rmult_integral in K as [K|K]; lra. }
      unfold fw. rewrite !passes_hi, (hi_same q a b E), (hi_same q m b) by congruence. rewrite !Z.sub_diag. repeat destruct (ltR _ _); cbn; lra.
  - unfold fw. rewrite !passes_hi.
    assert (A : orient a m q * (snd a - snd b) = orient a b q * (snd a - snd m)).
    { apply Rminus_diag_uniq. replace (orient a m q * (snd a - snd b) - orient a b q * (snd a - snd m)) with (orient a b m * (snd q - snd a)) by (unfold orient, vcross, vsub; cbn [fst snd]; ring). rewrite O. ring. }
    assert (B : orient m b q * (snd a - snd b) = orient a b q * (snd m - snd b)).
    { apply Rminus_diag_uniq. replace (orient m b q * (snd a - snd b) - orient a b q * (snd m - snd b)) with (- orient a b m * (snd q - snd b)) by (unfold orient, vcross, vsub; cbn [fst snd]; ring). rewrite O. ring. }
    set (x := orient a b q) in *. set (y := orient a m q) in *. set (z := orient m b q) in *. clearbody x y z. clear O.
    assert (SQ : 0 < (snd a - snd b) * (snd a - snd b)) by exact (Rsqr_pos_lt _ (Rminus_eq_contra _ _ N)).
    assert (YP : (snd a - snd m) * y * ((snd a - snd b) * (snd a - snd b)) = (snd a - snd m) * (snd a - snd m) * ((snd a - snd b) * x)).
    { replace ((snd a - snd m) * y * ((snd a - snd b) * (snd a - snd b))) with ((snd a - snd m) * (snd a - snd b) * (y * (snd a - snd b))) by ring. rewrite A. ring. }
    assert (ZP : (snd m - snd b) * z * ((snd a - snd b) * (snd a - snd b)) = (snd m - snd b) * (snd m - snd b) * ((snd a - snd b) * x)).
    { replace ((snd m - snd b) * z * ((snd a - snd b) * (snd a - snd b))) with ((snd m - snd b) * (snd a - snd b) * (z * (snd a - snd b))) by ring. rewrite B. ring. }
    assert (SA : 0 <= (snd a - snd m) * (snd a - snd m)) by apply Rle_0_sqr. assert (SB : 0 <= (snd m - snd b) * (snd m - snd b)) by apply Rle_0_sqr.
    rewrite <- plus_IZR. f_equal.
    destruct (ltR_spec 0 ((snd a - snd b) * x)) as [P|P].
    + assert (Y : (if ltR 0 ((snd a - snd m) * y) then (hi q a - hi q m)%Z else 0%Z) = (hi q a - hi q m)%Z).
      { destruct (ltR_spec 0 ((snd a - snd m) * y)) as [L|L]; [reflexivity|]. rewrite (hi_same q a m); [lia|]. assert (K : (snd a - snd m) * (snd a - snd m) = 0); [|apply Rmult_integral in K; lra].
        apply Rle_antisym; [|exact SA]. apply Rnot_lt_le. intros K. assert (0 < (snd a - snd m) * (snd a - snd m) * ((snd a - snd b) * x)) by (apply Rmult_lt_0_compat; assumption). rewrite <- YP in H. apply L. apply Rnot_le_lt. intros L'. nra. }
      assert (Z : (if ltR 0 ((snd m - snd b) * z) then (hi q m - hi q b)%Z else 0%Z) = (hi q m - hi q b)%Z).
      { destruct (ltR_spec 0 ((snd m - snd b) * z)) as [L|L]; [reflexivity|]. rewrite (hi_same q m b); [lia|]. assert (K : (snd m - snd b) * (snd m - snd b) = 0); [|apply Rmult_integral in K; lra].
        apply Rle_antisym; [|exact SB]. apply Rnot_lt_le. intros K. assert (0 < (snd m - snd b) * (snd m - snd b) * ((snd a - snd b) * x)) by (apply Rmult_lt_0_compat; assumption). rewrite <- ZP in H. apply L. apply Rnot_le_lt. intros L'. nra. }
      rewrite Y, Z. lia.
    + destruct (ltR_spec 0 ((snd a - snd m) * y)) as [L|L]; [exfalso; assert (0 < (snd a - snd m) * y * ((snd a - snd b) * (snd a - snd b))) by (apply Rmult_lt_0_compat; assumption); nra|].
      destruct (ltR_spec 0 ((snd m - snd b) * z)) as [L2|L2]; [exfalso; assert (0 < (snd m - snd b) * z * ((snd a - snd b) * (snd a - snd b))) by (apply Rmult_lt_0_compat; assumption); nra|]. reflexivity.
Qed.
Lemma fw_additive q : additive (fw q).
Proof. split; [intros a b; apply fw_anti|intros a b m; apply fw_line]. Qed.
Lemma loop_winding q vs : loop_w (fw q) vs = IZR (winding q vs).
Proof.
  unfold loop_w, along_w, winding, fw. induction (edges_of vs) as [|e es IH]; [reflexivity|]. cbn [map fold_right]. rewrite plus_IZR, <- IH. reflexivity.
Qed.
Lemma passes_odd q a b : Z.odd (passes q a b) = crosses_left q a b.
Proof.
  unfold passes, crosses_left. destruct (rises q a b && ltR (orient a b q) 0); [reflexivity|]. destruct (falls q a b && ltR 0 (orient a b q)); reflexivity.
Qed.
Lemma winding_odd q vs : Z.odd (winding q vs) = even_odd q vs.
Proof.
  unfold winding, even_odd. induction (edges_of vs) as [|e es IH]; [reflexivity|]. cbn [map fold_right parity]. rewrite Z.odd_add, passes_odd, IH. reflexivity.
Qed.

(** ** Triangles *)
Lemma heights q a b c : orient a b c * (snd q - snd a) = orient a b q * (snd c - snd a) + orient c a q * (snd b - snd a).
Proof. unfold orient, vcross, vsub. cbn [fst snd]. ring. Qed.
Lemma orient_sum q a b c : orient a b q + orient b c q + orient c a q = orient a b c.
Proof. unfold orient, vcross, vsub. cbn [fst snd]. ring. Qed.
Lemma tri_rot w p x y : tri_w w p x y = tri_w w x y p.
Proof. unfold tri_w. lra. Qed.
Lemma tri_rotated (P : pt -> pt -> pt -> Prop) q : (forall a b c, P a b c -> P b c a) -> (forall a b c, hi q b = hi q c -> P a b c) -> forall a b c, P a b c.
Proof.
  intros R H a b c. assert (K : hi q b = hi q c \/ hi q c = hi q a \/ hi q a = hi q b) by (unfold hi; repeat destruct (ltR _ _); auto).
  destruct K as [K|[K|K]]; [apply H, K|apply R, R, H, K|apply R, H, K].
Qed.
Lemma hi_spec q a : (hi q a = 1%Z /\ snd q < snd a) \/ (hi q a = 0%Z /\ snd a <= snd q).
Proof. unfold hi. destruct (ltR_spec (snd q) (snd a)); [left|right]; split; auto; lra. Qed.
(** the winding number of a point around a triangle, one of whose corners is alone above or below the point *)
Lemma tri_alone q a b c : hi q b = hi q c ->
  tri_w (fw q) a b c = (if ltR 0 ((snd a - snd b) * orient a b q) then IZR (hi q a - hi q b) else 0) + (if ltR 0 ((snd c - snd a) * orient c a q) then IZR (hi q c - hi q a) else 0).
Proof.
  intros E. unfold tri_w, fw. rewrite !passes_hi, E, Z.sub_diag. repeat destruct (ltR _ _); lra.
Qed.
Lemma pos_factor x y : 0 < x -> 0 <= x * y -> 0 <= y.
Proof. intros. apply Rnot_lt_le. intros L. nra. Qed.
Lemma alone_sides q a b c : hi q b = hi q c -> 0 <= orient a b c -> 0 <= tri_w (fw q) a b c /\ (0 < tri_w (fw q) a b c -> 0 <= orient a b q /\ 0 <= orient b c q /\ 0 <= orient c a q).
Proof.
  intros E D. rewrite (tri_alone q a b c E). pose proof (heights q a b c) as I1. pose proof (heights q b c a) as I2. pose proof (heights q c a b) as I3.
  pose proof (orient_sum q a b c) as S. replace (orient b c a) with (orient a b c) in I2 by (unfold orient, vcross, vsub; cbn [fst snd]; ring). replace (orient c a b) with (orient a b c) in I3 by (unfold orient, vcross, vsub; cbn [fst snd]; ring). clear S.
  set (x := orient a b q) in *. set (y := orient b c q) in *. set (z := orient c a q) in *. set (d := orient a b c) in *. clearbody x y z d.
  destruct (hi_spec q a) as [[Ha La]|[Ha La]], (hi_spec q b) as [[Hb Lb]|[Hb Lb]], (hi_spec q c) as [[Hc Lc]|[Hc Lc]]; try congruence; rewrite Ha, Hb, Hc; cbn [Z.sub Z.opp Z.add Z.pos_sub Z.succ_double Z.pred_double].
  - destruct (ltR 0 _), (ltR 0 _); (split; [lra|lra]).
  - (* a above *) set (qa := snd a) in *. set (qb := snd b) in *. set (qc := snd c) in *. set (h := snd q) in *. clearbody qa qb qc h.
    assert (Q : 0 <= x -> 0 <= z -> 0 <= y).
    { intros X Zz. destruct (Rle_lt_dec qc qb) as [L|L].
      - assert (K : 0 <= (qa - qb) * y); [|apply (pos_factor (qa - qb)); lra]. assert (0 <= d * (h - qb)) by (apply Rmult_le_pos; lra). assert (0 <= x * (qb - qc)) by (apply Rmult_le_pos; lra). lra.
      - assert (K : 0 <= (qa - qc) * y); [|apply (pos_factor (qa - qc)); lra]. assert (0 <= d * (h - qc)) by (apply Rmult_le_pos; lra). assert (0 <= z * (qc - qb)) by (apply Rmult_le_pos; lra). lra. }
    assert (ZX : z < 0 -> 0 < x).
    { intros Zz. assert (0 <= d * (qa - h)) by (apply Rmult_le_pos; lra). assert (0 < - z * (qa - qb)) by (apply Rmult_lt_0_compat; lra). apply Rnot_le_lt. intros X. assert (0 <= - x * (qa - qc)) by (apply Rmult_le_pos; lra). lra. }
    destruct (ltR_spec 0 ((qa - qb) * x)) as [P1|P1], (ltR_spec 0 ((qc - qa) * z)) as [P2|P2].
    + split; [lra|lra].
    + split; [lra|]. intros _. assert (X : 0 <= x) by (apply (pos_factor (qa - qb)); lra). assert (Zz : 0 <= z). { apply Rnot_lt_le. intros L. apply P2. replace ((qc - qa) * z) with ((qa - qc) * - z) by ring. apply Rmult_lt_0_compat; lra. } auto.
    + exfalso. apply P1. apply Rmult_lt_0_compat; [lra|]. apply ZX. apply Rnot_le_lt. intros L. assert (0 <= (qa - qc) * z) by (apply Rmult_le_pos; lra). lra.
    + split; [lra|lra].
  - (* a below *) set (qa := snd a) in *. set (qb := snd b) in *. set (qc := snd c) in *. set (h := snd q) in *. clearbody qa qb qc h.
    assert (Q : 0 <= x -> 0 <= z -> 0 <= y).
    { intros X Zz. destruct (Rle_lt_dec qb qc) as [L|L].
      - assert (K : 0 <= (qb - qa) * y); [|apply (pos_factor (qb - qa)); lra]. assert (0 <= d * (qb - h)) by (apply Rmult_le_pos; lra). assert (0 <= x * (qc - qb)) by (apply Rmult_le_pos; lra). lra.
      - assert (K : 0 <= (qc - qa) * y); [|apply (pos_factor (qc - qa)); lra]. assert (0 <= d * (qc - h)) by (apply Rmult_le_pos; lra). assert (0 <= z * (qb - qc)) by (apply Rmult_le_pos; lra). lra. }
    assert (XZ : x < 0 -> 0 < z).
    { intros X. assert (0 <= d * (h - qa)) by (apply Rmult_le_pos; lra). assert (0 < - x * (qc - qa)) by (apply Rmult_lt_0_compat; lra). apply Rnot_le_lt. intros Zz. assert (0 <= - z * (qb - qa)) by (apply Rmult_le_pos; lra). lra. }
    destruct (ltR_spec 0 ((qa - qb) * x)) as [P1|P1], (ltR_spec 0 ((qc - qa) * z)) as [P2|P2].
    + split; [lra|lra].
    + exfalso. apply P2. apply Rmult_lt_0_compat; [lra|]. apply XZ. apply Rnot_le_lt. intros L. assert (0 <= (qb - qa) * x) by (apply Rmult_le_pos; lra). lra.
    + split; [lra|]. intros _. assert (Zz : 0 <= z) by (apply (pos_factor (qc - qa)); lra). assert (X : 0 <= x). { apply Rnot_lt_le. intros L. apply P1. replace ((qa - qb) * x) with ((qb - qa) * - x) by ring. apply Rmult_lt_0_compat; lra. } auto.
    + split; [lra|lra].
  - destruct (ltR 0 _), (ltR 0 _); (split; [lra|lra]).
Qed.
Lemma tri_sides q a b c : 0 <= orient a b c -> 0 <= tri_w (fw q) a b c /\ (0 < tri_w (fw q) a b c -> 0 <= orient a b q /\ 0 <= orient b c q /\ 0 <= orient c a q).
Proof.
  revert a b c. apply (tri_rotated (fun a b c => 0 <= orient a b c -> 0 <= tri_w (fw q) a b c /\ (0 < tri_w (fw q) a b c -> 0 <= orient a b q /\ 0 <= orient b c q /\ 0 <= orient c a q)) q).
  - intros a b c H D. destruct H as [H1 H2]; [unfold orient, vcross, vsub in *; cbn [fst snd] in *; lra|]. rewrite <- (tri_rot (fw q) a b c). split; [exact H1|]. intros H. destruct (H2 H) as (? & ? & ?). auto.
  - intros a b c E D. apply alone_sides; assumption.
Qed.
Lemma tri_inside q a b c : 0 < orient a b q -> 0 < orient b c q -> 0 < orient c a q -> 1 <= tri_w (fw q) a b c.
Proof.
  revert a b c. apply (tri_rotated (fun a b c => 0 < orient a b q -> 0 < orient b c q -> 0 < orient c a q -> 1 <= tri_w (fw q) a b c) q).
  - intros a b c H H1 H2 H3. rewrite <- (tri_rot (fw q) a b c). apply H; assumption.
  - intros a b c E X Y Zz. rewrite (tri_alone q a b c E). pose proof (heights q a b c) as I1. pose proof (heights q b c a) as I2. pose proof (heights q c a b) as I3.
    pose proof (orient_sum q a b c) as S. replace (orient b c a) with (orient a b c) in I2 by (unfold orient, vcross, vsub; cbn [fst snd]; ring). replace (orient c a b) with (orient a b c) in I3 by (unfold orient, vcross, vsub; cbn [fst snd]; ring).
    assert (NF : snd a = snd b -> snd a = snd c -> False). { intros E1 E2. clear - E1 E2 S X Y Zz. assert (orient a b c = 0) by (unfold orient, vcross, vsub; cbn [fst snd]; rewrite <- E1, <- E2; ring). lra. }
    set (x := orient a b q) in *. set (y := orient b c q) in *. set (z := orient c a q) in *. set (d := orient a b c) in *. clearbody x y z d.
    assert (M : x * (snd c - snd q) + y * (snd a - snd q) + z * (snd b - snd q) = 0) by (rewrite <- S in I1; lra).
    destruct (hi_spec q a) as [[Ha La]|[Ha La]], (hi_spec q b) as [[Hb Lb]|[Hb Lb]], (hi_spec q c) as [[Hc Lc]|[Hc Lc]]; try congruence; rewrite Ha, Hb, Hc; cbn [Z.sub Z.opp Z.add Z.pos_sub Z.succ_double Z.pred_double].
    + exfalso. assert (0 < x * (snd c - snd q)) by (apply Rmult_lt_0_compat; lra). assert (0 < y * (snd a - snd q)) by (apply Rmult_lt_0_compat; lra). assert (0 < z * (snd b - snd q)) by (apply Rmult_lt_0_compat; lra). lra.
    + destruct (ltR_spec 0 ((snd a - snd b) * x)) as [P|P]; [|exfalso; apply P, Rmult_lt_0_compat; lra]. destruct (ltR_spec 0 ((snd c - snd a) * z)) as [P2|P2]; [|lra]. exfalso. assert (0 < (snd a - snd c) * z) by (apply Rmult_lt_0_compat; lra). lra.
    + destruct (ltR_spec 0 ((snd c - snd a) * z)) as [P|P]; [|exfalso; apply P, Rmult_lt_0_compat; lra]. destruct (ltR_spec 0 ((snd a - snd b) * x)) as [P2|P2]; [|lra]. exfalso. assert (0 < (snd b - snd a) * x) by (apply Rmult_lt_0_compat; lra). lra.
    + exfalso. assert (0 <= x * (snd q - snd c)) by (apply Rmult_le_pos; lra). assert (0 <= y * (snd q - snd a)) by (apply Rmult_le_pos; lra). assert (0 <= z * (snd q - snd b)) by (apply Rmult_le_pos; lra).
      assert (A : y * (snd q - snd a) = 0) by lra. assert (B : z * (snd q - snd b) = 0) by lra. assert (C : x * (snd q - snd c) = 0) by lra. apply Rmult_integral in A, B, C. apply NF; lra.
Qed.
Lemma ccw_convex a b c : 0 < orient a b c -> strictly_convex [a; b; c].
Proof.
  intros O. apply orient_degenerate in O as D. destruct D as [D1 D2]. assert (D3 : b <> c) by (intros ->; unfold orient, vcross, vsub in O; cbn [fst snd] in O; lra).
  split; [cbn; lia|]. split; [repeat constructor; cbn [In]; intuition congruence|]. intros x e v H Hv N1 N2. cbn in H. cbn [In] in Hv.
  assert (O2 : (0 < orient b c a)%R) by (unfold orient, vcross, vsub in *; cbn [fst snd] in *; lra). assert (O3 : (0 < orient c a b)%R) by (unfold orient, vcross, vsub in *; cbn [fst snd] in *; lra).
  destruct H as [H|[H|[H|[]]]]; injection H as <- <-; destruct Hv as [<-|[<-|[<-|[]]]]; try contradiction; assumption.
Qed.
Lemma ccw_hull a b c q : 0 < orient a b c -> 0 <= orient a b q -> 0 <= orient b c q -> 0 <= orient c a q -> in_hull [a; b; c] q.
Proof. intros O H1 H2 H3. apply (left_hull _ (ccw_convex _ _ _ O)). intros x y H. cbn in H. destruct H as [H|[H|[H|[]]]]; injection H as <- <-; assumption. Qed.
Lemma hull_ccw a b c q : 0 < orient a b c -> in_hull [a; b; c] q -> 0 <= orient a b q /\ 0 <= orient b c q /\ 0 <= orient c a q.
Proof. intros O H. pose proof (hull_left _ (ccw_convex _ _ _ O) q H) as K. repeat split; apply K; cbn; auto. Qed.
Lemma tri_hull q a b c : 0 <= orient a b c -> 0 < tri_w (fw q) a b c -> in_hull [a; b; c] q.
Proof.
  intros D T. destruct (Rle_lt_or_eq_dec _ _ D) as [L|E].
  - destruct (tri_sides q a b c D) as [_ H]. destruct (H T) as (? & ? & ?). apply ccw_hull; assumption.
  - exfalso. rewrite (tri_flat _ (fw_additive q)) in T; [lra|]. unfold orient, vcross, vsub in *. cbn [fst snd] in *. lra.
Qed.

(** ** Limits *)
Lemma hull_away vs q g : ~ in_hull vs q -> exists e, 0 < e /\ forall t, 0 < t < e -> ~ in_hull vs (lerp q g t).
Proof.
  intros N. unfold in_hull in N. apply not_all_ex_not in N as (u & N). assert (L : forall p, In p vs -> vdot u p < vdot u q). { intros p Hp. apply Rnot_le_lt. intros L. apply N. exists p. auto. }
  assert (G : exists s, 0 < s /\ forall p, In p vs -> vdot u p <= vdot u q - s).
  { clear N. induction vs as [|v vs IH]; [exists 1; split; [lra|intros p []]|]. destruct IH as (s & S & H); [intros p Hp; apply L; right; exact Hp|]. pose proof (L v (or_introl eq_refl)) as L1.
    exists (Rmin s (vdot u q - vdot u v)). split; [apply Rmin_glb_lt; lra|]. intros p [<-|Hp]; [pose proof (Rmin_r s (vdot u q - vdot u v)); lra|]. pose proof (Rmin_l s (vdot u q - vdot u v)). specialize (H p Hp). lra. }
  destruct G as (s & S & G). set (k := vdot u (vsub g q)). exists (s / (Rabs k + 1)). pose proof (Rabs_pos k) as A.
  split; [apply Rdiv_lt_0_compat; lra|]. intros t [T0 T1] H. destruct (H u) as (p & Hp & LP). specialize (G p Hp).
  assert (E : vdot u (lerp q g t) = vdot u q + t * k) by (unfold k, vdot, vsub, lerp; cbn [fst snd]; ring). rewrite E in LP.
  assert (T2 : t * (Rabs k + 1) < s). { apply (Rmult_lt_compat_r (Rabs k + 1)) in T1; [|lra]. replace (s / (Rabs k + 1) * (Rabs k + 1)) with s in T1 by (field; lra). exact T1. }
  assert (- Rabs k <= k) by (unfold Rabs; destruct (Rcase_abs k); lra). assert (t * - Rabs k <= t * k) by (apply Rmult_le_compat_l; lra). lra.
Qed.
Lemma hulls_closed (L : list (list pt)) q g : (forall t, 0 < t <= 1 -> exists vs, In vs L /\ in_hull vs (lerp q g t)) -> exists vs, In vs L /\ in_hull vs q.
Proof.
  intros H. apply NNPP. intros N. assert (K : exists e, 0 < e /\ forall t, 0 < t < e -> forall vs, In vs L -> ~ in_hull vs (lerp q g t)).
  { assert (N' : forall vs, In vs L -> ~ in_hull vs q) by (intros vs Hv HV; apply N; eauto). clear H N. induction L as [|vs L IH]; [exists 1; split; [lra|intros t _ vs []]|].
    destruct IH as (e & E & K); [intros v Hv; apply N'; right; exact Hv|]. destruct (hull_away vs q g (N' vs (or_introl eq_refl))) as (e' & E' & K').
    exists (Rmin e e'). split; [apply Rmin_glb_lt; assumption|]. intros t [T0 T1] v [<-|Hv]; [apply K'|apply K; [|exact Hv]]; split; auto; [pose proof (Rmin_r e e'); lra|pose proof (Rmin_l e e'); lra]. }
  destruct K as (e & E & K). set (t := Rmin (e / 2) 1). assert (T : 0 < t <= 1 /\ t < e). { unfold t. pose proof (Rmin_l (e / 2) 1). pose proof (Rmin_r (e / 2) 1). split; [split; [apply Rmin_glb_lt; lra|lra]|lra]. }
  destruct (H t) as (vs & Hv & HV); [apply T|]. apply (K t) with (vs := vs); [split; apply T|exact Hv|exact HV].
Qed.
(** towards the middle of a triangle from a point of it *)
Lemma inwards a b c q t : 0 < orient a b c -> in_hull [a; b; c] q -> 0 < t <= 1 ->
  let g := ((fst a + fst b + fst c) / 3, (snd a + snd b + snd c) / 3) in 0 < orient a b (lerp q g t) /\ 0 < orient b c (lerp q g t) /\ 0 < orient c a (lerp q g t).
Proof.
  intros O H T g. destruct (hull_ccw a b c q O H) as (H1 & H2 & H3).
  assert (E : forall x y, orient x y (lerp q g t) = (1 - t) * orient x y q + t * orient x y g) by (intros x y; unfold orient, vcross, vsub, lerp; cbn [fst snd]; ring).
  assert (G1 : orient a b g = orient a b c / 3) by (unfold g, orient, vcross, vsub; cbn [fst snd]; field). assert (G2 : orient b c g = orient a b c / 3) by (unfold g, orient, vcross, vsub; cbn [fst snd]; field). assert (G3 : orient c a g = orient a b c / 3) by (unfold g, orient, vcross, vsub; cbn [fst snd]; field).
  rewrite !E, G1, G2, G3. set (d := orient a b c) in *. assert (D : 0 < t * (d / 3)) by (apply Rmult_lt_0_compat; lra).
  assert (0 <= (1 - t) * orient a b q) by (apply Rmult_le_pos; lra). assert (0 <= (1 - t) * orient b c q) by (apply Rmult_le_pos; lra). assert (0 <= (1 - t) * orient c a q) by (apply Rmult_le_pos; lra). lra.
Qed.
Lemma sum_positive {A} (f : A -> R) l : (forall x, In x l -> 0 <= f x) -> 0 < sumR (map f l) -> exists x, In x l /\ 0 < f x.
Proof.
  induction l as [|a l IH]; intros H S; [cbn in S; lra|]. cbn [map] in S. unfold sumR in S. cbn [fold_right] in S. fold (sumR (map f l)) in S.
  destruct (Rle_lt_dec (f a) 0) as [L|L]; [|exists a; split; [left; reflexivity|exact L]]. destruct IH as (x & Hx & P); [intros x Hx; apply H; right; exact Hx|lra|]. exists x. split; [right; exact Hx|exact P].
Qed.
