(** A fan of triangles that do not overlap stays on the inner side of its corner. *)
From Coq Require Import Reals Lra Lia ZArith List Bool.
From Verif Require Import Base Spec Bridge BridgeAny PUtil PContains PPoly PPoly2 PVorGeo PVorCell PConvex PVorConvex PVorLocate PWedge PTile PFill.
Import ListNotations.
Local Open Scope R_scope.

(** along a chain, a value that gets positive after being negative passes from negative to positive *)
Lemma passes_between (s : pt -> R) l : forall a b, (forall z, In z (a :: l ++ [b]) -> s z <> 0) -> s a < 0 -> 0 < s b ->
  exists e1 e e2, pairs (a :: l ++ [b]) = e1 ++ e :: e2 /\ s (fst e) < 0 /\ 0 < s (snd e).
Proof.
  induction l as [|c l IH]; intros a b NZ Sa Sb.
  - exists [], (a, b), []. split; [reflexivity|auto].
  - assert (NC : s c <> 0) by (apply NZ; right; left; reflexivity). change (pairs (a :: (c :: l) ++ [b])) with ((a, c) :: pairs (c :: l ++ [b])).
    destruct (Rlt_dec (s c) 0) as [L|L].
    + destruct (IH c b) as (e1 & e & e2 & E & H); auto; [intros z Hz; apply NZ; right; exact Hz|]. exists ((a, c) :: e1), e, e2. rewrite E. auto.
    + exists [], (a, c), (pairs (c :: l ++ [b])). split; [reflexivity|]. cbn [fst snd]. split; [exact Sa|lra].
Qed.

Section Fan.
  Variable p : pt.
  Lemma plucker u a b c : vcross u (vsub b p) * orient p a c = vcross u (vsub c p) * orient p a b + vcross u (vsub a p) * orient p b c.
  Proof. unfold orient, vcross, vsub. cbn [fst snd]. ring. Qed.
  (** a chain that turns left in a half plane turns left from its start to each of its points *)
  Lemma half_plane (s : pt -> R) (P : forall a b c, s b * orient p a c = s c * orient p a b + s a * orient p b c) l : forall a,
    (forall z, In z (a :: l) -> 0 < s z) -> (forall e, In e (pairs (a :: l)) -> 0 < orient p (fst e) (snd e)) -> forall z, In z l -> 0 < orient p a z.
  Proof.
    induction l as [|b l IH]; intros a S H z Hz; [destruct Hz|]. assert (AB : 0 < orient p a b) by (apply (H (a, b)); left; reflexivity).
    destruct Hz as [<-|Hz]; [exact AB|]. assert (BZ : 0 < orient p b z) by (apply IH; [intros y Hy; apply S; right; exact Hy|intros e He; apply H; right; exact He|exact Hz]).
    pose proof (P a b z) as Q. pose proof (S a (or_introl eq_refl)) as S1. pose proof (S b (or_intror (or_introl eq_refl))) as S2. pose proof (S z (or_intror (or_intror Hz))) as S3.
    assert (0 < s z * orient p a b) by (apply Rmult_lt_0_compat; assumption). assert (0 < s a * orient p b z) by (apply Rmult_lt_0_compat; assumption).
    apply (Rmult_lt_reg_l (s b)); [exact S2|]. lra.
  Qed.
  (** a direction so close to the first one that all other points are on the same side of both *)
  Lemma near_direction (f g : pt -> R) l : exists d, 0 < d /\ forall z, In z l -> (0 < f z -> 0 < f z + d * g z) /\ (f z < 0 -> f z + d * g z < 0).
  Proof.
    induction l as [|y l (d & D & H)]; [exists 1; split; [lra|intros z []]|].
    set (m := Rmin d (Rabs (f y) / (2 * (Rabs (g y) + 1)))).
    assert (GP : 0 < 2 * (Rabs (g y) + 1)) by (pose proof (Rabs_pos (g y)); lra).
    destruct (Req_dec (f y) 0) as [E|N].
    { exists d. split; [exact D|]. intros z [<-|Hz]; [lra|exact (H z Hz)]. }
    assert (Q : 0 < Rabs (f y) / (2 * (Rabs (g y) + 1))) by (apply Rdiv_lt_0_compat; [apply Rabs_pos_lt, N|exact GP]).
    assert (MP : 0 < m) by (apply Rmin_glb_lt; assumption). exists m. split; [exact MP|].
    assert (B : m * (2 * (Rabs (g y) + 1)) <= Rabs (f y)).
    { apply (Rle_trans _ (Rabs (f y) / (2 * (Rabs (g y) + 1)) * (2 * (Rabs (g y) + 1)))); [apply Rmult_le_compat_r; [lra|apply Rmin_r]|]. unfold Rdiv. rewrite Rmult_assoc, Rinv_l by lra. lra. }
    pose proof (Rabs_pos (g y)) as GA. pose proof (Rle_abs (g y)) as G1. pose proof (Rle_abs (- g y)) as G2. rewrite Rabs_Ropp in G2.
    intros z [<-|Hz].
    - split; intros F; [rewrite (Rabs_pos_eq (f y)) in B by lra|rewrite (Rabs_left (f y)) in B by exact F].
      + assert (0 <= m * (Rabs (g y) + g y)) by (apply Rmult_le_pos; lra). assert (0 <= m * Rabs (g y)) by (apply Rmult_le_pos; lra). lra.
      + assert (0 <= m * (Rabs (g y) - g y)) by (apply Rmult_le_pos; lra). assert (0 <= m * Rabs (g y)) by (apply Rmult_le_pos; lra). lra.
    - destruct (H z Hz) as [H1 H2]. assert (ML : m <= d) by apply Rmin_l.
      split; intros F; [specialize (H1 F)|specialize (H2 F)].
      + destruct (Rle_dec 0 (g z)); [|assert (0 <= (d - m) * - g z) by (apply Rmult_le_pos; lra); lra]. assert (0 <= m * g z) by (apply Rmult_le_pos; lra). lra.
      + destruct (Rle_dec (g z) 0); [|assert (0 <= (d - m) * g z) by (apply Rmult_le_pos; lra); lra]. assert (0 <= m * - g z) by (apply Rmult_le_pos; lra). lra.
  Qed.

  Variables (x y : pt) (l : list pt).
  Notation chain := (x :: l ++ [y]).
  Hypothesis LEFT : forall e, In e (pairs chain) -> 0 < orient p (fst e) (snd e).
  Hypothesis APART : forall u e1 e e2 e' e3, pairs chain = e1 ++ e :: e2 ++ e' :: e3 ->
    vcross u (vsub (fst e) p) < 0 -> 0 < vcross u (vsub (snd e) p) -> vcross u (vsub (fst e') p) < 0 -> 0 < vcross u (vsub (snd e') p) -> False.
  Hypothesis SLIT : orient p x y = 0 -> vdot (vsub x p) (vsub y p) < 0.
  Lemma off_center z : In z chain -> z <> p.
  Proof.
    intros Hz ->. assert (K : exists e, In e (pairs chain) /\ (fst e = p \/ snd e = p)).
    { clear - Hz. change (x :: l ++ [y]) with ((x :: l) ++ [y]) in Hz. apply in_app_or in Hz as [Hz|[<-|[]]].
      - change (x :: l ++ [y]) with ((x :: l) ++ [y]). rewrite <- (snoc_pairs_fst (x :: l) y) in Hz. apply in_map_iff in Hz as (e & E & He). exists e. auto.
      - destruct (PVorCell.last_pair x l y) as (w & Hw). exists (w, y). auto. }
    destruct K as (e & He & E). apply LEFT in He. destruct E as [E|E]; rewrite E in He; unfold orient, vcross, vsub in He; cbn [fst snd] in He; lra.
  Qed.
  Lemma fan_inner z : In z chain -> inner_side p x y z.
  Proof.
    intros Hz.
    (* the second point of the chain *)
    assert (CH : exists x1 l1, chain = x :: x1 :: l1 /\ (forall w, In w l1 -> In w chain)) by (destruct l as [|x1 l1]; [exists y, []|exists x1, (l1 ++ [y])]; (split; [reflexivity|]); intros w Hw; cbn [app In] in *; auto; tauto).
    destruct CH as (x1 & l1 & EC & IC).
    assert (O1 : 0 < orient p x x1) by (apply (LEFT (x, x1)); rewrite EC; left; reflexivity).
    destruct (near_direction (orient p x) (orient p x1) chain) as (d & D & ND).
    set (u := vadd (vsub x p) (vscale d (vsub x1 p))). set (s := fun w => vcross u (vsub w p)).
    assert (SE : forall w, s w = orient p x w + d * orient p x1 w) by (intros w; unfold s, u, orient, vcross, vadd, vscale, vsub; cbn [fst snd]; ring).
    assert (SP : forall w, In w chain -> 0 < orient p x w -> 0 < s w) by (intros w Hw L; rewrite SE; apply ND; assumption).
    assert (SN : forall w, In w chain -> orient p x w < 0 -> s w < 0) by (intros w Hw L; rewrite SE; apply ND; assumption).
    pose proof (off_center x (or_introl eq_refl)) as Nx.
    assert (PX : 0 < vdot (vsub x p) (vsub x p)).
    { clear - Nx. destruct x as [x1 x2], p as [p1 p2]. unfold vdot, vsub. cbn [fst snd]. destruct (Req_dec x1 p1) as [->|], (Req_dec x2 p2) as [->|]; [contradiction|nra|nra|nra]. }
    assert (S0 : forall w, orient p x w = 0 -> vdot (vsub x p) (vsub x p) * s w = - (d * orient p x x1 * vdot (vsub x p) (vsub w p))).
    { intros w Z. rewrite SE, Z. clear - Z. unfold orient, vdot in *. set (X := vsub x p) in *. set (X1 := vsub x1 p) in *. set (W := vsub w p) in *. clearbody X X1 W. destruct X as [a b], X1 as [a1 b1], W as [e f].
      unfold vcross in *. cbn [fst snd] in *. replace ((a * a + b * b) * (0 + d * (a1 * f - b1 * e))) with (d * ((a1 * a + b1 * b) * (a * f - b * e) + (a * e + b * f) * (a1 * b - b1 * a))) by ring. rewrite Z. ring. }
    assert (S0' : forall w, In w chain -> orient p x w = 0 -> (vdot (vsub x p) (vsub w p) < 0 /\ 0 < s w) \/ (0 < vdot (vsub x p) (vsub w p) /\ s w < 0)).
    { intros w Hw Z. pose proof (S0 w Z) as Q. assert (DO : 0 < d * orient p x x1) by (apply Rmult_lt_0_compat; assumption).
      assert (NW : vdot (vsub x p) (vsub w p) <> 0).
      { pose proof (off_center w Hw) as Nw. clear - Z PX Nw. intros E. apply Nw. unfold orient in Z. destruct w as [w1 w2], p as [p1 p2]. unfold vcross, vdot, vsub in *. cbn [fst snd] in *.
        set (a := fst x - p1) in *. set (b := snd x - p2) in *. assert (E1 : (a * a + b * b) * (w1 - p1) = 0) by (replace ((a * a + b * b) * (w1 - p1)) with (a * (a * (w1 - p1) + b * (w2 - p2)) - b * (a * (w2 - p2) - b * (w1 - p1))) by ring; rewrite E, Z; ring).
        assert (E2 : (a * a + b * b) * (w2 - p2) = 0) by (replace ((a * a + b * b) * (w2 - p2)) with (b * (a * (w1 - p1) + b * (w2 - p2)) + a * (a * (w2 - p2) - b * (w1 - p1))) by ring; rewrite E, Z; ring).
        apply Rmult_integral in E1 as [E1|E1]; [lra|]. apply Rmult_integral in E2 as [E2|E2]; [lra|]. f_equal; lra. }
      destruct (Rtotal_order (vdot (vsub x p) (vsub w p)) 0) as [L|[L|L]]; [left|contradiction|right]; (split; [exact L|]); nra. }
    assert (NZ : forall w, In w chain -> s w <> 0).
    { intros w Hw E. destruct (Rtotal_order (orient p x w) 0) as [L|[L|L]]; [pose proof (SN w Hw L); lra| |pose proof (SP w Hw L); lra]. destruct (S0' w Hw L) as [[_ K]|[_ K]]; lra. }
    assert (Sx : s x < 0). { destruct (S0' x (or_introl eq_refl)) as [[K _]|[_ K]]; [unfold orient, vcross; ring|lra|exact K]. }
    assert (Sx1 : 0 < s x1) by (apply SP; [rewrite EC; right; left; reflexivity|exact O1]).
    (* no second pass *)
    assert (ONCE : forall m1 a m2 b m3, x1 :: l1 = m1 ++ a :: m2 ++ b :: m3 -> s a < 0 -> 0 < s b -> False).
    { intros m1 a m2 b m3 E Sa Sb. destruct (passes_between s m2 a b) as (e1 & e & e2 & EE & S1 & S2); auto.
      { intros w Hw. apply NZ. rewrite EC. right. rewrite E. apply in_or_app. right. change (a :: m2 ++ b :: m3) with ((a :: m2) ++ [b] ++ m3). rewrite app_assoc. apply in_or_app. left. exact Hw. }
      assert (PE : exists f1 f2, pairs (x1 :: l1) = f1 ++ e :: f2).
      { rewrite E. destruct m1 as [|c m1].
        - cbn [app]. change (a :: m2 ++ b :: m3) with ((a :: m2) ++ b :: m3). rewrite pairs_app. change ((a :: m2) ++ [b]) with (a :: m2 ++ [b]). rewrite EE. exists e1, (e2 ++ pairs (b :: m3)). rewrite <- app_assoc. reflexivity.
        - rewrite pairs_app. change (a :: m2 ++ b :: m3) with ((a :: m2) ++ b :: m3). rewrite (pairs_app (a :: m2)). change ((a :: m2) ++ [b]) with (a :: m2 ++ [b]). rewrite EE. exists (pairs ((c :: m1) ++ [a]) ++ e1), (e2 ++ pairs (b :: m3)). rewrite <- !app_assoc. reflexivity. }
      destruct PE as (f1 & f2 & PE). apply (APART u [] (x, x1) f1 e f2); auto. rewrite EC. change (pairs (x :: x1 :: l1)) with ((x, x1) :: pairs (x1 :: l1)). rewrite PE. reflexivity. }
    (* the last point *)
    assert (LY : exists m, x1 :: l1 = m ++ [y]). { clear - EC. destruct l as [|c l']; cbn [app] in EC; [exists []|exists (c :: l')]; cbn [app]; congruence. }
    destruct LY as (m & LY).
    assert (Hy : In y chain) by (right; apply in_or_app; right; left; reflexivity).
    assert (PIN : forall e, In e (pairs (x1 :: l1)) -> 0 < orient p (fst e) (snd e)) by (intros e He; apply LEFT; rewrite EC; right; exact He).
    unfold inner_side. destruct (Rlt_dec (orient p x y) 0) as [LN|LN].
    - pose proof (SN y Hy LN) as Sy. intros [Z1 Z2].
      assert (Z2' : orient p x z < 0) by (unfold orient, vcross, vsub in *; cbn [fst snd] in *; lra). pose proof (SN z Hz Z2') as Sz.
      assert (HZ : In z (x1 :: l1)). { rewrite EC in Hz. destruct Hz as [<-|Hz]; [|exact Hz]. exfalso. unfold orient, vcross in Z2'. lra. }
      assert (NY : z <> y) by (intros ->; unfold orient, vcross in Z1; lra).
      rewrite LY in HZ. apply in_app_or in HZ as [HZ|[HZ|[]]]; [|congruence]. apply in_split in HZ as (m1 & m2 & ->).
      assert (AN : forall w, In w (z :: m2 ++ [y]) -> 0 < - s w).
      { intros w Hw. assert (Hw' : In w chain) by (rewrite EC; right; rewrite LY, <- app_assoc; apply in_or_app; right; exact Hw). destruct Hw as [<-|Hw]; [lra|]. pose proof (NZ w Hw') as N. apply Rnot_le_lt. intros K. assert (0 < s w) by lra.
        apply in_split in Hw as (n1 & n2 & Hw). apply (ONCE m1 z n1 w n2); auto. rewrite LY, <- app_assoc. cbn [app]. rewrite Hw. reflexivity. }
      assert (K : 0 < orient p z y).
      { apply (half_plane (fun w => - s w)) with (l := m2 ++ [y]); [intros a b c; pose proof (plucker u a b c) as Q; unfold s; lra|exact AN| |apply in_or_app; right; left; reflexivity].
        intros e He. apply PIN. rewrite LY, <- app_assoc. cbn [app]. destruct m1 as [|c m1]; [exact He|]. rewrite pairs_app. apply in_or_app. right. exact He. }
      unfold orient, vcross, vsub in *. cbn [fst snd] in *. lra.
    - assert (Sy : 0 < s y).
      { destruct (Rtotal_order (orient p x y) 0) as [L|[L|L]]; [lra| |exact (SP y Hy L)]. destruct (S0' y Hy L) as [[_ K]|[K _]]; [exact K|]. specialize (SLIT L). lra. }
      assert (AP : forall w, In w (x1 :: l1) -> 0 < s w).
      { intros w Hw. pose proof Hw as Hw0. rewrite LY in Hw. apply in_app_or in Hw as [Hw|[<-|[]]]; [|exact Sy]. pose proof (NZ w) as N. apply Rnot_le_lt. intros K. assert (s w < 0) by (assert (s w <> 0) by (apply N; rewrite EC; right; exact Hw0); lra).
        apply in_split in Hw as (n1 & n2 & Hw). apply (ONCE n1 w n2 y []); auto. rewrite LY, Hw, <- app_assoc. reflexivity. }
      split.
      + apply Rnot_lt_le. intros K. pose proof (SN z Hz K) as Sz. rewrite EC in Hz. destruct Hz as [<-|Hz]; [unfold orient, vcross in K; lra|]. specialize (AP z Hz). lra.
      + rewrite EC in Hz. destruct Hz as [<-|Hz]; [unfold orient, vcross, vsub in *; cbn [fst snd] in *; lra|]. rewrite LY in Hz. apply in_app_or in Hz as [Hz|[<-|[]]]; [|unfold orient, vcross; lra].
        apply in_split in Hz as (n1 & n2 & Hz). assert (E : x1 :: l1 = n1 ++ z :: n2 ++ [y]) by (rewrite LY, Hz, <- app_assoc; reflexivity).
        assert (K : 0 < orient p z y).
        { apply (half_plane s (fun a b c => plucker u a b c) (n2 ++ [y])); [intros w Hw; apply AP; rewrite E; apply in_or_app; right; exact Hw| |apply in_or_app; right; left; reflexivity].
          intros e He. apply PIN. rewrite E. destruct n1 as [|c n1]; [exact He|]. rewrite pairs_app. apply in_or_app. right. exact He. }
        unfold orient, vcross, vsub in *. cbn [fst snd] in *. lra.
  Qed.
End Fan.
