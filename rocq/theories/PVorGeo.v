(** The plane geometry of Voronoi cells. *)
From Coq Require Import Reals Lra Lia ZArith List Bool.
From Verif Require Import Base Spec.
Import ListNotations.
Local Open Scope R_scope.

Notation dot := vdot.
Notation crs := vcross.
Lemma dist_le x p q : dist x p <= dist x q <-> 2 * vdot (vsub q p) (vsub x p) <= vdot (vsub q p) (vsub q p).
Proof.
  unfold dist, vdot, vsub; cbn [fst snd].
  set (A := (fst x - fst p) * (fst x - fst p) + (snd x - snd p) * (snd x - snd p)). set (B := (fst x - fst q) * (fst x - fst q) + (snd x - snd q) * (snd x - snd q)).
  assert (PA : 0 <= A) by (apply Rplus_le_le_0_compat; apply Rle_0_sqr). assert (PB : 0 <= B) by (apply Rplus_le_le_0_compat; apply Rle_0_sqr).
  assert (E : B - A = ((fst q - fst p) * (fst q - fst p) + (snd q - snd p) * (snd q - snd p)) - 2 * ((fst q - fst p) * (fst x - fst p) + (snd q - snd p) * (snd x - snd p))) by (unfold A, B; ring).
  split; intros H.
  - apply (sqrt_le_0 A B PA PB) in H. lra.
  - apply (sqrt_le_1 A B PA PB). lra.
Qed.
Lemma dist_eq x p q : dist x p = dist x q -> 2 * vdot (vsub q p) (vsub x p) = vdot (vsub q p) (vsub q p).
Proof.
  intros H. apply Rle_antisym; [apply dist_le; lra|].
  assert (K : dist x q <= dist x p) by lra. apply dist_le in K. unfold vdot, vsub in *; cbn [fst snd] in *. lra.
Qed.

(** * Closed chains that always turn left go all the way round *)
Section Chains.
  Context {A : Type}.
  Lemma pairs_cons (a b : A) l : pairs (a :: b :: l) = (a, b) :: pairs (b :: l).
  Proof. reflexivity. Qed.
  Lemma chain_lt (g : A -> R) (a : A) l z : (forall e, In e (pairs (a :: l ++ [z])) -> g (fst e) < g (snd e)) -> g a < g z.
  Proof.
    revert a. induction l as [|b l IH]; intros a H; cbn [app] in H.
    - apply (H (a, z)). left. reflexivity.
    - apply Rlt_trans with (g b); [apply (H (a, b)); left; reflexivity|]. apply IH. intros e He. apply H. rewrite pairs_cons. right. exact He.
  Qed.
  Lemma chain_all (P Q : A -> Prop) (a : A) l : (forall e, In e (pairs (a :: l)) -> P (fst e) -> Q (snd e)) -> (forall x, Q x -> P x) -> P a -> forall x, In x l -> Q x.
  Proof.
    revert a. induction l as [|b l IH]; intros a H QP Ha x Hx; [destruct Hx|].
    assert (Qb : Q b) by (apply (H (a, b)); [left; reflexivity|exact Ha]).
    destruct Hx as [<-|Hx]; [exact Qb|]. apply (IH b); auto. intros e He. apply H. rewrite pairs_cons. right. exact He.
  Qed.
  Lemma pairs_mid (l1 l2 : list A) x : incl (pairs (x :: l2)) (pairs (l1 ++ x :: l2)).
  Proof.
    induction l1 as [|a l1 IH]; [apply incl_refl|]. intros e He. apply IH in He. cbn [app]. destruct (l1 ++ x :: l2) as [|b r] eqn:E; [destruct l1; discriminate|].
    rewrite pairs_cons. right. exact He.
  Qed.
  Lemma pairs_in (e : A * A) l : In e (pairs l) -> In (fst e) l /\ In (snd e) l.
  Proof.
    induction l as [|a [|b l] IH]; [intros []|intros []|]. rewrite pairs_cons. intros [<-|H]; [cbn; auto|]. destruct (IH H). split; right; assumption.
  Qed.
End Chains.

(** every direction lies between two consecutive vectors of a closed chain *)
Lemma cone_cover (w : pt) ws u : (forall e, In e (pairs (w :: ws ++ [w])) -> 0 < vcross (fst e) (snd e)) -> u <> (0, 0) ->
  exists e al be, In e (pairs (w :: ws ++ [w])) /\ 0 <= al /\ 0 <= be /\ fst u = al * fst (fst e) + be * fst (snd e) /\ snd u = al * snd (fst e) + be * snd (snd e).
Proof.
  intros H U. set (s := fun a : pt => vcross a u).
  assert (N2 : 0 < fst u * fst u + snd u * snd u).
  { destruct (Req_dec (fst u) 0) as [E1|E1], (Req_dec (snd u) 0) as [E2|E2]; [exfalso; apply U; destruct u; cbn in *; congruence|nra|nra|nra]. }
  destruct (Exists_dec (fun e : pt * pt => 0 <= s (fst e) /\ s (snd e) <= 0) (pairs (w :: ws ++ [w]))) as [D|D].
  { intros e. destruct (Rle_dec 0 (s (fst e))), (Rle_dec (s (snd e)) 0); [left; tauto|right; tauto|right; tauto|right; tauto]. }
  - apply Exists_exists in D as ([a b] & He & S1 & S2). specialize (H _ He). cbn [fst snd] in *. unfold s, vcross in *.
    exists (a, b), ((fst u * snd b - snd u * fst b) / (fst a * snd b - snd a * fst b)), ((fst a * snd u - snd a * fst u) / (fst a * snd b - snd a * fst b)). cbn [fst snd].
    split; [exact He|]. split; [apply Rmult_le_pos; [lra|left; apply Rinv_0_lt_compat; lra]|]. split; [apply Rmult_le_pos; [lra|left; apply Rinv_0_lt_compat; lra]|].
    split; field; lra.
  - exfalso. assert (K : forall e, In e (pairs (w :: ws ++ [w])) -> 0 <= s (fst e) -> 0 < s (snd e)).
    { intros e He S. apply Rnot_le_lt. intros S'. apply D. apply Exists_exists. exists e. auto. }
    assert (G : forall P : R -> Prop, (forall x y, P x -> P y -> 0 < x * y) -> (forall x, In x (w :: ws ++ [w]) -> P (s x)) -> False).
    { intros P PP All. set (g := fun a : pt => vdot a u / s a).
      assert (L : g w < g w); [|lra]. apply (chain_lt g w ws w). intros [a b] He. cbn [fst snd].
      pose proof (H _ He) as C. destruct (pairs_in _ _ He) as [I1 I2]. cbn [fst snd] in *.
      pose proof (PP _ _ (All _ I1) (All _ I2)) as S. unfold g.
      assert (Na : s a <> 0) by (intros E; rewrite E in S; lra). assert (Nb : s b <> 0) by (intros E; rewrite E in S; lra).
      apply Rminus_gt_0_lt. replace (vdot b u / s b - vdot a u / s a) with (vcross a b * (fst u * fst u + snd u * snd u) / (s a * s b)).
      - apply Rmult_lt_0_compat; [nra|apply Rinv_0_lt_compat; exact S].
      - unfold s, vdot, vcross in *. field. split; assumption. }
    destruct (Rle_dec 0 (s w)) as [S|S].
    + assert (All : forall x, In x (ws ++ [w]) -> 0 < s x) by (apply (chain_all (fun x => 0 <= s x) (fun x => 0 < s x) w); auto; intros; lra).
      apply (G (fun x => 0 < x)); [intros; nra|]. intros x [<-|Hx]; [|apply All; exact Hx]. apply All, in_or_app. right. left. reflexivity.
    + apply (G (fun x => x < 0)); [intros; nra|]. intros x Hx. apply Rnot_le_lt. intros S'. apply S.
      assert (Q : exists l1 l2, w :: ws ++ [w] = l1 ++ x :: l2 /\ (l2 = [] /\ x = w \/ In w l2)).
      { destruct Hx as [<-|Hx]; [exists [], (ws ++ [w]); split; [reflexivity|right; apply in_or_app; right; left; reflexivity]|].
        apply in_app_or in Hx as [Hx|[<-|[]]].
        - apply in_split in Hx as (l1 & l2 & ->). exists (w :: l1), (l2 ++ [w]). split; [cbn; rewrite <- app_assoc; reflexivity|]. right. apply in_or_app. right. left. reflexivity.
        - exists (w :: ws), []. split; [reflexivity|]. left. auto. }
      destruct Q as (l1 & l2 & E & [[-> ->]|Q]); [exact S'|]. left.
      apply (chain_all (fun x => 0 <= s x) (fun x => 0 < s x) x l2); auto; [|intros; lra]. intros e He. apply K. rewrite E. apply pairs_mid, He.
Qed.

Lemma pairs_map {A B} (f : A -> B) (l : list A) : pairs (map f l) = map (fun e => (f (fst e), f (snd e))) (pairs l).
Proof. induction l as [|a [|b l] IH]; [reflexivity|reflexivity|]. cbn [map] in *. rewrite !pairs_cons, IH. reflexivity. Qed.

(** * Cells *)
Section Cells.
  Variable sites : list pt.
  Variable p : pt.
  Notation region := (voronoi_region sites p).

  Lemma hull_region cs : (forall c, In c cs -> region c) -> forall x, in_hull cs x -> region x.
  Proof.
    intros HC x HX q Hq. apply dist_le. destruct (HX (vsub q p)) as (c & Hc & L). specialize (HC c Hc q Hq). apply dist_le in HC.
    unfold vdot, vsub in *; cbn [fst snd] in *. lra.
  Qed.
  (** outward normals around the cell, each consecutive pair of them with a corner of the cell that is extreme in both directions *)
  Lemma normals_hull n ns cs x : cs <> [] ->
    (forall e, In e (pairs (n :: ns ++ [n])) -> 0 < vcross (fst e) (snd e) /\ exists z, In z cs /\ vdot (fst e) x <= vdot (fst e) z /\ vdot (snd e) x <= vdot (snd e) z) ->
    in_hull cs x.
  Proof.
    intros HN HE u.
    assert (U : u = (0, 0) \/ u <> (0, 0)).
    { destruct u as [a b]. destruct (Req_dec a 0) as [->|U1]; [destruct (Req_dec b 0) as [->|U2]; [left; reflexivity|]|]; right; intros E; injection E; intros; lra. }
    destruct U as [->|U].
    - destruct cs as [|c cs]; [congruence|]. exists c. split; [left; reflexivity|]. unfold vdot; cbn. lra.
    - destruct (cone_cover n ns u) as (e & al & be & He & A0 & B0 & E1 & E2); [intros e He; apply (HE e He)|exact U|].
      destruct (HE e He) as (_ & z & Hz & L1 & L2). exists z. split; [exact Hz|]. unfold vdot in *. rewrite E1, E2. nra.
  Qed.
  (** a closed fan of neighbours and the centers of its triangles *)
  Lemma closed_cell w ws cs : incl (w :: ws) sites ->
    (forall e, In e (pairs (w :: ws ++ [w])) -> 0 < orient p (fst e) (snd e) /\ exists z, In z cs /\ dist z p = dist z (fst e) /\ dist z p = dist z (snd e)) ->
    cs <> [] -> forall x, region x -> in_hull cs x.
  Proof.
    intros Hws HE HN x HX. apply (normals_hull (vsub w p) (map (fun a => vsub a p) ws)); [exact HN|].
    replace (vsub w p :: map (fun a => vsub a p) ws ++ [vsub w p]) with (map (fun a => vsub a p) (w :: ws ++ [w])) by (cbn [map]; rewrite map_app; reflexivity).
    rewrite pairs_map. intros e He. apply in_map_iff in He as ([a b] & <- & He). cbn [fst snd].
    destruct (HE _ He) as (O & z & Hz & D1 & D2). destruct (pairs_in _ _ He) as [I1 I2]. cbn [fst snd] in *. split; [exact O|].
    exists z. split; [exact Hz|].
    assert (S : forall y, In y (w :: ws ++ [w]) -> In y sites) by (intros y Hy; apply Hws; rewrite app_comm_cons in Hy; apply in_app_or in Hy as [Hy|[<-|[]]]; [exact Hy|left; reflexivity]).
    pose proof (proj1 (dist_le x p a) (HX a (S a I1))) as L1. pose proof (proj1 (dist_le x p b) (HX b (S b I2))) as L2.
    apply dist_eq in D1, D2. unfold vdot, vsub in *; cbn [fst snd] in *. lra.
  Qed.

  (** an open fan from [a] to [b], in a wedge not larger than a half-plane *)
  Lemma mid_normal a x : region x -> In a sites -> vdot (vsub a p) x <= vdot (vsub a p) (midpoint p a).
  Proof.
    intros HX Ha. pose proof (proj1 (dist_le x p a) (HX a Ha)) as L. unfold vdot, vsub, midpoint in *; cbn [fst snd] in *. lra.
  Qed.
  Definition right_of (a : pt) : pt := (snd a, - fst a).
  Definition left_of (a : pt) : pt := (- snd a, fst a).
  Lemma pairs_snoc {A} (l : list A) y z : pairs ((l ++ [y]) ++ [z]) = pairs (l ++ [y]) ++ [(y, z)].
  Proof.
    induction l as [|a [|b l] IH]; [reflexivity|reflexivity|]. cbn [app] in *. rewrite !pairs_cons, IH. reflexivity.
  Qed.
  Lemma open_cell a ws b cs : incl (a :: ws ++ [b]) sites -> a <> p -> b <> p ->
    (forall e, In e (pairs (a :: ws ++ [b])) -> 0 < orient p (fst e) (snd e) /\ exists z, In z cs /\ dist z p = dist z (fst e) /\ dist z p = dist z (snd e)) ->
    In (midpoint p a) cs -> In (midpoint p b) cs ->
    0 < orient p a b /\ In p cs \/ orient p a b = 0 /\ vdot (vsub a p) (vsub b p) < 0 ->
    forall x, region x -> 0 <= orient p a x -> orient p b x <= 0 -> in_hull cs x.
  Proof.
    intros Hws Na Nb HE Ma Mb HP x HX Wa Wb.
    assert (HN : cs <> []) by (intros ->; destruct Ma).
    assert (SQ : forall c, c <> p -> 0 < vdot (vsub c p) (vsub c p)).
    { intros [c1 c2] H. unfold vdot, vsub; cbn [fst snd]. destruct (Req_dec c1 (fst p)) as [E1|E1]; [destruct (Req_dec c2 (snd p)) as [E2|E2]|].
      2: pose proof (Rlt_0_sqr (c2 - snd p) ltac:(lra)); pose proof (Rle_0_sqr (c1 - fst p)); unfold Rsqr in *; lra.
      2: pose proof (Rlt_0_sqr (c1 - fst p) ltac:(lra)); pose proof (Rle_0_sqr (c2 - snd p)); unfold Rsqr in *; lra.
      exfalso. apply H. destruct p; cbn in *; congruence. }
    assert (Q1 : 0 < vcross (right_of (vsub a p)) (vsub a p) /\ exists z, In z cs /\ vdot (right_of (vsub a p)) x <= vdot (right_of (vsub a p)) z /\ vdot (vsub a p) x <= vdot (vsub a p) z).
    { split; [pose proof (SQ a Na); unfold vdot, vcross, right_of, vsub in *; cbn [fst snd] in *; lra|]. exists (midpoint p a). split; [exact Ma|].
      split; [|apply mid_normal; [exact HX|apply Hws; left; reflexivity]].
      unfold orient, vdot, vcross, right_of, midpoint, vsub in *; cbn [fst snd] in *. lra. }
    assert (Q2 : forall e, In e (pairs (map (fun c => vsub c p) (a :: ws ++ [b]))) -> 0 < vcross (fst e) (snd e) /\ exists z, In z cs /\ vdot (fst e) x <= vdot (fst e) z /\ vdot (snd e) x <= vdot (snd e) z).
    { rewrite pairs_map. intros e He. apply in_map_iff in He as ([c d] & <- & He). cbn [fst snd].
      destruct (HE _ He) as (O & z & Hz & D1 & D2). destruct (pairs_in _ _ He) as [I1 I2]. cbn [fst snd] in *. split; [exact O|].
      exists z. split; [exact Hz|].
      pose proof (proj1 (dist_le x p c) (HX c (Hws c I1))) as L1. pose proof (proj1 (dist_le x p d) (HX d (Hws d I2))) as L2.
      apply dist_eq in D1, D2. unfold vdot, vsub in *; cbn [fst snd] in *. lra. }
    assert (Mp : map (fun c => vsub c p) (a :: ws ++ [b]) = vsub a p :: map (fun c => vsub c p) ws ++ [vsub b p]) by (cbn [map]; rewrite map_app; reflexivity).
    rewrite Mp in Q2.
    destruct HP as [[O P]|[O V]].
    - apply (normals_hull (right_of (vsub a p)) (vsub a p :: map (fun c => vsub c p) ws ++ [vsub b p; left_of (vsub b p)])); [exact HN|].
      intros e He.
      assert (E : (right_of (vsub a p) :: (vsub a p :: map (fun c => vsub c p) ws ++ [vsub b p; left_of (vsub b p)]) ++ [right_of (vsub a p)]) =
        ((right_of (vsub a p) :: (vsub a p :: map (fun c => vsub c p) ws) ++ [vsub b p]) ++ [left_of (vsub b p)]) ++ [right_of (vsub a p)]).
      { cbn [app]. rewrite <- !app_assoc. reflexivity. }
      rewrite E in He. rewrite (pairs_snoc (right_of (vsub a p) :: (vsub a p :: map (fun c => vsub c p) ws) ++ [vsub b p])) in He.
      rewrite app_comm_cons, pairs_snoc in He. apply in_app_or in He as [He|[<-|[]]].
      + apply in_app_or in He as [He|[<-|[]]].
        * cbn [app] in He. rewrite pairs_cons in He. destruct He as [<-|He]; [exact Q1|]. apply Q2. exact He.
        * cbn [fst snd]. split; [pose proof (SQ b Nb); unfold vdot, vcross, left_of, vsub in *; cbn [fst snd] in *; lra|]. exists (midpoint p b). split; [exact Mb|].
          split; [apply mid_normal; [exact HX|apply Hws; right; apply in_or_app; right; left; reflexivity]|].
          unfold orient, vdot, vcross, left_of, midpoint, vsub in *; cbn [fst snd] in *. lra.
      + cbn [fst snd]. split; [unfold orient, vdot, vcross, left_of, right_of, vsub in *; cbn [fst snd] in *; lra|]. exists p. split; [exact P|].
        unfold orient, vdot, vcross, left_of, right_of, vsub in *; cbn [fst snd] in *. lra.
    - apply (normals_hull (right_of (vsub a p)) (vsub a p :: map (fun c => vsub c p) ws ++ [vsub b p])); [exact HN|].
      intros e He. rewrite app_comm_cons, app_comm_cons, app_comm_cons in He. cbn [app] in He.
      change (right_of (vsub a p) :: vsub a p :: ?l) with (right_of (vsub a p) :: vsub a p :: l) in He.
      assert (E : right_of (vsub a p) :: vsub a p :: (map (fun c => vsub c p) ws ++ [vsub b p]) ++ [right_of (vsub a p)] =
        ((right_of (vsub a p) :: vsub a p :: map (fun c => vsub c p) ws) ++ [vsub b p]) ++ [right_of (vsub a p)]) by reflexivity.
      rewrite E, pairs_snoc in He. apply in_app_or in He as [He|[<-|[]]].
      + cbn [app] in He. rewrite pairs_cons in He. destruct He as [<-|He]; [exact Q1|]. apply Q2. exact He.
      + cbn [fst snd].
        assert (K : 0 < vcross (vsub b p) (right_of (vsub a p))) by (unfold orient, vdot, vcross, right_of, vsub in *; cbn [fst snd] in *; lra).
        split; [exact K|]. exists (midpoint p b). split; [exact Mb|].
        split; [apply mid_normal; [exact HX|apply Hws; right; apply in_or_app; right; left; reflexivity]|].
        unfold orient, vdot, vcross, right_of, midpoint, vsub in *; cbn [fst snd] in *. lra.
  Qed.
End Cells.

(** ** Where the circumcenter lies *)
Lemma nonobtuse_center a b c z : orient a b c <> 0 -> nonobtuse a b c -> dist z a = dist z b -> dist z b = dist z c -> in_hull [a; b; c] z.
Proof.
  intros O (NA & NB & NC) E1 E2 u. assert (E3 : dist z a = dist z c) by lra. clear E2. apply dist_eq in E1, E3.
  set (D := orient a b c) in *.
  set (wa := vdot (vsub b c) (vsub b c) * vdot (vsub b a) (vsub c a)). set (wb := vdot (vsub c a) (vsub c a) * vdot (vsub a b) (vsub c b)).
  set (wc := vdot (vsub b a) (vsub b a) * vdot (vsub a c) (vsub b c)).
  assert (SQ : forall v, 0 <= vdot v v) by (intros v; unfold vdot; pose proof (Rle_0_sqr (fst v)); pose proof (Rle_0_sqr (snd v)); unfold Rsqr in *; lra).
  assert (Wa : 0 <= wa) by (apply Rmult_le_pos; auto). assert (Wb : 0 <= wb) by (apply Rmult_le_pos; auto). assert (Wc : 0 <= wc) by (apply Rmult_le_pos; auto).
  assert (S : wa + wb + wc = 2 * (D * D)) by (unfold wa, wb, wc, D, orient, vcross, vdot, vsub; cbn [fst snd]; ring).
  assert (P : 0 < D * D) by (pose proof (Rlt_0_sqr D O); unfold Rsqr in *; lra).
  assert (B : 2 * (D * D) * vdot u z = wa * vdot u a + wb * vdot u b + wc * vdot u c).
  { set (zx := fst z - fst a) in *. set (zy := snd z - snd a) in *.
    assert (X : 2 * D * zx = vdot (vsub b a) (vsub b a) * (snd c - snd a) - vdot (vsub c a) (vsub c a) * (snd b - snd a)).
    { rewrite <- E1, <- E3. unfold D, zx, orient, vcross, vdot, vsub; cbn [fst snd]; ring. }
    assert (Y : 2 * D * zy = vdot (vsub c a) (vsub c a) * (fst b - fst a) - vdot (vsub b a) (vsub b a) * (fst c - fst a)).
    { rewrite <- E1, <- E3. unfold D, zy, orient, vcross, vdot, vsub; cbn [fst snd]; ring. }
    assert (F : 2 * (D * D) * vdot u z = fst u * (D * (2 * D * zx)) + snd u * (D * (2 * D * zy)) + 2 * (D * D) * vdot u a) by (unfold zx, zy, vdot; ring).
    rewrite F, X, Y, <- S. unfold wa, wb, wc, D, orient, vcross, vdot, vsub; cbn [fst snd]; ring. }
  destruct (Rle_dec (vdot u z) (vdot u a)) as [L|La]; [exists a; cbn; auto|].
  destruct (Rle_dec (vdot u z) (vdot u b)) as [L|Lb]; [exists b; cbn; auto|].
  destruct (Rle_dec (vdot u z) (vdot u c)) as [L|Lc]; [exists c; cbn; auto|].
  exfalso. apply Rnot_le_lt in La, Lb, Lc. rewrite <- S in B.
  assert (Ga : wa * vdot u a <= wa * vdot u z) by (apply Rmult_le_compat_l; lra). assert (Gb : wb * vdot u b <= wb * vdot u z) by (apply Rmult_le_compat_l; lra).
  assert (Gc : wc * vdot u c <= wc * vdot u z) by (apply Rmult_le_compat_l; lra).
  assert (Pw : 0 < wa \/ 0 < wb \/ 0 < wc) by (destruct (Rlt_dec 0 wa); [auto|]; destruct (Rlt_dec 0 wb); [auto|]; right; right; lra).
  destruct Pw as [Pw|[Pw|Pw]].
  - pose proof (Rmult_lt_compat_l wa _ _ Pw La). lra.
  - pose proof (Rmult_lt_compat_l wb _ _ Pw Lb). lra.
  - pose proof (Rmult_lt_compat_l wc _ _ Pw Lc). lra.
Qed.
