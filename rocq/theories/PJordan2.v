(** The left sides of the edges of a simple polygon. *)
From Coq Require Import Reals Lra Lia ZArith List Bool Permutation.
From Verif Require Import Base Spec BridgeWind BridgeJordan PContains PAny2 PAny6 PSimple4 PJordan.
Import ListNotations.
Local Open Scope R_scope.
Local Notation edge := (pt * pt)%type.

Lemma overlap (u v w : pt) : v <> u -> vcross (vsub w v) (vsub u v) = 0 -> 0 < vdot (vsub w v) (vsub u v) -> exists z, interior (u, v) z /\ on_segment v w z.
Proof.
  intros D C K. set (p := fst u - fst v). set (q := snd u - snd v). set (r := fst w - fst v). set (s := snd w - snd v).
  assert (CE : r * q = s * p) by (unfold vcross, vsub in C; cbn [fst snd] in C; unfold p, q, r, s; lra). assert (KE : 0 < r * p + s * q) by exact K.
  set (n := p * p + q * q). assert (NP : 0 < n).
  { unfold n. pose proof (Rle_0_sqr p) as P1. pose proof (Rle_0_sqr q) as Q1. unfold Rsqr in P1, Q1. destruct (Req_dec p 0) as [P0|P0]; [destruct (Req_dec q 0) as [Q0|Q0]|].
    - exfalso. apply D. unfold p, q in *. destruct u, v; cbn [fst snd] in *; f_equal; lra.
    - pose proof (Rsqr_pos_lt q Q0) as S. unfold Rsqr in S. lra.
    - pose proof (Rsqr_pos_lt p P0) as S. unfold Rsqr in S. lra. }
  set (k := (r * p + s * q) / n). assert (KP : 0 < k) by (apply Rdiv_lt_0_compat; assumption).
  assert (KN : k * n = r * p + s * q) by (unfold k, Rdiv; rewrite Rmult_assoc, Rinv_l by lra; ring).
  assert (ER : r = k * p) by (apply (Rmult_eq_reg_r n); [|lra]; replace (k * p * n) with (k * n * p) by ring; rewrite KN; unfold n; replace (r * (p * p + q * q)) with (r * p * p + r * q * q) by ring; rewrite CE; ring).
  assert (ES : s = k * q) by (apply (Rmult_eq_reg_r n); [|lra]; replace (k * q * n) with (k * n * q) by ring; rewrite KN; unfold n; replace (s * (p * p + q * q)) with (s * p * p + s * q * q) by ring; rewrite <- CE; ring).
  set (t := Rmin 1 k / 2). assert (TP : 0 < Rmin 1 k) by (apply Rmin_glb_lt; lra). pose proof (Rmin_l 1 k) as M1. pose proof (Rmin_r 1 k) as M2.
  exists (lerp v u t). split.
  - exists (1 - t). split; [unfold t; lra|]. unfold lerp. cbn [fst snd]. f_equal; ring.
  - exists (t / k). split.
    + split; [apply Rlt_le, Rdiv_lt_0_compat; unfold t; lra|]. apply (Rmult_le_reg_r k); [exact KP|]. unfold Rdiv. rewrite Rmult_assoc, Rinv_l by lra. unfold t. lra.
    + unfold lerp. fold p q r s. rewrite ER, ES. assert (X : forall y, t / k * (k * y) = t * y) by (intros y; unfold Rdiv; field; lra). rewrite !X. reflexivity.
Qed.

(** around a corner the left sides of the two edges see the same *)
Lemma corner_local (u v w : pt) A B : v <> u -> v <> w -> ~ (vcross (vsub w v) (vsub u v) = 0 /\ 0 < vdot (vsub w v) (vsub u v)) ->
  (A - B = gate v u - gate v w)%Z ->
  ev (fun t => ((if Rlt_dec (snd (vsub u v)) 0 then B else A) + up (mv v (vsub u v) t) (v, w) + back (u, v) =
                (if Rlt_dec (snd (vsub w v)) 0 then B else A) + up (mv v (vsub w v) t) (u, v) + back (v, w))%Z).
Proof.
  intros DU DW ND G. destruct u as [u1 u2], v as [v1 v2], w as [w1 w2]. unfold vsub, vcross, vdot, gate in *. cbn [fst snd] in *.
  set (p := u1 - v1) in *. set (q := u2 - v2) in *. set (r := w1 - v1) in *. set (s := w2 - v2) in *.
  assert (U1 : u1 = v1 + p) by (unfold p; ring). assert (U2 : u2 = v2 + q) by (unfold q; ring). assert (W1 : w1 = v1 + r) by (unfold r; ring). assert (W2 : w2 = v2 + s) by (unfold s; ring).
  clearbody p q r s. subst u1 u2 w1 w2.
  assert (D1 : p <> 0 \/ q <> 0) by (destruct (Req_dec p 0) as [->|]; [destruct (Req_dec q 0) as [->|]; [exfalso; apply DU; f_equal; ring|]|]; auto).
  assert (D2 : r <> 0 \/ s <> 0) by (destruct (Req_dec r 0) as [->|]; [destruct (Req_dec s 0) as [->|]; [exfalso; apply DW; f_equal; ring|]|]; auto).
  clear DU DW.
  assert (EV : ev (fun t => (0 < s -> 0 < s + t * - q) /\ (s < 0 -> 0 < - s + t * q) /\ (0 < q -> 0 < q + t * - s) /\ (q < 0 -> 0 < - q + t * s))).
  { assert (X : forall x y : R, ev (fun t => 0 < x -> 0 < x + t * y)) by (intros x y; destruct (Rlt_dec 0 x) as [H|H]; [refine (ev_mono _ _ _ (ev_pos x y H)); auto|apply ev_true; intros t T H'; contradiction]).
    refine (ev_mono _ _ _ (ev_and _ _ (ev_and _ _ (X s (- q)) (X (- s) q)) (ev_and _ _ (X q (- s)) (X (- q) s)))). intros t T [[H1 H2] [H3 H4]]. repeat split; auto; intros; [apply H2|apply H4]; lra. }
  refine (ev_mono _ _ _ EV). clear EV. intros t T (H1 & H2 & H3 & H4). rewrite !up_pass. cbn [fst snd mv].
  assert (O1 : orient (v1, v2) (v1 + r, v2 + s) (v1 + t * p, v2 + t * q) = t * (r * q - s * p)) by (unfold orient, vcross, vsub; cbn [fst snd]; ring).
  assert (O2 : orient (v1 + p, v2 + q) (v1, v2) (v1 + t * r, v2 + t * s) = t * (r * q - s * p)) by (unfold orient, vcross, vsub; cbn [fst snd]; ring).
  unfold mv. cbn [fst snd]. rewrite O1, O2. clear O1 O2. set (c := r * q - s * p) in *.
  assert (SC : (t * c < 0 <-> c < 0) /\ (0 < t * c <-> 0 < c)).
  { split; split; intros H; [apply (Rmult_lt_reg_l t); lra|apply Ropp_lt_cancel; rewrite Ropp_0, Ropp_mult_distr_r; apply Rmult_lt_0_compat; lra|apply (Rmult_lt_reg_l t); lra|apply Rmult_lt_0_compat; assumption]. }
  rewrite !(pass_sign _ _ (t * c) c) by apply SC. clear SC.
  assert (TQ : (0 < q -> 0 < t * q) /\ (q < 0 -> t * q < 0) /\ (q = 0 -> t * q = 0)) by (split; [|split]; intros H; [apply Rmult_lt_0_compat; assumption|nra|rewrite H; ring]).
  assert (TS : (0 < s -> 0 < t * s) /\ (s < 0 -> t * s < 0) /\ (s = 0 -> t * s = 0)) by (split; [|split]; intros H; [apply Rmult_lt_0_compat; assumption|nra|rewrite H; ring]).
  destruct TQ as (TQ1 & TQ2 & TQ3), TS as (TS1 & TS2 & TS3). unfold back. cbn [fst snd].
  set (tq := t * q) in *. set (ts := t * s) in *.
  assert (E1 : t * - q = - tq) by (unfold tq; ring). assert (E2 : t * - s = - ts) by (unfold ts; ring). rewrite E1 in H1. rewrite E2 in H3. clear E1 E2. clearbody tq ts.
  assert (C0 : 0 < q -> 0 < s -> c <> 0).
  { intros Q S Z. apply ND. split; [exact Z|]. apply (Rmult_lt_reg_l q); [exact Q|]. rewrite Rmult_0_r. replace (q * (r * p + s * q)) with (p * (r * q) + s * (q * q)) by ring. replace (r * q) with (s * p) by (unfold c in Z; lra).
    assert (0 < s * (q * q)) by (apply Rmult_lt_0_compat; [exact S|apply Rmult_lt_0_compat; exact Q]). pose proof (Rle_0_sqr p) as PP. unfold Rsqr in PP. assert (0 <= s * (p * p)) by (apply Rmult_le_pos; lra). lra. }
  assert (C1 : q < 0 -> s < 0 -> c <> 0).
  { intros Q S Z. apply ND. split; [exact Z|]. apply (Rmult_lt_reg_l (- q)); [lra|]. rewrite Rmult_0_r. replace (- q * (r * p + s * q)) with (- (p * (r * q)) + - s * (q * q)) by ring. replace (r * q) with (s * p) by (unfold c in Z; lra).
    assert (0 < - s * (q * q)) by (apply Rmult_lt_0_compat; [lra|replace (q * q) with (- q * - q) by ring; apply Rmult_lt_0_compat; lra]). pose proof (Rle_0_sqr p) as PP. unfold Rsqr in PP. assert (0 <= - s * (p * p)) by (apply Rmult_le_pos; lra). lra. }
  unfold pass.
  destruct (Rtotal_order q 0) as [Q|[Q|Q]]; destruct (Rtotal_order s 0) as [S|[S|S]];
  destruct (Rlt_dec q 0); try (exfalso; lra); destruct (Rlt_dec s 0); try (exfalso; lra);
  destruct (leR_spec v2 (v2 + tq)); try (exfalso; lra); destruct (leR_spec (v2 + s) (v2 + tq)); try (exfalso; lra);
  destruct (leR_spec (v2 + q) (v2 + ts)); try (exfalso; lra); destruct (leR_spec v2 (v2 + ts)); try (exfalso; lra); cbn [andb negb];
  repeat match goal with |- context [Rlt_dec ?a ?b] => destruct (Rlt_dec a b); try (exfalso; lra) end;
  repeat match goal with H : context [Req_EM_T ?a ?b] |- _ => destruct (Req_EM_T a b); try (exfalso; lra) end;
  repeat match goal with H : context [Rlt_dec ?a ?b] |- _ => destruct (Rlt_dec a b); try (exfalso; lra) end;
  try lia;
  destruct (ltR_spec c 0); destruct (ltR_spec 0 c); try (exfalso; lra); try lia.
  all: try (exfalso; unfold c in *; subst; nra).
Qed.

Lemma last_cons_any {A} (b : A) l x : last (b :: l) x = last l b.
Proof. revert b x. induction l as [|c l IH]; intros b x; [reflexivity|]. change (last (b :: c :: l) x) with (last (c :: l) x). rewrite (IH c x). symmetry. exact (IH c b). Qed.
Lemma tot_pairs (g : pt -> Z) l : forall x, tot (fun e => g (snd e) - g (fst e))%Z (pairs (x :: l)) = (g (last l x) - g x)%Z.
Proof.
  induction l as [|y l IH]; intros x; [unfold tot; cbn; lia|]. change (pairs (x :: y :: l)) with ((x, y) :: pairs (y :: l)). rewrite tot_cons, IH. cbn [fst snd]. rewrite (last_cons_any y l x). lia.
Qed.
Lemma edges_closed vs : closed (edges_of vs).
Proof.
  intros g. destruct vs as [|x l]; [reflexivity|]. cbn [edges_of app]. rewrite tot_pairs, last_last. lia.
Qed.
Lemma flat_closed outlines : closed (flat_map edges_of outlines).
Proof. induction outlines as [|vs l IH]; [intros g; reflexivity|]. cbn [flat_map]. apply closed_app; [apply edges_closed|exact IH]. Qed.

Lemma nodup_part {A} (l1 : list A) : forall l2, NoDup (l1 ++ l2) -> NoDup l1 /\ NoDup l2.
Proof.
  induction l1 as [|a l1 IH]; intros l2 H; [split; [constructor|exact H]|]. cbn [app] in H. apply NoDup_cons_iff in H as [N H]. destruct (IH l2 H) as [H1 H2]. split; [|exact H2].
  apply NoDup_cons_iff. split; [|exact H1]. intros K. apply N, in_or_app. left. exact K.
Qed.
Section Simple.
  Variable outlines : list (list pt).
  Hypothesis S : simple_outlines outlines.
  Notation E := (flat_map edges_of outlines).

  Lemma simple_nodup : NoDup E.
  Proof. apply flat_edges_nodup, (so_corners _ S). Qed.
  Lemma simple_ends a b : In (a, b) E -> a <> b.
  Proof.
    intros H ->. apply in_flat_map in H as (vs & V & H). pose proof (so_long _ S) as L. rewrite Forall_forall in L. specialize (L vs V).
    assert (N : NoDup vs). { pose proof (so_corners _ S) as N. apply in_split in V as (l1 & l2 & ->). rewrite concat_app in N. cbn [concat] in N. apply nodup_part in N as [_ N]. apply nodup_part in N as [N _]. exact N. }
    clear V. destruct vs as [|x l]; [destruct H|]. cbn [edges_of app] in H.
    assert (K : forall l x y, NoDup (x :: l) -> In (b, b) (pairs (x :: l ++ [y])) -> b = last l x /\ b = y).
    { clear. induction l as [|z l IH]; intros x y N H; cbn [app pairs In] in H.
      - destruct H as [H|[]]. injection H as -> ->. auto.
      - destruct H as [H|H]; [injection H as -> ->; apply NoDup_cons_iff in N as [N _]; exfalso; apply N; left; reflexivity|].
        apply NoDup_cons_iff in N as [_ N]. destruct (IH z y N H) as [A B]. split; [|exact B]. rewrite last_cons_any. exact A. }
    destruct (K l x x N H) as [A B]. destruct l as [|y l]; [cbn in L; lia|]. apply NoDup_cons_iff in N as [N _]. apply N. rewrite <- B, A. destruct (exists_last (l := y :: l)) as (l' & z & E'); [discriminate|]. rewrite E', last_last. apply in_or_app. right. left. reflexivity.
  Qed.
  Lemma simple_split e : In e E -> exists E0, Permutation E (e :: E0) /\ forall e', In e' E0 -> In e' E /\ e' <> e.
  Proof.
    intros H. pose proof simple_nodup as N. apply in_split in H as (l1 & l2 & H). rewrite H in *. exists (l1 ++ l2). split; [symmetry; apply Permutation_middle|].
    intros e' I. split; [apply in_app_iff in I; apply in_app_iff; cbn [In]; tauto|]. intros ->. apply NoDup_remove_2 in N. contradiction.
  Qed.
  Lemma interior_ends a b z : a <> b -> interior (a, b) z -> z <> a /\ z <> b /\ on_segment a b z.
  Proof.
    intros D (t & T & ->). cbn [fst snd]. split; [|split; [|exists t; split; [lra|reflexivity]]].
    - intros H. apply D. destruct a as [a1 a2], b as [b1 b2]. unfold lerp in H. cbn [fst snd] in H. injection H as H1 H2. f_equal.
      + assert (K : t * (b1 - a1) = 0) by lra. apply Rmult_integral in K as [K|K]; lra.
      + assert (K : t * (b2 - a2) = 0) by lra. apply Rmult_integral in K as [K|K]; lra.
    - intros H. apply D. destruct a as [a1 a2], b as [b1 b2]. unfold lerp in H. cbn [fst snd] in H. injection H as H1 H2. f_equal.
      + assert (K : (1 - t) * (b1 - a1) = 0) by lra. apply Rmult_integral in K as [K|K]; lra.
      + assert (K : (1 - t) * (b2 - a2) = 0) by lra. apply Rmult_integral in K as [K|K]; lra.
  Qed.
  Lemma interior_off e e' z : In e E -> In e' E -> e' <> e -> interior e z -> ~ on_segment (fst e') (snd e') z.
  Proof.
    destruct e as [a b], e' as [c d]. intros H H' D I O. destruct (interior_ends a b z (simple_ends _ _ H) I) as (Na & Nb & Os).
    destruct (so_meet _ S a b c d z H H' (fun K => D (eq_sym K)) Os O) as [[K _]|[K _]]; contradiction.
  Qed.
  (** what is seen on the left of an edge *)
  Definition lam (e : edge) : Z := (tot (up (lerp (fst e) (snd e) (1 / 2))) E + back e)%Z.
  Lemma lam_at e z : In e E -> interior e z -> (tot (up z) E + back e)%Z = lam e.
  Proof.
    intros H (t & T & ->). unfold lam. f_equal. destruct (simple_split e H) as (E0 & P & K).
    assert (O : forall e' z, In e' E0 -> interior e z -> ~ on_segment (fst e') (snd e') z) by (intros e' z He I; destruct (K e' He) as [K1 K2]; apply (interior_off e); assumption).
    destruct (Rle_dec t (1 / 2)); [|symmetry]; apply (along_edge E e E0); try assumption; try lra; apply flat_closed.
  Qed.
  Lemma lam_step u v w : In (u, v) E -> In (v, w) E -> lam (u, v) = lam (v, w).
  Proof.
    intros H1 H2. pose proof (simple_ends _ _ H1) as D1. pose proof (simple_ends _ _ H2) as D2.
    assert (NE : (v, w) <> (u, v)) by (intros K; injection K as -> ->; apply D1; reflexivity).
    destruct (simple_split _ H1) as (E1 & P1 & K1). assert (I2 : In (v, w) E1) by (apply (Permutation_in _ P1) in H2 as [H2|H2]; [congruence|exact H2]).
    assert (X : exists E0, Permutation E1 ((v, w) :: E0)) by (apply in_split in I2 as (l1 & l2 & ->); exists (l1 ++ l2); symmetry; apply Permutation_middle). destruct X as (E0 & P2).
    assert (P : Permutation E ((u, v) :: (v, w) :: E0)) by (rewrite P1, P2; reflexivity).
    assert (N0 : NoDup ((u, v) :: (v, w) :: E0)) by (apply (Permutation_NoDup P), simple_nodup).
    assert (IN : forall e, In e E0 -> In e E /\ e <> (u, v) /\ e <> (v, w)).
    { intros e He. split; [apply (Permutation_in _ (Permutation_sym P)); right; right; exact He|]. apply NoDup_cons_iff in N0 as [N1 N0]. apply NoDup_cons_iff in N0 as [N2 _]. split; intros ->; [apply N1; right; exact He|contradiction]. }
    assert (OFF : forall e, In e E0 -> ~ on_segment (fst e) (snd e) v).
    { intros [a b] He O. cbn [fst snd] in O. destruct (IN _ He) as (Ie & Q1 & Q2). pose proof (simple_ends _ _ Ie) as D3.
      destruct (so_meet _ S a b v w v Ie H2 Q2 O (proj1 (end_on_seg v w))) as [[F _]|[_ F]].
      - destruct (so_meet _ S a b u v v Ie H1 Q1 O (proj2 (end_on_seg u v))) as [[_ F']|[F' _]]; congruence.
      - destruct (so_meet _ S a b v w v Ie H2 Q2 O (proj1 (end_on_seg v w))) as [[F1 F2]|[F1 F2]]; [|congruence].
        destruct (so_meet _ S a b u v v Ie H1 Q1 O (proj2 (end_on_seg u v))) as [[_ F']|[F' _]]; congruence. }
    assert (ND : ~ (vcross (vsub w v) (vsub u v) = 0 /\ 0 < vdot (vsub w v) (vsub u v))).
    { intros [C K]. destruct (overlap u v w (fun F => D1 (eq_sym F)) C K) as (z & Z1 & Z2). exact (interior_off (u, v) (v, w) z H1 H2 NE Z1 Z2). }
    assert (G : (tot (up v) E0 - tot (dn v) E0 = gate v u - gate v w)%Z).
    { rewrite <- tot_sub, (tot_ext _ (fun e => gate v (snd e) - gate v (fst e))%Z) by (intros e He; apply balance_edge, OFF, He).
      pose proof (flat_closed outlines (gate v)) as C. rewrite (tot_perm _ _ _ P), !tot_cons in C. cbn [fst snd] in C. lia. }
    destruct (ev_some _ (ev_and _ _ (corner_local u v w _ _ (fun F => D1 (eq_sym F)) D2 ND G) (ev_and _ _ (near_list v (vsub u v) E0 OFF) (near_list v (vsub w v) E0 OFF)))) as (t & T & L & M1 & M2).
    assert (Z1 : interior (u, v) (mv v (vsub u v) t)) by (exists (1 - t); split; [lra|]; unfold mv, lerp, vsub; cbn [fst snd]; f_equal; ring).
    assert (Z2 : interior (v, w) (mv v (vsub w v) t)) by (exists t; split; [lra|]; unfold mv, lerp, vsub; cbn [fst snd]; f_equal; ring).
    rewrite <- (lam_at _ _ H1 Z1), <- (lam_at _ _ H2 Z2), !(tot_perm _ _ _ P), !tot_cons, M1, M2.
    assert (U1 : up (mv v (vsub u v) t) (u, v) = 0%Z) by (apply up_line; destruct Z1 as (? & _ & ->); apply orient_lerp).
    assert (U2 : up (mv v (vsub w v) t) (v, w) = 0%Z) by (apply up_line; destruct Z2 as (? & _ & ->); apply orient_lerp).
    rewrite U1, U2. lia.
  Qed.
  Lemma lam_outline vs : In vs outlines -> exists k, forall e, In e (edges_of vs) -> lam e = k.
  Proof.
    intros V. assert (IE : forall e, In e (edges_of vs) -> In e E) by (intros e He; apply in_flat_map; exists vs; auto).
    destruct vs as [|x [|y l]]; [exists 0%Z; intros e []| |].
    - exfalso. pose proof (so_long _ S) as L. rewrite Forall_forall in L. specialize (L _ V). cbn in L. lia.
    - exists (lam (x, y)). intros [a b] He.
      assert (P : forall z, In z (x :: y :: l) -> forall w, In (z, w) E -> lam (z, w) = lam (x, y)).
      { apply (loop_all (fun z => forall w, In (z, w) E -> lam (z, w) = lam (x, y)) x (y :: l) x).
        - intros [u v] Huv H w Hw. cbn [fst snd] in *. assert (IU : In (u, v) E) by (apply IE; exact Huv). rewrite <- (H v IU). symmetry. apply lam_step; assumption.
        - left. reflexivity.
        - intros w Hw. assert (IX : In (x, y) E) by (apply IE; left; reflexivity). destruct (same_pt w y) as [->|D']; [reflexivity|]. assert (D : (x, w) <> (x, y)) by congruence.
          destruct (so_meet _ S x w x y x Hw IX D (proj1 (end_on_seg x w)) (proj1 (end_on_seg x y))) as [[K _]|[_ K]]; exfalso; [exact (simple_ends _ _ Hw K)|exact (simple_ends _ _ IX K)]. }
      apply P; [|apply IE, He]. apply edge_in in He. apply He.
  Qed.
End Simple.
