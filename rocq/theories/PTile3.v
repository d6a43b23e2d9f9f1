(** The Voronoi vertices of a convex domain lie in it. *)
From Coq Require Import Reals Lra Lia ZArith List Bool Permutation Classical_Prop.
From Verif Require Import Base Spec MUtil MGeom MHull MPolygon MMaps MTriangle MGen MRegion MDelaunay MVoronoi Bridge BridgeTile.
From Verif Require Import PUtil PPoint PPoly PPoly2 PTri PMore PContains PDelaunay PVoronoi PFan PVorGeo PVorCell PConvex PVorConvex PWedge PBorderCell PVorBorder PTile PTile2.
Import ListNotations.

Section Plane.
  Local Open Scope R_scope.
  Lemma cap_empty S s t x h : 0 < S -> 0 < h -> 0 <= t -> 0 <= x <= S -> s * s + t * t <= 2 * (s * x - t * h) ->
    s * s + t * t - 2 * (s * x - t * h) <= S * S - 2 * S * x -> s * S <= s * s + t * t -> t = 0.
  Proof.
    intros HS Hh Ht [X0 X1] H1 H2 G. destruct (Rle_lt_or_eq_dec _ _ Ht) as [P|]; [|auto]. exfalso.
    assert (TH : 0 < t * h) by (apply Rmult_lt_0_compat; assumption). pose proof (Rle_0_sqr s) as Q1. pose proof (Rle_0_sqr (S - s)) as Q2. pose proof (Rlt_0_sqr t ltac:(lra)) as Q3. unfold Rsqr in *.
    assert (S0 : 0 < s). { apply Rnot_le_lt. intros L. assert (s * x <= 0) by nra. lra. }
    assert (S1 : 0 < S - s). { apply Rnot_le_lt. intros L. assert (E : 0 < (S - x) * (S - s)) by lra. assert ((S - x) * (S - s) <= 0) by nra. lra. }
    destruct (Rle_dec (2 * x) S) as [C|C].
    - assert (2 * (s * x) <= s * S) by nra. lra.
    - assert (0 <= (2 * x - S) * (S - s)) by (apply Rmult_le_pos; lra). lra.
  Qed.
  Lemma gabriel_cap p a c v : orient p a c < 0 -> 0 <= vdot (vsub a p) (vsub c p) <= vdot (vsub a p) (vsub a p) -> 0 <= orient p a v ->
    dist c v <= dist c p -> dist c v <= dist c a -> dist (midpoint p a) p <= dist (midpoint p a) v -> orient p a v = 0.
  Proof.
    intros O [D0 D1] OV L1 L2 G. apply dist_le in L1, L2, G. destruct p as [p1 p2], a as [a1 a2], c as [c1 c2], v as [v1 v2]. unfold orient, vcross, vdot, vsub, midpoint in *. cbn [fst snd] in *.
    set (A1 := a1 - p1) in *. set (A2 := a2 - p2) in *. set (X1 := c1 - p1) in *. set (X2 := c2 - p2) in *. set (V1 := v1 - p1) in *. set (V2 := v2 - p2) in *.
    assert (S0 : 0 < A1 * A1 + A2 * A2) by (destruct (Req_dec A1 0) as [Z1|Z1], (Req_dec A2 0) as [Z2|Z2]; [rewrite Z1, Z2 in O; lra|nra|nra|nra]).
    assert (K1 : V1 * V1 + V2 * V2 <= 2 * (V1 * X1 + V2 * X2)) by (unfold V1, V2, X1, X2 in *; lra).
    assert (K2 : V1 * V1 + V2 * V2 - 2 * (V1 * X1 + V2 * X2) <= A1 * A1 + A2 * A2 - 2 * (A1 * X1 + A2 * X2)) by (unfold A1, A2, V1, V2, X1, X2 in *; lra).
    assert (K3 : A1 * V1 + A2 * V2 <= V1 * V1 + V2 * V2) by (unfold A1, A2, V1, V2, X1, X2 in *; lra).
    clearbody A1 A2 X1 X2 V1 V2. clear - O D0 D1 OV K1 K2 K3 S0.
    set (S := A1 * A1 + A2 * A2) in *. set (x := A1 * X1 + A2 * X2) in *. set (s := A1 * V1 + A2 * V2) in *. set (t := A1 * V2 - A2 * V1) in *. set (h := - (A1 * X2 - A2 * X1)).
    assert (E1 : S * (V1 * V1 + V2 * V2) = s * s + t * t) by (unfold S, s, t; ring).
    assert (E2 : S * (V1 * X1 + V2 * X2) = s * x - t * h) by (unfold S, s, t, x, h; ring).
    apply (cap_empty S s t x h); [exact S0|unfold h; lra|exact OV|split; assumption| | |].
    - rewrite <- E1, <- E2. nra.
    - rewrite <- E1, <- E2. apply (Rmult_le_compat_l S) in K2; lra.
    - rewrite <- E1. apply (Rmult_le_compat_l S) in K3; lra.
  Qed.
  (** a point outside of a convex corner is beyond one of the two edges, or the corner is nearer to it than all points of the wedge *)
  Lemma outside_corner p a b c : convex_corner p a b -> ~ wedge p a b c ->
    (orient p a c < 0 /\ 0 <= vdot (vsub a p) (vsub c p)) \/ (0 < orient p b c /\ 0 <= vdot (vsub b p) (vsub c p)) \/
    (forall v, wedge p a b v -> dist c v <= dist c p -> v = p).
  Proof.
    intros CV NW. unfold wedge in *.
    assert (SQ : forall v, vdot (vsub c p) (vsub v p) <= 0 -> dist c v <= dist c p -> v = p).
    { intros [v1 v2] H L. apply dist_le in L. destruct p as [p1 p2], c as [c1 c2]. unfold vdot, vsub in *. cbn [fst snd] in *.
      pose proof (Rle_0_sqr (v1 - p1)) as Q1. pose proof (Rle_0_sqr (v2 - p2)) as Q2. unfold Rsqr in *.
      assert (Z : (v1 - p1) * (v1 - p1) + (v2 - p2) * (v2 - p2) <= 0) by lra.
      assert (v1 - p1 = 0) by nra. assert (v2 - p2 = 0) by nra. f_equal; lra. }
    destruct p as [p1 p2], a as [a1 a2], b as [b1 b2], c as [c1 c2]. unfold convex_corner, orient, vcross, vdot, vsub in *. cbn [fst snd] in *.
    set (A1 := a1 - p1) in *. set (A2 := a2 - p2) in *. set (X1 := c1 - p1) in *. set (X2 := c2 - p2) in *. set (B1 := b1 - p1) in *. set (B2 := b2 - p2) in *.
    destruct (Rlt_dec (A1 * X2 - A2 * X1) 0) as [OA|OA]; [destruct (Rle_dec 0 (A1 * X1 + A2 * X2)) as [DA|DA]; [left; lra|]|].
    all: destruct (Rlt_dec 0 (B1 * X2 - B2 * X1)) as [OB|OB]; [destruct (Rle_dec 0 (B1 * X1 + B2 * X2)) as [DB|DB]; [right; left; lra|]|].
    4: exfalso; apply NW; lra.
    all: right; right; intros [v1 v2] [W1 W2] L; apply (SQ (v1, v2)); [|exact L]; cbn [fst snd] in *; clear SQ L NW;
      set (V1 := v1 - p1) in *; set (V2 := v2 - p2) in *; clearbody A1 A2 B1 B2 X1 X2 V1 V2.
    - destruct CV as [O|[O D]].
      + assert (E : (A1 * B2 - A2 * B1) * (X1 * V1 + X2 * V2) = - (B1 * V2 - B2 * V1) * (A1 * X1 + A2 * X2) + (A1 * V2 - A2 * V1) * (B1 * X1 + B2 * X2)) by ring.
        apply Rnot_lt_le. intros N. assert (0 < (A1 * B2 - A2 * B1) * (X1 * V1 + X2 * V2)) by (apply Rmult_lt_0_compat; assumption). nra.
      + exfalso. assert (SA : 0 < A1 * A1 + A2 * A2) by (destruct (Req_dec A1 0) as [Z1|Z1], (Req_dec A2 0) as [Z2|Z2]; [rewrite Z1, Z2 in D; lra|nra|nra|nra]).
        assert (E : (A1 * A1 + A2 * A2) * (B1 * X1 + B2 * X2) = (A1 * B1 + A2 * B2) * (A1 * X1 + A2 * X2) + (A1 * B2 - A2 * B1) * (A1 * X2 - A2 * X1)) by ring. rewrite O in E.
        assert (0 < (A1 * B1 + A2 * B2) * (A1 * X1 + A2 * X2)) by nra. assert ((A1 * A1 + A2 * A2) * (B1 * X1 + B2 * X2) < 0) by nra. lra.
    - assert (SA : 0 < A1 * A1 + A2 * A2) by (destruct (Req_dec A1 0) as [Z1|Z1], (Req_dec A2 0) as [Z2|Z2]; [rewrite Z1, Z2 in DA; lra|nra|nra|nra]).
      assert (E1 : (A1 * A1 + A2 * A2) * (B1 * X2 - B2 * X1) = (A1 * B1 + A2 * B2) * (A1 * X2 - A2 * X1) - (A1 * B2 - A2 * B1) * (A1 * X1 + A2 * X2)) by ring.
      assert (E2 : (A1 * A1 + A2 * A2) * (B1 * X1 + B2 * X2) = (A1 * B1 + A2 * B2) * (A1 * X1 + A2 * X2) + (A1 * B2 - A2 * B1) * (A1 * X2 - A2 * X1)) by ring.
      assert (E0 : (A1 * A1 + A2 * A2) * (B1 * X2 - B2 * X1) <= 0) by nra.
      destruct CV as [O|[O D]].
      + assert (AB : 0 < A1 * B1 + A2 * B2). { apply Rnot_le_lt. intros N. assert (0 <= (A1 * B1 + A2 * B2) * (A1 * X2 - A2 * X1)) by nra. assert ((A1 * B2 - A2 * B1) * (A1 * X1 + A2 * X2) < 0) by nra. lra. }
        assert (DB : B1 * X1 + B2 * X2 < 0). { apply Rnot_le_lt. intros N. assert (0 <= (A1 * A1 + A2 * A2) * (B1 * X1 + B2 * X2)) by nra. assert ((A1 * B1 + A2 * B2) * (A1 * X1 + A2 * X2) < 0) by nra. assert ((A1 * B2 - A2 * B1) * (A1 * X2 - A2 * X1) < 0) by nra. lra. }
        assert (E : (A1 * B2 - A2 * B1) * (X1 * V1 + X2 * V2) = - (B1 * V2 - B2 * V1) * (A1 * X1 + A2 * X2) + (A1 * V2 - A2 * V1) * (B1 * X1 + B2 * X2)) by ring.
        apply Rnot_lt_le. intros N. assert (0 < (A1 * B2 - A2 * B1) * (X1 * V1 + X2 * V2)) by (apply Rmult_lt_0_compat; assumption). nra.
      + exfalso. rewrite O in E1. assert (0 < (A1 * B1 + A2 * B2) * (A1 * X2 - A2 * X1)) by nra. lra.
    - assert (SB : 0 < B1 * B1 + B2 * B2) by (destruct (Req_dec B1 0) as [Z1|Z1], (Req_dec B2 0) as [Z2|Z2]; [rewrite Z1, Z2 in DB; lra|nra|nra|nra]).
      assert (E1 : (B1 * B1 + B2 * B2) * (A1 * X2 - A2 * X1) = (A1 * B1 + A2 * B2) * (B1 * X2 - B2 * X1) + (A1 * B2 - A2 * B1) * (B1 * X1 + B2 * X2)) by ring.
      assert (E2 : (B1 * B1 + B2 * B2) * (A1 * X1 + A2 * X2) = (A1 * B1 + A2 * B2) * (B1 * X1 + B2 * X2) - (A1 * B2 - A2 * B1) * (B1 * X2 - B2 * X1)) by ring.
      assert (E0 : 0 <= (B1 * B1 + B2 * B2) * (A1 * X2 - A2 * X1)) by nra.
      destruct CV as [O|[O D]].
      + assert (AB : 0 < A1 * B1 + A2 * B2). { apply Rnot_le_lt. intros N. assert ((A1 * B1 + A2 * B2) * (B1 * X2 - B2 * X1) <= 0) by nra. assert ((A1 * B2 - A2 * B1) * (B1 * X1 + B2 * X2) < 0) by nra. lra. }
        assert (DA : A1 * X1 + A2 * X2 < 0). { apply Rnot_le_lt. intros N. assert (0 <= (B1 * B1 + B2 * B2) * (A1 * X1 + A2 * X2)) by nra. assert ((A1 * B1 + A2 * B2) * (B1 * X1 + B2 * X2) < 0) by nra. assert (0 < (A1 * B2 - A2 * B1) * (B1 * X2 - B2 * X1)) by nra. lra. }
        assert (E : (A1 * B2 - A2 * B1) * (X1 * V1 + X2 * V2) = - (B1 * V2 - B2 * V1) * (A1 * X1 + A2 * X2) + (A1 * V2 - A2 * V1) * (B1 * X1 + B2 * X2)) by ring.
        apply Rnot_lt_le. intros N. assert (0 < (A1 * B2 - A2 * B1) * (X1 * V1 + X2 * V2)) by (apply Rmult_lt_0_compat; assumption). nra.
      + exfalso. rewrite O in E1. assert ((A1 * B1 + A2 * B2) * (B1 * X2 - B2 * X1) < 0) by nra. lra.
  Qed.
  (** a direction in which a corner and its neighbours do not go beyond it *)
  Lemma corner_extreme p a n b u x : convex_corner p a b -> 0 < orient p a n -> vdot u (vsub a p) <= 0 -> vdot u (vsub b p) <= 0 -> vdot u (vsub n p) <= 0 ->
    wedge p a b x -> vdot u (vsub x p) <= 0.
  Proof.
    intros CV ON UA UB UN [W1 W2]. destruct p as [p1 p2], a as [a1 a2], b as [b1 b2], n as [n1 n2], x as [x1 x2], u as [u1 u2]. unfold convex_corner, orient, vcross, vdot, vsub in *. cbn [fst snd] in *.
    set (A1 := a1 - p1) in *. set (A2 := a2 - p2) in *. set (X1 := x1 - p1) in *. set (X2 := x2 - p2) in *. set (B1 := b1 - p1) in *. set (B2 := b2 - p2) in *. set (N1 := n1 - p1) in *. set (N2 := n2 - p2) in *.
    clearbody A1 A2 B1 B2 X1 X2 N1 N2. destruct CV as [O|[O D]].
    - assert (E : (A1 * B2 - A2 * B1) * (u1 * X1 + u2 * X2) = - (B1 * X2 - B2 * X1) * (u1 * A1 + u2 * A2) + (A1 * X2 - A2 * X1) * (u1 * B1 + u2 * B2)) by ring.
      apply Rnot_lt_le. intros N. assert (0 < (A1 * B2 - A2 * B1) * (u1 * X1 + u2 * X2)) by (apply Rmult_lt_0_compat; assumption). nra.
    - assert (SA : 0 < A1 * A1 + A2 * A2) by (destruct (Req_dec A1 0) as [Z1|Z1], (Req_dec A2 0) as [Z2|Z2]; [rewrite Z1, Z2 in D; lra|nra|nra|nra]).
      assert (E0 : (A1 * A1 + A2 * A2) * (u1 * B1 + u2 * B2) = (A1 * B1 + A2 * B2) * (u1 * A1 + u2 * A2)).
      { replace ((A1 * A1 + A2 * A2) * (u1 * B1 + u2 * B2)) with ((A1 * B1 + A2 * B2) * (u1 * A1 + u2 * A2) + (A1 * B2 - A2 * B1) * (u2 * A1 - u1 * A2)) by ring. rewrite O. ring. }
      assert (UA0 : u1 * A1 + u2 * A2 = 0). { assert (0 <= (A1 * B1 + A2 * B2) * (u1 * A1 + u2 * A2)) by nra. assert ((A1 * A1 + A2 * A2) * (u1 * B1 + u2 * B2) <= 0) by nra. assert ((A1 * B1 + A2 * B2) * (u1 * A1 + u2 * A2) = 0) as Z by lra. apply Rmult_integral in Z as [Z|Z]; lra. }
      assert (E : (A1 * N2 - A2 * N1) * (u1 * X1 + u2 * X2) = (A1 * X2 - A2 * X1) * (u1 * N1 + u2 * N2)).
      { replace ((A1 * N2 - A2 * N1) * (u1 * X1 + u2 * X2)) with (- (N1 * X2 - N2 * X1) * (u1 * A1 + u2 * A2) + (A1 * X2 - A2 * X1) * (u1 * N1 + u2 * N2)) by ring. rewrite UA0. ring. }
      apply Rnot_lt_le. intros N. assert (0 < (A1 * N2 - A2 * N1) * (u1 * X1 + u2 * X2)) by (apply Rmult_lt_0_compat; assumption). nra.
  Qed.
  (** the neighbours all around a point are on all sides of it *)
  Lemma ring_spread p w ws u : (forall e, In e (pairs (w :: ws ++ [w])) -> 0 < orient p (fst e) (snd e)) -> u <> (0, 0) ->
    exists n, In n (w :: ws) /\ 0 < vdot u (vsub n p).
  Proof.
    intros H U. destruct (cone_cover (vsub w p) (map (fun a => vsub a p) ws) u) as (e & al & be & He & A0 & B0 & E1 & E2); [|exact U|].
    - replace (vsub w p :: map (fun a => vsub a p) ws ++ [vsub w p]) with (map (fun a => vsub a p) (w :: ws ++ [w])) by (cbn [map]; rewrite map_app; reflexivity).
      rewrite pairs_map. intros e He. apply in_map_iff in He as ([a b] & <- & He). exact (H _ He).
    - replace (vsub w p :: map (fun a => vsub a p) ws ++ [vsub w p]) with (map (fun a => vsub a p) (w :: ws ++ [w])) in He by (cbn [map]; rewrite map_app; reflexivity).
      rewrite pairs_map in He. apply in_map_iff in He as ([a b] & <- & He). cbn [fst snd] in *. destruct (PVorGeo.pairs_in _ _ He) as [I1 I2]. cbn [fst snd] in *.
      assert (S : forall y, In y (w :: ws ++ [w]) -> In y (w :: ws)) by (intros y Hy; rewrite app_comm_cons in Hy; apply in_app_or in Hy as [Hy|[<-|[]]]; [exact Hy|left; reflexivity]).
      assert (UU : 0 < vdot u u). { destruct u as [u1 u2]. unfold vdot. cbn [fst snd]. destruct (Req_dec u1 0) as [Z1|Z1], (Req_dec u2 0) as [Z2|Z2]; [exfalso; apply U; congruence|nra|nra|nra]. }
      assert (G : vdot u u = al * vdot u (vsub a p) + be * vdot u (vsub b p)) by (unfold vdot at 1; rewrite E1 at 2; rewrite E2 at 2; unfold vdot; ring).
      destruct (Rlt_dec 0 (vdot u (vsub a p))) as [L|L]; [exists a; auto|]. destruct (Rlt_dec 0 (vdot u (vsub b p))) as [L'|L']; [exists b; auto|]. exfalso. nra.
  Qed.
  Lemma least {A} (P : A -> Prop) (d : A -> R) l : (exists x, In x l /\ P x) -> exists x, In x l /\ P x /\ forall y, In y l -> P y -> d x <= d y.
  Proof.
    induction l as [|a l IH]; intros (x & Hx & Px); [destruct Hx|].
    destruct (classic (exists x, In x l /\ P x)) as [Q|Q].
    - destruct (IH Q) as (z & Hz & Pz & M). destruct (classic (P a)) as [Pa|Pa].
      + destruct (Rle_dec (d a) (d z)) as [L|L]; [exists a|exists z].
        * split; [left; reflexivity|]. split; [exact Pa|]. intros y [<-|Hy] Py; [lra|]. specialize (M y Hy Py). lra.
        * split; [right; exact Hz|]. split; [exact Pz|]. intros y [<-|Hy] Py; [lra|]. exact (M y Hy Py).
      + exists z. split; [right; exact Hz|]. split; [exact Pz|]. intros y [<-|Hy] Py; [contradiction|]. exact (M y Hy Py).
    - destruct Hx as [<-|Hx]; [|exfalso; eauto]. exists a. split; [left; reflexivity|]. split; [exact Px|]. intros y [<-|Hy] Py; [lra|]. exfalso; eauto.
  Qed.
  (** three points that are not on a line *)
  Lemma not_flat p a A B C : orient p a A = 0 -> orient p a B = 0 -> orient p a C = 0 -> a <> p -> orient A B C = 0.
  Proof.
    intros H1 H2 H3 N. destruct p as [p1 p2], a as [a1 a2], A as [x1 x2], B as [y1 y2], C as [z1 z2]. unfold orient, vcross, vsub in *. cbn [fst snd] in *.
    destruct (Req_dec a1 p1) as [E1|E1].
    - assert (E2 : a2 - p2 <> 0) by (intros E; apply N; f_equal; lra).
      assert (K1 : (a2 - p2) * (x1 - p1) = 0) by (subst a1; lra). assert (K2 : (a2 - p2) * (y1 - p1) = 0) by (subst a1; lra). assert (K3 : (a2 - p2) * (z1 - p1) = 0) by (subst a1; lra).
      apply Rmult_integral in K1 as [K1|K1]; [contradiction|]. apply Rmult_integral in K2 as [K2|K2]; [contradiction|]. apply Rmult_integral in K3 as [K3|K3]; [contradiction|].
      assert (y1 - x1 = 0) as -> by lra. assert (z1 - x1 = 0) as -> by lra. ring.
    - assert (N1 : a1 - p1 <> 0) by lra. apply (Rmult_eq_reg_l (a1 - p1)); [|exact N1].
      replace ((a1 - p1) * ((y1 - x1) * (z2 - x2) - (y2 - x2) * (z1 - x1))) with
        ((y1 - x1) * ((a1 - p1) * (z2 - p2) - (a1 - p1) * (x2 - p2)) - (z1 - x1) * ((a1 - p1) * (y2 - p2) - (a1 - p1) * (x2 - p2))) by ring.
      replace ((a1 - p1) * (z2 - p2)) with ((a2 - p2) * (z1 - p1)) by lra. replace ((a1 - p1) * (y2 - p2)) with ((a2 - p2) * (y1 - p1)) by lra. replace ((a1 - p1) * (x2 - p2)) with ((a2 - p2) * (x1 - p1)) by lra. ring.
  Qed.
End Plane.
