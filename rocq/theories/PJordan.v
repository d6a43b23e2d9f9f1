(** Simple polygons go around every point of the plane at most once. *)
From Coq Require Import Reals Lra Lia ZArith List Bool Permutation Classical.
From Verif Require Import Base Spec BridgeWind PContains.
Import ListNotations.
Local Open Scope R_scope.
Local Notation sumZ l := (fold_right Z.add 0%Z l).
Local Notation edge := (pt * pt)%type.

(** ** small parameters *)
Definition ev (P : R -> Prop) : Prop := exists e, 0 < e /\ forall t, 0 < t < e -> P t.
Lemma ev_and P Q : ev P -> ev Q -> ev (fun t => P t /\ Q t).
Proof.
  intros (e & E & H) (f & F & K). exists (Rmin e f). split; [apply Rmin_glb_lt; assumption|]. intros t T. pose proof (Rmin_l e f). pose proof (Rmin_r e f). split; [apply H|apply K]; lra.
Qed.
Lemma ev_mono (P Q : R -> Prop) : (forall t, 0 < t -> P t -> Q t) -> ev P -> ev Q.
Proof. intros I (e & E & H). exists e. split; [exact E|]. intros t T. apply I; [lra|apply H, T]. Qed.
Lemma ev_true (P : R -> Prop) : (forall t, 0 < t -> P t) -> ev P.
Proof. intros H. exists 1. split; [lra|]. intros t T. apply H. lra. Qed.
Lemma ev_list {A} (P : A -> R -> Prop) l : (forall x, In x l -> ev (P x)) -> ev (fun t => forall x, In x l -> P x t).
Proof.
  induction l as [|a l IH]; intros H; [apply ev_true; intros t T x []|].
  apply (ev_mono (fun t => P a t /\ forall x, In x l -> P x t)); [intros t _ [K L] x [<-|Hx]; auto|]. apply ev_and; [apply H; left; reflexivity|apply IH; intros x Hx; apply H; right; exact Hx].
Qed.
Lemma ev_pos c d : 0 < c -> ev (fun t => 0 < c + t * d).
Proof.
  intros C. pose proof (Rabs_pos d) as A. exists (c / (Rabs d + 1)). split; [apply Rdiv_lt_0_compat; lra|]. intros t [T T'].
  assert (K : t * (Rabs d + 1) < c) by (apply (Rmult_lt_compat_r (Rabs d + 1)) in T'; [|lra]; unfold Rdiv in T'; rewrite Rmult_assoc, Rinv_l in T' by lra; lra).
  pose proof (Rle_abs (- d)) as B. rewrite Rabs_Ropp in B. assert (0 <= t * (Rabs d + d)) by (apply Rmult_le_pos; lra). lra.
Qed.
Lemma ev_some P : ev P -> exists t, 0 < t < 1 /\ P t.
Proof. intros (e & E & H). exists (Rmin e 1 / 2). pose proof (Rmin_l e 1). pose proof (Rmin_r e 1). assert (0 < Rmin e 1) by (apply Rmin_glb_lt; lra). split; [lra|]. apply H. lra. Qed.

(** ** how an edge passes, seen from just above and from just below *)
Definition pass (a b : bool) (o : R) : Z := if a && negb b && ltR o 0 then (-1)%Z else if b && negb a && ltR 0 o then 1%Z else 0%Z.
Definition up (q : pt) (e : edge) : Z := passes q (fst e) (snd e).
Definition dn (q : pt) (e : edge) : Z := pass (ltR (snd (fst e)) (snd q)) (ltR (snd (snd e)) (snd q)) (orient (fst e) (snd e) q).
Lemma up_pass q e : up q e = pass (leR (snd (fst e)) (snd q)) (leR (snd (snd e)) (snd q)) (orient (fst e) (snd e) q).
Proof.
  unfold up, passes, pass, rises, falls. destruct (leR_spec (snd (fst e)) (snd q)), (leR_spec (snd (snd e)) (snd q)), (ltR_spec (snd q) (snd (snd e))), (ltR_spec (snd q) (snd (fst e))); cbn [andb negb]; try reflexivity; exfalso; lra.
Qed.
Lemma pass_same a o : pass a a o = 0%Z.
Proof. unfold pass. destruct a; reflexivity. Qed.
Lemma pass_sign a b o o' : (o < 0 <-> o' < 0) -> (0 < o <-> 0 < o') -> pass a b o = pass a b o'.
Proof. intros H K. unfold pass. destruct (ltR_spec o 0), (ltR_spec o' 0), (ltR_spec 0 o), (ltR_spec 0 o'); try tauto; try (exfalso; tauto). Qed.
Lemma pass_flat a b : pass a b 0 = 0%Z.
Proof. unfold pass. destruct (ltR_spec 0 0); [exfalso; lra|]. rewrite !andb_false_r. reflexivity. Qed.
Lemma up_line q e : orient (fst e) (snd e) q = 0 -> up q e = 0%Z.
Proof. intros H. rewrite up_pass, H. apply pass_flat. Qed.
Lemma dn_line q e : orient (fst e) (snd e) q = 0 -> dn q e = 0%Z.
Proof. intros H. unfold dn. rewrite H. apply pass_flat. Qed.

Definition mv (v d : pt) (t : R) : pt := (fst v + t * fst d, snd v + t * snd d).
Lemma orient_mv a b v d t : orient a b (mv v d t) = orient a b v + t * vcross (vsub b a) d.
Proof. unfold orient, vcross, vsub, mv. cbn [fst snd]. ring. Qed.

Lemma seg_sym a b z : on_segment a b z -> on_segment b a z.
Proof. intros (t & T & ->). exists (1 - t). split; [lra|]. unfold lerp. cbn [fst snd]. f_equal; ring. Qed.
Lemma line_seg a b v : orient a b v = 0 -> snd a < snd b -> snd a <= snd v <= snd b -> on_segment a b v.
Proof.
  intros O L H. set (t := (snd v - snd a) / (snd b - snd a)). assert (E : t * (snd b - snd a) = snd v - snd a) by (unfold t, Rdiv; rewrite Rmult_assoc, Rinv_l by lra; ring).
  exists t. split.
  - split; [apply Rmult_le_pos; [lra|apply Rlt_le, Rinv_0_lt_compat; lra]|]. apply (Rmult_le_reg_r (snd b - snd a)); lra.
  - unfold lerp. destruct v as [x y]. cbn [fst snd] in *. f_equal; [|lra]. apply (Rmult_eq_reg_r (snd b - snd a)); [|lra].
    unfold orient, vcross, vsub in O. cbn [fst snd] in O. assert (Q : (fst a + t * (fst b - fst a)) * (snd b - snd a) = fst a * (snd b - snd a) + (t * (snd b - snd a)) * (fst b - fst a)) by ring. rewrite Q, E. lra.
Qed.
Lemma orient_swap a b v : orient b a v = - orient a b v.
Proof. unfold orient, vcross, vsub. cbn [fst snd]. ring. Qed.
Lemma flat_span a b v : orient a b v = 0 -> ~ on_segment a b v -> ltR (snd a) (snd v) = ltR (snd b) (snd v) /\ leR (snd a) (snd v) = leR (snd b) (snd v).
Proof.
  intros O N. assert (N1 : ~ (snd a < snd b /\ snd a <= snd v <= snd b)) by (intros [H K]; apply N, line_seg; assumption).
  assert (N2 : ~ (snd b < snd a /\ snd b <= snd v <= snd a)) by (intros [H K]; apply N, seg_sym, line_seg; try assumption; rewrite orient_swap; lra).
  destruct (ltR_spec (snd a) (snd v)), (ltR_spec (snd b) (snd v)), (leR_spec (snd a) (snd v)), (leR_spec (snd b) (snd v)); split; try reflexivity; exfalso; lra.
Qed.
Lemma near_edge v d e : ~ on_segment (fst e) (snd e) v -> ev (fun t => up (mv v d t) e = if Rlt_dec (snd d) 0 then dn v e else up v e).
Proof.
  destruct e as [a b]. cbn [fst snd]. intros N.
  assert (H : forall x : pt, ev (fun t => leR (snd x) (snd (mv v d t)) = if Rlt_dec (snd d) 0 then ltR (snd x) (snd v) else leR (snd x) (snd v))).
  { intros x. unfold mv. cbn [snd]. destruct (Rlt_dec (snd d) 0) as [D|D].
    - destruct (ltR_spec (snd x) (snd v)) as [L|L].
      + apply (ev_mono (fun t => 0 < (snd v - snd x) + t * snd d)); [|apply ev_pos; lra]. intros t T P. destruct (leR_spec (snd x) (snd v + t * snd d)); [reflexivity|exfalso; lra].
      + apply ev_true. intros t T. assert (t * snd d < 0) by (apply Ropp_lt_cancel; rewrite Ropp_0, <- Ropp_mult_distr_r_reverse; apply Rmult_lt_0_compat; lra). destruct (leR_spec (snd x) (snd v + t * snd d)); [exfalso; lra|reflexivity].
    - destruct (leR_spec (snd x) (snd v)) as [L|L].
      + apply ev_true. intros t T. assert (0 <= t * snd d) by (apply Rmult_le_pos; lra). destruct (leR_spec (snd x) (snd v + t * snd d)); [reflexivity|exfalso; lra].
      + apply (ev_mono (fun t => 0 < (snd x - snd v) + t * - snd d)); [|apply ev_pos; lra]. intros t T P. destruct (leR_spec (snd x) (snd v + t * snd d)); [exfalso; lra|reflexivity]. }
  pose proof (ev_and _ _ (H a) (H b)) as HH. clear H. destruct (Req_dec (orient a b v) 0) as [O|O].
  - destruct (flat_span a b v O N) as [E1 E2]. apply (ev_mono (fun t => leR (snd a) (snd (mv v d t)) = (if Rlt_dec (snd d) 0 then ltR (snd a) (snd v) else leR (snd a) (snd v)) /\ leR (snd b) (snd (mv v d t)) = (if Rlt_dec (snd d) 0 then ltR (snd b) (snd v) else leR (snd b) (snd v)))); [|exact HH].
    intros t T [A B]. rewrite !up_pass. unfold dn. cbn [fst snd]. rewrite A, B, <- E1, <- E2. destruct (Rlt_dec (snd d) 0); rewrite !pass_same; reflexivity.
  - assert (S : ev (fun t => (orient a b (mv v d t) < 0 <-> orient a b v < 0) /\ (0 < orient a b (mv v d t) <-> 0 < orient a b v))).
    { destruct (Rlt_dec 0 (orient a b v)) as [P|P].
      - apply (ev_mono (fun t => 0 < orient a b v + t * vcross (vsub b a) d)); [|apply ev_pos, P]. intros t T Q. rewrite orient_mv. lra.
      - apply (ev_mono (fun t => 0 < - orient a b v + t * - vcross (vsub b a) d)); [|apply ev_pos; lra]. intros t T Q. rewrite orient_mv. lra. }
    refine (ev_mono _ _ _ (ev_and _ _ HH S)). intros t T [[A B] [S1 S2]]. rewrite !up_pass. unfold dn. cbn [fst snd]. rewrite A, B, (pass_sign _ _ _ _ S1 S2). destruct (Rlt_dec (snd d) 0); reflexivity.
Qed.

(** ** the balance between above and below *)
Definition gate (v : pt) (x : pt) : Z := if Req_EM_T (snd x) (snd v) then if Rlt_dec (fst x) (fst v) then 1%Z else 0%Z else 0%Z.
Lemma level_seg a b v : snd a = snd v -> snd b = snd v -> fst a <= fst v <= fst b -> on_segment a b v.
Proof.
  intros A B H. destruct (Req_dec (fst a) (fst b)) as [E|E].
  - exists 0. split; [lra|]. destruct v as [x y]. unfold lerp. cbn [fst snd] in *. f_equal; lra.
  - set (t := (fst v - fst a) / (fst b - fst a)). assert (K : t * (fst b - fst a) = fst v - fst a) by (unfold t, Rdiv; rewrite Rmult_assoc, Rinv_l by lra; ring).
    exists t. split; [split; [apply Rmult_le_pos; [lra|apply Rlt_le, Rinv_0_lt_compat; lra]|apply (Rmult_le_reg_r (fst b - fst a)); lra]|].
    destruct v as [x y]. unfold lerp. cbn [fst snd] in *. f_equal; [lra|]. rewrite A, B. ring.
Qed.
Lemma end_on_seg a b : on_segment a b a /\ on_segment a b b.
Proof. split; [exists 0|exists 1]; (split; [lra|]); destruct a, b; unfold lerp; cbn [fst snd]; f_equal; ring. Qed.
Lemma balance_edge v e : ~ on_segment (fst e) (snd e) v -> (up v e - dn v e = gate v (snd e) - gate v (fst e))%Z.
Proof.
  destruct e as [a b]. cbn [fst snd]. intros N. rewrite up_pass. unfold dn, gate. cbn [fst snd].
  assert (NA : ~ (fst a = fst v /\ snd a = snd v)) by (intros [H K]; apply N; replace v with a by (destruct a, v; cbn [fst snd] in *; congruence); apply end_on_seg).
  assert (NB : ~ (fst b = fst v /\ snd b = snd v)) by (intros [H K]; apply N; replace v with b by (destruct b, v; cbn [fst snd] in *; congruence); apply end_on_seg).
  destruct (Req_EM_T (snd a) (snd v)) as [A|A], (Req_EM_T (snd b) (snd v)) as [B|B].
  - rewrite A, B, !pass_same. assert (N1 : ~ (fst a <= fst v <= fst b)) by (intros H; apply N, level_seg; assumption). assert (N2 : ~ (fst b <= fst v <= fst a)) by (intros H; apply N, seg_sym, level_seg; assumption).
    destruct (Rlt_dec (fst b) (fst v)), (Rlt_dec (fst a) (fst v)); try reflexivity; exfalso; lra.
  - assert (O : orient a b v = (snd b - snd v) * (fst a - fst v)) by (unfold orient, vcross, vsub; cbn [fst snd]; rewrite A; ring). rewrite O, A. unfold pass.
    destruct (leR_spec (snd v) (snd v)) as [_|L]; [|exfalso; lra]. destruct (ltR_spec (snd v) (snd v)) as [L|_]; [exfalso; lra|]. cbn [andb negb].
    destruct (Rlt_dec (fst a) (fst v)) as [X|X]; destruct (leR_spec (snd b) (snd v)), (ltR_spec (snd b) (snd v)); try (exfalso; lra); cbn [andb negb];
      destruct (ltR_spec ((snd b - snd v) * (fst a - fst v)) 0), (ltR_spec 0 ((snd b - snd v) * (fst a - fst v))); try reflexivity; exfalso; nra.
  - assert (O : orient a b v = (snd v - snd a) * (fst b - fst v)) by (unfold orient, vcross, vsub; cbn [fst snd]; rewrite B; ring). rewrite O, B. unfold pass.
    destruct (leR_spec (snd v) (snd v)) as [_|L]; [|exfalso; lra]. destruct (ltR_spec (snd v) (snd v)) as [L|_]; [exfalso; lra|]. cbn [andb negb].
    destruct (Rlt_dec (fst b) (fst v)) as [X|X]; destruct (leR_spec (snd a) (snd v)), (ltR_spec (snd a) (snd v)); try (exfalso; lra); cbn [andb negb];
      destruct (ltR_spec ((snd v - snd a) * (fst b - fst v)) 0), (ltR_spec 0 ((snd v - snd a) * (fst b - fst v))); try reflexivity; exfalso; nra.
  - destruct (leR_spec (snd a) (snd v)), (ltR_spec (snd a) (snd v)), (leR_spec (snd b) (snd v)), (ltR_spec (snd b) (snd v)); try (exfalso; lra); lia.
Qed.

(** ** sums over edges *)
Definition tot (f : edge -> Z) (E : list edge) : Z := sumZ (map f E).
Lemma tot_ext f g E : (forall e, In e E -> f e = g e) -> tot f E = tot g E.
Proof. intros H. unfold tot. f_equal. apply map_ext_in, H. Qed.
Lemma tot_cons f e E : tot f (e :: E) = (f e + tot f E)%Z.
Proof. reflexivity. Qed.
Lemma tot_app f E E' : tot f (E ++ E') = (tot f E + tot f E')%Z.
Proof. induction E as [|e E IH]; [reflexivity|]. cbn [app]. rewrite !tot_cons, IH. ring. Qed.
Lemma tot_perm f E E' : Permutation E E' -> tot f E = tot f E'.
Proof. induction 1; rewrite ?tot_cons; lia. Qed.
Lemma tot_sub f g E : (tot (fun e => f e - g e) E = tot f E - tot g E)%Z.
Proof. induction E as [|e E IH]; [reflexivity|]. rewrite !tot_cons, IH. ring. Qed.
Lemma tot_zero f E : (forall e, In e E -> f e = 0%Z) -> tot f E = 0%Z.
Proof. intros H. rewrite (tot_ext f (fun _ => 0%Z) E H). clear H. induction E as [|e E IH]; [reflexivity|]. rewrite tot_cons, IH. reflexivity. Qed.
(** every point is left as often as it is reached *)
Definition closed (E : list edge) : Prop := forall g : pt -> Z, tot (fun e => g (snd e) - g (fst e))%Z E = 0%Z.
Lemma closed_app E E' : closed E -> closed E' -> closed (E ++ E').
Proof. intros H K g. rewrite tot_app, H, K. reflexivity. Qed.
Lemma gates_off v E : closed E -> (forall e, In e E -> ~ on_segment (fst e) (snd e) v) -> tot (up v) E = tot (dn v) E.
Proof.
  intros C N. pose proof (tot_sub (up v) (dn v) E) as S. rewrite (tot_ext _ (fun e => gate v (snd e) - gate v (fst e))%Z) in S by (intros e He; apply balance_edge, N, He). rewrite C in S. lia.
Qed.
Lemma near_list v d E : (forall e, In e E -> ~ on_segment (fst e) (snd e) v) ->
  ev (fun t => tot (up (mv v d t)) E = if Rlt_dec (snd d) 0 then tot (dn v) E else tot (up v) E).
Proof.
  intros N. refine (ev_mono _ _ _ (ev_list (fun e t => up (mv v d t) e = if Rlt_dec (snd d) 0 then dn v e else up v e) E _)).
  - intros t _ H. destruct (Rlt_dec (snd d) 0); apply tot_ext; exact H.
  - intros e He. apply near_edge, N, He.
Qed.

(** ** functions that are constant near every point are constant *)
Lemma locally_constant (f : R -> Z) x y : x <= y -> (forall c, x <= c <= y -> ev (fun t => f (c + t) = f c /\ f (c - t) = f c)) -> f x = f y.
Proof.
  intros L H. destruct (Rle_lt_or_eq_dec x y L) as [L'|<-]; [|reflexivity].
  destruct (MVT_cor2 (fun t => IZR (f t)) (fun _ => 0) x y L') as (c & E & _).
  - intros c C. destruct (H c C) as (e & E & K). intros eps Eps. exists (mkposreal e E). intros h Hn Hb. cbn in Hb.
    assert (Q : f (c + h) = f c).
    { destruct (Rlt_dec 0 h) as [P|P]; [rewrite Rabs_right in Hb by lra; apply (K h); lra|]. rewrite Rabs_left in Hb by lra. replace (c + h) with (c - - h) by ring. apply (K (- h)). lra. }
    rewrite Q. unfold Rminus at 2. rewrite Rplus_opp_r. unfold Rdiv. rewrite Rmult_0_l, Rminus_0_r, Rabs_R0. exact Eps.
  - apply eq_IZR. lra.
Qed.
Lemma lerp_plus a b c t : lerp a b (c + t) = mv (lerp a b c) (vsub b a) t.
Proof. unfold lerp, mv, vsub. cbn [fst snd]. f_equal; ring. Qed.
Lemma lerp_minus a b c t : lerp a b (c - t) = mv (lerp a b c) (vsub a b) t.
Proof. unfold lerp, mv, vsub. cbn [fst snd]. f_equal; ring. Qed.
(** the winding number does not change along a segment that does not meet the chain *)
Lemma segment_constant E a b : closed E -> (forall e z, In e E -> on_segment a b z -> ~ on_segment (fst e) (snd e) z) -> tot (up a) E = tot (up b) E.
Proof.
  intros C N. assert (K : tot (up (lerp a b 0)) E = tot (up (lerp a b 1)) E).
  { apply (locally_constant (fun t => tot (up (lerp a b t)) E)); [lra|]. intros c Hc.
    assert (O : forall e, In e E -> ~ on_segment (fst e) (snd e) (lerp a b c)) by (intros e He; apply (N e _ He); exists c; split; [lra|reflexivity]).
    pose proof (gates_off _ _ C O) as G. apply ev_and.
    - refine (ev_mono _ _ _ (near_list (lerp a b c) (vsub b a) E O)). intros t _ H. rewrite lerp_plus, H. destruct (Rlt_dec _ 0); congruence.
    - refine (ev_mono _ _ _ (near_list (lerp a b c) (vsub a b) E O)). intros t _ H. rewrite lerp_minus, H. destruct (Rlt_dec _ 0); congruence. }
  replace (lerp a b 0) with a in K by (destruct a, b; unfold lerp; cbn [fst snd]; f_equal; ring). replace (lerp a b 1) with b in K by (destruct a, b; unfold lerp; cbn [fst snd]; f_equal; ring). exact K.
Qed.

(** ** the left side of an edge *)
Definition back (e : edge) : Z := if Rlt_dec (snd (snd e)) (snd (fst e)) then 1%Z else if Rlt_dec (snd (fst e)) (snd (snd e)) then 0%Z else if Rlt_dec (fst (snd e)) (fst (fst e)) then 1%Z else 0%Z.
Definition interior (e : edge) (z : pt) : Prop := exists t, 0 < t < 1 /\ z = lerp (fst e) (snd e) t.
Lemma orient_lerp a b t : orient a b (lerp a b t) = 0.
Proof. unfold orient, vcross, vsub, lerp. cbn [fst snd]. ring. Qed.
Lemma along_edge E e E0 t1 t2 : closed E -> Permutation E (e :: E0) -> (forall e' z, In e' E0 -> interior e z -> ~ on_segment (fst e') (snd e') z) ->
  0 < t1 <= t2 -> t2 < 1 -> tot (up (lerp (fst e) (snd e) t1)) E = tot (up (lerp (fst e) (snd e) t2)) E.
Proof.
  intros C P N T1 T2. destruct e as [a b]. cbn [fst snd]. apply (locally_constant (fun t => tot (up (lerp a b t)) E)); [lra|]. intros c Hc.
  assert (O : forall e', In e' E0 -> ~ on_segment (fst e') (snd e') (lerp a b c)) by (intros e' He; apply (N e' _ He); exists c; split; [lra|reflexivity]).
  assert (S : forall t, tot (up (lerp a b t)) E = tot (up (lerp a b t)) E0) by (intros t; rewrite (tot_perm _ _ _ P), tot_cons, up_line by (apply orient_lerp); reflexivity).
  assert (G : snd a <> snd b -> tot (up (lerp a b c)) E0 = tot (dn (lerp a b c)) E0).
  { intros D. pose proof (tot_sub (up (lerp a b c)) (dn (lerp a b c)) E0) as Q. rewrite (tot_ext _ (fun e => gate (lerp a b c) (snd e) - gate (lerp a b c) (fst e))%Z) in Q by (intros e' He; apply balance_edge, O, He).
    pose proof (C (gate (lerp a b c))) as CC. rewrite (tot_perm _ _ _ P), tot_cons in CC. cbn [fst snd] in CC.
    assert (GA : gate (lerp a b c) a = 0%Z) by (unfold gate, lerp; cbn [fst snd]; destruct (Req_EM_T _ _) as [W|W]; [exfalso; nra|reflexivity]).
    assert (GB : gate (lerp a b c) b = 0%Z) by (unfold gate, lerp; cbn [fst snd]; destruct (Req_EM_T _ _) as [W|W]; [exfalso; nra|reflexivity]). lia. }
  rewrite S. apply ev_and.
  - refine (ev_mono _ _ _ (near_list (lerp a b c) (vsub b a) E0 O)). intros t _ H. rewrite S, lerp_plus, H. destruct (Rlt_dec _ 0) as [L|L]; [|reflexivity]. symmetry. apply G. unfold vsub in L. cbn [snd] in L. lra.
  - refine (ev_mono _ _ _ (near_list (lerp a b c) (vsub a b) E0 O)). intros t _ H. rewrite S, lerp_minus, H. destruct (Rlt_dec _ 0) as [L|L]; [|reflexivity]. symmetry. apply G. unfold vsub in L. cbn [snd] in L. lra.
Qed.
