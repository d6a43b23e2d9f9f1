(** Example data for T_More. *)
From Coq Require Import Reals Lra ZArith Lia List Bool Ascii SpecFloat.
From Verif Require Import Base Spec MUtil MGeom MHull MPolygon MMaps MTriangle MGen MRegion MDelaunay MVoronoi MMesh MFormat MMore Bridge BridgeNum.
From Verif Require Import PPoint PSegment Samples.
Import ListNotations.
Local Open Scope Z_scope.

Definition same64 (x y : f64) : bool :=
  match x, y with
  | S754_zero s, S754_zero s' => Bool.eqb s s'
  | S754_finite s m e, S754_finite s' m' e' => Bool.eqb s s' && Pos.eqb m m' && Z.eqb e e'
  | _, _ => false
  end.
Lemma same64_eq x y : same64 x y = true -> x = y.
Proof.
  destruct x, y; try discriminate; cbn.
  - intros H. apply Bool.eqb_prop in H. now subst.
  - rewrite !andb_true_iff. intros [[H1 H2] H3]. apply Bool.eqb_prop in H1. apply Pos.eqb_eq in H2. apply Z.eqb_eq in H3. now subst.
Qed.
Definition six_check (x : f64) : bool :=
  same64 x (S754_zero false) || existsb (fun n => same64 x (decimal64 false n 0) || same64 x (decimal64 true n 0)) [1; 2; 3; 4; 5; 6; 7; 8; 9].
Lemma six_checked x : six_check x = true -> six_digit x.
Proof.
  unfold six_check. rewrite orb_true_iff. intros [H|H].
  - left. exists false. now apply same64_eq.
  - apply existsb_exists in H as (n & Hn & H). right. apply orb_true_iff in H.
    destruct H as [H|H]; [exists false|exists true]; exists n, 0; (split; [cbn in Hn; lia|]); (split; [lia|]); now apply same64_eq.
Qed.
Lemma six_points l : forallb (fun q : Point F64 => six_check (px q) && six_check (py q)) l = true ->
  Forall (fun q => six_digit (@px F64 q) /\ six_digit (@py F64 q)) l.
Proof.
  intros H. rewrite forallb_forall in H. apply Forall_forall. intros q Hq. apply H in Hq.
  apply andb_true_iff in Hq as [H1 H2]. split; apply six_checked; assumption.
Qed.
Lemma r_seeded_six : Forall (fun q => six_digit (@px F64 q) /\ six_digit (@py F64 q)) (getRegionPoints r_seeded ++ rg_seeds r_seeded).
Proof. apply six_points. vm_compute. reflexivity. Qed.

Definition sq_pts : list (Point RNum) := [bp 0 0; bp 4 0; bp 4 4; bp 0 4]%R.
Definition sq_run (sw : switches) (i : pslg RNum) : trout RNum := sq_out RNum.
Lemma sq_pts_vertices : vertices_are sq_pts [0; 1; 2; 3] sq_pts.
Proof. repeat constructor; cbn; lia. Qed.
Lemma sq_simple : ~ self_crossing_outline (1 / 100000)%R sq_pts.
Proof.
  intros (i & j & (Hi & Hj & H1 & H2 & H3) & a & b & c & d & A & B & C & D & X).
  cbn [length sq_pts] in *.
  assert (Y : parallel (xy a) (xy b) (xy c) (xy d)); [|destruct (intersects_parallel (1 / 100000)%R a b c d point0 Y) as [Z1 _]; rewrite Z1 in X; discriminate X].
  clear X. unfold sq_pts in *.
  do 4 (destruct i as [|i]; [do 4 (destruct j as [|j]; [try (exfalso; cbn in H1, H2, H3; lia);
    cbn in A, B, C, D; injection A as <-; injection B as <-; injection C as <-; injection D as <-;
    unfold parallel, vcross, vsub, xy, bp; cbn [fst snd px py]; ring|]); lia|]). lia.
Qed.
Definition bow_pts : list (Point RNum) := [bp 0 0; bp 4 4; bp 4 0; bp 0 4]%R.
Lemma bow_pts_vertices : vertices_are bow_pts [0; 1; 2; 3] bow_pts.
Proof. repeat constructor; cbn; lia. Qed.
Lemma bow_crosses : self_crossing_outline (1 / 100000)%R bow_pts.
Proof.
  exists 0%nat, 2%nat. split; [repeat split; cbn; lia|].
  exists (bp 0 0), (bp 4 4), (bp 4 0), (bp 0 4). do 4 (split; [reflexivity|]).
  destruct (intersects_complete (1 / 100000)%R (bp 0 0) (bp 4 4) (bp 4 0) (bp 0 4) point0 (1/2)%R (1/2)%R) as (q & E & _); try lra.
  - unfold parallel, vcross, vsub, xy, bp; cbn [fst snd px py]. lra.
  - unfold lerp, xy, bp; cbn [fst snd px py]. f_equal; lra.
  - rewrite E. reflexivity.
Qed.
Lemma integer_pts_apart (l : list (Point RNum)) : l = sq_pts \/ l = bow_pts -> separated (1 / 100000)%R (fun q => In q l) /\ all_apart (1 / 100000)%R l.
Proof.
  intros H. split.
  - apply integer_separated; [lra|]. intros q Hq. destruct H as [-> | ->]; repeat destruct Hq as [<-|Hq]; try destruct Hq; do 2 eexists; split; reflexivity.
  - intros i j a b Hi Hj D [C1 C2]. unfold xy in C1, C2; cbn [fst snd] in C1, C2.
    destruct H as [-> | ->]; unfold sq_pts, bow_pts in Hi, Hj;
    nth_cases; try (apply D; reflexivity); cbn [px py bp] in C1, C2; clear D;
    apply Rabs_def2 in C1, C2; lra.
Qed.
