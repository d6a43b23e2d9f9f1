(** Example data for T_Time: a square of decimal coordinates, an answer of Triangle and a clock. *)
From Coq Require Import Reals Lra Lia ZArith List Ascii String.
From Flocq Require Import Core.
From Verif Require Import Base Spec MUtil MGeom MHull MPolygon MMaps MTriangle MGen MRegion MDelaunay MVoronoi MMesh MFormat MHist MFile MTime.
From Verif Require Import Bridge BridgeNum Bridge64 BridgeErr BridgeTime Samples Samples4 Samples5 Samples9 Samples27 Samples28.
Import ListNotations.
Local Open Scope Z_scope.

(** 0.3 and 1.7 *)
Definition side_a : f64 := px (dpt 3 17).
Definition side_b : f64 := py (dpt 3 17).
Lemma slack_small k : k <= 5 -> (2 * contain_slack (bpow radix2 k) < val tol64)%R.
Proof.
  intros Hk. pose proof tol64_val as [T _]. unfold contain_slack, u53. assert (B : (bpow radix2 k <= 32)%R) by (change 32%R with (bpow radix2 5); apply bpow_le; lia).
  pose proof (bpow_gt_0 radix2 k) as P. set (m := bpow radix2 k) in *. apply Rle_lt_trans with (bpow radix2 19 * bpow radix2 (-53))%R.
  - change (bpow radix2 19) with 524288%R. pose proof (bpow_gt_0 radix2 (-53)). assert (m * m + m <= 1056)%R by nra. nra.
  - rewrite <- bpow_plus. eapply Rlt_trans; [|exact T]. apply bpow_lt. lia.
Qed.
Lemma tol64_time : fin tol64 /\ (2 * contain_slack (bpow radix2 5) < val tol64 <= 10)%R.
Proof.
  split; [exact tol64_fin|]. split; [apply slack_small; lia|]. pose proof tol64_val as [_ T]. assert (bpow radix2 (-16) <= bpow radix2 0)%R by (apply bpow_le; lia). change (bpow radix2 0) with 1%R in *. lra.
Qed.
Lemma sides_usable : fin tol64 /\ (forall c, In c [side_a; side_b] -> fin c /\ (Rabs (val c) <= bpow radix2 1)%R) /\ (val side_a < val side_b)%R /\
  (2 * contain_slack (bpow radix2 2) < val tol64)%R /\ (val tol64 <= val side_b - val side_a)%R /\
  exists r, region_ctor (N := F64) tol64 (rectangle64 side_a side_b side_a side_b) = Ok r.
Proof.
  destruct (zp (dpt 3 17)) as [[a b]|] eqn:Z0; [|vm_compute in Z0; discriminate].
  assert (K : 0 <= a /\ a + 2 ^ 190 <= b /\ b <= 2 ^ 201) by (vm_compute in Z0; injection Z0 as <- <-; repeat split; discriminate).
  destruct (zp_val _ _ Z0) as (F1 & F2 & V). pose proof (f_equal fst V : val side_a = (IZR a * bpow radix2 (-200))%R) as V1. pose proof (f_equal snd V : val side_b = (IZR b * bpow radix2 (-200))%R) as V2. fold side_a in F1. fold side_b in F2. destruct K as (K1 & K2 & K3).
  apply IZR_le in K1, K2, K3. rewrite plus_IZR in K2. change (IZR (2 ^ 190)) with (IZR (Zpower radix2 190)) in K2. change (IZR (2 ^ 201)) with (IZR (Zpower radix2 201)) in K3.
  rewrite IZR_Zpower in K2, K3 by lia. pose proof (bpow_gt_0 radix2 (-200)) as P. pose proof (bpow_gt_0 radix2 190) as P2.
  assert (E1 : (bpow radix2 190 * bpow radix2 (-200) = bpow radix2 (-10))%R) by (rewrite <- bpow_plus; reflexivity).
  assert (E2 : (bpow radix2 201 * bpow radix2 (-200) = bpow radix2 1)%R) by (rewrite <- bpow_plus; reflexivity).
  assert (L : (val side_a + bpow radix2 (-10) <= val side_b)%R) by (rewrite V1, V2, <- E1; nra).
  assert (U : (val side_b <= bpow radix2 1)%R) by (rewrite V2, <- E2; nra). assert (Z1 : (0 <= val side_a)%R) by (rewrite V1; nra).
  pose proof (bpow_gt_0 radix2 (-10)) as P3. pose proof tol64_val as [_ T]. assert (bpow radix2 (-16) <= bpow radix2 (-10))%R by (apply bpow_le; lia).
  split; [exact tol64_fin|]. split; [|split; [lra|]].
  - intros c [<-|[<-|[]]]; (split; [assumption|]); apply Rabs_le; lra.
  - split; [apply slack_small; lia|]. split; [lra|]. eexists. unfold region_ctor, polygon_ctor_pts. cbn. reflexivity.
Qed.

(** an answer of Triangle for the square of the time program: four triangles around a point *)
Definition fan10 : trout F64 :=
  mkTrout (N := F64) [(F64_ofZ 0, F64_ofZ 0, 1); (F64_ofZ 10, F64_ofZ 0, 1); (F64_ofZ 10, F64_ofZ 10, 1); (F64_ofZ 0, F64_ofZ 10, 1); (F64_ofZ 4, F64_ofZ 5, 0)]
    [(0, 1, 1); (1, 2, 1); (2, 3, 1); (3, 0, 1); (0, 4, 0); (1, 4, 0); (2, 4, 0); (3, 4, 0)]
    [(0, 1, 4); (1, 2, 4); (2, 3, 4); (3, 0, 4)]%Z.
Definition clock_sample (i : nat) : Z := 17 + 6 * Z.of_nat i.
Local Notation nl := (String (ascii_of_nat 10) EmptyString).
Lemma time_sample : (forall n, In n [2; 3] -> n * n <= int_max /\ exists m, time_meshes (N := F64) tol64 (fun _ _ => fan10) 5 n = Ok m) /\
  match time_program (N := F64) tol64 print_double (fun _ _ => fan10) 5 (fun l => l) clock_sample (Some (list_ascii_of_string "h")) dir [2; 3] with
  | Ok st => map (fun p => option_map string_of_list_ascii (dk_text (ti_disk st) (list_ascii_of_string p))) ["h/time_results.txt"; "h/triangle_1.txt"; "h/triangle_2.txt"]%string =
      [Some ("Numero de puntos: 4 Tiempo: 17" ++ nl ++ "Numero de puntos: 9 Tiempo: 23" ++ nl)%string;
       Some ("5" ++ nl ++ "0 0" ++ nl ++ "10 0" ++ nl ++ "10 10" ++ nl ++ "0 10" ++ nl ++ "4 5" ++ nl ++
             "8" ++ nl ++ "0 1" ++ nl ++ "1 2" ++ nl ++ "2 3" ++ nl ++ "3 0" ++ nl ++ "0 4" ++ nl ++ "1 4" ++ nl ++ "2 4" ++ nl ++ "3 4" ++ nl ++
             "4" ++ nl ++ "3 0 1 4" ++ nl ++ "3 1 2 4" ++ nl ++ "3 2 3 4" ++ nl ++ "3 3 0 4" ++ nl)%string; None]
  | Err _ => False
  end.
Proof.
  split; [|vm_compute; reflexivity].
  assert (M : forall n, match time_meshes (N := F64) tol64 (fun _ _ => fan10) 5 n with Ok _ => true | _ => false end = true -> exists m, time_meshes (N := F64) tol64 (fun _ _ => fan10) 5 n = Ok m).
  { intros n K. destruct (time_meshes (N := F64) tol64 (fun _ _ => fan10) 5 n) as [m|]; [exists m; reflexivity|discriminate]. }
  intros n [<-|[<-|[]]]; (split; [unfold int_max; lia|]); apply M; vm_compute; reflexivity.
Qed.
