(** Example data for T_Read: a seed file with uneven blanks and no line end at its end. *)
From Coq Require Import Reals Lra Lia ZArith List Ascii String.
From Verif Require Import Base Spec MUtil MGeom MHull MPolygon MMaps MTriangle MGen MRegion MDelaunay MVoronoi MMesh MFormat MHist MFile MProgram MRead.
From Verif Require Import Bridge BridgeNum BridgeSeed PUtil PRead Samples Samples5 Samples7 Samples10 Samples12 Samples13.
Import ListNotations.
Local Open Scope Z_scope.

Local Notation nl := (String (ascii_of_nat 10) EmptyString).
Local Notation tab := (String (ascii_of_nat 9) EmptyString).
Definition uneven_lines : list text := map list_ascii_of_string [" 3   "; "0.5   2.25   "; (tab ++ "3 2 unused"); "-1 7"]%string.
Definition uneven : text := list_ascii_of_string (" 3   " ++ nl ++ "0.5   2.25   " ++ nl ++ tab ++ "3 2 unused" ++ nl ++ "-1 7")%string.
Lemma uneven_laid_out : laid_out uneven uneven_lines.
Proof.
  split; [discriminate|]. split; [|reflexivity]. unfold uneven_lines. cbn [map]. repeat first [apply Forall_cons|apply Forall_nil]; cbn; intuition discriminate.
Qed.
Lemma uneven_announces : announces (line_at uneven_lines 0) 3.
Proof.
  exists [" "%char], ["3"%char], [" "; " "; " "]%char. split; [reflexivity|]. split; [constructor; [cbn; tauto|constructor]|]. split; [discriminate|].
  split; [constructor; [unfold decimal_digit; cbn; lia|constructor]|]. split; [unfold decimal_digit; cbn; lia|reflexivity].
Qed.
Lemma uneven_gives i : (1 <= i <= 3)%nat -> exists q, gives (N := F64) atof64 (line_at uneven_lines i) q.
Proof.
  intros Hi. assert (K : i = 1%nat \/ i = 2%nat \/ i = 3%nat) by lia.
  destruct K as [-> | [-> | ->]]; eexists; eexists _, _, _; (split; [apply split_iff; reflexivity|reflexivity]).
Qed.
Definition seed_disk : disk := mkDisk (fun p => if list_eq_dec ascii_dec p (list_ascii_of_string "h/points_file.txt") then Some uneven else None) (fun _ => true).
Lemma read_sample : match read_program (N := F64) tol64 atof64 print_double (fun _ _ => wheel_out F64) 5 (fun l => l) (Some (list_ascii_of_string "h")) seed_disk rect64
    (list_ascii_of_string "points_file.txt") (list_ascii_of_string "ReadFromFileMesh.txt") with
  | Ok (d', (v, _)) => (zlen (ul_list (ms_points v)) =? 12) && match dk_text d' (list_ascii_of_string "h/ReadFromFileMesh.txt") with Some _ => true | None => false end
  | Err _ => false end = true.
Proof. vm_compute. reflexivity. Qed.
Lemma uneven_kept : match addSeedsFromFile (N := F64) atof64 tol64 r_rect64 uneven with Ok r => Nat.eqb (List.length (rg_seeds r)) 2 | Err _ => false end = true.
Proof. vm_compute. reflexivity. Qed.
