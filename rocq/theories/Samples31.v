(** Example data for T_Layout: one triangle in two layouts. *)
From Coq Require Import Reals Lra Lia ZArith List Ascii String.
From Verif Require Import Base Spec MUtil MGeom MHull MPolygon MMaps MTriangle MGen MRegion MDelaunay MVoronoi MMesh MFormat MHist MFile.
From Verif Require Import Bridge BridgeNum BridgeSeed BridgeLayout PUtil Samples.
Import ListNotations.
Local Open Scope Z_scope.

Local Notation nl := (String (ascii_of_nat 10) EmptyString).
Local Notation tab := (String (ascii_of_nat 9) EmptyString).
Definition neat_lines : list text := map list_ascii_of_string ["3"; "0 0"; "4 0"; "0 3"; "1"; "3 0 1 2"; ""]%string.
Definition neat : text := list_ascii_of_string ("3" ++ nl ++ "0 0" ++ nl ++ "4 0" ++ nl ++ "0 3" ++ nl ++ "1" ++ nl ++ "3 0 1 2" ++ nl)%string.
(** tabulators, remarks, and a wrong number of corners on the line of the triangle *)
Definition loose_lines : list text := map list_ascii_of_string ["  3 points"; ("0" ++ tab ++ "0"); "4   0 corner"; "0 3  "; "1 triangle"; "99  0 1" ++ tab ++ "2 "]%string.
Definition loose : text :=
  list_ascii_of_string ("  3 points" ++ nl ++ "0" ++ tab ++ "0" ++ nl ++ "4   0 corner" ++ nl ++ "0 3  " ++ nl ++ "1 triangle" ++ nl ++ "99  0 1" ++ tab ++ "2 ")%string.
Lemma neat_laid_out : laid_out neat neat_lines.
Proof. split; [discriminate|]. split; [|reflexivity]. unfold neat_lines. cbn [map]. repeat first [apply Forall_cons|apply Forall_nil]; cbn; intuition discriminate. Qed.
Lemma loose_laid_out : laid_out loose loose_lines.
Proof. split; [discriminate|]. split; [|reflexivity]. unfold loose_lines. cbn [map]. repeat first [apply Forall_cons|apply Forall_nil]; cbn; intuition discriminate. Qed.
Lemma announce_one (l : text) sp c rest : l = sp ++ [c] ++ rest -> Forall blank sp -> decimal_digit c -> match rest with [] => True | e :: _ => ~ decimal_digit e end -> announces l (run_value [c]).
Proof. intros E B D R. exists sp, [c], rest. split; [exact E|]. split; [exact B|]. split; [discriminate|]. split; [constructor; [exact D|constructor]|]. split; [exact R|reflexivity]. Qed.
Lemma one_triangle : same_mesh_data neat_lines loose_lines 3 1.
Proof.
  assert (D3 : decimal_digit "3"%char) by (unfold decimal_digit; cbn; lia). assert (D1 : decimal_digit "1"%char) by (unfold decimal_digit; cbn; lia).
  assert (SP : ~ decimal_digit " "%char) by (unfold decimal_digit; cbn; lia).
  split; [apply (announce_one _ [] "3" []); auto|]. split.
  { apply (announce_one _ [" "; " "]%char "3"%char (list_ascii_of_string " points")); [reflexivity| |exact D3|exact SP]. repeat first [apply Forall_cons|apply Forall_nil]; unfold blank; cbn; tauto. }
  split; [apply (announce_one _ [] "1" []); auto|]. split; [apply (announce_one _ [] "1"%char (list_ascii_of_string " triangle")); [reflexivity|constructor|exact D1|exact SP]|]. split.
  - intros i Hi. assert (K : i = 1%nat \/ i = 2%nat \/ i = 3%nat) by lia. destruct K as [-> | [-> | ->]]; eexists _, _, _, _; (split; apply split_iff; reflexivity).
  - intros i Hi. assert (K : i = 5%nat) by lia. subst i. eexists _, _, _. split; apply split_iff; reflexivity.
Qed.
Lemma loose_read : match createFromStream (N := F64) atof64 tol64 (polygon_ctor_idx (N := F64) tol64) (@pg_points F64) mesh_new loose 0 with
  | Ok m => zlen (ul_list (ms_points m)) = 3 /\ map (@pg_points F64) (ms_polygons m) = [[0; 1; 2]]
  | Err _ => False end.
Proof. vm_compute. split; reflexivity. Qed.
Lemma counts_ignored : exists (t : text) (ls : list text), laid_out t ls /\ announces (line_at ls 0) 3 /\ announces (line_at ls 4) 1 /\
  fields_of blank (line_at ls 5) (map list_ascii_of_string ["99"; "0"; "1"; "2"]%string) /\
  match createFromStream (N := F64) atof64 tol64 (polygon_ctor_idx (N := F64) tol64) (@pg_points F64) mesh_new t 0 with
  | Ok m => zlen (ul_list (ms_points m)) = 3 /\ map (@pg_points F64) (ms_polygons m) = [[0; 1; 2]]
  | Err _ => False end.
Proof.
  exists loose, loose_lines. destruct one_triangle as (_ & A & _ & B & _). split; [exact loose_laid_out|]. split; [exact A|]. split; [exact B|].
  split; [apply split_iff; reflexivity|exact loose_read].
Qed.
Definition three : list (Point F64) := [mkP (N := F64) (atof_int ["0"%char]) (atof_int ["0"%char]); mkP (N := F64) (atof_int ["4"%char]) (atof_int ["0"%char]); mkP (N := F64) (atof_int ["0"%char]) (atof_int ["3"%char])].
Lemma line_gives (l : text) x y more : splitBySpaces l = x :: y :: more -> gives (N := F64) atof_int l (mkP (N := F64) (atof_int x) (atof_int y)).
Proof. intros E. exists x, y, more. split; [apply split_iff; exact E|reflexivity]. Qed.
Lemma digit_word c n : decimal_digit c -> n = run_value [c] -> announces [c] n.
Proof. intros D ->. apply (announce_one [c] [] c []); auto. Qed.
Lemma loose_file : mesh_file (N := F64) atof_int loose_lines three [[0; 1; 2]] 0.
Proof.
  destruct one_triangle as (_ & A & _ & B & _). split; [exact A|]. split; [exact B|]. split.
  - intros i q H. destruct i as [|[|[|i]]]; unfold three in H; cbn [nth_error] in H; [| | |destruct i; discriminate];
      apply (f_equal (fun o => match o with Some a => a | None => q end)) in H; cbv beta iota in H; subst q; eapply line_gives; reflexivity.
  - intros i ks H. destruct i as [|i]; cbn in H; [|destruct i; discriminate]. injection H as <-. eexists _, _. split; [apply split_iff; reflexivity|].
    repeat first [apply Forall2_cons|apply Forall2_nil]; (split; [apply digit_word; [unfold decimal_digit; cbn; lia|reflexivity]|lia]).
Qed.
