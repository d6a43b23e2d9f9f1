(** The texts of edges and of segments of points. *)
From Verif Require Import Base Spec MUtil MGeom MHull MPolygon MMaps MTriangle MGen MRegion MDelaunay MMesh MDump Bridge.
From Verif Require Import PUtil PMesh PFormat PDump.
Local Open Scope Z_scope.

Lemma two_texts a b : six_digits a -> six_digits b ->
  exists f g, fields_of blank (print_g a ++ space :: print_g b) [f; g] /\ integer_text f a /\ integer_text g b.
Proof.
  intros A B. exists (print_int a), (print_int b). split; [|split; apply print_int_text]. rewrite !print_g_small by assumption.
  assert (F : Forall field [print_int a; print_int b]) by (repeat constructor; try apply print_int_field; apply (print_int_field _)).
  pose proof (fields_line _ _ F) as K. cbn [flat_map app] in K. rewrite app_nil_r in K. exact K.
Qed.
Lemma edge_text e : six_digits (e_p1 e) -> six_digits (e_p2 e) ->
  exists f g, fields_of blank (edge_string e) [f; g] /\ integer_text f (e_p1 e) /\ integer_text g (e_p2 e).
Proof. apply two_texts. Qed.
Lemma nb_text n : (nb1 n = None -> exists w, nb_string n = Err (UB w)) /\
  forall i, nb1 n = Some i -> six_digits i -> six_digits (nb2 n) ->
  exists t f g, nb_string n = Ok t /\ fields_of blank t [f; g] /\ integer_text f i /\ integer_text g (nb2 n).
Proof.
  unfold nb_string. split; [intros ->; eauto|]. intros i -> A B. destruct (two_texts _ _ A B) as (f & g & K). exists (print_g i ++ space :: print_g (nb2 n)), f, g. auto.
Qed.
Lemma pseg_text {N : Num} (fmt : nT N -> text) : (forall x, field (fmt x)) -> forall s : pseg N,
  fields_of blank (pseg_string fmt s) [fmt (px (fst s)); fmt (py (fst s)); fmt (px (snd s)); fmt (py (snd s))].
Proof.
  intros F [[a b ? ?] [c d ? ?]]. unfold pseg_string, point_string. cbn [fst snd px py].
  pose proof (fields_line (fmt a) [fmt b; fmt c; fmt d]) as K. cbn [flat_map app] in K. rewrite app_nil_r in K.
  rewrite <- app_assoc. cbn [app]. apply K. repeat (apply Forall_cons; [apply F|]). apply Forall_nil.
Qed.
