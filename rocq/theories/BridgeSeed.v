(** Readings of seed files: any text is a list of lines. *)
From Coq Require Import ZArith List Ascii.
From Verif Require Import Base Spec MGeom.
Import ListNotations.

Definition line_end : ascii := ascii_of_nat 10.
(** the lines with a line end between any two of them *)
Fixpoint joined (ls : list (list ascii)) : list ascii :=
  match ls with [] => [] | [l] => l | l :: ls' => l ++ line_end :: joined ls' end.
(** [ls] are the lines of the text [t]; the last one may be empty *)
Definition laid_out (t : list ascii) (ls : list (list ascii)) : Prop := ls <> [] /\ Forall (fun l => ~ In line_end l) ls /\ t = joined ls.
(** line [i] counted from 0; the last line stands for all that are missing *)
Definition line_at (ls : list (list ascii)) (i : nat) : list ascii := nth (min i (length ls - 1)) ls [].
(** the line starts with blanks, if any, and the digits of [n] *)
Definition announces (l : list ascii) (n : Z) : Prop :=
  exists sp ds rest, l = sp ++ ds ++ rest /\ Forall blank sp /\ ds <> [] /\ Forall decimal_digit ds /\
    match rest with [] => True | c :: _ => ~ decimal_digit c end /\ n = run_value ds.
(** the first two words of the line are the coordinates of [q] *)
Definition gives {N : Num} (atof : list ascii -> nT N) (l : list ascii) (q : Point N) : Prop :=
  exists x y more, fields_of blank l (x :: y :: more) /\ q = mkP (atof x) (atof y).
