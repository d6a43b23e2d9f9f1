(** Sample data: a directory. *)
From Coq Require Import Ascii String List.
From Verif Require Import Base MUtil MGeom MHull MPolygon MMaps MTriangle MGen MRegion MDelaunay MMesh MDump MFile.
Import ListNotations.

(** the directory of the example: everything but the name "b" can be written *)
Definition dir : disk := mkDisk (fun _ => None) (fun p => if list_eq_dec ascii_dec p (list_ascii_of_string "h/b") then false else true).
Definition name_a : text := list_ascii_of_string "a".
Definition name_b : text := list_ascii_of_string "b".
