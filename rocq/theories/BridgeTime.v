(** Readings for the program that measures time. *)
From Coq Require Import ZArith List Ascii String.
From Verif Require Import Base Spec MUtil MGeom MPolygon MMaps MTriangle MRegion MDelaunay MVoronoi MMesh MFile.
Import ListNotations.

(** after a program that writes the text [t] under [path], if the path can be written *)
Definition left_in (d d' : disk) (path t : list ascii) : Prop :=
  dk_text d' path = if dk_writable d path then Some t else dk_text d path.
Local Notation str := list_ascii_of_string.
(** one line of the log *)
Definition log_row (clock : nat -> Z) (run : nat * Z) (row : list (list ascii)) : Prop :=
  exists a b, row = [str "Numero"; str "de"; str "puntos:"; a; str "Tiempo:"; b] /\ integer_text a (snd run * snd run) /\ integer_text b (clock (fst run)).
(** the path of the mesh of run [i]: the number is written without leading zeros *)
Definition run_path (home : list ascii) (i : nat) (path : list ascii) : Prop :=
  exists a, integer_text a (Z.of_nat i) /\ (forall b, integer_text b (Z.of_nat i) -> (List.length a <= List.length b)%nat) /\ path = home ++ slash :: str "triangle_" ++ a ++ str ".txt".
Definition log_path (home : list ascii) : list ascii := home ++ slash :: str "time_results.txt".
(** numbers are printed as words, and the indices of the mesh are below a million (beyond it, they lose digits) *)
Definition printable {N : Num} (fmt : nT N -> list ascii) (order : list iseg -> list iseg) (t : mesh N (polygon N)) : Prop :=
  (forall x, field (fmt x)) /\ Forall (fun e : iseg => Z.abs (fst e) < 1000000 /\ Z.abs (snd e) < 1000000)%Z (order (map fst (ms_edges t))) /\
  Forall (fun g : polygon N => zlen (pg_points g) < 1000000 /\ Forall (fun k => Z.abs k < 1000000) (pg_points g))%Z (ms_polygons t).
