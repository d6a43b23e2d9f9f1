(** Reading the text of a printed mesh. *)
From Coq Require Import Ascii.
From Verif Require Import Base Spec MUtil MGeom Bridge.

(** the text has, line by line, the number of points and the points, the number of edges and the edges, the number of
    polygons and the polygons (each with its number of vertices first), numbers separated by blanks *)
Definition mesh_text {N : Num} (fmt : nT N -> list ascii) (pts : list (Point N)) (segs : list (Z * Z)) (polys : list (list Z)) (t : list ascii) : Prop :=
  exists h1 h2 h3 ps es cs, text_rows t ([h1] :: ps ++ [h2] :: es ++ [h3] :: cs) /\
    integer_text h1 (zlen pts) /\ integer_text h2 (zlen segs) /\ integer_text h3 (zlen polys) /\
    Forall2 (fun (q : Point N) row => row = [fmt (px q); fmt (py q)]) pts ps /\
    Forall2 (fun (s : Z * Z) row => Forall2 integer_text row [fst s; snd s]) segs es /\
    Forall2 (fun (ks : list Z) row => Forall2 integer_text row (zlen ks :: ks)) polys cs.
(** the segments, each in one direction, are those for which the lookup finds something, none twice *)
Definition lists_once {V : Type} (find : Z * Z -> option V) (segs : list (Z * Z)) : Prop :=
  NoDup (map canon segs) /\ forall s, In (canon s) (map canon segs) <-> find s <> None.
