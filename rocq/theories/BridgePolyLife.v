(** What a program can know of a polygon from its calls and their answers. *)
From Coq Require Import ZArith List Bool.
From Verif Require Import Base MUtil MGeom MHull MPolygon MPolyLife.
Import ListNotations.
Open Scope Z_scope.

Section Bridge.
  Context {N : Num}.
  (** 0, 1, ..., n-1 *)
  Definition upto (n : nat) : list Z := map Z.of_nat (seq 0 n).
  (** the index list a polygon is made with *)
  Definition born_with (b : birth N) : list Z :=
    match b with FromIndices idx _ => idx | FromPoints p => upto (length p) | FromNothing => [] end.
  (** the index list after a call of which something was seen *)
  Definition now_with (l : list Z) (cs : pcall N * pseen N) : list Z :=
    match cs with
    | (Mutate p, _) => upto (length p)
    | (Rewrite l', _) => l'
    | (Fix _, Fixed true) => rev l
    | _ => l
    end.
  Definition shown (b : birth N) (cs : list (pcall N)) (ss : list (pseen N)) : list Z := fold_left now_with (combine cs ss) (born_with b).
  (** answers after which a new area, diameter or centroid is computed *)
  Definition drops_area (s : pseen N) : Prop := s = Mutated \/ s = Fixed true.
  Definition drops_all (s : pseen N) : Prop := s = Mutated.
  Definition is_area (s : pseen N) : Prop := exists a, s = Area a.
  Definition is_diam (s : pseen N) : Prop := exists d, s = Diam d.
  Definition is_cen (s : pseen N) : Prop := exists c, s = Cen c.
  (** the hash is up to date after these *)
  Definition rehashes (s : pseen N) : Prop := s = Mutated \/ s = Copy.
  (** the index list is changed and the hash is not *)
  Definition unhashed (s : pseen N) : Prop := s = Refused \/ s = Rewritten.
  Definition made_with_points (b : birth N) : Prop := match b with FromNothing => False | _ => True end.
  (** [x] answers: the last answer of kind [K], or the birth, comes before answers none of which is of kind [J] *)
  Definition since (K J : pseen N -> Prop) (b : Prop) (ss : list (pseen N)) : Prop :=
    (b /\ Forall (fun s => ~ J s) ss) \/ exists s1 k s2, ss = s1 ++ k :: s2 /\ K k /\ Forall (fun s => ~ J s) s2.
End Bridge.
