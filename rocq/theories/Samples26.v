(** Lives of polygons. *)
From Coq Require Import ZArith List Bool.
From Verif Require Import Base MUtil MGeom MHull MPolygon MPolyLife Bridge BridgePolyLife.
Import ListNotations.
Open Scope Z_scope.

Definition tol5 : f64 := F64_dec 1 100000.
Definition ip (x y : Z) : Point F64 := dpt x 1 y 1.
Definition tri : list (Point F64) := [ip 0 0; ip 2 0; ip 0 2; ip 4 0].
Definition tri_cw : list (Point F64) := [ip 0 0; ip 0 2; ip 2 0].
Definition bowtie4 : list (Point F64) := [ip 0 0; ip 2 2; ip 2 0; ip 0 2].
Definition quad : list (Point F64) := [ip 0 0; ip 3 0; ip 3 3; ip 0 3].
(** was this seen?  doubles given by integers *)
Inductive look := LArea (z : Z) | LDiamAbove (z : Z) | LCen (x y : Z) | LFixed (b : bool) | LMutated | LRefused | LRewritten | LCopy.
Definition looks (s : pseen F64) (l : look) : bool :=
  match s, l with
  | Area a, LArea z => neqb (n := F64) a (F64_ofZ z)
  | Diam d, LDiamAbove z => nltb (n := F64) (F64_ofZ z) d
  | Cen c, LCen x y => (neqb (n := F64) (px c) (F64_ofZ x) && neqb (n := F64) (py c) (F64_ofZ y))%bool
  | Fixed b, LFixed b' => Bool.eqb b b'
  | Mutated, LMutated | Refused, LRefused | Rewritten, LRewritten | Copy, LCopy => true
  | _, _ => false
  end.
Definition saw (b : birth F64) (cs : list (pcall F64)) (ls : list look) : bool :=
  match life (N := F64) tol5 b cs with
  | Ok (_, ss) => (Nat.eqb (length ss) (length ls) && forallb (fun sl => looks (fst sl) (snd sl)) (combine ss ls))%bool
  | Err _ => false
  end.
(** is the polygon equal to its own copy? *)
Definition equals_its_copy (b : birth F64) (cs : list (pcall F64)) : option bool :=
  match life (N := F64) tol5 b cs with
  | Ok (o, _) => match pcall_do (N := F64) tol5 o Copied with Ok (o', _) => Some (pobj_eqb o o') | Err _ => None end
  | Err _ => None
  end.
Definition undefined (b : birth F64) (cs : list (pcall F64)) : bool := match life (N := F64) tol5 b cs with Err (UB _) => true | _ => false end.

Definition zs_eqb (a b : list Z) : bool := (Nat.eqb (length a) (length b) && forallb (fun xy => Z.eqb (fst xy) (snd xy)) (combine a b))%bool.

Lemma stale_area : saw (FromIndices [0; 1; 2] tri) [AskArea tri; Rewrite [0; 3; 2]; AskArea tri; Copied; AskArea tri] [LArea 2; LRewritten; LArea 2; LCopy; LArea 2] = true /\
  saw (FromIndices [0; 3; 2] tri) [AskArea tri] [LArea 4] = true.
Proof. vm_compute. split; reflexivity. Qed.
Lemma stale_refused : saw (FromIndices [0; 1; 2] tri) [AskArea tri; Mutate bowtie4; AskArea quad] [LArea 2; LRefused; LArea 2] = true /\ saw (FromPoints quad) [AskArea quad] [LArea 9] = true.
Proof. vm_compute. split; reflexivity. Qed.
Lemma stale_hash : equals_its_copy (FromIndices [0; 1; 2] tri) [] = Some true /\ equals_its_copy (FromIndices [0; 1; 2] tri) [Rewrite [0; 3; 2]] = Some false /\
  equals_its_copy (FromIndices [0; 1; 2] tri) [Mutate bowtie4] = Some false.
Proof. vm_compute. repeat split; reflexivity. Qed.
