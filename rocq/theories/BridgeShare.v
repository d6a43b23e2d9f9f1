(** Families of generators and meshes. *)
From Coq Require Import ZArith List.
From Verif Require Import Base MGeom MMaps MTriangle MDelaunay MMesh MShare.
Import ListNotations.

(** The family of every generator and mesh of a program: a new object founds a family, everything obtained from an object is in its family. *)
Record families := mkFam { fam_next : nat; fam_gen : list nat; fam_mesh : list nat }.
Section Families.
  Context {N : Num}.
  Definition family_step (f : families) (a : act N) : families :=
    match a with
    | NewGen _ _ => mkFam (S (fam_next f)) (fam_gen f ++ [fam_next f]) (fam_mesh f)
    | CopyGen g => mkFam (fam_next f) (fam_gen f ++ [nth g (fam_gen f) O]) (fam_mesh f)
    | CallGen g CallConstrained | CallGen g (CallConstrainedWith _) => mkFam (fam_next f) (fam_gen f) (fam_mesh f ++ [nth g (fam_gen f) O])
    | CallGen _ _ | ReadInto _ _ _ | LookUp _ _ => f
    | NewMesh => mkFam (S (fam_next f)) (fam_gen f) (fam_mesh f ++ [fam_next f])
    | CopyMesh i | MeshWithMaps _ _ i => mkFam (fam_next f) (fam_gen f) (fam_mesh f ++ [nth i (fam_mesh f) O])
    | AssignMesh i j => mkFam (fam_next f) (fam_gen f) (firstn i (fam_mesh f) ++ nth j (fam_mesh f) O :: skipn (S i) (fam_mesh f))
    end.
  Definition families_of (acts : list (act N)) : families := fold_left family_step acts (mkFam O [] []).
  Definition mesh_family (acts : list (act N)) (i : nat) : option nat := nth_error (fam_mesh (families_of acts)) i.
  Definition gen_family (acts : list (act N)) (g : nat) : option nat := nth_error (fam_gen (families_of acts)) g.
  (** the family whose maps an act may change *)
  Definition works_on (acts : list (act N)) (a : act N) : option nat :=
    match a with CallGen g _ => gen_family acts g | ReadInto i _ _ | LookUp i _ => mesh_family acts i | _ => None end.
  (** acts that make no two objects of one family *)
  Definition gives_mesh (a : act N) : option nat :=
    match a with CallGen g CallConstrained | CallGen g (CallConstrainedWith _) => Some g | _ => None end.
  Definition copies (a : act N) : Prop := match a with CopyGen _ | CopyMesh _ | AssignMesh _ _ | MeshWithMaps _ _ _ => True | _ => False end.
  Definition meshes_asked (acts : list (act N)) : list nat := flat_map (fun a => match gives_mesh a with Some g => [g] | None => [] end) acts.
  Definition careful (acts : list (act N)) : Prop := Forall (fun a => ~ copies a) acts /\ NoDup (meshes_asked acts).
End Families.
