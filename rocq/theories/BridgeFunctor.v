(** Functors without pointers. *)
From Coq Require Import ZArith List Bool.
From Verif Require Import Base MGeom MGen MFunctor.
Import ListNotations.

Section Bridge.
  Context {N : Num}.
  (** The functor a pointer stands for when nothing else points into it. *)
  Inductive stands_for (h : list (fobj N)) : nat -> functor N -> Prop :=
  | sf_plain i f : nth_error h i = Some (Plain f) -> stands_for h i f
  | sf_noise i p o k f : nth_error h i = Some (Noise p o k) -> stands_for h p f -> stands_for h i (FNoise f o k).
  (** The object at the bottom of a chain of noise objects, computed from the acts that made the functors. *)
  Definition bottoms_step (bs : list nat) (a : fact N) : list nat :=
    match a with MakeFunctor _ => bs ++ [length bs] | MakeNoise p _ => bs ++ [nth p bs O] | _ => bs end.
  Definition bottoms (acts : list (fact N)) : list nat := fold_left bottoms_step acts [].
  (** generators of a program *)
  Definition gens_of (acts : list (fact N)) : list pgen := flat_map (fun a => match a with MakeGen g => [g] | _ => [] end) acts.
  (** the bottoms a generator rests on *)
  Definition rests_on (acts : list (fact N)) (g : pgen) : list nat := map (fun i => nth i (bottoms acts) O) (pgen_ptrs g).
  (** the generator of MGen.v *)
  Definition same_gen (h : list (fobj N)) (g : pgen) (g' : generator N) : Prop :=
    match g, g' with
    | PX i, GX f => stands_for h i f
    | PY i, GY f => stands_for h i f
    | PBoth i j, GBoth f f' => stands_for h i f /\ stands_for h j f'
    | _, _ => False
    end.
  Local Open Scope num_scope.
  (** coordinates of a place of the grid: row [fst ij], column [snd ij] *)
  Definition place (box : bbox N) (nX nY : Z) (ij : Z * Z) : option (nT N * nT N) :=
    match divr (bb_width box) (nZ (nX - 1)), divr (bb_height box) (nZ (nY - 1)) with
    | Ok dX, Ok dY => Some (bb_xMin box + nZ (snd ij) * dX, bb_yMin box + nZ (fst ij) * dY)
    | _, _ => None
    end.
End Bridge.
