(** Programs with shared functors. *)
From Coq Require Import ZArith List Bool.
From Verif Require Import Base MUtil MGeom MGen MFunctor Bridge BridgeFunctor.
Import ListNotations.
Open Scope Z_scope.

Definition box2 : bbox F64 := mkBox (N := F64) (dpt 0 1 0 1) (dpt 2 1 2 1).
Definition ltr : Z * Z -> bool := fun _ => true.
Definition rtl : Z * Z -> bool := fun _ => false.
(** are the points of the [k]-th Generate those with these coordinates? *)
Definition gave (w : fworld F64) (k : nat) (qs : list (Z * Z)) : bool :=
  match nth_error (fw_out w) k with
  | Some l => (Nat.eqb (length l) (length qs) && forallb (fun pq => neqb (n := F64) (px (fst pq)) (F64_ofZ (fst (snd pq))) && neqb (n := F64) (py (fst pq)) (F64_ofZ (snd (snd pq)))) (combine l qs))%bool
  | None => false
  end.
Definition gives (acts : list (fact F64)) (k : nat) (qs : list (Z * Z)) : bool := match fact_run acts with Ok w => gave w k qs | Err _ => false end.
Definition displace2 : functor F64 := f_displace_points (N := F64) (F64_ofZ 2).
Definition both (ord : Z * Z -> bool) : list (fact F64) := [MakeFunctor displace2; MakeGen (PBoth 0 0); Generate 0 ord box2 2 2].

Lemma order_matters : gives (both ltr) 0 [(1, 0); (3, 0); (1, 2); (3, 2)] = true /\ gives (both rtl) 0 [(0, 1); (2, 1); (0, 3); (2, 3)] = true.
Proof. vm_compute. split; reflexivity. Qed.
Lemma calls_matter :
  gives [MakeFunctor displace2; MakeGen (PX 0); MakeGen (PX 0); Generate 1 ltr box2 3 3] 0 [(0, 1); (1, 1); (2, 3); (0, 1); (1, 3); (2, 3); (0, 3); (1, 3); (2, 5)] = true /\
  gives [MakeFunctor displace2; MakeGen (PX 0); MakeGen (PX 0); Generate 0 ltr box2 3 3; Generate 1 ltr box2 3 3] 1 [(0, 0); (1, 2); (2, 2); (0, 2); (1, 2); (2, 4); (0, 2); (1, 4); (2, 4)] = true.
Proof. vm_compute. split; reflexivity. Qed.
