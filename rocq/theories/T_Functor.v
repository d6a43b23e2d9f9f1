(** Functors shared by generators, coordinates and noise: property C125. *)
From Coq Require Import Lia ZArith List Bool.
From Verif Require Import Base MUtil MGeom MGen MFunctor.
From Verif Require Import Bridge BridgeFunctor PFunctor Samples25.
Import ListNotations.
Open Scope Z_scope.

(** C125 *)
Theorem C125_own_functors : forall (N : Num) (acts : list (fact N)) w k g ord box nX nY,
  fact_run acts = Ok w -> nth_error (gens_of acts) k = Some g -> NoDup (rests_on acts g) ->
  exists g1, same_gen (fw_heap w) g g1 /\
  (forall w', fact_do w (Generate k ord box nX nY) = Ok w' -> exists g2 qs, generate g1 [] box nX nY = Ok (g2, qs) /\ fw_out w' = fw_out w ++ [qs] /\ same_gen (fw_heap w') g g2 /\
     (forall i f b, stands_for (fw_heap w) i f -> nth_error (bottoms acts) i = Some b -> ~ In b (rests_on acts g) -> stands_for (fw_heap w') i f)) /\
  (forall g2 qs, generate g1 [] box nX nY = Ok (g2, qs) -> exists w', fact_do w (Generate k ord box nX nY) = Ok w').
Proof. exact @unshared. Qed.
Print Assumptions C125_own_functors.

(** Noise around a displacing functor for x, another displacing functor for y: two bottoms, whatever the order of evaluation. *)
Example C125_own_case :
  let acts : list (fact F64) := [MakeFunctor displace2; MakeFunctor displace2; MakeNoise (N := F64) 0 (fun _ => F64_ofZ 5); MakeGen (PBoth 2 1)] in
  NoDup (rests_on (N := F64) acts (PBoth 2 1)) /\ gives (acts ++ [Generate 0 ltr box2 2 2]) 0 [(6, 1); (7, 0); (6, 3); (7, 2)] = true /\
  gives (acts ++ [Generate 0 rtl box2 2 2]) 0 [(6, 1); (7, 0); (6, 3); (7, 2)] = true.
Proof. cbv zeta. split; [cbn; repeat constructor; cbn; intuition lia|]. vm_compute. split; reflexivity. Qed.

Theorem C125_stateless_functors_can_be_shared : forall (N : Num) (acts : list (fact N)) w k p (f : functor N) ord box nX nY,
  fact_run acts = Ok w -> nth_error (gens_of acts) k = Some (PBoth p p) -> nth_error (fw_heap w) p = Some (Plain f) -> (exists g, f = FPure g) \/ (exists d, f = FUniform d) ->
  (forall w', fact_do w (Generate k ord box nX nY) = Ok w' -> exists g2 qs, generate (GBoth f f) [] box nX nY = Ok (g2, qs) /\ fw_out w' = fw_out w ++ [qs] /\ fw_heap w' = fw_heap w) /\
  (forall g2 qs, generate (GBoth f f) [] box nX nY = Ok (g2, qs) -> exists w', fact_do w (Generate k ord box nX nY) = Ok w').
Proof. exact @stateless_both. Qed.
Print Assumptions C125_stateless_functors_can_be_shared.

Example C125_stateless_case : gives [MakeFunctor (f_constant (N := F64)); MakeGen (PBoth 0 0); Generate 0 rtl box2 2 2] 0 [(0, 0); (2, 0); (0, 2); (2, 2)] = true.
Proof. vm_compute. reflexivity. Qed.

Theorem C125_displacing_functor_for_both : forall (N : Num) (acts : list (fact N)) w k p d alt ord box nX nY w',
  fact_run acts = Ok w -> nth_error (gens_of acts) k = Some (PBoth p p) -> nth_error (fw_heap w) p = Some (Plain (FDisplace d alt)) -> fact_do w (Generate k ord box nX nY) = Ok w' ->
  exists qs, fw_out w' = fw_out w ++ [qs] /\ fw_heap w' = fw_heap w /\
    Forall2 (fun ij q => exists x y, place box nX nY ij = Some (x, y) /\ q = (if Bool.eqb (ord ij) alt then mkP x (y + d / nZ 2) else mkP (x + d / nZ 2) y)%num) (grid_indices nX nY) qs.
Proof. exact @displaced_both. Qed.
Print Assumptions C125_displacing_functor_for_both.

(** Property violated: the points of one program depend on the order in which the compiler evaluates two arguments. *)
Theorem C125_order_of_evaluation_refuted :
  exists acts : (Z * Z -> bool) -> list (fact F64), gives (acts ltr) 0 [(1, 0); (3, 0); (1, 2); (3, 2)] = true /\ gives (acts rtl) 0 [(0, 1); (2, 1); (0, 3); (2, 3)] = true.
Proof. exact (ex_intro _ both order_matters). Qed.
Print Assumptions C125_order_of_evaluation_refuted.

(** Property violated: a generator gives other points after another generator with the same functor was used. *)
Theorem C125_independent_generators_refuted : exists before after : list (fact F64),
  gens_of before = [PX 0; PX 0] /\
  gives (before ++ after) 0 [(0, 1); (1, 1); (2, 3); (0, 1); (1, 3); (2, 3); (0, 3); (1, 3); (2, 5)] = true /\
  gives (before ++ Generate 0 ltr box2 3 3 :: after) 1 [(0, 0); (1, 2); (2, 2); (0, 2); (1, 2); (2, 4); (0, 2); (1, 4); (2, 4)] = true.
Proof. exact (ex_intro _ [MakeFunctor displace2; MakeGen (PX 0); MakeGen (PX 0)] (ex_intro _ [Generate 1 ltr box2 3 3] (conj eq_refl calls_matter))). Qed.
Print Assumptions C125_independent_generators_refuted.
