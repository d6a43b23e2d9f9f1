(** One polygon over its whole life: property C126. *)
From Coq Require Import Lia ZArith List Bool Permutation.
From Verif Require Import Base MUtil MGeom MHull MPolygon MPolyLife.
From Verif Require Import Bridge BridgePolyLife PPolyLife Samples26.
Import ListNotations.
Open Scope Z_scope.

(** C126 *)
Theorem C126_index_list : forall (N : Num) tol (b : birth N) cs o ss,
  life tol b cs = Ok (o, ss) -> length ss = length cs /\ o_idx o = shown b cs ss.
Proof. exact @index_list. Qed.
Print Assumptions C126_index_list.

Example C126_index_case : match life (N := F64) tol5 (FromIndices [0; 2; 1] tri) [Fix tri; Rewrite [1; 2; 3]; Mutate bowtie4] with
  Ok (o, ss) => (zs_eqb (o_idx o) [0; 1; 2; 3] && zs_eqb (shown (FromIndices [0; 2; 1] tri) [Fix tri] (firstn 1 ss)) [1; 2; 0])%bool | _ => false end = true.
Proof. vm_compute. reflexivity. Qed.

Theorem C126_area_is_kept : forall (N : Num) tol (b : birth N) cs o s1 a s2 a' s3,
  life tol b cs = Ok (o, s1 ++ Area a :: s2 ++ Area a' :: s3) -> neqb a (nZ (-1)) = false -> Forall (fun s => ~ drops_area s) s2 -> a' = a.
Proof. exact @area_kept. Qed.
Print Assumptions C126_area_is_kept.

Theorem C126_diameter_is_kept : forall (N : Num) tol (b : birth N) cs o s1 d s2 d' s3,
  life tol b cs = Ok (o, s1 ++ Diam d :: s2 ++ Diam d' :: s3) -> nltb d (nZ 0) = false -> Forall (fun s => ~ drops_all s) s2 -> d' = d.
Proof. exact @diam_kept. Qed.
Print Assumptions C126_diameter_is_kept.

(** Between the two answers: a rewritten list, a refused mutation, a copy, a call that reverses nothing. *)
Example C126_kept_case : saw (FromIndices [0; 1; 2] tri) [AskArea tri; AskDiam tri; Rewrite [0; 3; 2]; Fix tri; Copied; Mutate bowtie4; AskArea quad; AskDiam quad]
  [LArea 2; LDiamAbove 2; LRewritten; LFixed false; LCopy; LRefused; LArea 2; LDiamAbove 2] = true.
Proof. vm_compute. reflexivity. Qed.

Theorem C126_area_is_computed_anew : forall (N : Num) tol (b : birth N) cs o ss,
  life tol b cs = Ok (o, ss) -> since drops_area is_area (made_with_points b) ss ->
  forall p a, (exists o', pcall_do tol o (AskArea p) = Ok (o', Area a)) <->
    (exists g g', polygon_ctor_idx tol (shown b cs ss) p = Ok g /\ getArea g p = Ok (g', a)).
Proof. exact @area_fresh. Qed.
Print Assumptions C126_area_is_computed_anew.

Theorem C126_diameter_is_computed_anew : forall (N : Num) tol (b : birth N) cs o ss,
  life tol b cs = Ok (o, ss) -> since drops_all is_diam (made_with_points b) ss ->
  forall p d, (exists o', pcall_do tol o (AskDiam p) = Ok (o', Diam d)) <->
    (exists g g', polygon_ctor_idx tol (shown b cs ss) p = Ok g /\ getDiameter g p = Ok (g', d)).
Proof. exact @diam_fresh. Qed.
Print Assumptions C126_diameter_is_computed_anew.

(** The area is computed again after a reversal, the diameter only after a mutation; both for a polygon made by the default constructor. *)
Example C126_anew_case :
  saw (FromPoints tri_cw) [AskArea tri_cw; Fix tri_cw; AskArea tri_cw; Mutate quad; AskArea quad; AskDiam quad] [LArea (-2); LFixed true; LArea 2; LMutated; LArea 9; LDiamAbove 4] = true /\
  saw FromNothing [Mutate quad; AskArea quad; AskDiam quad] [LMutated; LArea 9; LDiamAbove 4] = true /\
  since (N := F64) drops_area is_area False [Fixed true; Rewritten] /\ since (N := F64) drops_area is_area True [].
Proof.
  split; [vm_compute; reflexivity|]. split; [vm_compute; reflexivity|]. split.
  - right. exists [], (Fixed true), [Rewritten]. split; [reflexivity|]. split; [right; reflexivity|]. constructor; [intros [a E]; discriminate E|constructor].
  - left. split; [exact I|constructor].
Qed.

Theorem C126_centroid_is_the_origin : forall (N : Num) tol (b : birth N) cs o ss,
  life tol b cs = Ok (o, ss) -> forall c, In (Cen c) ss -> px c = nZ 0 /\ py c = nZ 0.
Proof. exact @origin_always. Qed.
Print Assumptions C126_centroid_is_the_origin.

Example C126_centroid_case : saw (FromPoints quad) [AskCen quad; Mutate quad; Copied; AskCen quad] [LCen 0 0; LMutated; LCopy; LCen 0 0] = true.
Proof. vm_compute. reflexivity. Qed.

Theorem C126_equal_to_its_copy : forall (N : Num) tol (b : birth N) cs o ss,
  life tol b cs = Ok (o, ss) -> since rehashes unhashed True ss ->
  (forall o' s, pcall_do tol o Copied = Ok (o', s) -> pobj_eqb o o' = true) /\
  (forall tol' idx p g, Permutation idx (shown b cs ss) -> polygon_ctor_idx tol' idx p = Ok g -> pobj_eqb o (obj_of g) = true).
Proof. exact @equal_when_hashed. Qed.
Print Assumptions C126_equal_to_its_copy.

Theorem C126_compared_by_the_old_list : forall (N : Num) tol cs (o1 o2 : pobj N) ss,
  pcalls tol cs o1 = Ok (o2, ss) -> Forall (fun s => ~ rehashes s) ss -> forall x, pobj_eqb x o2 = pobj_eqb x o1.
Proof. exact @compared_as_before. Qed.
Print Assumptions C126_compared_by_the_old_list.

Example C126_equal_case : equals_its_copy (FromIndices [0; 2; 1] tri) [Fix tri] = Some true /\ equals_its_copy (FromIndices [0; 1; 2] tri) [Rewrite [0; 3; 2]; Copied] = Some true /\
  since (N := F64) rehashes unhashed True [Rewritten; Copy; Fixed true].
Proof.
  split; [vm_compute; reflexivity|]. split; [vm_compute; reflexivity|]. right. exists [Rewritten], Copy, [Fixed true].
  split; [reflexivity|]. split; [right; reflexivity|]. constructor; [intros [E|E]; discriminate E|constructor].
Qed.

Theorem C126_default_polygon_is_undefined : forall (N : Num) tol cs (o : pobj N) ss, life tol FromNothing cs = Ok (o, ss) ->
  (Forall (fun s => ~ drops_area s) ss -> forall p, exists m, pcall_do tol o (AskArea p) = Err (UB m)) /\
  (Forall (fun s => ~ drops_all s) ss -> (forall p, exists m, pcall_do tol o (AskDiam p) = Err (UB m)) /\ exists m, pcall_do tol o Copied = Err (UB m)).
Proof. exact @unborn. Qed.
Print Assumptions C126_default_polygon_is_undefined.

Theorem C126_initialised_otherwise : forall (N : Num) tol (b : birth N) cs o ss, life tol b cs = Ok (o, ss) -> made_with_points b \/ In Mutated ss ->
  (exists a, o_area o = Some a) /\ exists d, o_diam o = Some d.
Proof. exact @initialised. Qed.
Print Assumptions C126_initialised_otherwise.

(** Writing the list, or a refused mutation, does not help. *)
Example C126_default_case : undefined FromNothing [Rewrite [0; 1; 2]; AskArea tri] = true /\ undefined FromNothing [Mutate bowtie4; AskDiam tri] = true /\
  saw FromNothing [Rewrite [0; 1; 2]; Mutate bowtie4] [LRewritten; LRefused] = true /\ saw FromNothing [Mutate quad; Copied; AskArea quad] [LMutated; LCopy; LArea 9] = true.
Proof. vm_compute. repeat split; reflexivity. Qed.

(** Property violated: two polygons with the same index list over the same points answer different areas. *)
Theorem C126_area_of_the_current_list_refuted : exists (p : list (Point F64)) idx cs,
  saw (FromIndices [0; 1; 2] p) (cs ++ [Rewrite idx; AskArea p; Copied; AskArea p]) [LArea 2; LRewritten; LArea 2; LCopy; LArea 2] = true /\ saw (FromIndices idx p) [AskArea p] [LArea 4] = true.
Proof. exact (ex_intro _ tri (ex_intro _ [0; 3; 2] (ex_intro _ [AskArea tri] stale_area))). Qed.
Print Assumptions C126_area_of_the_current_list_refuted.

(** Property violated: a refused mutation leaves the new list with the old area. *)
Theorem C126_refused_mutation_refuted : exists p q r : list (Point F64),
  saw (FromIndices [0; 1; 2] p) [AskArea p; Mutate r; AskArea q] [LArea 2; LRefused; LArea 2] = true /\ saw (FromPoints q) [AskArea q] [LArea 9] = true.
Proof. exact (ex_intro _ tri (ex_intro _ quad (ex_intro _ bowtie4 stale_refused))). Qed.
Print Assumptions C126_refused_mutation_refuted.

(** Property violated: a polygon differs from its own copy. *)
Theorem C126_copies_are_equal_refuted : exists (b : birth F64) idx r, equals_its_copy b [] = Some true /\ equals_its_copy b [Rewrite idx] = Some false /\ equals_its_copy b [Mutate r] = Some false.
Proof. exact (ex_intro _ (FromIndices [0; 1; 2] tri) (ex_intro _ [0; 3; 2] (ex_intro _ bowtie4 stale_hash))). Qed.
Print Assumptions C126_copies_are_equal_refuted.
