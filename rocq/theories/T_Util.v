(** Property theorems: UniqueList, hash32, splitBySpaces (C01, C02, C03, C07, C62). *)
From Verif Require Import Base Spec MUtil PUtil.

(** C01 *)
Theorem C01_uniquelist_refines_set :
  forall (A : Type) (P : A -> Prop) (ltb : A -> A -> bool), strict_weak_order_on P ltb ->
  forall h, (forall o, In o h -> forall x, In x (set_op_elems o) -> P x) ->
  exists u, ul_run ltb h = Ok u /\
    ul_list u = set_run (equivb ltb) h /\
    (forall i j a b, nth_error (ul_list u) i = Some a -> nth_error (ul_list u) j = Some b ->
       equivb ltb a b = true -> i = j) /\
    (forall x, P x -> ul_contains ltb u x = set_mem (equivb ltb) x (ul_list u)) /\
    (forall x u' i, P x -> ul_push_back ltb u x = (u', i) ->
       ul_list u' = set_add (equivb ltb) (ul_list u) x /\
       exists y, vget (ul_list u') i = Ok y /\ equivb ltb y x = true).
Proof. exact uniquelist_refines_set. Qed.
Print Assumptions C01_uniquelist_refines_set.

Example C01_hypotheses_met :
  strict_weak_order_on (fun _ : Z => True) Z.ltb /\
  (exists u, ul_run Z.ltb [AddListOp [5; 3; 5; 9]; RemoveOp 5; AddOp 3; AddOp 5] = Ok u /\ ul_list u = [3; 9; 5]).
Proof. split; [exact zltb_swo | eexists; split; reflexivity]. Qed.

(** C02: the documented expectation fails on every list of at least two elements. *)
Theorem C02_pop_front_stale_indices :
  forall (A : Type) (P : A -> Prop) (ltb : A -> A -> bool), strict_weak_order_on P ltb ->
  forall h u, (forall o, In o h -> forall x, In x (set_op_elems o) -> P x) -> ul_run ltb h = Ok u ->
  forall x rest, ul_list u = x :: rest ->
  exists u1, ul_pop_front ltb u = Ok u1 /\ ul_list u1 = rest /\
    (forall n y, nth_error rest n = Some y -> ul_push_back ltb u1 y = (u1, Z.of_nat n + 1)) /\
    (forall y, nth_error rest (length rest - 1) = Some y ->
       exists i m, ul_push_back ltb u1 y = (u1, i) /\ vget (ul_list u1) i = Err (UB m)).
Proof. exact pop_front_stale. Qed.
Print Assumptions C02_pop_front_stale_indices.

Example C02_refuted :
  exists h u u1 i, ul_run Z.ltb h = Ok u /\ ul_list u = [7; 8] /\ ul_pop_front Z.ltb u = Ok u1 /\
    ul_push_back Z.ltb u1 8 = (u1, i) /\ vget (ul_list u1) i <> Ok 8.
Proof.
  exists [AddListOp [7; 8]]. do 3 eexists.
  split; [reflexivity|]. split; [reflexivity|]. split; [reflexivity|]. split; [reflexivity|]. discriminate.
Qed.

(** C03 *)
Theorem C03_force_push_back_hidden :
  forall (A : Type) (P : A -> Prop) (ltb : A -> A -> bool), strict_weak_order_on P ltb ->
  forall h u x, (forall o, In o h -> forall x, In x (set_op_elems o) -> P x) -> ul_run ltb h = Ok u ->
  P x -> set_mem (equivb ltb) x (ul_list u) = false ->
  let u1 := fst (ul_force_push_back u x) in
  ul_list u1 = ul_list u ++ [x] /\ ul_contains ltb u1 x = false /\
  ul_list (fst (ul_push_back ltb u1 x)) = ul_list u ++ [x; x].
Proof. exact force_push_back_hidden. Qed.
Print Assumptions C03_force_push_back_hidden.

Example C03_hypotheses_met :
  exists u, ul_run Z.ltb [AddListOp [7; 8]] = Ok u /\ set_mem (equivb Z.ltb) 9 (ul_list u) = false /\
    ul_contains Z.ltb (fst (ul_force_push_back u 9)) 9 = false.
Proof. eexists; repeat split; reflexivity. Qed.

(** C07: hash32 is free of undefined behaviour for exactly four of the 2^32 keys. *)
Theorem C07_hash32_undefined :
  forall k, in_int k = true ->
  (k = 61 \/ k = -62 \/ k = 477223760 \/ k = -477223761 -> exists v, hash32_strict k = Ok v) /\
  (~ (k = 61 \/ k = -62 \/ k = 477223760 \/ k = -477223761) -> exists m, hash32_strict k = Err (UB m)).
Proof. exact hash32_ub. Qed.
Print Assumptions C07_hash32_undefined.

Example C07_refuted : exists k m, 0 <= k < 65536 /\ hash32_strict k = Err (UB m).
Proof. exists 0. eexists. split; [lia | vm_compute; reflexivity]. Qed.

Theorem C07_hash32_wrap :
  forall k, in_int (hash32 k) = true /\ hash32 (-1 - k) = hash32 k /\
            (forall v, hash32_strict k = Ok v -> hash32 k = v).
Proof. exact (fun k => conj (hash32_int k) (conj (hash32_sym k) (hash32_strict_wrap k))). Qed.
Print Assumptions C07_hash32_wrap.

Example C07_values : hash32 0 = 1062685034 /\ hash32 (-1) = 1062685034 /\ hash32_strict 61 = Ok 0.
Proof. vm_compute. auto. Qed.

(** C62 *)
Theorem C62_split_fields :
  forall s fs, splitBySpaces s = fs <-> fields_of blank s fs.
Proof. exact split_iff. Qed.
Print Assumptions C62_split_fields.

Example C62_case :
  splitBySpaces (list_ascii_of_string "  12  0.5 x ") = map list_ascii_of_string ["12"; "0.5"; "x"]%string.
Proof. vm_compute. reflexivity. Qed.
