(** C121: the memory of callTriangle.  Statements only; the proofs are in PHeap. *)
From Coq Require Import List Bool ZArith String.
From Verif Require Import Base MUtil MGeom MPolygon MMaps MTriangle MGen MRegion MDelaunay MHeap BridgeHeap PHeap.
From Verif Require Import Samples Samples4 Samples5 Samples7 Samples21 Samples22.
Import ListNotations.
Local Open Scope Z_scope.

(** With enough memory, callTriangle writes and reads its arrays only within bounds and after they are written, hands Triangle exactly the planar graph,
    computes what the model with lists computes, and gives every block back once: no block of its own or of Triangle is left, no other block is touched. *)
Theorem C121_arrays : forall (N : Num) alloc triangle triangulate (tol : nT N) (g : gen N) sw restricted (h : heap N) inp,
  fresh_blocks alloc -> enough_memory alloc -> honest triangle triangulate ->
  build_pslg tol (gn_region g) (gn_seeds g) restricted = Ok inp -> fits_in inp -> fits_out (triangulate sw inp) ->
  match snd (callTriangle triangulate tol g sw restricted) with
  | Ok d => exists h', callTriangle_mem alloc triangle tol (gn_region g) (gn_seeds g) sw restricted h = Ok (h', d) /\ forall b, hp_get h' b = hp_get h b
  | Err e => callTriangle_mem alloc triangle tol (gn_region g) (gn_seeds g) sw restricted h = Err e
  end.
Proof. exact @callTriangle_refined. Qed.
Print Assumptions C121_arrays.

(** The answer of malloc is not checked: without memory the first write goes through NULL. *)
Theorem C121_exhausted_memory : forall (N : Num) alloc triangle (tol : nT N) (r : region N) seeds sw restricted (h : heap N),
  (forall k h n, alloc k h n = None) -> seeds <> [] -> zlen seeds + zlen (getRegionPoints r) < 1073741824 ->
  callTriangle_mem alloc triangle tol r seeds sw restricted h = Err (UB "write through an invalid pointer").
Proof. exact @exhausted_memory. Qed.
Print Assumptions C121_exhausted_memory.

Example C121_hypotheses_met :
  let g := gen_ctor [] r_wedge64 in
  fresh_blocks (N := F64) next_block /\ enough_memory (N := F64) next_block /\ honest (steady (wedge_out F64)) (fun _ _ => wedge_out F64) /\
  (exists inp, build_pslg (N := F64) tol64 (gn_region g) (gn_seeds g) [] = Ok inp /\ fits_in inp /\ length (in_points inp) = 3%nat /\ length (in_segments inp) = 3%nat) /\
  fits_out (wedge_out F64) /\
  match callTriangle_mem (N := F64) next_block (steady (wedge_out F64)) tol64 (gn_region g) (gn_seeds g) swConforming [] [(7, [CInt 5])] with
  | Ok (h', d) => map fst h' = [7] /\ length (dl_triangles d) = 1%nat
  | Err _ => False
  end.
Proof.
  intro g. split; [exact next_block_fresh|]. split; [exact next_block_enough|]. split; [exact (steady_honest _)|]. split; [|split].
  - destruct (build_pslg (N := F64) tol64 (gn_region g) (gn_seeds g) []) as [inp|e] eqn:E.
    + exists inp. split; [reflexivity|].
      assert (K : match build_pslg (N := F64) tol64 (gn_region g) (gn_seeds g) [] with Ok i => (length (in_points i), length (in_segments i), length (in_holes i)) | Err _ => (0, 0, 0)%nat end = (3, 3, 0)%nat) by (vm_compute; reflexivity).
      rewrite E in K. injection K as K1 K2 K3. 
      split; [split; [|split]|split; [exact K1|exact K2]].
      * refine (eq_ind_r (fun n => Z.of_nat n < 1073741824) _ K1). reflexivity.
      * refine (eq_ind_r (fun n => Z.of_nat n < 1073741824) _ K2). reflexivity.
      * refine (eq_ind_r (fun n => Z.of_nat n < 1073741824) _ K3). reflexivity.
    + exfalso. assert (K : match build_pslg (N := F64) tol64 (gn_region g) (gn_seeds g) [] with Ok _ => true | Err _ => false end = true) by (vm_compute; reflexivity). rewrite E in K. discriminate.
  - unfold fits_out, zlen. cbn [wedge_out o_points o_edges o_tris length]. repeat split.
  - vm_compute. split; reflexivity.
Qed.

Example C121_exhausted_memory_met :
  [zpt 1 1] <> [] /\ zlen [zpt 1 1] + zlen (getRegionPoints r_wedge64) < 1073741824 /\
  match callTriangle_mem (N := F64) (fun _ _ _ => None) (steady (wedge_out F64)) tol64 r_wedge64 [zpt 1 1] swConforming [] [] with Err (UB _) => True | _ => False end.
Proof. split; [discriminate|]. split; vm_compute; [reflexivity|exact I]. Qed.
