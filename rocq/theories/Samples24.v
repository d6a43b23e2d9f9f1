(** Programs with several generators and meshes. *)
From Coq Require Import Lia ZArith List Bool.
From Verif Require Import Base MUtil MGeom MHull MPolygon MMaps MTriangle MGen MRegion MDelaunay MMesh MFile MShare.
From Verif Require Import Bridge BridgeShare Samples.
Import ListNotations.
Open Scope Z_scope.

(** the square cut along one diagonal or the other *)
Definition cut02 : trout F64 := mkTrout (N := F64) (o_points (sq_out F64)) [(0, 1, 1); (1, 2, 1); (2, 3, 1); (3, 0, 1); (0, 2, 0)] [(0, 1, 2); (0, 2, 3)].
Definition cut13 : trout F64 := mkTrout (N := F64) (o_points (sq_out F64)) [(0, 1, 1); (1, 2, 1); (2, 3, 1); (3, 0, 1); (1, 3, 0)] [(0, 1, 3); (1, 2, 3)].
Definition turned (sw : switches) (i : pslg F64) : trout F64 := if Z.ltb 4 (zlen (in_segments i)) then cut02 else cut13.
Definition no_atof (t : text) : f64 := F64_ofZ 0.
(** edges and polygons that mesh i shows *)
Definition seen (w : world F64) (i : nat) : option (Z * Z) := match world_mesh w i with Ok m => Some (zlen (ms_edges m), zlen (ms_polygons m)) | Err _ => None end.
Definition has_edge (w : world F64) (i : nat) (s : iseg) : option bool := match world_mesh w i with Ok m => Some (sm_contains iseg_eqb (ms_edges m) s) | Err _ => None end.

Lemma one_generator : exists acts : list (act F64), match world_run (N := F64) no_atof tol64 turned acts with
  | Ok w => seen w 0 = Some (5, 2) /\ seen w 1 = Some (5, 2) /\
            match act_do (N := F64) no_atof tol64 turned w (LookUp 0 (0, 2)) with Ok w' => seen w' 1 = Some (6, 2) | Err _ => False end
  | Err _ => False
  end.
Proof. exists [NewGen [] r_square; CallGen 0 CallConstrained; CallGen 0 CallConstrained]. vm_compute. repeat split. Qed.

Lemma copied_generator : exists acts : list (act F64), meshes_asked acts = [0; 1]%nat /\ match world_run (N := F64) no_atof tol64 turned acts with
  | Ok w => map (fun s => has_edge w 0 s) [(0, 2); (1, 3)] = [Some true; Some true] /\ seen w 0 = Some (6, 2)
  | Err _ => False
  end.
Proof.
  exists [NewGen [] r_square; CopyGen 0; CallGen 0 CallConstrained; CallGen 1 (CallConstrainedWith [(dpt 0 1 0 1, dpt 4 1 4 1)])].
  split; [reflexivity|]. vm_compute. repeat split.
Qed.
