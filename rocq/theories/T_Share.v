(** Generators and meshes that share their neighbour maps: property C124. *)
From Coq Require Import Lia ZArith List Bool Ascii String.
From Verif Require Import Base Spec MUtil MGeom MHull MPolygon MMaps MTriangle MGen MRegion MDelaunay MMesh MFile MShare.
From Verif Require Import Bridge BridgeShare PShare Samples Samples24.
Import ListNotations.
Open Scope Z_scope.

(** C124 *)
Theorem C124_family_shares_edges : forall (N : Num) (atof : text -> nT N) (tol : nT N) (triangulate : switches -> pslg N -> trout N) (acts : list (act N)) w,
  world_run atof tol triangulate acts = Ok w ->
  (forall i, (i < length (fam_mesh (families_of acts)))%nat -> exists m, world_mesh w i = Ok m) /\
  (forall i j mi mj k, world_mesh w i = Ok mi -> world_mesh w j = Ok mj -> mesh_family acts i = Some k -> mesh_family acts j = Some k -> ms_edges mi = ms_edges mj).
Proof. exact (fun N a t tr acts w R => conj (fun i => all_visible a t tr acts w i R) (fun i j mi mj k => family_shares a t tr acts w i j mi mj k R)). Qed.
Print Assumptions C124_family_shares_edges.

Theorem C124_other_families_untouched : forall (N : Num) (atof : text -> nT N) (tol : nT N) (triangulate : switches -> pslg N -> trout N) (acts : list (act N)) w a w' i m,
  world_run atof tol triangulate acts = Ok w -> act_do atof tol triangulate w a = Ok w' -> world_mesh w i = Ok m ->
  works_on acts a <> mesh_family acts i -> (forall j, a <> AssignMesh i j) -> world_mesh w' i = Ok m.
Proof. exact @others_untouched. Qed.
Print Assumptions C124_other_families_untouched.

Theorem C124_lookup_seen_by_family : forall (N : Num) (atof : text -> nT N) (tol : nT N) (triangulate : switches -> pslg N -> trout N) (acts : list (act N)) w i j s w' m k,
  world_run atof tol triangulate acts = Ok w -> act_do atof tol triangulate w (LookUp j s) = Ok w' -> world_mesh w i = Ok m ->
  mesh_family acts i = Some k -> mesh_family acts j = Some k ->
  (um_find iseg_eqb s (ms_edges m) <> None -> world_mesh w' i = Ok m) /\
  (um_find iseg_eqb s (ms_edges m) = None -> world_mesh w' i = Ok (mkMesh (ms_points m) (ms_polygons m) (ms_edges m ++ [(s, mkNb None (-1))]) (ms_pointMap m))).
Proof. exact @lookup_effect2. Qed.
Print Assumptions C124_lookup_seen_by_family.

Theorem C124_reading_seen_by_family : forall (N : Num) (atof : text -> nT N) (tol : nT N) (triangulate : switches -> pslg N -> trout N) (acts : list (act N)) w i j file start w' m k,
  world_run atof tol triangulate acts = Ok w -> act_do atof tol triangulate w (ReadInto j file start) = Ok w' -> world_mesh w i = Ok m ->
  mesh_family acts i = Some k -> mesh_family acts j = Some k ->
  exists mj mj', world_mesh w j = Ok mj /\ createFromStream atof tol (triangle_ctor tol) (fun t => pg_points (tr_poly t)) mj file start = Ok mj' /\ world_mesh w' j = Ok mj' /\
    (i <> j -> world_mesh w' i = Ok (mkMesh (ms_points m) (ms_polygons m) (ms_edges mj') (ms_pointMap m))).
Proof. exact @read_effect. Qed.
Print Assumptions C124_reading_seen_by_family.

Theorem C124_first_mesh : forall (N : Num) (atof : text -> nT N) (tol : nT N) (triangulate : switches -> pslg N -> trout N) (acts : list (act N)) w seeds r c w',
  world_run atof tol triangulate (acts ++ [NewGen seeds r]) = Ok w -> c = CallConstrained \/ (exists s, c = CallConstrainedWith s) ->
  act_do atof tol triangulate w (CallGen (length (fam_gen (families_of acts))) c) = Ok w' ->
  exists g t, gen_do triangulate tol (gen_ctor seeds r) c = (g, Ok (OutMesh (ByValue t))) /\ world_mesh w' (length (fam_mesh (families_of acts))) = Ok t.
Proof. exact @first_mesh2. Qed.
Print Assumptions C124_first_mesh.

Theorem C124_first_call_writes : forall (N : Num) (atof : text -> nT N) (tol : nT N) (triangulate : switches -> pslg N -> trout N) (acts : list (act N)) w g c go w' i m k,
  world_run atof tol triangulate acts = Ok w -> nth_error (wd_gens w) g = Some go -> gn_data (go_gen go) = None -> act_do atof tol triangulate w (CallGen g c) = Ok w' ->
  world_mesh w i = Ok m -> mesh_family acts i = Some k -> gen_family acts g = Some k ->
  exists inp d e', build_pslg tol (gn_region (go_gen go)) (gn_seeds (go_gen go)) (call_restricted c) = Ok inp /\ read_output tol (triangulate (call_switches c) inp) = Ok d /\
    world_mesh w' i = Ok (mkMesh (ms_points m) (ms_polygons m) e' (ms_pointMap m)) /\
    forall s, um_find iseg_eqb s e' = match find (fun e => same_side s (e_p1 e, e_p2 e)) (rev (dl_edges d)) with Some e => Some (nb_two (e_t1 e) (e_t2 e)) | None => um_find iseg_eqb s (ms_edges m) end.
Proof. exact @first_call. Qed.
Print Assumptions C124_first_call_writes.

Theorem C124_later_calls_write_nothing : forall (N : Num) (atof : text -> nT N) (tol : nT N) (triangulate : switches -> pslg N -> trout N) (acts : list (act N)) w g c0 c w' i m,
  world_run atof tol triangulate acts = Ok w -> In (CallGen g c0) acts -> act_do atof tol triangulate w (CallGen g c) = Ok w' ->
  world_mesh w i = Ok m -> world_mesh w' i = Ok m.
Proof. exact @later_calls2. Qed.
Print Assumptions C124_later_calls_write_nothing.

(** The same for a copy of a generator that had been called. *)
Theorem C124_calls_on_filled_generators : forall (N : Num) (atof : text -> nT N) (tol : nT N) (triangulate : switches -> pslg N -> trout N) (acts : list (act N)) w g c go d w' i m,
  world_run atof tol triangulate acts = Ok w -> nth_error (wd_gens w) g = Some go -> gn_data (go_gen go) = Some d -> act_do atof tol triangulate w (CallGen g c) = Ok w' ->
  world_mesh w i = Ok m -> world_mesh w' i = Ok m.
Proof. exact @later_calls. Qed.
Print Assumptions C124_calls_on_filled_generators.

Theorem C124_careful_programs : forall (N : Num) (atof : text -> nT N) (tol : nT N) (triangulate : switches -> pslg N -> trout N) (acts : list (act N)) w i j k,
  world_run atof tol triangulate acts = Ok w -> careful acts -> mesh_family acts i = Some k -> mesh_family acts j = Some k -> i = j.
Proof. exact @careful_apart. Qed.
Print Assumptions C124_careful_programs.

(** Two generators, a mesh of each, a mesh read from a file: three families. *)
Example C124_hypotheses_met :
  let acts := [NewGen [] r_square; CallGen 0 CallConstrained; NewGen [] r_square; CallGen 1 CallConstrained; NewMesh] in
  careful (N := F64) acts /\ map (mesh_family (N := F64) acts) [0; 1; 2]%nat = [Some 0; Some 1; Some 2]%nat /\
  match world_run (N := F64) no_atof tol64 turned acts with
  | Ok w => seen w 0 = Some (5, 2) /\ seen w 1 = Some (5, 2) /\ seen w 2 = Some (0, 0) /\
            match act_do (N := F64) no_atof tol64 turned w (LookUp 0 (1, 3)) with Ok w' => seen w' 0 = Some (5, 2) /\ seen w' 1 = Some (5, 2) | Err _ => False end
  | Err _ => False
  end.
Proof.
  split; [split; [repeat constructor; intros []|cbn; repeat constructor; cbn; intuition lia]|]. split; [reflexivity|]. vm_compute. repeat split.
Qed.

(** A mesh and its copy, then a file with one triangle is read into the copy: both have three edges, only the copy has a triangle. *)
Example C124_reading_case :
  let acts : list (act F64) := [NewMesh; CopyMesh 0; ReadInto 1 (unlines (map list_ascii_of_string ["3"; "0 0"; "4 0"; "0 4"; "1"; "3 0 1 2"]%string)) 0] in
  map (mesh_family (N := F64) acts) [0; 1]%nat = [Some 0; Some 0]%nat /\
  match world_run (N := F64) atof_int tol64 turned acts with Ok w => seen w 0 = Some (3, 0) /\ seen w 1 = Some (3, 1) | Err _ => False end.
Proof. split; [reflexivity|]. vm_compute. split; reflexivity. Qed.

(** Property violated: asking the neighbours of a segment of one mesh adds an edge to another mesh of the same generator. *)
Theorem C124_meshes_of_one_generator_refuted :
  exists acts : list (act F64), match world_run (N := F64) no_atof tol64 turned acts with
  | Ok w => seen w 0 = Some (5, 2) /\ seen w 1 = Some (5, 2) /\
            match act_do (N := F64) no_atof tol64 turned w (LookUp 0 (0, 2)) with Ok w' => seen w' 1 = Some (6, 2) | Err _ => False end
  | Err _ => False
  end.
Proof. exact one_generator. Qed.
Print Assumptions C124_meshes_of_one_generator_refuted.

(** Property violated: a generator and its copy, each asked once, leave both diagonals of the square in the map of a mesh of two triangles. *)
Theorem C124_copied_generator_refuted :
  exists acts : list (act F64), meshes_asked acts = [0; 1]%nat /\ match world_run (N := F64) no_atof tol64 turned acts with
  | Ok w => map (fun s => has_edge w 0 s) [(0, 2); (1, 3)] = [Some true; Some true] /\ seen w 0 = Some (6, 2)
  | Err _ => False
  end.
Proof. exact copied_generator. Qed.
Print Assumptions C124_copied_generator_refuted.
