(** Mesh files of any layout: property C131. *)
From Coq Require Import Reals Lra Lia ZArith List Ascii String.
From Verif Require Import Base Spec MUtil MGeom MHull MPolygon MMaps MTriangle MGen MRegion MDelaunay MVoronoi MMesh MFormat MHist MFile.
From Verif Require Import Bridge BridgeNum BridgeSeed BridgeLayout PLayout Samples Samples31.
Import ListNotations.
Open Scope Z_scope.

(** C131 *)
Theorem C131_layout_irrelevant : forall (N : Num) (atof : text -> nT N) (tol : nT N) (T : Type) (ctor : list Z -> list (Point N) -> res T) (segs_of : T -> list Z)
    (start : Z) (t t' : text) (ls ls' : list text) (n k : nat) (m : mesh N T),
  laid_out t ls -> laid_out t' ls' -> same_mesh_data ls ls' n k ->
  createFromStream atof tol ctor segs_of m t start = createFromStream atof tol ctor segs_of m t' start.
Proof. exact @layout_irrelevant. Qed.
Print Assumptions C131_layout_irrelevant.

(** The second file has tabulators, remarks, and a wrong number of corners on the line of the triangle. *)
Example C131_hypotheses_met : laid_out neat neat_lines /\ laid_out loose loose_lines /\ same_mesh_data neat_lines loose_lines 3 1 /\
  match createFromStream (N := F64) atof64 tol64 (polygon_ctor_idx (N := F64) tol64) (@pg_points F64) mesh_new loose 0 with
  | Ok m => zlen (ul_list (ms_points m)) = 3 /\ map (@pg_points F64) (ms_polygons m) = [[0; 1; 2]]
  | Err _ => False end.
Proof. split; [exact neat_laid_out|]. split; [exact loose_laid_out|]. split; [exact one_triangle|exact loose_read]. Qed.

(** A file of any layout is read as the mesh it describes: points, polygons, and the neighbours of every edge. *)
Theorem C131_files_of_any_layout_are_read : forall (N : Num) (atof : text -> nT N) (tol : nT N) (start : Z) (t : text) (ls : list text)
    (qs : list (Point N)) (kss : list (list Z)),
  laid_out t ls -> mesh_file atof ls qs kss start -> zlen qs <= int_max -> zlen kss <= int_max ->
  strict_weak_order_on (fun q => In q qs) (pt_ltb tol) ->
  (forall i j a b, nth_error qs i = Some a -> nth_error qs j = Some b -> equivb (pt_ltb tol) a b = true -> i = j) ->
  exists m, createFromStream atof tol (polygon_ctor_idx tol) (@pg_points N) mesh_new t start = Ok m /\
    ul_list (ms_points m) = qs /\ map (@pg_points N) (ms_polygons m) = kss /\
    forall nb s, um_find (iseg_match nb) s (ms_edges m) = spec_sm_run (cell_inserts 0 (map edges_of kss)) (canon s).
Proof. exact @file_read. Qed.
Print Assumptions C131_files_of_any_layout_are_read.

Example C131_file_met : laid_out loose loose_lines /\ mesh_file (N := F64) atof_int loose_lines three [[0; 1; 2]] 0 /\
  zlen three <= int_max /\ zlen [[0; 1; 2]] <= int_max /\ strict_weak_order_on (fun q => In q three) (pt_ltb (N := F64) tol64) /\
  (forall i j a b, nth_error three i = Some a -> nth_error three j = Some b -> equivb (pt_ltb (N := F64) tol64) a b = true -> i = j).
Proof.
  split; [exact loose_laid_out|]. split; [exact loose_file|]. split; [vm_compute; discriminate|]. split; [vm_compute; discriminate|].
  split; [apply swo_checked; vm_compute; reflexivity|apply distinct_checked; vm_compute; reflexivity].
Qed.

Theorem C131_wrong_corner_counts_are_noticed_refuted : exists (t : text) (ls : list text), laid_out t ls /\ announces (line_at ls 0) 3 /\ announces (line_at ls 4) 1 /\
  fields_of blank (line_at ls 5) (map list_ascii_of_string ["99"; "0"; "1"; "2"]%string) /\
  match createFromStream (N := F64) atof64 tol64 (polygon_ctor_idx (N := F64) tol64) (@pg_points F64) mesh_new t 0 with
  | Ok m => zlen (ul_list (ms_points m)) = 3 /\ map (@pg_points F64) (ms_polygons m) = [[0; 1; 2]]
  | Err _ => False end.
Proof. exact counts_ignored. Qed.
Print Assumptions C131_wrong_corner_counts_are_noticed_refuted.
