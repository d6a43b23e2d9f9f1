(** Model of several generators and meshes in one program: which neighbour maps they share. *)
From Verif Require Import Base MUtil MGeom MHull MPolygon MMaps MTriangle MGen MRegion MDelaunay MMesh MFile.

Section Share.
  Context {N : Num}.
  Notation Point := (Point N).
  Notation mobj := (mobj N (triangle N)).
  Variables (atof : text -> nT N) (tol : nT N).
  Variable triangulate : switches -> pslg N -> trout N.

  (** A TriangleDelaunayGenerator object: its data and the pointer delaunayEdges
      (delynoi/include/delynoi/voronoi/TriangleDelaunayGenerator.h:20-41). *)
  Record genobj := mkGenObj { go_gen : gen N; go_edges : nat }.
  (** The objects of a program and the maps they point to
      (TriangleDelaunayGenerator.h:28, delynoi/include/delynoi/models/Mesh.h:21-22). *)
  Record world := mkWorld { wd_heap : heap N; wd_gens : list genobj; wd_meshes : list mobj }.

  (** delynoi/src/voronoi/TriangleDelaunayGenerator.cpp:118-124: the edges are put in the map the generator points to. *)
  Definition put_edges (m : segmap) (es : list edge) : segmap :=
    fold_left (fun m e => sm_put iseg_eqb m (e_p1 e, e_p2 e) (nb_two (e_t1 e) (e_t2 e))) es m.

  (** TriangleDelaunayGenerator.cpp:3-7: the constructor allocates the map. *)
  Definition new_gen (w : world) (seeds : list Point) (r : region N) : world :=
    mkWorld (mkHeap (hp_seg (wd_heap w) ++ [[]]) (hp_pm (wd_heap w)))
            (wd_gens w ++ [mkGenObj (gen_ctor seeds r) (length (hp_seg (wd_heap w)))]) (wd_meshes w).
  (** TriangleDelaunayGenerator.h:18: the implicit copy constructor copies the pointer; callTriangle then works on the copy's members. *)
  Definition copy_gen (w : world) (g : nat) : res world :=
    go <- vgetn (wd_gens w) g ;; Ok (mkWorld (wd_heap w) (wd_gens w ++ [go]) (wd_meshes w)).
  (** TriangleDelaunayGenerator.cpp:144-152, 186-212 and TriangleDelaunayGenerator.h:94-116: a call on a generator.  Only the first
      one triangulates and writes to the map; every mesh gets a point map of its own and the generator's edge map.
      The mesh that getConformingDelaunayTriangulation answers by reference is gone, only its point map stays allocated. *)
  Definition call_gen (w : world) (g : nat) (c : gen_call N) : res world :=
    go <- vgetn (wd_gens w) g ;;
    m <- vgetn (hp_seg (wd_heap w)) (go_edges go) ;;
    let '(gn, out) := gen_do triangulate tol (go_gen go) c in
    out <- out ;;
    let m' := match gn_data (go_gen go), gn_data gn with None, Some (Ok d) => put_edges m (dl_edges d) | _, _ => m end in
    let segs := upd_nth (go_edges go) (fun _ => m') (hp_seg (wd_heap w)) in
    let pms := hp_pm (wd_heap w) in
    let gens := put g (mkGenObj gn (go_edges go)) (wd_gens w) in
    Ok (match out with
        | OutMesh (ByValue t) =>
            mkWorld (mkHeap segs (pms ++ [ms_pointMap t])) gens
                    (wd_meshes w ++ [mkObj (ms_points t) (ms_polygons t) (go_edges go) (length pms)])
        | OutMesh (RefToLocal t) => mkWorld (mkHeap segs (pms ++ [ms_pointMap t])) gens (wd_meshes w)
        | OutInfo _ => mkWorld (mkHeap segs pms) gens (wd_meshes w)
        end).

  (** Mesh.h:129-132: a mesh with new maps. *)
  Definition new_mesh (w : world) : world :=
    mkWorld (mkHeap (hp_seg (wd_heap w) ++ [[]]) (hp_pm (wd_heap w) ++ [[]])) (wd_gens w)
            (wd_meshes w ++ [mkObj ul_empty [] (length (hp_seg (wd_heap w))) (length (hp_pm (wd_heap w)))]).
  (** Mesh.h:150-156 *)
  Definition copy_mesh (w : world) (i : nat) : res world :=
    o <- vgetn (wd_meshes w) i ;; Ok (mkWorld (wd_heap w) (wd_gens w) (wd_meshes w ++ [mesh_copy o])).
  (** Mesh.h:15: the implicit assignment is member-wise. *)
  Definition assign_mesh (w : world) (i j : nat) : res world :=
    _ <- vgetn (wd_meshes w) i ;; o <- vgetn (wd_meshes w) j ;; Ok (mkWorld (wd_heap w) (wd_gens w) (put i o (wd_meshes w))).
  (** Mesh.h:134-140: a mesh of given points and polygons with the maps of mesh [i] (Mesh.h:250-258). *)
  Definition mesh_with_maps (w : world) (pts : list Point) (ts : list (triangle N)) (i : nat) : res world :=
    o <- vgetn (wd_meshes w) i ;;
    Ok (mkWorld (wd_heap w) (wd_gens w)
                (wd_meshes w ++ [mkObj (fst (ul_push_list (pt_ltb tol) ul_empty pts)) ts (ob_edges o) (ob_pm o)])).
  (** Mesh.h:159-201 *)
  Definition read_mesh_into (w : world) (i : nat) (file : text) (start : Z) : res world :=
    o <- vgetn (wd_meshes w) i ;;
    '(h, o') <- obj_createFromStream atof tol (triangle_ctor tol) (fun t => pg_points (tr_poly t)) (wd_heap w) o file start ;;
    Ok (mkWorld h (wd_gens w) (put i o' (wd_meshes w))).
  (** Mesh.h:275-278 *)
  Definition look_up (w : world) (i : nat) (s : iseg) : res world :=
    o <- vgetn (wd_meshes w) i ;; '(h, _) <- obj_getNeighbours (wd_heap w) o s ;; Ok (mkWorld h (wd_gens w) (wd_meshes w)).

  (** What a program does with generators and meshes, numbered in the order they are made
      (Mesh.h:36-124, TriangleDelaunayGenerator.h:48-84). *)
  Inductive act :=
  | NewGen (seeds : list Point) (r : region N) | CopyGen (g : nat) | CallGen (g : nat) (c : gen_call N)
  | NewMesh | CopyMesh (i : nat) | AssignMesh (i j : nat) | MeshWithMaps (pts : list Point) (ts : list (triangle N)) (i : nat)
  | ReadInto (i : nat) (file : text) (start : Z) | LookUp (i : nat) (s : iseg).
  (** Mesh.h:128-278, TriangleDelaunayGenerator.cpp:3-212. *)
  Definition act_do (w : world) (a : act) : res world :=
    match a with
    | NewGen seeds r => Ok (new_gen w seeds r)
    | CopyGen g => copy_gen w g
    | CallGen g c => call_gen w g c
    | NewMesh => Ok (new_mesh w)
    | CopyMesh i => copy_mesh w i
    | AssignMesh i j => assign_mesh w i j
    | MeshWithMaps pts ts i => mesh_with_maps w pts ts i
    | ReadInto i file start => read_mesh_into w i file start
    | LookUp i s => look_up w i s
    end.
  (** A program that starts with no objects: one act after the other (Mesh.h:128-278, TriangleDelaunayGenerator.cpp:3-212). *)
  Definition world_run (acts : list act) : res world := foldM act_do acts (mkWorld (mkHeap [] []) [] []).
  (** What mesh [i] holds (Mesh.h:217-278). *)
  Definition world_mesh (w : world) (i : nat) : res (mesh N (triangle N)) := o <- vgetn (wd_meshes w) i ;; mesh_view (wd_heap w) o.
End Share.
Arguments act : clear implicits.
Arguments world : clear implicits.
Arguments genobj : clear implicits.
