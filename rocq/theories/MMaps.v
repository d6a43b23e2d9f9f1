(** Model of the hash and point maps: mapdata.h, SegmentMap, PointMap,
    EdgeData, NeighboursBySegment, PointData. *)
From Verif Require Import Base MUtil MGeom.

(** * Hash keys. *)

(** delynoi/src/models/basic/IndexSegment.cpp:4,11, delynoi/include/delynoi/voronoi/structures/mapdata.h:18
    and delynoi/include/delynoi/models/neighbourhood/SegmentMap.h:16: the sum of two ints
    (wrap-around semantics, see hash32) converted to size_t. *)
Definition pair_hash (a b : Z) : Z := to_size (wrap32 (hash32 a + hash32 b)).

(** mapdata.h:43-50 (SegmentHasher) *)
Definition iseg_hash (s : iseg) : Z := pair_hash (fst s) (snd s).

(** mapdata.h:10-25 (Key), 30-37 (KeyHasher) *)
Definition key : Type := Z * Z.
(** mapdata.h:21-24. *)
Definition key_eqb (a b : key) : bool :=
  (((fst a =? fst b) && (snd a =? snd b)) || ((fst a =? snd b) && (snd a =? fst b)))%Z%bool.
(** mapdata.h:15-19,30-37. *)
Definition key_hash (k : key) : Z := pair_hash (fst k) (snd k).

(** * std::unordered_map, as the list of its entries.
    Simplification: the bucket array is abstracted to a matching predicate.
    [match_in nb] is the test made by an implementation with [nb] buckets: same
    bucket and operator==.  [nb] may change at every operation (rehashing).
    The map types of SegmentMap.h:29 and DelaunayInfo.h:46. *)
Definition match_in {K} (hash : K -> Z) (eqb : K -> K -> bool) (nb : Z) (a b : K) : bool :=
  ((hash a mod nb =? hash b mod nb)%Z && eqb a b)%bool.

Section UMap.
  Context {K V : Type}.
  Variable mt : K -> K -> bool.    (* stored key, searched key *)
  (** The map types of SegmentMap.h:29 and DelaunayInfo.h:46. *)
  Definition umap := list (K * V).

  (** std::unordered_map::find.
      Called at SegmentMap.cpp:7. *)
  Fixpoint um_find (k : K) (m : umap) : option V :=
    match m with
    | [] => None
    | (k', v) :: m' => if mt k' k then Some v else um_find k m'
    end.
  (** modification of the found entry; the stored key is kept.
      SegmentMap.cpp:12-14. *)
  Fixpoint um_update (k : K) (f : V -> V) (m : umap) : umap :=
    match m with
    | [] => []
    | (k', v) :: m' => if mt k' k then (k', f v) :: m' else (k', v) :: um_update k f m'
    end.
  (** insert of an absent key (iteration order is unspecified: append).
      SegmentMap.cpp:10. *)
  Definition um_add (k : K) (v : V) (m : umap) : umap := m ++ [(k, v)].
  (** std::unordered_map::insert: no effect when the key is present.
      Called at SegmentMap.cpp:18. *)
  Definition um_insert (k : K) (v : V) (m : umap) : umap :=
    match um_find k m with Some _ => m | None => um_add k v m end.
End UMap.
Arguments umap : clear implicits.

(** * NeighboursBySegment (delynoi/src/models/neighbourhood/NeighboursBySegment.cpp,
      delynoi/include/delynoi/models/neighbourhood/NeighboursBySegment.h:16-17).
    [None] is an uninitialised [n1]. *)
Record nbseg := mkNb { nb1 : option Z; nb2 : Z }.
(** NeighboursBySegment.cpp:3 with NeighboursBySegment.h:17 *)
Definition nb_default : nbseg := mkNb None (-1).
(** NeighboursBySegment.cpp:5-7 *)
Definition nb_one (i : Z) : nbseg := mkNb (Some i) (-1).
(** NeighboursBySegment.cpp:9-12 *)
Definition nb_two (i j : Z) : nbseg := mkNb (Some i) j.
(** NeighboursBySegment.cpp:19-21 *)
Definition nb_setNeighbour (i : Z) (n : nbseg) : nbseg := mkNb (nb1 n) i.
(** NeighboursBySegment.cpp:35-38, on initialised values. *)
Definition nb_eqb (a b : Z * Z) : bool :=
  (((fst a =? fst b) && (snd a =? snd b)) || ((fst a =? snd b) && (snd a =? fst b)))%Z%bool.
(** SegmentMap.h:14-18 (NeighboursHasher) *)
Definition nb_hash (n : Z * Z) : Z := pair_hash (fst n) (snd n).

(** * SegmentMap (delynoi/src/models/neighbourhood/SegmentMap.cpp).
    SegmentMap.h:29. *)
Definition segmap := umap iseg nbseg.

Section SegmentMap.
  Variable mt : iseg -> iseg -> bool.

  (** SegmentMap.cpp:6-15 *)
  Definition sm_insert (m : segmap) (s : iseg) (i : Z) : segmap :=
    match um_find mt s m with
    | None => um_add s (nb_one i) m
    | Some _ => um_update mt s (nb_setNeighbour i) m
    end.
  (** SegmentMap.cpp:17-19: map[s] = n *)
  Definition sm_put (m : segmap) (s : iseg) (n : nbseg) : segmap :=
    match um_find mt s m with
    | None => um_add s n m
    | Some _ => um_update mt s (fun _ => n) m
    end.
  (** SegmentMap.cpp:21-23: operator[] inserts a default value when absent. *)
  Definition sm_get (m : segmap) (s : iseg) : segmap * nbseg :=
    match um_find mt s m with
    | None => (um_add s nb_default m, nb_default)
    | Some n => (m, n)
    end.
  (** SegmentMap.cpp:33-35 *)
  Definition sm_size (m : segmap) : Z := zlen m.
  (** SegmentMap.cpp:52-54 *)
  Definition sm_contains (m : segmap) (s : iseg) : bool :=
    match um_find mt s m with Some _ => true | None => false end.
End SegmentMap.

(** One call on a SegmentMap, made while the table has [nb] buckets.
    SegmentMap.cpp:6-23. *)
Inductive sm_op := SmInsert (s : iseg) (i : Z) | SmPut (s : iseg) (n : nbseg) | SmGet (s : iseg).
(** mapdata.h:43-50 and IndexSegment.cpp operator==. *)
Definition iseg_match (nb : Z) : iseg -> iseg -> bool := match_in iseg_hash iseg_eqb nb.
(** SegmentMap.cpp:6-23. *)
Definition sm_step (m : segmap) (c : Z * sm_op) : segmap :=
  match snd c with
  | SmInsert s i => sm_insert (iseg_match (fst c)) m s i
  | SmPut s n => sm_put (iseg_match (fst c)) m s n
  | SmGet s => fst (sm_get (iseg_match (fst c)) m s)
  end.
(** SegmentMap.cpp:4-23: a history of calls on a new map. *)
Definition sm_run (h : list (Z * sm_op)) : segmap := fold_left sm_step h [].

(** * PointMap (delynoi/src/models/neighbourhood/PointMap.cpp), with
    NeighboursByPoint (delynoi/src/models/neighbourhood/NeighboursByPoint.cpp) a list of ints. *)
Section PointMap.
  Context {N : Num}.
  Variable tol : nT N.
  (** PointMap.h:19. *)
  Definition pmap := omap (Point N) (list Z).

  (** PointMap.cpp:5-15 *)
  Definition pm_insert (m : pmap) (p : Point N) (i : Z) : pmap :=
    match om_find (pt_ltb tol) p m with
    | None => om_insert (pt_ltb tol) p [i] m
    | Some _ => om_update (pt_ltb tol) p (fun l => l ++ [i]) m
    end.
  (** PointMap.cpp:17-27 *)
  Definition pm_insert_list (m : pmap) (p : Point N) (is : list Z) : pmap :=
    match om_find (pt_ltb tol) p m with
    | None => om_insert (pt_ltb tol) p is m
    | Some _ => om_update (pt_ltb tol) p (fun l => l ++ is) m
    end.
  (** PointMap.cpp:29-31: operator[] inserts an empty list when absent. *)
  Definition pm_get (m : pmap) (p : Point N) : pmap * list Z :=
    match om_find (pt_ltb tol) p m with
    | None => (om_insert (pt_ltb tol) p [] m, [])
    | Some l => (m, l)
    end.
  (** PointMap.cpp:37-39 *)
  Definition pm_size (m : pmap) : Z := zlen m.

  (** PointMap.cpp:5-31. *)
  Inductive pm_op := PmInsert (p : Point N) (i : Z) | PmInsertList (p : Point N) (is : list Z) | PmGet (p : Point N).
  (** PointMap.cpp:5-31. *)
  Definition pm_step (m : pmap) (o : pm_op) : pmap :=
    match o with
    | PmInsert p i => pm_insert m p i
    | PmInsertList p is => pm_insert_list m p is
    | PmGet p => fst (pm_get m p)
    end.
  (** PointMap.cpp:3-31: a history of calls on a new map. *)
  Definition pm_run (h : list pm_op) : pmap := fold_left pm_step h [].
End PointMap.
Arguments pmap : clear implicits.
Arguments pm_op : clear implicits.

(** * EdgeData (delynoi/src/models/neighbourhood/EdgeData.cpp).
    EdgeData.cpp:4-9. *)
Record edge := mkEdge { e_p1 : Z; e_p2 : Z; e_t1 : Z; e_t2 : Z }.
(** EdgeData.cpp:4-9 *)
Definition edge_new (p1 p2 : Z) : edge := mkEdge p1 p2 (-1) (-1).
(** EdgeData.cpp:11-17 *)
Definition edge_setTriangle (t : Z) (e : edge) : edge :=
  if (e_t1 e =? -1)%Z then mkEdge (e_p1 e) (e_p2 e) t (e_t2 e)
  else mkEdge (e_p1 e) (e_p2 e) (e_t1 e) t.
(** EdgeData.cpp:23-26 *)
Definition edge_eqb (a b : edge) : bool :=
  (((e_p1 a =? e_p1 b) && (e_p2 a =? e_p2 b)) || ((e_p2 a =? e_p1 b) && (e_p1 a =? e_p2 b)))%Z%bool.

(** * PointData (delynoi/include/delynoi/voronoi/structures/PointData.h).
    PointData.h:7-18. *)
Record pdata := mkPD { pd_point : Z; pd_edge : Z }.
(** PointData.h:18 *)
Definition pdata_new (p : Z) : pdata := mkPD p (-1).
(** PointData.h:25-27 *)
Definition pdata_setEdge (e marker : Z) (d : pdata) : pdata :=
  if ((pd_edge d =? -1) || (marker =? 1))%Z%bool then mkPD (pd_point d) e else d.
