(** What the arrays of a triangulateio struct hold, and what Triangle does with the memory, used in the statements of the theorems. *)
From Coq Require Import List Bool ZArith.
From Verif Require Import Base MUtil MGeom MPolygon MMaps MTriangle MGen MRegion MDelaunay MHeap.
Import ListNotations.
Open Scope Z_scope.

Section Heap.
  Context {N : Num}.
  Notation heap := (heap N). Notation cell := (cell N).
  (** a pointer to an array with these elements; an empty array may have no address *)
  Definition array_is (h : heap) (p : ptr) (l : list cell) : Prop :=
    match p with Ptr b => hp_get h b = Some l | Null => l = [] | Wild => False end.
  Definition reals2 (l : list (nT N * nT N)) : list cell := flat_map (fun q => [CReal (fst q); CReal (snd q)]) l.
  Definition ints2 (l : list (Z * Z)) : list cell := flat_map (fun q => [CInt (fst q); CInt (snd q)]) l.
  Definition ints3 (l : list (Z * Z * Z)) : list cell := flat_map (fun q => [CInt (fst (fst q)); CInt (snd (fst q)); CInt (snd q)]) l.
  (** the input struct describes this planar graph: every element written, one attribute 0 for each point, no markers *)
  Record holds_input (h : heap) (io : tio) (inp : pslg N) : Prop := {
    hi_points : array_is h (io_ptr io pointlist) (reals2 (in_points inp)) /\ io_num io numberofpoints = Some (zlen (in_points inp));
    hi_attributes : array_is h (io_ptr io pointattributelist) (map (fun _ => CReal (nZ 0)) (in_points inp)) /\ io_num io numberofpointattributes = Some 1;
    hi_segments : array_is h (io_ptr io segmentlist) (ints2 (in_segments inp)) /\ io_num io numberofsegments = Some (zlen (in_segments inp));
    hi_holes : array_is h (io_ptr io holelist) (reals2 (in_holes inp)) /\ io_num io numberofholes = Some (zlen (in_holes inp));
    hi_markers : io_ptr io pointmarkerlist = Null /\ io_ptr io segmentmarkerlist = Null;
    hi_regions : io_num io numberofregions = Some 0 }.
  (** the output struct holds this answer *)
  Record holds_output (h : heap) (out : tio) (o : trout N) : Prop := {
    ho_points : array_is h (io_ptr out pointlist) (reals2 (map fst (o_points o))) /\ io_num out numberofpoints = Some (zlen (o_points o));
    ho_markers : array_is h (io_ptr out pointmarkerlist) (map (fun q => CInt (snd q)) (o_points o));
    ho_edges : array_is h (io_ptr out edgelist) (ints2 (map fst (o_edges o))) /\ io_num out numberofedges = Some (zlen (o_edges o));
    ho_edgemarkers : array_is h (io_ptr out edgemarkerlist) (map (fun q => CInt (snd q)) (o_edges o));
    ho_triangles : array_is h (io_ptr out trianglelist) (ints3 (o_tris o)) /\ io_num out numberoftriangles = Some (zlen (o_tris o)) }.
  (** the fields triangulate() allocates with the switches used here, where it finds NULL (lib/triangle.c, writenodes, writeelements, writepoly, writeedges) *)
  Definition written : list field :=
    [pointlist; pointattributelist; pointmarkerlist; trianglelist; triangleattributelist; segmentlist; segmentmarkerlist; edgelist; edgemarkerlist].
  (** sizes for which index arithmetic stays within int *)
  Definition fits_in (inp : pslg N) : Prop :=
    zlen (in_points inp) < 1073741824 /\ zlen (in_segments inp) < 1073741824 /\ zlen (in_holes inp) < 1073741824.
  Definition fits_out (o : trout N) : Prop :=
    zlen (o_points o) < 1073741824 /\ zlen (o_edges o) < 1073741824 /\ zlen (o_tris o) < 536870912.
  (** [triangle] answers [triangulate]: given an input and an output struct whose fields to be written are NULL, it allocates a new block for each
      field it writes, changes no other block and keeps none for itself; other pointers of the struct may be anything, for instance shared with the input *)
  Definition honest (triangle : switches -> heap -> tio -> tio -> res (heap * tio)) (triangulate : switches -> pslg N -> trout N) : Prop :=
    forall sw h io out0 inp, holds_input h io inp -> (forall f, In f written -> io_ptr out0 f = Null) -> fits_out (triangulate sw inp) ->
    exists h' out, triangle sw h io out0 = Ok (h', out) /\ holds_output h' out (triangulate sw inp) /\
      (forall b l, hp_get h b = Some l -> hp_get h' b = Some l) /\
      (forall f, In f written -> io_ptr out f = Null \/ exists b, io_ptr out f = Ptr b /\ hp_get h b = None /\ hp_get h' b <> None) /\
      (forall f g b, In f written -> In g written -> io_ptr out f = Ptr b -> io_ptr out g = Ptr b -> f = g) /\
      (forall b, hp_get h b = None -> hp_get h' b <> None -> exists f, In f written /\ io_ptr out f = Ptr b).
  (** an allocator that answers with new blocks, and one that always finds one *)
  Definition fresh_blocks (alloc : nat -> heap -> Z -> option Z) : Prop := forall k h n b, alloc k h n = Some b -> hp_get h b = None.
  Definition enough_memory (alloc : nat -> heap -> Z -> option Z) : Prop := forall k h n, 0 < n -> alloc k h n <> None.
End Heap.
