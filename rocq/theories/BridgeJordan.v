(** Simple outlines, used in the statements of the theorems. *)
From Coq Require Import Reals ZArith List Bool.
From Verif Require Import Spec BridgeWind.
Import ListNotations.

(** the outlines are simple polygons that do not meet: no corner is used twice, and two edges have a point in common only if one ends there and
    the other begins there *)
Record simple_outlines (outlines : list (list pt)) : Prop := {
  so_corners : NoDup (concat outlines);
  so_long : Forall (fun l => 3 <= length l)%nat outlines;
  so_meet : forall a b c d z, In (a, b) (flat_map edges_of outlines) -> In (c, d) (flat_map edges_of outlines) -> (a, b) <> (c, d) ->
    on_segment a b z -> on_segment c d z -> (z = b /\ b = c) \/ (z = a /\ a = d)
}.
(** a simple outer outline, counterclockwise, and simple clockwise holes in it, none of them within another *)
Record simple_region (outer : list pt) (inner : list (list pt)) : Prop := {
  sr_simple : simple_outlines (outer :: inner);
  sr_outer : (0 < shoelace outer)%R;
  sr_inner : Forall (fun l => shoelace l < 0)%R inner;
  sr_within : Forall (fun l => exists p, In p l /\ even_odd p outer = true) inner;
  sr_beside : forall l1 l l2 l', inner = l1 ++ l :: l2 -> In l' (l1 ++ l2) -> exists p, In p l /\ even_odd p l' = false
}.
