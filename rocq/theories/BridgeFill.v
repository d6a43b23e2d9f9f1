(** Readings of a triangulation that fills a region, used in the statements of the theorems. *)
From Coq Require Import Reals ZArith.
From Coq Require Import List.
From Verif Require Import Base Spec MGeom MPolygon MDelaunay Bridge BridgeTile.
Import ListNotations.

(** a side of one triangle only, in the direction in which that triangle has it *)
Definition border_side (tris : list (Z * Z * Z)) (a b : Z) : Prop :=
  (exists t, In t tris /\ In (a, b) (sides t)) /\ forall t, In t tris -> ~ In (b, a) (sides t).
(** the points of the list follow each other between [a] and [b] *)
Fixpoint strung (a b : pt) (l : list pt) : Prop :=
  match l with
  | [] => True
  | x :: l' => (exists t, (0 < t < 1)%R /\ x = lerp a b t) /\ strung x b l'
  end.
(** a path with points strung on its edges *)
Inductive strung_path : list pt -> list pt -> Prop :=
| sp_one a : strung_path [a] [a]
| sp_edge a b vs l r : strung a b l -> strung_path (b :: vs) (b :: r) -> strung_path (a :: b :: vs) (a :: l ++ b :: r).
(** a closed chain with points strung on its edges *)
Definition subdivides (ring outline : list pt) : Prop :=
  match outline with [] => False | a :: _ => strung_path (outline ++ [a]) (ring ++ [a]) end.
(** an outline that never turns right: all corners are on the left of every edge, or on it *)
Definition convex_outline (vs : list pt) : Prop := forall a b v, In (a, b) (edges_of vs) -> In v vs -> (0 <= orient a b v)%R.
(** the triangulation fills the outline: it has the given points, no points outside, no unused points, the sides of its border are the
    outline with points strung on it, no site is inside a circle around a side of the border, and consecutive sides of the border are on one
    line or clearly not *)
Record fills (tol : R) (outline given : list pt) (o : trout RNum) : Prop := {
  fl_given : forall q, In q given -> In q (output_sites o);
  fl_inside : forall q, In q (output_sites o) -> in_hull outline q;
  fl_used : all_used o;
  fl_ring : exists ring rs, (forall a b, border_side (o_tris o) a b <-> In (a, b) (edges_of ring)) /\ NoDup ring /\
    vertices_are (map read_point (o_points o)) ring rs /\ subdivides (map xy rs) outline;
  fl_gabriel : forall a b A B, border_side (o_tris o) a b -> vertices_are (map read_point (o_points o)) [a; b] [A; B] ->
    gabriel_edge (output_sites o) (xy A) (xy B);
  fl_corners : forall a b c A B C, border_side (o_tris o) a b -> border_side (o_tris o) b c ->
    vertices_are (map read_point (o_points o)) [a; b; c] [A; B; C] -> (orient (xy A) (xy B) (xy C) = 0 \/ 4 * tol <= orient (xy A) (xy B) (xy C))%R
}.
