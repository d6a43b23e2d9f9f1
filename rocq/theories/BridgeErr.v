(** Doubles of bounded size, on no particular grid. *)
From Coq Require Import Reals ZArith List.
From Flocq Require Import Core.
From Verif Require Import Base Spec MUtil MGeom MPolygon MTriangle MRegion MDelaunay Bridge BridgeNum.
Import ListNotations.
Local Open Scope R_scope.

(** half a unit in the last place of 1 *)
Definition u53 : R := bpow radix2 (-53).
(** bounds for coordinates *)
Definition scale (M : R) : Prop := bpow radix2 (-200) <= M <= bpow radix2 200.
Definition within (M : R) (q : Point F64) : Prop := fin (px q) /\ fin (py q) /\ Rabs (val (px q)) <= M /\ Rabs (val (py q)) <= M.
(** not too thin for its distance from the origin *)
Definition not_thin (M : R) (A B C : R * R) : Prop := bpow radix2 (-46) * (M * M) <= Rabs (orient A B C).
(** distance from the exact circumcenter, per coordinate *)
Definition cc_slack (M o z : R) : R := 128 * u53 * (M + Rabs z) * (M * M) / Rabs o.
(** how far the containment tests may be off *)
Definition contain_slack (M : R) : R := 128 * u53 * (M * M + M).
Definition region_within (M : R) (r : region F64) : Prop :=
  Forall (within M) (rg_p r) /\ Forall (fun h => Forall (within M) (h_points h)) (rg_holes r).
(** in or within [d] of the outline, neither in a hole nor within [d'] of one *)
Definition domain_between (d d' : R) (r : region F64) (q : Point F64) : Prop :=
  inside_or_near d (xyv q) (map xyv (rg_p r)) /\ Forall (fun h => ~ inside_or_near d' (xyv q) (map xyv (h_points h))) (rg_holes r).
(** the corners of a rectangle, counterclockwise *)
Definition rectangle64 (x0 x1 y0 y1 : f64) : list (Point F64) :=
  [mkP (N := F64) x0 y0; mkP (N := F64) x1 y0; mkP (N := F64) x1 y1; mkP (N := F64) x0 y1].
