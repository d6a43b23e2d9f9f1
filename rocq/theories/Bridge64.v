(** Further readings of doubles used in the statements of the theorems about boxes, segments and regions. *)
From Coq Require Import Reals ZArith SpecFloat List.
From Flocq Require Import Core.
From Verif Require Import Base Spec MUtil MGeom MGen MRegion MHist Bridge BridgeNum BridgeHist.
Import ListNotations.
Local Open Scope Z_scope.

(** a point with finite coordinates *)
Definition finite_point (q : Point F64) : Prop := fin (px q) /\ fin (py q).
(** a point whose coordinates are at most 2^1000 *)
Definition bounded_point (q : Point F64) : Prop :=
  finite_point q /\ (Rabs (val (px q)) <= bpow radix2 1000)%R /\ (Rabs (val (py q)) <= bpow radix2 1000)%R.
(** [m] is the middle of [a] and [b] *)
Definition is_middle (a b m : pt) : Prop := (2 * fst m = fst a + fst b)%R /\ (2 * snd m = snd a + snd b)%R.
(** all points of the outline and of the holes lie on the grid *)
Definition grid_region (e : Z) (r : region F64) : Prop :=
  Forall (grid_point e) (rg_p r) /\ Forall (fun h => Forall (grid_point e) (h_points h)) (rg_holes r).
(** no edge of the outline or of a hole is shorter than the tolerance in both coordinates *)
Definition long_edges (tol : f64) (r : region F64) : Prop :=
  no_short_edge (val tol) (map xyv (rg_p r)) /\ Forall (fun h => no_short_edge (val tol) (map xyv (h_points h))) (rg_holes r).
(** the point is in (or near the border of) the outline and neither in nor near a hole *)
Definition inside_domain (tol : f64) (r : region F64) (q : Point F64) : Prop :=
  inside_or_near (val tol) (xyv q) (map xyv (rg_p r)) /\
  Forall (fun h => ~ inside_or_near (val tol) (xyv q) (map xyv (h_points h))) (rg_holes r).

(** * A region of doubles as its user thinks of it: an outline, holes and seeds *)
Record plan64 := mkPlan64 { p64_outline : list (Point F64); p64_holes : list (list (Point F64)); p64_seeds : list (Point F64) }.
Definition plan64_of (r : region F64) : plan64 := mkPlan64 (rg_p r) (map h_points (rg_holes r)) (rg_seeds r).
(** the vertices lie on the grid and no side is shorter than the tolerance *)
Definition plan64_fine (e : Z) (tol : f64) (p : plan64) : Prop :=
  (Forall (grid_point e) (p64_outline p) /\ Forall (Forall (grid_point e)) (p64_holes p)) /\
  no_short_edge (val tol) (map xyv (p64_outline p)) /\ Forall (fun h => no_short_edge (val tol) (map xyv h)) (p64_holes p).
(** in the outline and in no hole *)
Definition plan64_inside (tol : f64) (p : plan64) (q : Point F64) : Prop :=
  inside_or_near (val tol) (xyv q) (map xyv (p64_outline p)) /\
  Forall (fun h => ~ inside_or_near (val tol) (xyv q) (map xyv h)) (p64_holes p).
(** seeding: nothing changes except the seeds, which become the points of [s] in the domain *)
Definition seeded64 (tol : f64) (p : plan64) (s : list (Point F64)) (p' : plan64) : Prop :=
  p64_outline p' = p64_outline p /\ p64_holes p' = p64_holes p /\ incl (p64_seeds p') s /\
  forall e, -200 <= e <= 200 -> plan64_fine e tol p -> Forall (grid_point e) s -> kept (plan64_inside tol p) s (p64_seeds p').
(** what each call does to it *)
Definition plan64_step (tol : f64) (p : plan64) (o : region_op F64) (p' : plan64) : Prop :=
  match o with
  | OpSeeds s => seeded64 tol p s p'
  | OpRead s => seeded64 tol p (p64_seeds p ++ s) p'
  | OpGenerate g nX nY => exists (r : region F64) g' new, rg_p r = p64_outline p /\
      generate g [] (getBox (N := F64) r) nX nY = Ok (g', new) /\ seeded64 tol p (p64_seeds p ++ new) p'
  | OpCleanSeeds => p' = mkPlan64 (p64_outline p) (p64_holes p) []
  | OpHole _ _ h => p' = p \/ p' = mkPlan64 (p64_outline p) (p64_holes p ++ [h_points h]) (p64_seeds p) \/
      exists pts, p' = mkPlan64 pts (p64_holes p) (p64_seeds p)
  | OpCleanHoles => p' = mkPlan64 (p64_outline p) [] (p64_seeds p)
  | OpMutate pts => p' = mkPlan64 pts (p64_holes p) (p64_seeds p)
  | OpCopy => p' = mkPlan64 (p64_outline p) (p64_holes p) []
  end.
Inductive plan64_run (tol : f64) : plan64 -> list (region_op F64) -> plan64 -> Prop :=
| plan64_done p : plan64_run tol p [] p
| plan64_more p o p' os p'' : plan64_step tol p o p' -> plan64_run tol p' os p'' -> plan64_run tol p (o :: os) p''.
(** the holes given to a history are built by the constructors of holes *)
Definition op_built64 (o : region_op F64) : Prop := match o with OpHole _ _ h => hole_built h | _ => True end.

(** * The integer grid of the clipping library *)
(** the coordinates times the scale, rounded to the nearest double, then cut to an integer *)
Definition on_grid64 (scale : Z) (q : Point F64) (k : Z * Z) : Prop :=
  truncates (nearest (IZR scale * val (px q))) (fst k) /\ truncates (nearest (IZR scale * val (py q))) (snd k).
(** the doubles nearest to the integers divided by the scale *)
Definition off_grid64 (scale : Z) (k : Z * Z) (q : Point F64) : Prop :=
  finite_point q /\ xyv q = (nearest (IZR (fst k) / IZR scale), nearest (IZR (snd k) / IZR scale)).
(** the scaled coordinates are int values *)
Definition fits64 (scale : Z) (q : Point F64) : Prop :=
  finite_point q /\ (-2147483649 < nearest (IZR scale * val (px q)) < 2147483648)%R /\ (-2147483649 < nearest (IZR scale * val (py q)) < 2147483648)%R.
(** a double that is a number, an infinity or a NaN in canonical form *)
Definition canonical_point (q : Point F64) : Prop :=
  SpecFloat.valid_binary 53 1024 (px q) = true /\ SpecFloat.valid_binary 53 1024 (py q) = true.
