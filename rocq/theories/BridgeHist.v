(** Readings for histories of a region and for the whole Voronoi generator. *)
From Coq Require Import Reals Lra.
From Verif Require Import Base Spec MUtil MGeom MHull MPolygon MMaps MTriangle MGen MRegion MDelaunay MVoronoi MHist Bridge.

(** * A region as its user thinks of it: an outline, holes and seeds *)
Record plan := mkPlan { pl_outline : list (Point RNum); pl_holes : list (list (Point RNum)); pl_seeds : list (Point RNum) }.
Definition plan_of (r : region RNum) : plan := mkPlan (rg_p r) (map h_points (rg_holes r)) (rg_seeds r).
(** no side is shorter than the tolerance *)
Definition plan_fine (tol : R) (p : plan) : Prop :=
  no_short_edge tol (map xy (pl_outline p)) /\ Forall (fun h => no_short_edge tol (map xy h)) (pl_holes p).
(** in the outline and in no hole *)
Definition plan_inside (tol : R) (p : plan) (q : Point RNum) : Prop :=
  inside_or_near tol (xy q) (map xy (pl_outline p)) /\ Forall (fun h => ~ inside_or_near tol (xy q) (map xy h)) (pl_holes p).
(** the list [s'] is [s] without the elements that fail [P] *)
Inductive kept {A} (P : A -> Prop) : list A -> list A -> Prop :=
| kept_nil : kept P [] []
| kept_cons x s s' : P x -> kept P s s' -> kept P (x :: s) (x :: s')
| kept_drop x s s' : ~ P x -> kept P s s' -> kept P (x :: s) s'.
(** seeding: nothing changes except the seeds, which become the points of [s] in the domain *)
Definition seeded (tol : R) (p : plan) (s : list (Point RNum)) (p' : plan) : Prop :=
  pl_outline p' = pl_outline p /\ pl_holes p' = pl_holes p /\ incl (pl_seeds p') s /\
  (plan_fine tol p -> kept (plan_inside tol p) s (pl_seeds p')).
(** what each call does to it *)
Definition plan_step (tol : R) (p : plan) (o : region_op RNum) (p' : plan) : Prop :=
  match o with
  | OpSeeds s => seeded tol p s p'
  | OpRead s => seeded tol p (pl_seeds p ++ s) p'
  | OpGenerate g nX nY => exists (r : region RNum) g' new, rg_p r = pl_outline p /\
      generate g [] (getBox (N := RNum) r) nX nY = Ok (g', new) /\ seeded tol p (pl_seeds p ++ new) p'
  | OpCleanSeeds => p' = mkPlan (pl_outline p) (pl_holes p) []
  | OpHole _ _ h => p' = p \/ p' = mkPlan (pl_outline p) (pl_holes p ++ [h_points h]) (pl_seeds p) \/
      exists pts, p' = mkPlan pts (pl_holes p) (pl_seeds p)
  | OpCleanHoles => p' = mkPlan (pl_outline p) [] (pl_seeds p)
  | OpMutate pts => p' = mkPlan pts (pl_holes p) (pl_seeds p)
  | OpCopy => p' = mkPlan (pl_outline p) (pl_holes p) []
  end.
Inductive plan_run (tol : R) : plan -> list (region_op RNum) -> plan -> Prop :=
| plan_done p : plan_run tol p [] p
| plan_more p o p' os p'' : plan_step tol p o p' -> plan_run tol p' os p'' -> plan_run tol p (o :: os) p''.
(** the holes given to a history are built by the constructors of holes *)
Definition op_built (o : region_op RNum) : Prop := match o with OpHole _ _ h => hole_built h | _ => True end.

(** * What Triangle is trusted to answer: a Delaunay triangulation of separated points in which every used point has a fan *)
Record delaunay_answer (tol : R) (o : trout RNum) : Prop := {
  da_triangulation : triangulation (zlen (o_points o)) (map fst (o_edges o)) (o_tris o);
  da_delaunay : delaunay_output o;
  da_fans : forall v, In v (flat_map corners (o_tris o)) -> (exists ws ts, closed_fan (map fst (o_edges o)) (o_tris o) v ws ts) \/
     (exists w ws w' ts, open_fan (o_edges o) (o_tris o) v w ws w' ts);
  da_separated : separated tol (fun q => In q (map read_point (o_points o)));
  da_apart : all_apart tol (map read_point (o_points o));
  da_centers : centers_apart tol o
}.
