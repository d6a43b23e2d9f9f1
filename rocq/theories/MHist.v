(** Histories of calls on one Region object. *)
From Verif Require Import Base MUtil MGeom MHull MPolygon MMaps MTriangle MGen MRegion.

Section RegionHistory.
  Context {N : Num}.
  Notation Point := (Point N).

  (** The public calls of Region.h:45-120 that change a region; an exception of addHole or mutate is caught by the
      caller and the object used further.  [clip] is the clipping library. *)
  Inductive region_op :=
  | OpSeeds (s : list Point)
  | OpRead (s : list Point)
  | OpGenerate (g : generator N) (nX nY : Z)
  | OpCleanSeeds
  | OpHole (clip : list (Z * Z) -> list (Z * Z) -> list (list (Z * Z))) (cf : config N) (h : hole N)
  | OpCleanHoles
  | OpMutate (pts : list Point)
  | OpCopy.

  (** Region.cpp:7-10, 25-28, 38-114, 193-195 *)
  Definition region_do (tol : nT N) (r : region N) (o : region_op) : res (region N) :=
    match o with
    | OpSeeds s => addSeedPoints tol r s
    | OpRead s => addSeedsRead tol r s
    | OpGenerate g nX nY => '(r', _) <- generateSeedPoints tol r g nX nY ;; Ok r'
    | OpCleanSeeds => Ok (cleanSeedPoints r)
    | OpHole clip cf h => Ok (fst (addHole clip cf r h))
    | OpCleanHoles => Ok (cleanInternalHoles r)
    | OpMutate pts => Ok (fst (region_mutate tol r pts))
    | OpCopy => Ok (region_copy r)
    end.
  (** Region.cpp:7-195: the calls one after the other. *)
  Fixpoint region_run (tol : nT N) (r : region N) (os : list region_op) : res (region N) :=
    match os with
    | [] => Ok r
    | o :: os' => r' <- region_do tol r o ;; region_run tol r' os'
    end.
End RegionHistory.
Arguments region_op : clear implicits.
