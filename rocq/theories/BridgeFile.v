(** Readings for histories of files: the directory as a store of point lists. *)
From Coq Require Import Ascii.
From Verif Require Import Base Spec MUtil MGeom MHull MPolygon MMaps MTriangle MGen MRegion MDelaunay MMesh MFile Bridge BridgeHist.

Section Store.
  Context {N : Num}.
  Notation Point := (Point N).
  (** what was printed last under each name *)
  Definition store := text -> option (list Point).
  Definition store_set (st : store) (name : text) (pts : list Point) (st' : store) : Prop :=
    st' name = Some pts /\ forall n, n <> name -> st' n = st n.
  (** [rs'] is [rs] with [r'] at the place [i] *)
  Definition replaced (rs : list (region N)) (i : nat) (r' : region N) (rs' : list (region N)) : Prop :=
    length rs' = length rs /\ nth_error rs' i = Some r' /\ forall j, j <> i -> nth_error rs' j = nth_error rs j.
  (** One call; [re] is what printing and reading makes of a point. *)
  Inductive store_step (tol : nT N) (re : Point -> Point) (writable : text -> bool)
    : store -> list (region N) -> file_op -> store -> list (region N) -> bool -> Prop :=
  | store_print st rs i name r st' : nth_error rs i = Some r -> writable name = true ->
      store_set st name (getRegionPoints r ++ rg_seeds r) st' ->
      store_step tol re writable st rs (FilePrint i name) st' rs false
  | store_print_ignored st rs i name r : nth_error rs i = Some r -> writable name = false ->
      store_step tol re writable st rs (FilePrint i name) st rs false
  | store_read st rs i name r pts s' rs' : nth_error rs i = Some r -> st name = Some pts ->
      kept (in_domain tol r) (rg_seeds r ++ map re pts) s' ->
      replaced rs i (mkRegion (rg_poly r) (rg_p r) (rg_holes r) s') rs' ->
      store_step tol re writable st rs (FileRead i name) st rs' false
  | store_read_missing st rs i name r : nth_error rs i = Some r -> st name = None ->
      store_step tol re writable st rs (FileRead i name) st rs true.
  Inductive store_run (tol : nT N) (re : Point -> Point) (writable : text -> bool)
    : store -> list (region N) -> list file_op -> store -> list (region N) -> list bool -> Prop :=
  | store_done st rs : store_run tol re writable st rs [] st rs []
  | store_more st rs o st1 rs1 b os st2 rs2 bs : store_step tol re writable st rs o st1 rs1 b ->
      store_run tol re writable st1 rs1 os st2 rs2 bs -> store_run tol re writable st rs (o :: os) st2 rs2 (b :: bs).
End Store.
