(** Scripts of statements on several regions: what belongs to one region, which file a statement writes and what it holds. *)
From Coq Require Import Reals ZArith List Ascii String.
From Verif Require Import Base Spec MUtil MGeom MHull MPolygon MMaps MTriangle MGen MRegion MDelaunay MVoronoi MMesh MHist MFile MScript.
From Verif Require Import Bridge BridgeNum BridgeHist BridgeVor64 Bridge64 BridgeProg.
Import ListNotations.
Open Scope Z_scope.

Section Script.
  Context {N : Num}.
  (** the region a statement is about *)
  Definition about (s : statement N) : nat := match s with DoCall i _ | DoAssign i _ | TestPolygon i _ | TestTriangle i _ | PrintRegion i _ => i end.
  (** the file it writes *)
  Definition writes (home : text) (s : statement N) : option text :=
    match s with
    | TestPolygon _ name => Some (home ++ slash :: name ++ list_ascii_of_string ".txt")
    | TestTriangle _ name => Some (home ++ slash :: name ++ list_ascii_of_string "_triangle.txt")
    | PrintRegion _ name => Some (home ++ slash :: name)
    | _ => None
    end.
  Definition tests_triangles (s : statement N) : Prop := match s with TestTriangle _ _ => True | _ => False end.
  (** the statements that concern region [i] change [r] to [r'] *)
  Fixpoint life (tol : nT N) (i : nat) (ss : list (statement N)) (r r' : region N) : Prop :=
    match ss with
    | [] => r = r'
    | DoCall j o :: ss' => if Nat.eqb i j then exists r1, region_do tol r o = Ok r1 /\ life tol i ss' r1 r' else life tol i ss' r r'
    | DoAssign j pts :: ss' => if Nat.eqb i j then exists r1, region_ctor tol pts = Ok r1 /\ life tol i ss' r1 r' else life tol i ss' r r'
    | _ :: ss' => life tol i ss' r r'
    end.
  (** the text a statement writes when its region is [r]: of the region, or of the Voronoi mesh of the region with its seeds *)
  Definition file_holds (tol : nT N) (fmt : nT N -> text) triangulate fuel (s : statement N) (r : region N) (t : text) : Prop :=
    match s with
    | PrintRegion _ _ => region_print fmt r = Ok t
    | TestPolygon _ _ => exists inp v mm, build_pslg tol (region_copy r) (rg_seeds r) [] = Ok inp /\ voronoiGenerator tol triangulate fuel (rg_seeds r) r = Ok (v, mm) /\
        let o := triangulate swConforming inp in
        (triangulation (zlen (o_points o)) (map fst (o_edges o)) (o_tris o) ->
         (forall k, In k (flat_map corners (o_tris o)) -> (exists ws ts, closed_fan (map fst (o_edges o)) (o_tris o) k ws ts) \/
           (exists w ws w' ts, open_fan (o_edges o) (o_tris o) k w ws w' ts)) ->
         (length (o_tris o) < fuel)%nat -> zlen (ul_list (ms_points v)) < 1000000 ->
         exists segs, lists_once (fun s => um_find iseg_eqb s (ms_edges v)) segs /\
           mesh_text fmt (ul_list (ms_points v)) segs (map (fun g : polygon N => pg_points g) (ms_polygons v)) t)
    | _ => False
    end.
End Script.

(** on doubles: the statement can be done when its region is [r].  A call gives a region, the points of the region and its seeds are
    in clusters and Triangle answers with a Delaunay triangulation; a triangulation test is never done *)
Definition ready (e m : Z) (tol : f64) (triangulate : switches -> pslg F64 -> trout F64) (fuel : nat) (s : statement F64) (r : region F64) : Prop :=
  match s with
  | DoCall _ o => op_built64 o /\ exists r', region_do (N := F64) tol r o = Ok r'
  | DoAssign _ pts => exists r', region_ctor (N := F64) tol pts = Ok r'
  | TestPolygon _ _ => clustered tol (fun q => In q (rg_seeds r ++ getRegionPoints r)) /\
      forall inp, build_pslg (N := F64) tol (region_copy r) (rg_seeds r) [] = Ok inp ->
        delaunay_answer64 e m tol (triangulate swConforming inp) /\ (length (o_tris (triangulate swConforming inp)) < fuel)%nat
  | TestTriangle _ _ => False
  | PrintRegion _ _ => True
  end.
