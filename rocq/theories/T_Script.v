(** Scripts of statements on several regions, as in test/AllTests.cpp: property C122. *)
From Coq Require Import Reals Lra Lia ZArith List Permutation Ascii String.
From Verif Require Import Base Spec SpecNum MUtil MGeom MHull MPolygon MMaps MTriangle MGen MRegion MDelaunay MVoronoi MMesh MFormat MHist MFile MScript.
From Verif Require Import Bridge BridgeNum BridgeHist BridgeVor64 Bridge64 BridgeProg BridgeScript.
From Verif Require Import PDelaunay PProgram PScript Samples Samples4 Samples5 Samples7 Samples9 Samples10 Samples12 Samples13.
Import ListNotations.
Open Scope Z_scope.

(** C122 *)
Theorem C122_files : forall (N : Num) (tol : nT N) (fmt : nT N -> text) (triangulate : switches -> pslg N -> trout N) fuel (order : list iseg -> list iseg)
    (home : text) (ss : list (statement N)) d (rs : list (region N)) d' rs',
  (forall x, field (fmt x)) -> (forall l, Permutation (order l) l) -> script_run tol fmt triangulate fuel order (Some home) (d, rs) ss = Ok (d', rs') ->
  length rs' = length rs /\ (forall i r, nth_error rs i = Some r -> exists r', nth_error rs' i = Some r' /\ life tol i ss r r') /\
  (forall p, dk_writable d' p = dk_writable d p) /\ (forall p, Forall (fun s => writes home s <> Some p) ss -> dk_text d' p = dk_text d p) /\
  (forall s1 s s2 p, ss = s1 ++ s :: s2 -> writes home s = Some p -> Forall (fun s => writes home s <> Some p) s2 -> dk_writable d p = true ->
     exists r0 r t, nth_error rs (about s) = Some r0 /\ life tol (about s) s1 r0 r /\ dk_text d' p = Some t /\ file_holds tol fmt triangulate fuel s r t).
Proof. exact @script_files. Qed.
Print Assumptions C122_files.

Theorem C122_runs : forall (e m : Z) (tol : f64) fuel (triangulate : switches -> pslg F64 -> trout F64) (order : list iseg -> list iseg) (home : text) (d : disk)
    (outlines : list (list (Point F64))) (rs : list (region F64)) (ss : list (statement F64)),
  -199 <= e <= 200 -> 0 <= m <= 16 -> tolerance64 tol -> (forall l, Permutation (order l) l) -> mapM (region_ctor (N := F64) tol) outlines = Ok rs ->
  (forall s1 s s2, ss = s1 ++ s :: s2 -> exists r0, nth_error rs (about s) = Some r0 /\ forall r, life (N := F64) tol (about s) s1 r0 r -> ready e m tol triangulate fuel s r) ->
  exists w', script_main (N := F64) tol print_double triangulate fuel order (Some home) d outlines ss = Ok w'.
Proof. exact script_runs. Qed.
Print Assumptions C122_runs.

(** Two regions; the first gets a seed and is tested, the second is replaced and printed. *)
Example C122_hypotheses_met :
  let ss : list (statement F64) := [DoCall 0 (OpSeeds [zpt 3 2]); TestPolygon 0 (list_ascii_of_string "v"); DoAssign 1 [zpt 0 0; zpt 4 0; zpt 0 4]; PrintRegion 1 (list_ascii_of_string "p")] in
  mapM (region_ctor (N := F64) tol64) [rect64; rect64] = Ok [r_rect64; r_rect64] /\
  (forall s1 s s2, ss = s1 ++ s :: s2 -> exists r0, nth_error [r_rect64; r_rect64] (about s) = Some r0 /\
     forall r, life (N := F64) tol64 (about s) s1 r0 r -> ready 0 4 tol64 (fun _ _ => wheel_out F64) 5 s r) /\
  dk_writable dir (list_ascii_of_string "h/p") = true /\
  match script_main (N := F64) tol64 print_double (fun _ _ => wheel_out F64) 5 (fun l => l) (Some (list_ascii_of_string "h")) dir [rect64; rect64] ss with
  | Ok (d', rs') => length rs' = 2%nat /\ dk_text d' (list_ascii_of_string "h/v.txt") <> None /\ dk_text d' (list_ascii_of_string "h/v") = None
  | Err _ => False
  end.
Proof.
  cbv zeta. split; [cbn [mapM]; rewrite r_rect64_ctor; reflexivity|]. split; [|split; [reflexivity|vm_compute; repeat split; discriminate]].
  intros s1 s s2 E. destruct s1 as [|a1 s1]; cbn [app] in E.
  { injection E as <- _. exists r_rect64. split; [reflexivity|]. intros r L. cbn [life] in L. subst r. split; [exact I|]. cbn [region_do]. eexists. reflexivity. }
  injection E as <- E. destruct s1 as [|a2 s1]; cbn [app] in E.
  { injection E as <- _. exists r_rect64. split; [reflexivity|]. intros r L. cbn [life about Nat.eqb] in L. destruct L as (r1 & D & <-).
    assert (r1 = r_seeded64) as ->. { pose proof r_seeded64_run as R. unfold seed_ops in R. cbn [region_run] in R. rewrite D in R. cbn [bind] in R. injection R as ->. reflexivity. }
    split; [exact r_seeded64_clustered|]. intros inp _. split; [exact wheel_answer64|cbn; lia]. }
  injection E as <- E. destruct s1 as [|a3 s1]; cbn [app] in E.
  { injection E as <- _. exists r_rect64. split; [reflexivity|]. intros r _. cbn [ready]. destruct (region_ctor (N := F64) tol64 [zpt 0 0; zpt 4 0; zpt 0 4]) eqn:K; [eexists; reflexivity|].
    exfalso. assert (C : (match region_ctor (N := F64) tol64 [zpt 0 0; zpt 4 0; zpt 0 4] with Ok _ => true | Err _ => false end) = true) by (vm_compute; reflexivity). rewrite K in C. discriminate. }
  injection E as <- E. destruct s1 as [|a4 s1]; cbn [app] in E.
  { injection E as <- _. exists r_rect64. split; [reflexivity|]. intros r _. exact I. }
  injection E as _ E. destruct s1; discriminate.
Qed.

(** Property violated: a script with a triangulation test, as AllTests.cpp has at line 48, never runs to its end. *)
Theorem C122_triangle_tests_never_end : forall (N : Num) (tol : nT N) (fmt : nT N -> text) (triangulate : switches -> pslg N -> trout N) fuel (order : list iseg -> list iseg)
    home (w w' : disk * list (region N)) ss,
  Exists tests_triangles ss -> script_run tol fmt triangulate fuel order home w ss <> Ok w'.
Proof. exact @triangle_tests. Qed.
Print Assumptions C122_triangle_tests_never_end.

(** Triangle does its work and the statements before are done: the behaviour of the whole program is undefined. *)
Theorem C122_triangle_tests_undefined : forall (N : Num) (tol : nT N) (fmt : nT N -> text) (triangulate : switches -> pslg N -> trout N) fuel (order : list iseg -> list iseg)
    home (w w1 : disk * list (region N)) s1 s2 i name r x,
  script_run tol fmt triangulate fuel order home w s1 = Ok w1 -> nth_error (snd w1) i = Some r ->
  snd (gen_do triangulate tol (gen_ctor (rg_seeds r) (region_copy r)) CallConforming) = Ok x ->
  script_run tol fmt triangulate fuel order home w (s1 ++ TestTriangle i name :: s2) = Err (UB "dangling reference").
Proof. exact @triangle_tests_ub. Qed.
Print Assumptions C122_triangle_tests_undefined.

Example C122_first_tests_of_AllTests :
  let s1 : list (statement F64) := [DoCall 0 (OpSeeds [zpt 3 2]); TestPolygon 0 (list_ascii_of_string "v")] in
  (match script_run (N := F64) tol64 print_double (fun _ _ => wheel_out F64) 5 (fun l => l) (Some (list_ascii_of_string "h")) (dir, [r_rect64]) s1 with
   | Ok (_, [r]) => match snd (gen_do (fun _ _ => wheel_out F64) tol64 (gen_ctor (rg_seeds r) (region_copy r)) CallConforming) with Ok _ => True | Err _ => False end
   | _ => False end) /\
  match script_run (N := F64) tol64 print_double (fun _ _ => wheel_out F64) 5 (fun l => l) (Some (list_ascii_of_string "h")) (dir, [r_rect64]) (s1 ++ [TestTriangle 0 (list_ascii_of_string "v")]) with
  | Err (UB _) => True | _ => False end.
Proof. vm_compute. split; exact I. Qed.
