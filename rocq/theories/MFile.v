(** Model of the use of files: getPath, openFile, createFromFile, addSeedsFromFile and the functions printInFile. *)
From Coq Require Import Ascii.
From Verif Require Import Base MUtil MGeom MHull MPolygon MMaps MTriangle MGen MRegion MDelaunay MMesh MDump.

(** The files as the streams see them: what can be read under a full path, and which paths can be opened for writing.
    Simplified: two paths are the same file only if they are the same text, and a write is complete or does not happen.
    (std::ifstream at lib/utilities/src/utilities.cpp:90, std::ofstream at delynoi/src/models/Region.cpp:201-202.) *)
Record disk := mkDisk { dk_text : text -> option text; dk_writable : text -> bool }.
(** The separator appended at utilities.cpp:40. *)
Definition slash : ascii := ascii_of_nat 47.
(** lib/utilities/src/utilities.cpp:34-42, not on Windows.  [home] is the environment variable; a std::string made from a null
    pointer is undefined behaviour. *)
Definition getPath (home : option text) : res text :=
  match home with Some h => Ok (h ++ [slash]) | None => Err (UB "string from a null pointer") end.
(** utilities.cpp:88-97 *)
Definition openFile (home : option text) (d : disk) (name : text) : res text :=
  p <- getPath home ;;
  match dk_text d (p ++ name) with
  | Some t => Ok t
  | None => Err (Throw "Could not open file. Please check path.")
  end.
(** std::ofstream with std::ios::out: the old content is lost; writing to a stream that could not be opened does nothing
    (Region.cpp:201-226, Mesh.h:208-213, SegmentMap.cpp:41-49, PointMap.cpp:45-60, TriangleDelaunayGenerator.cpp:159-184). *)
Definition disk_write (d : disk) (path t : text) : disk :=
  if dk_writable d path then mkDisk (fun p => if list_eq_dec ascii_dec p path then Some t else dk_text d p) (dk_writable d) else d.
(** The frame of every printInFile: path first, then the content [t] (Region.cpp:197-202, Mesh.h:204-209, SegmentMap.cpp:37-42,
    PointMap.cpp:41-46, TriangleDelaunayGenerator.cpp:155-160). *)
Definition print_file (home : option text) (d : disk) (name : text) (t : res text) : res disk :=
  p <- getPath home ;; c <- t ;; Ok (disk_write d (p ++ name) c).

Section Files.
  Context {N : Num}.
  Notation Point := (Point N).
  Variable atof : text -> nT N.
  Variable fmt : nT N -> text.
  Variable tol : nT N.

  (** Region.cpp:97-114.  An exception of openFile comes before anything is changed. *)
  Definition region_readFile (home : option text) (d : disk) (r : region N) (name : text) : region N * res unit :=
    match openFile home d name with
    | Err e => (r, Err e)
    | Ok t => match addSeedsFromFile atof tol r t with Ok r' => (r', Ok tt) | Err e => (r, Err e) end
    end.
  (** Region.cpp:197-227 *)
  Definition region_printInFile (home : option text) (d : disk) (r : region N) (name : text) : res disk :=
    print_file home d name (region_print fmt r).
  (** delynoi/include/delynoi/models/Mesh.h:159-165 *)
  Definition createFromFile {T} (ctor : list Z -> list Point -> res T) (segs_of : T -> list Z)
      (home : option text) (d : disk) (m : mesh N T) (name : text) (start : Z) : res (mesh N T) :=
    t <- openFile home d name ;; createFromStream atof tol ctor segs_of m t start.
  (** Mesh.h:203-214; [es] as in printInStream. *)
  Definition mesh_printInFile (home : option text) (d : disk) (pts : list Point) (es : list iseg) (polys : list (list Z)) (name : text) : res disk :=
    print_file home d name (Ok (printInStream fmt pts es polys)).
  (** delynoi/src/models/neighbourhood/SegmentMap.cpp:37-50 *)
  Definition segmap_printInFile (home : option text) (d : disk) (es : list (iseg * nbseg)) (name : text) : res disk :=
    print_file home d name (segmap_print es).
  (** delynoi/src/models/neighbourhood/PointMap.cpp:41-61 *)
  Definition pointmap_printInFile (home : option text) (d : disk) (m : pmap N) (name : text) : res disk :=
    print_file home d name (Ok (pointmap_print fmt m)).

  (** A program that prints regions and reads seed files; it catches the exceptions and goes on.
      Region.cpp:97-114, 197-227. *)
  Inductive file_op := FilePrint (i : nat) (name : text) | FileRead (i : nat) (name : text).
  (** The element at [i] replaced: Region.cpp:97-114 on one of several regions. *)
  Fixpoint put {A} (i : nat) (a : A) (l : list A) : list A :=
    match l, i with [], _ => [] | _ :: l', O => a :: l' | b :: l', S i' => b :: put i' a l' end.
  (** One call: Region.cpp:97-114, 197-227.  The flag says that it threw. *)
  Definition file_do (home : option text) (w : disk * list (region N)) (o : file_op) : res (disk * list (region N) * bool) :=
    match o with
    | FilePrint i name =>
        r <- vgetn (snd w) i ;; d <- region_printInFile home (fst w) r name ;; Ok (d, snd w, false)
    | FileRead i name =>
        r <- vgetn (snd w) i ;;
        match region_readFile home (fst w) r name with
        | (r', Ok _) => Ok (fst w, put i r' (snd w), false)
        | (r', Err (Throw _)) => Ok (fst w, put i r' (snd w), true)
        | (_, Err e) => Err e
        end
    end.
  (** The calls one after the other: Region.cpp:97-114, 197-227. *)
  Fixpoint file_run (home : option text) (w : disk * list (region N)) (os : list file_op) : res (disk * list (region N) * list bool) :=
    match os with
    | [] => Ok (w, [])
    | o :: os' => '(w1, b) <- file_do home w o ;; '(w2, bs) <- file_run home w1 os' ;; Ok (w2, b :: bs)
    end.
End Files.
