(** Model of Mesh.h: text output and input, sharing of the neighbour maps;
    Region::addSeedsFromFile and the number formatting of utilities.h. *)
From Verif Require Import Base MUtil MGeom MHull MPolygon MMaps MTriangle MGen MRegion MDelaunay.
From Coq Require Import Ascii.

(** * Characters.
    std::endl, as written at Mesh.h:232-248. *)
Definition newline : ascii := ascii_of_nat 10.
(** The separator of Point.cpp getString. *)
Definition space : ascii := ascii_of_nat 32.
(** Library code behind utilities.h:12-20. *)
Definition digit (d : Z) : ascii := ascii_of_nat (48 + Z.to_nat d).
(** Library code behind utilities.h:12-20. *)
Definition minus : ascii := ascii_of_nat 45.
(** Library code behind utilities.h:12-20. *)
Definition plus : ascii := ascii_of_nat 43.
(** Library code behind utilities.h:12-20. *)
Definition dot : ascii := ascii_of_nat 46.
(** Library code behind utilities.h:12-20. *)
Definition char_e : ascii := ascii_of_nat 101.

(** Decimal digits of a non-negative integer, most significant first
    (operator<< on an integer).  [fuel] bounds the number of digits.
    Library code behind utilities.h:12-20. *)
Fixpoint digits_go (fuel : nat) (n : Z) (acc : text) : text :=
  match fuel with
  | O => acc
  | S fuel' =>
      let acc' := digit (n mod 10) :: acc in
      if n / 10 =? 0 then acc' else digits_go fuel' (n / 10) acc'
  end.
(** Library code behind utilities.h:12-20. *)
Definition ndigits (n : Z) : nat := S (Z.to_nat (Z.log2 n)).
(** Library code behind utilities.h:12-20. *)
Definition dec (n : Z) : text := digits_go (ndigits n) n [].
(** operator<< on an int or size_t.
    utilities.h:12-20. *)
Definition print_int (n : Z) : text := if n <? 0 then minus :: dec (- n) else dec n.

(** operator<<(double) with the default format (%g, 6 significant digits) on an integral
    value: lib/utilities/include/utilities/utilities.h:12-20 instantiated at double and called with an
    int, as in delynoi/src/models/polygon/Polygon.cpp:247-250 and delynoi/src/models/basic/IndexSegment.cpp:56. *)
Fixpoint strip_zeros (fuel : nat) (m : Z) : Z :=
  match fuel with
  | O => m
  | S f => if m mod 10 =? 0 then strip_zeros f (m / 10) else m
  end.
(** Rounding of n / 10^k to an integer, ties to even.
    Library code behind utilities.h:12-20. *)
Definition round_div (n d : Z) : Z :=
  let q := n / d in let r := n mod d in
  if 2 * r <? d then q else if 2 * r >? d then q + 1 else if Z.even q then q else q + 1.
(** Library code behind utilities.h:12-20. *)
Definition print_exp (n : Z) : text :=
  let d := Z.of_nat (length (dec n)) in
  let m0 := round_div n (10 ^ (d - 6)) in
  let '(m, e) := if m0 =? 1000000 then (100000, d) else (m0, d - 1) in
  let ds := dec (strip_zeros 6 m) in
  let mant := match ds with [] => [] | [c] => [c] | c :: cs => c :: dot :: cs end in
  mant ++ char_e :: plus :: (if e <? 10 then [digit 0] else []) ++ dec e.
(** utilities.h:12-20 on a double holding an integer. *)
Definition print_g (n : Z) : text :=
  let a := Z.abs n in
  let body := if a <? 1000000 then dec a else print_exp a in
  if n <? 0 then minus :: body else body.

(** * std::atoi: white space, optional sign, digits; the value must be an int.
    std::atoi, called at Mesh.h:171,181,189 and Region.cpp:103. *)
Definition digit_val (c : ascii) : option Z :=
  let n := nat_of_ascii c in
  if (Nat.leb 48 n && Nat.leb n 57)%bool then Some (Z.of_nat n - 48) else None.
(** std::atoi, called at Mesh.h:171,181,189 and Region.cpp:103. *)
Fixpoint atoi_digits (s : text) (acc : Z) : Z :=
  match s with
  | [] => acc
  | c :: s' => match digit_val c with Some d => atoi_digits s' (10 * acc + d) | None => acc end
  end.
(** std::atoi, called at Mesh.h:171,181,189 and Region.cpp:103. *)
Fixpoint skip_spaces (s : text) : text :=
  match s with [] => [] | c :: s' => if is_space c then skip_spaces s' else s end.
(** Called at Mesh.h:171,181,189 and Region.cpp:103. *)
Definition atoi (s : text) : res Z :=
  let v := match skip_spaces s with
           | [] => 0
           | c :: s' =>
               if Ascii.eqb c minus then - atoi_digits s' 0
               else if Ascii.eqb c plus then atoi_digits s' 0
               else atoi_digits (c :: s') 0
           end in
  if in_int v then Ok v else Err (UB "atoi overflow").

(** * Input streams and std::getline.  Once the end of the file has been hit,
    getline leaves the string unchanged.
    std::ifstream at Mesh.h:160,168 and Region.cpp:98. *)
Record stream := mkStream { st_rest : text; st_eof : bool }.
(** std::getline, called at Mesh.h:170-184 and Region.cpp:102-105. *)
Fixpoint take_line (s : text) (acc : text) : text * text * bool :=
  match s with
  | [] => (rev acc, [], true)
  | c :: s' => if Ascii.eqb c newline then (rev acc, s', false) else take_line s' (c :: acc)
  end.
(** Called at Mesh.h:170-184 and Region.cpp:102-105. *)
Definition getline (st : stream) (line : text) : stream * text :=
  if st_eof st then (st, line)
  else let '(l, r, eof) := take_line (st_rest st) [] in (mkStream r eof, l).

Section MeshIO.
  Context {N : Num}.
  Notation Point := (Point N).
  (** std::atof and operator<<(double) on coordinates (external). *)
  Variable atof : text -> nT N.
  Variable fmt : nT N -> text.
  Variable tol : nT N.

  (** delynoi/include/delynoi/models/Mesh.h:172-178 and delynoi/src/models/Region.cpp:104-110: the points
      read, the stream and the last line. *)
  Fixpoint read_points (n : nat) (st : stream) (line : text) : res (list Point * stream * text) :=
    match n with
    | O => Ok ([], st, line)
    | S n' =>
        let '(st1, line1) := getline st line in
        let f := splitBySpaces line1 in
        x <- vgetn f 0 ;; y <- vgetn f 1 ;;
        '(ps, st2, line2) <- read_points n' st1 line1 ;;
        Ok (mkP (atof x) (atof y) :: ps, st2, line2)
    end.

  (** Mesh.h:183-200: state (polygons, edges, stream, line); [i] is the loop counter. *)
  Fixpoint read_polys {T} (ctor : list Z -> list Point -> res T) (segs_of : T -> list Z)
      (pts : list Point) (start : Z) (n : nat) (i : Z)
      (polys : list T) (em : segmap) (st : stream) (line : text) : res (list T * segmap * stream) :=
    match n with
    | O => Ok (polys, em, st)
    | S n' =>
        let '(st1, line1) := getline st line in
        ks <- mapM (fun f => v <- atoi f ;; Ok (v - start)) (tl (splitBySpaces line1)) ;;
        g <- ctor ks pts ;;
        ss <- getSegments (segs_of g) [] ;;
        read_polys ctor segs_of pts start n' (i + 1) (polys ++ [g])
          (fold_left (fun m s => sm_insert iseg_eqb m s i) ss em) st1 line1
    end.

  (** Mesh.h:129-132: a new mesh, with its own empty maps. *)
  Definition mesh_new {T} : mesh N T := mkMesh ul_empty [] [] [].

  (** Mesh.h:167-201 on a mesh (points, polygons, edges). *)
  Definition createFromStream {T} (ctor : list Z -> list Point -> res T) (segs_of : T -> list Z)
      (m : mesh N T) (file : text) (start : Z) : res (mesh N T) :=
    let '(st1, l1) := getline (mkStream file false) [] in
    n <- atoi l1 ;;
    '(ps, st2, l2) <- read_points (Z.to_nat n) st1 l1 ;;
    let pts := fst (ul_push_list (pt_ltb tol) (ms_points m) ps) in
    let '(st3, l3) := getline st2 l2 in
    k <- atoi l3 ;;
    '(polys, em, _) <- read_polys ctor segs_of (ul_list pts) start (Z.to_nat k) 0
                         (ms_polygons m) (ms_edges m) st3 l3 ;;
    Ok (mkMesh pts polys em (ms_pointMap m)).

  (** Region.cpp:97-114: the points read from a seed file. *)
  Definition read_seed_file (file : text) : res (list Point) :=
    let '(st1, l1) := getline (mkStream file false) [] in
    n <- atoi l1 ;;
    '(ps, _, _) <- read_points (Z.to_nat n) st1 l1 ;; Ok ps.
  (** Region.cpp:97-114. *)
  Definition addSeedsFromFile (r : region N) (file : text) : res (region N) :=
    ps <- read_seed_file file ;; addSeedsRead tol r ps.

  (** delynoi/src/models/basic/Point.cpp:28-30 *)
  Definition point_string (q : Point) : text := fmt (px q) ++ space :: fmt (py q).
  (** IndexSegment.cpp:55-57 *)
  Definition iseg_string (s : iseg) : text := print_g (fst s) ++ space :: print_g (snd s).
  (** Polygon.cpp:246-254 *)
  Definition polygon_string (idx : list Z) : text :=
    print_g (zlen idx) ++ flat_map (fun k => space :: print_g k) idx.

  (** A line followed by std::endl.
      Mesh.h:232-248. *)
  Definition unlines (ls : list text) : text := flat_map (fun l => l ++ [newline]) ls.

  (** Mesh.h:231-248.  [es] are the keys of the edge map in the (unspecified) iteration order. *)
  Definition mesh_lines (pts : list Point) (es : list iseg) (polys : list (list Z)) : list text :=
    print_int (zlen pts) :: map point_string pts
    ++ print_int (zlen es) :: map iseg_string es
    ++ print_int (zlen polys) :: map polygon_string polys.
  (** Mesh.h:232-248. *)
  Definition printInStream (pts : list Point) (es : list iseg) (polys : list (list Z)) : text :=
    unlines (mesh_lines pts es polys).

  (** Region.cpp:197-227 *)
  Definition region_print (r : region N) : res text :=
    segs <- region_getSegments r [] ;;
    let pts := getRegionPoints r in
    Ok (unlines (print_int (zlen pts + zlen (rg_seeds r)) :: map point_string pts
                 ++ map point_string (rg_seeds r)
                 ++ print_int (zlen segs) :: map iseg_string segs
                 ++ [print_int 0])).

  (** * Sharing.  A Mesh object holds two pointers (Mesh.h:21-22) into a heap of maps. *)
  Record mobj (T : Type) := mkObj {
    ob_points : ulist Point; ob_polys : list T; ob_edges : nat; ob_pm : nat }.
  Arguments mkObj {T}. Arguments ob_points {T}. Arguments ob_polys {T}.
  Arguments ob_edges {T}. Arguments ob_pm {T}.
  (** what the pointers of Mesh.h:21-22 point to. *)
  Record heap := mkHeap { hp_seg : list segmap; hp_pm : list (pmap N) }.

  (** Mesh.h:150-156: the copy constructor copies the pointers. *)
  Definition mesh_copy {T} (o : mobj T) : mobj T :=
    mkObj (ob_points o) (ob_polys o) (ob_edges o) (ob_pm o).
  (** The value of a mesh object in a heap.
      Mesh.h:21-35. *)
  Definition mesh_view {T} (h : heap) (o : mobj T) : res (mesh N T) :=
    e <- vgetn (hp_seg h) (ob_edges o) ;; p <- vgetn (hp_pm h) (ob_pm o) ;;
    Ok (mkMesh (ob_points o) (ob_polys o) e p).
  (** Mesh.h:167-201 on an object: points and polygons of the object and the
      shared edge map are changed. *)
  Definition obj_createFromStream {T} (ctor : list Z -> list Point -> res T) (segs_of : T -> list Z)
      (h : heap) (o : mobj T) (file : text) (start : Z) : res (heap * mobj T) :=
    m <- mesh_view h o ;;
    m' <- createFromStream ctor segs_of m file start ;;
    Ok (mkHeap (upd_nth (ob_edges o) (fun _ => ms_edges m') (hp_seg h)) (hp_pm h),
        mkObj (ms_points m') (ms_polygons m') (ob_edges o) (ob_pm o)).
  (** Mesh.h:275-278: getNeighbours, through SegmentMap::get. *)
  Definition obj_getNeighbours {T} (h : heap) (o : mobj T) (s : iseg) : res (heap * nbseg) :=
    e <- vgetn (hp_seg h) (ob_edges o) ;;
    let '(e', n) := sm_get iseg_eqb e s in
    Ok (mkHeap (upd_nth (ob_edges o) (fun _ => e') (hp_seg h)) (hp_pm h), n).

  (** Client histories on two mesh objects: reading a file into one of them, or asking one
      of them for the neighbours of a segment ([true] is the first object).
      Mesh.h:159-204, 275-278. *)
  Inductive mesh_op := MReadFile (file : text) (start : Z) | MNeighbours (s : iseg).
  (** Mesh.h:159-204, 275-278. *)
  Definition obj_step {T} (ctor : list Z -> list Point -> res T) (segs_of : T -> list Z)
      (h : heap) (o : mobj T) (op : mesh_op) : res (heap * mobj T) :=
    match op with
    | MReadFile file start => obj_createFromStream ctor segs_of h o file start
    | MNeighbours s => '(h', _) <- obj_getNeighbours h o s ;; Ok (h', o)
    end.
  (** Mesh.h:150-204, 275-278. *)
  Definition pair_step {T} (ctor : list Z -> list Point -> res T) (segs_of : T -> list Z)
      (st : heap * mobj T * mobj T) (op : bool * mesh_op) : res (heap * mobj T * mobj T) :=
    let '(h, o1, o2) := st in
    if fst op then '(h', o1') <- obj_step ctor segs_of h o1 (snd op) ;; Ok (h', o1', o2)
    else '(h', o2') <- obj_step ctor segs_of h o2 (snd op) ;; Ok (h', o1, o2').
End MeshIO.
Arguments mobj : clear implicits.
Arguments heap : clear implicits.
Arguments mkObj {N T}. Arguments ob_points {N T}. Arguments ob_polys {N T}.
Arguments ob_edges {N T}. Arguments ob_pm {N T}.
