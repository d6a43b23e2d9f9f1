(** Model of lib/utilities: ordered maps, UniqueList, Pair, hash32, splitting. *)
From Verif Require Import Base Spec.
From Coq Require Import Ascii.

(** * std::map<K,V> with comparator [ltb], as the in-order list of its nodes.
    Simplification: the red-black tree is replaced by the list of its nodes in
    order and lookups scan it from the left; for a strict weak order this is
    what the standard requires of the container, for any other comparator the
    standard leaves the behaviour undefined. *)
Section OMap.
  Context {K V : Type}.
  Variable ltb : K -> K -> bool.

  (** std::map, as declared at UniqueList.h:12. *)
  Definition omap := list (K * V).

  (** std::map::upper_bound (used at lib/utilities/include/utilities/UniqueList.h:48):
      the nodes before the first one greater than [k], and the rest. *)
  Fixpoint om_upper (k : K) (m : omap) : omap * omap :=
    match m with
    | [] => ([], [])
    | (k', v') :: m' =>
        if ltb k k' then ([], m)
        else let '(a, b) := om_upper k m' in ((k', v') :: a, b)
    end.

  (** std::map::find (UniqueList.h:124,156; PointMap.cpp:6,18): first node not less
      than [k], accepted when [k] is not less than it. *)
  Fixpoint om_find (k : K) (m : omap) : option V :=
    match m with
    | [] => None
    | (k', v') :: m' =>
        if ltb k' k then om_find k m'
        else if ltb k k' then None else Some v'
    end.

  (** std::map::insert (UniqueList.h:162; PointMap.cpp:10,22): no effect when an equivalent key exists. *)
  Fixpoint om_insert (k : K) (v : V) (m : omap) : omap :=
    match m with
    | [] => [(k, v)]
    | (k', v') :: m' =>
        if ltb k' k then (k', v') :: om_insert k v m'
        else if ltb k k' then (k, v) :: m else m
    end.

  (** Assignment through std::map::operator[] or an iterator (PointMap.cpp:12-13,24-25):
      updates the node of [k]; the key stored in the node is kept. *)
  Fixpoint om_update (k : K) (f : V -> V) (m : omap) : omap :=
    match m with
    | [] => []
    | (k', v') :: m' =>
        if ltb k' k then (k', v') :: om_update k f m'
        else if ltb k k' then m else (k', f v') :: m'
    end.

  (** std::map::erase(key) (UniqueList.h:72): removes the equivalent keys. *)
  Fixpoint om_erase (k : K) (m : omap) : omap :=
    match m with
    | [] => []
    | (k', v') :: m' =>
        if ltb k' k then (k', v') :: om_erase k m'
        else if ltb k k' then m else om_erase k m'
    end.
End OMap.
Arguments omap : clear implicits.

(** * UniqueList<T> (lib/utilities/include/utilities/UniqueList.h:9-34). *)
Section UniqueList.
  Context {A : Type}.
  Variable ltb : A -> A -> bool.   (* T::operator<  *)
  Variable eqb : A -> A -> bool.   (* T::operator== *)

  Record ulist := mkUL { ul_list : list A; ul_map : omap A Z }.

  (** UniqueList.h:36-37 *)
  Definition ul_empty : ulist := mkUL [] [].

  (** UniqueList.h:46-58.  The hinted map.insert puts the new node right after
      the predecessor found by upper_bound.  [list.size()] (size_t) is stored as
      an int; lists beyond 2^31 elements are not considered. *)
  Definition ul_push_back (u : ulist) (x : A) : ulist * Z :=
    let '(before, after) := om_upper ltb x (ul_map u) in
    let fresh :=
      (mkUL (ul_list u ++ [x]) (before ++ (x, zlen (ul_list u)) :: after),
       zlen (ul_list u)) in
    match rev before with
    | [] => fresh
    | (k, v) :: _ => if ltb k x then fresh else (u, v)
    end.

  (** UniqueList.h:60-65 *)
  Definition ul_force_push_back (u : ulist) (x : A) : ulist * Z :=
    (mkUL (ul_list u ++ [x]) (ul_map u), zlen (ul_list u)).

  (** UniqueList.h:67-73; [list[0]] on an empty vector is undefined. *)
  Definition ul_pop_front (u : ulist) : res ulist :=
    x <- vget (ul_list u) 0 ;;
    Ok (mkUL (remove_nth 0 (ul_list u)) (om_erase ltb x (ul_map u))).

  (** UniqueList.h:75-78 *)
  Definition ul_size (u : ulist) : Z := zlen (ul_list u).

  (** lib/utilities/include/utilities/utilities.h:22-27: std::find with ==. *)
  Fixpoint index_from (l : list A) (x : A) (i : Z) : Z :=
    match l with
    | [] => -1
    | y :: l' => if eqb y x then i else index_from l' x (i + 1)
    end.
  (** lib/utilities/include/utilities/utilities.h:23-27. *)
  Definition indexOf (l : list A) (x : A) : Z := index_from l x 0.

  (** UniqueList.h:85-88 *)
  Definition ul_indexOf (u : ulist) (x : A) : Z := indexOf (ul_list u) x.

  (** UniqueList.h:90-93: std::vector operator==. *)
  Fixpoint vec_eqb (l1 l2 : list A) : bool :=
    match l1, l2 with
    | [], [] => true
    | a :: l1', b :: l2' => eqb a b && vec_eqb l1' l2'
    | _, _ => false
    end.
  (** UniqueList.h:90-93. *)
  Definition ul_eqb (u1 u2 : ulist) : bool := vec_eqb (ul_list u1) (ul_list u2).

  (** UniqueList.h:95-98 *)
  Definition ul_get (u : ulist) (i : Z) : res A := vget (ul_list u) i.

  (** UniqueList.h:100-120 (both overloads). *)
  Fixpoint ul_push_list (u : ulist) (xs : list A) : ulist * list Z :=
    match xs with
    | [] => (u, [])
    | x :: xs' =>
        let '(u1, i) := ul_push_back u x in
        let '(u2, is) := ul_push_list u1 xs' in (u2, i :: is)
    end.

  (** UniqueList.h:122-126 *)
  Definition ul_contains (u : ulist) (x : A) : bool :=
    match om_find ltb x (ul_map u) with Some _ => true | None => false end.

  (** UniqueList.h:133-142 *)
  Definition ul_hasCommon (u other : ulist) : bool :=
    existsb (ul_contains u) (ul_list other).

  (** UniqueList.h:144-148 *)
  Definition ul_clear (u : ulist) : ulist := ul_empty.

  (** UniqueList.h:160-163: the map rebuilt from the list. *)
  Fixpoint ul_rebuild (l : list A) (i : Z) (m : omap A Z) : omap A Z :=
    match l with
    | [] => m
    | x :: l' => ul_rebuild l' (i + 1) (om_insert ltb x i m)
    end.

  (** UniqueList.h:150-164; erasing outside the vector (stale index) is undefined. *)
  Definition ul_delete (u : ulist) (x : A) : res ulist :=
    match om_find ltb x (ul_map u) with
    | None => Ok u
    | Some i =>
        _ <- vget (ul_list u) i ;;
        let l := remove_nth (Z.to_nat i) (ul_list u) in
        Ok (mkUL l (ul_rebuild l 0 []))
    end.

  (** A history of calls of push_back, push_list, clear and delete_element (UniqueList.h:46-58,100-120,144-164). *)
  Definition ul_step (u : ulist) (o : set_op A) : res ulist :=
    match o with
    | AddOp x => Ok (fst (ul_push_back u x))
    | AddListOp xs => Ok (fst (ul_push_list u xs))
    | ClearOp => Ok (ul_clear u)
    | RemoveOp x => ul_delete u x
    end.
  (** UniqueList.h:37-164. *)
  Definition ul_run (h : list (set_op A)) : res ulist := foldM ul_step h ul_empty.
End UniqueList.
Arguments ulist : clear implicits.
Arguments ul_list {A}. Arguments ul_map {A}. Arguments mkUL {A}.
Arguments ul_empty {A}.

(** * hash32 (lib/utilities/src/utilities.cpp:60-68). *)

(** Wrap-around of a mathematical integer to 32-bit two's complement.
    int arithmetic of utilities.cpp:60-68. *)
Definition wrap32 (z : Z) : Z := (z + 2147483648) mod 4294967296 - 2147483648.

(** A signed int result: undefined behaviour when out of range.
    int arithmetic of utilities.cpp:60-68. *)
Definition sint (z : Z) : res Z :=
  if in_int z then Ok z else Err (UB "signed integer overflow").

(** utilities.cpp:60-68 read strictly (gnu++11: the left shift of a negative value and any
    overflow are undefined).  [>>] of a negative int is the arithmetic shift
    (implementation-defined; this is what gcc, clang and msvc do). *)
Definition hash32_strict (key : Z) : res Z :=
  let k1 := Z.lxor (Z.lxor key 61) (Z.shiftr key 16) in
  if k1 <? 0 then Err (UB "left shift of a negative value") else
  k1s <- (if Z.shiftl k1 3 <? 4294967296 then Ok (wrap32 (Z.shiftl k1 3)) else Err (UB "shift overflow")) ;;
  k2 <- sint (k1 + k1s) ;;
  let k3 := Z.lxor k2 (Z.shiftr k2 4) in
  k4 <- sint (k3 * 668265261) ;;
  Ok (Z.lxor k4 (Z.shiftr k4 15)).

(** utilities.cpp:60-68 with wrap-around arithmetic (-fwrapv, what the usual compilers emit). *)
Definition hash32 (key : Z) : Z :=
  let k1 := Z.lxor (Z.lxor key 61) (Z.shiftr key 16) in
  let k2 := wrap32 (k1 + wrap32 (Z.shiftl k1 3)) in
  let k3 := Z.lxor k2 (Z.shiftr k2 4) in
  let k4 := wrap32 (k3 * 668265261) in
  Z.lxor k4 (Z.shiftr k4 15).

(** Conversion of an int to size_t (64 bit).
    Key::hash, mapdata.h:18. *)
Definition to_size (z : Z) : Z := z mod 18446744073709551616.

(** utilities.h:29-32 on integers. *)
Definition sign_int (x : Z) : Z := (if x >? 0 then 1 else 0) - (if x <? 0 then 1 else 0).

(** * split / splitBySpaces (lib/utilities/src/utilities.cpp:70-86).
    [\s] of ECMAScript regular expressions in the C locale. *)
Definition is_space (c : ascii) : bool :=
  let n := nat_of_ascii c in
  (Nat.eqb n 32 || (Nat.leb 9 n && Nat.leb n 13))%bool.

(** std::string, utilities.cpp:70. *)
Definition text := list ascii.

(** The pieces between maximal runs of white space (sregex_token_iterator with
    submatch -1), dropping the empty ones (utilities.cpp:76-79). [cur] holds
    the characters of the current piece in reverse. *)
Fixpoint split_go (s : text) (cur : text) : list text :=
  match s with
  | [] => match cur with [] => [] | _ => [rev cur] end
  | c :: s' =>
      if is_space c then
        match cur with [] => split_go s' [] | _ => rev cur :: split_go s' [] end
      else split_go s' (c :: cur)
  end.
(** utilities.cpp:84-86. *)
Definition splitBySpaces (s : text) : list text := split_go s [].
