(** Base of the model: outcomes of C++ calls, vectors, and the two number
    systems the geometric code is instantiated with. *)
From Coq Require Export String List ZArith Bool Lia.
From Coq Require Import Reals Lra.
From Coq Require Import Floats.SpecFloat.
Export ListNotations.
Open Scope Z_scope.

(** ** Outcomes.
    [Throw]     a C++ exception leaves the call;
    [UB]        undefined behaviour (out-of-range operator[], signed overflow,
                uninitialised read, dangling reference, float-to-int overflow);
    [NonFinite] a division by zero that yields inf/NaN in C++ (the C++ code
                goes on with the non-finite value, the model stops here);
    [Hang]      the C++ loop never terminates;
    [Fuel]      the model ran out of fuel (never a C++ behaviour). *)
Inductive err := Throw (msg : string) | UB (msg : string) | NonFinite | Hang | Fuel.

(** What a call yields: a value or one of the above (for instance the throw at
    delynoi/src/utilities/delynoi_utilities.cpp:54). *)
Inductive res (A : Type) := Ok (a : A) | Err (e : err).
Arguments Ok {A} a.
Arguments Err {A} e.

(** Sequencing of statements, as in delynoi/src/models/Region.cpp:97-114: an exception or undefined behaviour
    ends the call. *)
Definition bind {A B} (m : res A) (f : A -> res B) : res B :=
  match m with Ok a => f a | Err e => Err e end.
Notation "x <- m ;; k" := (bind m (fun x => k))
  (at level 61, m at next level, right associativity).
Notation "' p <- m ;; k" := (bind m (fun x => match x with p => k end))
  (at level 61, p pattern, m at next level, right associativity).

(** Whether a call returned normally (negation: delynoi_utilities.cpp:54 and the like). *)
Definition is_ok {A} (r : res A) : bool := match r with Ok _ => true | Err _ => false end.

(** A for loop that pushes one result per element, as in lib/utilities/include/utilities/UniqueList.h:104-107. *)
Fixpoint mapM {A B} (f : A -> res B) (l : list A) : res (list B) :=
  match l with
  | [] => Ok []
  | a :: l' => b <- f a ;; bs <- mapM f l' ;; Ok (b :: bs)
  end.

(** A for loop over a vector with a loop state, as in delynoi/src/models/Region.cpp:172-178. *)
Fixpoint foldM {A B} (f : B -> A -> res B) (l : list A) (b : B) : res B :=
  match l with
  | [] => Ok b
  | a :: l' => b' <- f b a ;; foldM f l' b'
  end.

(** std::vector::operator[], as in delynoi/src/models/polygon/Polygon.cpp:112: out of range is
    undefined behaviour. *)
Definition vgetn {A} (l : list A) (i : nat) : res A :=
  match nth_error l i with Some a => Ok a | None => Err (UB "vector index out of range") end.
(** The same with an int index, as in delynoi/src/voronoi/DelaunayToVoronoi.cpp:14-15. *)
Definition vget {A} (l : list A) (i : Z) : res A :=
  if i <? 0 then Err (UB "vector index out of range") else vgetn l (Z.to_nat i).

(** Assignment through operator[], as in delynoi/src/voronoi/TriangleDelaunayGenerator.cpp:99-116. *)
Fixpoint upd_nth {A} (n : nat) (f : A -> A) (l : list A) : list A :=
  match l, n with
  | [], _ => []
  | a :: l', O => f a :: l'
  | a :: l', S n' => a :: upd_nth n' f l'
  end.
(** The same with an int index, as in delynoi/src/voronoi/TriangleDelaunayGenerator.cpp:99-116. *)
Definition vupd {A} (l : list A) (i : Z) (f : A -> A) : res (list A) :=
  _ <- vget l i ;; Ok (upd_nth (Z.to_nat i) f l).

(** std::vector::size() converted to int, as in delynoi/src/voronoi/DelaunayToVoronoi.cpp:9
    (simplification: lists are shorter than 2^31). *)
Definition zlen {A} (l : list A) : Z := Z.of_nat (List.length l).

(** vector.erase(begin + n): lib/utilities/include/utilities/UniqueList.h:157,
    delynoi/src/triangulation/EarTriangulationGenerator.cpp. *)
Fixpoint remove_nth {A} (n : nat) (l : list A) : list A :=
  match l, n with
  | [], _ => []
  | _ :: l', O => l'
  | a :: l', S n' => a :: remove_nth n' l'
  end.

(** The 32-bit range of [int] (the arithmetic of lib/utilities/src/utilities.cpp:60-68). *)
Definition int_min : Z := -2147483648.
(** INT_MAX, see utilities.cpp:60-68. *)
Definition int_max : Z := 2147483647.
(** Representable as an int, see utilities.cpp:60-68. *)
Definition in_int (z : Z) : bool := (int_min <=? z) && (z <=? int_max).

(** ** Numbers.  The C++ [double] is abstracted by a record of operations, so
    that each function is written once and read at two instances
    (the members x, y of delynoi/include/delynoi/models/basic/Point.h, and every double in the code). *)
Record Num := mkNum {
  nT : Type;
  nZ : Z -> nT;                       (* integer literal *)
  nadd : nT -> nT -> nT;
  nsub : nT -> nT -> nT;
  nmul : nT -> nT -> nT;
  ndiv : nT -> nT -> nT;
  nopp : nT -> nT;
  nabs : nT -> nT;
  nsqrt : nT -> nT;
  nltb : nT -> nT -> bool;
  nleb : nT -> nT -> bool;
  neqb : nT -> nT -> bool;
  ntrunc : nT -> option Z             (* truncation towards zero; None: not finite *)
}.
Arguments nZ {_}. Arguments nadd {_}. Arguments nsub {_}. Arguments nmul {_}.
Arguments ndiv {_}. Arguments nopp {_}. Arguments nabs {_}. Arguments nsqrt {_}.
Arguments nltb {_}. Arguments nleb {_}. Arguments neqb {_}. Arguments ntrunc {_}.

Declare Scope num_scope.
Delimit Scope num_scope with num.
Notation "x + y" := (nadd x y) : num_scope.
Notation "x - y" := (nsub x y) : num_scope.
Notation "x * y" := (nmul x y) : num_scope.
Notation "x / y" := (ndiv x y) : num_scope.
Notation "- x" := (nopp x) : num_scope.
Notation "x <? y" := (nltb x y) : num_scope.
Notation "x <=? y" := (nleb x y) : num_scope.
Notation "x >? y" := (nltb y x) (only parsing) : num_scope.
Notation "x >=? y" := (nleb y x) (only parsing) : num_scope.
Notation "x =? y" := (neqb x y) : num_scope.

(** Division that reports a zero divisor (the operator/ of delynoi/src/utilities/geometryFunctions.cpp). *)
Definition divr {N : Num} (a b : nT N) : res (nT N) :=
  if neqb b (nZ 0) then Err NonFinite else Ok (ndiv a b).

(** C++ cast from double to int (ClipperWrapper.cpp, scalePoint): undefined when the truncated value is not an int. *)
Definition to_int {N : Num} (x : nT N) : res Z :=
  match ntrunc x with
  | Some z => if in_int z then Ok z else Err (UB "double to int conversion overflow")
  | None => Err (UB "double to int conversion of a non-finite value")
  end.

(** *** Exact arithmetic: operator< on double read over the reals (for instance convexHull.cpp:13). *)
Definition Rltb (x y : R) : bool := if Rlt_dec x y then true else false.
(** operator<= on double read over the reals (BoundingBox.cpp:56). *)
Definition Rleb (x y : R) : bool := if Rle_dec x y then true else false.
(** operator== on double read over the reals (convexHull.cpp:9). *)
Definition Reqb (x y : R) : bool := if Req_EM_T x y then true else false.
(** Truncation of a double towards zero, over the reals (the cast to int in scalePoint). *)
Definition Rtrunc (x : R) : Z :=
  if Rltb x 0 then (- Int_part (- x))%Z else Int_part x.

(** double read as a real number: a simplification, no rounding, no infinities, no NaN;
    division by zero and square roots of negative numbers are those of Coq's reals and are
    guarded wherever a theorem depends on them. *)
Definition RNum : Num := {|
  nT := R; nZ := IZR; nadd := Rplus; nsub := Rminus; nmul := Rmult; ndiv := Rdiv;
  nopp := Ropp; nabs := Rabs; nsqrt := R_sqrt.sqrt;
  nltb := Rltb; nleb := Rleb; neqb := Reqb;
  ntrunc := fun x => Some (Rtrunc x) |}.

(** *** IEEE-754 binary64, round to nearest even (the [double] of the platform). *)
Definition f64 := spec_float.
(** Significand length of a double. *)
Definition f64_prec : Z := 53.
(** Exponent bound of a double. *)
Definition f64_emax : Z := 1024.
(** Conversion of an integer to double. *)
Definition F64_ofZ (z : Z) : f64 := binary_normalize f64_prec f64_emax z 0 false.
(** Truncation of a double towards zero. *)
Definition F64_trunc (x : f64) : option Z :=
  match x with
  | S754_zero _ => Some 0
  | S754_finite s m e =>
      let a := if 0 <=? e then (Zpos m * 2 ^ e)%Z else (Zpos m / 2 ^ (- e))%Z in
      Some (if s then (- a)%Z else a)
  | _ => None
  end.
(** double with the rounding, infinities and NaN of the hardware (NaN payloads are not kept). *)
Definition F64 : Num := {|
  nT := f64; nZ := F64_ofZ;
  nadd := SFadd f64_prec f64_emax; nsub := SFsub f64_prec f64_emax;
  nmul := SFmul f64_prec f64_emax; ndiv := SFdiv f64_prec f64_emax;
  nopp := SFopp; nabs := SFabs; nsqrt := SFsqrt f64_prec f64_emax;
  nltb := SFltb; nleb := SFleb; neqb := SFeqb;
  ntrunc := F64_trunc |}.

(** A decimal literal [n / 10^k] as the compiler rounds it (correct rounding:
    both [n] and [10^k] are exact doubles in every use). *)
Definition F64_dec (n d : Z) : f64 := SFdiv f64_prec f64_emax (F64_ofZ n) (F64_ofZ d).

(** ** Reflection lemmas for the real comparisons. *)
Lemma Rltb_spec (x y : R) : reflect (x < y)%R (Rltb x y).
Proof. unfold Rltb; destruct (Rlt_dec x y); constructor; assumption. Qed.
Lemma Rleb_spec (x y : R) : reflect (x <= y)%R (Rleb x y).
Proof. unfold Rleb; destruct (Rle_dec x y); constructor; assumption. Qed.
Lemma Reqb_spec (x y : R) : reflect (x = y)%R (Reqb x y).
Proof. unfold Reqb; destruct (Req_EM_T x y); constructor; assumption. Qed.
Lemma Rltb_true (x y : R) : (x < y)%R -> Rltb x y = true.
Proof. destruct (Rltb_spec x y); [reflexivity|contradiction]. Qed.
Lemma Rltb_false (x y : R) : (y <= x)%R -> Rltb x y = false.
Proof. destruct (Rltb_spec x y); intros; [lra|reflexivity]. Qed.
Lemma Rleb_true (x y : R) : (x <= y)%R -> Rleb x y = true.
Proof. destruct (Rleb_spec x y); [reflexivity|contradiction]. Qed.
Lemma Rleb_false (x y : R) : (y < x)%R -> Rleb x y = false.
Proof. destruct (Rleb_spec x y); intros; [lra|reflexivity]. Qed.
Lemma Reqb_true (x y : R) : x = y -> Reqb x y = true.
Proof. destruct (Reqb_spec x y); [reflexivity|contradiction]. Qed.
Lemma Reqb_false (x y : R) : x <> y -> Reqb x y = false.
Proof. destruct (Reqb_spec x y); [contradiction|reflexivity]. Qed.
Lemma Rltb_iff (x y : R) : Rltb x y = true <-> (x < y)%R.
Proof. destruct (Rltb_spec x y); intuition congruence. Qed.
Lemma Rleb_iff (x y : R) : Rleb x y = true <-> (x <= y)%R.
Proof. destruct (Rleb_spec x y); intuition congruence. Qed.
Lemma Reqb_iff (x y : R) : Reqb x y = true <-> x = y.
Proof. destruct (Reqb_spec x y); intuition congruence. Qed.

(** Unfold the operations of the exact instance. *)
Ltac rnum :=
  cbn [nT nZ nadd nsub nmul ndiv nopp nabs nsqrt nltb nleb neqb ntrunc RNum] in *.

(** Case split on a real comparison occurring in the goal or a hypothesis. *)
Ltac rcase :=
  match goal with
  | |- context [Rltb ?x ?y] => destruct (Rltb_spec x y)
  | |- context [Rleb ?x ?y] => destruct (Rleb_spec x y)
  | |- context [Reqb ?x ?y] => destruct (Reqb_spec x y)
  | H : context [Rltb ?x ?y] |- _ => destruct (Rltb_spec x y)
  | H : context [Rleb ?x ?y] |- _ => destruct (Rleb_spec x y)
  | H : context [Reqb ?x ?y] |- _ => destruct (Reqb_spec x y)
  end.

(** ** Generic lemmas about the outcome monad and vectors. *)
Lemma bind_ok {A B} (m : res A) (f : A -> res B) b :
  bind m f = Ok b -> exists a, m = Ok a /\ f a = Ok b.
Proof. destruct m as [a|e]; cbn; intros H; [exists a; split; auto | discriminate]. Qed.

Ltac inv_ok H :=
  repeat match type of H with
  | bind _ _ = Ok _ =>
      let x := fresh "v" in let E := fresh "E" in
      apply bind_ok in H; destruct H as (x & E & H)
  end.

Lemma vgetn_ok {A} (l : list A) i a : vgetn l i = Ok a <-> nth_error l i = Some a.
Proof. unfold vgetn; destruct (nth_error l i); split; intros; congruence. Qed.

Lemma vget_ok {A} (l : list A) i a :
  vget l i = Ok a <-> (0 <= i /\ nth_error l (Z.to_nat i) = Some a).
Proof.
  unfold vget. destruct (Z.ltb_spec i 0).
  - split; [discriminate | lia].
  - rewrite vgetn_ok. intuition.
Qed.

Lemma vget_of_nat {A} (l : list A) i a :
  vget l (Z.of_nat i) = Ok a <-> nth_error l i = Some a.
Proof. rewrite vget_ok, Nat2Z.id. intuition lia. Qed.

Lemma vgetn_lt {A} (l : list A) i d : (i < List.length l)%nat -> vgetn l i = Ok (nth i l d).
Proof. intros H. apply vgetn_ok. apply nth_error_nth'. exact H. Qed.

Lemma vget_range {A} (l : list A) i :
  (exists a, vget l i = Ok a) <-> (0 <= i < zlen l).
Proof.
  unfold zlen. split.
  - intros [a H]. apply vget_ok in H. destruct H as [H1 H2].
    assert (nth_error l (Z.to_nat i) <> None) by congruence.
    apply nth_error_Some in H. lia.
  - intros H. destruct (nth_error l (Z.to_nat i)) as [a|] eqn:E.
    + exists a. apply vget_ok. split; [lia|exact E].
    + apply nth_error_None in E. lia.
Qed.

Lemma mapM_ok_length {A B} (f : A -> res B) l bs :
  mapM f l = Ok bs -> List.length bs = List.length l.
Proof.
  revert bs; induction l as [|a l IH]; cbn; intros bs H.
  - injection H as <-. reflexivity.
  - inv_ok H. injection H as <-. cbn. f_equal. auto.
Qed.

Lemma mapM_ok_nth {A B} (f : A -> res B) l bs i a :
  mapM f l = Ok bs -> nth_error l i = Some a ->
  exists b, f a = Ok b /\ nth_error bs i = Some b.
Proof.
  revert bs i; induction l as [|x l IH]; cbn; intros bs i H Hi.
  - destruct i; discriminate.
  - inv_ok H. injection H as <-. destruct i as [|i]; cbn in Hi |- *.
    + injection Hi as <-. eauto.
    + eapply IH; eauto.
Qed.

Lemma mapM_total {A B} (f : A -> res B) l :
  (forall a, In a l -> exists b, f a = Ok b) -> exists bs, mapM f l = Ok bs.
Proof.
  induction l as [|a l IH]; cbn; intros H; [eauto|].
  destruct (H a (or_introl eq_refl)) as [b Hb].
  destruct IH as [bs Hbs]; [intros; apply H; auto|].
  rewrite Hb, Hbs. cbn. eauto.
Qed.

Lemma mapM_pure {A B} (f : A -> res B) (g : A -> B) l :
  (forall a, In a l -> f a = Ok (g a)) -> mapM f l = Ok (map g l).
Proof.
  induction l as [|a l IH]; cbn; intros H; [reflexivity|].
  rewrite H by auto. cbn. rewrite IH by auto. reflexivity.
Qed.

Lemma foldM_pure {A B} (f : B -> A -> res B) (g : B -> A -> B) l b :
  (forall b a, In a l -> f b a = Ok (g b a)) -> foldM f l b = Ok (fold_left g l b).
Proof.
  revert b; induction l as [|a l IH]; cbn; intros b H; [reflexivity|].
  rewrite H by auto. cbn. apply IH. auto.
Qed.

Lemma foldM_app {A B} (f : B -> A -> res B) l1 l2 b :
  foldM f (l1 ++ l2) b = (b' <- foldM f l1 b ;; foldM f l2 b').
Proof.
  revert b; induction l1 as [|a l1 IH]; cbn; intros b; [reflexivity|].
  destruct (f b a); cbn; auto.
Qed.

Lemma upd_nth_length {A} n f (l : list A) : List.length (upd_nth n f l) = List.length l.
Proof. revert n; induction l as [|a l IH]; intros [|n]; cbn; auto. Qed.

Lemma upd_nth_same {A} n f (l : list A) a :
  nth_error l n = Some a -> nth_error (upd_nth n f l) n = Some (f a).
Proof. revert n; induction l as [|x l IH]; intros [|n]; cbn; intros H; try congruence; auto. Qed.

Lemma upd_nth_other {A} n m f (l : list A) :
  n <> m -> nth_error (upd_nth n f l) m = nth_error l m.
Proof.
  revert n m; induction l as [|x l IH]; intros [|n] [|m] H; cbn; auto; try congruence.
Qed.

Lemma remove_nth_app {A} (l1 l2 : list A) a :
  remove_nth (List.length l1) (l1 ++ a :: l2) = l1 ++ l2.
Proof. induction l1 as [|x l1 IH]; cbn; auto. rewrite IH; reflexivity. Qed.

Lemma remove_nth_length {A} n (l : list A) :
  (n < List.length l)%nat -> List.length (remove_nth n l) = (List.length l - 1)%nat.
Proof.
  revert n; induction l as [|a l IH]; intros [|n]; cbn; intros H; try lia.
  rewrite IH by lia. lia.
Qed.
