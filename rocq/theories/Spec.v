(** Specifications used in the statements of the theorems.  Nothing here refers
    to the model files. *)
From Coq Require Import List ZArith Bool Reals Lia Ascii.
Import ListNotations.

(** * Orders. *)

(** [ltb] is a strict weak order on the set [P] (the requirement the C++
    standard puts on the comparator of std::map and std::sort). *)
Definition incomparable {A} (ltb : A -> A -> bool) (a b : A) : Prop :=
  ltb a b = false /\ ltb b a = false.

Record strict_weak_order_on {A} (P : A -> Prop) (ltb : A -> A -> bool) : Prop := {
  swo_irrefl : forall a, P a -> ltb a a = false;
  swo_trans : forall a b c, P a -> P b -> P c -> ltb a b = true -> ltb b c = true -> ltb a c = true;
  swo_incomp : forall a b c, P a -> P b -> P c ->
    incomparable ltb a b -> incomparable ltb b c -> incomparable ltb a c
}.

(** * Insertion-ordered sets (UniqueList), over an equivalence test. *)
Section SpecSet.
  Context {A : Type}.
  Variable eqv : A -> A -> bool.
  Definition set_mem (x : A) (l : list A) : bool := existsb (eqv x) l.
  Definition set_add (l : list A) (x : A) : list A := if set_mem x l then l else l ++ [x].
  Definition set_remove (l : list A) (x : A) : list A := filter (fun y => negb (eqv x y)) l.
  Inductive set_op := AddOp (x : A) | AddListOp (xs : list A) | ClearOp | RemoveOp (x : A).
  Definition set_step (l : list A) (o : set_op) : list A :=
    match o with
    | AddOp x => set_add l x
    | AddListOp xs => fold_left set_add xs l
    | ClearOp => []
    | RemoveOp x => set_remove l x
    end.
  Definition set_run (h : list set_op) : list A := fold_left set_step h [].
  Definition set_op_elems (o : set_op) : list A :=
    match o with AddOp x => [x] | AddListOp xs => xs | ClearOp => [] | RemoveOp x => [x] end.
End SpecSet.
Arguments set_op : clear implicits.

(** The equivalence induced by a strict weak order. *)
Definition equivb {A} (ltb : A -> A -> bool) (a b : A) : bool := negb (ltb a b) && negb (ltb b a).

(** * Fields of a line. *)
(** [fields_of blank s fs]: [s] is [fs] separated by non-empty blank runs,
    possibly with blanks at both ends. *)
Inductive fields_of {A} (blank : A -> Prop) : list A -> list (list A) -> Prop :=
| fields_none : forall ws, Forall blank ws -> fields_of blank ws []
| fields_last : forall ws f, Forall blank ws -> f <> [] -> Forall (fun c => ~ blank c) f ->
    fields_of blank (ws ++ f) [f]
| fields_more : forall ws f b rest fs, Forall blank ws -> f <> [] -> Forall (fun c => ~ blank c) f ->
    blank b -> fields_of blank rest fs -> fields_of blank (ws ++ f ++ b :: rest) (f :: fs).

(** White space of the C locale: codes 9 to 13 and 32. *)
Definition blank (c : ascii) : Prop := In (nat_of_ascii c) [9; 10; 11; 12; 13; 32]%nat.

(** A non-empty text without white space. *)
Definition field (t : list ascii) : Prop := t <> [] /\ Forall (fun c => ~ blank c) t.

(** * Decimal literals. *)
(** The digits 0 to 9 and the value of a run of digits. *)
Definition decimal_digit (c : ascii) : Prop := (48 <= nat_of_ascii c <= 57)%nat.
Definition run_value (ds : list ascii) : Z :=
  fold_left (fun a c => (10 * a + (Z.of_nat (nat_of_ascii c) - 48))%Z) ds 0%Z.
(** [literal t m e]: the text [t] is an unsigned decimal literal (digits, an
    optional fraction, an optional signed exponent) of value [m * 10^e]. *)
Inductive literal : list ascii -> Z -> Z -> Prop :=
| lit_plain : forall ds, ds <> [] -> Forall decimal_digit ds -> literal ds (run_value ds) 0
| lit_frac : forall ds fs, ds <> [] -> fs <> [] -> Forall decimal_digit (ds ++ fs) ->
    literal (ds ++ "."%char :: fs) (run_value (ds ++ fs)) (- Z.of_nat (length fs))
| lit_exp_plus : forall t m e xs, literal t m e -> ~ In "e"%char t -> xs <> [] -> Forall decimal_digit xs ->
    literal (t ++ "e"%char :: "+"%char :: xs) m (e + run_value xs)
| lit_exp_minus : forall t m e xs, literal t m e -> ~ In "e"%char t -> xs <> [] -> Forall decimal_digit xs ->
    literal (t ++ "e"%char :: "-"%char :: xs) m (e - run_value xs).

(** [t] is the decimal text of the integer [n]. *)
Definition integer_text (t : list ascii) (n : Z) : Prop :=
  exists ds, ds <> [] /\ Forall decimal_digit ds /\
    ((t = ds /\ n = run_value ds) \/ (t = "-"%char :: ds /\ n = (- run_value ds)%Z)).
(** [t] consists of lines, each ended by a newline, with the given fields. *)
Definition text_rows (t : list ascii) (rows : list (list (list ascii))) : Prop :=
  exists ls, t = flat_map (fun l => l ++ [ascii_of_nat 10]) ls /\ Forall (fun l => ~ In (ascii_of_nat 10) l) ls /\
    Forall2 (fields_of blank) ls rows.

(** * Plane geometry over the reals; points are pairs of coordinates. *)
Section SpecPlane.
  Local Open Scope R_scope.
  Definition pt : Type := R * R.
  Definition vsub (a b : pt) : pt := (fst a - fst b, snd a - snd b).
  Definition vadd (a b : pt) : pt := (fst a + fst b, snd a + snd b).
  Definition vcross (a b : pt) : R := fst a * snd b - snd a * fst b.
  Definition vdot (a b : pt) : R := fst a * fst b + snd a * snd b.
  (** twice the signed area of the triangle a b c *)
  Definition orient (a b c : pt) : R := vcross (vsub b a) (vsub c a).
  Definition dist (a b : pt) : R := sqrt ((fst a - fst b) * (fst a - fst b) + (snd a - snd b) * (snd a - snd b)).
  (** the point a + t (b - a) *)
  Definition lerp (a b : pt) (t : R) : pt := (fst a + t * (fst b - fst a), snd a + t * (snd b - snd a)).
  Definition on_line (a b q : pt) : Prop := orient a b q = 0.
  Definition on_segment (a b q : pt) : Prop := exists t, 0 <= t <= 1 /\ q = lerp a b t.
  Definition parallel (a b c d : pt) : Prop := vcross (vsub b a) (vsub d c) = 0.
End SpecPlane.

(** Last value satisfying a partial projection, or a default. *)
Definition last_of {A B} (f : A -> option B) (d : B) (h : list A) : B :=
  fold_left (fun acc a => match f a with Some b => b | None => acc end) h d.

(** * Closed chains. *)
(** consecutive elements of a list *)
Fixpoint pairs {A} (l : list A) : list (A * A) :=
  match l with
  | a :: ((b :: _) as l') => (a, b) :: pairs l'
  | _ => []
  end.
(** the directed edges of the closed chain through the elements of a list *)
Definition edges_of {A} (vs : list A) : list (A * A) :=
  match vs with [] => [] | v :: _ => pairs (vs ++ [v]) end.
Section SpecPolygon.
  Local Open Scope R_scope.
  Definition sumR (l : list R) : R := fold_right Rplus 0 l.
  (** the shoelace formula *)
  Definition shoelace (vs : list pt) : R := sumR (map (fun e => vcross (fst e) (snd e)) (edges_of vs)) / 2.
  (** centroid: the centroids (o+a+b)/3 of the triangles o a b over the edges, weighted with
      their signed areas *)
  Definition centroid_from (o : pt) (vs : list pt) : pt :=
    (sumR (map (fun e => orient o (fst e) (snd e) / 2 * ((fst o + fst (fst e) + fst (snd e)) / 3)) (edges_of vs)) / shoelace vs,
     sumR (map (fun e => orient o (fst e) (snd e) / 2 * ((snd o + snd (fst e) + snd (snd e)) / 3)) (edges_of vs)) / shoelace vs).
End SpecPolygon.

(** the turn at vertex i+1 of the closed chain *)
Definition turn_at (vs : list pt) (i : nat) : R :=
  let n := length vs in
  orient (nth i vs (0, 0)%R) (nth ((i + 1) mod n) vs (0, 0)%R) (nth ((i + 2) mod n) vs (0, 0)%R).

(** two different edges of the closed chain of n edges that are not neighbours *)
Definition non_adjacent (n i j : nat) : Prop :=
  (i < n)%nat /\ (j < n)%nat /\ i <> j /\ j <> ((i + 1) mod n)%nat /\ i <> ((j + 1) mod n)%nat.

(** the point of a circle at an angle given in degrees *)
Definition at_angle (c : pt) (r a : R) : pt :=
  (fst c + r * cos (a * PI / 180), snd c + r * sin (a * PI / 180))%R.

(** * The even-odd rule. *)
Section SpecEvenOdd.
  Local Open Scope R_scope.
  Definition ltR (x y : R) : bool := if Rlt_dec x y then true else false.
  Definition leR (x y : R) : bool := if Rle_dec x y then true else false.
  (** the edge a b passes the height of q, from below to above or from above to below (a point
      at the height of q counts as below) *)
  Definition rises (q a b : pt) : bool := leR (snd a) (snd q) && ltR (snd q) (snd b).
  Definition falls (q a b : pt) : bool := leR (snd b) (snd q) && ltR (snd q) (snd a).
  (** the edge passes the height of q strictly to the left of q *)
  Definition crosses_left (q a b : pt) : bool :=
    rises q a b && ltR (orient a b q) 0 || falls q a b && ltR 0 (orient a b q).
  Definition parity (l : list bool) : bool := fold_right xorb false l.
  Definition even_odd (q : pt) (vs : list pt) : bool :=
    parity (map (fun e => crosses_left q (fst e) (snd e)) (edges_of vs)).
  (** strictly convex and counter-clockwise: every other vertex is strictly to the left of every edge *)
  Definition strictly_convex (vs : list pt) : Prop :=
    (3 <= length vs)%nat /\ NoDup vs /\
    forall a b v, In (a, b) (edges_of vs) -> In v vs -> v <> a -> v <> b -> 0 < orient a b v.
  (** the coordinates of a and b differ by less than tol *)
  Definition coincide (tol : R) (a b : pt) : Prop := Rabs (fst a - fst b) < tol /\ Rabs (snd a - snd b) < tol.
  (** the box of the segment a b enlarged by tol contains q, and the triangle a b q has an area less than tol / 2 *)
  Definition near_segment (tol : R) (a b q : pt) : Prop :=
    Rmin (fst a) (fst b) - tol < fst q < Rmax (fst a) (fst b) + tol /\
    Rmin (snd a) (snd b) - tol < snd q < Rmax (snd a) (snd b) + tol /\
    Rabs (orient a b q) < tol.
  Definition near_border (tol : R) (q : pt) (vs : list pt) : Prop :=
    exists a b, In (a, b) (edges_of vs) /\ near_segment tol a b q.
  Definition on_border (q : pt) (vs : list pt) : Prop :=
    exists a b, In (a, b) (edges_of vs) /\ on_segment a b q.
  (** no two consecutive vertices coincide *)
  Definition no_short_edge (tol : R) (vs : list pt) : Prop :=
    forall a b, In (a, b) (edges_of vs) -> ~ coincide tol a b.
  (** the triangles of the fan from the first vertex *)
  Definition fan (vs : list pt) : list (list pt) :=
    match vs with [] => [] | o :: vs' => map (fun e => [o; fst e; snd e]) (pairs vs') end.
End SpecEvenOdd.

(** * Truncation towards zero. *)
Section SpecTruncation.
  Local Open Scope R_scope.
  Definition truncates (x : R) (k : Z) : Prop := Rabs (IZR k) <= Rabs x < Rabs (IZR k) + 1 /\ 0 <= x * IZR k.
End SpecTruncation.

(** * Convex hull chains. *)
Section SpecHull.
  Local Open Scope R_scope.
  (** left to right, bottom to top on a vertical line *)
  Definition lex_le (a b : pt) : Prop := fst a < fst b \/ (fst a = fst b /\ snd a <= snd b).
  (** [ch] is the upper ([s] = 1) or lower ([s] = -1) chain of the convex hull of [vs]: some of
      the points, from the first to the last, always turning to the same side, and no point of
      [vs] beyond any of its edges *)
  Definition hull_chain (s : R) (vs ch : list pt) : Prop :=
    incl ch vs /\
    (exists f, hd_error ch = Some f /\ forall q, In q vs -> lex_le f q) /\
    (exists l, hd_error (rev ch) = Some l /\ forall q, In q vs -> lex_le q l) /\
    (forall a b, In (a, b) (pairs ch) -> lex_le a b /\ ((exists q q', In q vs /\ In q' vs /\ q <> q') -> a <> b)) /\
    (forall i a b c, nth_error ch i = Some a -> nth_error ch (i + 1) = Some b -> nth_error ch (i + 2) = Some c -> s * orient a b c < 0) /\
    (forall a b q, In (a, b) (pairs ch) -> In q vs -> s * orient a b q <= 0).
  (** the largest distance between two of the points *)
  Definition is_diameter (vs : list pt) (d : R) : Prop :=
    (exists a b, In a vs /\ In b vs /\ d = dist a b) /\ (forall a b, In a vs -> In b vs -> dist a b <= d).
End SpecHull.

(** * Voronoi regions. *)
Section SpecVoronoi.
  Local Open Scope R_scope.
  (** the points that have no site nearer than [p] *)
  Definition voronoi_region (sites : list pt) (p x : pt) : Prop := forall q, In q sites -> dist x p <= dist x q.
  (** the convex hull of finitely many points: [x] lies beyond all of them in no direction *)
  Definition in_hull (vs : list pt) (x : pt) : Prop := forall u, exists p, In p vs /\ vdot u x <= vdot u p.
  (** [a], [b], [c] counterclockwise, and no site inside the circle through them *)
  Definition delaunay_triangle (sites : list pt) (a b c : pt) : Prop :=
    0 < orient a b c /\ forall z, dist z a = dist z b -> dist z b = dist z c -> forall q, In q sites -> dist z a <= dist z q.
  Definition midpoint (a b : pt) : pt := ((fst a + fst b) / 2, (snd a + snd b) / 2).
  (** no site inside the circle with diameter [a] [b] *)
  Definition gabriel_edge (sites : list pt) (a b : pt) : Prop := forall q, In q sites -> dist (midpoint a b) a <= dist (midpoint a b) q.
  (** every point of one list coincides with one of the other *)
  Definition represented (tol : R) (vs cs : list pt) : Prop := forall c, In c cs -> exists p, In p vs /\ coincide tol p c.
  (** the wedge counterclockwise from the ray through [a] to the ray through [b], for a corner [p] that is convex or flat *)
  Definition wedge (p a b x : pt) : Prop := 0 <= orient p a x /\ orient p b x <= 0.
  Definition convex_corner (p a b : pt) : Prop := 0 < orient p a b \/ orient p a b = 0 /\ vdot (vsub a p) (vsub b p) < 0.
  (** the segments a b and c d meet in one point inside both *)
  Definition crossing (a b c d : pt) : Prop := orient a b c * orient a b d < 0 /\ orient c d a * orient c d b < 0.
  (** a triangle without an obtuse angle *)
  Definition nonobtuse (a b c : pt) : Prop :=
    0 <= vdot (vsub b a) (vsub c a) /\ 0 <= vdot (vsub a b) (vsub c b) /\ 0 <= vdot (vsub a c) (vsub b c).
End SpecVoronoi.

(** * Triangulations as index lists. *)
Section SpecTriangulation.
  Local Open Scope Z_scope.
  (** the same unordered pair *)
  Definition same_side (s s' : Z * Z) : bool :=
    ((fst s =? fst s') && (snd s =? snd s')) || ((fst s =? snd s') && (snd s =? fst s')).
  Definition corners (t : Z * Z * Z) : list Z := let '(a, b, c) := t in [a; b; c].
  Definition sides (t : Z * Z * Z) : list (Z * Z) := let '(a, b, c) := t in [(a, b); (b, c); (c, a)].
  Definition has_side (s : Z * Z) (t : Z * Z * Z) : bool := existsb (same_side s) (sides t).
  (** where the elements satisfying a test are, counting from [i] *)
  Fixpoint positions {A} (f : A -> bool) (l : list A) (i : Z) : list Z :=
    match l with
    | [] => []
    | a :: l' => if f a then i :: positions f l' (i + 1) else positions f l' (i + 1)
    end.
  (** the triangles having [s] as a side, in order *)
  Definition incident (tris : list (Z * Z * Z)) (s : Z * Z) : list Z := positions (has_side s) tris 0.
  (** [n] points; edges between points, none listed twice; triangles with three different
      corners whose sides are all listed *)
  Record triangulation (n : Z) (edges : list (Z * Z)) (tris : list (Z * Z * Z)) : Prop := {
    tg_ends : forall a b, In (a, b) edges -> 0 <= a < n /\ 0 <= b < n;
    tg_once : forall i j s s', nth_error edges i = Some s -> nth_error edges j = Some s' -> same_side s s' = true -> i = j;
    tg_corners : forall t, In t tris -> NoDup (corners t);
    tg_sides : forall t s, In t tris -> In s (sides t) -> exists s', In s' edges /\ same_side s s' = true
  }.
  (** no side is traversed twice in the same direction *)
  Definition directed_once (tris : list (Z * Z * Z)) : Prop :=
    forall k k' t t' s, nth_error tris k = Some t -> nth_error tris k' = Some t' -> In s (sides t) -> In s (sides t') -> k = k'.
  (** the edges at a point, listed with markers *)
  Definition touches (i : Z) (s : Z * Z) : bool := (fst s =? i) || (snd s =? i).
  Definition first_or (d : Z) (l : list Z) : Z := match l with [] => d | k :: _ => k end.
  Definition last_or (d : Z) (l : list Z) : Z := first_or d (rev l).
  (** the last boundary edge (marker 1) at the point, else its first edge, else -1 *)
  Definition start_edge (edges : list (Z * Z * Z)) (i : Z) : Z :=
    last_or (first_or (-1) (positions (fun e => touches i (fst e)) edges 0))
            (positions (fun e => touches i (fst e) && (snd e =? 1)) edges 0).
  (** the triangles [ts] follow each other around [v]: the [i]-th one has the sides from [v] to
      the [i]-th and to the next of the points [ws] *)
  Inductive sector (tris : list (Z * Z * Z)) (v : Z) : list Z -> list nat -> Prop :=
  | sector_end w : sector tris v [w] []
  | sector_step w w' ws k ts t : nth_error tris k = Some t -> has_side (v, w) t = true -> has_side (v, w') t = true -> w <> w' ->
      sector tris v (w' :: ws) ts -> sector tris v (w :: w' :: ws) (k :: ts).
  (** no other triangle has the corner [v], no other edge ends at [v] *)
  Definition around (edges : list (Z * Z)) (tris : list (Z * Z * Z)) (v : Z) (ws : list Z) (ts : list nat) : Prop :=
    (forall k t, nth_error tris k = Some t -> In v (corners t) -> In k ts) /\
    (forall s, In s edges -> touches v s = true -> exists w, In w ws /\ same_side (v, w) s = true).
  (** the triangles around [v] close up: at least three, the neighbours all different *)
  Definition closed_fan edges tris v (ws : list Z) (ts : list nat) : Prop :=
    exists w ws', ws = w :: ws' /\ sector tris v (ws ++ [w]) ts /\ NoDup ws /\ (3 <= length ws)%nat /\ around edges tris v ws ts.
  (** the triangles around [v] form a sector; its two outer edges are the boundary edges at [v] *)
  Definition open_fan (edges : list (Z * Z * Z)) tris v (w : Z) (ws : list Z) (w' : Z) (ts : list nat) : Prop :=
    sector tris v (w :: ws ++ [w']) ts /\ NoDup (w :: ws ++ [w']) /\ around (map fst edges) tris v (w :: ws ++ [w']) ts /\
    (forall e, In e edges -> touches v (fst e) = true -> (snd e = 1 <-> same_side (v, w) (fst e) = true \/ same_side (v, w') (fst e) = true)).
  (** [l] read from somewhere on, in either direction *)
  Definition turned {A} (l l' : list A) : Prop := exists a b, l = a ++ b /\ (l' = b ++ a \/ l' = rev (b ++ a)).
  (** the list without its repetitions *)
  Definition dedup (l : list Z) : list Z := fold_left (set_add Z.eqb) l [].
End SpecTriangulation.
