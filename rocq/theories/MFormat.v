(** Model of the text form of a [double]: utilities::toString<double> and
    Point::getString on IEEE binary64 values. *)
From Coq Require Import SpecFloat.
From Verif Require Import Base MUtil MGeom MHull MPolygon MMaps MTriangle MGen MRegion MDelaunay MMesh.
From Coq Require Import Ascii.

(** The decimal exponent of the positive fraction [num / den]: the [X] with
    [10^X <= num / den < 10^(X+1)].  (The "style e exponent" of the %g conversion
    used by operator<<(double): lib/utilities/include/utilities/utilities.h:12-20.) *)
Definition dexp (num den : Z) : Z :=
  if den <=? num then Z.of_nat (length (dec (num / den))) - 1
  else - Z.of_nat (length (dec ((den - 1) / num))).

(** The fraction rounded to [p] significant digits, ties to even: digits and decimal
    exponent (utilities.h:12-20; the default precision of a stream is 6). *)
Definition round_digits (p num den : Z) : Z * Z :=
  let x := dexp num den in
  let k := p - 1 - x in
  let m := if 0 <=? k then round_div (num * 10 ^ k) den else round_div num (den * 10 ^ (- k)) in
  if m =? 10 ^ p then (10 ^ (p - 1), x + 1) else (m, x).

(** A run of digits padded on the left with zeros to the width [w].
    Library code behind utilities.cpp:17-24. *)
Definition pad (w : Z) (s : text) : text := repeat (digit 0) (Z.to_nat w - length s) ++ s.

(** Positional notation of [m * 10^k] (utilities.h:12-20, the "style f" branch of %g). *)
Definition print_fixed (m k : Z) : text :=
  if 0 <=? k then dec (m * 10 ^ k)
  else dec (m / 10 ^ (- k)) ++ dot :: pad (- k) (dec (m mod 10 ^ (- k))).

(** A leading digit, the other digits, and a signed exponent of at least two digits
    (utilities.h:12-20, the "style e" branch of %g). *)
Definition print_sci (m x : Z) : text :=
  let ds := dec m in
  let mant := match ds with [] => [] | [c] => [c] | c :: cs => c :: dot :: cs end in
  mant ++ char_e :: (if x <? 0 then minus else plus)
       :: (if Z.abs x <? 10 then [digit 0] else []) ++ dec (Z.abs x).

(** operator<<(double) in the default format, six significant digits, trailing zeros
    removed, on the positive fraction [num / den] (utilities.h:12-20). *)
Definition print_fraction (num den : Z) : text :=
  let '(m, x) := round_digits 6 num den in
  let m' := strip_zeros 6 m in
  if ((-4 <=? x) && (x <? 6))%bool then print_fixed m' (x - Z.of_nat (length (dec m')) + 1)
  else print_sci m' x.

(** utilities::toString<double>: lib/utilities/include/utilities/utilities.h:12-20, on a binary64
    value (glibc spelling of infinities and NaN; a NaN is printed without its sign, which the
    model of binary64 does not carry). *)
Definition chars (l : list nat) : text := map ascii_of_nat l.
(** utilities.h:12-20. *)
Definition print_double (x : f64) : text :=
  let sign (s : bool) (t : text) := if s then minus :: t else t in
  match x with
  | S754_zero s => sign s [digit 0]
  | S754_infinity s => sign s (chars [105; 110; 102])%nat
  | S754_nan => chars [110; 97; 110]%nat
  | S754_finite s m e =>
      sign s (if 0 <=? e then print_fraction (Zpos m * 2 ^ e) 1 else print_fraction (Zpos m) (2 ^ (- e)))
  end.

(** toString<double>(int) and toString<double>(size_t): the integer is converted to double first
    (utilities.h:14 called from delynoi/src/models/polygon/Polygon.cpp:247-250 and
    delynoi/src/models/basic/IndexSegment.cpp:56). *)
Definition toString_double_of_int (n : Z) : text := print_double (F64_ofZ n).

(** utilities::toStringWithPrecision: lib/utilities/src/utilities.cpp:17-24
    (fixed notation with [prec >= 0] decimals). *)
Definition print_decimals (prec num den : Z) : text :=
  let m := round_div (num * 10 ^ prec) den in
  if prec =? 0 then dec m else dec (m / 10 ^ prec) ++ dot :: pad prec (dec (m mod 10 ^ prec)).
(** utilities.cpp:17-24. *)
Definition toStringWithPrecision (x : f64) (prec : Z) : text :=
  let sign (s : bool) (t : text) := if s then minus :: t else t in
  match x with
  | S754_zero s => sign s (print_decimals prec 0 1)
  | S754_infinity s => sign s (chars [105; 110; 102])%nat
  | S754_nan => chars [110; 97; 110]%nat
  | S754_finite s m e =>
      sign s (if 0 <=? e then print_decimals prec (Zpos m * 2 ^ e) 1 else print_decimals prec (Zpos m) (2 ^ (- e)))
  end.

(** Point::getString: delynoi/src/models/basic/Point.cpp:28-30 (see [Mesh.printInStream]: [print_double] is
    the [fmt] of the binary64 instance; Mesh::printInFile's setprecision acts on
    the file stream, not on the stream toString creates). *)
Definition point_string64 (p : Point F64) : text :=
  print_double (@px F64 p) ++ space :: print_double (@py F64 p).

(** * std::atof (C library), correctly rounded, as called from Mesh.h:151 and Region.cpp:131-150.
    Simplified: hexadecimal literals, and names other than the "inf" and "nan" that
    operator<< prints, are not recognised. *)
Fixpoint span_digits (s : text) : text * text :=
  match s with
  | [] => ([], [])
  | c :: s' => match digit_val c with
               | Some _ => let '(a, b) := span_digits s' in (c :: a, b)
               | None => ([], s)
               end
  end.
(** The exponent part: "e", an optional sign, at least one digit; otherwise absent.
    std::atof, called at Mesh.h:176 and Region.cpp:108. *)
Definition read_exponent (s : text) : Z :=
  match s with
  | c :: s' =>
      if Ascii.eqb c char_e then
        let '(neg, s1) := match s' with
                          | c' :: s'' => if Ascii.eqb c' minus then (true, s'')
                                         else if Ascii.eqb c' plus then (false, s'') else (false, s')
                          | [] => (false, [])
                          end in
        let v := atoi_digits (fst (span_digits s1)) 0 in if neg then - v else v
      else 0
  | [] => 0
  end.
(** The double nearest to [m * 10^e], ties to even.
    std::atof, called at Mesh.h:176 and Region.cpp:108. *)
Definition decimal64 (s : bool) (m e : Z) : f64 :=
  if 0 <=? e then
    match m * 10 ^ e with Zpos p => binary_round f64_prec f64_emax s p 0 | _ => S754_zero s end
  else
    match m with
    | Zpos p => let '(q, ez, l) := SFdiv_core_binary f64_prec f64_emax (Zpos p) 0 (10 ^ (- e)) 0 in
                binary_round_aux f64_prec f64_emax s q ez l
    | _ => S754_zero s
    end.
(** std::atof, called at Mesh.h:176 and Region.cpp:108 (case-sensitive: a simplification). *)
Fixpoint starts_with (w t : text) : bool :=
  match w, t with
  | [], _ => true
  | a :: w', b :: t' => (Ascii.eqb a b && starts_with w' t')%bool
  | _, [] => false
  end.
(** glibc spelling of an infinity (utilities.h:12-20). *)
Definition text_inf : text := chars [105; 110; 102]%nat.
(** glibc spelling of a NaN (utilities.h:12-20). *)
Definition text_nan : text := chars [110; 97; 110]%nat.
(** std::atof after the sign, called at Mesh.h:176 and Region.cpp:108. *)
Definition atof_unsigned (s : bool) (t : text) : f64 :=
  if starts_with text_inf t then S754_infinity s
  else if starts_with text_nan t then S754_nan
  else
    let '(ds, r) := span_digits t in
    let '(fs, r') := match r with
                     | c :: r1 => if Ascii.eqb c dot then span_digits r1 else ([], r)
                     | [] => ([], [])
                     end in
    match ds ++ fs with
    | [] => S754_zero false
    | _ => decimal64 s (atoi_digits (ds ++ fs) 0) (read_exponent r' - Z.of_nat (length fs))
    end.
(** std::atof, called at Mesh.h:176 and Region.cpp:108. *)
Definition atof64 (t : text) : f64 :=
  match skip_spaces t with
  | [] => S754_zero false
  | c :: t' => if Ascii.eqb c minus then atof_unsigned true t'
               else if Ascii.eqb c plus then atof_unsigned false t'
               else atof_unsigned false (c :: t')
  end.
