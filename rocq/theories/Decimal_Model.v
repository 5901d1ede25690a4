(** Model of the numbers in the text files of catalogs: the conversions "%.8f", "%.6f", "%.3f" and
    "%g" of the C library, used through strf (libs/hdd/utils.cpp 46-90) by libs/hdd/catalog.cpp
    424-441, 469-489 and 505-507, and std::stod, used in catalog.cpp 103-105, 131-150 and 174-197.

    The C library is not part of the project; this is what the C standard (7.21.6.1, 7.22.1.3)
    and glibc say, for the rounding to nearest, ties to even, and the "C" locale. A double is a
    binary64 number of Flocq with one NaN, so "-nan" is not printed. In [stod] hexadecimal numbers
    are not modelled, and the decimal text of a subnormal number is always refused: glibc refuses
    it unless the text is exact, which takes hundreds of digits. *)
From Coq Require Import ZArith Ascii.
From Flocq Require Import Core BinarySingleNaN.
From stdpp Require Import numbers list strings.
From Verif Require Import Csv_Model Table_Model Double_Model.
From Verif Require Time_Model.
Local Open Scope Z_scope.

(** ** Printing *)
Definition digit (d : Z) : ascii := ascii_of_nat (48 + Z.to_nat d).
(** The last [w] decimal digits of a number *)
Fixpoint put_digits (w : nat) (n : Z) : text :=
  match w with
  | O => []
  | S w' => put_digits w' (n / 10) ++ [digit (n mod 10)]
  end.
(** The number of decimal digits, one for 0 *)
Fixpoint ndig_aux (fuel : nat) (n : Z) : nat :=
  match fuel with
  | O => 1
  | S f => if n <? 10 then 1%nat else S (ndig_aux f (n / 10))
  end.
Definition ndig (n : Z) : nat := ndig_aux (Z.to_nat (Z.log2 n)) n.
Definition put_int (n : Z) : text := put_digits (ndig n) n.

(** The integer next to num / den, ties to even *)
Definition near (num den : Z) : Z :=
  let q := num / den in
  let r := num mod den in
  if 2 * r <? den then q else if den <? 2 * r then q + 1 else if Z.even q then q else q + 1.
(** The absolute value of a finite double as a fraction *)
Definition frac (x : double) : Z * Z :=
  match x with
  | B754_finite _ m e _ => (Z.pos m * 2 ^ Z.max 0 e, 2 ^ Z.max 0 (- e))
  | _ => (0, 1)
  end.
Definition sign_text (x : double) : text := if Bsign x then tx "-" else [].

(** k / 10^n with n decimals, without a point for n = 0 *)
Definition fixed (n : nat) (k : Z) : text :=
  match n with
  | O => put_int k
  | _ => put_int (k / 10 ^ Z.of_nat n) ++ tx "." ++ put_digits n (k mod 10 ^ Z.of_nat n)
  end.
(** printf "%.nf" *)
Definition print_f (n : nat) (x : double) : text :=
  match x with
  | B754_nan => tx "nan"
  | B754_infinity _ => sign_text x ++ tx "inf"
  | _ => let '(num, den) := frac x in sign_text x ++ fixed n (near (num * 10 ^ Z.of_nat n) den)
  end.

(** The exponent of the first significant decimal digit of num / den *)
Definition exp10 (num den : Z) : Z :=
  if den <=? num then Z.of_nat (ndig (num / den)) - 1 else - Z.of_nat (ndig ((den - 1) / num)).
(** Six significant digits: num / den is about d * 10^(X - 5) *)
Definition six (num den : Z) : Z * Z :=
  let X := exp10 num den in
  let d := near (num * 10 ^ Z.max 0 (5 - X)) (den * 10 ^ Z.max 0 (X - 5)) in
  if d =? 10 ^ 6 then (10 ^ 5, X + 1) else (d, X).
(** k / 10^n without the zeros at the end of the decimals *)
Fixpoint short (n : nat) (k : Z) : text :=
  match n with
  | O => fixed 0 k
  | S n' => if k mod 10 =? 0 then short n' (k / 10) else fixed n k
  end.
(** printf "%g" *)
Definition print_g (x : double) : text :=
  match x with
  | B754_nan => tx "nan"
  | B754_infinity _ => sign_text x ++ tx "inf"
  | B754_zero _ => sign_text x ++ tx "0"
  | B754_finite _ _ _ _ =>
      let '(num, den) := frac x in
      let '(d, X) := six num den in
      sign_text x ++
      if (-4 <=? X) && (X <? 6) then short (Z.to_nat (5 - X)) d
      else short 5 d ++ tx "e" ++ (if X <? 0 then tx "-" else tx "+") ++
           put_digits (Nat.max 2 (ndig (Z.abs X))) (Z.abs X)
  end.

(** ** Reading *)
(** The double next to num / den: the bits beyond 2^-1201 only matter for being zero or not *)
Definition nearest_double (s : bool) (num den : Z) : double :=
  let f := num * 2 ^ 1201 / den in
  let f' := if (num * 2 ^ 1201) mod den =? 0 then f else if Z.even f then f + 1 else f in
  binary_normalize 53 1024 prec53 emax1024 mode_NE (if s then - f' else f') (-1201) s.
(** The number m * 10^e; [None] is the exception out_of_range *)
Definition of_decimal (s : bool) (m e : Z) : option double :=
  if m =? 0 then Some (B754_zero s)
  else
    let num := m * 10 ^ Z.max 0 e in
    let den := 10 ^ Z.max 0 (- e) in
    if num * 2 ^ 1022 <? den then None
    else let r := nearest_double s num den in if is_finite r then Some r else None.

(** A letter of a text, upper or lower case *)
Definition lower (c : ascii) : ascii :=
  let n := nat_of_ascii c in if ((65 <=? n) && (n <=? 90))%nat then ascii_of_nat (n + 32) else c.
Definition starts (w s : text) : bool := bool_decide (lower <$> take (length w) s = w).
(** An optional sign *)
Definition get_sign (s : text) : bool * text :=
  match s with
  | c :: r => if decide (c = "-"%char) then (true, r) else if decide (c = "+"%char) then (false, r) else (false, s)
  | [] => (false, s)
  end.
(** The decimals after a point *)
Definition get_decimals (s : text) : text * text :=
  match s with
  | c :: r => if decide (c = "."%char) then Time_Model.span_digs r else ([], s)
  | [] => ([], s)
  end.
(** The exponent: without digits it is not part of the number *)
Definition get_exp (s : text) : Z :=
  match s with
  | c :: r =>
      if decide (lower c = "e"%char) then
        let '(neg, r) := get_sign r in
        let d := fst (Time_Model.span_digs r) in
        if neg then - Time_Model.value d else Time_Model.value d
      else 0
  | [] => 0
  end.
(** std::stod; [None] is an exception *)
Definition stod (t : text) : option double :=
  let '(neg, s) := get_sign (skip_space t) in
  if starts (tx "inf") s then Some (B754_infinity neg)
  else if starts (tx "nan") s then Some B754_nan
  else
    let '(ip, s) := Time_Model.span_digs s in
    let '(fp, s) := get_decimals s in
    match ip ++ fp with
    | [] => None
    | ds => of_decimal neg (Time_Model.value ds) (get_exp s - Z.of_nat (length fp))
    end.
