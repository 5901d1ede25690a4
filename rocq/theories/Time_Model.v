(** Model of libs/hdd/utctime.cpp:40-164, UTCClock.

    A time point is an integer number of microseconds since 1970-01-01.  The C
    library functions gmtime_r and timegm are modelled by the arithmetic of the
    Gregorian calendar below (Time_Props.v proves that it is the calendar in
    which each day follows the previous one); the int/64 bit overflow of the
    fields is not modelled.  Text is a list of characters. *)
From Coq Require Import ZArith Bool List Ascii.
Import ListNotations.
Local Open Scope Z_scope.

(** Leap years and lengths of months. *)
Definition leap (y : Z) : bool := (y mod 4 =? 0) && (negb (y mod 100 =? 0) || (y mod 400 =? 0)).

(** Days before the first of month [m] (1..12) in a common year. *)
Definition cum_days (m : Z) : Z :=
  match m with
  | 1 => 0 | 2 => 31 | 3 => 59 | 4 => 90 | 5 => 120 | 6 => 151
  | 7 => 181 | 8 => 212 | 9 => 243 | 10 => 273 | 11 => 304 | 12 => 334 | _ => 0
  end.

(** Day number of a date; linear in the day so that, as timegm does, the 31st of
    a short month continues into the next month. *)
Definition days_of (y m d : Z) : Z :=
  365 * (y - 1970) + (y - 1969) / 4 - (y - 1901) / 100 + (y - 1601) / 400
  + cum_days m + (if (2 <? m) && leap y then 1 else 0) + (d - 1).

(** timegm for a month in 1..12. *)
Definition timegm (y m d h mi s : Z) : Z := 86400 * days_of y m d + 3600 * h + 60 * mi + s.

(** Date of a day number. *)
Definition date_of (n : Z) : Z * Z * Z :=
  let z := n + 719468 in
  let era := z / 146097 in
  let doe := z mod 146097 in
  let yoe := (doe - doe / 1460 + doe / 36524 - doe / 146096) / 365 in
  let doy := doe - (365 * yoe + yoe / 4 - yoe / 100) in
  let mp := (5 * doy + 2) / 153 in
  let d := doy - (153 * mp + 2) / 5 + 1 in
  let m := if mp <? 10 then mp + 3 else mp - 9 in
  (yoe + 400 * era + (if m <=? 2 then 1 else 0), m, d).

Record fields := Fields {
  f_year : Z; f_mon : Z; f_day : Z; f_hour : Z; f_min : Z; f_sec : Z; f_usec : Z }.

(** gmtime_r: seconds are never negative, days are rounded down. *)
Definition gmtime (tt : Z) : fields :=
  let '(y, m, d) := date_of (tt / 86400) in
  let r := tt mod 86400 in
  Fields y m d (r / 3600) (r / 60 mod 60) (r mod 60) 0.

(** utctime.cpp:40-44 to_time_t: duration_cast truncates toward zero. *)
Definition to_time_t (t : Z) : Z := Z.quot t 1000000.
(** utctime.cpp:46-50 *)
Definition from_time_t (tt : Z) : Z := 1000000 * tt.

(** utctime.cpp:84-106 toDate *)
Definition to_date (t : Z) : fields :=
  let tt := to_time_t t in
  let g := gmtime tt in
  Fields (f_year g) (f_mon g) (f_day g) (f_hour g) (f_min g) (f_sec g) (t - from_time_t tt).

(** Outcomes: a value, an exception, or undefined behaviour / out_of_range (a
    double that does not fit an int at line 123). *)
Inductive res (A : Type) := ROk (a : A) | RThrow | RBad.
Arguments ROk {A}. Arguments RThrow {A}. Arguments RBad {A}.

(** utctime.cpp:64-82 fromDate *)
Definition from_date (f : fields) : res Z :=
  let tt := timegm (f_year f) (f_mon f) (f_day f) (f_hour f) (f_min f) (f_sec f) in
  if (tt =? -1) && ((f_year f <? 1970) || (2038 <? f_year f)) then RThrow
  else ROk (from_time_t tt + f_usec f).

(** ** Text *)
Definition text := list ascii.
Definition dig (n : Z) : ascii := ascii_of_nat (48 + Z.to_nat n).
Definition is_dig (c : ascii) : bool := (48 <=? nat_of_ascii c)%nat && (nat_of_ascii c <=? 57)%nat.
Definition dval (c : ascii) : Z := Z.of_nat (nat_of_ascii c) - 48.

(** Decimal digits of a non-negative number. *)
Fixpoint dec_aux (fuel : nat) (n : Z) (acc : text) : text :=
  match fuel with
  | O => acc
  | S f => if n <? 10 then dig n :: acc else dec_aux f (n / 10) (dig (n mod 10) :: acc)
  end.
Definition dec (n : Z) : text := dec_aux (S (Z.to_nat n)) n [].

(** printf "%0wd" *)
Definition zpad (w : nat) (s : text) : text := repeat "0"%char (w - length s) ++ s.
Definition fmt (w : nat) (n : Z) : text :=
  if n <? 0 then "-"%char :: zpad (w - 1) (dec (- n)) else zpad w (dec n).

(** The loop at 156-158 removing trailing zeros. *)
Fixpoint drop_zeros (s : text) : text :=
  match s with
  | c :: s' => if ascii_dec c "0" then drop_zeros s' else s
  | [] => []
  end.
Definition strip0 (s : text) : text := rev (drop_zeros (rev s)).

(** utctime.cpp:145-164 toString *)
Definition usec_str (u : Z) : text :=
  if u =? 0 then ["0"; "0"; "0"; "0"]%char else strip0 (fmt 6 u).
Definition to_string (t : Z) : text :=
  let f := to_date t in
  fmt 4 (f_year f) ++ ["-"%char] ++ fmt 2 (f_mon f) ++ ["-"%char] ++ fmt 2 (f_day f) ++ ["T"%char]
  ++ fmt 2 (f_hour f) ++ [":"%char] ++ fmt 2 (f_min f) ++ [":"%char] ++ fmt 2 (f_sec f)
  ++ ["."%char] ++ usec_str (f_usec f) ++ ["Z"%char].

(** ** Parsing: the regular expression of line 110-112 *)
Fixpoint take_digs (k : nat) (s : text) : option (text * text) :=
  match k with
  | O => Some ([], s)
  | S k' =>
    match s with
    | c :: s' =>
      if is_dig c then match take_digs k' s' with Some (d, r) => Some (c :: d, r) | None => None end
      else None
    | [] => None
    end
  end.
Definition expect (c : ascii) (s : text) : option text :=
  match s with c' :: s' => if ascii_dec c c' then Some s' else None | [] => None end.
Fixpoint span_digs (s : text) : text * text :=
  match s with
  | c :: s' => if is_dig c then let '(d, r) := span_digs s' in (c :: d, r) else ([], s)
  | [] => ([], [])
  end.
Definition value (s : text) : Z := fold_left (fun a c => 10 * a + dval c) s 0.

(** regex_match: the seven groups. *)
Definition match_re (s : text) : option (text * text * text * text * text * text * text) :=
  match take_digs 4 s with None => None | Some (y, s) =>
  match expect "-" s with None => None | Some s =>
  match take_digs 2 s with None => None | Some (mo, s) =>
  match expect "-" s with None => None | Some s =>
  match take_digs 2 s with None => None | Some (d, s) =>
  match expect "T" s with None => None | Some s =>
  match take_digs 2 s with None => None | Some (h, s) =>
  match expect ":" s with None => None | Some s =>
  match take_digs 2 s with None => None | Some (mi, s) =>
  match expect ":" s with None => None | Some s =>
  match take_digs 2 s with None => None | Some (se, s) =>
  match expect "." s with None => None | Some s =>
  match span_digs s with
  | ([], _) => None
  | (u, s) => match expect "Z" s with
              | Some [] => Some (y, mo, d, h, mi, se, u)
              | _ => None
              end
  end end end end end end end end end end end end end.

(** utctime.cpp:126-135: scale to six digits; the two loops. *)
Fixpoint mul10 (k : nat) (v : Z) : Z := match k with O => v | S k' => mul10 k' (v * 10) end.
Fixpoint div10 (k : nat) (v : Z) : Z := match k with O => v | S k' => div10 k' (Z.quot v 10) end.
Definition scale6 (n : nat) (v : Z) : Z := div10 (n - 6) (mul10 (6 - n) v).

(** utctime.cpp:108-143 fromString. std::stod gives the value exactly as long as
    it fits an int; a value of 2^31 or more does not fit the int it is assigned to. *)
Definition from_string (s : text) : res Z :=
  match match_re s with
  | None => RThrow
  | Some (y, mo, d, h, mi, se, u) =>
    let v := value u in
    if 2 ^ 31 <=? v then RBad else
    let us := scale6 (length u) v in
    let mo := value mo in let d := value d in let h := value h in
    let mi := value mi in let se := value se in
    if (mo <? 1) || (12 <? mo) then RThrow else
    if (d <? 1) || (31 <? d) then RThrow else
    if (h <? 0) || (23 <? h) then RThrow else
    if (mi <? 0) || (59 <? mi) then RThrow else
    if (se <? 0) || (59 <? se) then RThrow else
    from_date (Fields (value y) mo d h mi se us)
  end.

(** Comparison of texts by character code (operator< of std::string). *)
Fixpoint text_lt (a b : text) : bool :=
  match a, b with
  | [], [] => false
  | [], _ :: _ => true
  | _ :: _, [] => false
  | x :: a', y :: b' =>
    if (nat_of_ascii x <? nat_of_ascii y)%nat then true
    else if (nat_of_ascii y <? nat_of_ascii x)%nat then false else text_lt a' b'
  end.
