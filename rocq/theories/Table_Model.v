(** Text tables as the project writes and reads them: rows of comma separated
    fields without quoting (strf("%u,%s,...") followed by endl, e.g.
    libs/hdd/clustering.cpp:166-194, libs/hdd/catalog.cpp:403-511), the conversion
    "%u", std::stoul, and a look-up in a row returned by CSV::readWithHeader. *)
From Coq Require Import Ascii.
From stdpp Require Import gmap list strings.
From Verif Require Import Csv_Model.
From Verif Require Time_Model.
Local Open Scope nat_scope.

Definition tx (s : string) : text := String.list_ascii_of_string s.

Fixpoint csv_join (fs : list text) : text :=
  match fs with
  | [] => []
  | [f] => f
  | f :: fs' => f ++ comma :: csv_join fs'
  end.
Definition csv_line (fs : list text) : text := csv_join fs ++ [nl].
Definition csv_lines (rows : list (list text)) : text := concat (csv_line <$> rows).

(** printf "%u" *)
Definition put_u (n : N) : text := Time_Model.dec (Z.of_N n).

(** std::stoul with 64 bit unsigned long: white space, sign, decimal digits; the
    rest of the text is ignored.  [None]: an exception. *)
Definition is_space (c : ascii) : bool :=
  let n := nat_of_ascii c in (n =? 32) || ((9 <=? n) && (n <=? 13)).
Fixpoint skip_space (s : text) : text :=
  match s with c :: s' => if is_space c then skip_space s' else s | [] => [] end.
Definition stoul (s : text) : option N :=
  let s := skip_space s in
  let '(neg, s) := match s with
                   | c :: r => if decide (c = "-"%char) then (true, r)
                               else if decide (c = "+"%char) then (false, r) else (false, s)
                   | [] => (false, s)
                   end in
  let d := fst (Time_Model.span_digs s) in
  match d with
  | [] => None
  | _ => let v := Z.to_N (Time_Model.value d) in
         if decide (2 ^ 64 ≤ v)%N then None
         else Some (if neg then ((2 ^ 64 - v) `mod` 2 ^ 64)%N else v)
  end.

(** row.at(name): [None] is std::out_of_range *)
Definition cell (row : gmap text text) (name : string) : option text := row !! tx name.
