(** Model of libs/hdd/csvreader.cpp:37-147.  Bytes are [ascii], text is a list of
    bytes.  The limit of std::string::max_size and I/O errors are not modelled. *)
From Coq Require Import Ascii.
From stdpp Require Import gmap list strings.

Notation text := (list ascii).
Definition comma : ascii := ","%char.
Definition quote : ascii := """"%char.
Definition nl : ascii := "010"%char.
Definition cr : ascii := "013"%char.

(** csvreader.cpp:37-42 *)
Inductive csv_state := Unquoted | Quoted | QuotedQuote.

(** One character of the loop at 49-87.  [done] are the completed fields (last
    first), [cur] the characters of fields[i] (last first). *)
Definition csv_char (s : csv_state * list text * text) (c : ascii) : csv_state * list text * text :=
  let '(st, done, cur) := s in
  match st with
  | Unquoted =>
    if decide (c = comma) then (Unquoted, rev cur :: done, [])
    else if decide (c = quote) then (Quoted, done, cur)
    else (Unquoted, done, c :: cur)
  | Quoted =>
    if decide (c = quote) then (QuotedQuote, done, cur) else (Quoted, done, c :: cur)
  | QuotedQuote =>
    if decide (c = comma) then (Unquoted, rev cur :: done, [])
    else if decide (c = quote) then (Quoted, done, quote :: cur)
    else (Unquoted, done, cur)
  end.

(** csvreader.cpp:44-89 readRow *)
Definition read_row (row : text) : list text :=
  let '(_, done, cur) := fold_left csv_char row (Unquoted, [], []) in rev (rev cur :: done).

(** The getline loop at 96-103: pieces ended by a newline, and a last piece
    without one if it is not empty. *)
Fixpoint lines_from (cur s : text) : list text :=
  match s with
  | [] => match cur with [] => [] | _ => [rev cur] end
  | c :: s' => if decide (c = nl) then rev cur :: lines_from [] s' else lines_from (c :: cur) s'
  end.
Definition lines (s : text) : list text := lines_from [] s.

(** csvreader.cpp:104-108 *)
Definition chop_cr (row : text) : text :=
  match rev row with c :: r => if decide (c = cr) then rev r else row | [] => row end.

(** csvreader.cpp:93-113 read *)
Definition csv_read (s : text) : list (list text) := (λ l, read_row (chop_cr l)) <$> lines s.

(** csvreader.cpp:121-138 format: row[header[i]] = ... for i = 0, 1, ... *)
Definition format_row (header columns : list text) : gmap text text :=
  fold_left (λ m '(i, h), <[h := nth i columns []]> m) (zip (seq 0 (length header)) header) ∅.

(** Outcome: [None] is the access to rows[0] of an empty vector (143). *)
Definition read_with_header (s : text) : option (list (gmap text text)) :=
  match csv_read s with
  | [] => None
  | h :: rows => Some (format_row h <$> rows)
  end.
(** csvreader.cpp:147-152 *)
Definition read_given_header (header : list text) (s : text) : list (gmap text text) :=
  format_row header <$> csv_read s.
