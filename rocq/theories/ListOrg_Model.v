(** Model of the tool that lists origins of a database, apps/sclistorg/sclistorg.py: the options
    (85-188), the selection of events and the output (190-239) and the choice of an origin of an
    event (241-417).

    - The database is an argument: the events of the time interval in the order of the query,
      the origin with an id, and the origins of an event in the order of the query.
    - Texts are bytes; lower() is that of ASCII. Numbers are exact rationals and times
      microseconds: NaN is left out.
    - The conversion of times and numbers of the command line, and the texts of the columns with
      numbers and times, are arguments.
    - A comparison of None with something else raises an exception (Python 3), which ends the
      run. *)
From Coq Require Import Ascii ZArith QArith.
From stdpp Require Import list strings.
From Verif Require Import Csv_Model Table_Model.
From Verif Require Region_Model.
Local Open Scope nat_scope.

(** ** The database *)
Inductive mode := Manual | Automatic.
(** An attribute is [None] if asking for it raises ValueError *)
Record origin := Origin {
  o_id : text; o_mode : option mode; o_stat : option text; o_created : option Z; o_author : option text; o_agency : option text;
  o_method : option text; o_lat : Q; o_lon : Q; o_depth : option Q; o_phases : option Z; o_rms : option Q }.
Record event := Event { v_id : text; v_pref : text; v_type : option text; v_modified : option Z }.

(** ** Options: 136-186; [None]: not given *)
Record options := Options {
  a_modified : option Z; a_types : option text; a_kind : option text; a_simple : bool; a_manual : bool; a_auto : bool;
  a_inc_author : option text; a_excl_author : option text; a_inc_stat : option text; a_excl_stat : option text;
  a_inc_agency : option text; a_excl_agency : option text; a_inc_method : option text; a_excl_method : option text;
  a_area : option text }.

(** split(',') *)
Fixpoint split (t : text) : list text :=
  match t with
  | [] => [[]]
  | c :: t' => if decide (c = comma) then [] :: split t'
               else match split t' with [] => [[c]] | h :: r => (c :: h) :: r end
  end.
(** lower() *)
Definition low (c : ascii) : ascii :=
  let n := nat_of_ascii c in if (65 <=? n) && (n <=? 90) then ascii_of_nat (n + 32) else c.
Definition lower (t : text) : text := low <$> t.
(** 180-186: anything wrong means no area; further values are not looked at *)
Definition area_of (float : text → option Q) (t : option text) : option (Q * Q * Q * Q) :=
  t ← t;
  match split t with
  | a :: b :: c :: d :: _ => a ← float a; b ← float b; c ← float c; d ← float d; Some (a, b, c, d)
  | _ => None
  end.

(** ** The choice of an origin: 254-411 *)
Inductive verdict := Take | Skip | Raise.
(** The conditions in their order: the first that does not let pass decides *)
Definition also (a b : verdict) : verdict := match a with Take => b | _ => a end.
Notation "a 'and' b" := (also a b) (at level 60, right associativity).
Definition skip_if (b : bool) : verdict := if b then Skip else Take.
Definition is_mode (m : mode) (o : origin) : bool :=
  match m, o_mode o with Manual, Some Manual | Automatic, Some Automatic => true | _, _ => false end.
(** 337-343; [le] is the comparison that means skipping *)
Definition by_time (lt : Z → Z → bool) (best : option origin) (o : origin) : verdict :=
  match best with
  | None => Take
  | Some b => match o_created o, o_created b with
              | Some x, Some y => skip_if (lt x y)
              | _, _ => Raise
              end
  end.
(** 345-359 *)
Definition by_value {A} (val : origin → option A) (lt : A → A → bool) (best : option origin) (o : origin) : verdict :=
  match val o with
  | None => Skip
  | Some x => match best with
              | None => Take
              | Some b => match val b with Some y => skip_if (lt x y) | None => Raise end
              end
  end.
Definition qlt (a b : Q) : bool := Region_Model.Qltb a b.
Definition in_order (kind : text) (best : option origin) (o : origin) : verdict :=
  if decide (kind = tx "last") then by_time Z.ltb best o
  else if decide (kind = tx "first") then by_time Z.gtb best o
  else if decide (kind = tx "maxPhases") then by_value o_phases Z.ltb best o
  else if decide (kind = tx "minPhases") then by_value o_phases Z.gtb best o
  else if decide (kind = tx "maxRMS") then by_value o_rms qlt best o
  else if decide (kind = tx "minRMS") then by_value o_rms (λ a b, qlt b a) best o
  else Take.
(** 361-393 *)
Definition inc (opt : option text) (f : text → text) (val : option text) : verdict :=
  match opt with
  | None => Take
  | Some t => match val with Some v => skip_if (bool_decide (f v ∉ f <$> split t)) | None => Skip end
  end.
Definition excl (opt : option text) (f : text → text) (val : option text) : verdict :=
  match opt, val with
  | Some t, Some v => skip_if (bool_decide (f v ∈ f <$> split t))
  | _, _ => Take
  end.
(** 281-289: without a depth there are no coordinates either *)
Definition position (o : origin) : option (Q * Q) := match o_depth o with Some _ => Some (o_lat o, o_lon o) | None => None end.
(** 395-409 *)
Definition in_area (area : option (Q * Q * Q * Q)) (o : origin) : verdict :=
  match area with
  | None => Take
  | Some (minLat, minLon, maxLat, maxLon) =>
      match position o with
      | None => Raise
      | Some (lat, lon) =>
          if (qlt lat minLat || qlt maxLat lat)%bool then Skip
          else
            let lonRange := (maxLon - minLon)%Q in
            let lonRange := if qlt lonRange 0 then (lonRange + 360)%Q else lonRange in
            let lonDelta := (lon - minLon)%Q in
            let lonDelta := if qlt lonDelta 0 then (lonDelta + 360)%Q else lonDelta in
            skip_if (qlt lonRange lonDelta)
      end
  end.
Definition same (t : text) : text := t.

Section tool.
Variable float : text → option Q.
Variable a : options.
(** 142-145 *)
Definition kind : text := default (tx "preferred") (a_kind a).
Definition verdict_of (best : option origin) (o : origin) : verdict :=
  skip_if (a_auto a && negb (is_mode Automatic o)) and skip_if (a_manual a && negb (is_mode Manual o)) and
  in_order kind best o and
  inc (a_inc_stat a) lower (o_stat o) and excl (a_excl_stat a) lower (o_stat o) and
  inc (a_inc_author a) same (o_author o) and excl (a_excl_author a) same (o_author o) and
  inc (a_inc_agency a) same (o_agency o) and excl (a_excl_agency a) same (o_agency o) and
  inc (a_inc_method a) same (o_method o) and excl (a_excl_method a) same (o_method o) and
  in_area (area_of float (a_area a)) o.
(** [None]: an exception *)
Fixpoint choose (best : option origin) (l : list origin) : option (option origin) :=
  match l with
  | [] => Some best
  | o :: l' => match verdict_of best o with
               | Take => choose (Some o) l'
               | Skip => choose best l'
               | Raise => None
               end
  end.
Variable get_origin : text → option origin.
Variable get_origins : text → list origin.
(** 241-252 *)
Definition candidates (v : event) : list origin :=
  if decide (kind = tx "preferred") then match get_origin (v_pref v) with Some o => [o] | None => [] end
  else get_origins (v_id v).
Definition find_origin (v : event) : option (option origin) := choose None (candidates v).

(** 197-220 *)
Definition wanted (v : event) : bool :=
  match a_modified a with
  | None => true
  | Some m => match v_modified v with Some t => negb (Z.ltb t m) | None => false end
  end &&
  match a_types a with None => true | Some t => bool_decide (default [] (v_type v) ∈ split t) end.

(** 192-194, 226-237; [nums] are the eight columns from RMS on *)
Definition header : list text :=
  [tx "origin"; tx "event"; tx "eventType"; tx "evalMode"; tx "evalStat"; tx "agencyID"; tx "author"; tx "methodID"; tx "RMS";
   tx "numPhases"; tx "latitude"; tx "longitude"; tx "depth"; tx "time"; tx "creationTime"; tx "modificationTime"].
Definition shown (t : option text) : text := default (tx "None") t.
Definition mode_name (m : option mode) : text :=
  match m with Some Manual => tx "manual" | Some Automatic => tx "automatic" | None => [] end.
Variable nums : origin → list text.
Definition columns (v : event) (o : origin) : list text :=
  [o_id o; v_id v; default [] (v_type v); mode_name (o_mode o); shown (o_stat o); shown (o_agency o); shown (o_author o);
   shown (o_method o)] ++ nums o.
Definition out_line (v : event) (o : origin) : text := csv_line (if a_simple a then [o_id o] else columns v o).
(** 222-237: the output and whether the run ends without exception *)
Fixpoint out_lines (vs : list event) : text * bool :=
  match vs with
  | [] => ([], true)
  | v :: vs' => match find_origin v with
                | None => ([], false)
                | Some r => let '(t, ok) := out_lines vs' in
                            (match r with Some o => out_line v o ++ t | None => t end, ok)
                end
  end.
(** 190-239; [vs] are the events of the query *)
Definition run (vs : list event) : text * bool :=
  let '(t, ok) := out_lines (filter wanted vs) in
  ((if a_simple a then [] else csv_line header) ++ t, ok).
End tool.
