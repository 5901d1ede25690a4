(** Model of libs/hdd/catalog.cpp:70-215 (constructor from files) and 403-511
    (writeToFile).

    A file is its text; I/O errors and missing files are not modelled.  The
    conversions of floating point numbers are arguments: [pf8], [pf6], [pf3] and
    [pg] print with "%.8f", "%.6f", "%.3f" and "%g", [stod] is std::stod with
    [None] for an exception, [nan] is quiet_NaN.  Every exception while reading is
    turned into one exception, [None].  The members written for a relocated event
    or phase only exist there (see Catalog_Model.v); processing information is not
    stored in files and is absent after reading. *)
From Coq Require Import Ascii.
From stdpp Require Import gmap list strings sorting.
From Verif Require Import Index_Model Csv_Model Table_Model Catalog_Model.
From Verif Require Time_Model.
Local Open Scope nat_scope.

Definition zero : ascii := "000"%char.
(** c_str(): printf "%s" stops at the first NUL *)
Fixpoint c_str (t : text) : text :=
  match t with
  | [] => []
  | a :: t' => if decide (a = zero) then [] else a :: c_str t'
  end.

(** catalog.cpp:43-46 *)
Definition str_to_bool (s : text) : bool :=
  bool_decide (s = tx "1") || bool_decide (s = tx "true") || bool_decide (s = tx "True") || bool_decide (s = tx "TRUE").

(** UTCClock::fromString, [None] if it does not return *)
Definition get_time (s : text) : option Z :=
  match Time_Model.from_string s with Time_Model.ROk t => Some t | _ => None end.

Section files.
Context {V : Type} (pf8 pf6 pf3 pg : V → text) (stod : text → option V) (nan : V).
(** order of iteration over the ordered copy of the stations (498-500) *)
Context (sord : gmap text (station V) → list (station V)).
Context (ins : list (phase V) → phase V → list (phase V)).

Definition any_reloc (c : catalog V) : bool := existsb (λ e, bool_decide (is_Some (e_reloc e))) (sorted_events (c_ev c)).

(** 413-416, 424-426, 431-441 *)
Definition ev_header0 : list text :=
  [tx "id"; tx "isotime"; tx "latitude"; tx "longitude"; tx "depth"; tx "magnitude"].
Definition ev_header (reloc : bool) : list text :=
  ev_header0 ++ if reloc then [tx "relocated"; tx "startRms"; tx "finalRms"] else [].
Definition ev_row (reloc : bool) (e : event V) : list text :=
  [put_u (e_id e); Time_Model.to_string (e_time e); pf8 (e_lat e); pf8 (e_lon e); pf6 (e_depth e); pf3 (e_mag e)]
  ++ if reloc then
       match e_reloc e with
       | None => [tx "false"; []; []]
       | Some (s, f) => [tx "true"; pg s; pg f]
       end
     else [].
Definition write_events (c : catalog V) : text :=
  let r := any_reloc c in csv_lines (ev_header r :: (ev_row r <$> sorted_events (c_ev c))).

(** 455-491; the phases in the order of a multimap built from the unordered one *)
Definition ph_header (reloc : bool) : list text :=
  [tx "eventId"; tx "isotime"; tx "lowerUncertainty"; tx "upperUncertainty"; tx "type"; tx "networkCode";
   tx "stationCode"; tx "locationCode"; tx "channelCode"]
  ++ if reloc then [tx "usedInReloc"; tx "weight"; tx "startResidual"; tx "finalResidual"] else [].
Definition ph_row (reloc : bool) (p : phase V) : list text :=
  [put_u (p_ev p); Time_Model.to_string (p_time p); pg (p_lower p); pg (p_upper p); c_str (p_type p);
   c_str (p_net p); c_str (p_sta p); c_str (p_loc p); c_str (p_cha p)]
  ++ if reloc then
       match p_reloc p with
       | None => [tx "false"; []; []; []]
       | Some (w, s, f) => [tx "true"; pg w; pg s; pg f]
       end
     else [].
Definition ordered_phases (c : catalog V) : list (phase V) :=
  k ← merge_sort N.le (elements (dom (c_ph c))); phs c k.
Definition write_phases (c : catalog V) : text :=
  let r := any_reloc c in csv_lines (ph_header r :: (ph_row r <$> ordered_phases c)).

(** 496-509 *)
Definition st_header : list text :=
  [tx "latitude"; tx "longitude"; tx "elevation"; tx "networkCode"; tx "stationCode"; tx "locationCode"].
Definition st_row (s : station V) : list text :=
  [pf8 (s_lat s); pf8 (s_lon s); pf3 (s_elev s); c_str (s_net s); c_str (s_sta s); c_str (s_loc s)].
Definition write_stations (c : catalog V) : text := csv_lines (st_header :: (st_row <$> sord (c_sta c))).

(** ** Reading *)
Definition num (row : gmap text text) (name : string) : option V := s ← cell row name; stod s.

(** 100-110 *)
Definition get_station (row : gmap text text) : option (station V) :=
  lat ← num row "latitude"; lon ← num row "longitude"; el ← num row "elevation";
  n ← cell row "networkCode"; s ← cell row "stationCode"; l ← cell row "locationCode";
  Some (Sta (code_id n s l) lat lon el n s l).
(** 126-150 *)
Definition get_event (load : bool) (row : gmap text text) : option (event V) :=
  id ← (s ← cell row "id"; stoul s); t ← (s ← cell row "isotime"; get_time s);
  lat ← num row "latitude"; lon ← num row "longitude"; dep ← num row "depth";
  let mag := default nan (num row "magnitude") in
  rel ← (if load && bool_decide (is_Some (cell row "relocated")) && str_to_bool (default [] (cell row "relocated"))
         then (s ← num row "startRms"; f ← num row "finalRms"; Some (Some (s, f)))
         else Some None);
  Some (Ev (u32 id) t lat lon dep mag rel).
(** 168-197 *)
Definition get_phase (load : bool) (row : gmap text text) : option (phase V) :=
  id ← (s ← cell row "eventId"; stoul s); t ← (s ← cell row "isotime"; get_time s);
  let '(lo, up) := default (nan, nan) (lo ← num row "lowerUncertainty"; up ← num row "upperUncertainty"; Some (lo, up)) in
  ty ← cell row "type"; n ← cell row "networkCode"; s ← cell row "stationCode"; l ← cell row "locationCode";
  ch ← cell row "channelCode";
  rel ← (if load && bool_decide (is_Some (cell row "usedInReloc")) && str_to_bool (default [] (cell row "usedInReloc"))
         then (s ← num row "startResidual"; f ← num row "finalResidual"; w ← num row "weight"; Some (Some (w, s, f)))
         else Some None);
  Some (Pha (u32 id) (code_id n s l) t lo up ty n s l ch None rel).

(** 94-119, 121-158, 160-214 *)
Definition put_station (c : catalog V) (s : station V) : catalog V := Cat (<[s_id s := s]> (c_sta c)) (c_ev c) (c_ph c).
Definition put_event (c : catalog V) (e : event V) : catalog V := Cat (c_sta c) (<[e_id e := e]> (c_ev c)) (c_ph c).
Fixpoint read_all {A} (get : gmap text text → option A) (put : catalog V → A → option (catalog V))
    (c : catalog V) (rows : list (gmap text text)) : option (catalog V) :=
  match rows with
  | [] => Some c
  | r :: rows' => a ← get r; c' ← put c a; read_all get put c' rows'
  end.
Definition put_phase (c : catalog V) (p : phase V) : option (catalog V) :=
  match c_sta c !! p_staid p with None => None | Some _ => Some (add_phase ins c p) end.
Definition read_catalog (staFile evFile phFile : text) (load : bool) : option (catalog V) :=
  rs ← read_with_header staFile; c1 ← read_all get_station (λ c s, Some (put_station c s)) empty_cat rs;
  re ← read_with_header evFile; c2 ← read_all (get_event load) (λ c e, Some (put_event c e)) c1 re;
  rp ← read_with_header phFile; read_all (get_phase load) put_phase c2 rp.
End files.
