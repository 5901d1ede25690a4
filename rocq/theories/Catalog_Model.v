(** Model of libs/hdd/catalog.h:38-236 and libs/hdd/catalog.cpp:52-68, 217-401, 513-556:
    the catalog container and its operations.

    Floating point attributes have an abstract type [V]; they are only copied by
    the functions modelled here.  Codes are lists of characters.  Times are
    microseconds.  unordered_multimap<unsigned, Phase> is a map from the key to
    the list of elements with that key in the order of equal_range; the place
    where emplace puts a new element among its equals is chosen by the oracle
    [ins].  Attributes that the code leaves uninitialised unless isRelocated is
    set (catalog.h:78-83, 121-127) are an option.  Logging is not modelled. *)
From Coq Require Import Ascii.
From stdpp Require Import gmap list sorting.
From Verif Require Import Index_Model Csv_Model.

Definition dot : ascii := "."%char.

(** catalog.h:43-63 *)
Record station (V : Type) := Sta {
  s_id : text; s_lat : V; s_lon : V; s_elev : V; s_net : text; s_sta : text; s_loc : text }.
Arguments Sta {V}. Arguments s_id {V}. Arguments s_lat {V}. Arguments s_lon {V}. Arguments s_elev {V}.
Arguments s_net {V}. Arguments s_sta {V}. Arguments s_loc {V}.
(** catalog.h:65-95 *)
Record event (V : Type) := Ev {
  e_id : N; e_time : Z; e_lat : V; e_lon : V; e_depth : V; e_mag : V; e_reloc : option (V * V) }.
Arguments Ev {V}. Arguments e_id {V}. Arguments e_time {V}. Arguments e_lat {V}. Arguments e_lon {V}.
Arguments e_depth {V}. Arguments e_mag {V}. Arguments e_reloc {V}.
(** catalog.h:110-127 *)
Inductive ptype := TP | TS | TNO.
Inductive psource := SrcCatalog | SrcManual | SrcAutomatic.
Record pproc (V : Type) := Proc { pr_type : ptype; pr_weight : V; pr_source : psource }.
Arguments Proc {V}. Arguments pr_type {V}. Arguments pr_weight {V}. Arguments pr_source {V}.
(** catalog.h:97-153 *)
Record phase (V : Type) := Pha {
  p_ev : N; p_staid : text; p_time : Z; p_lower : V; p_upper : V; p_type : text;
  p_net : text; p_sta : text; p_loc : text; p_cha : text;
  p_proc : option (pproc V); p_reloc : option (V * V * V) }.
Arguments Pha {V}. Arguments p_ev {V}. Arguments p_staid {V}. Arguments p_time {V}. Arguments p_lower {V}.
Arguments p_upper {V}. Arguments p_type {V}. Arguments p_net {V}. Arguments p_sta {V}. Arguments p_loc {V}.
Arguments p_cha {V}. Arguments p_proc {V}. Arguments p_reloc {V}.

(** catalog.h:232-235 *)
Record catalog (V : Type) := Cat {
  c_sta : gmap text (station V); c_ev : gmap N (event V); c_ph : gmap N (list (phase V)) }.
Arguments Cat {V}. Arguments c_sta {V}. Arguments c_ev {V}. Arguments c_ph {V}.

(** Result of an operation: a value and the new state, an exception and the state
    it leaves behind, or undefined behaviour. *)
Inductive cres (V A : Type) := CRet (c : catalog V) (a : A) | CExc (c : catalog V) | CUB.
Arguments CRet {V A}. Arguments CExc {V A}. Arguments CUB {V A}.

Section ops.
Context {V : Type}.
Implicit Types (c : catalog V) (p : phase V) (e : event V) (s : station V).
Variable ins : list (phase V) → phase V → list (phase V).

Definition empty_cat : catalog V := Cat ∅ ∅ ∅.

(** catalog.cpp:365-366, also 346: net + "." + sta + "." + loc *)
Definition code_id (n s l : text) : text := n ++ [dot] ++ s ++ [dot] ++ l.
Definition sta_id s : text := code_id (s_net s) (s_sta s) (s_loc s).

(** equal_range on _phases *)
Definition phs c (k : N) : list (phase V) := default [] (c_ph c !! k).

Definition set_s_id s (i : text) : station V := Sta i (s_lat s) (s_lon s) (s_elev s) (s_net s) (s_sta s) (s_loc s).
Definition set_e_id e (i : N) : event V :=
  Ev i (e_time e) (e_lat e) (e_lon e) (e_depth e) (e_mag e) (e_reloc e).
Definition set_p_ev p (i : N) : phase V :=
  Pha i (p_staid p) (p_time p) (p_lower p) (p_upper p) (p_type p) (p_net p) (p_sta p) (p_loc p) (p_cha p)
      (p_proc p) (p_reloc p).

(** catalog.cpp:363-374 addStation *)
Definition add_station c s : catalog V :=
  match c_sta c !! sta_id s with
  | Some _ => c
  | None => Cat (<[sta_id s := set_s_id s (sta_id s)]> (c_sta c)) (c_ev c) (c_ph c)
  end.

(** _events.rbegin()->first, 0 if empty (catalog.cpp:389-390) *)
Definition max_key (m : gmap N (event V)) : N := foldr N.max 0%N (elements (dom m)).

(** catalog.cpp:376-396 addEvent *)
Definition add_event c e (keep : bool) : cres V N :=
  if keep then
    match c_ev c !! e_id e with
    | Some _ => CExc c
    | None => CRet (Cat (c_sta c) (<[e_id e := e]> (c_ev c)) (c_ph c)) (e_id e)
    end
  else
    let k := u32 (max_key (c_ev c) + 1) in
    CRet (Cat (c_sta c) (<[k := set_e_id e k]> (c_ev c)) (c_ph c)) k.

(** catalog.cpp:398-401 addPhase *)
Definition add_phase c p : catalog V :=
  Cat (c_sta c) (c_ev c) (<[p_ev p := ins (phs c (p_ev p)) p]> (c_ph c)).

(** The loop shared by extractEvent (251-260) and add (271-281): [src] is the
    catalog the phases come from. *)
Fixpoint copy_phases (src c : catalog V) (new : N) (l : list (phase V)) : cres V N :=
  match l with
  | [] => CRet c new
  | p :: l' =>
    match c_sta src !! p_staid p with
    | None => CExc c                      (* _stations.at throws *)
    | Some s => copy_phases src (add_phase (add_station c s) (set_p_ev p new)) new l'
    end
  end.

(** catalog.cpp:265-284 add(evId, evCat, keepEvId) *)
Definition add_from c (evId : N) (src : catalog V) (keep : bool) : cres V N :=
  match c_ev src !! evId with
  | None => CUB                           (* find()->second of end() *)
  | Some e =>
    match add_event c e keep with
    | CRet c' new => copy_phases src c' new (phs src (e_id e))
    | CExc c' => CExc c'
    | CUB => CUB
    end
  end.

(** catalog.cpp:236-263 extractEvent: a new catalog, this one is not changed;
    an exception leaves nothing. *)
Definition extract_event c (evId : N) (keep : bool) : option (catalog V) :=
  match c_ev c !! evId with
  | None => None
  | Some e =>
    match add_event empty_cat e keep with
    | CRet c' new =>
      match copy_phases c c' new (phs c (e_id e)) with CRet c'' _ => Some c'' | _ => None end
    | _ => None
    end
  end.

(** catalog.cpp:222-234 add(other, keepEvId), the events in increasing key order;
    [other] is another object than the catalog itself. *)
Definition sorted_events (m : gmap N (event V)) : list (event V) :=
  omap (λ k, m !! k) (merge_sort N.le (elements (dom m))).
Fixpoint add_events c (src : catalog V) (keep : bool) (l : list (event V)) : cres V unit :=
  match l with
  | [] => CRet c tt
  | e :: l' =>
    if keep && bool_decide (is_Some (c_ev c !! e_id e)) then add_events c src keep l'
    else match add_from c (e_id e) src keep with
         | CRet c' _ => add_events c' src keep l'
         | CExc c' => CExc c'
         | CUB => CUB
         end
  end.
Definition add_cat c (src : catalog V) (keep : bool) : cres V unit :=
  add_events c src keep (sorted_events (c_ev src)).

(** catalog.cpp:286-295 removeEvent *)
Definition remove_event c (k : N) : catalog V := Cat (c_sta c) (delete k (c_ev c)) (delete k (c_ph c)).

(** catalog.cpp:350-361 searchPhase: index in the equal range *)
Definition search_phase c (k : N) (sid ty : text) : option nat :=
  fst <$> list_find (λ p, p_staid p = sid ∧ p_type p = ty) (phs c k).
(** catalog.cpp:297-307 removePhase *)
Definition remove_phase c (k : N) (sid ty : text) : catalog V :=
  match search_phase c k sid ty with
  | Some i => Cat (c_sta c) (c_ev c) (<[k := delete i (phs c k)]> (c_ph c))
  | None => c
  end.

(** catalog.cpp:309-323 updateStation *)
Definition update_station c s (addm : bool) : catalog V * bool :=
  match c_sta c !! s_id s with
  | Some _ => (Cat (<[s_id s := s]> (c_sta c)) (c_ev c) (c_ph c), true)
  | None => (if addm then add_station c s else c, false)
  end.

(** catalog.cpp:325-338 updateEvent *)
Definition update_event c e (addm keep : bool) : cres V bool :=
  match c_ev c !! e_id e with
  | Some _ => CRet (Cat (c_sta c) (<[e_id e := e]> (c_ev c)) (c_ph c)) true
  | None =>
    if addm then
      match add_event c e keep with CRet c' _ => CRet c' false | CExc c' => CExc c' | CUB => CUB end
    else CRet c false
  end.

(** catalog.cpp:340-348 searchStation *)
Definition search_station c (n s l : text) : option (station V) := c_sta c !! code_id n s l.

(** catalog.cpp:52-68 constructor from vectors; [None]: exception *)
Definition cat_of (ss : list (station V)) (es : list (event V)) (ps : list (phase V)) : option (catalog V) :=
  let c1 := fold_left add_station ss empty_cat in
  match fold_left (λ oc e, match oc with
                           | Some c => match add_event c e true with CRet c' _ => Some c' | _ => None end
                           | None => None end) es (Some c1) with
  | Some c2 => Some (fold_left add_phase ps c2)
  | None => None
  end.

(** catalog.cpp:513-556 fillProcessingInfo; [weight] is computePickWeight (see
    PickWeight_Model.v) *)
Definition proc_type (vp vs : list text) (ty : text) : ptype :=
  if decide (ty ∈ vp) then TP else if decide (ty ∈ vs) then TS else TNO.
Definition with_proc (weight : phase V → V) (src : psource) (vp vs : list text) p : phase V :=
  Pha (p_ev p) (p_staid p) (p_time p) (p_lower p) (p_upper p) (p_type p) (p_net p) (p_sta p) (p_loc p) (p_cha p)
      (Some (Proc (proc_type vp vs (p_type p)) (weight p) src)) (p_reloc p).
Definition fill_proc (weight : phase V → V) (src : psource) (vp vs : list text) c : catalog V :=
  let all := e ← sorted_events (c_ev c); with_proc weight src vp vs <$> phs c (e_id e) in
  Cat (c_sta c) (c_ev c)
      (c_ph (fold_left add_phase all (Cat ∅ ∅ ∅))).
End ops.
