(** Model of class Neighbours: libs/hdd/clustering.h:42-99 and
    libs/hdd/clustering.cpp:43-280.

    The nested std::map/std::set become finite maps; the order in which their
    elements are written is chosen by the oracle [ord].  A file is its text; I/O
    errors are not modelled. *)
From Coq Require Import Ascii.
From stdpp Require Import gmap list strings.
From Verif Require Import Index_Model Csv_Model Table_Model Catalog_Model.
Local Open Scope nat_scope.

(** clustering.h:94-98 *)
Record neigh := Neigh { n_ref : N; n_map : gmap N (gmap text (gset text)) }.

(** clustering.cpp:56-61 add *)
Definition n_add (n : neigh) (k : N) (sta ph : text) : neigh :=
  let inner := default ∅ (n_map n !! k) in
  Neigh (n_ref n) (<[k := <[ph := {[sta]} ∪ default ∅ (inner !! ph)]> inner]> (n_map n)).
(** clustering.cpp:63 remove *)
Definition n_remove (n : neigh) (k : N) : neigh := Neigh (n_ref n) (delete k (n_map n)).
(** clustering.cpp:43-54 amount, ids *)
Definition n_amount (n : neigh) : nat := size (n_map n).
Definition n_ids (n : neigh) : gset N := dom (n_map n).
(** clustering.cpp:65-68 *)
Definition n_has (n : neigh) (k : N) : bool := bool_decide (is_Some (n_map n !! k)).
(** clustering.cpp:70-88; at() throws for an unknown key, caught *)
Definition n_has_sta (n : neigh) (k : N) (sta : text) : bool :=
  match n_map n !! k with
  | Some inner => existsb (λ kv : text * gset text, bool_decide (sta ∈ kv.2)) (map_to_list inner)
  | None => false
  end.
(** clustering.cpp:90-102 *)
Definition n_has_ph (n : neigh) (k : N) (sta ph : text) : bool :=
  match n_map n !! k with
  | Some inner => match inner !! ph with Some s => bool_decide (sta ∈ s) | None => false end
  | None => false
  end.
(** clustering.cpp:124-143 phases(), 145-165 phases(id), 104-122 stations() *)
Definition inner_phases (inner : gmap text (gset text)) : list (text * text) :=
  '(ph, s) ← map_to_list inner; (λ st, (st, ph)) <$> elements s.
Definition n_phases_of (n : neigh) (k : N) : list (text * text) :=
  match n_map n !! k with Some inner => inner_phases inner | None => [] end.
Definition n_phases (n : neigh) : list (text * text * N) :=
  '(k, inner) ← map_to_list (n_map n); (λ x, (x, k)) <$> inner_phases inner.
Definition n_stations (n : neigh) : gset text := list_to_set ((λ x, x.1.1) <$> n_phases n).

Section files.
Context {V : Type} (ord : neigh → list (text * text * N)).

(** clustering.cpp:186-187 *)
Definition neigh_header : list text :=
  [tx "eventId1"; tx "eventId2"; tx "networkCode"; tx "stationCode"; tx "locationCode"; tx "phaseType"].

(** clustering.cpp:192-212 appendToStream: the rows; [None]: stations.at throws *)
Definition entry_row (c : catalog V) (ref : N) (x : text * text * N) : option (list text) :=
  let '(sta, ph, k) := x in
  s ← c_sta c !! sta; Some [put_u ref; put_u k; s_net s; s_sta s; s_loc s; ph].
Definition neigh_rows (c : catalog V) (n : neigh) : option (list (list text)) :=
  mapM (entry_row c (n_ref n)) (ord n).

(** clustering.cpp:214-235 static writeToFile; [ns] are the values of the map in
    the order of iteration.  Without elements no file is opened. *)
Inductive wres := WFile (s : text) | WNoFile | WThrow.
Definition write_neighs (c : catalog V) (ns : list neigh) : wres :=
  match ns with
  | [] => WNoFile
  | _ => match mapM (neigh_rows c) ns with
         | Some rows => WFile (csv_lines (neigh_header :: concat rows))
         | None => WThrow
         end
  end.

(** clustering.cpp:237-280 readFromFile *)
Inductive rres (A : Type) := ROk (a : A) | RThrow | RUB.
Arguments ROk {A}. Arguments RThrow {A}. Arguments RUB {A}.
(** emplace Neighbours(ev) unless present (260-268) *)
Definition ensure (m : gmap N neigh) (k : N) : gmap N neigh :=
  match m !! k with Some _ => m | None => <[k := Neigh k ∅]> m end.
Definition record_pair (m : gmap N neigh) (ev1 ev2 : N) (sid ph : text) : gmap N neigh :=
  let m := ensure (ensure m ev1) ev2 in
  match m !! ev1 with
  | Some n => <[ev1 := n_add n ev2 sid ph]> m
  | None => m
  end.
Definition read_row (c : catalog V) (m : gmap N neigh) (row : gmap text text) : rres (gmap N neigh) :=
  match (s1 ← cell row "eventId1"; stoul s1), (s2 ← cell row "eventId2"; stoul s2),
        cell row "networkCode", cell row "stationCode", cell row "locationCode", cell row "phaseType" with
  | Some ev1, Some ev2, Some net, Some sta, Some loc, Some ph =>
    match search_station c net sta loc with
    | None => RUB                                  (* end()->second *)
    | Some s => ROk (record_pair m (u32 ev1) (u32 ev2) (s_id s) ph)
    end
  | _, _, _, _, _, _ => RThrow
  end.
Fixpoint read_rows (c : catalog V) (m : gmap N neigh) (rows : list (gmap text text)) : rres (gmap N neigh) :=
  match rows with
  | [] => ROk m
  | r :: rows' => match read_row c m r with ROk m' => read_rows c m' rows' | e => e end
  end.
Definition read_neighs (c : catalog V) (s : text) : rres (gmap N neigh) :=
  match read_with_header s with
  | None => RUB
  | Some rows => read_rows c ∅ rows
  end.

(** clustering.cpp:167-180 toCatalog *)
Variable ins : list (phase V) → phase V → list (phase V).
Fixpoint add_all (acc : catalog V) (c : catalog V) (ids : list N) : cres V unit :=
  match ids with
  | [] => CRet acc tt
  | k :: ids' => match add_from ins acc k c true with
                 | CRet acc' _ => add_all acc' c ids'
                 | CExc a => CExc a
                 | CUB => CUB
                 end
  end.
Definition to_catalog (n : neigh) (c : catalog V) (includeRef : bool) : cres V unit :=
  add_all empty_cat c (elements (n_ids n) ++ if includeRef then [n_ref n] else []).
End files.
Arguments ROk {A}. Arguments RThrow {A}. Arguments RUB {A}.
