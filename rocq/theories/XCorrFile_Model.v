(** Model of libs/hdd/xcorrcache.cpp:38-99, XCorrCache::writeToFile and readFromFile, with doubles.

    A file is its text; I/O errors and missing files are not modelled.  The numbers are printed and
    read as in Decimal_Model.v.  The calls made by forEach come in an order that is an argument.
    Ids of stations and types of phases are strings in the cache and lists of characters in files
    and catalogs; the two conversions are inverse to each other. *)
From Coq Require Import Ascii.
From Flocq Require Import Core BinarySingleNaN.
From stdpp Require Import gmap list strings.
From Verif Require Import Index_Model Csv_Model Table_Model Catalog_Model CatalogFile_Model Neighbours_Model.
From Verif Require Import Double_Model Decimal_Model XCorrCache_Model.

Notation dcache := (cache double double) (only parsing).
Notation dentry := (entry double double) (only parsing).
Definition str (t : text) : string := String.string_of_list_ascii t.

Section files.
Context {V : Type}.

(** 41-43 *)
Definition xc_header : list text :=
  [tx "eventId1"; tx "eventId2"; tx "networkCode"; tx "stationCode"; tx "locationCode"; tx "phaseType";
   tx "valid"; tx "coefficient"; tx "lag"].

(** 45-54; [None]: stations.at throws *)
Definition xc_row (c : catalog V) (q : quint double double) : option (list text) :=
  let '(a, b, s, p, e) := q in
  sta ← c_sta c !! tx s;
  Some [put_u a; put_u b; c_str (s_net sta); c_str (s_sta sta); c_str (s_loc sta); c_str (tx p);
        if e_valid e then tx "true" else tx "false"; print_f 6 (e_coeff e); print_f 6 (e_lag e)].

(** 38-57: the text of the file and whether the function returns (or throws) *)
Fixpoint xc_rows (c : catalog V) (order : list (quint double double)) : list (list text) * bool :=
  match order with
  | [] => ([], true)
  | q :: order' => match xc_row c q with
                   | Some r => let '(rs, ok) := xc_rows c order' in (r :: rs, ok)
                   | None => ([], false)
                   end
  end.
Definition xc_write (c : catalog V) (order : list (quint double double)) : text * bool :=
  let '(rs, ok) := xc_rows c order in (csv_lines (xc_header :: rs), ok).

(** 75-88 *)
Definition xc_read_row (c : catalog V) (m : dcache) (row : gmap text text) : rres dcache :=
  match (s1 ← cell row "eventId1"; stoul s1), (s2 ← cell row "eventId2"; stoul s2),
        cell row "networkCode", cell row "stationCode", cell row "locationCode", cell row "phaseType",
        cell row "valid", (s ← cell row "coefficient"; stod s), (s ← cell row "lag"; stod s) with
  | Some ev1, Some ev2, Some net, Some sta, Some loc, Some ph, Some valid, Some coeff, Some lag =>
    match search_station c net sta loc with
    | None => RUB                                  (* end()->second *)
    | Some s => ROk (xc_add m (u32 ev1) (u32 ev2) (str (s_id s)) (str ph) (Entry (str_to_bool valid) coeff lag))
    end
  | _, _, _, _, _, _, _, _, _ => RThrow
  end.
(** 69-98 *)
Fixpoint xc_read_rows (c : catalog V) (m : dcache) (rows : list (gmap text text)) : rres dcache :=
  match rows with
  | [] => ROk m
  | r :: rows' => match xc_read_row c m r with ROk m' => xc_read_rows c m' rows' | e => e end
  end.
Definition xc_read (c : catalog V) (s : text) : rres dcache :=
  match read_with_header s with
  | None => RUB
  | Some rows => xc_read_rows c ∅ rows
  end.
End files.
