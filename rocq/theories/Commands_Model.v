(** Model of the commands of scrtdd that work on catalogs: RTDD::run, apps/scrtdd/rtddtool.cpp
    1127-1253, with getCatalog 1783-1819, getProfile 1821-1834, Profile::load and unload 1893-2004,
    Profile::relocateCatalog 2153-2198, dumpClusters 2213-2241, and the import of a file with
    origin ids, libs/hddsc/utils.cpp 344-385.

    - Texts of files are given by [file] ([None]: the file cannot be opened); the reading of the
      three files of a catalog is the argument [read_triple] ([None]: an exception), see
      CatalogFile_Model for it.
    - [origin_of] is DataSource::get for origins; what an origin is see Import_Model.
    - The construction of the travel time table, of the waveform proxy and of HDD::DD (1926-1980)
      is the argument [mk]: the catalog of the DD object, [None] if an exception was thrown.
    - DD::findClusters and the relocation of clusters are the arguments [find] and [reloc]
      (MultiEvent_Model), the reading of the file with cross-correlations is [read_xc].
    - Unordered containers are iterated in the order of the arguments [order], [elems], [evs].
    - What is written is recorded as effects, in the order of writing; the text of the three files
      of a catalog is not built (CatalogFile_Model), the XML is the list of the converted events
      with the origin handed to convertOrigin.
    - Logging, the time of last usage and the diagnostics are left out; the loading of an XML file
      (1108-1125) is part of [origin_of]. *)
From Coq Require Import Ascii.
From stdpp Require Import gmap list strings.
From Verif Require Import Index_Model Csv_Model Table_Model Catalog_Model Neighbours_Model Import_Model Config_Model.
From Verif Require Solver_Model.
Local Open Scope nat_scope.

Section commands.
Context {V X : Type}.
Variable ins : list (phase V) → phase V → list (phase V).
Variable zero : V → bool.
Variable nan : V.
Variable inv : text → text → text → Z → located V.
Variable read_triple : text → text → text → bool → option (catalog V).
Variable file : text → option text.
Variable origin_of : text → option (origin V).
Variable order : gmap N neigh → list (N * neigh).
Variable elems : neigh → list (text * text * N).
Variable evs : catalog V → list N.

(** The attributes of a profile used here, rtddtool.h *)
Record profile := Prof { f_name : text; f_ids : text; f_sta : text; f_ev : text; f_pha : text }.
Variable mk : profile → catalog V → option (catalog V).
Variable find : profile → catalog V → Solver_Model.res (list (gmap N neigh)).
Variable reloc : profile → catalog V → X → list (gmap N neigh) → Solver_Model.res (catalog V).
Variable no_xc : X.
Variable read_xc : catalog V → text → Solver_Model.res X.

Record options := Opts {
  o_dumpClusters : text; o_preload : bool; o_dumpWf : text; o_dumpCatalog : text; o_merge : text; o_keepid : bool;
  o_reloc : text; o_clusters : text; o_xcorr : text; o_xmlout : bool; o_profile : text }.

Inductive effect :=
  | WCatalog (sta ev pha : text) (c : catalog V)
  | WPairs (name : text) (s : text)
  | WPreload (c : catalog V)
  | WWaveforms (c : catalog V)
  | WXml (l : list (catalog V * option (origin V))).
(** How run ends: it returns, an exception leaves it, undefined behaviour, or none of these
    commands was given and it goes on (1255 ff.) *)
Inductive ending := Return (b : bool) | Escapes | Undefined | GoesOn.
Notation outcome := (ending * list effect)%type.

Definition tokens (s : text) : list text := split_from "," [] false s.
Definition given (s : text) : bool := bool_decide (s ≠ []).

(** utils.cpp 344-360 and 362-385 *)
Definition known_origins (ids : list text) : list (origin V) := omap origin_of ids.
Definition import_file (f : text) : cres V (list (N * origin V)) :=
  match file f with
  | None => CExc empty_cat
  | Some s =>
      match read_with_header s with
      | None => CUB
      | Some rows =>
          match mapM (λ row : gmap text text, cell row "origin") rows with
          | None => CExc empty_cat
          | Some ids => import ins zero nan inv empty_cat (known_origins ids) []
          end
      end
  end.

(** 1783-1819; the map of ids is empty unless the catalog comes from a file with ids *)
Definition get_catalog (path : text) : cres V (list (N * origin V)) :=
  match tokens path with
  | [f] => match import_file f with CExc _ => CRet empty_cat [] | r => r end
  | [a; b; d] => match read_triple a b d false with Some c => CRet c [] | None => CRet empty_cat [] end
  | _ => CRet empty_cat []
  end.
(** 1821-1834 *)
Definition get_profile (ps : list profile) (name : text) : option profile :=
  if given name then snd <$> list_find (λ p, f_name p = name) ps else None.
(** Catalog::empty, libs/hdd/catalog.cpp 217-220 *)
Definition empty_catalog (c : catalog V) : bool :=
  bool_decide (c_sta c = ∅ ∧ c_ev c = ∅) && forallb (λ x : N * list (phase V), bool_decide (x.2 = [])) (map_to_list (c_ph c)).

(** 1893-1996: the catalog of the DD object, [None] if the profile is not loaded; the outer
    [None] is undefined behaviour *)
Definition load_profile (p : profile) (alternative : catalog V) : option (option (catalog V)) :=
  if negb (empty_catalog alternative) then Some (mk p alternative)
  else if given (f_ids p) then
    match import_file (f_ids p) with
    | CRet c _ => Some (mk p c)
    | CExc _ => Some None
    | CUB => None
    end
  else match read_triple (f_sta p) (f_ev p) (f_pha p) false with
       | Some c => Some (mk p c)
       | None => Some None
       end.

(** 2226-2240 *)
Definition cluster_prefix (id : N) : text := tx "cluster-" ++ put_u id.
Fixpoint dump_loop (bg : catalog V) (id : N) (cls : list (gmap N neigh)) (out : list effect) : outcome :=
  match cls with
  | [] => (Return true, out)
  | cl :: cls =>
      let prefix := cluster_prefix id in
      match write_neighs elems bg (snd <$> order cl) with
      | WThrow => (Escapes, out)
      | w =>
          let out := match w with WFile s => out ++ [WPairs (prefix ++ tx "-pair.csv") s] | _ => out end in
          match add_all ins empty_cat bg (fst <$> order cl) with
          | CRet c _ =>
              dump_loop bg (u32 (id + 1)) cls
                (out ++ [WCatalog (prefix ++ tx "-station.csv") (prefix ++ tx "-event.csv") (prefix ++ tx "-phase.csv") c])
          | CExc _ => (Escapes, out)
          | CUB => (Undefined, out)
          end
      end
  end.
(** 2213-2225 *)
Definition dump_clusters (p : profile) (loaded : option (catalog V)) : outcome :=
  match loaded with
  | None => (Escapes, [])
  | Some bg =>
      match find p bg with
      | Solver_Model.Ok cls => dump_loop bg 1 cls []
      | Solver_Model.Exc => (Escapes, [])
      | Solver_Model.Bad => (Undefined, [])
      end
  end.

(** 2164-2176 *)
Fixpoint read_clusters (bg : catalog V) (l : list text) : Solver_Model.res (list (gmap N neigh)) :=
  match l with
  | [] => Solver_Model.Ok []
  | f :: l =>
      match file f with
      | None => Solver_Model.Exc
      | Some s =>
          match read_neighs bg s with
          | ROk m => Solver_Model.rbind (read_clusters bg l) (λ r, Solver_Model.Ok (m :: r))
          | RThrow => Solver_Model.Exc
          | RUB => Solver_Model.Bad
          end
      end
  end.
(** 2153-2198; without clusters those found are used (libs/hdd/dd.cpp 393-405) *)
Definition relocate_catalog (p : profile) (loaded : option (catalog V)) (clusters xcorr : text) : Solver_Model.res (catalog V) :=
  match loaded with
  | None => Solver_Model.Exc
  | Some bg =>
      Solver_Model.rbind (if given clusters then read_clusters bg (tokens clusters) else Solver_Model.Ok []) (λ cls,
      Solver_Model.rbind (if given xcorr then read_xc bg xcorr else Solver_Model.Ok no_xc) (λ xc,
      match cls with
      | [] => Solver_Model.rbind (find p bg) (reloc p bg xc)
      | _ => reloc p bg xc cls
      end))
  end.
(** 1218-1240: idmap.at, the last assignment of a key counts *)
Definition source_of (idmap : list (N * origin V)) (k : N) : option (origin V) :=
  snd <$> last (List.filter (λ x, bool_decide (x.1 = k)) idmap).
Fixpoint xml_of (idmap : list (N * origin V)) (c : catalog V) (l : list N) : option (list (catalog V * option (origin V))) :=
  match l with
  | [] => Some []
  | k :: l => ev ← extract_event ins c k true; r ← xml_of idmap c l; Some ((ev, source_of idmap k) :: r)
  end.

(** 1182-1190: the loop over the triples *)
Fixpoint merge_loop (keep : bool) (acc : catalog V) (l : list text) : cres V unit :=
  match l with
  | a :: b :: d :: l =>
      match read_triple a b d true with
      | None => CExc acc
      | Some c => match add_cat ins acc c keep with
                  | CRet acc _ => merge_loop keep acc l
                  | CExc acc => CExc acc
                  | CUB => CUB
                  end
      end
  | _ => CRet acc tt
  end.

(** 1127-1253 *)
Definition run (ps : list profile) (o : options) : outcome :=
  let with_catalog (path : text) (k : profile → catalog V → list (N * origin V) → outcome) : outcome :=
    match get_catalog path with
    | CUB => (Undefined, [])
    | CExc _ => (Escapes, [])
    | CRet c idmap =>
        match get_profile ps (o_profile o) with
        | Some p => if empty_catalog c then (Return false, []) else k p c idmap
        | None => (Return false, [])
        end
    end in
  let with_loaded (p : profile) (c : catalog V) (k : option (catalog V) → outcome) : outcome :=
    match load_profile p c with None => (Undefined, []) | Some l => k l end in
  if given (o_dumpClusters o) then
    with_catalog (o_dumpClusters o) (λ p c _, with_loaded p c (dump_clusters p))
  else if o_preload o then
    match get_profile ps (o_profile o) with
    | None => (Return false, [])
    | Some p => with_loaded p empty_cat (λ l, match l with None => (Escapes, []) | Some bg => (Return true, [WPreload bg]) end)
    end
  else if given (o_dumpWf o) then
    with_catalog (o_dumpWf o) (λ p c _,
      with_loaded p c (λ l, match l with None => (Escapes, []) | Some bg => (Return true, [WWaveforms bg]) end))
  else if given (o_dumpCatalog o) then
    match import_file (o_dumpCatalog o) with
    | CRet c _ => (Return true, [WCatalog (tx "station.csv") (tx "event.csv") (tx "phase.csv") c])
    | CExc _ => (Escapes, [])
    | CUB => (Undefined, [])
    end
  else if given (o_merge o) then
    let l := tokens (o_merge o) in
    if negb (Nat.eqb (length l mod 3) 0) then (Return false, [])
    else match merge_loop (o_keepid o) empty_cat l with
         | CRet c _ => (Return true, [WCatalog (tx "merged-station.csv") (tx "merged-event.csv") (tx "merged-phase.csv") c])
         | CExc _ => (Escapes, [])
         | CUB => (Undefined, [])
         end
  else if given (o_reloc o) then
    with_catalog (o_reloc o) (λ p c idmap,
      with_loaded p c (λ l,
        match relocate_catalog p l (o_clusters o) (o_xcorr o) with
        | Solver_Model.Exc => (Return false, [])
        | Solver_Model.Bad => (Undefined, [])
        | Solver_Model.Ok r =>
            let w := [WCatalog (tx "reloc-station.csv") (tx "reloc-event.csv") (tx "reloc-phase.csv") r] in
            if o_xmlout o then
              match xml_of idmap r (evs r) with None => (Escapes, w) | Some x => (Return true, w ++ [WXml x]) end
            else (Return true, w)
        end))
  else (GoesOn, []).
End commands.
Arguments effect : clear implicits.
