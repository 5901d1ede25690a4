(** Model of the script that renews the background catalog, scripts/generate-reference-catalog.sh
    33-169.

    - What the commands answer (exit status, files they leave) is a [world].
    - A directory is a map from names to texts. The working directory, the archive, the directory
      of the catalog of the real-time program and the list of what is done are the state; sub
      directories are names with a slash.
    - The cd into the directory that was just found to exist succeeds. The web page and the
      database are only seen through the list of what is done.
    - cp copies the files in the order of its arguments and goes on after a failure. With -b it
      first renames an existing file. A copy is whole or fails.
    - What rm leaves if it fails is part of the world. Messages other than the last of the import
      are left out. *)
From Coq Require Import Ascii.
From stdpp Require Import gmap list strings.
From Verif Require Import Csv_Model Table_Model.
Local Open Scope nat_scope.

Notation dir := (gmap text text).
(** Copied; failed before or after the existing file was renamed *)
Inductive copied := Whole | Untouched | Renamed.
Record conf := Conf { c_catalog : bool; c_web : bool; c_db : bool }.
Record world := World {
  w_mkdir : bool;                 (* the directory exists after mkdir *)
  w_list : text * bool;           (* output of sclistorg and success *)
  w_reloc : dir * bool;           (* files written by scrtdd, and success *)
  w_cp : text → copied;
  w_import : bool;
  w_tar : bool;
  w_rm : option dir               (* what is left if rm fails *) }.
Inductive step := SList | SReloc | SCopy | SReload | SWeb | SImport | SImportDone | SArchive | SRemove.
Record state := State { s_work : option dir; s_archive : option dir; s_bg : dir; s_done : list step }.

Definition did (x : step) (s : state) : state := State (s_work s) (s_archive s) (s_bg s) (s_done s ++ [x]).
Definition set_work (d : option dir) (s : state) : state := State d (s_archive s) (s_bg s) (s_done s).
(** [-f name] in the working directory *)
Definition there (name : text) (s : state) : bool :=
  match s_work s with Some d => bool_decide (is_Some (d !! name)) | None => false end.
(** wc --lines *)
Definition count_lines (t : text) : nat := length (filter (λ c, c = nl) t).
Definition lines_in (name : text) (s : state) : nat :=
  match s_work s with Some d => match d !! name with Some t => count_lines t | None => 0 end | None => 0 end.

Definition ids_file := tx "catalog-ids.csv".
Definition xml_file := tx "relocated.xml".
Definition ev_file := tx "reloc-event.csv".
Definition ph_file := tx "reloc-phase.csv".
Definition st_file := tx "reloc-station.csv".
Definition old (name : text) : text := name ++ tx ".old".

(** cp -b -S .old -f for one file *)
Definition copy_one (r : copied) (name : text) (src dst : dir) : dir * bool :=
  let renamed := match dst !! name with Some t => delete name (<[old name := t]> dst) | None => dst end in
  match src !! name with
  | None => (dst, false)
  | Some t => match r with
              | Whole => (<[name := t]> renamed, true)
              | Untouched => (dst, false)
              | Renamed => (renamed, false)
              end
  end.
Fixpoint copy_all (r : text → copied) (names : list text) (src dst : dir) : dir * bool :=
  match names with
  | [] => (dst, true)
  | n :: ns => let '(d, ok) := copy_one (r n) n src dst in
               let '(d', ok') := copy_all r ns src d in (d', ok && ok')
  end.

(** A part of the script: the state and whether the script goes on *)
Definition part := state → state * bool.
Definition next (a b : part) : part := λ s, let '(s', on) := a s in if on then b s' else (s', false).
Definition stop_if (f : state → bool) : part := λ s, (s, negb (f s)).
Definition when (b : bool) (a : part) : part := λ s, if b then a s else (s, true).

Section script.
Variable c : conf.
Variable w : world.
(** 40-52 *)
Definition make_dir : part :=
  next (stop_if (λ s, bool_decide (is_Some (s_work s))))
       (λ s, if w_mkdir w then (set_work (Some ∅) s, true) else (s, false)).
(** 54-75: the redirection creates the file *)
Definition download : part :=
  next (λ s, (did SList (set_work (d ← s_work s; Some (<[ids_file := fst (w_list w)]> d)) s), true))
       (stop_if (λ s, negb (snd (w_list w)) || negb (there ids_file s))).
(** 77-101 *)
Definition relocate : part :=
  next (λ s, (did SReloc (set_work (d ← s_work s; Some (fst (w_reloc w) ∪ d)) s), true))
  (next (stop_if (λ s, negb (snd (w_reloc w)) || negb (there ev_file s) || negb (there ph_file s) || negb (there st_file s)))
        (stop_if (λ s, lines_in ev_file s <? 2))).
(** 103-120 *)
Definition update_catalog : part :=
  next (λ s, let '(bg, ok) := copy_all (w_cp w) [st_file; ph_file; ev_file] (default ∅ (s_work s)) (s_bg s) in
             (did SCopy (State (s_work s) (s_archive s) bg (s_done s)), ok))
       (λ s, (did SReload s, true)).
(** 122-131 *)
Definition update_web : part := λ s, (did SWeb s, true).
(** 133-160: the error is only reported *)
Definition import : part :=
  next (stop_if (λ s, negb (there xml_file s))) (λ s, (did SImportDone (did SImport s), true)).
(** 162-169 *)
Definition back_up : part :=
  λ s, let s1 := did SArchive (State (s_work s) (if w_tar w then s_work s else s_archive s) (s_bg s) (s_done s)) in
       (did SRemove (set_work (w_rm w) s1), bool_decide (w_rm w = None)).
(** The exit status is 0 if the last part says so *)
Definition script : part :=
  next make_dir (next download (next relocate (next (when (c_catalog c) update_catalog)
  (next (when (c_web c) update_web) (next (when (c_db c) import) back_up))))).
End script.
