(** Model of DD::dumpWaveforms, libs/hdd/dd.cpp 314-377, on the catalog of Catalog_Model, with
    the windows, components and getWaveform of XcorrBuild_Model.

    - BasicProcessor is the argument [ld]; what Proxy::writeTrace leaves in a file is [write]
      ([None]: an exception, which is caught; the file is as before).
    - The test and creation of the directory are [exists_] and [created]. fs::path / is the
      concatenation with '/', unless the path ends with '/' or is empty (file names do not begin
      with '/').
    - The phases of an event are visited in the order of equal_range.
    - The files written before an exception or undefined behaviour stay; the result is the list of
      the calls of writeTrace and the way the function ends. Logging is left out. *)
From Coq Require Import Ascii.
From stdpp Require Import gmap list strings.
From Verif Require Import TimeWindow_Model Trace_Model XcorrWindow_Model WaveCache_Model Csv_Model Table_Model Catalog_Model Solver_Model
  XcorrBuild_Model.
From Coq Require Import Reals.

(** A computation that writes and may not end normally *)
Notation out W A := (list W * res A)%type.
Definition obind {W A B} (x : out W A) (f : A → out W B) : out W B :=
  match x.2 with Ok a => let y := f a in (x.1 ++ y.1, y.2) | Exc => (x.1, Exc) | Bad => (x.1, Bad) end.
Definition pure {W A} (x : res A) : out W A := ([], x).
Fixpoint each {W A} (f : A → out W ()) (l : list A) : out W () :=
  match l with [] => pure (Ok ()) | x :: l => obind (f x) (λ _, each f l) end.

Section dump.
Context {V I B : Type}.
Notation wave := (@trace I R).
Variable opt : xcorr_opt.
Variable bg : catalog V.
Variable ld : tw → phase V → event V → station V → transform → option wave.
Notation W := (text * wave)%type.

(** fs::path(path1) / path2, libs/hdd/utils.cpp 505-508 *)
Definition join_path (a b : text) : text :=
  match last a with
  | None => b
  | Some c => if decide (c = "/"%char) then a ++ b else a ++ tx "/" ++ b
  end.
(** 324-333 *)
Definition waveform_path (dir : text) (e : event V) (p : phase V) (cha : text) : text :=
  join_path dir (tx "ev" ++ put_u (e_id e) ++ tx "." ++ p_net p ++ tx "." ++ p_sta p ++ tx "." ++ p_loc p ++ tx "." ++ cha ++ tx "."
                 ++ p_type p ++ tx ".mseed").
(** 350-374 *)
Definition dump_component (dir : text) (w : tw) (e : event V) (p : phase V) (component : text) : out W () :=
  obind (pure (get_waveform bg ld w e p component)) (λ tr,
  match tr with
  | None => pure (Ok ())
  | Some tr => ([(waveform_path dir e p (band_and_instrument (p_cha p) ++ component), tr)], Ok ())
  end).
(** 339-375 *)
Definition dump_phase (dir : text) (e : event V) (p : phase V) : out W () :=
  obind (pure (proc p)) (λ i,
  match pr_type i with
  | TNO => pure (Ok ())
  | _ =>
      obind (pure (short_window opt e p)) (λ w,
      obind (pure (components opt p)) (λ l,
      each (dump_component dir w e p) l))
  end).
(** 335-376 *)
Definition dump_event (dir : text) (e : event V) : out W () := each (dump_phase dir e) (phs bg (e_id e)).
(** 314-377 *)
Definition dump_waveforms (exists_ created : bool) (dir : text) : out W () :=
  if match dir with [] => false | _ => negb exists_ && negb created end then ([], Exc)
  else each (dump_event dir) (sorted_events (c_ev bg)).

(** The files afterwards *)
Notation fs := (@gmap text _ (@list_countable Ascii.ascii _ stdpp.strings.ascii_countable) (list B)).
Variable write : text → wave → option (list B).
Definition write_file (d : fs) (x : W) : fs :=
  match write x.1 x.2 with Some bytes => <[x.1 := bytes]> d | None => d end.
Definition files (d : fs) (ws : list W) : fs := fold_left write_file ws d.
End dump.
