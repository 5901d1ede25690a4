(** Model of the waveform caches of libs/hdd/waveform.cpp: waveformId (43-88), BatchLoader
    (122-200), DiskCachedLoader (250-339) and MemCachedProc (461-516).

    Traces are immutable values (shared pointers to const). The program behind a cache (the
    loader, the processor, the record stream) is an argument. Log output and counters are
    left out. An unordered container is a list, in the order in which it is iterated; when
    that order is not the order of insertion it comes from an argument. *)
From Coq Require Import Ascii.
From stdpp Require Import numbers list gmap strings.
From Verif Require Import TimeWindow_Model Time_Model Trace_Model.

(** The codes of a stream: network, station, location and channel. *)
Record stream := Stream { s_net : text; s_sta : text; s_loc : text; s_cha : text }.
Definition dot : text := ["."%char].
(** waveform.cpp 43-55; the codes contain no zero byte *)
Definition waveform_id (w : tw) (s : stream) : text :=
  s_net s ++ dot ++ s_sta s ++ dot ++ s_loc s ++ dot ++ s_cha s ++ dot ++ to_string (w_start w) ++ dot ++ to_string (w_end w).
Inductive transform := TNone | TL2 | TTransversal | TRadial.
Global Instance transform_eq_dec : EqDecision transform.
Proof. solve_decision. Defined.
(** waveform.h 393-397 *)
Definition band_and_instrument (cha : text) : text := if decide (2 ≤ length cha) then take 2 cha else [].
(** waveform.cpp 63-88: the channel in the id *)
Definition id_channel (cha : text) (trans : transform) : text :=
  match trans with
  | TTransversal => band_and_instrument cha ++ ["T"%char]
  | TRadial => band_and_instrument cha ++ ["R"%char]
  | TL2 => band_and_instrument cha ++ ["L"%char]
  | TNone => cha
  end.
Definition waveform_id_trans (w : tw) (s : stream) (trans : transform) : text :=
  waveform_id w (Stream (s_net s) (s_sta s) (s_loc s) (id_channel (s_cha s) trans)).

(** ** MemCachedProc. [X] is what else a request contains: the time of the phase, the event,
    the station, the filter and the sampling frequency. *)
Section mem.
Context {T X S : Type}.
Record preq := PReq { p_window : tw; p_stream : stream; p_trans : transform; p_rest : X }.
Definition preq_id (r : preq) : text := waveform_id_trans (p_window r) (p_stream r) (p_trans r).
(** _auxPrc->get; it may change a state *)
Variable aux : S → preq → option T * S.
Record mem := Mem { m_traces : gmap text T; m_unloadables : gset text }.
(** 461-494 *)
Definition mem_get (s : S) (c : mem) (r : preq) : option T * S * mem :=
  let wfId := preq_id r in
  match m_traces c !! wfId with
  | Some t => (Some t, s, c)
  | None =>
      if decide (wfId ∈ m_unloadables c) then (None, s, c)
      else
        match aux s r with
        | (None, s') => (None, s', Mem (m_traces c) ({[wfId]} ∪ m_unloadables c))
        | (Some t, s') => (Some t, s', Mem (<[wfId := t]> (m_traces c)) (m_unloadables c))
        end
  end.
(** A sequence of requests and the answers *)
Fixpoint mem_run (s : S) (c : mem) (l : list preq) : list (option T) * S * mem :=
  match l with
  | [] => ([], s, c)
  | r :: l' => let '(a, s', c') := mem_get s c r in
               let '(as_, s'', c'') := mem_run s' c' l' in (a :: as_, s'', c'')
  end.
End mem.
Arguments preq : clear implicits.
Arguments mem : clear implicits.

(** ** DiskCachedLoader. A file is a sequence of [B] (bytes or records), written in order. *)
Section disk.
Context {T B : Type}.
Record lreq := LReq { l_window : tw; l_stream : stream }.
Variable aux : lreq → option T.           (* _auxLdr->get *)
Variable encode : T → list B.             (* the contents of the file written by writeTrace *)
Variable decode : list B → option T.      (* readTrace; None is an exception *)
(** 327-338; the directory is fixed *)
Definition cache_file (r : lreq) : text := waveform_id (l_window r) (l_stream r) ++ ["."; "m"; "s"; "e"; "e"; "d"]%char.
Notation fs := (gmap text (list B)).
(** 250-273, 285-325. [written] is the number of elements that reach the disk: all of them
    (None), or fewer if the process is killed or the disk full. Such an error is not noticed
    (the ofstream of writeTrace, libs/hddsc/waveform.cpp 380-391, is not checked). *)
Definition disk_get (d : fs) (r : lreq) (written : option nat) : option T * fs :=
  let cached := bytes ← d !! cache_file r; decode bytes in
  match cached with
  | Some t => (Some t, d)
  | None =>
      match aux r with
      | None => (None, d)
      | Some t =>
          let bytes := match written with None => encode t | Some n => take n (encode t) end in
          (Some t, <[cache_file r := bytes]> d)
      end
  end.
Fixpoint disk_run (d : fs) (l : list (lreq * option nat)) : list (option T) * fs :=
  match l with
  | [] => ([], d)
  | (r, w) :: l' => let '(a, d') := disk_get d r w in
                    let '(as_, d'') := disk_run d' l' in (a :: as_, d'')
  end.
End disk.

(** ** BatchLoader *)
Section batch.
Context {N A : Type}.
Notation tr := (trace N A).
(** net.sta.loc.cha *)
Definition stream_id (s : stream) : text := s_net s ++ dot ++ s_sta s ++ dot ++ s_loc s ++ dot ++ s_cha s.
Definition request_t : Type := text * tw.
Record batch := Batch { b_loaded : bool; b_requests : list request_t; b_traces : list (text * tr) }.
Definition batch_init : batch := Batch false [] [].
(** Proxy::loadTraces: the calls of onTraceLoaded (with a trace) and onTraceFailed (without) *)
Variable load_traces : list request_t → list (text * tw * option tr).
(** The order in which the traces are found by equal_range *)
Variable iteration : list (text * tr) → list (text * tr).
Definition has_request (l : list request_t) (id : text) (w : tw) : bool :=
  existsb (λ e : request_t, bool_decide (e.1 = id) && tw_eqb e.2 w) l.
(** 157-172; None is the exception *)
Definition batch_request (b : batch) (w : tw) (s : stream) : option batch :=
  if b_loaded b then None
  else if has_request (b_requests b) (stream_id s) w then Some b
  else Some (Batch false ((stream_id s, w) :: b_requests b) (b_traces b)).
(** 174-200 *)
Definition batch_load (b : batch) : batch :=
  if b_loaded b then b
  else match b_requests b with
       | [] => Batch true [] (b_traces b)
       | _ => Batch true [] (omap (λ c : text * tw * option tr, match c.2 with Some t => Some (c.1.1, t) | None => None end) (load_traces (b_requests b)))
       end.
(** 122-155 once loaded: None is nullptr, Undef an undefined slice *)
Inductive answer := Null | Undef | Got (t : tr).
Fixpoint search (l : list (text * tr)) (id : text) (w : tw) : answer :=
  match l with
  | [] => Null
  | (id', t) :: l' =>
      if decide (id' = id)
      then if w_contains (time_window t) w
           then if tw_eqb (time_window t) w then Got t
                else match slice t w with SlTrue t' => Got t' | SlFalse _ => Null | SlUB => Undef end
           else search l' id w
      else search l' id w
  end.
Definition batch_get (b : batch) (w : tw) (s : stream) : answer * batch :=
  if b_loaded b then (search (iteration (b_traces b)) (stream_id s) w, b)
  else match batch_request b w s with Some b' => (Null, b') | None => (Null, b) end.
(** What a program can do *)
Inductive bop := BGet (w : tw) (s : stream) | BRequest (w : tw) (s : stream) | BLoad.
Definition batch_step (b : batch) (o : bop) : batch :=
  match o with
  | BGet w s => (batch_get b w s).2
  | BRequest w s => match batch_request b w s with Some b' => b' | None => b end
  | BLoad => batch_load b
  end.
End batch.
