(** Model of the preloading of the waveforms of the catalog, libs/hdd/dd.cpp:
    initWaveformAccess (169-192), replaceWaveformLoader (194-204) and
    loadCatalogWaveformDiskCache (223-312).

    With the disk cache a waveform is loaded through BasicProcessor, ExtraLenLoader,
    DiskCachedLoader and the loader the disk cache asks, which is [Basic] (BasicLoader) or
    the batch loader of an event. The waveforms obtained while preloading are thrown away;
    what matters is what the disk cache is asked for and what it writes. That the requests
    do not depend on the answers is visible in WaveProc_Model.get: all channels are loaded
    before any of them is looked at.

    - An exception and undefined behaviour end the whole command: nothing is said about the
      files written before. After an exception the loader is not restored.
    - Counters and log output are left out. *)
From Coq Require Import Ascii ZArith QArith Reals.
From stdpp Require Import numbers list gmap strings.
From Verif Require Import TimeWindow_Model Time_Model Trace_Model WaveCache_Model Rotate_Model XcorrWindow_Model WaveProc_Model
  Catalog_Model Solver_Model XcorrBuild_Model.

Section preload.
Context {V B : Type}.
Variable opt : xcorr_opt.
Variable bg : catalog V.
Variable extraTraceLen : Q.
Variable diskTraceMinLen : Q.
Variable info : stream → Z → option comps_info.

(** ** What the disk cache is asked for *)
Definition of_time {A} (r : Time_Model.res A) : res A := match r with ROk a => Ok a | RThrow => Exc | RBad => Bad end.
Fixpoint rmap {A C} (f : A → res C) (l : list A) : res (list C) :=
  match l with [] => Ok [] | x :: r => rbind (f x) (λ y, rbind (rmap f r) (λ l, Ok (y :: l))) end.
Definition stream_of (p : phase V) : stream := Stream (p_net p) (p_sta p) (p_loc p) (p_cha p).
(** waveform.cpp 348-397: the channels in the order in which they are loaded *)
Definition channel_list (s : stream) (pick : Z) (t : transform) : list text :=
  match t with
  | TNone => [s_cha s]
  | TTransversal | TRadial => match info s pick with None => [] | Some ci => [ci_v ci; ci_h1 ci; ci_h2 ci] end
  | TL2 => match info s pick with None => [] | Some ci => [ci_h1 ci; ci_h2 ci] end
  end.
(** waveform.cpp 405-409 and 232-240; waveform.h 220-222 *)
Definition loader_request (w : tw) (s : stream) (pick : Z) (cha : text) : res lreq :=
  let W := w_extend w (secToDur extraTraceLen) (secToDur extraTraceLen) in
  rbind (of_time (window_to_load (diskTraceMinLen / 2) (diskTraceMinLen / 2) W pick)) (λ W, Ok (LReq W (set_cha s cha))).
(** getWaveform, 1688-1725 *)
Definition component_requests (w : tw) (p : phase V) (component : text) : res (list lreq) :=
  rbind (at_ (c_sta bg !! p_staid p)) (λ _,
  match request p component with
  | None => Ok []
  | Some (p', t) => rmap (loader_request w (stream_of p') (p_time p')) (channel_list (stream_of p') (p_time p') t)
  end).
(** 255-266, 274-287 *)
Definition phase_requests (e : event V) (p : phase V) : res (list lreq) :=
  rbind (proc p) (λ i,
  match pr_type i with
  | TNO => Ok []
  | _ =>
      rbind (long_window opt e p) (λ w,
      rbind (components opt p) (λ l,
      rbind (rmap (component_requests w p) l) (λ ll, Ok (concat ll))))
  end).
Definition event_requests (e : event V) : res (list lreq) :=
  rbind (rmap (phase_requests e) (phs bg (e_id e))) (λ ll, Ok (concat ll)).

(** ** The disk cache with a batch loader behind it *)
Notation fs := (@gmap text _ (@list_countable Ascii.ascii _ stdpp.strings.ascii_countable) (list B)).
Notation wbatch := (@batch stream R).
Variable load_traces : list request_t → list (text * tw * option wtrace).
Variable iteration : list (text * wtrace) → list (text * wtrace).
Variable decode : list B → option wtrace.
(** writeTrace: the contents of the file afterwards; None is an exception, which is caught
    and leaves the file as it was *)
Variable write : text → wtrace → option (list B).
Definition readable (d : fs) (r : lreq) : option wtrace := bytes ← d !! cache_file r; decode bytes.
(** waveform.cpp 250-273, 285-325 and 122-155 *)
Definition cached_get (st : fs * wbatch) (r : lreq) : res (fs * wbatch) :=
  let '(d, b) := st in
  match readable d r with
  | Some _ => Ok (d, b)
  | None =>
      match batch_get iteration b (l_window r) (l_stream r) with
      | (Null, b) => Ok (d, b)
      | (Undef, _) => Bad
      | (Got t, b) => Ok (match write (cache_file r) t with Some bytes => <[cache_file r := bytes]> d | None => d end, b)
      end
  end.

(** The loader the disk cache asks *)
Inductive source := Basic | BatchOf (k : N).
(** The files, the requests of every call of Proxy::loadTraces, and the loader *)
Definition state := (fs * list (list request_t) * source)%type.
(** 241-300 *)
Definition preload_event (st : state) (e : event V) : res state :=
  let '(d, calls, _) := st in
  rbind (event_requests e) (λ rs,
  rbind (rloop cached_get rs (d, batch_init)) (λ '(d, b),
  let calls := match b_requests b with [] => calls | l => calls ++ [l] end in
  let b := batch_load load_traces b in
  rbind (rloop cached_get rs (d, b)) (λ '(d, _), Ok (d, calls, BatchOf (e_id e))))).
(** 223-312; [useCache] is that of enableCatalogWaveformDiskCache *)
Definition preload_catalog (useCache : bool) (d : fs) : res state :=
  if useCache then
    rbind (rloop preload_event (sorted_events (c_ev bg)) (d, [], Basic)) (λ '(d, calls, _), Ok (d, calls, Basic))
  else Ok (d, [], Basic).

(** ** The waveforms afterwards *)
(** 169-192 with the disk cache; [basic] is BasicLoader *)
Definition chain (encode : wtrace → list B) (basic : lreq → option wtrace) (d : fs) : loader := λ w s pick,
  match extra_get (diskTraceMinLen / 2) (diskTraceMinLen / 2) (λ W s _, (disk_get basic encode decode d (LReq W s) None).1) w s pick with
  | ROk o => o
  | _ => None
  end.
End preload.
