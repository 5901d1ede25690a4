(** Model of the loading and processing of waveforms: ExtraLenLoader::get and
    BasicProcessor::get, loadAndProcess and filter, libs/hdd/waveform.cpp 232-248, 340-459.

    - Samples are real numbers, times integers (microseconds), frequencies rationals.
    - The loader behind, the inventory (Proxy::getComponentsInfo) and the filters
      (Proxy::filter, which keeps the number of samples) are arguments.
    - ROk None is a null pointer; RThrow an exception of UTCClock; RBad an undefined slice or
      conversion. Log output is left out. *)
From Coq Require Import ZArith QArith Reals Qreals.
From stdpp Require Import numbers list.
From Verif Require Import TimeWindow_Model Time_Model Trace_Model WaveCache_Model Resample_Model Rotate_Model XcorrWindow_Model.
From Verif Require Geo_Model.
Local Open Scope R_scope.

Notation wtrace := (trace stream R).
(** Loader::get: the window, the codes and the pick time of the phase *)
Notation loader := (tw → stream → Z → option wtrace).

Definition of_slice (r : slice_result (N := stream) (A := R)) : res (option wtrace) :=
  match r with SlTrue t => ROk (Some t) | SlFalse _ => ROk None | SlUB => RBad end.

(** 232-248 *)
Definition extra_get (beforePickLen afterPickLen : Q) (aux : loader) (w : tw) (s : stream) (pickTime : Z) : res (option wtrace) :=
  match window_to_load beforePickLen afterPickLen w pickTime with
  | ROk W =>
      match aux W s pickTime with
      | None => ROk None
      | Some t => if negb (tw_eqb W w) then of_slice (slice t w) else ROk (Some t)
      end
  | RThrow => RThrow
  | RBad => RBad
  end.

Section proc.
Variable load : loader.
Variable extraTraceLen : Q.
(** The names and orientations of the components of a stream at a time *)
Record comps_info := Info { ci_v : text; ci_h1 : text; ci_h2 : text; ci_or : components }.
Variable info : stream → Z → option comps_info.
(** The samples after a filter; None is an exception *)
Variable flt : text → wtrace → option (list R).

Definition set_cha (s : stream) (c : text) : stream := Stream (s_net s) (s_sta s) (s_loc s) c.
Definition set_data (t : wtrace) (f : Q) (d : list R) : wtrace := MkTrace (t_id t) (t_start t) f d.

(** 441-446; of no samples nothing is changed *)
Definition demean (d : list R) : list R :=
  let mean := foldr Rplus 0 d / INR (length d) in (λ x, x - mean) <$> d.
(** 448-451 and resample, 763-826 *)
Definition resample_trace (g : Q) (t : wtrace) : wtrace :=
  if Qle_bool g 0 then t
  else if Qeq_bool (t_freq t) g then t
  else set_data t g (resample (t_data t) (Q2R (t_freq t)) (Q2R g)).1.
(** 433-457 *)
Definition filter_trace (fs : text) (g : Q) (t : wtrace) : option wtrace :=
  let t := set_data t (t_freq t) (demean (t_data t)) in
  let t := resample_trace g t in
  match fs with
  | [] => Some t
  | _ => match flt fs t with Some d => Some (set_data t (t_freq t) d) | None => None end
  end.
(** 399-431 *)
Definition load_and_process (w : tw) (s : stream) (pickTime : Z) (cha : text) (fs : text) (g : Q) : res (option wtrace) :=
  let W := w_extend w (secToDur extraTraceLen) (secToDur extraTraceLen) in
  match load W (set_cha s cha) pickTime with
  | None => ROk None
  | Some t =>
      match filter_trace fs g t with
      | None => ROk None
      | Some t => of_slice (slice t w)
      end
  end.

Definition of_outcome (o : outcome wtrace) : res (option wtrace) :=
  match o with OUndefined => RBad | ONull => ROk None | OTrace t => ROk (Some t) end.
Definition bind {A B} (r : res A) (f : A → res B) : res B :=
  match r with ROk a => f a | RThrow => RThrow | RBad => RBad end.
(** 340-397; evLat, evLon, staLat and staLon are the coordinates of the event and the station *)
Definition get (w : tw) (s : stream) (pickTime : Z) (evLat evLon staLat staLon : R) (fs : text) (g : Q) (trans : transform) : res (option wtrace) :=
  match trans with
  | TNone => load_and_process w s pickTime (s_cha s) fs g
  | TTransversal | TRadial =>
      match info s pickTime with
      | None => ROk None
      | Some ci =>
          bind (load_and_process w s pickTime (ci_v ci) fs g) (λ v,
          bind (load_and_process w s pickTime (ci_h1 ci) fs g) (λ h1,
          bind (load_and_process w s pickTime (ci_h2 ci) fs g) (λ h2,
          match h1, h2, v with
          | Some h1, Some h2, Some v =>
              of_outcome (transform_rt (set_cha s (id_channel (s_cha s) trans)) (ci_or ci) evLat evLon staLat staLon
                            (match trans with TTransversal => Transversal | _ => Radial end) v h1 h2)
          | _, _, _ => ROk None
          end)))
      end
  | TL2 =>
      match info s pickTime with
      | None => ROk None
      | Some ci =>
          bind (load_and_process w s pickTime (ci_h1 ci) fs g) (λ h1,
          bind (load_and_process w s pickTime (ci_h2 ci) fs g) (λ h2,
          match h1, h2 with
          | Some h1, Some h2 => of_outcome (transform_l2 (set_cha s (id_channel (s_cha s) trans)) h1 h2)
          | _, _ => ROk None
          end))
      end
  end.
End proc.
