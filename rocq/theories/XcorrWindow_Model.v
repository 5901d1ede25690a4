(** Model of DD::xcorrTimeWindowShort and DD::xcorrTimeWindowLong, libs/hdd/dd.cpp 1442-1470,
    and of ExtraLenLoader::traceTimeWindowToLoad, libs/hdd/waveform.cpp 202-230.

    Times are integers (microseconds), the options rationals with exact arithmetic. None is
    the conversion of a NaN or an infinity to an integer (undefined). *)
From Coq Require Import ZArith QArith Qround.
From stdpp Require Import numbers.
From Verif Require Import TimeWindow_Model Trace_Model Time_Model.
Local Open Scope Q_scope.

Record xcorr_cfg := XcorrCfg { startOffset : Q; endOffset : Q; maxDelay : Q; winScaling : Q }.

(** 1453-1470 *)
Definition window_short (cfg : xcorr_cfg) (event_time phase_time : Z) : option tw :=
  let win_len := secToDur (endOffset cfg - startOffset cfg) in
  let travel_time := (phase_time - event_time)%Z in
  let win_extention := inject_Z travel_time * winScaling cfg in
  if decide (win_len = 0%Z) then None
  else
    let win_scaler := (inject_Z win_len + win_extention) / inject_Z win_len in
    let win_start := inject_Z (secToDur (startOffset cfg)) * win_scaler in
    let final_start := (phase_time + qtrunc win_start)%Z in
    let final_win_len := qtrunc (inject_Z win_len + win_extention) in
    Some (mk_tw_len 0 final_start final_win_len).
(** 1442-1451 *)
Definition window_long (cfg : xcorr_cfg) (event_time phase_time : Z) : option tw :=
  w ← window_short cfg event_time phase_time;
  let w := set_start w (w_start w - secToDur (maxDelay cfg)) in
  Some (set_end w (w_end w + secToDur (maxDelay cfg))).

(** waveform.cpp 202-230; RThrow and RBad come from UTCClock::fromDate *)
Definition window_to_load (beforePickLen afterPickLen : Q) (needed : tw) (pickTime : Z) : res tw :=
  let extra := mk_tw 0 (pickTime - secToDur beforePickLen) (pickTime + secToDur afterPickLen) in
  let w := w_merge extra needed in
  let d := to_date (w_start w) in
  match (if (0 <? f_usec d)%Z
         then match from_date (Fields (f_year d) (f_mon d) (f_day d) (f_hour d) (f_min d) (f_sec d) 0) with
              | ROk t => ROk (set_start w t) | RThrow => RThrow | RBad => RBad end
         else ROk w) with
  | ROk w =>
      let d := to_date (w_end w) in
      if (0 <? f_usec d)%Z
      then match from_date (Fields (f_year d) (f_mon d) (f_day d) (f_hour d) (f_min d) (f_sec d + 1) 0) with
           | ROk t => ROk (set_end w t) | RThrow => RThrow | RBad => RBad end
      else ROk w
  | r => r
  end.
