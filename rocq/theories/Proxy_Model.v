(** Model of the waveform proxy, libs/hddsc/waveform.cpp: contiguousRecord (46-104), loadTrace
    (106-137), loadTraces (139-298, its connections are those of LoadTraces_Model.v),
    writeTrace (380-391) and readTrace (393-424).

    The parts of Seiscomp are arguments: the data that a record stream delivers, the buffers
    of records (TimeWindowBuffer and RingBuffer), the availability of data in a window and the
    merging of records (RecordSequence::availability and contiguousRecord). A record is a trace
    (Trace_Model.v): its stream, start, frequency and samples. The conversion of times between
    the two libraries (libs/hddsc/utils.h 37-60) is the identity: both count microseconds. The
    cast of the merged samples to DoubleArray (73-79) succeeds. The texts of the exceptions
    are names. *)
From Coq Require Import Ascii QArith.
From stdpp Require Import numbers list.
From Verif Require Import TimeWindow_Model Time_Model Trace_Model WaveCache_Model LoadTraces_Model.

Section proxy.
Context {A : Type}.
Notation record := (trace stream A).
(** RecordSequence::availability, in per cent *)
Variable availability : list record → tw → Q.
(** RecordSequence::contiguousRecord<double>(nullptr, false); None is a null pointer *)
Variable merge : list record → option record.
(** The contents of a TimeWindowBuffer that was fed these records in this order *)
Variable fill : tw → list record → list record.
(** The contents of a RingBuffer for so many records *)
Variable ring : nat → list record → list record.

Inductive failure := NoData | LowAvailability | NotMerged | NotSliced | NotOpened | CallbackThrew.
(** Undef: the undefined slice of Trace_Model.v *)
Inductive outcome := Loaded (t : record) | Failed (e : failure) | Undef.

(** 46-104 *)
Definition contiguous_record (seq : list record) (w : option tw) (minAvailability : Q) : outcome :=
  match seq with
  | [] => Failed NoData
  | _ =>
      if match w with
         | Some w => negb (Qle_bool minAvailability 0) && negb (Qle_bool minAvailability (availability seq w))
         | None => false
         end
      then Failed LowAvailability
      else match merge seq with
           | None => Failed NotMerged
           | Some t =>
               match w with
               | None => Loaded t
               | Some w => match slice t w with
                           | SlTrue t' => Loaded t'
                           | SlFalse _ => Failed NotSliced
                           | SlUB => Undef
                           end
               end
           end
  end.

(** waveform.h 59 *)
Definition minAvailability : Q := 95 # 100.
(** 115-116 and 167-168 *)
Definition extended (w : tw) : tw := w_extend w 0 (Z.quot (w_length w) 100).

(** What the n-th connection delivers for the streams added to it; the only connection of
    loadTrace is number 0. Its setTimeWindow and addStream without times (124-125) are one
    addStream with times. *)
Variable deliver : nat → list call → list record.
Variable opens : nat → bool.
(** 106-137 *)
Definition load_trace (w : tw) (s : stream) : outcome :=
  let sctw := extended w in
  if opens 0 then
    let seq := fill sctw (deliver 0 [Call (s_net s) (s_sta s) (s_loc s) (s_cha s) sctw]) in
    contiguous_record seq (Some w) minAvailability
  else Failed NotOpened.

Variable close : tw → tw → bool.
Variable groups : list request → list (list request).
(** The order in which the buffers are iterated (281) *)
Variable order : list request_t → list request_t.
(** onTraceLoaded returns; otherwise it throws *)
Variable accepts : text → tw → record → bool.
Inductive event := OnLoaded (id : text) (w : tw) (t : record) | OnFailed (id : text) (w : tw) (e : failure) | OnUndef.
(** 286-296 *)
Definition answer_one (records : list record) (x : request_t) : list event :=
  let '(id, w) := x in
  (* 266-275: every record goes to all the buffers of its stream *)
  let seq := fill (extended w) (filter (λ r, stream_id (t_id r) = id) records) in
  match contiguous_record seq (Some w) minAvailability with
  | Loaded t => if accepts id w t then [OnLoaded id w t] else [OnLoaded id w t; OnFailed id w CallbackThrew]
  | Failed e => [OnFailed id w e]
  | Undef => [OnUndef]
  end.
(** 139-298; None is the exception of vector::at (170), before anything is requested *)
Definition load_traces (l : list request_t) : option (list event) :=
  rs ← make_requests l;
  cs ← connections close groups opens (length l) 0 rs;
  let records := concat (imap deliver cs) in
  Some (concat (answer_one records <$> order l)).

(** 380-391: one record *)
Definition write_trace (t : record) : list record := [t].
(** 393-424: None is a record that cannot be read *)
Definition read_trace (file : list (option record)) : option outcome :=
  records ← mapM id file;
  Some (contiguous_record (ring (length records) records) None 0).
End proxy.
Arguments outcome : clear implicits.
Arguments event : clear implicits.
