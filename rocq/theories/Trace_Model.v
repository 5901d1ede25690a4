(** Model of libs/hdd/trace.h, GenericTrace, with UTCTime time points.

    Times and durations are integers (microseconds, as in TimeWindow_Model.v); frequencies
    are rationals (every finite double is one) and the arithmetic on them is exact. The four
    codes of the stream are kept as one value of any type. *)
From Coq Require Import ZArith QArith Qround.
From stdpp Require Import numbers list.
From Verif Require Import TimeWindow_Model.
Local Open Scope Q_scope.

(** std::round: to the nearest integer, halves away from zero *)
Definition qround (x : Q) : Z := if Qle_bool 0 x then Qfloor (x + (1 # 2)) else Qceiling (x - (1 # 2)).
(** A conversion of a double to an integer type: truncation *)
Definition qtrunc (x : Q) : Z := if Qle_bool 0 x then Qfloor x else Qceiling x.
(** utctime.h 71-81 *)
Definition secToDur (sec : Q) : Z := qround (sec * inject_Z 1000000).
Definition durToSec (d : Z) : Q := inject_Z d / inject_Z 1000000.

Section trace.
Context {N A : Type}.
Record trace := MkTrace { t_id : N; t_start : Z; t_freq : Q; t_data : list A }.
Definition sample_count (t : trace) : Z := Z.of_nat (length (t_data t)).
(** 106-111 *)
Definition end_time (t : trace) : Z :=
  if decide (length (t_data t) = 0%nat) then t_start t
  else (t_start t + secToDur (inject_Z (sample_count t - 1) / t_freq t))%Z.
(** 116 *)
Definition time_window (t : trace) : tw := mk_tw 0 (t_start t) (end_time t).
(** 144-147 *)
Definition index (t : trace) (time : Z) : Q := durToSec (time - t_start t) * t_freq t.

(** The vector constructor from two iterators; undefined if they are not in order within
    the data *)
Definition sub_vector (data : list A) (from to : Z) : option (list A) :=
  if decide (0 ≤ from ≤ to ∧ to ≤ Z.of_nat (length data))%Z
  then Some (take (Z.to_nat (to - from)) (drop (Z.to_nat from) data)) else None.

Inductive slice_result := SlUB | SlFalse (t : trace) | SlTrue (t : trace).
Definition tw_eqb (a b : tw) : bool := Z.eqb (w_start a) (w_start b) && Z.eqb (w_end a) (w_end b).
(** 149-168 *)
Definition slice (t : trace) (w : tw) : slice_result :=
  if tw_eqb (time_window t) w then SlTrue t
  else if negb (w_contains (time_window t) w) then SlFalse t
  else
    let startOfs := Qfloor (index t (w_start w)) in
    let endOfs := Qceiling (index t (w_end w)) in
    if (startOfs <? 0)%Z then SlFalse t
    else if (sample_count t <=? endOfs)%Z then SlFalse t
    else match sub_vector (t_data t) startOfs (endOfs + 1) with
         | None => SlUB
         | Some d => SlTrue (MkTrace (t_id t) (t_start t + secToDur (inject_Z startOfs / t_freq t)) (t_freq t) d)
         end.
End trace.
Arguments trace : clear implicits.
