(** Model of transformL2 and transformRT, libs/hdd/waveform.cpp 518-746, over the real
    numbers; times are integers (microseconds) and frequencies rationals (Trace_Model.v).

    The number of samples is converted from double to size_t: undefined for a negative
    number. *)
From Coq Require Import ZArith QArith Qround Reals.
From stdpp Require Import numbers list.
From Verif Require Import Geo_Model TimeWindow_Model Trace_Model.
Local Open Scope R_scope.

Inductive outcome (T : Type) := OUndefined | ONull | OTrace (t : T).
Arguments OUndefined {T}. Arguments ONull {T}. Arguments OTrace {T}.

Section rot.
Context {N : Type}.
Notation tr := (trace N R).

(** 538-539, 681-682: the conversion to size_t *)
Definition common_count (startTime endTime : Z) (f : Q) : option nat :=
  let c := (Qfloor (durToSec (endTime - startTime) * f) + 1)%Z in
  if decide (c < 0)%Z then None else Some (Z.to_nat c).
(** 547-559, 690-709: the first sample of a component; None is the logged error *)
Definition first_sample (t : tr) (startTime : Z) (count : nat) : option nat :=
  let s := qround (index t startTime) in
  if decide (s < 0)%Z then None
  else if decide (sample_count t < s + Z.of_nat count)%Z then None else Some (Z.to_nat s).

(** 518-577 *)
Definition transform_l2 (newId : N) (trH1 trH2 : tr) : outcome tr :=
  if negb (Qeq_bool (t_freq trH1) (t_freq trH2)) then ONull
  else
    let startTime := Z.max (t_start trH1) (t_start trH2) in
    let endTime := Z.min (end_time trH1) (end_time trH2) in
    match common_count startTime endTime (t_freq trH1) with
    | None => OUndefined
    | Some count =>
        if decide (count = 0%nat) then ONull
        else match first_sample trH1 startTime count, first_sample trH2 startTime count with
             | Some h1, Some h2 =>
                 OTrace (MkTrace newId startTime (t_freq trH1)
                   ((λ i, R_sqrt.sqrt (square (nth (h1 + i) (t_data trH1) 0) + square (nth (h2 + i) (t_data trH2) 0))) <$> seq 0 count))
             | _, _ => ONull
             end
    end.

Record vec := Vec { vx : R; vy : R; vz : R }.
(** 603-618 *)
Definition from_angles (radAzimuth radDip : R) : vec :=
  Vec (cos radDip * sin radAzimuth) (cos radDip * cos radAzimuth) (sin radDip).
Definition normalize (v : vec) : vec :=
  let length := R_sqrt.sqrt (vx v * vx v + vy v * vy v + vz v * vz v) in
  let scale := 1 / length in
  Vec (vx v * scale) (vy v * scale) (vz v * scale).
(** 29-40 of waveform.h: the three components in the order Vertical, FirstHorizontal, SecondHorizontal *)
Record component := Comp { c_azimuth : R; c_dip : R }.
Record components := Comps { vertical : component; first_horizontal : component; second_horizontal : component }.
(** 624-637 *)
Definition column (c : component) : vec := normalize (from_angles (degToRad (c_azimuth c)) (- degToRad (c_dip c))).
Definition matrix := list (list R).
Definition entry (m : matrix) (r c : nat) : R := nth c (nth r m []) 0.
(** 639-642 *)
Definition orientation_zne (tc : components) : matrix :=
  let h2 := column (second_horizontal tc) in let h1 := column (first_horizontal tc) in let v := column (vertical tc) in
  [[vx h2; vx h1; vx v]; [vy h2; vy h1; vy v]; [vz h2; vz h1; vz v]].
(** 651-661 *)
Definition orientation_zrt (b : R) : matrix :=
  [[cos b; - sin b; 0]; [sin b; cos b; 0]; [0; 0; 1]].
(** 666-671 *)
Definition matrix_mult (m1 m2 : matrix) : matrix :=
  (λ r, (λ c, entry m1 r 0 * entry m2 0 c + entry m1 r 1 * entry m2 1 c + entry m1 r 2 * entry m2 2 c) <$> [0; 1; 2]%nat) <$> [0; 1; 2]%nat.
Inductive rt := Transversal | Radial | VerticalOut.
(** 720-734: one sample *)
Definition rt_sample (m : matrix) (what : rt) (h2 h1 v : R) : R :=
  let r := match what with Transversal => 0%nat | Radial => 1%nat | VerticalOut => 2%nat end in
  entry m r 0 * h2 + entry m r 1 * h1 + entry m r 2 * v.
(** The direction away from the event at the station, 647-650 *)
Definition away (evLat evLon staLat staLon : R) : R := azimuth staLat staLon evLat evLon + degToRad 180.
Definition transformation (tc : components) (evLat evLon staLat staLon : R) : matrix :=
  matrix_mult (orientation_zrt (away evLat evLon staLat staLon)) (orientation_zne tc).
(** 579-746; the last lines build the trace with the start time of trH1 *)
Definition transform_rt (newId : N) (tc : components) (evLat evLon staLat staLon : R) (what : rt) (trV trH1 trH2 : tr) : outcome tr :=
  if negb (Qeq_bool (t_freq trH1) (t_freq trH2)) || negb (Qeq_bool (t_freq trH1) (t_freq trV)) then ONull
  else
    let startTime := Z.max (Z.max (t_start trH1) (t_start trH2)) (t_start trV) in
    let endTime := Z.min (Z.min (end_time trH1) (end_time trH2)) (end_time trV) in
    match common_count startTime endTime (t_freq trH1) with
    | None => OUndefined
    | Some count =>
        if decide (count = 0%nat) then ONull
        else match first_sample trH1 startTime count, first_sample trH2 startTime count, first_sample trV startTime count with
             | Some h1, Some h2, Some v =>
                 OTrace (MkTrace newId (t_start trH1) (t_freq trH1)
                   ((λ i, rt_sample (transformation tc evLat evLon staLat staLon) what
                        (nth (h2 + i) (t_data trH2) 0) (nth (h1 + i) (t_data trH1) 0) (nth (v + i) (t_data trV) 0)) <$> seq 0 count))
             | _, _, _ => ONull
             end
    end.
End rot.
