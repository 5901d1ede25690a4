(** Model in double precision of the conversions of times, libs/hdd/utctime.h 71-82, and of
    the times and the cutting of traces, libs/hdd/trace.h 106-116 and 144-168. Trace_Model.v
    has the same code with exact arithmetic.

    A double is a binary64 number of Flocq, with infinities, both zeros and one NaN;
    operations round to nearest, ties to even. Times and durations are integers
    (microseconds); the overflow of their sums is not modelled. The codes of the stream
    are left out. *)
From Coq Require Import ZArith List Bool.
From Flocq Require Import Core BinarySingleNaN.
From Verif Require Import TimeWindow_Model.
Import ListNotations.
Local Open Scope Z_scope.

Notation double := (binary_float 53 1024).
Definition prec53 : Prec_gt_0 53 := eq_refl.
Definition emax1024 : Prec_lt_emax 53 1024 := eq_refl.
(** The conversion of an integer to a double *)
Definition of_Z (z : Z) : double := binary_normalize 53 1024 prec53 emax1024 mode_NE z 0 false.
Definition dmul (x y : double) : double := Bmult (prec_gt_0_ := prec53) (prec_lt_emax_ := emax1024) mode_NE x y.
Definition ddiv (x y : double) : double := Bdiv (prec_gt_0_ := prec53) (prec_lt_emax_ := emax1024) mode_NE x y.
(** std::floor, std::ceil and std::round *)
Definition dfloor (x : double) : double := Bnearbyint (prec_lt_emax_ := emax1024) mode_DN x.
Definition dceil (x : double) : double := Bnearbyint (prec_lt_emax_ := emax1024) mode_UP x.
Definition dround (x : double) : double := Bnearbyint (prec_lt_emax_ := emax1024) mode_NA x.
(** The conversion to a 64 bit integer, undefined (None) for values that do not fit *)
Definition to_int64 (x : double) : option Z :=
  if is_finite x && (- 2 ^ 63 <=? Btrunc x) && (Btrunc x <? 2 ^ 63) then Some (Btrunc x) else None.

(** utctime.h 71-76 *)
Definition secToDur (sec : double) : option Z := to_int64 (dround (dmul sec (of_Z 1000000))).
(** utctime.h 78-81: the conversion to a duration of doubles divides by the ratio *)
Definition durToSec (d : Z) : double := ddiv (of_Z d) (of_Z 1000000).

Section trace.
Context {A : Type}.
Record ftrace := FTrace { f_start : Z; f_freq : double; f_data : list A }.
Definition count (t : ftrace) : Z := Z.of_nat (length (f_data t)).
(** trace.h 106-111 *)
Definition end_time (t : ftrace) : option Z :=
  match f_data t with
  | [] => Some (f_start t)
  | _ => match secToDur (ddiv (of_Z (count t - 1)) (f_freq t)) with Some d => Some (f_start t + d) | None => None end
  end.
(** 144-147 *)
Definition index (t : ftrace) (time : Z) : double := dmul (durToSec (time - f_start t)) (f_freq t).
(** The vector constructor from two iterators *)
Definition sub_vector (data : list A) (from to : Z) : option (list A) :=
  if (0 <=? from) && (from <=? to) && (to <=? Z.of_nat (length data))
  then Some (firstn (Z.to_nat (to - from)) (skipn (Z.to_nat from) data)) else None.
Inductive fslice := FUndef | FFalse | FTrue (t : ftrace).
(** 149-168 *)
Definition slice (t : ftrace) (w : tw) : fslice :=
  match end_time t with
  | None => FUndef
  | Some e =>
      let _tw := mk_tw 0 (f_start t) e in
      if Z.eqb (w_start _tw) (w_start w) && Z.eqb (w_end _tw) (w_end w) then FTrue t
      else if negb (w_contains _tw w) then FFalse
      else
        let startOfs := dfloor (index t (w_start w)) in
        let endOfs := dceil (index t (w_end w)) in
        if Bltb startOfs (of_Z 0) then FFalse
        else if Bleb (of_Z (count t)) endOfs then FFalse
        else match to_int64 startOfs, to_int64 endOfs with
             | Some a, Some b =>
                 match sub_vector (f_data t) a (b + 1), secToDur (ddiv startOfs (f_freq t)) with
                 | Some d, Some shift => FTrue (FTrace (f_start t + shift) (f_freq t) d)
                 | _, _ => FUndef
                 end
             | _, _ => FUndef
             end
  end.
End trace.
Arguments ftrace : clear implicits.
