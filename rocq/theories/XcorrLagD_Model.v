(** Model of DD::xcorr, libs/hdd/dd.cpp 1650-1686, in double precision, on top of
    XCorrD_Model.v (crossCorrelation). XCorr_Model.v has the same code with real numbers.

    Simplifications: of a trace the samples and the sampling frequency are kept; the numbers
    of samples fit an int and sums of ints do not overflow. The conversion of a double to int
    that does not fit, and a read outside a trace, is None. *)
From Coq Require Import ZArith.
From Flocq Require Import Core BinarySingleNaN.
From stdpp Require Import numbers list.
From Verif Require Import Double_Model XCorr_Model XCorrD_Model.
Local Open Scope Z_scope.
Local Coercion Z.of_nat : nat >-> Z.

Record dtrace := DTrace { dt_samples : list double; dt_freq : double }.
(** Conversion to int: defined if the integral part fits *)
Definition to_int32 (x : double) : option Z :=
  if BinarySingleNaN.is_finite x && (- 2 ^ 31 <=? Btrunc x) && (Btrunc x <? 2 ^ 31) then Some (Btrunc x) else None.
Definition dread (l : list double) (i : Z) : option double := if decide (0 ≤ i) then l !! Z.to_nat i else None.

(** 1650-1686; [lag0] is the value of lagOut on entry; (lagOut, coeffOut) *)
Definition ddxcorr (tr1 tr2 : dtrace) (maxDelay lag0 : double) : option (double * double) :=
  let fr := dt_freq tr1 in
  let swap := bool_decide (length (dt_samples tr2) < length (dt_samples tr1))%nat in
  let dS := dt_samples (if swap then tr2 else tr1) in
  let dL := dt_samples (if swap then tr1 else tr2) in
  let sizeS := length dS in
  let sizeL := length dL in
  let availableData := Z.quot (sizeL - sizeS) 2 in
  m ← to_int32 (dmul maxDelay fr);
  let maxDelaySmps := if decide (availableData < m) then availableData else m in
  r ← dcross_correlation (dread dS) (λ i, dread dL (i + (availableData - maxDelaySmps))) sizeS (sizeS + maxDelaySmps * 2) lag0;
  let lag := ddiv (dsub r.1 (of_Z maxDelaySmps)) fr in
  Some (if swap then Bopp lag else lag, r.2).
