(** Model of crossCorrelation (libs/hdd/xcorr.cpp 38-139) and DD::xcorr (libs/hdd/dd.cpp
    1644-1686) over the real numbers.

    Simplifications: exact real arithmetic, hence no overflow and the argument of std::sqrt
    is not rounded; the floating point exception flags and the log are left out; ints do not
    overflow. A read outside an array is None. *)
From Coq Require Import Reals.
From stdpp Require Import numbers list.
From Verif Require Import Geo_Model.
Local Open Scope R_scope.
Local Coercion Z.of_nat : nat >-> Z.

(** A coefficient: a number, NaN (0/0) or an infinity (x/0). *)
Inductive coef := Fin (r : R) | NotANumber | Infinite.
Definition quotient (num den : R) : coef :=
  if Req_EM_T den 0 then (if Req_EM_T num 0 then NotANumber else Infinite) else Fin (num / den).
(** std::abs(x) > std::abs(y) *)
Definition abs_gt (x y : coef) : bool :=
  match x, y with
  | Fin a, Fin b => if Rlt_dec (Rabs b) (Rabs a) then true else false
  | Infinite, Fin _ => true
  | _, _ => false
  end.
Definition is_finite (x : coef) : bool := match x with Fin _ => true | _ => false end.

(** A loop whose body may read outside an array *)
Fixpoint loop {A} (f : A → nat → option A) (is_ : list nat) (a : A) : option A :=
  match is_ with [] => Some a | i :: r => b ← f a i; loop f r b end.

Section cc.
Variable dataS dataL : Z → option R.    (* reading an array *)
Variable n : nat.                       (* sizeS *)

Record sums := Sums { sumS : R; sumS2 : R; sumL : R; sumL2 : R }.
(** 91-100 *)
Definition prepare_step (a : sums) (i : nat) : option sums :=
  s ← dataS i;
  let sS := sumS a + s in
  let sS2 := sumS2 a + s * s in
  if decide (n - 1 ≤ i)%Z then Some (Sums sS sS2 (sumL a) (sumL2 a))
  else l ← dataL i; Some (Sums sS sS2 (sumL a + l) (sumL2 a + l * l)).
Definition prepare : option sums := loop prepare_step (seq 0 n) (Sums 0 0 0 0).

Record acc := Acc { a_sumL : R; a_sumL2 : R; a_last : R; a_coeff : coef; a_delay : R }.
(** 117-118 *)
Definition inner (delay : nat) : option R :=
  loop (λ sumSL i, s ← dataS i; l ← dataL (i + delay)%Z; Some (sumSL + s * l)) (seq 0 n) 0.
(** 107-127 *)
Definition delay_step (sS denomS : R) (a : acc) (delay : nat) : option acc :=
  newSampleL ← dataL (delay + n - 1)%Z;
  let sL := a_sumL a + (newSampleL - a_last a) in
  let sL2 := a_sumL2 a + (newSampleL * newSampleL - a_last a * a_last a) in
  lastSampleL ← dataL delay;
  let denomL := R_sqrt.sqrt (INR n * sL2 - sL * sL) in
  sumSL ← inner delay;
  let coeff := quotient (INR n * sumSL - sS * sL) (denomS * denomL) in
  if negb (is_finite (a_coeff a)) || abs_gt coeff (a_coeff a)
  then Some (Acc sL sL2 lastSampleL coeff (INR delay))
  else Some (Acc sL sL2 lastSampleL (a_coeff a) (a_delay a)).
(** 38-139; [delay0] is the value of delayOut on entry. The result is (delayOut, coeffOut). *)
Definition cross_correlation (sizeL : Z) (delay0 : R) : option (R * coef) :=
  p ← prepare;
  let denomS := R_sqrt.sqrt (INR n * sumS2 p - sumS p * sumS p) in
  a ← loop (delay_step (sumS p) denomS) (seq 0 (Z.to_nat (sizeL - n + 1)))
        (Acc (sumL p) (sumL2 p) 0 NotANumber delay0);
  Some (a_delay a, a_coeff a).
End cc.

Record trace := Trace { samples : list R; freq : R }.
(** Reading the array of a trace at a signed index *)
Definition read (l : list R) (i : Z) : option R := if decide (0 ≤ i)%Z then l !! Z.to_nat i else None.

(** dd.cpp 1650-1686; [lag0] is the value of lagOut on entry; (lagOut, coeffOut) *)
Definition dd_xcorr (tr1 tr2 : trace) (maxDelay lag0 : R) : option (R * coef) :=
  let fr := freq tr1 in
  let swap := bool_decide (length (samples tr2) < length (samples tr1))%nat in
  let dS := samples (if swap then tr2 else tr1) in
  let dL := samples (if swap then tr1 else tr2) in
  let sizeS := length dS in
  let sizeL := length dL in
  let availableData := Z.quot (sizeL - sizeS) 2 in
  let m := trunc (maxDelay * fr) in
  let maxDelaySmps := if decide (availableData < m)%Z then availableData else m in
  r ← cross_correlation (read dS) (λ i, read dL (i + (availableData - maxDelaySmps))) sizeS (sizeS + maxDelaySmps * 2) lag0;
  let lag := (r.1 - IZR maxDelaySmps) / fr in
  Some (if swap then - lag else lag, r.2).
