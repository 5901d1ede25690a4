(** Model of crossCorrelation, libs/hdd/xcorr.cpp 38-139, in double precision (binary64 of
    Flocq, see Double_Model.v). XCorr_Model.v has the same code with real numbers.

    Simplifications: every operation rounds to nearest, ties to even, there are no fused
    operations; the floating point exception flags and the log are left out; ints do not
    overflow. A read outside an array is None. *)
From Coq Require Import ZArith.
From Flocq Require Import Core BinarySingleNaN.
From stdpp Require Import numbers list.
From Verif Require Import Double_Model XCorr_Model.
Local Open Scope Z_scope.

Definition dadd (x y : double) : double := Bplus (prec_gt_0_ := prec53) (prec_lt_emax_ := emax1024) mode_NE x y.
Definition dsub (x y : double) : double := Bminus (prec_gt_0_ := prec53) (prec_lt_emax_ := emax1024) mode_NE x y.
Definition dsqrt (x : double) : double := Bsqrt (prec_gt_0_ := prec53) (prec_lt_emax_ := emax1024) mode_NE x.
(** std::abs(x) > std::abs(y), false if one is NaN *)
Definition dabs_gt (x y : double) : bool := Bltb (Babs y) (Babs x).
Definition zero : double := B754_zero false.

Section cc.
Variable dataS dataL : Z → option double.    (* reading an array *)
Variable n : nat.                            (* sizeS *)
Local Coercion Z.of_nat : nat >-> Z.

Record dsums := DSums { d_sumS : double; d_sumS2 : double; d_sumL : double; d_sumL2 : double }.
(** 91-100 *)
Definition dprepare_step (a : dsums) (i : nat) : option dsums :=
  s ← dataS i;
  let sS := dadd (d_sumS a) s in
  let sS2 := dadd (d_sumS2 a) (dmul s s) in
  if decide (n - 1 ≤ i)%Z then Some (DSums sS sS2 (d_sumL a) (d_sumL2 a))
  else l ← dataL i; Some (DSums sS sS2 (dadd (d_sumL a) l) (dadd (d_sumL2 a) (dmul l l))).
Definition dprepare : option dsums := loop dprepare_step (seq 0 n) (DSums zero zero zero zero).

Record dacc := DAcc { c_sumL : double; c_sumL2 : double; c_last : double; c_coeff : double; c_delay : double }.
(** 117-118 *)
Definition dinner (delay : nat) : option double :=
  loop (λ sumSL i, s ← dataS i; l ← dataL (i + delay)%Z; Some (dadd sumSL (dmul s l))) (seq 0 n) zero.
(** 107-127 *)
Definition ddelay_step (sS denomS : double) (a : dacc) (delay : nat) : option dacc :=
  newSampleL ← dataL (delay + n - 1)%Z;
  let sL := dadd (c_sumL a) (dsub newSampleL (c_last a)) in
  let sL2 := dadd (c_sumL2 a) (dsub (dmul newSampleL newSampleL) (dmul (c_last a) (c_last a))) in
  lastSampleL ← dataL delay;
  let denomL := dsqrt (dsub (dmul (of_Z n) sL2) (dmul sL sL)) in
  sumSL ← dinner delay;
  let coeff := ddiv (dsub (dmul (of_Z n) sumSL) (dmul sS sL)) (dmul denomS denomL) in
  if negb (BinarySingleNaN.is_finite (c_coeff a)) || dabs_gt coeff (c_coeff a)
  then Some (DAcc sL sL2 lastSampleL coeff (of_Z delay))
  else Some (DAcc sL sL2 lastSampleL (c_coeff a) (c_delay a)).
(** 38-139; [delay0] is the value of delayOut on entry. The result is (delayOut, coeffOut). *)
Definition dcross_correlation (sizeL : Z) (delay0 : double) : option (double * double) :=
  p ← dprepare;
  let denomS := dsqrt (dsub (dmul (of_Z n) (d_sumS2 p)) (dmul (d_sumS p) (d_sumS p))) in
  a ← loop (ddelay_step (d_sumS p) denomS) (seq 0 (Z.to_nat (sizeL - n + 1)))
        (DAcc (d_sumL p) (d_sumL2 p) zero B754_nan delay0);
  Some (c_delay a, c_coeff a).
End cc.
