(** Model of Solver::computeResidualWeights, libs/hdd/solver.cpp 546-590, in double precision (binary64
    of Flocq, see Double_Model.v). ResWeights_Model.v has the same code with real numbers.

    The median and the median absolute deviation are those of OrderStats_Model.v (utils.cpp 325-350), with
    std::nth_element as an argument. Every operation rounds to nearest, ties to even; there are no fused
    operations. The log is left out. *)
From Coq Require Import ZArith.
From Flocq Require Import Core BinarySingleNaN.
From stdpp Require Import numbers list.
From Verif Require Import Double_Model XCorrD_Model OrderStats_Model.
Local Open Scope Z_scope.

(** x <= y, false if one is NaN *)
Definition dle (x y : double) : Prop := Bleb x y = true.
Global Instance dle_dec : RelDecision dle := λ x y, decide (Bleb x y = true).
(** utils.cpp 336 and 347 *)
Definition d_avg (x y : double) : double := ddiv (dadd x y) (of_Z 2).
Definition d_absdiff (x y : double) : double := Babs (dsub x y).
(** std::max(a, b) is (a < b) ? b : a *)
Definition dmax (a b : double) : double := if Bltb a b then b else a.
Definition dsquare (x : double) : double := dmul x x.
(** 578: the double nearest to 0.67449 *)
Definition MAD_gn : double := ddiv (of_Z 67449) (of_Z 100000).
(** 581, the divisor *)
Definition cutoff (alpha mad : double) : double := ddiv (dmul alpha mad) MAD_gn.
(** 581-583 *)
Definition dweight (c res : double) : double := dsquare (dmax (dsub (of_Z 1) (dsquare (ddiv res c))) zero).
Definition dresidual_weights (nthe : list double → nat → list double) (alpha : double) (residuals : list double) : option (list double) :=
  match residuals with
  | [] => Some []
  | _ =>
      med ← median dle zero d_avg nthe residuals;
      mad ← median_abs_dev dle zero d_avg d_absdiff nthe residuals med;
      Some (dweight (cutoff alpha mad) <$> residuals)
  end.
