(** Model of Solver::computeResidualWeights, libs/hdd/solver.cpp 546-590. The arithmetic has
    infinities and NaN (DDSystem_Model); the residuals are finite. *)
From Coq Require Import Reals.
From stdpp Require Import numbers list.
From Verif Require Import DDSystem_Model OrderStats_Model.

Definition e_ltb (x y : ext) : bool :=
  match x, y with
  | ENaN, _ | _, ENaN => false
  | EFin a, EFin b => if Rlt_dec a b then true else false
  | ENeg, ENeg => false | ENeg, _ => true
  | _, EPos => match x with EPos => false | _ => true end
  | _, _ => false
  end.
(** std::max(a, b) is (a < b) ? b : a *)
Definition e_max (a b : ext) : ext := if e_ltb a b then b else a.

Global Instance Rle_decision : RelDecision Rle := λ x y, match Rle_dec x y with left H => left H | right H => right H end.
Definition r_avg (x y : R) : R := ((x + y) / 2)%R.
Definition r_absdiff (x y : R) : R := Rabs (x - y).
Definition MAD_gn : R := (67449 / 100000)%R.

(** 580-584 *)
Definition weight_of (alpha mad res : R) : ext :=
  let q := e_div (EFin res) (EFin (alpha * mad / MAD_gn)) in
  let w := e_sub (EFin 1) (e_mul q q) in
  let w := e_max w (EFin 0) in
  e_mul w w.
Definition residual_weights (nthe : list R → nat → list R) (alpha : R) (residuals : list R) : option (list ext) :=
  match residuals with
  | [] => Some []
  | _ =>
      med ← median Rle 0%R r_avg nthe residuals;
      mad ← median_abs_dev Rle 0%R r_avg r_absdiff nthe residuals med;
      Some (weight_of alpha mad <$> residuals)
  end.
