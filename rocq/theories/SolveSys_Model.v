(** Model of Solver::_solve (libs/hdd/solver.cpp 847-897) up to the reading of the solution,
    which is in Solver_Model: the system is handed to LSQR or LSMR.

    The arithmetic is that of the real numbers. The scale of a column that no row touches is 1/0
    in the code, infinite; nothing but the final rescaling of that column uses it, and the
    result there is not a number. It is an arbitrary real number here, [jinv], and the theorems
    say nothing of the solution in these columns. If a column touched by a row is zero (the
    product of its coefficient by its scale is not a number) the result is None. *)
From Coq Require Import Reals.
From stdpp Require Import numbers list.
From Verif Require Import DDSystem_Model Lsq_Model.

Inductive method := LSQR | LSMR.

(** Whether a row of weight other than zero uses the event of the column *)
Definition touches (s : dds R) (col ob : nat) : bool :=
  match aW s !! ob with
  | Some w => negb (r_is0 w) && (bool_decide (aEv1 s !! ob = Some (Some (col / 4))) || bool_decide (aEv2 s !! ob = Some (Some (col / 4))))
  | None => false
  end.
Definition touched (s : dds R) (col : nat) : bool := existsb (touches s col) (seq 0 (rows s)).
(** 1. / std::sqrt(x) *)
Definition scaler (jinv x : R) : R := if r_is0 x then jinv else r_inv_sqrt x.
(** 77-116 *)
Definition normalize (jinv : R) (s : dds R) : option (dds R) :=
  l ← loopM (norm_row Rplus Rmult r_is0 s) (seq 0 (rows s)) (replicate (cols s) 0%R);
  if existsb (λ col, r_is0 (default 0%R (l !! col)) && touched s col) (seq 0 (cols s)) then None
  else l2normalize 0%R Rplus Rmult r_is0 (scaler jinv) s.

(** 857-867: numIterations or half the number of columns; the tolerances; the limit on the
    condition number with the precision 2^-52 of double *)
Definition settings (iters : nat) (damp : R) (s : dds R) : opts (F := R) :=
  Opts damp (1 / 10 ^ 6)%R (1 / 10 ^ 6)%R (1 / (10 * R_sqrt.sqrt (/ 2 ^ 52)))%R (if decide (iters = 0) then cols s / 2 else iters).
(** The products of the adapter for LSQR and LSMR; they never are None (C35) *)
Definition times (s : dds R) (x y : list R) : list R := default y (R_aprod1 s (rows s) (cols s) x y).
Definition ttimes (s : dds R) (x y : list R) : list R := default x (R_aprod2 s (rows s) (cols s) x y).

(** 872: the number of iterations, the stopping reason and the solution *)
Definition run_method (jdiv : R → R → R) (jsqrt : R → R) (k : method) (o : opts (F := R)) (s : dds R) : option (nat * nat * list R) :=
  let fuel := max 1 (o_itnlim o) in
  match k with
  | LSQR => r ← R_lsqr_solve jdiv jsqrt (times s) (ttimes s) o fuel (rows s) (cols s) (aD s); Some (q_itn r, q_istop r, q_x r)
  | LSMR => r ← R_lsmr_solve jdiv jsqrt (times s) (ttimes s) o fuel (rows s) (cols s) (aD s); Some (r_itn r, r_istop r, r_x r)
  end.
(** 829-838: the stopping reasons that are refused *)
Definition refused (k : method) : list nat := match k with LSQR => [4] | LSMR => [3; 6] end.

(** 847-890: the number of iterations, the stopping reason and, unless it is refused, the solution *)
Definition solve_system (jinv : R) (jdiv : R → R → R) (jsqrt : R → R) (k : method) (iters : nat) (damp : R) (normalizeG : bool) (s : dds R) : option (nat * nat * option (list R)) :=
  s1 ← R_adapter s;
  s2 ← if normalizeG then normalize jinv s1 else Some s1;
  '(itn, why, x) ← run_method jdiv jsqrt k (settings iters damp s2) s2;
  if decide (why ∈ refused k) then Some (itn, why, None)
  else if normalizeG then
    s3 ← R_l2denormalize (with_MD s2 x (aD s2));
    Some (itn, why, Some (aM s3))
  else Some (itn, why, Some x).
