(** Model of DD::logXCorrSummary, libs/hdd/dd.cpp 1727-1888: the statistics of the
    cross-correlations that are logged at the end of buildXCorrCache (1231).

    - The lines that are logged are records of the numbers in them. Percentages are computed
      from these, and are left out; so are the texts.
    - The lags are collected, but not used: they are left out.
    - Unsigned counters do not overflow. Coefficients are real numbers, see XcorrBuild_Model.
    - [Exc] is an exception: phase.at() for a type without options. [Bad] is undefined
      behaviour: a precondition of compute5numberSummary (OrderStats_Model), or a coefficient
      that was not assigned.
    - The neighbours of the cluster are given in the order of the iteration; [elems] is the
      order in which phases() returns its elements, and [lines_of] the order of a std::map. *)
From Coq Require Import Ascii String Reals.
From stdpp Require Import numbers list gmap countable strings.
From Verif Require Import Csv_Model Catalog_Model Neighbours_Model XCorrCache_Model Solver_Model OrderStats_Model XcorrBuild_Model.
Local Open Scope R_scope.

Global Instance Rle_decision : RelDecision Rle.
Proof. intros x y. destruct (Rle_dec x y); [by left|by right]. Defined.

Section log.
Notation xcache := (gmap N (gmap string (gmap string (gmap N (@entry dbl dbl))))).
Notation "'tstr' x" := (string_of_list_ascii x) (at level 9, x at level 9).
(** _cfg.validPphases, _cfg.validSphases; xcorrOpt.phase.at(type).minCoef *)
Variable validP validS : list text.
Variable min_coef : ptype → option R.
(** std::nth_element *)
Variable nthe : list R → nat → list R.
Variable elems : neigh → list (text * text * N).
(** 1731-1738 *)
Record counters := Counters { k_performed : nat; k_failed : nat; k_above : nat; k_coeff : list R }.
Variable lines_of : gmap text counters → list (text * counters).
Definition no_counts : counters := Counters 0 0 0 [].

(** 1752-1770 *)
Definition type_of (ph : text) : ptype :=
  if bool_decide (ph ∈ validP) then TP else if bool_decide (ph ∈ validS) then TS else TNO.
(** 1788-1804 *)
Definition count (t : ptype) (e : @entry dbl dbl) (k : counters) : res counters :=
  if e_valid e then
    match e_coeff e with
    | Num c =>
        rbind (at_ (min_coef t)) (λ m,
        Ok (Counters (k_performed k + 1) (k_failed k)
              (if Rle_dec m (Rabs c) then k_above k + 1 else k_above k) (k_coeff k ++ [Rabs c])))
    | Indet => Bad
    end
  else Ok (Counters (k_performed k) (k_failed k + 1) (k_above k) (k_coeff k)).
Record tables := Tables { b_P : gmap text counters; b_S : gmap text counters }.
Definition table (b : tables) (t : ptype) : gmap text counters := match t with TP => b_P b | TS => b_S b | TNO => ∅ end.
(** 1747-1806 *)
Definition count_phase (xc : xcache) (ref : N) (b : tables) (x : text * text * N) : res tables :=
  let '(sta, ph, k) := x in
  match type_of ph with
  | TNO => Ok b
  | t =>
      match xc_get dneg xc ref k (tstr sta) (tstr ph) with
      | None => Ok b
      | Some e =>
          rbind (count t e (default no_counts (table b t !! sta))) (λ c,
          Ok (match t with TP => Tables (<[sta := c]> (b_P b)) (b_S b) | _ => Tables (b_P b) (<[sta := c]> (b_S b)) end))
      end
  end.
Definition count_all (xc : xcache) (cluster : list neigh) : res tables :=
  rloop (λ b n, rloop (count_phase xc (n_ref n)) (elems n) b) cluster (Tables ∅ ∅).

(** One line for each station: 1825-1829 *)
Record line := Line { l_sta : text; l_tot : nat; l_failed : nat; l_above : nat; l_five : @summary R }.
(** 1815-1841: the lines and the totals *)
Record part := Part { p_lines : list line; p_performed : nat; p_failed : nat; p_above : nat; p_min : R }.
Definition line_step (a : list line * (nat * nat * nat)) (x : text * counters) : res (list line * (nat * nat * nat)) :=
  let '(ls, (p, f, ab)) := a in
  let c := x.2 in
  match five_number Rle 0 nthe (k_coeff c) with
  | None => Bad
  | Some s => Ok (ls ++ [Line x.1 (k_performed c + k_failed c) (k_failed c) (k_above c) s],
                  (p + k_performed c, f + k_failed c, ab + k_above c))%nat
  end.
Definition make_part (t : ptype) (m : gmap text counters) : res part :=
  rbind (rloop line_step (lines_of m) ([], (0, 0, 0)%nat)) (λ a,
  rbind (at_ (min_coef t)) (λ mc,
  let '(ls, (p, f, ab)) := a in Ok (Part ls p f ab mc))).
(** 1727-1888 *)
Definition log_summary (cluster : list neigh) (xc : xcache) : res (part * part) :=
  rbind (count_all xc cluster) (λ b,
  rbind (make_part TP (b_P b)) (λ P,
  rbind (make_part TS (b_S b)) (λ S,
  Ok (P, S)))).
End log.
