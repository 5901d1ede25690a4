(** Model of compute5numberSummary, computeMedian and computeMedianAbsoluteDeviation,
    libs/hdd/utils.cpp 299-350.

    The values range over any type with a decidable total order (doubles other than NaN)
    with a distinguished zero, the average of two values and the absolute difference.
    std::nth_element is an oracle; calling it with nth before first violates its
    precondition: None. *)
From stdpp Require Import numbers list.

Section stats.
Context {D : Type} (le : relation D) `{!RelDecision le}.
Variable zero : D.
Variable avg absdiff : D → D → D.
Variable nthe : list D → nat → list D.   (* the range, the position within it *)

(** std::nth_element(begin + first, begin + nth, end) *)
Definition nth_range (first nth : nat) (l : list D) : option (list D) :=
  if decide (first ≤ nth) then Some (take first l ++ nthe (drop first l) (nth - first)) else None.
(** std::max_element and std::min_element over a non-empty range x :: l; the first of equals *)
Definition max_element (x : D) (l : list D) : D := fold_left (λ m y, if decide (¬ le y m) then y else m) l x.
Definition min_element (x : D) (l : list D) : D := fold_left (λ m y, if decide (¬ le m y) then y else m) l x.

(** 325-339 *)
Definition median (values : list D) : option D :=
  match values with
  | [] => Some zero
  | _ =>
      let tmp := nthe values (length values / 2) in
      m ← tmp !! (length values / 2);
      if decide (length values mod 2 = 0)
      then match take (length values / 2) tmp with
           | [] => None (* not possible *)
           | x :: l => Some (avg (max_element x l) m)
           end
      else Some m
  end.
(** 341-350 *)
Definition median_abs_dev (values : list D) (m : D) : option D := median ((λ v, absdiff v m) <$> values).

Record summary := Summary { s_min : D; s_max : D; s_q1 : D; s_q2 : D; s_q3 : D }.
(** 299-323. min_element of the empty range [begin, begin) is begin, which is dereferenced:
    tmp[0]. *)
Definition five_number (values : list D) : option summary :=
  match values with
  | [] => Some (Summary zero zero zero zero zero)
  | _ =>
      let n := length values in
      let Q1 := n / 4 in
      let Q2 := n / 2 in
      let Q3 := Q1 + Q2 in
      tmp ← nth_range 0 Q1 values;
      tmp ← nth_range (Q1 + 1) Q2 tmp;
      tmp ← nth_range (Q2 + 1) Q3 tmp;
      q1 ← tmp !! Q1; q2 ← tmp !! Q2; q3 ← tmp !! Q3;
      t0 ← tmp !! 0;
      let mn := match take Q1 tmp with [] => t0 | x :: l => min_element x l end in
      mx ← match drop Q3 tmp with [] => None | x :: l => Some (max_element x l) end;
      Some (Summary mn mx q1 q2 q3)
  end.
End stats.
