(** What an LRU cache means, in terms of a history of calls and results only. *)
From stdpp Require Import base decidable list.
From Verif Require Import Lru_Model.

Section spec.
Context {K V : Type} `{EqDecision K}.

Notation history := (list (op K V * (ret V * list (K * V)))).

(** Keys in order of use, most recent first, since the last clear.  A put is a
    use of its key; a get is a use of its key if it returned a value. *)
Definition use1 (acc : list K) (e : op K V * (ret V * list (K * V))) : list K :=
  match e with
  | (Put k _, _) => k :: acc
  | (Get k, (RVal _, _)) => k :: acc
  | (Clear, _) => []
  | _ => acc
  end.
Definition uses (h : history) : list K := fold_left use1 h [].

(** Distinct keys in order of their most recent use. *)
Fixpoint recency (l : list K) : list K :=
  match l with
  | [] => []
  | k :: r => k :: filter (λ x, x ≠ k) (recency r)
  end.

(** Value of the last put of [k] since the last clear. *)
Definition lastput1 (k : K) (acc : option V) (e : op K V * (ret V * list (K * V))) : option V :=
  match e with
  | (Put k' v, _) => if decide (k = k') then Some v else acc
  | (Clear, _) => None
  | _ => acc
  end.
Definition lastput (h : history) (k : K) : option V := fold_left (lastput1 k) h None.

(** The keys a cache of capacity [mx] must hold after history [h]. *)
Definition held (mx : nat) (h : history) : list K := take mx (recency (uses h)).
End spec.
