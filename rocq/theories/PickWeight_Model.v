(** Model of libs/hdd/catalog.cpp:558-592, Catalog::computePickWeight.

    A double is a rational number, plus or minus infinity or NaN; rounding in the
    mean of the two uncertainties is not modelled.  The result 1/2^class is
    represented by the class number [None] standing for the early return of 1. *)
From Coq Require Import QArith List Bool.
Import ListNotations.

Inductive dbl := Fin (q : Q) | PInf | MInf | NaN.

(** IEEE sum and division by two. *)
Definition dadd (a b : dbl) : dbl :=
  match a, b with
  | Fin x, Fin y => Fin (x + y)
  | NaN, _ | _, NaN => NaN
  | PInf, MInf | MInf, PInf => NaN
  | PInf, _ | _, PInf => PInf
  | MInf, _ | _, MInf => MInf
  end.
Definition dhalf (a : dbl) : dbl := match a with Fin x => Fin (x / 2) | _ => a end.
(** a <= b and a < b; false if one is NaN. *)
Definition dle (a b : dbl) : bool :=
  match a, b with
  | Fin x, Fin y => Qle_bool x y
  | NaN, _ | _, NaN => false
  | MInf, _ | _, PInf => true
  | _, _ => false
  end.
Definition dlt (a b : dbl) : bool :=
  match a, b with
  | NaN, _ | _, NaN => false
  | _, _ => negb (dle b a)
  end.
Definition is_fin (a : dbl) : bool := match a with Fin _ => true | _ => false end.

(** The loop at 578-588 from position [curr]. *)
Fixpoint find_class (u : dbl) (curr : nat) (classes : list dbl) : option nat :=
  match classes with
  | a :: ((b :: _) as rest) => if dle a u && dle u b then Some curr else find_class u (S curr) rest
  | _ => None
  end.

(** lines 561-591; [last] is uncertaintyClasses.back() *)
Definition pick_class (lower upper : dbl) (classes : list dbl) : option nat :=
  if (length classes <? 2)%nat then None
  else
    let u := dhalf (dadd lower upper) in
    let lowest := (length classes - 1)%nat in
    Some (if dle (Fin 0) u && is_fin u && dlt u (last classes NaN)
          then match find_class u 0 classes with Some c => c | None => lowest end
          else lowest).
Definition weight (c : option nat) : Q :=
  match c with None => 1 | Some k => 1 / (2 ^ Z.of_nat k) end.
Definition pick_weight (lower upper : dbl) (classes : list dbl) : Q := weight (pick_class lower upper classes).
