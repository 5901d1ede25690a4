(** Model of libs/hdd/clustering.cpp:597-698, selectNeighbouringEventsCatalog.

    The catalog is represented by the set of its event ids: the only change made
    to it is removeEvent.  The selection for a single event is a function [sel]
    of the events still valid and the event (all other arguments are constant). *)
From stdpp Require Import gmap list sets.
From Verif Require Import Cluster_Model.

Section selcat.
Context {P : Type}.
Variable sel : gset N → N → nb P.               (* selectNeighbouringEvents *)
Variable ord : nat → gset N → list N.           (* iteration order of the hash map *)
Variable minNum : nat.                          (* minNumNeigh *)

(** neighboursList, validCatalog, removedEvents (613-619) *)
Record sst := Sst { s_list : gmap N (nb P); s_valid : gset N; s_removed : gset N }.

(** Neighbours::amount, clustering.cpp:43 *)
Definition nb_amount (n : nb P) : nat := size (nb_phs n).

(** One round of the first loop, lines 622-641; emplace keeps an element that is
    already there. *)
Definition first_step (s : sst) (e : N) : sst :=
  let n := sel (s_valid s) e in
  if decide (minNum ≤ nb_amount n) then
    Sst (match s_list s !! nb_ref n with
         | Some _ => s_list s | None => <[nb_ref n := n]> (s_list s) end)
        (s_valid s) (s_removed s)
  else Sst (s_list s) (s_valid s ∖ {[e]}) ({[e]} ∪ s_removed s).

(** State of one pass of the do-while loop: validNeighbours, validCatalog,
    removedEvents, redo. *)
Record pst := Pst { p_new : gmap N (nb P); p_valid : gset N; p_removed : gset N; p_redo : bool }.

(** One round of the loop at 651-691 for an element [n] of neighboursList.
    [Throw] stands for dereferencing end() at line 671. *)
Definition pass_step (p : pst) (n : nb P) : outcome pst :=
  let bad := bool_decide (nb_ids n ∩ p_removed p ≠ ∅) in
  let keep n := Done (Pst (match p_new p !! nb_ref n with
                           | Some _ => p_new p | None => <[nb_ref n := n]> (p_new p) end)
                          (p_valid p) (p_removed p) (p_redo p)) in
  if bad then
    if decide (nb_ref n ∈ p_valid p) then
      let n' := sel (p_valid p) (nb_ref n) in
      if decide (nb_amount n' < minNum) then
        Done (Pst (p_new p) (p_valid p ∖ {[nb_ref n']}) ({[nb_ref n']} ∪ p_removed p) true)
      else keep n'
    else Throw
  else keep n.

Fixpoint pass (l : list N) (m : gmap N (nb P)) (p : pst) : outcome pst :=
  match l with
  | [] => Done p
  | k :: l' =>
    match m !! k with
    | None => Throw      (* not reachable: l enumerates the keys of m *)
    | Some n => match pass_step p n with
                | Done p' => pass l' m p'
                | Throw => Throw
                | NoFuel => NoFuel
                end
    end
  end.

(** The do-while loop, lines 646-695. *)
Fixpoint passes (fuel t : nat) (s : sst) : outcome (gmap N (nb P)) :=
  match fuel with
  | O => NoFuel
  | S f =>
    match pass (ord t (dom (s_list s))) (s_list s) (Pst ∅ (s_valid s) (s_removed s) false) with
    | Done p => if p_redo p then passes f (S t) (Sst (p_new p) (p_valid p) (p_removed p))
                else Done (p_new p)
    | Throw => Throw
    | NoFuel => NoFuel
    end
  end.

(** The whole function; [events] are the events of the catalog, in the order of
    the std::map (by id). *)
Definition select_catalog (fuel : nat) (events : list N) : outcome (gmap N (nb P)) :=
  passes fuel 0 (fold_left first_step events (Sst ∅ (list_to_set events) ∅)).
End selcat.
Arguments sst : clear implicits.
Arguments pst : clear implicits.
