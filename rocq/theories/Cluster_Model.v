(** Model of libs/hdd/clustering.cpp:707-800, clusterizeNeighbouringEvents.

    A Neighbours object is its reference id and a map from neighbour id to the
    recorded phases; the phases themselves (type [P]) are only carried along
    here.  Containers whose iteration order is unspecified are gmap/gset and the
    order is given by two oracles that also receive a step counter, so that any
    order at any moment of the execution is covered. *)
From stdpp Require Import gmap list sets.

(** class Neighbours, clustering.h:97-102 *)
Record nb (P : Type) := Nb { nb_ref : N; nb_phs : gmap N P }.
Arguments Nb {P}. Arguments nb_ref {P}. Arguments nb_phs {P}.

(** Neighbours::remove, clustering.cpp:63 *)
Definition nb_remove {P} (n : nb P) (id : N) : nb P := Nb (nb_ref n) (delete id (nb_phs n)).
(** Neighbours::ids, clustering.cpp:45-54 *)
Definition nb_ids {P} (n : nb P) : gset N := dom (nb_phs n).

(** Outcome: a result, an exception (map::at), or not enough fuel. *)
Inductive outcome (A : Type) := Done (a : A) | Throw | NoFuel.
Arguments Done {A}. Arguments Throw {A}. Arguments NoFuel {A}.

Section cluster.
Context {P : Type}.
(** [pick t X]: the element *X.begin() at step [t] (only used for X not empty).
    [ord t X]: the elements of X in iteration order at step [t]. *)
Variable pick : nat → gset N → N.
Variable ord : nat → gset N → list N.

(** State of the traversal of one cluster, clustering.cpp:718-764. *)
Record trav := Trav {
  t_evs : gset N;               (* clusterEvs *)
  t_todo : gmap N (nb P);       (* neighboursByEvent *)
  t_pairs : list (N * N);       (* discoveredPairs, a multimap *)
  t_cur : list (nb P);          (* currentCluster *)
  t_conn : gset N }.            (* connectedClusters *)

(** One round of the inner while loop for event [e], lines 729-763. *)
Definition visit (cid : gmap N N) (i : trav) (e : N) : trav :=
  let evs := t_evs i ∖ {[e]} in
  let conn := match cid !! e with Some c => {[c]} ∪ t_conn i | None => t_conn i end in
  match t_todo i !! e with
  | None => Trav evs (t_todo i) (t_pairs i) (t_cur i) conn
  | Some g =>
    let todo := delete (nb_ref g) (t_todo i) in
    let evs := evs ∪ nb_ids g in
    let seen := filter (λ p, p.1 = nb_ref g) (t_pairs i) in
    let g' := fold_left (λ n p, nb_remove n p.2) seen g in
    let pairs := t_pairs i ++ ((λ y, (y, nb_ref g)) <$> elements (nb_ids g')) in
    Trav evs todo pairs (t_cur i ++ [g']) conn
  end.

(** The inner while loop, lines 727-764. *)
Fixpoint traverse (fuel t : nat) (cid : gmap N N) (i : trav) : outcome (nat * trav) :=
  match fuel with
  | O => NoFuel
  | S f => if decide (t_evs i = ∅) then Done (t, i)
           else traverse f (S t) cid (visit cid i (pick t (t_evs i)))
  end.

(** Lines 767-774: append and erase the connected clusters, in order [l]. *)
Fixpoint absorb (l : list N) (cls : gmap N (list (nb P))) (cur : list (nb P))
  : outcome (gmap N (list (nb P)) * list (nb P)) :=
  match l with
  | [] => Done (cls, cur)
  | c :: l' =>
    match cls !! c with
    | None => Throw
    | Some v => absorb l' (delete c cls) (cur ++ v)
    end
  end.

(** Line 777: largest key of the ordered map, 0 if empty. *)
Definition max_key {A} (m : gmap N A) : N := foldr N.max 0%N (map_to_list m).*1.

(** State between two rounds of the outer loop. *)
Record cst := Cst {
  c_todo : gmap N (nb P);            (* neighboursByEvent *)
  c_cls : gmap N (list (nb P));      (* clusters *)
  c_cid : gmap N N }.                (* clusterIdByEvent *)

(** One round of the outer loop, lines 718-785. (The 32 bit cluster ids cannot
    wrap: there are never more clusters than events.) *)
Definition round (fuel t : nat) (s : cst) : outcome (nat * cst) :=
  let e0 := pick t (dom (c_todo s)) in
  match traverse fuel (S t) (c_cid s) (Trav {[e0]} (c_todo s) [] [] ∅) with
  | Done (t', i) =>
    match absorb (ord t' (t_conn i)) (c_cls s) (t_cur i) with
    | Done (cls, cur) =>
      let id := (max_key cls + 1)%N in
      let cid := fold_left (λ m n, <[nb_ref n := id]> m) cur (c_cid s) in
      Done (S t', Cst (t_todo i) (<[id := cur]> cls) cid)
    | Throw => Throw
    | NoFuel => NoFuel
    end
  | Throw => Throw
  | NoFuel => NoFuel
  end.

(** The outer while loop, lines 716-786. [fuel] bounds both loops. *)
Fixpoint rounds (fuel ifuel t : nat) (s : cst) : outcome cst :=
  match fuel with
  | O => NoFuel
  | S f => if decide (c_todo s = ∅) then Done s
           else match round ifuel t s with
                | Done (t', s') => rounds f ifuel t' s'
                | Throw => Throw
                | NoFuel => NoFuel
                end
  end.

(** Lines 792-796: emplace keeps the first element of a key. *)
Definition to_map (v : list (nb P)) : gmap N (nb P) :=
  fold_left (λ m n, match m !! nb_ref n with
                    | Some _ => m
                    | None => <[nb_ref n := n]> m
                    end) v ∅.

(** clusterizeNeighbouringEvents, lines 707-800. The clusters come out in the
    order of their ids; [map_to_list] gives the same elements in some order. *)
Definition clusterize (fuel : nat) (G : gmap N (nb P)) : outcome (list (gmap N (nb P))) :=
  match rounds fuel fuel 0 (Cst G ∅ ∅) with
  | Done s => Done (to_map <$> (map_to_list (c_cls s)).*2)
  | Throw => Throw
  | NoFuel => NoFuel
  end.
End cluster.
Arguments trav : clear implicits.
Arguments cst : clear implicits.
