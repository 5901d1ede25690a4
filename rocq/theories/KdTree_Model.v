(** Model of the KD-tree, libs/hdd/kdtree.h.

    Coordinates and distances range over an arbitrary type [D] with a decidable total
    order (doubles other than NaN). The distance function is an argument: [dist i] is
    computeDistance(point i, query), [adist a i] the distance from the query to the
    splitting plane of point [i] on axis [a]. Axes: 0 latitude, 1 longitude, 2 depth.

    - std::nth_element is an oracle: any rearrangement that puts some element at the
      middle with no larger one before it and no smaller one after it is allowed.
    - The tree is a value: a node of the C++ code lives in _nodes[idx] and points to its
      children; [C25_build] shows that no index occurs twice, so no node is overwritten.
    - std::multimap<double,size_t> is a list sorted by distance; emplace inserts after
      the entries with an equal key.
    - std::priority_queue::top may choose any of the smallest items: oracle [pop].
    - The callback of bestFirstSearch is a function of the calls made so far.
    - Not modelled: a default constructed tree (_root is uninitialised: undefined
      behaviour when searched), copy and move (they rebuild or keep the tree). *)
From stdpp Require Import numbers list.

Inductive tree := Leaf | Node (idx : nat) (axis : nat) (near0 near1 : tree).

(** The points of a tree. *)
Fixpoint indices (t : tree) : list nat :=
  match t with Leaf => [] | Node i _ l r => i :: indices l ++ indices r end.

Section kdtree.
Context {D : Type} (le : relation D) `{!RelDecision le}.
Notation lt x y := (¬ le y x).

(** ** Construction, 235-264 *)
Variable coord : nat → nat → D.                      (* axis, point *)
Variable nth : nat → list nat → nat → list nat.      (* axis, range, position *)

(** [fuel] bounds the recursion; the number of points suffices. *)
Fixpoint build (fuel : nat) (l : list nat) (depth : nat) : tree :=
  match fuel with
  | 0 => Leaf
  | S fuel =>
      if decide (length l = 0) then Leaf
      else
        let axis := depth mod 3 in
        let mid := (length l - 1) / 2 in
        let l' := nth axis l mid in
        match l' !! mid with
        | None => Leaf (* not possible *)
        | Some idx => Node idx axis (build fuel (take mid l') (S depth)) (build fuel (drop (S mid) l') (S depth))
        end
  end.
(** 53-62 *)
Definition make (n : nat) : tree := build n (seq 0 n) 0.

(** ** Queries *)
Variable qc : nat → D.        (* coordinates of the query *)
Variable dist : nat → D.
Variable adist : nat → nat → D.

(** The first and the second child to visit. *)
Definition near (axis idx : nat) (l r : tree) : tree := if decide (lt (qc axis) (coord axis idx)) then l else r.
Definition far (axis idx : nat) (l r : tree) : tree := if decide (lt (qc axis) (coord axis idx)) then r else l.

Definition eqD (x y : D) : bool := bool_decide (le x y ∧ le y x).

(** 266-311 *)
Fixpoint search (t : tree) : option nat :=
  match t with
  | Leaf => None
  | Node idx axis l r =>
      if eqD (coord 0 idx) (qc 0) && eqD (coord 1 idx) (qc 1) && eqD (coord 2 idx) (qc 2)
      then Some idx
      else
        let n := if decide (lt (qc axis) (coord axis idx)) then search l else search r in
        match n with
        | Some i => Some i
        | None =>
            if eqD (qc axis) (coord axis idx)
            then (if decide (lt (qc axis) (coord axis idx)) then search r else search l)
            else None
        end
  end.

(** 313-365; the state is the best index so far (uninitialised: None) and minDist. *)
Fixpoint nn (t : tree) (s : option nat * D) : option nat * D :=
  match t with
  | Leaf => s
  | Node idx axis l r =>
      let s := if decide (lt (dist idx) s.2) then (Some idx, dist idx) else s in
      let s := if decide (lt (qc axis) (coord axis idx)) then nn l s else nn r s in
      if decide (lt (adist axis idx) s.2)
      then (if decide (lt (qc axis) (coord axis idx)) then nn r s else nn l s)
      else s
  end.
(** 94-108; the exception for an empty tree, and the undefined index if no distance
    is below the largest double. *)
Inductive nnres := NNEmpty | NNUndef | NNFound (idx : nat) (d : D).
Definition nn_search (dmax : D) (t : tree) : nnres :=
  match t with
  | Leaf => NNEmpty
  | _ => match nn t (None, dmax) with (Some i, d) => NNFound i d | (None, _) => NNUndef end
  end.

(** std::multimap::emplace *)
Fixpoint emplace (x : D * nat) (q : list (D * nat)) : list (D * nat) :=
  match q with
  | [] => [x]
  | y :: q' => if decide (lt x.1 y.1) then x :: q else y :: emplace x q'
  end.

(** 367-422; None: rbegin() of an empty map is dereferenced. *)
Fixpoint knn (k : nat) (t : tree) (q : list (D * nat)) : option (list (D * nat)) :=
  match t with
  | Leaf => Some q
  | Node idx axis l r =>
      q ← (if decide (length q < k) then Some (emplace (dist idx, idx) q)
           else y ← last q;
                if decide (lt (dist idx) y.1) then Some (removelast (emplace (dist idx, idx) q)) else Some q);
      q ← (if decide (lt (qc axis) (coord axis idx)) then knn k l q else knn k r q);
      again ← (if decide (length q < k) then Some true else y ← last q; Some (bool_decide (lt (adist axis idx) y.1)));
      if again : bool
      then (if decide (lt (qc axis) (coord axis idx)) then knn k r q else knn k l q)
      else Some q
  end.
Definition knn_search (k : nat) (t : tree) : option (list (D * nat)) := knn k t [].

(** 424-474 *)
Fixpoint radius (rad : D) (t : tree) (q : list (D * nat)) : list (D * nat) :=
  match t with
  | Leaf => q
  | Node idx axis l r =>
      let q := if decide (le (dist idx) rad) then emplace (dist idx, idx) q else q in
      let q := if decide (lt (qc axis) (coord axis idx)) then radius rad l q else radius rad r q in
      if decide (le (adist axis idx) rad)
      then (if decide (lt (qc axis) (coord axis idx)) then radius rad r q else radius rad l q)
      else q
  end.
Definition radius_search (rad : D) (t : tree) : list (D * nat) := radius rad t [].

(** ** bestFirstSearch, 137-225 *)
Inductive item := INode (minDist : D) (t : tree) | IPoint (minDist : D) (idx : nat).
Definition key (x : item) : D := match x with INode d _ => d | IPoint d _ => d end.
Definition maxD (x y : D) : D := if decide (lt x y) then y else x.
Definition push_node (d : D) (t : tree) (q : list item) : list item :=
  match t with Leaf => q | _ => INode d t :: q end.
Variable pop : list item → option (item * list item).
(** Result: the calls of the callback; the flag says that the loop has ended (always,
    with enough fuel). *)
Fixpoint best_first (fuel : nat) (callback : list (nat * D) → bool) (q : list item) (out : list (nat * D)) : list (nat * D) * bool :=
  match fuel with
  | 0 => (out, false)
  | S fuel =>
      match pop q with
      | None => (out, true)
      | Some (IPoint d i, q) =>
          if callback (out ++ [(i, d)]) then (out ++ [(i, d)], true) else best_first fuel callback q (out ++ [(i, d)])
      | Some (INode d Leaf, q) => best_first fuel callback q out (* not possible *)
      | Some (INode d (Node idx axis l r), q) =>
          let q := IPoint (dist idx) idx :: q in
          let q := push_node d (near axis idx l r) q in
          let q := push_node (maxD d (adist axis idx)) (far axis idx l r) q in
          best_first fuel callback q out
      end
  end.
Definition best_first_search (zero : D) (callback : list (nat * D) → bool) (t : tree) : list (nat * D) * bool :=
  match t with
  | Leaf => ([], true)
  | _ => best_first (S (2 * length (indices t))) callback [INode zero t] []
  end.
End kdtree.
