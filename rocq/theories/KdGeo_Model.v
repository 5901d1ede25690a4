(** The KD-tree of libs/hdd/kdtree.h with the distances of libs/hdd/utils.cpp: real
    coordinates, computeDistance for the distance and lines 196-211, 338-351, 395-408,
    447-460 for the distance to the splitting plane. *)
From Coq Require Import Reals.
From stdpp Require Import numbers list.
From Verif Require Import Geo_Model KdTree_Model.
Local Open Scope R_scope.

Global Instance Rle_rel_dec : RelDecision Rle := Rle_dec.

Record gpoint := GP { g_lat : R; g_lon : R; g_depth : R }.
Definition gcoord_of (a : nat) (p : gpoint) : R :=
  match a with 0%nat => g_lat p | 1%nat => g_lon p | _ => g_depth p end.
Section geo.
Context (pts : nat → gpoint) (q : gpoint).
Definition gcoord (a i : nat) : R := gcoord_of a (pts i).
Definition gquery (a : nat) : R := gcoord_of a q.
Definition gdist (i : nat) : R := distance3 (g_lat (pts i)) (g_lon (pts i)) (g_depth (pts i)) (g_lat q) (g_lon q) (g_depth q).
Definition gadist (a i : nat) : R :=
  match a with
  | 0%nat => distance (g_lat (pts i)) 0 (g_lat q) 0 0
  | 1%nat => distance 0 (g_lon (pts i)) 0 (g_lon q) 0
  | _ => Rabs (g_depth (pts i) - g_depth q)
  end.
Definition geo_radius_search nth (n : nat) (rad : R) : list (R * nat) :=
  radius_search Rle gcoord gquery gdist gadist rad (make nth n).
Definition geo_nn_search nth (n : nat) (dmax : R) : nnres :=
  nn_search Rle gcoord gquery gdist gadist dmax (make nth n).
Definition geo_best_first nth pop (n : nat) (callback : list (nat * R) → bool) : list (nat * R) * bool :=
  best_first_search Rle gcoord gquery gdist gadist pop 0 callback (make nth n).
End geo.
