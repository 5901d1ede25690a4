(** What clustering should produce, for a neighbour graph [G] given as a map from
    event id to its Neighbours object. *)
From stdpp Require Import gmap list sets relations.
From Verif Require Import Cluster_Model.

Section spec.
Context {P : Type}.
Implicit Types G : gmap N (nb P).

(** x lists y as a neighbour with phases p. *)
Definition lists G (x y : N) (p : P) : Prop :=
  ∃ n, G !! x = Some n ∧ nb_phs n !! y = Some p.

(** Two listed events with a neighbour relation in either direction. *)
Definition linked G (x y : N) : Prop :=
  is_Some (G !! x) ∧ is_Some (G !! y) ∧ ((∃ p, lists G x y p) ∨ (∃ p, lists G y x p)).

(** Chains of such relations. *)
Definition connected G : N → N → Prop := rtc (linked G).

(** The keys of the input map are the reference ids of its elements. *)
Definition well_keyed G : Prop := ∀ k n, G !! k = Some n → nb_ref n = k.

(** Event x is in the i-th cluster. *)
Definition in_cluster (r : list (gmap N (nb P))) (i : nat) (x : N) : Prop :=
  ∃ c, r !! i = Some c ∧ is_Some (c !! x).

(** Some cluster says that x lists y with phases p. *)
Definition kept (r : list (gmap N (nb P))) (x y : N) (p : P) : Prop :=
  ∃ i c, r !! i = Some c ∧ lists c x y p.
End spec.
