(** Model of libs/hdd/index.h: IdToIndex<T>. *)
From stdpp Require Import gmap list.
Local Open Scope N_scope.

(** Conversion to [unsigned] (32 bit). *)
Definition u32 (x : N) : N := x `mod` 2 ^ 32.

Section index.
Context {T : Type} `{Countable T}.

(** Data members, index.h:79-81. *)
Record idx := Idx { i_cur : N; i_to : gmap T N; i_from : gmap N T }.
Definition idx_init : idx := Idx 0 ∅ ∅.

(** index.h:43-51 convert: existing index, or the counter which is then
    incremented (32 bit). *)
Definition idx_convert (s : idx) (id : T) : idx * N :=
  match i_to s !! id with
  | Some i => (s, i)
  | None => let i := i_cur s in
            (Idx (u32 (i + 1)) (<[id := i]> (i_to s)) (<[i := id]> (i_from s)), i)
  end.

(** index.h:53-54; [None] is the exception thrown by at(). *)
Definition idx_toIdx (s : idx) (id : T) : option N := i_to s !! id.
Definition idx_fromIdx (s : idx) (i : N) : option T := i_from s !! i.
(** index.h:56-57 hasIdx, hasId (the overloads at 59-73 return the same flag). *)
Definition idx_hasIdx (s : idx) (i : N) : bool := bool_decide (is_Some (i_from s !! i)).
Definition idx_hasId (s : idx) (id : T) : bool := bool_decide (is_Some (i_to s !! id)).
(** index.h:75 size. *)
Definition idx_size (s : idx) : nat := size (i_to s).

(** A sequence of conversions, oldest first. *)
Definition idx_run (s : idx) (ids : list T) : idx := fold_left (λ s id, (idx_convert s id).1) ids s.
End index.
Arguments idx T {_ _}.
