(** Model of libs/hdd/lrucache.h: class lru_cache.

    The C++ object holds a std::list of (key,value) pairs and an unordered_map
    from keys to list iterators.  Iterators are modelled by node identities
    (a fresh number per list node, which std::list guarantees to stay valid
    until that very node is erased); using an iterator whose node is no longer
    in the list is undefined behaviour and is the outcome [None] below. *)
From stdpp Require Import gmap list.

Section lru.
Context {K V : Type} `{Countable K}.

(** One element of std::list<key_value_pair_t> (lrucache.h:55-56). *)
Record node := Node { n_id : nat; n_key : K; n_val : V }.

(** The data members (lrucache.h:129-134); [l_next] only names fresh nodes;
    [l_cb] says whether a pop callback is registered. *)
Record lru := Lru {
  l_items : list node;
  l_map   : gmap K nat;
  l_max   : nat;
  l_cb    : bool;
  l_next  : nat }.

(** lru_cache(size_t max_size), lrucache.h:59-60. *)
Definition lru_init (mx : nat) : lru := Lru [] ∅ mx false 0.

(** Calls of the pop callback made by an operation, in order. *)
Local Notation calls := (list (K * V)).

(** Lookup of a node through an iterator. *)
Definition node_at (id : nat) (l : list node) : option node :=
  list_find (λ n, n_id n = id) l ≫= λ p, Some p.2.

(** std::list::erase(it): undefined behaviour if the node is not in the list. *)
Definition list_erase (id : nat) (l : list node) : option (list node) :=
  match node_at id l with
  | Some _ => Some (filter (λ n, n_id n ≠ id) l)
  | None => None
  end.

(** lrucache.h:71-103 put. [removelast] is list::pop_back; an empty list at that
    point would be undefined behaviour. *)
Definition lru_put (s : lru) (k : K) (v : V) : option (lru * calls) :=
  if bool_decide (l_max s = 0) then
    Some (s, if l_cb s then [(k, v)] else [])
  else
    let it := l_map s !! k in
    let id := l_next s in
    let items1 := Node id k v :: l_items s in
    match (match it with
           | Some old => items2 ← list_erase old items1; Some (items2, delete k (l_map s))
           | None => Some (items1, l_map s)
           end) with
    | None => None
    | Some (items2, map2) =>
      let map3 := <[k := id]> map2 in
      if bool_decide (l_max s < size map3) then
        match last items2 with
        | None => None
        | Some n =>
          Some (Lru (removelast items2) (delete (n_key n) map3) (l_max s) (l_cb s) (S id),
                if l_cb s then [(n_key n, n_val n)] else [])
        end
      else Some (Lru items2 map3 (l_max s) (l_cb s) (S id), [])
    end.

(** Result of an operation visible to the caller. *)
Inductive ret := RUnit | RVal (v : V) | RThrow | RBool (b : bool) | RSize (n : nat).

(** lrucache.h:105-115 get: splice moves the node to the front. *)
Definition lru_get (s : lru) (k : K) : option (lru * ret) :=
  match l_map s !! k with
  | None => Some (s, RThrow)
  | Some id =>
    match node_at id (l_items s) with
    | None => None
    | Some n =>
      Some (Lru (n :: filter (λ m, n_id m ≠ id) (l_items s)) (l_map s) (l_max s)
                (l_cb s) (l_next s), RVal (n_val n))
    end
  end.

(** lrucache.h:117-120 exists. *)
Definition lru_exists (s : lru) (k : K) : bool := bool_decide (is_Some (l_map s !! k)).

(** lrucache.h:122 size. *)
Definition lru_size (s : lru) : nat := size (l_map s).

(** lrucache.h:124-128 clear: the callback is not called. *)
Definition lru_clear (s : lru) : lru := Lru [] ∅ (l_max s) (l_cb s) (l_next s).

(** The public operations. *)
Inductive op := Put (k : K) (v : V) | Get (k : K) | Exists (k : K) | Size | Clear | Register.

(** One call: new state, result, callback invocations. *)
Definition lru_step (s : lru) (o : op) : option (lru * (ret * calls)) :=
  match o with
  | Put k v => '(s', c) ← lru_put s k v; Some (s', (RUnit, c))
  | Get k => '(s', r) ← lru_get s k; Some (s', (r, []))
  | Exists k => Some (s, (RBool (lru_exists s k), []))
  | Size => Some (s, (RSize (lru_size s), []))
  | Clear => Some (lru_clear s, (RUnit, []))
  | Register => Some (Lru (l_items s) (l_map s) (l_max s) true (l_next s), (RUnit, []))
  end.

(** A history: the calls made with what they returned, oldest first. *)
Fixpoint lru_run (s : lru) (os : list op) : option (lru * list (op * (ret * calls))) :=
  match os with
  | [] => Some (s, [])
  | o :: os' =>
    match lru_step s o with
    | None => None
    | Some (s1, r) =>
      match lru_run s1 os' with
      | None => None
      | Some (s2, t) => Some (s2, (o, r) :: t)
      end
    end
  end.
End lru.

Arguments node : clear implicits.
Arguments lru K V {_ _}.
Arguments ret : clear implicits.
Arguments op : clear implicits.
