(** Model of libs/hdd/xcorrcache.h: class XCorrCache.
    [C] is the type of coefficients, [L] the type of lags with its unary minus
    (doubles in the code; nothing but the minus sign is used). *)
From stdpp Require Import gmap list strings.

Section xcorrcache.
Context {C L : Type} (neg : L → L).

(** xcorrcache.h:44-48 *)
Record entry := Entry { e_valid : bool; e_coeff : C; e_lag : L }.

(** xcorrcache.h:166-171: event id -> station id -> phase type -> event id -> Entry *)
Local Notation cache := (gmap N (gmap string (gmap string (gmap N entry)))).

(** Chained at(); [None] stands for std::out_of_range. *)
Definition at4 (m : cache) (a : N) (s p : string) (b : N) : option entry :=
  m !! a ≫= λ m1, m1 !! s ≫= λ m2, m2 !! p ≫= λ m3, m3 !! b.

(** Chained operator[] followed by assignment of the entry (70-73): missing inner
    maps are created. *)
Definition set4 (m : cache) (a : N) (s p : string) (b : N) (e : entry) : cache :=
  let m1 := default ∅ (m !! a) in
  let m2 := default ∅ (m1 !! s) in
  let m3 := default ∅ (m2 !! p) in
  <[a := <[s := <[p := <[b := e]> m3]> m2]> m1]> m.

(** at(a).at(s).at(p).erase(b) inside try/catch (74-79, 97-108). *)
Definition erase4 (m : cache) (a : N) (s p : string) (b : N) : cache :=
  match m !! a with
  | None => m
  | Some m1 =>
    match m1 !! s with
    | None => m
    | Some m2 =>
      match m2 !! p with
      | None => m
      | Some m3 => <[a := <[s := <[p := delete b m3]> m2]> m1]> m
      end
    end
  end.

(** xcorrcache.h:62-80 add *)
Definition xc_add (m : cache) (a b : N) (s p : string) (e : entry) : cache :=
  erase4 (set4 m a s p b e) b s p a.

(** xcorrcache.h:92-109 remove *)
Definition xc_remove (m : cache) (a b : N) (s p : string) : cache :=
  erase4 (erase4 m a s p b) b s p a.

(** xcorrcache.h:120-142 get; [None] is the return value false. *)
Definition xc_get (m : cache) (a b : N) (s p : string) : option entry :=
  match at4 m a s p b with
  | Some e => Some e
  | None =>
    match at4 m b s p a with
    | Some e => Some (Entry (e_valid e) (e_coeff e) (neg (e_lag e)))
    | None => None
    end
  end.

(** xcorrcache.h:111-118 has *)
Definition xc_has (m : cache) (a b : N) (s p : string) : bool :=
  bool_decide (is_Some (xc_get m a b s p)).

(** A call of the forEach callback: (ev1, ev2, station, phase, entry). *)
Definition quint := (N * N * string * string * entry)%type.

(** xcorrcache.h:150-159 forEach: the calls made, in an order of the maps'
    choosing (this is one such order; the theorems quantify over permutations). *)
Definition xc_entries (m : cache) : list quint :=
  kv1 ← map_to_list m; kv2 ← map_to_list kv1.2; kv3 ← map_to_list kv2.2;
  kv4 ← map_to_list kv3.2;
  [(kv1.1, kv4.1, kv2.1, kv3.1, kv4.2)].

(** xcorrcache.h:82-90 add(const XCorrCache&), given the order of the calls. *)
Definition xc_merge (m : cache) (order : list quint) : cache :=
  fold_left (λ m '(a, b, s, p, e), xc_add m a b s p e) order m.

(** Public operations. *)
Inductive xop := XAdd (a b : N) (s p : string) (e : entry) | XRemove (a b : N) (s p : string).
Definition xc_step (m : cache) (o : xop) : cache :=
  match o with
  | XAdd a b s p e => xc_add m a b s p e
  | XRemove a b s p => xc_remove m a b s p
  end.
Definition xc_run (os : list xop) : cache := fold_left xc_step os ∅.
End xcorrcache.
Arguments entry : clear implicits.
Arguments quint : clear implicits.
Notation cache C L := (gmap N (gmap string (gmap string (gmap N (entry C L))))) (only parsing).
Arguments xop : clear implicits.
