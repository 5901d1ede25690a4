(** Model of TTT::NLLGrid, libs/hdd/ttt/nllgrid.cpp 188-469 and nllgrid.h 104-113: the choice of the
    grid of a station, the cache of the open grids and the memory of what cannot be loaded.

    - A station is a value of a type [St]; [lab s] are the texts std::to_string gives for its
      latitude, longitude and elevation (six decimals: different stations may have the same).
    - [near] is what nnSearch gives for the KD-tree of the time or angle grids of P (true) or S
      (false): see KdTree_Model and KdGeo_Model. An undefined index (all distances NaN) is
      undefined behaviour.
    - [tval], [vval], [aval] are getTime, getVel and getAngles of an open grid at the position of an
      event (GridCell_Model, GridAngle_Model); None: an exception. The azimuth is None if it is NaN.
    - Whether Grid::open succeeds is an argument of each call; a failed open leaves the grid closed
      (in memory mode a short read does not: GridFile_Props).
    - Not modelled: the scan of the directory by the constructor, the log. *)
From Coq Require Import Reals Ascii.
From stdpp Require Import gmap strings list.
From Verif Require Import Lru_Model KdTree_Model Geo_Model.
Local Open Scope R_scope.

Notation text := (list ascii).
Inductive kind := KTime | KAngle.
(** The grids: those of the KD-trees, and the two velocity grids *)
Inductive gref := GTree (k : kind) (p : bool) (i : nat) | GVel (p : bool).
Global Instance kind_eq_dec : EqDecision kind.
Proof. solve_decision. Defined.
Global Instance gref_eq_dec : EqDecision gref.
Proof. solve_decision. Defined.
Global Instance gref_countable : Countable gref.
Proof.
  refine (inj_countable'
    (λ g, match g with GTree KTime p i => inl (p, i) | GTree KAngle p i => inr (inl (p, i)) | GVel p => inr (inr p) end)
    (λ x, match x with inl (p, i) => GTree KTime p i | inr (inl (p, i)) => GTree KAngle p i | inr (inr p) => GVel p end) _).
  by intros [[] ? ?|?].
Defined.

(** nllgrid.h 104-112 *)
Record holder := Holder { h_vel : option gref; h_time : option gref; h_angle : option gref }.
Definition holder_grids (h : holder) : list gref := option_list (h_vel h) ++ option_list (h_time h) ++ option_list (h_angle h).
(** _openGrids, _unloadables, and the grids that are open *)
Record nll := Nll { n_cache : lru text holder; n_bad : gset text; n_open : gset gref }.

Inductive exc := ENotFound | EOpenFails | EClosed | EData.
Inductive out (A : Type) := Val (a : A) | Exc (e : exc) | UB.
Arguments Val {_} a. Arguments Exc {_} e. Arguments UB {_}.
Definition obind {A B} (x : nll * out A) (f : nll → A → nll * out B) : nll * out B :=
  match x.2 with Val a => f x.1 a | Exc e => (x.1, Exc e) | UB => (x.1, UB) end.

(** What compute with angles gives: time, azimuth, dip [deg], dtdd, dtdh *)
Record answer := Ans { a_time : R; a_azi : R; a_dip : R; a_dtdd : R; a_dtdh : R }.

Section nll.
Context {St Q : Type}.
Variable lab : St → text * text * text.
Variable near : kind → bool → St → @nnres R.
Variable hasvel : bool → bool.          (* _PVelGrid, _SVelGrid are not null *)
Variable maxdist : R.                   (* _maxSearchDistance *)
Variable tval vval : gref → Q → option R.
Variable aval : gref → Q → option (option R * R).
Variable eazi : Q → St → R.             (* computeAzimuth from the event to the station [rad] *)

Definition colon : ascii := ":".
(** 209-210, 297, 358-359 *)
Definition tree_key (k : kind) (ph : text) (s : St) : text :=
  let '(a, b, c) := lab s in
  ((((match k with KTime => list_ascii_of_string "time:" | KAngle => list_ascii_of_string "angle:" end) ++ ph)
    ++ colon :: a) ++ colon :: b) ++ colon :: c.
Definition vel_key (ph : text) : text := list_ascii_of_string "velocity:" ++ ph.

Definition phase_of (ph : text) : option bool :=
  if bool_decide (ph = ["P"%char]) then Some true else if bool_decide (ph = ["S"%char]) then Some false else None.

(** The search on a miss, 228-268 and 377-417: nothing found or too far (both are remembered),
    undefined, or a grid *)
Inductive found := FNone | FUndef | FGrid (g : gref).
Definition tree_search (k : kind) (ph : text) (s : St) : found :=
  match phase_of ph with
  | None => FNone
  | Some p =>
      match near k p s with
      | NNEmpty => FNone
      | NNUndef => FUndef
      | NNFound i d => if Rlt_dec maxdist (d * 1000) then FNone else FGrid (GTree k p i)
      end
  end.
(** 314-329 *)
Definition vel_search (ph : text) : found :=
  match phase_of ph with Some p => if hasvel p then FGrid (GVel p) else FNone | None => FNone end.

(** 278-292, 337-350, 426-439: open the grid unless it is open *)
Definition open_grid (can : gref → bool) (key : text) (g : gref) (s : nll) : nll * out gref :=
  if bool_decide (g ∈ n_open s) then (s, Val g)
  else if can g then (Nll (n_cache s) (n_bad s) ({[g]} ∪ n_open s), Val g)
  else (Nll (n_cache s) ({[key]} ∪ n_bad s) (n_open s), Exc EOpenFails).

(** 192-196: the callback closes the grids of the holder *)
Definition close_popped (calls : list (text * holder)) (o : gset gref) : gset gref :=
  o ∖ list_to_set (calls ≫= λ c, holder_grids c.2).

(** 212-292, 299-350, 361-439; [sel] picks the member of the holder, [rem]: a search without result
    is remembered in _unloadables *)
Definition access (can : gref → bool) (key : text) (sel : holder → option gref) (mk : gref → holder)
    (fnd : found) (rem : bool) (s : nll) : nll * out gref :=
  match lru_get (n_cache s) key with
  | None => (s, UB)
  | Some (c, RVal h) =>
      match sel h with
      | None => (Nll c (n_bad s) (n_open s), UB)
      | Some g => open_grid can key g (Nll c (n_bad s) (n_open s))
      end
  | Some (c, _) =>
      if bool_decide (key ∈ n_bad s) then (Nll c (n_bad s) (n_open s), Exc ENotFound)
      else
        match fnd with
        | FNone => (Nll c (if rem then {[key]} ∪ n_bad s else n_bad s) (n_open s), Exc ENotFound)
        | FUndef => (Nll c (n_bad s) (n_open s), UB)
        | FGrid g =>
            match lru_put c key (mk g) with
            | None => (s, UB)
            | Some (c', calls) => open_grid can key g (Nll c' (n_bad s) (close_popped calls (n_open s)))
            end
        end
  end.

(** A grid that is not open throws, GridFile_Model *)
Definition read {A} (f : gref → Q → option A) (g : gref) (q : Q) (s : nll) : nll * out A :=
  (s, if bool_decide (g ∈ n_open s) then match f g q with Some x => Val x | None => Exc EData end else Exc EClosed).

Definition mk_time (g : gref) : holder := Holder None (Some g) None.
Definition mk_vel (g : gref) : holder := Holder (Some g) None None.
Definition mk_angle (g : gref) : holder := Holder None None (Some g).

(** 201-295 *)
Definition compute_time (can : gref → bool) (x : St) (ph : text) (q : Q) (s : nll) : nll * out R :=
  obind (access can (tree_key KTime ph x) h_time mk_time (tree_search KTime ph x) true s)
    (λ s g, read tval g q s).

(** 441-453 *)
Definition angles (q : Q) (x : St) (tt v : R) (ad : option R * R) : answer :=
  let dip := degToRad (ad.2 - 90) in
  Ans tt (match ad.1 with Some a => a | None => radToDeg (eazi q x) end) ad.2
      (cos dip / km2deg v 0) (sin dip / v).

(** 297-453 *)
Definition compute_full (can : gref → bool) (x : St) (ph : text) (q : Q) (s : nll) : nll * out answer :=
  obind (compute_time can x ph q s) (λ s tt,
  obind (access can (vel_key ph) h_vel mk_vel (vel_search ph) false s) (λ s g,
  obind (read vval g q s) (λ s v,
  obind (access can (tree_key KAngle ph x) h_angle mk_angle (tree_search KAngle ph x) true s) (λ s g,
  obind (read aval g q s) (λ s ad,
  (s, Val (angles q x tt v ad))))))).

(** 199 *)
Definition close_open_files (s : nll) : nll := Nll (lru_clear (n_cache s)) (n_bad s) (n_open s).

(** 52-58, 190-196 *)
Definition nll_init (mx : nat) : nll := Nll (Lru [] ∅ mx true 0) ∅ ∅.

(** A program using the table: each call with the grids that can be opened at that moment *)
Inductive call := CTime (x : St) (ph : text) (q : Q) | CFull (x : St) (ph : text) (q : Q) | CClose.
Inductive reply := RTime (r : out R) | RFull (r : out answer) | RDone.
Definition step (can : gref → bool) (c : call) (s : nll) : nll * reply :=
  match c with
  | CTime x ph q => let r := compute_time can x ph q s in (r.1, RTime r.2)
  | CFull x ph q => let r := compute_full can x ph q s in (r.1, RFull r.2)
  | CClose => (close_open_files s, RDone)
  end.
Fixpoint run (cs : list ((gref → bool) * call)) (s : nll) : nll * list reply :=
  match cs with
  | [] => (s, [])
  | (can, c) :: cs => let r := step can c s in let t := run cs r.1 in (t.1, r.2 :: t.2)
  end.
End nll.
