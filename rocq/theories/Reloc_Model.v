(** Model of the relocation loop, libs/hdd/dd.cpp:470-518 (one cluster after the other),
    656-786 (DD::relocate), 1013-1095 (computeEventResiduals) and 1096-1187
    (updateRelocatedEvents).

    - The travel time tables, the double difference system and its solution are the
      argument [w]: what they return in each iteration, for the catalog of that
      iteration, is arbitrary.  The rules followed by the solver are in Solver_Props.v,
      those of addObservations in AddObs_Model.v.
    - The values of the residual statistics (relocInfo) are arbitrary too; whether an
      event or a phase is marked as relocated is what is modelled.
    - A cluster is the list of its (event id, reference id) in the order of iteration.
    - The systems solved (the catalog they were made from and the solution) are returned
      beside the catalog.
    - Logging and diagnostic files are left out. *)
From Coq Require Import Reals.
From stdpp Require Import gmap list.
From Verif Require Import Index_Model Csv_Model Catalog_Model.
From Verif Require Import Solver_Model.

(** 675-680: the parameter of iteration [it] of [n]; real numbers *)
Definition interpolate (n it : nat) (start fin : R) : R :=
  (if decide (n < 2)%nat then (start + fin) / 2 else start + (fin - start) * INR it / INR (n - 1))%R.

Section reloc.
Context {V : Type}.
Notation hypo := (V * V * V * Z)%type.
Notation delta := (V * V * V * V)%type.
Variable ins : list (phase V) → phase V → list (phase V).
(** 1135-1151: the new latitude, longitude, depth and time *)
Variable move : hypo → delta → hypo.

(** A solution: changes by event, and the phases used *)
Record sol := Sol { so_change : N → option delta; so_used : N → Csv_Model.text → Csv_Model.text → bool }.
Record world := World {
  w_ttt : nat → catalog V → N → bool;                (* addObservations, 699-702 *)
  w_rms : nat → catalog V → N → V * V;
  w_res : nat → catalog V → phase V → V * V * V;
  w_prepare : nat → catalog V → bool;                (* 733; false: exception *)
  w_solve : nat → catalog V → option sol }.          (* 752-762; None: exception *)

Definition hypo_of (e : event V) : hypo := (e_lat e, e_lon e, e_depth e, e_time e).
Definition set_hypo (e : event V) (h : hypo) : event V :=
  let '(lat, lon, dep, t) := h in Ev (e_id e) t lat lon dep (e_mag e) (e_reloc e).
Definition set_mark (e : event V) (m : option (V * V)) : event V :=
  Ev (e_id e) (e_time e) (e_lat e) (e_lon e) (e_depth e) (e_mag e) m.
Definition set_p_mark (p : phase V) (m : option (V * V * V)) : phase V :=
  Pha (p_ev p) (p_staid p) (p_time p) (p_lower p) (p_upper p) (p_type p) (p_net p) (p_sta p) (p_loc p) (p_cha p) (p_proc p) m.
Definition marked (e : event V) : bool := bool_decide (is_Some (e_reloc e)).

(** Catalog::empty, catalog.cpp:217-220 *)
Definition cat_empty (c : catalog V) : bool := bool_decide (c_sta c = ∅ ∧ c_ev c = ∅ ∧ c_ph c = ∅)
.

(** dd.cpp 696-723 *)
Definition revert (w : world) (it : nat) (prev cur : catalog V) (x : N * N) : res (catalog V) :=
  let k := x.1 in
  if w_ttt w it cur k || cat_empty prev then Ok cur
  else match c_ev cur !! k with
       | None => Exc
       | Some e =>
           if negb (marked e) then Ok cur
           else match add_from ins (remove_event cur k) k prev true with
                | CRet c _ => Ok c
                | CExc _ => Exc
                | CUB => Bad
                end
       end.

(** 1027-1085: the values of the marks of the reference events and of their phases *)
Definition residual (w : world) (it : nat) (c0 cur : catalog V) (x : N * N) : res (catalog V) :=
  let ref := x.2 in
  match c_ev cur !! ref with
  | None => Exc
  | Some e =>
      if decide (Forall (λ p, is_Some (c_sta cur !! p_staid p)) (phs cur (e_id e))) then
        Ok (Cat (c_sta cur) (<[ref := set_mark e ((λ _, w_rms w it c0 ref) <$> e_reloc e)]> (c_ev cur))
                (<[e_id e := (λ p, set_p_mark p ((λ _, w_res w it c0 p) <$> p_reloc p)) <$> phs cur (e_id e)]> (c_ph cur)))
      else Exc
  end.

(** 1116-1181 *)
Definition upd_phase (w : world) (it : nat) (c0 : catalog V) (first : bool) (so : sol) (ev : N) (p : phase V) : phase V :=
  let p := if first then set_p_mark p None else p in
  if so_used so ev (p_staid p) (p_type p) then set_p_mark p (Some (w_res w it c0 p)) else p.
Definition update (w : world) (it : nat) (c0 : catalog V) (so : sol) (cur : catalog V) (x : N * N) : res (catalog V) :=
  let ref := x.2 in
  match c_ev cur !! ref with
  | None => Exc
  | Some e =>
      let first := bool_decide (it = 0) in
      let e := if first then set_mark e None else e in
      match so_change so (e_id e) with
      | None => Ok (Cat (c_sta cur) (<[ref := e]> (c_ev cur)) (c_ph cur))
      | Some d =>
          if decide (Forall (λ p, is_Some (c_sta cur !! p_staid p)) (phs cur (e_id e))) then
            Ok (Cat (c_sta cur) (<[ref := set_mark (set_hypo e (move (hypo_of e) d)) (Some (w_rms w it c0 ref))]> (c_ev cur))
                    (<[e_id e := upd_phase w it c0 first so (e_id e) <$> phs cur (e_id e)]> (c_ph cur)))
          else Exc
      end
  end.

(** 667-771; [k] iterations with a solution are left *)
Fixpoint iterate (w : world) (cl : list (N * N)) (k it : nat) (cur prev : catalog V) (log : list (catalog V * sol)) : res (catalog V * list (catalog V * sol)) :=
  rbind (rloop (revert w it prev) cl cur) (λ c1,
  rbind (rloop (residual w it c1) cl c1) (λ c2,
  if negb (w_prepare w it c2) then Exc
  else match k with
       | 0 => Ok (c2, log)
       | S k' =>
           match w_solve w it c2 with
           | None => Ok (c2, log)
           | Some so => rbind (rloop (update w it c2 so) cl c2) (λ c3, iterate w cl k' (S it) c3 c2 (log ++ [(c2, so)]))
           end
       end)).
(** 773-786 *)
Definition collect (cur acc : catalog V) (e : event V) : res (catalog V) :=
  if marked e then
    match add_from ins acc (e_id e) cur true with CRet c _ => Ok c | CExc _ => Exc | CUB => Bad end
  else Ok acc.
Definition relocate (w : world) (cl : list (N * N)) (n : nat) (c : catalog V) : res (catalog V * list (catalog V * sol)) :=
  rbind (iterate w cl n 0 c empty_cat []) (λ '(cur, log),
  rbind (rloop (collect cur) (sorted_events (c_ev cur)) empty_cat) (λ out, Ok (out, log))).

(** 461-516: one cluster after the other, each with its own world *)
Definition relocate_multi (n : nat) (c : catalog V) (cls : list (world * list (N * N))) : res (catalog V) :=
  rloop (λ acc x, rbind (relocate x.1 x.2 n c) (λ '(out, _),
    match add_cat ins acc out true with CRet acc' _ => Ok acc' | CExc _ => Exc | CUB => Bad end)) cls empty_cat.
End reloc.
Arguments sol : clear implicits.
Arguments world : clear implicits.
