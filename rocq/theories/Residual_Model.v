(** Model of the residual statistics of the relocated events: computeEventResiduals,
    libs/hdd/dd.cpp 1013-1095, over the real numbers.

    - [params]: solver.getObservationParams, the travel time residual of an observation if there
      is one (Solver_Model get_params, proved in AddObs_Props.v to hold the residual).
    - stations: the ids in the catalog; .at of another id throws.  The catalog is passed by
      reference to const and the function works on copies: an exception leaves it as it was.
    - Only the fields read or written here; the list of phases of an event is in the order of the
      multimap.  The summary over all events is only logged (OrderStats_Model). *)
From Coq Require Import Reals.
From stdpp Require Import gmap list strings.
From Verif Require Import Solver_Model.
Local Open Scope R_scope.

Record pinfo := PI_ { q_sta : string; q_type : string; q_class : R; q_start : R; q_final : R; q_weight : R }.
Record einfo := EI { i_startRms : R; i_finalRms : R; i_phs : list pinfo }.

Section residuals.
Variable params : N → string → string → option R.
Variable stations : gset string.
Variable usePickUncertainties : bool.
Variable first : bool.

(** 1041-1074; the state is (sum of squared residuals, sum of squared weights) *)
Definition res_phase (id : N) (acc : R * R * list pinfo) (p : pinfo) : res (R * R * list pinfo) :=
  let '(sr, sw, out) := acc in
  if decide (q_sta p ∈ stations) then
    let start := if first then 0 else q_start p in
    let weight := if usePickUncertainties then q_class p else 1 in
    match params id (q_sta p) (q_type p) with
    | None => Ok (sr, sw, out ++ [PI_ (q_sta p) (q_type p) (q_class p) start 0 weight])
    | Some r =>
        Ok (sr + r * weight * (r * weight), sw + weight * weight,
            out ++ [PI_ (q_sta p) (q_type p) (q_class p) (if first then r else start) (if first then 0 else r) weight])
    end
  else Exc.
(** 1028-1089 *)
Definition res_event (evs : gmap N einfo) (id : N) : res (gmap N einfo) :=
  rbind (at_ (evs !! id)) (λ e,
  rbind (rloop (res_phase id) (i_phs e) (0, 0, [])) (λ '(sr, sw, out),
  let start := if first then 0 else i_startRms e in
  Ok (<[id := if Rlt_dec 0 sw then
                if first then EI (R_sqrt.sqrt (sr / sw)) 0 out else EI start (R_sqrt.sqrt (sr / sw)) out
              else EI start 0 out]> evs))).
Definition event_residuals (refs : list N) (evs : gmap N einfo) : res (gmap N einfo) := rloop res_event refs evs.
End residuals.

(** The passes of DD::relocate, dd.cpp 667-771: [between] is what happens to the catalog between two
    calls (new locations, events put back). *)
Fixpoint passes (stations : gset string) (use : bool) (refs : list N)
    (l : list ((N → string → string → option R) * (gmap N einfo → gmap N einfo))) (first : bool) (evs : gmap N einfo) : res (gmap N einfo) :=
  match l with
  | [] => Ok evs
  | (params, between) :: l' =>
      rbind (event_residuals params stations use first refs (between evs)) (passes stations use refs l' false)
  end.
