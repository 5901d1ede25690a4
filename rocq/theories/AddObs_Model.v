(** Model of DD::addObservations and DD::addObservationParams, libs/hdd/dd.cpp:794-1011, and
    of Solver::getObservationParams, libs/hdd/solver.cpp:337-371.

    - Doubles are real numbers, times are microseconds.
    - The travel time table is the argument [ttt]; None is an exception.
    - The calls made to the solver are recorded beside it.
    - The (station, phase, neighbour) triples are visited in an arbitrary order; the code sorts
      them so that the cached phase of the reference event is found again.
    - Reading the processing information of a phase that was never filled is [Bad].
    - get() on an empty cache finds nothing, so that the test of empty() is left out.
    - addStation of the solver,
 logging and the list of bad stations are left out. *)
From Coq Require Import Ascii String Reals.
From stdpp Require Import numbers list gmap countable strings.
From Verif Require Import Time_Model Index_Model DDSystem_Model Csv_Model Catalog_Model XCorrCache_Model.
From Verif Require Import Solver_Model Solver_Hist.

(** solver.cpp:337-371 *)
Definition get_params {D} (s : @solver D) (e : N) (sta ph : (list ascii)) : option (@oprm D) :=
  match idx_toIdx (cv_ev s) e with
  | None => None
  | Some i => match idx_toIdx (cv_ph s) (ph_sta_id sta ph) with
              | None => None
              | Some p => get_prm s i p
              end
  end.

Section add.
Notation op := (@op R).
Notation xcache := (gmap N (gmap string (gmap string (gmap N (@entry R R))))).
Notation state := (@solver R * list op)%type.
Variable ttt : event R → station R → (list ascii) → option (R * R * R * R * R).
Variable km_of_degree : R.
(** DD options: PSTableOnly; usePickUncertainties, xcorrWeightScaler; xcorrOpt.phase[].minCoef *)
Record obs_cfg := ObsCfg { oc_ps : bool; oc_unc : bool; oc_scale : R; oc_min : ptype → option R }.
Variable cfg : obs_cfg.

Definition push (st : state) (x : op) : state := (apply 0%R st.1 x, st.2 ++ [x]).
Definition sec (d : Z) : R := (IZR d / 1000000)%R.

(** 964-975; None: unfilled processing information is read *)
Definition phase_name (p : phase R) : option (list ascii) :=
  if oc_ps cfg then
    match p_proc p with
    | None => None
    | Some pr => Some match pr_type pr with TP => ["P"%char] | TS => ["S"%char] | TNO => p_type p end
    end
  else Some (p_type p).

(** 987-999 *)
Definition params_of (e : event R) (p : phase R) (ch : bool) (t : R * R * R * R * R) : @oprm R :=
  let '(tm, azim, _, dtdd, dtdh) := t in
  let dtdd := (dtdd / km_of_degree)%R in
  let angle := ((90 - azim) * PI / 180)%R in
  Oprm ch tm (sec (p_time p - e_time e) - tm)%R (dtdd * - cos angle)%R (dtdd * - sin angle)%R (- dtdh)%R.

(** 947-1011 *)
Definition add_obs_params (st : state) (e : event R) (s : station R) (p : phase R) (ch : bool) : res (state * bool) :=
  match get_params st.1 (e_id e) (s_id s) (p_type p) with
  | Some _ => Ok (st, true)
  | None =>
      match phase_name p with
      | None => Bad
      | Some name =>
          match ttt e s name with
          | None => Ok (st, false)
          | Some t => Ok (push (push st (AddEv (e_id e))) (AddPrm (e_id e) (s_id s) (p_type p) (params_of e p ch t)), true)
          end
      end
  end.

(** searchPhase(...)->second *)
Definition find_phase (c : catalog R) (k : N) (sta ph : (list ascii)) : res (phase R) :=
  match search_phase c k sta ph with
  | None => Bad
  | Some i => match phs c k !! i with Some p => Ok p | None => Bad end
  end.

(** 891-907, 913-931: time difference, weight, use of the cross-correlation and its coefficient *)
Definition observation (xc : xcache) (ref ev : event R) (sta ph : (list ascii)) (pr pn : phase R) (wr wn mincoef : R) : R * R * bool * R :=
  let diff := sec ((p_time pr - e_time ref) - (p_time pn - e_time ev)) in
  let w := if oc_unc cfg then ((wr + wn) / 2)%R else 1%R in
  match xc_get Ropp xc (e_id ref) (e_id ev) (string_of_list_ascii sta) (string_of_list_ascii ph) with
  | Some e =>
      if e_valid e then
        if Rle_dec mincoef (Rabs (e_coeff e)) then
          (diff - e_lag e, w + (w * oc_scale cfg - w) * Rabs (e_coeff e), true, e_coeff e)%R
        else (diff, w, false, e_coeff e)
      else (diff, w, false, 0%R)
  | None => (diff, w, false, 0%R)
  end.

(** Only read with usePickUncertainties *)
Definition class_weight (p : phase R) : res R :=
  match p_proc p with Some i => Ok (pr_weight i) | None => if oc_unc cfg then Bad else Ok 0%R end.
(** The variables of the loop: solver, the cached phase of the reference event with tttError, counters *)
Record loop := Loop { l_st : state; l_ref : option (phase R * bool); l_try : nat; l_ok : nat }.
Definition cached (l : loop) (sta ph : (list ascii)) : option (phase R * bool) :=
  match l_ref l with
  | Some (p, err) => if decide (p_staid p = sta ∧ p_type p = ph) then Some (p, err) else None
  | None => None
  end.
(** 825-851 *)
Definition ref_phase (c : catalog R) (ref : event R) (s : station R) (l : loop) (sta ph : (list ascii)) : res (loop * phase R * bool) :=
  match cached l sta ph with
  | Some (p, err) => Ok (l, p, err)
  | None =>
      rbind (find_phase c (e_id ref) sta ph) (λ p,
      rbind (add_obs_params (l_st l) ref s p true) (λ '(st, ok),
      Ok (Loop st (Some (p, negb ok)) (S (l_try l)) (if ok then S (l_ok l) else l_ok l), p, negb ok)))
  end.
(** 815-935 *)
Definition obs_step (c : catalog R) (xc : xcache) (ref : event R) (fixed : bool) (l : loop) (t : (list ascii) * (list ascii) * N) : res loop :=
  let '(sta, ph, k) := t in
  rbind (at_ (c_sta c !! sta)) (λ s,
  rbind (ref_phase c ref s l sta ph) (λ '(l, pr, err),
  if (err : bool) then Ok l
  else
    match p_proc pr with
    | None => Bad
    | Some ir =>
        rbind (at_ (oc_min cfg (pr_type ir))) (λ mincoef,
        rbind (at_ (c_ev c !! k)) (λ ev,
        rbind (find_phase c (e_id ev) sta ph) (λ pn,
        rbind (add_obs_params (l_st l) ev s pn (negb fixed)) (λ '(st, ok),
        let l := Loop st (l_ref l) (l_try l) (l_ok l) in
        if negb ok then Ok l
        else if decide (p_time pr - e_time ref < 0)%Z then Ok l
        else if decide (p_time pn - e_time ev < 0)%Z then Ok l
        else
          rbind (class_weight pn) (λ wn,
          let '(td, w, used, coeff) := observation xc ref ev sta ph pr pn (pr_weight ir) wn mincoef in
          Ok (Loop (push st (AddObs (e_id ref) (e_id ev) sta ph td w used coeff)) (l_ref l) (l_try l) (l_ok l)))))))
    end)).
(** 794-945 *)
Definition add_observations (c : catalog R) (xc : xcache) (ref : N) (order : list ((list ascii) * (list ascii) * N)) (fixed : bool) (st : state) : res (state * bool) :=
  rbind (at_ (c_ev c !! ref)) (λ e,
  rbind (rloop (obs_step c xc e fixed) order (Loop st None 0 0)) (λ l,
  Ok (l_st l, bool_decide (l_try l = 0) || bool_decide (0 < l_ok l)))).
End add.
