(** Model of the construction of the cross-correlation cache, libs/hdd/dd.cpp:
    xcorrComponents (208-221), buildXCorrCache (1187-1233), buildXcorrDiffTTimePairs
    (1239-1352), preloadNonCatalogWaveforms (1354-1440), xcorrPhases (1472-1519),
    xcorrPhasesOneComponent (1521-1642) and getWaveform (1688-1725). The windows are those of
    XcorrWindow_Model, the slices those of Trace_Model and the correlation of two traces that
    of XCorr_Model.

    - Coefficients and lags are real numbers with exact arithmetic. A variable that was not
      assigned holds [Indet].
    - A waveform processor is a function of the request: that the caches do not change the
      answers is proved in WaveCache_Props.
    - The distances between events and stations are arguments.
    - The neighbours of an event and the elements of the cluster are visited in arbitrary
      orders, which are arguments.
    - [Bad] is undefined behaviour: the processing information of a phase was never filled,
      a phase that is missing is read, or a window has no length.
    - The calls of xcorrPhases are recorded beside the cache. Logging and counters are left
      out, and so is the name of the component that was used. *)
From Coq Require Import Ascii String Reals QArith Qreals.
From stdpp Require Import numbers list gmap countable strings.
From Verif Require Import TimeWindow_Model Trace_Model XcorrWindow_Model WaveCache_Model Csv_Model Catalog_Model Neighbours_Model XCorrCache_Model Solver_Model.
From Verif Require XCorr_Model.
Local Open Scope R_scope.

(** A double that may not have been assigned *)
Inductive dbl := Num (r : R) | Indet.
Definition dneg (x : dbl) : dbl := match x with Num r => Num (- r) | Indet => Indet end.

Global Instance psource_eq_dec : EqDecision psource.
Proof. solve_decision. Defined.

Section build.
Context {V I : Type}.
Notation xcache := (gmap N (gmap string (gmap string (gmap N (@entry dbl dbl))))).
Notation wave := (@trace I R).
Notation "'tstr' x" := (string_of_list_ascii x) (at level 9, x at level 9).

(** dd.h: XcorrOptions *)
Record phase_opt := PhaseOpt { po_win : xcorr_cfg; po_components : list text }.
Record xcorr_opt := XcorrOpt {
  xo_enable : bool; xo_minEvStaDist : R; xo_maxEvStaDist : R; xo_maxInterEvDist : R;
  xo_phase : ptype → option phase_opt }.
Variable opt : xcorr_opt.

(** procInfo *)
Definition proc (p : phase V) : res (pproc V) := match p_proc p with Some i => Ok i | None => Bad end.
(** xcorrOpt.phase.at(phase.procInfo.type) *)
Definition opt_of (p : phase V) : res phase_opt := rbind (proc p) (λ i, at_ (xo_phase opt (pr_type i))).

(** waveform.h 399-403 *)
Definition orientation (cha : text) : text := if decide (length cha = 3)%nat then drop 2 cha else [].
(** 208-221 *)
Definition components (p : phase V) : res (list text) :=
  rbind (opt_of p) (λ c,
  Ok (match po_components c with
      | [] | [[]] => [orientation (p_cha p)]
      | l => l
      end)).

(** 1442-1470 *)
Definition long_window (e : event V) (p : phase V) : res tw :=
  rbind (opt_of p) (λ c, match window_long (po_win c) (e_time e) (p_time p) with Some w => Ok w | None => Bad end).
Definition short_window (e : event V) (p : phase V) : res tw :=
  rbind (opt_of p) (λ c, match window_short (po_win c) (e_time e) (p_time p) with Some w => Ok w | None => Bad end).

(** ** getWaveform *)
Notation loader := (tw → phase V → event V → station V → transform → option wave).
Variable bg : catalog V.        (* _bgCat *)
Definition set_channel (p : phase V) (cha : text) : phase V :=
  Pha (p_ev p) (p_staid p) (p_time p) (p_lower p) (p_upper p) (p_type p) (p_net p) (p_sta p) (p_loc p) cha (p_proc p) (p_reloc p).
(** 1688-1725 *)
Definition request (p : phase V) (component : text) : option (phase V * transform) :=
  if decide (component = []) then None
  else if decide (component = ["T"%char]) then Some (p, TTransversal)
  else if decide (component = ["R"%char]) then Some (p, TRadial)
  else if decide (component = ["L"%char; "2"%char]) then Some (p, TL2)
  else Some (set_channel p (band_and_instrument (p_cha p) ++ component), TNone).
Definition get_waveform (ld : loader) (w : tw) (e : event V) (p : phase V) (component : text) : res (option wave) :=
  rbind (at_ (c_sta bg !! p_staid p)) (λ s,
  Ok (match request p component with
      | None => None
      | Some (p', t) => ld w p' e s t
      end)).

(** ** The measurement of one pair of phases *)
(** 1576-1579 *)
Definition trusted (s : psource) : bool := bool_decide (s = SrcCatalog) || bool_decide (s = SrcManual).
(** DD::xcorr, on traces *)
Definition real_trace (t : wave) : XCorr_Model.trace := XCorr_Model.Trace (t_data t) (Q2R (t_freq t)).
Definition correlate (t u : wave) (maxDelay : R) : res (R * XCorr_Model.coef) :=
  match XCorr_Model.dd_xcorr (real_trace t) (real_trace u) maxDelay 0 with Some r => Ok r | None => Bad end.
(** 1595-1611, 1614-1630: None is the return value false *)
Definition one_direction (on : bool) (short : wave) (w : res tw) (measure : wave → res (R * XCorr_Model.coef))
  : res (option (R * XCorr_Model.coef)) :=
  if on then
    rbind w (λ w,
    match slice short w with
    | SlUB => Bad
    | SlFalse _ => Ok None
    | SlTrue s => rbind (measure s) (λ r, Ok (Some r))
    end)
  else Ok (Some (0, XCorr_Model.NotANumber)).

(** The result: valid, coeffOut, lagOut *)
Definition outcome := (bool * dbl * dbl)%type.
(** 1632-1658 *)
Definition choose (r1 r2 : R * XCorr_Model.coef) : outcome :=
  match r1.2, r2.2 with
  | XCorr_Model.Fin c1, XCorr_Model.Fin c2 =>
      if Rlt_dec (Rabs c1) (Rabs c2) then (true, Num c2, Num r2.1) else (true, Num c1, Num r1.1)
  | XCorr_Model.Fin c1, _ => (true, Num c1, Num r1.1)
  | _, XCorr_Model.Fin c2 => (true, Num c2, Num r2.1)
  | _, _ => (false, Num 0, Num 0)
  end.
(** 1521-1642 *)
Definition one_component (ld1 ld2 : loader) (e1 : event V) (p1 : phase V) (e2 : event V) (p2 : phase V) (component : text) : res outcome :=
  let failed := Ok (false, Num 0, Num 0) in
  rbind (opt_of p1) (λ c,
  rbind (long_window e1 p1) (λ tw1,
  rbind (long_window e2 p2) (λ tw2,
  rbind (get_waveform ld1 tw1 e1 p1 component) (λ tr1,
  match tr1 with
  | None => failed
  | Some tr1 =>
    rbind (get_waveform ld2 tw2 e2 p2 component) (λ tr2,
    match tr2 with
    | None => failed
    | Some tr2 =>
      if Qeq_bool (t_freq tr1) (t_freq tr2) then
        rbind (proc p1) (λ i1, rbind (proc p2) (λ i2,
        let t1 := trusted (pr_source i1) in
        let t2 := trusted (pr_source i2) in
        let first := if Bool.eqb t1 t2 then true else negb t1 && t2 in
        let second := if Bool.eqb t1 t2 then true else t1 && negb t2 in
        let maxDelay := Q2R (XcorrWindow_Model.maxDelay (po_win c)) in
        rbind (one_direction first tr2 (short_window e2 p2) (λ s, correlate tr1 s maxDelay)) (λ r1,
        match r1 with
        | None => failed
        | Some r1 =>
          rbind (one_direction second tr1 (short_window e1 p1) (λ s, correlate s tr2 maxDelay)) (λ r2,
          match r2 with
          | None => failed
          | Some r2 => Ok (choose r1 r2)
          end)
        end)))
      else failed
    end)
  end)))).
(** 1496-1518 *)
Fixpoint try_components (one : text → res outcome) (l : list text) (o : outcome) : res outcome :=
  match l with
  | [] => Ok o
  | x :: l' => rbind (one x) (λ o, if o.1.1 then Ok o else try_components one l' o)
  end.
(** 1472-1519; coeffOut and lagOut are those of the caller, which are not initialised *)
Definition xcorr_phases (ld1 ld2 : loader) (e1 : event V) (p1 : phase V) (e2 : event V) (p2 : phase V) : res outcome :=
  if decide (p_type p1 = p_type p2) then
    if decide (band_and_instrument (p_cha p1) = band_and_instrument (p_cha p2)) then
      rbind (components p1) (λ l, try_components (one_component ld1 ld2 e1 p1 e2 p2) l (false, Indet, Indet))
    else Ok (false, Indet, Indet)
  else Ok (false, Indet, Indet).

(** ** The loops *)
Variable c : catalog V.
(** computeDistance *)
Variable sta_dist : event V → station V → R.
Variable ev_dist : event V → event V → R.
(** neighbours.ids() *)
Variable ids : neigh → list N.

(** 1284-1293 *)
Definition sta_in_range (e : event V) (s : station V) : bool :=
  let d := sta_dist e s in
  if Rlt_dec d (xo_minEvStaDist opt) then false
  else if Rlt_dec (xo_maxEvStaDist opt) d then (if Rle_dec 0 (xo_maxEvStaDist opt) then false else true) else true.
(** 1309-1315 *)
Definition ev_in_range (e f : event V) : bool :=
  if Rlt_dec (xo_maxInterEvDist opt) (ev_dist e f) then (if Rle_dec 0 (xo_maxInterEvDist opt) then false else true) else true.

Definition call := (event V * phase V * event V * phase V)%type.
Notation state := (xcache * list call)%type.
(** xcorrPhases with the loaders of the two events *)
Variable measure : event V → phase V → event V → phase V → res outcome.
Variable precomputed : xcache.

(** searchPhase(...)->second *)
Definition find_phase (k : N) (sta ph : text) : res (phase V) :=
  match search_phase c k sta ph with
  | None => Bad
  | Some i => match phs c k !! i with Some p => Ok p | None => Bad end
  end.
Definition outcome_entry (o : outcome) : @entry dbl dbl := let '(v, x, l) := o in Entry v x l.
(** 1303-1349 *)
Definition pair_step (n : neigh) (ref : event V) (rp : phase V) (st : state) (k : N) : res state :=
  rbind (at_ (c_ev c !! k)) (λ ev,
  if ev_in_range ref ev then
    if n_has_ph n k (p_staid rp) (p_type rp) then
      rbind (find_phase (e_id ev) (p_staid rp) (p_type rp)) (λ p,
      rbind (proc p) (λ i,
      if decide (pr_source i = SrcCatalog) then
        let s := tstr (p_staid rp) in
        let t := tstr (p_type rp) in
        if xc_has dneg st.1 (e_id ref) (e_id ev) s t then Ok st
        else
          match xc_get dneg precomputed (e_id ref) (e_id ev) s t with
          | Some e => Ok (xc_add st.1 (e_id ref) (e_id ev) s t e, st.2)
          | None =>
              rbind (measure ref rp ev p) (λ o,
              Ok (xc_add st.1 (e_id ref) (e_id ev) s t (outcome_entry o), st.2 ++ [(ref, rp, ev, p)]))
          end
      else Exc))
    else Ok st
  else Ok st).
(** 1274-1351 *)
Definition phase_step (n : neigh) (ref : event V) (st : state) (rp : phase V) : res state :=
  rbind (at_ (c_sta c !! p_staid rp)) (λ s,
  if sta_in_range ref s then rloop (pair_step n ref rp) (ids n) st else Ok st).
(** 1239-1352 *)
Definition build_pairs (n : neigh) (ref : event V) (st : state) : res state :=
  rloop (phase_step n ref) (phs c (e_id ref)) st.
(** 1187-1233 *)
Definition build_cache (cluster : list neigh) : res state :=
  if xo_enable opt then
    rloop (λ st n, rbind (at_ (c_ev c !! n_ref n)) (λ ref, build_pairs n ref st)) cluster (∅, [])
  else Ok (∅, []).

(** ** preloadNonCatalogWaveforms: the requests made with getWaveform, in order *)
Definition wrequest := (tw * event V * phase V * text)%type.
(** 1395-1427 *)
Definition preload_pair (n : neigh) (ref : event V) (rp : phase V) (comps : list text) (acc : list wrequest) (k : N) : res (list wrequest) :=
  rbind (at_ (c_ev c !! k)) (λ ev,
  if ev_in_range ref ev then
    if n_has_ph n k (p_staid rp) (p_type rp) then
      rbind (long_window ref rp) (λ w,
      rloop (λ acc x, rbind (at_ (c_sta bg !! p_staid rp)) (λ _, Ok (acc ++ [(w, ref, rp, x)]))) comps acc)
    else Ok acc
  else Ok acc).
Definition preload_phase (n : neigh) (ref : event V) (acc : list wrequest) (rp : phase V) : res (list wrequest) :=
  rbind (at_ (c_sta c !! p_staid rp)) (λ s,
  rbind (components rp) (λ comps,
  if sta_in_range ref s then rloop (preload_pair n ref rp comps) (ids n) acc else Ok acc)).
Definition preload (n : neigh) (ref : event V) : res (list wrequest) :=
  rloop (preload_phase n ref) (phs c (e_id ref)) [].
End build.
