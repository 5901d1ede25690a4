(** Model of the relocation of a single event: DD::relocateSingleEvent, libs/hdd/dd.cpp:533-646,
    and the two steps of RTDD::Profile::relocateSingleEvent, apps/scrtdd/rtddtool.cpp:2027-2149.

    - The selection of the neighbours is the argument [st_sel] (its rules are in
      Select_Props.v); the cross-correlation cache, the travel time tables and the solver
      are in the world [st_world] of the relocation loop (Reloc_Model.v).
    - The event catalog made from the origin (2054, see Import_Model.v) is the argument
      [single].
    - [left] is the content of the catalog of step 1 after it was moved from at 2108,
      which the language leaves unspecified; libstdc++ leaves it empty.
    - The test for a loaded profile (2029-2035), the times of last usage, diagnostic
      files and log messages are left out, except the message at 603 which reads
      beyond the end of its string literal. *)
From stdpp Require Import gmap list.
From Coq Require Import Ascii.
From stdpp Require Import strings.
From Verif Require Import Index_Model Csv_Model Table_Model Catalog_Model Neighbours_Model.
From Verif Require Import Solver_Model Reloc_Model.

Section single.
Context {V : Type}.
Notation hypo := (V * V * V * Z)%type.
Notation delta := (V * V * V * V)%type.
Variable ins : list (phase V) → phase V → list (phase V).
Variable move : hypo → delta → hypo.
(** computePickWeight and the valid phases of the configuration *)
Variable weight : phase V → V.
Variables vp vs : list Csv_Model.text.
(** _bgCat *)
Variable bg : catalog V.

(** The options and services of one call *)
Record step := Step {
  st_sel : catalog V → event V → res neigh;     (* 588-592 *)
  st_min : nat;                                  (* clustOpt.minNumNeigh *)
  st_iter : nat;                                 (* solverOpt.algoIterations *)
  st_world : world V }.

(** The size of the literal at 603, with the final zero *)
Definition literal_size : nat := 34.

(** dd.cpp 533-646: the relocated catalog, the id given to the event and the systems
    solved *)
Definition relocate_single (manual : bool) (st : step) (single : catalog V) : res (catalog V * N * list (catalog V * sol V)) :=
  let c1 := fill_proc ins weight (if manual then SrcManual else SrcAutomatic) vp vs single in
  match sorted_events (c_ev c1) with
  | [] => Bad                                    (* begin()->second of no events *)
  | e :: _ =>
      rbind (st_sel st c1 e) (λ n,
      if decide (n_amount n < st_min st) then
        if decide (n_amount n < literal_size) then Ok (empty_cat, 0%N, []) else Bad
      else match to_catalog ins n bg false with
           | CRet c2 _ =>
               match add_from ins c2 (e_id e) c1 false with
               | CRet c3 new => rbind (relocate ins move (st_world st) [(new, new)] (st_iter st) c3) (λ '(out, log), Ok (out, new, log))
               | CExc _ => Exc
               | CUB => Bad
               end
           | CExc _ => Exc
           | CUB => Bad
           end)
  end.

(** rtddtool.cpp 2058-2080: the phase types of an automatic origin *)
Definition set_p_type (p : phase V) (t : Csv_Model.text) : phase V :=
  Pha (p_ev p) (p_staid p) (p_time p) (p_lower p) (p_upper p) t (p_net p) (p_sta p) (p_loc p) (p_cha p) (p_proc p) (p_reloc p).
Definition nonempty (t : Csv_Model.text) : bool := match t with [] => false | _ => true end.
Definition map_type (autoP autoS : Csv_Model.text) (p : phase V) : phase V :=
  if bool_decide (p_type p = tx "P") && nonempty autoP then set_p_type p autoP
  else if bool_decide (p_type p = tx "S") && nonempty autoS then set_p_type p autoS
  else p.
Definition map_types (manual : bool) (autoP autoS : Csv_Model.text) (c : catalog V) : catalog V :=
  if negb manual && (nonempty autoP || nonempty autoS)
  then Cat (c_sta c) (c_ev c) ((λ l : list (phase V), map_type autoP autoS <$> l) <$> c_ph c)
  else c.

(** 2119-2142: the start rms *)
Definition carry_rms (r1 r2 : catalog V) : res (catalog V) :=
  if cat_empty r2 then Ok r2
  else match sorted_events (c_ev r2) with
       | [] => Bad
       | ev :: _ =>
           if cat_empty r1 then Ok r2
           else match sorted_events (c_ev r1) with
                | [] => Bad
                | prev :: _ =>
                    match e_reloc prev with
                    | None => Ok r2
                    | Some (rms, _) =>
                        let ev' := set_mark ev (match e_reloc ev with Some (_, f) => Some (rms, f) | None => None end) in
                        match update_event r2 ev' false false with CRet r _ => Ok r | CExc _ => Exc | CUB => Bad end
                    end
                end
       end.

(** 2082-2147, without the construction of the event catalog: the result, and what the
    two steps returned *)
Definition two_steps (manual : bool) (autoP autoS : Csv_Model.text) (left : catalog V → catalog V) (s1 s2 : step) (single : catalog V)
  : res (catalog V * (catalog V * N * list (catalog V * sol V)) * (catalog V * N * list (catalog V * sol V))) :=
  let c0 := map_types manual autoP autoS single in
  rbind (relocate_single manual s1 c0) (λ r1,
  let ok1 := negb (cat_empty r1.1.1) in
  let c1 := if ok1 then r1.1.1 else c0 in
  let moved := if ok1 then left r1.1.1 else r1.1.1 in
  rbind (relocate_single manual s2 c1) (λ r2,
  rbind (carry_rms moved r2.1.1) (λ out, Ok (out, r1, r2)))).
End single.
Arguments step : clear implicits.
