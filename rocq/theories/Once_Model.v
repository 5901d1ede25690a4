(** Model of the commands that relocate given origins and exit: --origin-id and --ep of
    RTDD::run, apps/scrtdd/rtddtool.cpp 1105-1126 (reading of the file) and 1258-1325, on top
    of RealTime_Model.v (addProcess and everything below it).

    - The ids of the command line are given as a list: split_string of Config_Model.v.
    - Event parameters are a list of objects; objects are identified by their id.
    - [query]: is there a query object (query() is not null). It is used without a test in
      startProcess (1586). Whether Seiscomp provides one when the database is disabled is
      not part of the code.
    - The XML output is the list of objects at the time of writing. *)
From Coq Require Import QArith String.
From stdpp Require Import gmap list.
From Verif Require Import Scheduler_Model Region_Model RealTime_Model.
Local Open Scope Z_scope.

Inductive xobj := XOrigin (id : N) | XPick (id : N) | XOther (id : N).
Inductive exit_ :=
| ExUndefined (ef : list effect)
| ExThrow (ef : list effect)                                            (* an exception, which nobody catches *)
| Exit (ok : bool) (xml : option (list xobj)) (ef : list effect).       (* what is returned and written *)
Definition forced (cfg : config) (test : bool) : config :=
  Cfg (only_preferred cfg) true (allow_manual cfg) (allow_automatic cfg) (accepted_authors cfg) (force_profile cfg) test (profiles cfg) (wakeup cfg) [0].
Definition with_ep (b : bool) (w : world) : world :=
  World (w_get w) (w_parent w) (w_blocked w) (w_dist w) (w_load w) (w_reloc w) b (w_conn w).
(** 1737-1743: what is added to the event parameters *)
Definition added (ef : list effect) : list xobj :=
  concat ((λ e, match e with EXml id picks => XOrigin id :: (XPick <$> picks) | _ => [] end) <$> ef).

Section once.
Variable query shared : bool.
Variable ord : gmap key proc → list proc.
Section loop.
Variable cfg : config.
(** The object that runNewJobs starts, 1450-1500 *)
Definition next_object (now : Z) (a : app) : option obj :=
  let s := a_sched a in
  if sc_counter s - 1 <=? 0 then
    match sc_queue (update_all ord now (Sched (sc_procs s) (sc_queue s) (wakeup cfg) (sc_next s))) with
    | [] => None
    | x :: _ => a_objs a !! x.1
    end
  else None.
(** 1281-1285, 1310-1316: one origin *)
Inductive stepped := SUndefined | SResult (r : app_result).
Definition process (o : origin) (w : world) (t0 now : Z) (a : app) : stepped :=
  let s := a_sched a in
  let a0 := App (Sched (sc_procs s) (sc_queue s) 0 (sc_next s)) (a_objs a) (a_loaded a) in
  let a1 := insert_object cfg shared (OOrigin o) t0 a0 in
  match query, next_object now a1 with
  | false, Some (OOrigin _) => SUndefined
  | _, _ => SResult (handle_timeout cfg ord w now a1)
  end.
Inductive looped := LUndefined (ef : list effect) | LStopped (ef : list effect) | LDone (ef : list effect).
Definition before (ef : list effect) (r : looped) : looped :=
  match r with LUndefined ef' => LUndefined (ef ++ ef') | LStopped ef' => LStopped (ef ++ ef') | LDone ef' => LDone (ef ++ ef') end.
(** The loops; [None]: an origin that is not found (1276-1280) *)
Fixpoint loop (l : list (option origin * world * Z * Z)) (a : app) : looped :=
  match l with
  | [] => LDone []
  | (None, _, _, _) :: l' => loop l' a
  | (Some o, w, t0, now) :: l' =>
      match process o w t0 now a with
      | SUndefined => LUndefined []
      | SResult (Stopped ef) => LStopped ef
      | SResult (Running a' ef) => before ef (loop l' a')
      end
  end.
End loop.
Definition finish (xml : option (list xobj)) (r : looped) : exit_ :=
  match r with
  | LUndefined ef => ExUndefined ef
  | LStopped ef => ExThrow ef
  | LDone ef => Exit true (match xml with Some x => Some (x ++ added ef) | None => None end) ef
  end.
(** 1258-1296. [ep]: the event parameters, if --ep was given as well *)
Definition run_ids (cfg : config) (xmlout : bool) (ep : option (list xobj)) (ids : list (N * world * Z * Z)) : exit_ :=
  let '(ep', test) := match ep with
                      | Some _ => (ep, test_mode cfg)
                      | None => if xmlout then (Some [], true) else (None, test_mode cfg)
                      end in
  let w' := with_ep (match ep' with Some _ => true | None => false end) in
  let cfg' := forced cfg test in
  finish ep' (loop cfg' ((λ x : N * world * Z * Z, let '(id, w, t0, now) := x in (w_get w id, w' w, t0, now)) <$> ids) (app_init cfg')).
(** 1105-1126, 1299-1325. [file]: None if the file cannot be opened, Some None if it has no
    event parameters; else its objects, and those that are origins with their worlds *)
Definition run_ep (cfg : config) (file : option (option (list xobj * list (origin * world * Z * Z)))) : exit_ :=
  match file with
  | Some (Some (objs, origins)) =>
      let cfg' := forced cfg (test_mode cfg) in
      finish (Some objs) (loop cfg' ((λ x : origin * world * Z * Z, let '(o, w, t0, now) := x in (Some o, with_ep true w, t0, now)) <$> origins) (app_init cfg'))
  | _ => Exit false None []
  end.
End once.
