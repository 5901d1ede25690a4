(** Model of what the real-time program does with the objects it receives,
    apps/scrtdd/rtddtool.cpp: handleMessage 1340-1348, 1351-1365, addObject and updateObject
    1374-1410, handleTimeout 1412-1416, checkProfileStatus 1424-1448, startProcess 1562-1624,
    processOrigin 1640-1775, getProfile 1836-1854, Profile::load 1893-1985 (whether it
    succeeds), Profile::relocateSingleEvent 2027-2056; on top of the scheduler of
    Scheduler_Model.v.

    - The answers of the rest of the system (object cache, database, blocked agencies,
      travel times and waveforms behind a relocation, whether a profile can be loaded) are
      the fields of a [world], which may differ in every step.
    - Whether the update of an object arrives as a change of the object already known or as
      another object is decided by Seiscomp: [shared].
    - An exception ends the program (it is not caught in this code); undefined behaviour too.
    - The objects of a message are given in the order of the set _todos, which is any order.
    - A profile is identified by its name: the configured names are assumed to be distinct.
    - Left out: logging, logObject, the journal, freeResources, the reply to a reload
      request, the assembly of the notifier message (a ESend stands for it). *)
From Coq Require Import QArith String.
From stdpp Require Import gmap list.
From Verif Require Import Scheduler_Model Region_Model.
Local Open Scope Z_scope.

Inductive mode := Automatic | Manual.
Global Instance mode_eq_dec : EqDecision mode.
Proof. solve_decision. Defined.
Record origin := Org { o_id : N; o_mode : option mode; o_author : option string; o_agency : string; o_place : option (Q * Q) }.
Record event := Ev { ev_id : N; ev_pref : N }.
Inductive obj := OPick (id : N) | OOrigin (o : origin) | OEvent (e : event).
Definition obj_key (ob : obj) : N := match ob with OPick i => i | OOrigin o => o_id o | OEvent e => ev_id e end.

Record config := Cfg {
  only_preferred : bool; force_processing : bool; allow_manual : bool; allow_automatic : bool;
  accepted_authors : list string; force_profile : string; test_mode : bool; profiles : list profile;
  wakeup : Z; delays : list Z }.
(** What a relocation gives: an exception, an empty catalog, or a new origin with picks *)
Inductive located := LThrow | LEmpty | LNew (id : N) (picks : list N).
Record world := World {
  w_get : N → option origin;          (* _cache.get<Origin> *)
  w_parent : N → option event;        (* query()->getEvent of an origin *)
  w_blocked : string → bool;          (* isAgencyIDBlocked *)
  w_dist : Q → Q → Q → Q → Q;         (* the distance used by circular regions *)
  w_load : string → bool;             (* does Profile::load succeed *)
  w_reloc : string → origin → located;
  w_ep : bool;                        (* is there an _eventParameters *)
  w_conn : bool }.                    (* is there a connection *)
Inductive effect :=
| ELoad (p : string) | ERelocate (p : string) (o : origin)
| EXml (id : N) (picks : list N) | ESend (id : N) (picks : list N).
Inductive outcome := PUndefined | PThrow | PRet (b : bool).

Section app.
Variable cfg : config.
Variable shared : bool.
Variable ord : gmap key proc → list proc.

(** 1880-1886 and 1893-1985; nothing if loaded (1901) *)
Definition load_profile (w : world) (loaded : gset string) (p : string) : gset string * list effect :=
  if decide (p ∈ loaded) then (loaded, [])
  else (if w_load w p then {[p]} ∪ loaded else loaded, [ELoad p]).
(** 1424-1434 *)
Definition check_profiles (w : world) (loaded : gset string) : gset string * list effect :=
  fold_left (λ acc p, let '(l, ef) := load_profile w acc.1 (p_name p) in (l, acc.2 ++ ef)) (profiles cfg) (loaded, []).
(** 1836-1854 *)
Definition origin_profile (w : world) (o : origin) : option profile :=
  match o_place o with
  | None => None
  | Some (lat, lon) => get_profile (w_dist w) (profiles cfg) lat lon (force_profile cfg)
  end.
(** 1652-1708: may the origin be processed *)
Definition passes (w : world) (o : origin) : bool :=
  if force_processing cfg then true
  else
    let isManual := match o_mode o with Some m => negb (bool_decide (m = Automatic)) | None => false end in
    if isManual && negb (allow_manual cfg) then false
    else if negb isManual && negb (allow_automatic cfg) then false
    else if match accepted_authors cfg with
            | [] => false
            | l => negb (existsb (λ a, match o_author o with Some b => String.eqb b a | None => false end) l)
            end then false
    else negb (w_blocked w (o_agency o)).
(** 2027-2056; an unloaded profile gives an empty catalog, a missing evaluation mode throws
    (2055) *)
Definition profile_relocate (w : world) (loaded : gset string) (p : string) (o : origin) : located * list effect :=
  if decide (p ∈ loaded) then
    (match o_mode o with None => LThrow | Some _ => w_reloc w p o end, [ERelocate p o])
  else (LEmpty, []).
(** 1640-1775 *)
Definition process_origin (w : world) (loaded : gset string) (o : origin) (p : string) : outcome * gset string * list effect :=
  if negb (passes w o) then (PRet false, loaded, [])
  else
    let '(loaded, ef1) := load_profile w loaded p in
    let '(r, ef2) := profile_relocate w loaded p o in
    match r with
    | LThrow => (PThrow, loaded, ef1 ++ ef2)
    | LEmpty => (PRet true, loaded, ef1 ++ ef2)
    | LNew id picks =>
        (PRet true, loaded, ef1 ++ ef2 ++ (if w_ep w then [EXml id picks] else [])
                          ++ (if w_conn w && negb (test_mode cfg) then [ESend id picks] else []))
    end.
(** 1562-1624 *)
Definition start_process (w : world) (loaded : gset string) (ob : obj) : outcome * gset string * list effect :=
  let '(org, isPreferred) :=
    match ob with
    | OOrigin o => (Some o, match w_parent w (o_id o) with Some e => bool_decide (ev_pref e = o_id o) | None => false end)
    | OEvent e => (w_get w (ev_pref e), true)
    | OPick _ => (None, false)
    end in
  if only_preferred cfg && negb (force_processing cfg) && negb isPreferred
  then match org with Some _ => (PRet false, loaded, []) | None => (PUndefined, loaded, []) end
  else
    match org with
    | None => (PRet false, loaded, [])
    | Some o =>
        match origin_profile w o with
        | None => (PRet false, loaded, [])
        | Some p => process_origin w loaded o (p_name p)
        end
    end.

(** The program: the scheduler, the object of each process, and the loaded profiles *)
Record app := App { a_sched : sched; a_objs : gmap nat obj; a_loaded : gset string }.
Inductive app_result := Running (a : app) (ef : list effect) | Stopped (ef : list effect).

(** 1450-1515 runNewJobs, starting the process at the front of the queue *)
Definition run_jobs (w : world) (now : Z) (a : app) : app_result :=
  let s := a_sched a in
  let c := sc_counter s - 1 in
  if c <=? 0 then
    let s1 := update_all ord now (Sched (sc_procs s) (sc_queue s) (wakeup cfg) (sc_next s)) in
    match sc_queue s1 with
    | [] => Running (App s1 (a_objs a) (a_loaded a)) []
    | x :: _ =>
        match a_objs a !! x.1 with
        | None => Stopped []
        | Some ob =>
            match start_process w (a_loaded a) ob with
            | (PRet ok, loaded, ef) => Running (App (run_front ok s1).1 (a_objs a) loaded) ef
            | (_, _, ef) => Stopped ef
            end
        end
    end
  else Running (App (Sched (sc_procs s) (sc_queue s) c (sc_next s)) (a_objs a) (a_loaded a)) [].
Definition and_then (r : app_result) (f : app → app_result) : app_result :=
  match r with
  | Running a ef => match f a with Running a' ef' => Running a' (ef ++ ef') | Stopped ef' => Stopped (ef ++ ef') end
  | Stopped ef => Stopped ef
  end.
(** 1412-1416 *)
Definition handle_timeout (w : world) (now : Z) (a : app) : app_result :=
  let '(loaded, ef) := check_profiles w (a_loaded a) in
  and_then (Running (App (a_sched a) (a_objs a) loaded) ef) (run_jobs w now).
(** 1518-1556 addProcess; the object of a process is set when it is created (1533), and
    changes later only if it is shared *)
Definition insert_object (ob : obj) (t0 : Z) (a : app) : app :=
  let k := obj_key ob in
  let s := a_sched a in
  let times := (λ d, t0 + d) <$> delays cfg in
  match sc_procs s !! k with
  | Some p => App (Sched (<[k := Proc (pr_id p) (pr_key p) times]> (sc_procs s)) (sc_queue s) (sc_counter s) (sc_next s))
                  (if shared then <[pr_id p := ob]> (a_objs a) else a_objs a) (a_loaded a)
  | None => App (Sched (<[k := Proc (sc_next s) k times]> (sc_procs s)) (sc_queue s) (sc_counter s) (S (sc_next s)))
                (<[sc_next s := ob]> (a_objs a)) (a_loaded a)
  end.
Definition add_object (ob : obj) (w : world) (t0 now : Z) (a : app) : app_result :=
  handle_timeout w now (insert_object ob t0 a).
(** 1379-1410: what goes into _todos *)
Definition relevant (ob : obj) : bool :=
  match ob with OPick _ => false | OOrigin _ => negb (only_preferred cfg) | OEvent _ => only_preferred cfg end.

(** What can happen: an object arrives with a message, the timer fires, the reload of a
    profile is requested (1351-1360), the counter is reset before an origin of the command
    line is added (1283, 1314). *)
Inductive aop :=
| AObject (ob : obj) (w : world) (t0 now : Z)
| ATick (w : world) (now : Z)
| AReload (p : string)
| AReset
| ACommand (o : origin) (w : world) (t0 now : Z).
Definition app_step (a : app) (op : aop) : app_result :=
  match op with
  | AObject ob w t0 now => if relevant ob then add_object ob w t0 now a else Running a []
  | ATick w now => handle_timeout w now a
  | AReload p => Running (App (a_sched a) (a_objs a) (a_loaded a ∖ {[p]})) []
  | AReset => let s := a_sched a in Running (App (Sched (sc_procs s) (sc_queue s) 0 (sc_next s)) (a_objs a) (a_loaded a)) []
  | ACommand o w t0 now => add_object (OOrigin o) w t0 now a
  end.
(** The effects of each operation; the list is shorter if the program stops *)
Fixpoint app_runs (a : app) (ops : list aop) : option app * list (list effect) :=
  match ops with
  | [] => (Some a, [])
  | op :: ops' =>
      match app_step a op with
      | Running a' ef => let '(r, efs) := app_runs a' ops' in (r, ef :: efs)
      | Stopped ef => (None, [ef])
      end
  end.
Definition app_init : app := App (init (wakeup cfg)) ∅ ∅.
End app.
