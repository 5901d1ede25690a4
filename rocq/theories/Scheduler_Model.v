(** Model of the job scheduler of apps/scrtdd/rtddtool.cpp: runNewJobs 1450-1515,
    addProcess 1517-1558, removeProcess 1626-1636, and the direct calls of addProcess
    when origins are given on the command line, 1281-1284 and 1311-1318.

    A Process object is identified by a number (its address); objects are
    identified by their publicID.  Each call of the clock and the result of
    startProcess are inputs.  The order of the iteration over _processes (std::map,
    by publicID) is chosen by the oracle [ord].  Not modelled: checkProfileStatus,
    runCount, logging, the collection of objects in _todos. *)
From stdpp Require Import gmap list.
Local Open Scope Z_scope.

Notation key := N (only parsing).
Record proc := Proc { pr_id : nat; pr_key : key; pr_times : list Z }.
Record sched := Sched {
  sc_procs : gmap key proc;           (* _processes *)
  sc_queue : list (nat * key);        (* _processQueue: the object and its publicID *)
  sc_counter : Z;                     (* _cronCounter *)
  sc_next : nat }.                    (* next fresh identity *)

Section sched.
Variable ord : gmap key proc → list proc.
Variables (wakeup : Z) (delays : list Z).

(** std::list erase of the first element found *)
Fixpoint erase_first (i : nat) (q : list (nat * key)) : list (nat * key) :=
  match q with [] => [] | y :: q' => if decide (y.1 = i) then q' else y :: erase_first i q' end.
(** 1626-1636 removeProcess *)
Definition remove_proc (s : sched) (x : nat * key) : sched :=
  Sched (delete x.2 (sc_procs s)) (erase_first x.1 (sc_queue s))
 (sc_counter s) (sc_next s).

(** 1481-1483 *)
Fixpoint drop_past (now : Z) (l : list Z) : list Z :=
  match l with t :: l' => if t <=? now then drop_past now l' else l | [] => [] end.

(** 1462-1493, one process; the second component collects procToBeRemoved *)
Definition update_one (now : Z) (acc : sched * list (nat * key)) (p : proc) : sched * list (nat * key) :=
  let '(s, rm) := acc in
  match pr_times p with
  | [] => (s, rm ++ [(pr_id p, pr_key p)])
  | t :: _ =>
    if now <? t then (s, rm)
    else
      let q := sc_queue s in
      (Sched (<[pr_key p := Proc (pr_id p) (pr_key p) (drop_past now (pr_times p))]> (sc_procs s))
             (if decide (pr_id p ∈ q.*1) then q else q ++ [(pr_id p, pr_key p)])
             (sc_counter s) (sc_next s), rm)
  end.
(** 1458-1495 *)
Definition update_all (now : Z) (s : sched) : sched :=
  let '(s', rm) := fold_left (update_one now) (ord (sc_procs s)) (s, []) in
  fold_left remove_proc rm s'.

(** 1502-1513: start the front of the queue; [ok] is the result of startProcess *)
Definition run_front (ok : bool) (s : sched) : sched * list key :=
  match sc_queue s with
  | [] => (s, [])
  | x :: q =>
    let s1 := Sched (sc_procs s) q (sc_counter s) (sc_next s) in
    (if ok then s1 else remove_proc s1 x, [x.2])
  end.

(** 1450-1515 runNewJobs; returns the objects for which startProcess was called *)
Definition run_new_jobs (now : Z) (ok : bool) (s : sched) : sched * list key :=
  let c := sc_counter s - 1 in
  if c <=? 0 then
    run_front ok (update_all now (Sched (sc_procs s) (sc_queue s) wakeup (sc_next s)))
  else (Sched (sc_procs s) (sc_queue s) c (sc_next s), []).

(** 1517-1556 addProcess; [t0]: the clock at 1521, [now]: the clock at 1458 *)
Definition add_process (k : key) (t0 now : Z) (ok : bool) (s : sched) : sched * list key :=
  let times := (λ d, t0 + d) <$> delays in
  let s1 := match sc_procs s !! k with
            | Some p => Sched (<[k := Proc (pr_id p) (pr_key p) times]> (sc_procs s)) (sc_queue s) (sc_counter s) (sc_next s)
            | None => Sched (<[k := Proc (sc_next s) k times]> (sc_procs s)) (sc_queue s) (sc_counter s) (S (sc_next s))
            end in
  run_new_jobs now ok s1.

(** What can happen: an object arrives, the timer fires, or the counter is reset
    (1283, 1314) before an object from the command line is added. *)
Inductive sop := SAdd (k : key) (t0 now : Z) (ok : bool) | STick (now : Z) (ok : bool) | SReset.
Definition step (s : sched) (o : sop) : sched * list key :=
  match o with
  | SAdd k t0 now ok => add_process k t0 now ok s
  | STick now ok => run_new_jobs now ok s
  | SReset => (Sched (sc_procs s) (sc_queue s) 0 (sc_next s), [])
  end.
Definition init : sched := Sched ∅ [] wakeup 0.
(** Outputs of a run, one list per operation. *)
Fixpoint runs (s : sched) (ops : list sop) : sched * list (list key) :=
  match ops with
  | [] => (s, [])
  | o :: ops' => let '(s1, x) := step s o in let '(s2, xs) := runs s1 ops' in (s2, x :: xs)
  end.
End sched.
