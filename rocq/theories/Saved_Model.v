(** Model of the files saved for inspection by DD::relocateSingleEvent and DD::relocateMultiEvents,
    libs/hdd/dd.cpp:407-646, with writeDoubleDifferenceToFile (103-125), generateWorkingSubDirPath
    (88-101), joinPath (utils.cpp:505-508) and the calls of the logger (log.cpp).

    The results are those of SingleEvent_Model and MultiEvent_Model; here the functions are written
    once more with their effects: directories made, files written and file loggers added and removed,
    in this order.  [Exc] is an exception, [Bad] undefined behaviour; effects before it have happened.

    Simplifications: a file that cannot be opened is not noticed by the code (ofstream) and counts as
    written; the texts of the files of a catalog (CatalogFile_Model), of pairs (Neighbours_Model) and
    of the cache (XCorrFile_Model) are arguments, as are the messages of the log; of fs::path only the
    joining with a relative name is modelled.  The answers of the file system and the clock are
    arguments, numbered by the question. *)
From Coq Require Import Ascii.
From stdpp Require Import gmap list strings.
From Verif Require Import Cluster_Model SelectCatalog_Model XCorrCache_Model.
From Verif Require Import Index_Model Csv_Model Table_Model Catalog_Model CatalogFile_Model Solver_Model Reloc_Model Neighbours_Model.
From Verif Require Import SingleEvent_Model MultiEvent_Model Double_Model Decimal_Model.
From Verif Require Logger_Model Time_Model.

(** ** writeDoubleDifferenceToFile *)
(** solver.h 204-217, without the two members that are not written *)
Record ddiff := DDiff { d_ev1 : N; d_ev2 : N; d_sta : text; d_phase : text; d_weight : double; d_xused : bool;
                        d_xcoeff : double; d_res : double; d_dist : double }.
(** 109-112 *)
Definition dd_header : list text :=
  [tx "eventId1"; tx "eventId2"; tx "networkCode"; tx "stationCode"; tx "locationCode"; tx "phaseType"; tx "weight";
   tx "xcorrUsed"; tx "xcorrCoefficient"; tx "doubleDifferenceResidual"; tx "interEventDistance"].
(** 114-123; [None]: stations.at throws *)
Definition dd_row {V} (c : catalog V) (d : ddiff) : option (list text) :=
  s ← c_sta c !! d_sta d;
  Some [put_u (d_ev1 d); put_u (d_ev2 d); c_str (s_net s); c_str (s_sta s); c_str (s_loc s); c_str (d_phase d);
        print_g (d_weight d); if d_xused d then tx "true" else tx "false"; print_g (d_xcoeff d); print_g (d_res d);
        print_g (d_dist d)].
Fixpoint dd_rows {V} (c : catalog V) (l : list ddiff) : list (list text) * bool :=
  match l with
  | [] => ([], true)
  | d :: l' => match dd_row c d with
               | Some r => let '(rs, ok) := dd_rows c l' in (r :: rs, ok)
               | None => ([], false)
               end
  end.
(** The text of the file and whether the function returns *)
Definition dd_file {V} (c : catalog V) (l : list ddiff) : text * bool :=
  let '(rs, ok) := dd_rows c l in (csv_lines (dd_header :: rs), ok).

(** ** generateWorkingSubDirPath *)
(** The generator is seeded with the whole seconds of the time: 95.  [rand] is what it then gives. *)
Definition seed (t : Z) : Z := Z.quot t 1000000.
Definition work_dir (rand : Z → Z) (prefix : text) (t : Z) : text :=
  let f := Time_Model.to_date t in
  prefix ++ tx "_" ++ Time_Model.fmt 4 (Time_Model.f_year f) ++ Time_Model.fmt 2 (Time_Model.f_mon f)
  ++ Time_Model.fmt 2 (Time_Model.f_day f) ++ Time_Model.fmt 2 (Time_Model.f_hour f)
  ++ Time_Model.fmt 2 (Time_Model.f_min f) ++ Time_Model.fmt 2 (Time_Model.f_sec f)
  ++ tx "_" ++ Time_Model.fmt 4 (rand (seed t)).
(** The loop at 426-429 and 547-550; [None]: not finished after [fuel] rounds, of which the first has the number [i] *)
Fixpoint choose_dir (rand : Z → Z) (prefix : text) (now : nat → Z) (there : nat → text → bool) (fuel i : nat) : option text :=
  match fuel with
  | O => None
  | S fuel' => let d := work_dir rand prefix (now i) in
               if there i d then choose_dir rand prefix now there fuel' (S i) else Some d
  end.

(** utils.cpp 505-508, for a relative second path *)
Definition slash : ascii := "/"%char.
Definition join (a b : text) : text :=
  match a with
  | [] => b
  | _ => if decide (last a = Some slash) then a ++ b else a ++ slash :: b
  end.

(** ** Effects *)
Inductive eff :=
| EDir (d : text)                          (* createDirectories *)
| EFile (f : text) (content : text)        (* a file is written *)
| EOpen (f : text)                         (* addFileLogger(f, Level::info) *)
| EClose (f : text).                       (* removeFileLogger(f) *)
Definition tr (A : Type) := (list eff * res A)%type.
Definition tret {A} (a : A) : tr A := ([], Ok a).
Definition tlift {A} (r : res A) : tr A := ([], r).
Definition tbind {A B} (m : tr A) (f : A → tr B) : tr B :=
  match m.2 with
  | Ok a => (m.1 ++ (f a).1, (f a).2)
  | Exc => (m.1, Exc)
  | Bad => (m.1, Bad)
  end.
Definition tell (l : list eff) : tr unit := (l, Ok tt).
Definition twhen (b : bool) (m : tr unit) : tr unit := if b then m else tret tt.
Fixpoint tloop {A S} (f : S → A → tr S) (l : list A) (s : S) : tr S :=
  match l with
  | [] => tret s
  | x :: l' => tbind (f s x) (λ s', tloop f l' s')
  end.
(** A file whose writing may throw: the part before the exception is written *)
Definition tfile (f : text) (c : text * bool) : tr unit := ([EFile f c.1], if c.2 then Ok tt else Exc).
(** What a result of a catalog operation means *)
Definition of_cres {V A} (r : cres V A) : res (catalog V * A) :=
  match r with CRet c a => Ok (c, a) | CExc _ => Exc | CUB => Bad end.

(** The answers of the file system in one call: the directory chosen or given, whether it exists after the loop, whether it can
    be made, and which log files can be opened or are already registered *)
Record env := Env { en_there : text → bool; en_mk : text → bool; en_open : text → bool }.
(** 432-438 and 553-559 *)
Definition make_dir (en : env) (d : text) : tr unit :=
  if en_there en d then tret tt else if en_mk en d then tell [EDir d] else tlift Exc.
(** addFileLogger *)
Definition add_log (en : env) (f : text) : tr unit := if en_open en f then tell [EOpen f] else tlift Exc.

Section single.
Context {V : Type}.
Notation hypo := (V * V * V * Z)%type.
Notation delta := (V * V * V * V)%type.
Variable ins : list (phase V) → phase V → list (phase V).
Variable move : hypo → delta → hypo.
Variable weight : phase V → V.
Variables vp vs : list Csv_Model.text.
Variable bg : catalog V.
(** The three files of a catalog *)
Variables wsta wev wph : catalog V → text.
(** The file of pairs (clustering.cpp 214-235), the double-differences of the first and the last system *)
Variable wpair : catalog V → neigh → text * bool.
Variable dds : list (catalog V * sol V) → list ddiff * list ddiff.
Variable en : env.

(** catalog.cpp 403-511: events, phases and, with a name, stations *)
Definition cat_files (c : catalog V) (fs fe fp : text) : list eff :=
  [EFile fe (wev c); EFile fp (wph c)] ++ match fs with [] => [] | _ => [EFile fs (wsta c)] end.

(** dd.cpp 533-646; [dir] is the directory given, or chosen by [choose_dir] if none was given *)
Definition single_trace (save : bool) (dir : text) (manual : bool) (st : step V) (single : catalog V)
  : tr (catalog V * N * list (catalog V * sol V)) :=
  let logFile := join dir (tx "relocation.log") in
  tbind (twhen save (tbind (make_dir en dir) (λ _,
         tell (cat_files single (join dir (tx "single-event-station.csv")) (join dir (tx "single-event.csv"))
                                (join dir (tx "single-event-phase.csv")))))) (λ _,
  tbind (twhen save (add_log en logFile)) (λ _,
  let c1 := fill_proc ins weight (if manual then SrcManual else SrcAutomatic) vp vs single in
  match sorted_events (c_ev c1) with
  | [] => tlift Bad
  | e :: _ =>
      tbind (tlift (st_sel st c1 e)) (λ n,
      if decide (n_amount n < st_min st) then
        if decide (n_amount n < literal_size) then tret (empty_cat, 0%N, []) else tlift Bad
      else
        tbind (tlift (of_cres (to_catalog ins n bg false))) (λ '(c2, _),
        tbind (tlift (of_cres (add_from ins c2 (e_id e) c1 false))) (λ '(c3, new),
        tbind (twhen save (tell (cat_files c3 (join dir (tx "input-station.csv")) (join dir (tx "input-event.csv"))
                                              (join dir (tx "input-phase.csv"))))) (λ _,
        tbind (twhen save (tfile (join dir (tx "pair.csv")) (wpair c3 (Neigh new (n_map n))))) (λ _,
        tbind (tlift (relocate ins move (st_world st) [(new, new)] (st_iter st) c3)) (λ '(out, log),
        tbind (twhen save (
          tbind (tfile (join dir (tx "initial-double-difference.csv")) (dd_file c3 (dds log).1)) (λ _,
          tbind (tfile (join dir (tx "final-double-difference.csv")) (dd_file c3 (dds log).2)) (λ _,
          tell (cat_files out [] (join dir (tx "reloc-event.csv")) (join dir (tx "reloc-phase.csv"))))))) (λ _,
        tbind (tell [EClose logFile]) (λ _,
        tret (out, new, log)))))))))
  end)).
End single.

Section multi.
Context {V P C L : Type}.
Notation hypo := (V * V * V * Z)%type.
Notation delta := (V * V * V * V)%type.
Notation cluster := (gmap N (nb P)).
Notation xcache := (gmap N (gmap string (gmap string (gmap N (entry C L))))).
Variable ins : list (phase V) → phase V → list (phase V).
Variable move : hypo → delta → hypo.
Variable order : cluster → list N.
Variable each : xcache → list (quint C L).
Variable build : cluster → xcache → res xcache.
Variable wd : cluster → xcache → world V.
Variables wsta wev wph : catalog V → text.
(** Without elements there is no file of pairs *)
Variable wpair : catalog V → cluster → option (text * bool).
Variable wxcorr : catalog V → xcache → text * bool.
Variable dds : list (catalog V * sol V) → list ddiff * list ddiff.
Variable en : env.

(** 474, 502 *)
Definition prefix (i : N) : text := tx "cluster-" ++ put_u i.
(** 480-482 *)
Definition dump_cat (bg : catalog V) (cl : cluster) : tr (catalog V) :=
  tbind (tlift (of_cres (add_all ins empty_cat bg (order cl)))) (λ '(c, _), tret c).
(** 461-516; [i] is clusterId, here without the limit of 32 bits *)
Definition cluster_trace (save : bool) (dir : text) (n : nat) (bg : catalog V)
  (st : N * (catalog V * xcache * list (given V P C L))) (cl : cluster) : tr (N * (catalog V * xcache * list (given V P C L))) :=
  let '(i, (acc, xd, gs)) := st in
  let file (name : string) := join dir (prefix i ++ tx name) in
  let logFile := file "-relocation.log" in
  tbind (twhen save (tbind (add_log en logFile) (λ _,
         tbind (match wpair bg cl with Some c => tfile (file "-pair.csv") c | None => tret tt end) (λ _,
         tbind (dump_cat bg cl) (λ c,
         tell (cat_files wsta wev wph c (file "-station.csv") (file "-event.csv") (file "-phase.csv"))))))) (λ _,
  tbind (tlift (build cl xd)) (λ xc,
  tbind (tlift (relocate ins move (wd cl xc) (members order cl) n bg)) (λ '(out, log),
  tbind (tlift (of_cres (add_cat ins acc out true))) (λ '(acc', _),
  tbind (twhen save (
    tbind (tfile (file "-initial-double-difference.csv") (dd_file bg (dds log).1)) (λ _,
    tbind (tfile (file "-final-double-difference.csv") (dd_file bg (dds log).2)) (λ _,
    tell (cat_files wsta wev wph out [] (file "-reloc-event.csv") (file "-reloc-phase.csv") ++ [EClose logFile]))))) (λ _,
  tret (N.succ i, (acc', xc_merge xd (each xc), gs ++ [Given cl xc out log]))))))).
(** 407-531 *)
Definition multi_trace (save : bool) (dir : text) (n : nat) (bg : catalog V) (xd : xcache) (cls : list cluster)
  : tr (catalog V * xcache * list (given V P C L)) :=
  let logFile := join dir (tx "relocation.log") in
  tbind (twhen save (tbind (make_dir en dir) (λ _, tbind (add_log en logFile) (λ _,
         tell (cat_files wsta wev wph bg (join dir (tx "input-station.csv")) (join dir (tx "input-event.csv"))
                         (join dir (tx "input-phase.csv"))))))) (λ _,
  tbind (tloop (cluster_trace save dir n bg) cls (1%N, (empty_cat, xd, []))) (λ '(_, st),
  tbind (twhen save (tbind (tell (cat_files wsta wev wph st.1.1 [] (join dir (tx "reloc-event.csv")) (join dir (tx "reloc-phase.csv")))) (λ _,
         tbind (tfile (join dir (tx "xcorr.csv")) (wxcorr bg st.1.2)) (λ _,
         tell [EClose logFile])))) (λ _,
  tret st))).
End multi.
