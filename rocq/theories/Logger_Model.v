(** Model of the logger.
    libs/hdd/log.cpp (whole file) and libs/hdd/log.h 43-127.

    Simplifications: one thread (the mutex protects the map of file loggers only);
    time stamps are not part of a message; writing to an open stream succeeds; two
    different names are different files. Whether a file can be opened is given by the
    caller of the model (second-last argument of [LAdd]). *)
From stdpp Require Import gmap list strings.

(** enum class Level, log.h 43-50, in this order. *)
Inductive level := Debug | Info | Warning | Error | NoLevel.
Definition lev (l : level) : nat :=
  match l with Debug => 0 | Info => 1 | Warning => 2 | Error => 3 | NoLevel => 4 end.

Notation line := (level * string)%type.

Record logger := Logger {
  lg_level : level;                     (* _minLevel *)
  lg_user : option nat;                 (* _userLogger, identified by a number *)
  lg_files : gmap string level;         (* _fileLoggers: name -> minLevel *)
  (* effects *)
  lg_out : gmap string (list line);     (* what has been written to each file *)
  lg_err : list line;                   (* std::cerr *)
  lg_calls : list (nat * line)          (* calls of user loggers *)
}.

Inductive lop :=
| LSetLevel (l : level)
| LSetLogger (u : nat)
| LClearLogger
| LAdd (f : string) (min : level) (canOpen : bool)
| LRemove (f : string)
| LLog (l : level) (m : string)         (* log, logDebug, logInfo, ... *)
| LLogF (l : level) (m : string).       (* logDebugF, ...; m is the formatted text *)

(** log.cpp 78-90. *)
Definition log_to_file (l : level) (m : string) (s : logger) : logger :=
  Logger (lg_level s) (lg_user s) (lg_files s)
    (map_fold (λ f min out,
       if decide (lev min ≤ lev l) then <[f := default [] (out !! f) ++ [(l, m)]]> out else out)
       (lg_out s) (lg_files s))
    (lg_err s) (lg_calls s).

(** log.cpp 118-134. *)
Definition log (l : level) (m : string) (s : logger) : logger :=
  let s := if decide (lev (lg_level s) ≤ lev l) then
             match lg_user s with
             | Some u => Logger (lg_level s) (lg_user s) (lg_files s) (lg_out s) (lg_err s) (lg_calls s ++ [(u, (l, m))])
             | None => Logger (lg_level s) (lg_user s) (lg_files s) (lg_out s) (lg_err s ++ [(l, m)]) (lg_calls s)
             end
           else s in
  log_to_file l m s.

Definition step (s : logger) (o : lop) : logger :=
  match o with
  | LSetLevel l => Logger l (lg_user s) (lg_files s) (lg_out s) (lg_err s) (lg_calls s)
  (* log.cpp 106-112: the first one wins. *)
  | LSetLogger u =>
      match lg_user s with
      | Some _ => s
      | None => Logger (lg_level s) (Some u) (lg_files s) (lg_out s) (lg_err s) (lg_calls s)
      end
  | LClearLogger => Logger (lg_level s) None (lg_files s) (lg_out s) (lg_err s) (lg_calls s)
  (* log.cpp 136-156; the exception leaves everything unchanged. *)
  | LAdd f min canOpen =>
      match lg_files s !! f with
      | Some _ => s
      | None =>
          if canOpen
          then Logger (lg_level s) (lg_user s) (<[f := min]> (lg_files s)) (lg_out s) (lg_err s) (lg_calls s)
          else s
      end
  (* log.cpp 158-167. *)
  | LRemove f => Logger (lg_level s) (lg_user s) (delete f (lg_files s)) (lg_out s) (lg_err s) (lg_calls s)
  | LLog l m => log l m s
  (* log.h 67-127. *)
  | LLogF l m => if decide (lev (lg_level s) ≤ lev l) then log l m s else s
  end.

Definition init : logger := Logger Debug None ∅ ∅ [] [].
Definition run (h : list lop) : logger := fold_left step h init.
