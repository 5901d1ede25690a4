(** Model of libs/hdd/timewindow.h:35-141, GenericTimeWindow<UTCTime>.
    Time points and durations are integers (microseconds, utctime.h:39-45); the
    64 bit overflow of their sums is not modelled. *)
From Coq Require Import ZArith Bool.
Local Open Scope Z_scope.

(** timewindow.h:37-38 *)
Record tw := Tw { w_start : Z; w_end : Z }.

(** timewindow.h:85-98 *)
Definition set_start (w : tw) (t : Z) : tw :=
  Tw t (if w_end w <? t then t else w_end w).
Definition set_end (w : tw) (t : Z) : tw :=
  Tw (w_start w) (if t <? w_start w then w_start w else t).
(** timewindow.h:79-83 *)
Definition set_both (w : tw) (s e : Z) : tw := set_end (set_start w s) e.
(** timewindow.h:45-49 and 42-44. [junk] is the value of the member before
    setEndTime assigns it. *)
Definition mk_tw (junk s e : Z) : tw := set_end (Tw s junk) e.
Definition mk_tw_len (junk s len : Z) : tw := mk_tw junk s (s + len).
(** timewindow.h:73-77 *)
Definition w_length (w : tw) : Z := w_end w - w_start w.
(** timewindow.h:100 *)
Definition w_empty (w : tw) : bool := w_start w =? w_end w.
(** timewindow.h:102 *)
Definition w_contains_t (w : tw) (t : Z) : bool := (w_start w <=? t) && (t <=? w_end w).
(** timewindow.h:104-107 *)
Definition w_contains (w o : tw) : bool := (w_start w <=? w_start o) && (w_end o <=? w_end w).
(** timewindow.h:135-139 *)
Definition w_overlap (w o : tw) : tw :=
  mk_tw 0 (if w_start w <? w_start o then w_start o else w_start w)
          (if w_end o <? w_end w then w_end o else w_end w).
(** timewindow.h:109-112 *)
Definition w_overlaps (w o : tw) : bool := negb (w_empty (w_overlap w o)).
(** timewindow.h:114-117 *)
Definition w_contiguous (w o : tw) : bool := (w_start o =? w_end w) || (w_end o =? w_start w).
(** timewindow.h:119-129 *)
Definition w_trim (w : tw) (a b : Z) : tw := mk_tw 0 (w_start w + a) (w_end w - b).
Definition w_extend (w : tw) (a b : Z) : tw := mk_tw 0 (w_start w - a) (w_end w + b).
(** timewindow.h:127-133 *)
Definition w_merge (w o : tw) : tw :=
  let t := if w_start o <? w_start w then set_start w (w_start o) else w in
  if w_end t <? w_end o then set_end t (w_end o) else t.

(** All the ways a program can make a window out of existing ones. *)
Inductive wop :=
| WSet (s e : Z) | WSetStart (t : Z) | WSetEnd (t : Z)
| WTrim (a b : Z) | WExtend (a b : Z) | WMerge (o : tw) | WOverlap (o : tw).
Definition w_step (w : tw) (o : wop) : tw :=
  match o with
  | WSet s e => set_both w s e
  | WSetStart t => set_start w t
  | WSetEnd t => set_end w t
  | WTrim a b => w_trim w a b
  | WExtend a b => w_extend w a b
  | WMerge o => w_merge w o
  | WOverlap o => w_overlap w o
  end.
