(** Model of WaveformProxy::loadTraces, libs/hddsc/waveform.cpp 139-298: how requests are
    merged and distributed over connections to the record stream.

    Seiscomp's TimeWindow is modelled with the windows of TimeWindow_Model.v; merge is the
    smallest window that contains both. When two windows are close enough to be merged
    (187-217) is an argument. The order of iteration of the unordered multimap is an
    argument too: it keeps the elements with the same key together. The comparison of an
    iterator with the erased eqlrng.first (197) is taken to be false after the first element. *)
From Coq Require Import Ascii.
From stdpp Require Import numbers list.
From Verif Require Import TimeWindow_Model Time_Model WaveCache_Model.
Local Open Scope Z_scope.

(** splitString (libs/hdd/utils.cpp 92-97) with the expression "\.": std::sregex_token_iterator
    does not deliver an empty token after the last separator *)
Fixpoint split_at (cur s : text) : list text :=
  match s with
  | [] => match cur with [] => [] | _ => [rev cur] end
  | c :: s' => if ascii_dec c "." then rev cur :: split_at [] s' else split_at (c :: cur) s'
  end.
Definition split_dots (s : text) : list text := match s with [] => [[]] | _ => split_at [] s end.

(** 145-149 *)
Record request := Request { q_net : text; q_sta : text; q_loc : text; q_cha : text; q_tw : tw }.
Definition key (r : request) : text * text := (q_net r, q_sta r).
(** 162-174; None is the exception of vector::at *)
Definition make_request (id : text) (w : tw) : option request :=
  match split_dots id with
  | net :: sta :: loc :: cha :: _ => Some (Request net sta loc cha (w_extend w 0 (Z.quot (w_length w) 100)))
  | _ => None
  end.
Fixpoint make_requests (l : list request_t) : option (list request) :=
  match l with
  | [] => Some []
  | (id, w) :: l' => r ← make_request id w; rs ← make_requests l'; Some (r :: rs)
  end.

(** One addStream *)
Record call := Call { k_net : text; k_sta : text; k_loc : text; k_cha : text; k_tw : tw }.
Section load.
Variable close : tw → tw → bool.
(** The groups with the same net.sta, in the order of iteration *)
Variable groups : list request → list (list request).

(** 193-226: the rest of a group once the first element has set the window; the requests
    that remain *)
Fixpoint scan (first : request) (w : tw) (l : list request) : tw * list request :=
  match l with
  | [] => (w, [])
  | r :: l' =>
      if bool_decide (q_loc first = q_loc r) && bool_decide (q_cha first = q_cha r) && close w (q_tw r)
      then scan first (w_merge w (q_tw r)) l'
      else let '(w', rest) := scan first w l' in (w', r :: rest)
  end.
Definition one_group (g : list request) : option (call * list request) :=
  match g with
  | [] => None
  | r :: l => let '(w, rest) := scan r (q_tw r) l in Some (Call (q_net r) (q_sta r) (q_loc r) (q_cha r) w, rest)
  end.
(** 180-231: one connection *)
Definition connection (l : list request) : list call * list request :=
  let done_ := omap one_group (groups l) in (fst <$> done_, concat (snd <$> done_)).
(** The loop at 178; [opens n] tells if the n-th connection can be opened. None: the loop
    is not over after [fuel] turns. *)
Fixpoint connections (opens : nat → bool) (fuel n : nat) (l : list request) : option (list (list call)) :=
  match l with
  | [] => Some []
  | _ => match fuel with
         | O => None
         | S fuel' =>
             if opens n
             then let '(calls, rest) := connection l in cs ← connections opens fuel' (S n) rest; Some (calls :: cs)
             else Some []
         end
  end.
End load.
