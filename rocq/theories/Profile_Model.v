(** Model of the life of a profile in scrtdd: RTDD::Profile (load 1893-1996, unload 1998-2004,
    preloadWaveforms 2006-2017, freeResources 2019-2024, relocateSingleEvent 2027-2034 and
    inactiveTime, rtddtool.h 154), RTDD::loadProfile 1880-1886, checkProfileStatus 1424-1448, the
    loading done by processOrigin 1713-1723, the request to reload a profile in handleMessage
    1350-1370, and getProfile 1821-1834; all in apps/scrtdd/rtddtool.cpp.

    - What lies behind a load is a [world], which may be another one at every load: the reading of
      the catalog from a file of ids and from the three files, and whether the constructors of the
      travel time table, of the waveform proxy and of HDD::DD, and the creation of the directory of
      the waveform cache (libs/hdd/dd.cpp 152-167), end without exception. A [Bad] of these is
      undefined behaviour, an [Exc] an exception.
    - std::stod is the argument [stod] ([None]: an exception). Catalogs are an argument [C], with
      Catalog::empty as [is_empty].
    - Every reading of the clock (Core::Time::UTC) is an argument, in microseconds; clocks may go
      backwards.
    - What can be observed is a list of effects: the messages logged by load and unload, the
      release of the waveforms, a relocation with the DD object it uses, the reply to a request.
    - The relocation itself (DD_ and SingleEvent_ files), the release of waveforms (Waveform
      files) and the sending of the reply are not part of this model. A relocation that throws
      leaves the profile as it is. The path of the cache is put together with '/'. *)
From Coq Require Import Ascii.
From stdpp Require Import gmap list strings.
From Verif Require Import Table_Model Config_Model Solver_Model.
Local Open Scope Z_scope.
Notation text := (list ascii).

(** What is built at 1924-1962 *)
Inductive table (V : Type) :=
| NLLGrid (path model : text) (dist : V) (swap : bool) (files : N) (access : text)
| Homogeneous (p s : V)
| Plugin (type model : text).
Arguments NLLGrid {V}. Arguments Homogeneous {V}. Arguments Plugin {V}.
(** The attributes of a profile that load uses, rtddtool.h 165-175 *)
Record conf := Conf {
  f_name : text; f_ids : text; f_sta : text; f_ev : text; f_pha : text; f_type : text; f_model : text; f_url : text }.
(** The settings of the program: performance.profileTimeAlive, cacheWaveforms, cacheDirectory and
    cachedWaveformLength *)
Record settings (V : Type) := Settings { g_alive : Z; g_cache : bool; g_dir : text; g_len : V }.
Arguments g_alive {V}. Arguments g_cache {V}. Arguments g_dir {V}. Arguments g_len {V}. Arguments Settings {V}.
(** The DD object: catalog, table, waveform proxy, directory and length of the disk cache *)
Record dd (V C : Type) := DD { d_cat : C; d_table : table V; d_url : text; d_cache : option (text * V) }.
Arguments DD {V C}. Arguments d_cat {V C}. Arguments d_table {V C}. Arguments d_url {V C}. Arguments d_cache {V C}.
Record world (V C : Type) := World {
  w_ids : text → res C; w_csv : text → text → text → res C;
  w_table : table V → bool; w_proxy : text → bool; w_dd : C → table V → bool; w_mkdir : text → bool }.
Arguments w_ids {V C}. Arguments w_csv {V C}. Arguments w_table {V C}. Arguments w_proxy {V C}. Arguments w_dd {V C}.
Arguments w_mkdir {V C}. Arguments World {V C}.

(** The attributes loaded, dd and lastUsage *)
Record state (V C : Type) := State { s_loaded : bool; s_dd : option (dd V C); s_used : Z }.
Arguments State {V C}. Arguments s_loaded {V C}. Arguments s_dd {V C}. Arguments s_used {V C}.
Inductive act (V C : Type) :=
| Loaded (d : dd V C) (t : Z)       (* 1995 *)
| Unloaded (t : Z)                  (* 2000 *)
| Freed (t : Z)                     (* 2022 *)
| Preloaded (d : dd V C) (t : Z)    (* 2015 *)
| Relocated (d : dd V C) (t : Z)    (* 2034 ff. *)
| Refused.                          (* 2008-2013, 2029-2033 *)
Arguments Loaded {V C}. Arguments Unloaded {V C}. Arguments Freed {V C}. Arguments Preloaded {V C}. Arguments Relocated {V C}.
Arguments Refused {V C}.
Inductive effect (V C : Type) := Act (i : nat) (a : act V C) | Reply (error : option text).
Arguments Act {V C}. Arguments Reply {V C}.

Section profile.
Context {V C : Type} (stod : text → option V) (is_empty : C → bool) (g : settings V).
Notation dd := (dd V C). Notation world := (world V C). Notation state := (state V C). Notation act := (act V C).
Notation effect := (effect V C).

Definition given (s : text) : bool := match s with [] => false | _ => true end.
(** 203-209 *)
Definition fields (s : text) : list text := split_from ";" [] false s.
(** 1924-1962; [None]: an exception. The conversion to unsigned is modulo 2^32 *)
Definition choose_table (f : conf) : option (table V) :=
  if decide (f_type f = tx "Native:NLLGrid") then
    match fields (f_model f) with
    | [path; model; dist; swap; files; access] =>
        dist ← stod dist;
        files ← stoul files;
        Some (NLLGrid path model dist (bool_decide (swap = tx "swapBytes")) (files `mod` 2 ^ 32)%N access)
    | _ => None
    end
  else if decide (f_type f = tx "Native:homogeneous") then
    match fields (f_model f) with
    | [p; s] => p ← stod p; s ← stod s; Some (Homogeneous p s)
    | _ => None
    end
  else Some (Plugin (f_type f) (f_model f)).
Definition check (b : bool) : res () := if b then Ok () else Exc.
(** 1907-1984 *)
Definition load_dd (w : world) (f : conf) (alt : C) : res dd :=
  rbind (if negb (is_empty alt) then Ok alt
         else if given (f_ids f) then w_ids w (f_ids f)
         else w_csv w (f_sta f) (f_ev f) (f_pha f)) (λ c,
  rbind (at_ (choose_table f)) (λ t,
  rbind (check (w_table w t)) (λ _,
  rbind (check (w_proxy w (f_url f))) (λ _,
  rbind (check (w_dd w c t)) (λ _,
  if g_cache g then
    let path := g_dir g ++ tx "/" ++ f_name f ++ tx "/wfcache" in
    rbind (check (w_mkdir w path)) (λ _, Ok (DD c t (f_url f) (Some (path, g_len g))))
  else Ok (DD c t (f_url f) None)))))).

(** The functions of a profile: [None] is undefined behaviour (an empty dd pointer is followed) *)
Notation result := (option (state * list act)).
(** 1998-2004 *)
Definition unload (now : Z) (st : state) : state * list act := (State false None now, [Unloaded now]).
(** 1893-1996 *)
Definition load (w : world) (f : conf) (alt : C) (now : Z) (st : state) : result :=
  if s_loaded st then Some (st, [])
  else match load_dd w f alt with
       | Ok d => Some (State true (Some d) now, [Loaded d now])
       | Exc => Some (unload now st)
       | Bad => None
       end.
(** 2019-2024 *)
Definition free (now : Z) (st : state) : result :=
  if s_loaded st then d ← s_dd st; Some (State true (Some d) now, [Freed now]) else Some (st, []).
(** 2006-2017; [Refused]: an exception *)
Definition preload (now : Z) (st : state) : result :=
  if s_loaded st then d ← s_dd st; Some (State true (Some d) now, [Preloaded d now]) else Some (st, [Refused]).
(** 2027-2152: the time of last usage is taken at the beginning; [Refused]: an empty catalog *)
Definition relocate (start : Z) (st : state) : result :=
  if s_loaded st then d ← s_dd st; Some (State true (Some d) start, [Relocated d start]) else Some (st, [Refused]).
Definition and_then (r : result) (f : state → result) : result :=
  match r with
  | Some (st, l) => match f st with Some (st', l') => Some (st', l ++ l') | None => None end
  | None => None
  end.
(** 1424-1448, one profile; [tl], [tc], [tf] are the readings of the clock by load, inactiveTime
    and freeResources; the span is in seconds *)
Definition check_status (w : world) (f : conf) (none : C) (tl tc tf : Z) (st : state) : result :=
  and_then (if negb (s_loaded st) then load w f none tl st else Some (st, [])) (λ st,
  if 0 <=? g_alive g then
    if s_loaded st && (g_alive g * 1000000 <? tc - s_used st) then free tf st else Some (st, [])
  else Some (st, [])).
(** 1713-1725 *)
Definition process (w : world) (f : conf) (none : C) (tl start : Z) (st : state) : result :=
  and_then (if negb (s_loaded st) then load w f none tl st else Some (st, [])) (relocate start).

(** The program: profiles with their state. *)
Notation app := (list (conf * state)).
Definition act_on (i : nat) (f : conf → state → result) (a : app) : option (app * list effect) :=
  match a !! i with
  | None => Some (a, [])
  | Some (c, st) =>
      match f c st with Some (st', l) => Some (<[i := (c, st')]> a, Act i <$> l) | None => None end
  end.
Definition joined (r : option (app * list effect)) (f : app → option (app * list effect)) : option (app * list effect) :=
  match r with
  | Some (a, l) => match f a with Some (a', l') => Some (a', l ++ l') | None => None end
  | None => None
  end.
(** 1821-1834 *)
Definition get_profile (a : app) (name : text) : option nat :=
  if given name then fst <$> list_find (λ p : conf * state, f_name p.1 = name) a else None.
(** 1426-1447: all profiles, in turn *)
Fixpoint tick (none : C) (i : nat) (n : nat) (ws : nat → world * Z * Z * Z) (a : app) : option (app * list effect) :=
  match n with
  | 0%nat => Some (a, [])
  | S n =>
      let '(w, tl, tc, tf) := ws i in
      joined (act_on i (λ c, check_status w c none tl tc tf) a) (tick none (S i) n ws)
  end.
(** What can happen: the timer, a request to reload, a command loading a profile, possibly with
    another catalog (1133, 1143, 1154, 1205), the preloading of its waveforms (1144), an origin
    processed with a profile. [none]: an empty catalog. The end of a relocation is not used. *)
Inductive op :=
| Tick (ws : nat → world * Z * Z * Z)
| Reload (name : text) (now : Z)
| Load (i : nat) (w : world) (alt : C) (now : Z)
| Preload (i : nat) (now : Z)
| Process (i : nat) (w : world) (tl start finish : Z).
Definition step (none : C) (a : app) (o : op) : option (app * list effect) :=
  match o with
  | Tick ws => tick none 0 (length a) ws a
  | Reload name now =>
      match get_profile a name with
      | Some i => joined (act_on i (λ _ st, Some (unload now st)) a) (λ a, Some (a, [Reply None]))
      | None => Some (a, [Reply (Some (tx "Unknown profile '" ++ name ++ tx "'"))])
      end
  | Load i w alt now => act_on i (λ c, load w c alt now) a
  | Preload i now => act_on i (λ _, preload now) a
  | Process i w tl start _ => act_on i (λ c, process w c none tl start) a
  end.
Fixpoint runs (none : C) (a : app) (os : list op) : option (app * list effect) :=
  match os with
  | [] => Some (a, [])
  | o :: os => joined (step none a o) (λ a, runs none a os)
  end.
(** 1890: the constructor; a Core::Time starts at zero *)
Definition start (cs : list conf) : app := (λ c, (c, State false None 0)) <$> cs.
End profile.
