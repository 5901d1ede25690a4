(** Model of the data source: the class DataSource, libs/hddsc/utils.cpp 111-207 and
    libs/hddsc/utils.h 38-76, and the import of origins through it: the three addToCatalog,
    utils.cpp 209-384, on [import_arrival] of Import_Model (251-336).

    - A pointer member that the constructor does not set is [Unset]; reading it is undefined ([Bad]).
    - Objects are values. The objects a pointer leads to are not changed by others in the meantime;
      an origin given twice is loaded twice from the same database with the same result.
    - EventParameters holds lists; find...() gives the first element with the id. The database is a
      record of what it delivers for an id, and load...() appends it. The cache is a function; it may
      deliver objects of any class, as dynamic casts are made of them.
    - The queries made are recorded. Logging is left out. *)
From Coq Require Import Ascii.
From stdpp Require Import gmap list strings.
From Verif Require Import Solver_Model Index_Model Csv_Model Table_Model Catalog_Model Import_Model.
Local Open Scope nat_scope.

Inductive ptr (A : Type) := Unset | Null | To (a : A).
Arguments Unset {A}. Arguments Null {A}. Arguments To {A} a.
Inductive class := KPick | KAmplitude | KOrigin | KEvent | KMagnitude.
Global Instance class_dec : EqDecision class. Proof. solve_decision. Defined.

Section source.
Context {V : Type}.
Record s_arrival := SArr { g_code : text; g_pick : text; g_weight : option V; g_used : option bool }.
Record s_magnitude := SMag { m_id : text; m_value : V; m_contribs : list text }.
Record s_origin := SOrg { r_id : text; r_time : Z; r_lat : V; r_lon : V; r_depth : option V;
  r_arr : list s_arrival; r_mags : list s_magnitude; r_stamags : list text }.
Record s_event := SEv { v_id : text; v_pref : text; v_refs : list text }.
Inductive object :=
| OPick (id : text) (k : pick V) | OAmplitude (id : text) | OOrigin (o : s_origin) | OEvent (e : s_event) | OMagnitude (m : s_magnitude).
Record eparams := EP { ep_picks : list (text * pick V); ep_amps : list text; ep_origins : list s_origin; ep_events : list s_event }.
Record database := DB { q_arr : text → list s_arrival; q_mags : text → list s_magnitude; q_contribs : text → list text;
  q_stamags : text → list text; q_event : text → option s_event }.
Notation cache := (class → text → option object).
Inductive call := QArrivals (o : text) | QMagnitudes (o : text) | QContributions (m : text) | QStationMagnitudes (o : text).

Record source := Src { s_query : ptr database; s_cache : ptr cache; s_ep : ptr eparams }.
(** 111-124 *)
Definition source2 (q : ptr database) (c : ptr cache) : source := Src q c Unset.
Definition source1 (ep : ptr eparams) : source := Src Unset Unset ep.
Definition source3 (q : ptr database) (c : ptr cache) (ep : ptr eparams) : source := Src q c ep.

(** The value of a pointer *)
Definition value {A} (p : ptr A) : res (option A) :=
  match p with Unset => Bad | Null => Ok None | To a => Ok (Some a) end.
Definition with_id {A} (f : A → text) (id : text) (l : list A) : option A := List.find (λ x, bool_decide (f x = id)) l.
(** 126-149 *)
Definition in_ep (ep : eparams) (k : class) (id : text) : option object :=
  match k with
  | KPick => (λ x, OPick x.1 x.2) <$> with_id fst id (ep_picks ep)
  | KAmplitude => OAmplitude <$> with_id (λ x, x) id (ep_amps ep)
  | KOrigin => OOrigin <$> with_id r_id id (ep_origins ep)
  | KEvent => OEvent <$> with_id v_id id (ep_events ep)
  | KMagnitude => None
  end.
Definition get_object (s : source) (k : class) (id : text) : res (option object) :=
  rbind (value (s_ep s)) (λ ep,
  let ret := match ep with Some ep => in_ep ep k id | None => None end in
  rbind (value (s_cache s)) (λ c,
  match c, ret with
  | Some c, None => Ok (c k id)
  | _, _ => Ok ret
  end)).
(** utils.h 58-61: T::Cast *)
Definition get_pick (s : source) (id : text) : res (option (pick V)) :=
  rbind (get_object s KPick id) (λ o, Ok match o with Some (OPick _ k) => Some k | _ => None end).
Definition get_origin (s : source) (id : text) : res (option s_origin) :=
  rbind (get_object s KOrigin id) (λ o, Ok match o with Some (OOrigin r) => Some r | _ => None end).
Definition get_magnitude (s : source) (id : text) : res (option s_magnitude) :=
  rbind (get_object s KMagnitude id) (λ o, Ok match o with Some (OMagnitude m) => Some m | _ => None end).

(** 151-157 *)
Definition set_arr (o : s_origin) (l : list s_arrival) : s_origin :=
  SOrg (r_id o) (r_time o) (r_lat o) (r_lon o) (r_depth o) l (r_mags o) (r_stamags o).
Definition set_mags (o : s_origin) (l : list s_magnitude) : s_origin :=
  SOrg (r_id o) (r_time o) (r_lat o) (r_lon o) (r_depth o) (r_arr o) l (r_stamags o).
Definition set_stamags (o : s_origin) (l : list text) : s_origin :=
  SOrg (r_id o) (r_time o) (r_lat o) (r_lon o) (r_depth o) (r_arr o) (r_mags o) l.
Definition load_arrivals (s : source) (o : s_origin) : res (s_origin * list call) :=
  rbind (value (s_query s)) (λ q,
  match q with
  | None => Ok (o, [])
  | Some q => match r_arr o with
              | [] => Ok (set_arr o (r_arr o ++ q_arr q (r_id o)), [QArrivals (r_id o)])
              | _ => Ok (o, [])
              end
  end).
(** 167-176 *)
Fixpoint load_contributions (q : database) (l : list s_magnitude) : list s_magnitude * list call :=
  match l with
  | [] => ([], [])
  | m :: l =>
      let y := load_contributions q l in
      match m_contribs m with
      | [] => (SMag (m_id m) (m_value m) (m_contribs m ++ q_contribs q (m_id m)) :: y.1, QContributions (m_id m) :: y.2)
      | _ => (m :: y.1, y.2)
      end
  end.
(** 159-182 *)
Definition load_magnitudes (s : source) (o : s_origin) (contributions station : bool) : res (s_origin * list call) :=
  rbind (value (s_query s)) (λ q,
  match q with
  | None => Ok (o, [])
  | Some q =>
      let '(o, c1) := match r_mags o with
                      | [] => (set_mags o (r_mags o ++ q_mags q (r_id o)), [QMagnitudes (r_id o)])
                      | _ => (o, [])
                      end in
      let '(o, c2) := if contributions then let y := load_contributions q (r_mags o) in (set_mags o y.1, y.2) else (o, []) in
      let '(o, c3) := if station then match r_stamags o with
                                      | [] => (set_stamags o (r_stamags o ++ q_stamags q (r_id o)), [QStationMagnitudes (r_id o)])
                                      | _ => (o, [])
                                      end
                      else (o, []) in
      Ok (o, c1 ++ c2 ++ c3)
  end).
(** 184-207 *)
Fixpoint refers (id : text) (l : list text) : bool :=
  match l with [] => false | r :: l => if decide (r = id) then true else refers id l end.
Fixpoint parent_in (id : text) (l : list s_event) : option s_event :=
  match l with [] => None | e :: l => if refers id (v_refs e) then Some e else parent_in id l end.
Definition get_parent_event (s : source) (id : text) : res (option s_event) :=
  rbind (value (s_ep s)) (λ ep,
  let ret := match ep with Some ep => parent_in id (ep_events ep) | None => None end in
  rbind (value (s_query s)) (λ q,
  match q, ret with
  | Some q, None => Ok (q_event q id)
  | _, _ => Ok ret
  end)).

(** 209-341 *)
Variable ins : list (phase V) → phase V → list (phase V).
Variable zero : V → bool.
Variable nan : V.
Variable inv : text → text → text → Z → located V.
Notation cr := (cres V).
(** What comes from the source goes on unless it is undefined *)
Definition lift {A B} (c : catalog V) (x : res A) (f : A → cr B) : cr B :=
  match x with Ok a => f a | Exc => CExc c | Bad => CUB end.
Definition cthen {A B} (x : cr A) (f : catalog V → A → cr B) : cr B :=
  match x with CRet c a => f c a | CExc c => CExc c | CUB => CUB end.
(** 256-336 *)
Fixpoint add_arrivals (s : source) (id : N) (c : catalog V) (l : list s_arrival) : cr unit :=
  match l with
  | [] => CRet c tt
  | a :: l =>
      lift c (get_pick s (g_pick a)) (λ k,
      cthen (import_arrival ins zero nan inv id c (Arr (g_code a) k (g_weight a) (g_used a))) (λ c _,
      add_arrivals s id c l))
  end.
(** 234-248 *)
Definition magnitude_of (s : source) (o : s_origin) : res V :=
  rbind (get_parent_event s (r_id o)) (λ e,
  rbind match e with Some e => get_magnitude s (v_pref e) | None => Ok None end (λ m,
  Ok match m with Some m => m_value m | None => nan end)).
Fixpoint add_origins (s : source) (c : catalog V) (l : list s_origin) (idmap : list (N * s_origin)) : cr (list (N * s_origin)) :=
  match l with
  | [] => CRet c idmap
  | o :: l =>
      lift c (load_arrivals s o) (λ x,
      let o := x.1 in
      match r_arr o with
      | [] => add_origins s c l idmap
      | arrs =>
          match r_depth o with
          | None => CExc c
          | Some d =>
              lift c (magnitude_of s o) (λ mag,
              cthen (add_event c (Ev 0 (r_time o) (r_lat o) (r_lon o) d mag None) false) (λ c id,
              cthen (add_arrivals s id c arrs) (λ c _,
              add_origins s c l (idmap ++ [(id, o)]))))
          end
      end)
  end.
(** 343-359 *)
Fixpoint find_origins (s : source) (ids : list text) : res (list s_origin) :=
  match ids with
  | [] => Ok []
  | id :: ids => rbind (get_origin s id) (λ o, rbind (find_origins s ids) (λ l, Ok match o with Some o => o :: l | None => l end))
  end.
Definition add_ids (s : source) (c : catalog V) (ids : list text) : cr (list (N * s_origin)) :=
  lift c (find_origins s ids) (λ l, add_origins s c l []).
(** 361-384: [file] is the content of the file, [None] if it does not exist *)
Definition add_file (s : source) (c : catalog V) (file : option text) : cr (list (N * s_origin)) :=
  match file with
  | None => CExc c
  | Some f =>
      match read_with_header f with
      | None => CUB
      | Some rows => match mapM (λ row : gmap text text, row !! tx "origin") rows with
                     | None => CExc c
                     | Some ids => add_ids s c ids
                     end
      end
  end.
End source.
Arguments s_arrival : clear implicits. Arguments s_magnitude : clear implicits. Arguments s_origin : clear implicits.
Arguments object : clear implicits. Arguments eparams : clear implicits. Arguments database : clear implicits.
Arguments source : clear implicits.
