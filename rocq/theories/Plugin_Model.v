(** Model of the plugin that offers the NonLinLoc grids to Seiscomp, plugins/ttt/nll/nll_ttt.cpp 116-350,
    and of the adapter that lets this library use a travel time table of Seiscomp, libs/hddsc/ttt.cpp 28-109.

    - The native table (class TTT::NLLGrid) is a state of type [G] with two operations, [gtime] and
      [gfull], and a constructor [mk] that may throw; NllTtt_Model is an instance (Plugin_Props).
      Its exceptions are of two sorts: OutOfGrid and any other HDD::Exception. Other exceptions
      (no memory) are not modelled.
    - A configuration is the five getters, None: the getter throws (no such entry, or no such value).
    - [abs_path], [dir_of], [name_of]: Environment::absolutePath, parent_path and filename.
    - [delazi]: the distance computed by Seiscomp; [sort]: TravelTimeList::sortByTime.
    - [api16]: SC_API_VERSION is at least 16.0.0, so travel times have an azimuth and tables have
      computeTime.
    - Not modelled: freeing of memory (the list is not freed when an exception leaves compute), log. *)
From Coq Require Import Reals Ascii ZArith.
From stdpp Require Import gmap strings list.
From Verif Require Import Geo_Model NllTtt_Model.
Local Open Scope R_scope.

Notation lit s := (list_ascii_of_string s%string).

(** What an operation of the native table ends with *)
Inductive gout (A : Type) := GVal (a : A) | GOutOfGrid | GHdd | GUB.
Arguments GVal {_} a. Arguments GOutOfGrid {_}. Arguments GHdd {_}. Arguments GUB {_}.
(** ... of TravelTimeTableInterface: NoPhaseError, std::out_of_range *)
Inductive iout (A : Type) := IVal (a : A) | INoPhase | IRange | IUB.
Arguments IVal {_} a. Arguments INoPhase {_}. Arguments IRange {_}. Arguments IUB {_}.
(** ... of HDD::TravelTimeTable *)
Inductive hout (A : Type) := HVal (a : A) | HExc | HUB.
Arguments HVal {_} a. Arguments HExc {_}. Arguments HUB {_}.

(** Seiscomp::TravelTime *)
Record tt := TT { tt_phase : text; tt_time : R; tt_dtdd : R; tt_dtdh : R; tt_takeoff : R; tt_azi : option R }.
(** Seiscomp::TravelTimeList *)
Record ttlist := TTList { tl_delta : R; tl_depth : R; tl_list : list tt }.

Record config := Config {
  c_strings : text → option (list text); c_string : text → option text; c_double : text → option R;
  c_bool : text → option bool; c_int : text → option Z }.
(** The arguments of the constructor of the native table *)
Record settings := Settings { g_path : text; g_model : text; g_dist : R; g_swap : bool; g_max : N; g_method : text }.

Section plugin.
Context {St Q G : Type}.
Variable gtime : St → text → Q → G → G * gout R.
Variable gfull : St → text → Q → G → G * gout answer.
Variable mk : settings → option G.
Variable g0 : G.                                  (* NLLGrid() *)
Variable abs_path dir_of name_of : text → text.
Variable delazi : Q → St → R.
Variable depth : Q → R.
Variable sort : list tt → list tt.
Variable api16 : bool.

(** nll_ttt.cpp 83-87 *)
Record plugin := Plugin { p_model : text; p_P : gset text; p_S : gset text; p_grids : G }.
Definition with_grids (s : plugin) (g : G) : plugin := Plugin (p_model s) (p_P s) (p_S s) g.

(** A getter with a default value in try ... catch *)
Definition get {A} (v : option A) (dflt : A) : A := match v with Some a => a | None => dflt end.
(** The conversion of getInt's result to unsigned *)
Definition to_unsigned (z : Z) : N := Z.to_N (z mod 4294967296).

(** 116-213; [app]: the configuration of the application if there is one, [init]: what initConfig
    reads. The result: Some b is returned, None an exception of the constructor *)
Definition set_model (app init : option config) (model : text) (s : plugin) : plugin * option bool :=
  let s := Plugin [] (p_P s) (p_S s) g0 in
  match (match app with Some c => Some c | None => init end) with
  | None => (s, Some false)
  | Some cfg =>
      let base := lit "ttt.NLLGrid." ++ model ++ lit "." in
      let P : gset text := match c_strings cfg (base ++ lit "P-Phases") with
               | Some l => list_to_set l | None => list_to_set [lit "P"; lit "Pg"; lit "Pn"] end in
      let S : gset text := match c_strings cfg (base ++ lit "S-Phases") with
               | Some l => list_to_set l | None => list_to_set [lit "S"; lit "Sg"; lit "Sn"] end in
      let s := Plugin [] P S g0 in
      match c_string cfg (base ++ lit "tablePath") with
      | None => (s, Some false)
      | Some tp =>
          let p := abs_path tp in
          let dist := get (c_double cfg (base ++ lit "maxSearchDistance")) 10 in
          let swap := get (c_bool cfg (base ++ lit "swapBytes")) false in
          let method := get (c_string cfg (base ++ lit "accessMethod")) (lit "KeepOpen") in
          let mx := match c_int cfg (base ++ lit "maxOpenFiles") with Some z => to_unsigned z | None => 512%N end in
          match mk (Settings (dir_of p) (name_of p) dist swap mx method) with
          | None => (s, None)
          | Some g => (Plugin model P S g, Some true)
          end
      end
  end.

(** 264-276, 307-319 *)
Definition route (s : plugin) (ph : text) : option text :=
  if bool_decide (ph ∈ p_P s) then Some (lit "P") else if bool_decide (ph ∈ p_S s) then Some (lit "S") else None.
(** 286-296, 323-333: the exceptions *)
Definition catch_ {A B} (f : A → B) (r : gout A) : iout B :=
  match r with GVal a => IVal (f a) | GOutOfGrid => IRange | GHdd => INoPhase | GUB => IUB end.
(** 255-297 *)
Definition plugin_full (ph : text) (x : St) (q : Q) (s : plugin) : plugin * iout tt :=
  match route s ph with
  | None => (s, INoPhase)
  | Some ty =>
      let r := gfull x ty q (p_grids s) in
      (with_grids s r.1,
       catch_ (λ a, TT ph (a_time a) (a_dtdd a) (a_dtdh a) (a_dip a) (if api16 then Some (a_azi a) else None)) r.2)
  end.
(** 299-334 *)
Definition plugin_time (ph : text) (x : St) (q : Q) (s : plugin) : plugin * iout R :=
  match route s ph with
  | None => (s, INoPhase)
  | Some ty => let r := gtime x ty q (p_grids s) in (with_grids s r.1, catch_ (λ t, t) r.2)
  end.
(** 217-253 *)
Definition plugin_list (x : St) (q : Q) (s : plugin) : plugin * iout ttlist :=
  let r1 := plugin_full (lit "P") x q s in
  match r1.2 with
  | IRange => (r1.1, IRange)
  | IUB => (r1.1, IUB)
  | IVal _ | INoPhase =>
      let l1 := match r1.2 with IVal t => [t] | _ => [] end in
      let r2 := plugin_full (lit "S") x q r1.1 in
      match r2.2 with
      | IRange => (r2.1, IRange)
      | IUB => (r2.1, IUB)
      | IVal _ | INoPhase =>
          let l2 := match r2.2 with IVal t => l1 ++ [t] | _ => l1 end in
          (r2.1, IVal (TTList (delazi q x) (depth q) (sort l2)))
      end
  end.
(** 336-350 *)
Definition plugin_first (x : St) (q : Q) (s : plugin) : plugin * iout tt :=
  let r := plugin_list x q s in
  (r.1, match r.2 with
        | IVal l => match tl_list l with [] => INoPhase | t :: _ => IVal t end
        | INoPhase => INoPhase | IRange => IRange | IUB => IUB
        end).

(** A program using the plugin after setModel *)
Inductive pcall := PTime (ph : text) (x : St) (q : Q) | PFull (ph : text) (x : St) (q : Q) | PList (x : St) (q : Q) | PFirst (x : St) (q : Q).
Definition pstep (c : pcall) (s : plugin) : plugin :=
  match c with
  | PTime ph x q => (plugin_time ph x q s).1
  | PFull ph x q => (plugin_full ph x q s).1
  | PList x q => (plugin_list x q s).1
  | PFirst x q => (plugin_first x q s).1
  end.
Definition pruns (cs : list pcall) (s : plugin) : plugin := foldl (λ s c, pstep c s) s cs.
End plugin.

(** ** The adapter, for any table of Seiscomp with state [T] *)
Section adapter.
Context {St Q T : Type}.
Variable itime : text → St → Q → T → T * iout R.
Variable ifull : text → St → Q → T → T * iout tt.
Variable eazi : Q → St → R.            (* computeAzimuth [rad] *)
Variable api16 : bool.
(** hddsc/ttt.cpp 28-38; [created]: what Create gives, [set]: setModel *)
Definition adapter_new (created : option T) (set : T → T * option bool) : option T :=
  match created with
  | None => None
  | Some t => match set t with (t', Some true) => Some t' | _ => None end
  end.
(** 40-66 *)
Definition adapter_time (x : St) (ph : text) (q : Q) (t : T) : T * hout R :=
  if api16 then
    let r := itime ph x q t in
    (r.1, match r.2 with IVal v => HVal v | IUB => HUB | _ => HExc end)
  else
    let r := ifull ph x q t in
    (r.1, match r.2 with IVal v => HVal (tt_time v) | IUB => HUB | _ => HExc end).
(** 68-109 *)
Definition adapter_full (x : St) (ph : text) (q : Q) (t : T) : T * hout answer :=
  let r := ifull ph x q t in
  (r.1, match r.2 with
        | IVal v =>
            HVal (Ans (tt_time v)
                      (match (if api16 then tt_azi v else None) with Some a => a | None => radToDeg (eazi q x) end)
                      (tt_takeoff v) (tt_dtdd v) (tt_dtdh v))
        | IUB => HUB
        | _ => HExc
        end).
End adapter.
