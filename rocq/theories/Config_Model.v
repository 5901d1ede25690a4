(** Model of the configuration of the application, apps/scrtdd/rtddtool.cpp: configGetTypedList (68-103),
    the two init of the regions (111-129, 158-176), makeUpper and splitString (196-210) and
    validateParameters (340-1041).

    - A configuration is its getters; None: the getter throws, because there is no such entry
      or because the entry has not the type asked for.
    - Numbers are exact rationals; a decimal constant of the source is the number it denotes.
    - An int is a [Z]; it becomes unsigned modulo 2^32.
    - absolutePath, Core::fromString (to double) and recordStreamURL are arguments.
    - The two readings of one entry that are written one after the other give the same value.
    - StreamApplication::validateParameters is taken to be true. Log output is left out. *)
From Coq Require Import Ascii String ZArith QArith.
From stdpp Require Import numbers list strings.
From Verif Require Import Region_Model.
Local Open Scope string_scope.

Record cfg := Cfg {
  g_string : string → option string; g_strings : string → option (list string); g_path : string → option string;
  g_bool : string → option bool; g_int : string → option Z; g_double : string → option Q;
  g_doubles : string → option (list Q) }.

(** try { x = configGet...; } catch (...) { x = dflt; } *)
Definition try_ {A} (v : option A) (dflt : A) : A := match v with Some a => a | None => dflt end.
Definition unsigned (z : Z) : N := Z.to_N (z mod 2 ^ 32).

(** 196-201, in the C locale *)
Definition to_upper (c : ascii) : ascii :=
  let n := nat_of_ascii c in if Nat.leb 97 n && Nat.leb n 122 then ascii_of_nat (n - 32) else c.
Fixpoint make_upper (s : string) : string :=
  match s with EmptyString => "" | String c s => String (to_upper c) (make_upper s) end.

(** 203-210: boost::split, is_any_of a single character, adjacent separators count as one *)
Fixpoint split_from (sep : ascii) (cur : list ascii) (in_sep : bool) (s : list ascii) : list (list ascii) :=
  match s with
  | [] => [rev cur]
  | c :: s =>
      if ascii_dec c sep then if in_sep then split_from sep cur true s else rev cur :: split_from sep [] true s
      else split_from sep (c :: cur) false s
  end.
Definition split_string (s : string) (sep : ascii) : list string :=
  string_of_list_ascii <$> split_from sep [] false (list_ascii_of_string s).

(** libs/hdd/dd.h 45-67 *)
Record dd_cfg := DdCfg {
  d_pphases : list string; d_sphases : list string; d_classes : list Q; d_psonly : bool;
  d_filter : string; d_resample : Q; d_extra : Q }.
(** 69-93 *)
Record clust := Clust {
  k_ratio : Q; k_minDist : Q; k_maxDist : Q; k_minNeigh : N; k_maxNeigh : N; k_minPhases : N; k_maxPhases : N;
  k_neighDist : Q; k_ellipsoids : N }.
(** 95-114 *)
Record xphase := XPhase { x_min : Q; x_start : Q; x_end : Q; x_scaling : Q; x_delay : Q; x_components : list string }.
Record xcorr := XCorr { x_enable : bool; x_minDist : Q; x_maxDist : Q; x_inter : Q; x_P : xphase; x_S : xphase }.
(** 116-130 *)
Record solver_opt := SolverOpt {
  s_type : string; s_l2 : bool; s_solverIter : N; s_algoIter : N; s_loc : Q * Q; s_damp : Q * Q; s_down : Q * Q;
  s_pickUnc : bool; s_scaler : Q }.
(** rtddtool.h 128-176 *)
Record profile := Profile {
  p_name : string; p_diag : bool; p_region : region; p_method : string; p_tttType : string; p_tttModel : string;
  p_autoP : string; p_autoS : string;
  p_stationFile : string; p_phaFile : string; p_eventFile : string; p_eventIDFile : string;
  p_url : string; p_dd : dd_cfg; p_single : clust; p_multi : clust; p_xcorr : xcorr; p_solver : solver_opt }.

(** The command line *)
Record cmd := Cmd {
  o_eventXML : string; o_dumpCatalog : string; o_mergeCatalogs : string; o_relocateCatalog : string;
  o_dumpWaveforms : string; o_dumpClusters : string; o_originIDs : string; o_profile : string; o_reloadMsg : string;
  o_test : bool; o_loadWf : bool; o_diag : bool }.

Section validate.
Variable from_string : string → option Q.
Variable abs_path : string → string.
Variable c : cfg.
Variable url : string.
Variable o : cmd.

(** 68-103 with allowEmpty; None is false *)
Fixpoint typed (l : list string) : option (list Q) :=
  match l with [] => Some [] | s :: l => v ← from_string s; vs ← typed l; Some (v :: vs) end.
Definition typed_list (key : string) (n : nat) : option (list Q) :=
  let l := try_ (g_strings c key) [] in
  if decide (length l ≠ n ∧ l ≠ []) then None else typed l.
(** 419-448 with 111-129 and 158-176 *)
Definition read_region (prefix : string) : option region :=
  let type := make_upper (try_ (g_string c (prefix ++ "regionType")) "") in
  if String.eqb type "RECTANGULAR"
  then l ← typed_list (prefix ++ "region") 4;
       match l with [] => Some RectEmpty | [a; b; d; e] => Some (Rect a b d e) | _ => None end
  else l ← typed_list (prefix ++ "region") 3;
       match l with [] => Some CircEmpty | [a; b; d] => Some (Circ a b d) | _ => None end.

(** 515-540: the classes read so far, and if all were valid *)
Fixpoint read_classes (l : list string) : list Q * bool :=
  match l with
  | [] => ([], true)
  | s :: l => match from_string s with
              | None => ([], false)
              | Some t => let '(ts, ok) := read_classes l in (t :: ts, ok)
              end
  end.
(** 542-567: station, phase and event file and the file of origin ids *)
Definition read_files (prefix : string) : string * string * string * string :=
  match g_path c (prefix ++ "stationFile") with
  | Some sf =>
      match g_path c (prefix ++ "phaFile") with
      | Some pf =>
          match g_path c (prefix ++ "eventFile") with
          | Some ef => (abs_path sf, abs_path pf, abs_path ef, "")
          | None => (abs_path sf, abs_path pf, "", "")
          end
      | None => match g_path c (prefix ++ "eventFile") with
                | Some ef => (abs_path sf, "", "", abs_path ef)
                | None => (abs_path sf, "", "", "")
                end
      end
  | None => match g_path c (prefix ++ "eventFile") with
            | Some ef => ("", "", "", abs_path ef)
            | None => ("", "", "", "")
            end
  end.
(** 738-783, 785-846 *)
Definition read_xphase (prefix : string) (end_ scaling : Q) (comps : list string) : xphase :=
  let start := try_ (g_double c (prefix ++ "winStart")) (-0.50)%Q in
  let stop := try_ (g_double c (prefix ++ "winEnd")) end_ in
  let scal := try_ (g_double c (prefix ++ "winScaling")) scaling in
  let delay := try_ (g_double c (prefix ++ "maxDelay")) 0.50%Q in
  let coef := try_ (g_double c (prefix ++ "minCCCoef")) 0.70%Q in
  let comps := try_ (g_strings c (prefix ++ "components")) comps in
  XPhase coef start stop scal delay comps.
(** 898-978: one of the three pairs; None: invalid *)
Definition read_pair (key : string) (dflt : Q * Q) : option (Q * Q) :=
  match g_doubles c key with
  | None => Some dflt
  | Some [x] => Some (x, x)
  | Some [x; y] => Some (x, y)
  | Some _ => None
  end.

Record state := State { st_ok : bool; st_db : bool; st_profiles : list profile }.
(** 408-1012: one turn of the loop; true: break *)
Definition read_profile (st : state) (name : string) : state * bool :=
  if String.eqb name "" then (st, false) else
  let prefix := "profile." ++ name ++ "." in
  match read_region prefix with
  | None => (State false (st_db st) (st_profiles st), false)
  | Some region =>
      let method := try_ (g_string c (prefix ++ "methodID")) "RTDD" in
      let tttType := try_ (g_string c (prefix ++ "tableType")) "LOCSAT" in
      let tttModel := try_ (g_string c (prefix ++ "tableModel")) "iasp91" in
      let psonly := try_ (g_bool c (prefix ++ "PSTableOnly")) true in
      let pph := try_ (g_strings c (prefix ++ "P-Phases")) ["P"; "Pg"; "Pn"] in
      let sph := try_ (g_strings c (prefix ++ "S-Phases")) ["S"; "Sg"; "Sn"] in
      let autoP := try_ (g_string c (prefix ++ "automaticOriginP")) "" in
      let autoS := try_ (g_string c (prefix ++ "automaticOriginS")) "" in
      let '(classes, classes_ok) :=
        match g_strings c (prefix ++ "pickUncertaintyClasses") with
        | Some l => read_classes l
        | None => ([0.000; 0.025; 0.050; 0.100; 0.200; 0.400]%Q, true)
        end in
      let ok := st_ok st && classes_ok in
      let prefix := "profile." ++ name ++ ".catalog." in
      let '(sf, pf, ef, idf) := read_files prefix in
      let db := st_db st || match g_path c (prefix ++ "stationFile"), g_path c (prefix ++ "phaFile"), g_path c (prefix ++ "eventFile") with
                            | Some _, Some _, _ => false | _, _, Some _ => true | _, _, None => false end in
      let prefix := "profile." ++ name ++ ".doubleDifferenceSystem.eventFiltering." in
      let minPhases := unsigned (try_ (g_int c (prefix ++ "minNumPhases")) 8%Z) in
      let minNeigh := unsigned (try_ (g_int c (prefix ++ "minNumNeighbours")) 4%Z) in
      let prefix := "profile." ++ name ++ ".doubleDifferenceSystem.phaseFiltering." in
      let minDist := try_ (g_double c (prefix ++ "minStationDistance")) 0%Q in
      let maxDist := try_ (g_double c (prefix ++ "maxStationDistance")) 0%Q in
      let ratio := try_ (g_double c (prefix ++ "minStationToEventPairDistRatio")) 3%Q in
      let prefix := "profile." ++ name ++ ".doubleDifferenceSystem.eventPairSelection.singleEvent." in
      let maxNeigh1 := unsigned (try_ (g_int c (prefix ++ "maxNumNeighbours")) 80%Z) in
      let ellipsoids1 := unsigned (try_ (g_int c (prefix ++ "numEllipsoids")) 5%Z) in
      let neighDist1 := try_ (g_double c (prefix ++ "maxNeighbourDistance")) 5%Q in
      let prefix := "profile." ++ name ++ ".doubleDifferenceSystem.eventPairSelection.multiEvent." in
      let maxNeigh2 := unsigned (try_ (g_int c (prefix ++ "maxNumNeighbours")) 40%Z) in
      let ellipsoids2 := unsigned (try_ (g_int c (prefix ++ "numEllipsoids")) 0%Z) in
      let neighDist2 := try_ (g_double c (prefix ++ "maxNeighbourDistance")) 5%Q in
      let prefix := "profile." ++ name ++ ".crossCorrelation." in
      let enable := try_ (g_bool c (prefix ++ "enable")) false in
      let xmin := try_ (g_double c (prefix ++ "minStationDistance")) 0%Q in
      let xmax := try_ (g_double c (prefix ++ "maxStationDistance")) 60%Q in
      let xinter := try_ (g_double c (prefix ++ "maxInterEventDistance")) 2%Q in
      let xP := read_xphase ("profile." ++ name ++ ".crossCorrelation.p-phase.") 0.50%Q 0.02%Q ["Z"] in
      let xS := read_xphase ("profile." ++ name ++ ".crossCorrelation.s-phase.") 1.00%Q 0.04%Q ["L2"] in
      let prefix := "profile." ++ name ++ ".crossCorrelation.waveformFiltering." in
      let filter := try_ (g_string c (prefix ++ "filterString")) "" in
      let extra := try_ (g_double c (prefix ++ "margin")) 1%Q in
      let resample := try_ (g_double c (prefix ++ "resampling")) 0%Q in
      let prefix := "profile." ++ name ++ ".solver." in
      let solverType := try_ (g_string c (prefix ++ "solverType")) "LSMR" in
      let algoIter := unsigned (try_ (g_int c (prefix ++ "algoIterations")) 20%Z) in
      match read_pair (prefix ++ "downWeightingByResidual") (10, 5)%Q with
      | None => (State false db (st_profiles st), true)
      | Some down =>
      match read_pair (prefix ++ "dampingFactor") (0.01, 0.01)%Q with
      | None => (State false db (st_profiles st), true)
      | Some damp =>
      match read_pair (prefix ++ "absoluteLocationConstraint") (0.3, 0.3)%Q with
      | None => (State false db (st_profiles st), true)
      | Some loc =>
          let scaler := try_ (g_double c (prefix ++ "xcorrWeightScaler")) 2%Q in
          let pickUnc := try_ (g_bool c (prefix ++ "usePickUncertainties")) false in
          (State ok db (st_profiles st ++
             [Profile name (o_diag o) region method tttType tttModel autoP autoS sf pf ef idf url
                (DdCfg pph sph classes psonly filter resample extra)
                (Clust ratio minDist maxDist minNeigh maxNeigh1 minPhases 0 neighDist1 ellipsoids1)
                (Clust ratio minDist maxDist minNeigh maxNeigh2 minPhases 0 neighDist2 ellipsoids2)
                (XCorr enable xmin xmax xinter xP xS)
                (SolverOpt solverType true 0 algoIter loc damp down pickUnc scaler)])%list, false)
      end end end
  end.
Fixpoint read_profiles (st : state) (names : list string) : state :=
  match names with
  | [] => st
  | name :: names => let '(st, stop) := read_profile st name in if stop then st else read_profiles st names
  end.

(** 346-360 *)
Record globals := Globals {
  l_onlyPreferred : bool; l_automatic : bool; l_manual : bool; l_active : list string; l_delay : Z; l_alive : Z;
  l_cache : bool; l_cacheDir : string; l_cacheLen : Q; l_authors : list string }.
Record result := Result {
  r_ok : bool; r_globals : globals; r_test : bool; r_messaging : bool; r_database : bool; r_profiles : list profile }.
Definition given (s : string) : bool := negb (String.eqb s "").
(** 340-1041. [inv_db]: isInventoryDatabaseEnabled. Messaging and the database are enabled
    before. None: an exception. *)
Definition validate (inv_db : bool) : option result :=
  onlyPreferred ← g_bool c "onlyPreferredOrigins";
  automatic ← g_bool c "automaticOrigins";
  manual ← g_bool c "manualOrigins";
  active ← g_strings c "activeProfiles";
  delay ← g_int c "performance.delayTime";
  alive ← g_int c "performance.profileTimeAlive";
  cache ← g_bool c "performance.cacheWaveforms";
  dir ← g_path c "performance.cacheDirectory";
  len ← g_double c "performance.cachedWaveformLength";
  let authors := try_ (g_strings c "acceptedOriginAuthors") [] in
  let offline := given (o_eventXML o) || given (o_dumpCatalog o) || given (o_mergeCatalogs o) || given (o_relocateCatalog o)
                 || o_loadWf o || given (o_dumpWaveforms o) || given (o_dumpClusters o) || (given (o_originIDs o) && o_test o) in
  let single s := given s && Nat.eqb (length (split_string s ",")) 1 in
  let requireDB := single (o_dumpWaveforms o) || single (o_dumpClusters o) || single (o_relocateCatalog o) in
  let toLoad := if given (o_profile o) && negb (bool_decide (o_profile o ∈ active)) then (active ++ [o_profile o])%list else active in
  let st := read_profiles (State true requireDB []) toLoad in
  let disableDB := negb inv_db && negb (st_db st)
                   && (given (o_eventXML o) || given (o_mergeCatalogs o) || given (o_relocateCatalog o) || given (o_dumpWaveforms o)
                       || o_loadWf o || given (o_dumpClusters o)) in
  Some (Result (st_ok st)
          (Globals onlyPreferred automatic manual active delay alive cache (abs_path dir) len authors)
          (offline || o_test o) (negb offline) (negb disableDB) (st_profiles st)).
End validate.
