(** What the documentation (apps/scrtdd/descriptions/scrtdd.xml) says about the configuration of
    the application: the names, the types and the default values of its parameters. *)
From Coq Require Import Ascii String ZArith QArith.
From stdpp Require Import numbers list strings.
From Verif Require Import Region_Model Config_Model.
Local Open Scope string_scope.

Definition key (name k : string) : string := "profile." ++ name ++ "." ++ k.
(** scrtdd.xml, the parameters of a profile *)
Definition doc_keys : list string :=
  ["regionType"; "region"; "methodID"; "tableType"; "tableModel"; "PSTableOnly"; "P-Phases"; "S-Phases"; "automaticOriginP";
   "automaticOriginS"; "pickUncertaintyClasses"; "catalog.eventFile"; "catalog.phaFile"; "catalog.stationFile";
   "doubleDifferenceSystem.eventFiltering.minNumPhases"; "doubleDifferenceSystem.eventFiltering.minNumNeighbours";
   "doubleDifferenceSystem.phaseFiltering.minStationToEventPairDistRatio"; "doubleDifferenceSystem.phaseFiltering.minStationDistance";
   "doubleDifferenceSystem.phaseFiltering.maxStationDistance";
   "doubleDifferenceSystem.eventPairSelection.singleEvent.maxNumNeighbours";
   "doubleDifferenceSystem.eventPairSelection.singleEvent.maxNeighbourDistance";
   "doubleDifferenceSystem.eventPairSelection.singleEvent.numEllipsoids";
   "doubleDifferenceSystem.eventPairSelection.multiEvent.maxNumNeighbours";
   "doubleDifferenceSystem.eventPairSelection.multiEvent.maxNeighbourDistance";
   "doubleDifferenceSystem.eventPairSelection.multiEvent.numEllipsoids";
   "crossCorrelation.enable"; "crossCorrelation.minStationDistance"; "crossCorrelation.maxStationDistance";
   "crossCorrelation.maxInterEventDistance"; "crossCorrelation.p-phase.minCCCoef"; "crossCorrelation.p-phase.winStart";
   "crossCorrelation.p-phase.winEnd"; "crossCorrelation.p-phase.winScaling"; "crossCorrelation.p-phase.maxDelay";
   "crossCorrelation.p-phase.components"; "crossCorrelation.s-phase.minCCCoef"; "crossCorrelation.s-phase.winStart";
   "crossCorrelation.s-phase.winEnd"; "crossCorrelation.s-phase.winScaling"; "crossCorrelation.s-phase.maxDelay";
   "crossCorrelation.s-phase.components"; "crossCorrelation.waveformFiltering.filterString";
   "crossCorrelation.waveformFiltering.margin"; "crossCorrelation.waveformFiltering.resampling"; "solver.solverType";
   "solver.algoIterations"; "solver.downWeightingByResidual"; "solver.dampingFactor"; "solver.absoluteLocationConstraint";
   "solver.xcorrWeightScaler"; "solver.usePickUncertainties"].

Definition lower (c : ascii) : ascii :=
  let n := N_of_ascii c in if decide (65 ≤ n ∧ n ≤ 90)%N then ascii_of_N (n + 32) else c.
Fixpoint lower_case (s : string) : string :=
  match s with EmptyString => "" | String c s => String (lower c) (lower_case s) end.

Section doc.
Variable from_string : string → option Q.
Variable abs_path : string → string.
Variable c : cfg.

Definition is_number (s : string) : Prop := from_string s <> None.
Definition numbers (l : list string) (v : list Q) : Prop := Forall2 (fun s q => from_string s = Some q) l v.
(** The value of a parameter: as configured, or the documented default *)
Definition value {A} (get : string → option A) (name k : string) (d v : A) : Prop :=
  get (key name k) = Some v \/ (get (key name k) = None /\ v = d).
Definition as_unsigned (z : Z) (u : N) : Prop := (u < 2 ^ 32)%N /\ exists k : Z, Z.of_N u = (z + k * 2 ^ 32)%Z.
Definition count (name k : string) (d : Z) (u : N) : Prop := exists z : Z, value (g_int c) name k d z /\ as_unsigned z u.
(** One value is for all iterations; two are for the first and for the last *)
Definition range (l : list Q) (p : Q * Q) : Prop := l = [p.1] /\ p.2 = p.1 \/ l = [p.1; p.2].
Definition rectangular (name : string) : Prop :=
  exists s, g_string c (key name "regionType") = Some s /\ lower_case s = "rectangular".
Definition region_of (name : string) (r : region) : Prop :=
  exists l v, value (g_strings c) name "region" [] l /\ numbers l v /\
    (rectangular name -> v = [] /\ r = RectEmpty \/ exists a b d e, v = [a; b; d; e] /\ r = Rect a b d e) /\
    (~ rectangular name -> v = [] /\ r = CircEmpty \/ exists a b d, v = [a; b; d] /\ r = Circ a b d).

(** A profile that can be used *)
Record acceptable (name : string) : Prop := Acceptable {
  ac_region : exists r, region_of name r;
  ac_classes : forall l, g_strings c (key name "pickUncertaintyClasses") = Some l -> Forall is_number l;
  ac_down : forall l, g_doubles c (key name "solver.downWeightingByResidual") = Some l -> (1 <= length l <= 2)%nat;
  ac_damp : forall l, g_doubles c (key name "solver.dampingFactor") = Some l -> (1 <= length l <= 2)%nat;
  ac_loc : forall l, g_doubles c (key name "solver.absoluteLocationConstraint") = Some l -> (1 <= length l <= 2)%nat }.

(** The files of the catalog: three, or one with the ids of origins *)
Record files_of (name : string) (p : profile) : Prop := FilesOf {
  fi_three sf pf ef : g_path c (key name "catalog.stationFile") = Some sf -> g_path c (key name "catalog.phaFile") = Some pf ->
    g_path c (key name "catalog.eventFile") = Some ef ->
    p_stationFile p = abs_path sf /\ p_phaFile p = abs_path pf /\ p_eventFile p = abs_path ef /\ p_eventIDFile p = "";
  fi_one ef : g_path c (key name "catalog.stationFile") = None \/ g_path c (key name "catalog.phaFile") = None ->
    g_path c (key name "catalog.eventFile") = Some ef -> p_eventIDFile p = abs_path ef;
  fi_none : g_path c (key name "catalog.eventFile") = None -> p_eventIDFile p = "" /\ p_eventFile p = "" }.

Record clust_of (name mode : string) (neigh ellipsoids : Z) (k : clust) : Prop := ClustOf {
  cl_minPhases : count name "doubleDifferenceSystem.eventFiltering.minNumPhases" 8 (k_minPhases k);
  cl_minNeigh : count name "doubleDifferenceSystem.eventFiltering.minNumNeighbours" 4 (k_minNeigh k);
  cl_ratio : value (g_double c) name "doubleDifferenceSystem.phaseFiltering.minStationToEventPairDistRatio" 3%Q (k_ratio k);
  cl_minDist : value (g_double c) name "doubleDifferenceSystem.phaseFiltering.minStationDistance" 0%Q (k_minDist k);
  cl_maxDist : value (g_double c) name "doubleDifferenceSystem.phaseFiltering.maxStationDistance" 0%Q (k_maxDist k);
  cl_maxNeigh : count name ("doubleDifferenceSystem.eventPairSelection." ++ mode ++ ".maxNumNeighbours") neigh (k_maxNeigh k);
  cl_neighDist : value (g_double c) name ("doubleDifferenceSystem.eventPairSelection." ++ mode ++ ".maxNeighbourDistance") 5%Q (k_neighDist k);
  cl_ellipsoids : count name ("doubleDifferenceSystem.eventPairSelection." ++ mode ++ ".numEllipsoids") ellipsoids (k_ellipsoids k);
  cl_maxPhases : k_maxPhases k = 0%N }.
Record xphase_of (name ph : string) (stop scaling : Q) (comps : list string) (x : xphase) : Prop := XPhaseOf {
  xp_coef : value (g_double c) name ("crossCorrelation." ++ ph ++ ".minCCCoef") 0.70%Q (x_min x);
  xp_start : value (g_double c) name ("crossCorrelation." ++ ph ++ ".winStart") (-0.50)%Q (x_start x);
  xp_end : value (g_double c) name ("crossCorrelation." ++ ph ++ ".winEnd") stop (x_end x);
  xp_scaling : value (g_double c) name ("crossCorrelation." ++ ph ++ ".winScaling") scaling (x_scaling x);
  xp_delay : value (g_double c) name ("crossCorrelation." ++ ph ++ ".maxDelay") 0.50%Q (x_delay x);
  xp_components : value (g_strings c) name ("crossCorrelation." ++ ph ++ ".components") comps (x_components x) }.

Record documented (url : string) (diag : bool) (name : string) (p : profile) : Prop := Documented {
  do_name : p_name p = name; do_diag : p_diag p = diag; do_url : p_url p = url;
  do_region : region_of name (p_region p);
  do_method : value (g_string c) name "methodID" "RTDD" (p_method p);
  do_tttType : value (g_string c) name "tableType" "LOCSAT" (p_tttType p);
  do_tttModel : value (g_string c) name "tableModel" "iasp91" (p_tttModel p);
  do_psonly : value (g_bool c) name "PSTableOnly" true (d_psonly (p_dd p));
  do_pphases : value (g_strings c) name "P-Phases" ["P"; "Pg"; "Pn"] (d_pphases (p_dd p));
  do_sphases : value (g_strings c) name "S-Phases" ["S"; "Sg"; "Sn"] (d_sphases (p_dd p));
  do_autoP : value (g_string c) name "automaticOriginP" "" (p_autoP p);
  do_autoS : value (g_string c) name "automaticOriginS" "" (p_autoS p);
  do_classes :
    (g_strings c (key name "pickUncertaintyClasses") = None /\ d_classes (p_dd p) = [0.000; 0.025; 0.050; 0.100; 0.200; 0.400]%Q) \/
    exists l, g_strings c (key name "pickUncertaintyClasses") = Some l /\ numbers l (d_classes (p_dd p));
  do_files : files_of name p;
  do_single : clust_of name "singleEvent" 80 5 (p_single p);
  do_multi : clust_of name "multiEvent" 40 0 (p_multi p);
  do_enable : value (g_bool c) name "crossCorrelation.enable" false (x_enable (p_xcorr p));
  do_xmin : value (g_double c) name "crossCorrelation.minStationDistance" 0%Q (x_minDist (p_xcorr p));
  do_xmax : value (g_double c) name "crossCorrelation.maxStationDistance" 60%Q (x_maxDist (p_xcorr p));
  do_inter : value (g_double c) name "crossCorrelation.maxInterEventDistance" 2%Q (x_inter (p_xcorr p));
  do_P : xphase_of name "p-phase" 0.50%Q 0.02%Q ["Z"] (x_P (p_xcorr p));
  do_S : xphase_of name "s-phase" 1.00%Q 0.04%Q ["L2"] (x_S (p_xcorr p));
  do_filter : value (g_string c) name "crossCorrelation.waveformFiltering.filterString" "" (d_filter (p_dd p));
  do_margin : value (g_double c) name "crossCorrelation.waveformFiltering.margin" 1%Q (d_extra (p_dd p));
  do_resampling : value (g_double c) name "crossCorrelation.waveformFiltering.resampling" 0%Q (d_resample (p_dd p));
  do_solver : value (g_string c) name "solver.solverType" "LSMR" (s_type (p_solver p));
  do_iter : count name "solver.algoIterations" 20 (s_algoIter (p_solver p));
  do_down : exists l, value (g_doubles c) name "solver.downWeightingByResidual" [10; 5]%Q l /\ range l (s_down (p_solver p));
  do_damp : exists l, value (g_doubles c) name "solver.dampingFactor" [0.01]%Q l /\ range l (s_damp (p_solver p));
  do_loc : exists l, value (g_doubles c) name "solver.absoluteLocationConstraint" [0.3]%Q l /\ range l (s_loc (p_solver p));
  do_scaler : value (g_double c) name "solver.xcorrWeightScaler" 2%Q (s_scaler (p_solver p));
  do_pickUnc : value (g_bool c) name "solver.usePickUncertainties" false (s_pickUnc (p_solver p));
  do_l2 : s_l2 (p_solver p) = true; do_solverIter : s_solverIter (p_solver p) = 0%N }.
End doc.

(** The profiles to be loaded: the active ones, and the one of the command line *)
Definition wanted (active : list string) (forced : string) (names : list string) : Prop :=
  (In forced active -> names = List.filter (fun s => negb (String.eqb s "")) active) /\
  (~ In forced active -> names = (List.filter (fun s => negb (String.eqb s "")) active ++ (if String.eqb forced "" then [] else [forced]))%list).

(** Two configurations that differ at most in the parameters of the profile [name] *)
Record differ_in (name : string) (c c' : cfg) : Prop := DifferIn {
  df_string k : (forall d, In d doc_keys -> k <> key name d) -> g_string c k = g_string c' k;
  df_strings k : (forall d, In d doc_keys -> k <> key name d) -> g_strings c k = g_strings c' k;
  df_path k : (forall d, In d doc_keys -> k <> key name d) -> g_path c k = g_path c' k;
  df_bool k : (forall d, In d doc_keys -> k <> key name d) -> g_bool c k = g_bool c' k;
  df_int k : (forall d, In d doc_keys -> k <> key name d) -> g_int c k = g_int c' k;
  df_double k : (forall d, In d doc_keys -> k <> key name d) -> g_double c k = g_double c' k;
  df_doubles k : (forall d, In d doc_keys -> k <> key name d) -> g_doubles c k = g_doubles c' k }.
