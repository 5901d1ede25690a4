(** Proofs about Config_Model.v *)
From Coq Require Import Ascii String ZArith QArith Lia.
From stdpp Require Import numbers list strings.
From Verif Require Import Region_Model Config_Model Config_Spec.
Local Open Scope string_scope.

Lemma app_assoc_s (a b d : string) : (a ++ b) ++ d = a ++ (b ++ d).
Proof. induction a as [|x a IH]; [reflexivity|]. change (String x ((a ++ b) ++ d) = String x (a ++ (b ++ d))). rewrite IH. reflexivity. Qed.
Lemma pfx name s k k' : s ++ k = "." ++ k' -> ("profile." ++ name ++ s) ++ k = key name k'.
Proof. intros E. unfold key. rewrite <- E, !app_assoc_s. reflexivity. Qed.
Ltac keys name :=
  rewrite ?(pfx name "." "regionType" "regionType" eq_refl);
  rewrite ?(pfx name "." "region" "region" eq_refl);
  rewrite ?(pfx name "." "methodID" "methodID" eq_refl);
  rewrite ?(pfx name "." "tableType" "tableType" eq_refl);
  rewrite ?(pfx name "." "tableModel" "tableModel" eq_refl);
  rewrite ?(pfx name "." "PSTableOnly" "PSTableOnly" eq_refl);
  rewrite ?(pfx name "." "P-Phases" "P-Phases" eq_refl);
  rewrite ?(pfx name "." "S-Phases" "S-Phases" eq_refl);
  rewrite ?(pfx name "." "automaticOriginP" "automaticOriginP" eq_refl);
  rewrite ?(pfx name "." "automaticOriginS" "automaticOriginS" eq_refl);
  rewrite ?(pfx name "." "pickUncertaintyClasses" "pickUncertaintyClasses" eq_refl);
  rewrite ?(pfx name ".catalog." "eventFile" "catalog.eventFile" eq_refl);
  rewrite ?(pfx name ".catalog." "phaFile" "catalog.phaFile" eq_refl);
  rewrite ?(pfx name ".catalog." "stationFile" "catalog.stationFile" eq_refl);
  rewrite ?(pfx name ".doubleDifferenceSystem.eventFiltering." "minNumPhases" "doubleDifferenceSystem.eventFiltering.minNumPhases" eq_refl);
  rewrite ?(pfx name ".doubleDifferenceSystem.eventFiltering." "minNumNeighbours" "doubleDifferenceSystem.eventFiltering.minNumNeighbours" eq_refl);
  rewrite ?(pfx name ".doubleDifferenceSystem.phaseFiltering." "minStationToEventPairDistRatio" "doubleDifferenceSystem.phaseFiltering.minStationToEventPairDistRatio" eq_refl);
  rewrite ?(pfx name ".doubleDifferenceSystem.phaseFiltering." "minStationDistance" "doubleDifferenceSystem.phaseFiltering.minStationDistance" eq_refl);
  rewrite ?(pfx name ".doubleDifferenceSystem.phaseFiltering." "maxStationDistance" "doubleDifferenceSystem.phaseFiltering.maxStationDistance" eq_refl);
  rewrite ?(pfx name ".doubleDifferenceSystem.eventPairSelection.singleEvent." "maxNumNeighbours" "doubleDifferenceSystem.eventPairSelection.singleEvent.maxNumNeighbours" eq_refl);
  rewrite ?(pfx name ".doubleDifferenceSystem.eventPairSelection.singleEvent." "maxNeighbourDistance" "doubleDifferenceSystem.eventPairSelection.singleEvent.maxNeighbourDistance" eq_refl);
  rewrite ?(pfx name ".doubleDifferenceSystem.eventPairSelection.singleEvent." "numEllipsoids" "doubleDifferenceSystem.eventPairSelection.singleEvent.numEllipsoids" eq_refl);
  rewrite ?(pfx name ".doubleDifferenceSystem.eventPairSelection.multiEvent." "maxNumNeighbours" "doubleDifferenceSystem.eventPairSelection.multiEvent.maxNumNeighbours" eq_refl);
  rewrite ?(pfx name ".doubleDifferenceSystem.eventPairSelection.multiEvent." "maxNeighbourDistance" "doubleDifferenceSystem.eventPairSelection.multiEvent.maxNeighbourDistance" eq_refl);
  rewrite ?(pfx name ".doubleDifferenceSystem.eventPairSelection.multiEvent." "numEllipsoids" "doubleDifferenceSystem.eventPairSelection.multiEvent.numEllipsoids" eq_refl);
  rewrite ?(pfx name ".crossCorrelation." "enable" "crossCorrelation.enable" eq_refl);
  rewrite ?(pfx name ".crossCorrelation." "minStationDistance" "crossCorrelation.minStationDistance" eq_refl);
  rewrite ?(pfx name ".crossCorrelation." "maxStationDistance" "crossCorrelation.maxStationDistance" eq_refl);
  rewrite ?(pfx name ".crossCorrelation." "maxInterEventDistance" "crossCorrelation.maxInterEventDistance" eq_refl);
  rewrite ?(pfx name ".crossCorrelation.p-phase." "minCCCoef" "crossCorrelation.p-phase.minCCCoef" eq_refl);
  rewrite ?(pfx name ".crossCorrelation.p-phase." "winStart" "crossCorrelation.p-phase.winStart" eq_refl);
  rewrite ?(pfx name ".crossCorrelation.p-phase." "winEnd" "crossCorrelation.p-phase.winEnd" eq_refl);
  rewrite ?(pfx name ".crossCorrelation.p-phase." "winScaling" "crossCorrelation.p-phase.winScaling" eq_refl);
  rewrite ?(pfx name ".crossCorrelation.p-phase." "maxDelay" "crossCorrelation.p-phase.maxDelay" eq_refl);
  rewrite ?(pfx name ".crossCorrelation.p-phase." "components" "crossCorrelation.p-phase.components" eq_refl);
  rewrite ?(pfx name ".crossCorrelation.s-phase." "minCCCoef" "crossCorrelation.s-phase.minCCCoef" eq_refl);
  rewrite ?(pfx name ".crossCorrelation.s-phase." "winStart" "crossCorrelation.s-phase.winStart" eq_refl);
  rewrite ?(pfx name ".crossCorrelation.s-phase." "winEnd" "crossCorrelation.s-phase.winEnd" eq_refl);
  rewrite ?(pfx name ".crossCorrelation.s-phase." "winScaling" "crossCorrelation.s-phase.winScaling" eq_refl);
  rewrite ?(pfx name ".crossCorrelation.s-phase." "maxDelay" "crossCorrelation.s-phase.maxDelay" eq_refl);
  rewrite ?(pfx name ".crossCorrelation.s-phase." "components" "crossCorrelation.s-phase.components" eq_refl);
  rewrite ?(pfx name ".crossCorrelation.waveformFiltering." "filterString" "crossCorrelation.waveformFiltering.filterString" eq_refl);
  rewrite ?(pfx name ".crossCorrelation.waveformFiltering." "margin" "crossCorrelation.waveformFiltering.margin" eq_refl);
  rewrite ?(pfx name ".crossCorrelation.waveformFiltering." "resampling" "crossCorrelation.waveformFiltering.resampling" eq_refl);
  rewrite ?(pfx name ".solver." "solverType" "solver.solverType" eq_refl);
  rewrite ?(pfx name ".solver." "algoIterations" "solver.algoIterations" eq_refl);
  rewrite ?(pfx name ".solver." "downWeightingByResidual" "solver.downWeightingByResidual" eq_refl);
  rewrite ?(pfx name ".solver." "dampingFactor" "solver.dampingFactor" eq_refl);
  rewrite ?(pfx name ".solver." "absoluteLocationConstraint" "solver.absoluteLocationConstraint" eq_refl);
  rewrite ?(pfx name ".solver." "xcorrWeightScaler" "solver.xcorrWeightScaler" eq_refl);
  rewrite ?(pfx name ".solver." "usePickUncertainties" "solver.usePickUncertainties" eq_refl).

Lemma value_try {A} (get : string → option A) name k d : value get name k d (try_ (get (key name k)) d).
Proof. unfold value, try_. destruct (get (key name k)); auto. Qed.
Lemma unsigned_ok z : as_unsigned z (unsigned z).
Proof.
  unfold as_unsigned, unsigned. pose proof (Z.mod_pos_bound z (2 ^ 32) ltac:(lia)) as B. split; [lia|].
  exists (- (z / 2 ^ 32))%Z. rewrite Z2N.id by lia. pose proof (Z.div_mod z (2 ^ 32) ltac:(lia)). lia.
Qed.
Lemma count_try c name k d : count c name k d (unsigned (try_ (g_int c (key name k)) d)).
Proof. exists (try_ (g_int c (key name k)) d). split; [apply value_try|apply unsigned_ok]. Qed.

(** ** The region *)
Definition all_ascii : list ascii := List.map ascii_of_nat (seq 0 256).
Lemma all_ascii_in a : In a all_ascii.
Proof. unfold all_ascii. rewrite <- (ascii_nat_embedding a). apply in_map, in_seq. pose proof (nat_ascii_bounded a). lia. Qed.
Lemma upper_check : forallb (fun d => forallb (fun a => Bool.eqb (bool_decide (to_upper a = d)) (bool_decide (lower a = lower d))) all_ascii)
  (list_ascii_of_string "RECTANGUL") = true.
Proof. vm_compute. reflexivity. Qed.
Lemma upper_lower a d : In d (list_ascii_of_string "RECTANGUL") -> to_upper a = d <-> lower a = lower d.
Proof.
  intros Hd. pose proof (proj1 (forallb_forall _ _) upper_check d Hd) as H. cbv beta in H.
  pose proof (proj1 (forallb_forall _ _) H a (all_ascii_in a)) as H1. cbv beta in H1. apply Bool.eqb_prop in H1.
  destruct (bool_decide_reflect (to_upper a = d)), (bool_decide_reflect (lower a = lower d)); try discriminate; tauto.
Qed.
Lemma upper_lower_s (w s : string) : Forall (fun d => In d (list_ascii_of_string "RECTANGUL")) (list_ascii_of_string w) ->
  make_upper s = w <-> lower_case s = lower_case w.
Proof.
  revert s. induction w as [|d w IH]; intros s F.
  - destruct s; cbn; [tauto|]. split; discriminate.
  - cbn [list_ascii_of_string] in F. inversion F as [|? ? Hd Fw]; subst. destruct s as [|a s]; cbn [make_upper lower_case]; [split; discriminate|].
    specialize (IH s Fw). pose proof (upper_lower a d Hd) as U. split; intros E; injection E as E1 E2; f_equal; tauto.
Qed.
Lemma rect_word s : make_upper s = "RECTANGULAR" <-> lower_case s = "rectangular".
Proof. apply (upper_lower_s "RECTANGULAR"). cbn [list_ascii_of_string]. repeat (apply List.Forall_cons; [repeat first [left; reflexivity | right]|]). apply List.Forall_nil. Qed.

Section proofs.
Variable from_string : string → option Q.
Variable abs_path : string → string.
Variable c : cfg.
Variable url : string.
Variable o : cmd.

Lemma typed_some l v : typed from_string l = Some v <-> numbers from_string l v.
Proof.
  revert v. induction l as [|s l IH]; intros v; cbn [typed].
  - split; [intros E; injection E as <-; constructor|intros H; inversion H; reflexivity].
  - split.
    + destruct (from_string s) as [q|] eqn:Es; cbn; [|discriminate]. destruct (typed from_string l) as [vs|] eqn:El; cbn; [|discriminate].
      intros E. injection E as <-. constructor; [exact Es|]. apply IH. reflexivity.
    + intros H. inversion H as [|? q ? vs Hs Hl]; subst. rewrite Hs. cbn. apply IH in Hl. rewrite Hl. reflexivity.
Qed.
Lemma typed_list_some name k n v : n <> 0%nat -> typed_list from_string c (key name k) n = Some v <->
  exists l, value (g_strings c) name k [] l /\ numbers from_string l v /\ (length l = n \/ l = []).
Proof.
  intros Hn. unfold typed_list. set (l := try_ (g_strings c (key name k)) []).
  assert (V : forall l', value (g_strings c) name k [] l' <-> l' = l).
  { intros l'. subst l. unfold value, try_. destruct (g_strings c (key name k)); split; intros H; repeat match goal with H : _ \/ _ |- _ => destruct H | H : _ /\ _ |- _ => destruct H end; try congruence; subst; auto. }
  destruct (decide (length l <> n /\ l <> [])) as [[D1 D2]|D].
  - split; [discriminate|]. intros (l' & H1 & H2 & H3). apply V in H1. subst l'. destruct H3; contradiction.
  - rewrite typed_some. split.
    + intros H. exists l. split; [apply V; reflexivity|]. split; [exact H|]. destruct (decide (l = [])) as [->|]; [right; reflexivity|left].
      destruct (decide (length l = n)); [assumption|]. exfalso. apply D. tauto.
    + intros (l' & H1 & H2 & H3). apply V in H1. subst l'. exact H2.
Qed.
Lemma rect_iff name : make_upper (try_ (g_string c (key name "regionType")) "") = "RECTANGULAR" <-> rectangular c name.
Proof.
  unfold rectangular, try_. destruct (g_string c (key name "regionType")) as [s|].
  - rewrite rect_word. split; [intros H; exists s; auto|]. intros (s' & E & H). injection E as <-. exact H.
  - cbn. split; [discriminate|]. intros (s' & E & H). discriminate E.
Qed.
Lemma read_region_some name r : read_region from_string c ("profile." ++ name ++ ".") = Some r <-> region_of from_string c name r.
Proof.
  unfold read_region. keys name. cbv zeta.
  destruct (String.eqb_spec (make_upper (try_ (g_string c (key name "regionType")) "")) "RECTANGULAR") as [E|E]; rewrite rect_iff in E.
  - split.
    + destruct (typed_list from_string c (key name "region") 4) as [v|] eqn:T; cbn [mbind option_bind]; [|discriminate].
      apply typed_list_some in T; [|lia]. destruct T as (l & V & Hn & Hl). intros H. exists l, v. split; [exact V|]. split; [exact Hn|].
      split; [intros _|tauto]. destruct v as [|a [|b [|d [|e [|]]]]]; try discriminate H; injection H as <-; [left; auto|right; eauto 10].
    + intros (l & v & V & Hn & H & _). specialize (H E).
      assert (T : typed_list from_string c (key name "region") 4 = Some v).
      { apply typed_list_some; [lia|]. exists l. split; [exact V|]. split; [exact Hn|]. pose proof (Forall2_length _ _ _ Hn) as L.
        destruct H as [[-> _]|(a & b & d & e & -> & _)]; cbn in L; [right; destruct l; [reflexivity|discriminate L]|left; exact L]. }
      rewrite T. cbn [mbind option_bind]. destruct H as [[-> ->]|(a & b & d & e & -> & ->)]; reflexivity.
  - split.
    + destruct (typed_list from_string c (key name "region") 3) as [v|] eqn:T; cbn [mbind option_bind]; [|discriminate].
      apply typed_list_some in T; [|lia]. destruct T as (l & V & Hn & Hl). intros H. exists l, v. split; [exact V|]. split; [exact Hn|].
      split; [tauto|intros _]. destruct v as [|a [|b [|d [|]]]]; try discriminate H; injection H as <-; [left; auto|right; eauto 10].
    + intros (l & v & V & Hn & _ & H). specialize (H E).
      assert (T : typed_list from_string c (key name "region") 3 = Some v).
      { apply typed_list_some; [lia|]. exists l. split; [exact V|]. split; [exact Hn|]. pose proof (Forall2_length _ _ _ Hn) as L.
        destruct H as [[-> _]|(a & b & d & -> & _)]; cbn in L; [right; destruct l; [reflexivity|discriminate L]|left; exact L]. }
      rewrite T. cbn [mbind option_bind]. destruct H as [[-> ->]|(a & b & d & -> & ->)]; reflexivity.
Qed.

(** ** One profile *)
Lemma read_classes_ok l ts : read_classes from_string l = (ts, true) -> numbers from_string l ts.
Proof.
  revert ts. induction l as [|s l IH]; intros ts; cbn [read_classes].
  - intros E. injection E as <-. constructor.
  - destruct (from_string s) as [q|] eqn:Es; [|discriminate]. destruct (read_classes from_string l) as [vs b]. intros E. injection E as <- ->.
    constructor; [exact Es|]. apply IH. reflexivity.
Qed.
Lemma read_classes_bool l : (read_classes from_string l).2 = true <-> Forall (is_number from_string) l.
Proof.
  induction l as [|s l IH]; cbn [read_classes]; [split; [constructor|reflexivity]|].
  unfold is_number in *. rewrite Forall_cons. destruct (from_string s) as [q|].
  - destruct (read_classes from_string l) as [vs b]. cbn in *. rewrite IH. split; [intros; split; [discriminate|assumption]|tauto].
  - cbn. split; [discriminate|tauto].
Qed.
Lemma read_pair_none name k d : read_pair c (key name k) d = None <-> ~ (forall l, g_doubles c (key name k) = Some l -> (1 <= length l <= 2)%nat).
Proof.
  unfold read_pair. destruct (g_doubles c (key name k)) as [[|x [|y [|]]]|]; cbn; split; intros H; try discriminate; try reflexivity.
  - intros H1. specialize (H1 _ eq_refl). cbn in H1. lia.
  - exfalso. apply H. intros l E. injection E as <-. cbn. lia.
  - exfalso. apply H. intros l E. injection E as <-. cbn. lia.
  - intros H1. specialize (H1 _ eq_refl). cbn in H1. lia.
  - exfalso. apply H. discriminate.
Qed.
Lemma read_pair_some name k d p dl : range dl d -> read_pair c (key name k) d = Some p ->
  exists l, value (g_doubles c) name k dl l /\ range l p.
Proof.
  unfold read_pair, value. intros Hd. destruct (g_doubles c (key name k)) as [[|x [|y [|]]]|]; intros E; try discriminate; injection E as <-.
  - exists [x]. split; [left; reflexivity|]. left. auto.
  - exists [x; y]. split; [left; reflexivity|]. right. auto.
  - exists dl. split; [right; auto|]. exact Hd.
Qed.
Definition uses_ids (name : string) : bool :=
  match g_path c (key name "catalog.stationFile"), g_path c (key name "catalog.phaFile"), g_path c (key name "catalog.eventFile") with
  | Some _, Some _, _ => false | _, _, Some _ => true | _, _, None => false end.
Lemma clust_ok name mode n1 n2 k1 k2 k3 :
  k1 = "doubleDifferenceSystem.eventPairSelection." ++ mode ++ ".maxNumNeighbours" ->
  k2 = "doubleDifferenceSystem.eventPairSelection." ++ mode ++ ".maxNeighbourDistance" ->
  k3 = "doubleDifferenceSystem.eventPairSelection." ++ mode ++ ".numEllipsoids" ->
  clust_of c name mode n1 n2
    (Clust (try_ (g_double c (key name "doubleDifferenceSystem.phaseFiltering.minStationToEventPairDistRatio")) 3%Q)
       (try_ (g_double c (key name "doubleDifferenceSystem.phaseFiltering.minStationDistance")) 0%Q)
       (try_ (g_double c (key name "doubleDifferenceSystem.phaseFiltering.maxStationDistance")) 0%Q)
       (unsigned (try_ (g_int c (key name "doubleDifferenceSystem.eventFiltering.minNumNeighbours")) 4%Z))
       (unsigned (try_ (g_int c (key name k1)) n1))
       (unsigned (try_ (g_int c (key name "doubleDifferenceSystem.eventFiltering.minNumPhases")) 8%Z)) 0
       (try_ (g_double c (key name k2)) 5%Q) (unsigned (try_ (g_int c (key name k3)) n2))).
Proof. intros -> -> ->. constructor; cbn; first [apply value_try | apply count_try | reflexivity]. Qed.
Lemma xphase_ok name ph stop scaling comps s :
  s = ".crossCorrelation." ++ ph ++ "." ->
  xphase_of c name ph stop scaling comps (read_xphase c ("profile." ++ name ++ s) stop scaling comps).
Proof.
  intros ->. unfold read_xphase. cbv zeta.
  assert (P : forall k, ("profile." ++ name ++ (".crossCorrelation." ++ ph ++ ".")) ++ k = key name ("crossCorrelation." ++ ph ++ "." ++ k)).
  { intros k. apply pfx. rewrite !app_assoc_s. reflexivity. }
  rewrite !P. constructor; cbn [x_min x_start x_end x_scaling x_delay x_components]; apply value_try.
Qed.
Lemma files_ok name p : (p_stationFile p, p_phaFile p, p_eventFile p, p_eventIDFile p) = read_files abs_path c ("profile." ++ name ++ ".catalog.") ->
  files_of abs_path c name p.
Proof.
  unfold read_files. keys name. intros E.
  constructor.
  - intros sf pf ef E1 E2 E3. rewrite E1, E2, E3 in E. injection E as -> -> -> ->. auto.
  - intros ef H E3. rewrite E3 in E. destruct (g_path c (key name "catalog.stationFile")), (g_path c (key name "catalog.phaFile"));
      destruct H as [H|H]; try discriminate H; injection E as _ _ _ E; exact E.
  - intros E3. rewrite E3 in E. destruct (g_path c (key name "catalog.stationFile")), (g_path c (key name "catalog.phaFile"));
      injection E as _ _ E4 E5; auto.
Qed.

Lemma read_profile_ok st name : name <> "" -> acceptable from_string c name -> exists p, documented from_string abs_path c url (o_diag o) name p /\
  read_profile from_string abs_path c url o st name = (State (st_ok st) (st_db st || uses_ids name) (st_profiles st ++ [p])%list, false).
Proof.
  intros Hne [[r Hr] Hc Hd1 Hd2 Hd3]. unfold read_profile. destruct (String.eqb_spec name "") as [|_]; [contradiction|].
  apply read_region_some in Hr. cbv zeta. rewrite Hr.
  keys name. cbv beta iota.
  destruct (match g_strings c (key name "pickUncertaintyClasses") with Some l => read_classes from_string l | None => _ end) as [classes cok] eqn:Ec.
  destruct (read_files abs_path c ("profile." ++ name ++ ".catalog.")) as [[[sf pf] ef] idf] eqn:Ef.
  destruct (read_pair c (key name "solver.downWeightingByResidual") (10%Q, 5%Q)) as [down|] eqn:E1; [|apply read_pair_none in E1; contradiction].
  destruct (read_pair c (key name "solver.dampingFactor") (0.01%Q, 0.01%Q)) as [damp|] eqn:E2; [|apply read_pair_none in E2; contradiction].
  destruct (read_pair c (key name "solver.absoluteLocationConstraint") (0.3%Q, 0.3%Q)) as [loc|] eqn:E3; [|apply read_pair_none in E3; contradiction].
  assert (Cok : cok = true /\ ((g_strings c (key name "pickUncertaintyClasses") = None /\ classes = [0.000; 0.025; 0.050; 0.100; 0.200; 0.400]%Q) \/
    exists l, g_strings c (key name "pickUncertaintyClasses") = Some l /\ numbers from_string l classes)).
  { destruct (g_strings c (key name "pickUncertaintyClasses")) as [l|].
    - specialize (Hc l eq_refl). apply read_classes_bool in Hc. rewrite Ec in Hc. cbn in Hc. subst cok. split; [reflexivity|]. right. exists l.
      split; [reflexivity|]. apply read_classes_ok. exact Ec.
    - injection Ec as <- <-. auto. }
  destruct Cok as [-> Cl]. rewrite andb_true_r. eexists. split; [|reflexivity].
  constructor; cbn [p_name p_diag p_url p_region p_method p_tttType p_tttModel p_autoP p_autoS p_dd p_single p_multi p_xcorr p_solver
    d_pphases d_sphases d_classes d_psonly d_filter d_resample d_extra x_enable x_minDist x_maxDist x_inter x_P x_S
    s_type s_l2 s_solverIter s_algoIter s_loc s_damp s_down s_pickUnc s_scaler];
    first [reflexivity | apply value_try | apply count_try | idtac].
  - apply read_region_some. exact Hr.
  - exact Cl.
  - apply files_ok. cbn. symmetry. exact Ef.
  - apply clust_ok; reflexivity.
  - apply clust_ok; reflexivity.
  - apply xphase_ok; reflexivity.
  - apply xphase_ok; reflexivity.
  - apply (read_pair_some _ _ _ _ [10; 5]%Q) in E1; [exact E1|right; reflexivity].
  - apply (read_pair_some _ _ _ _ [0.01]%Q) in E2; [exact E2|left; auto].
  - apply (read_pair_some _ _ _ _ [0.3]%Q) in E3; [exact E3|left; auto].
Qed.
Lemma read_profile_good st name : name <> "" -> st_ok (read_profile from_string abs_path c url o st name).1 = true -> acceptable from_string c name.
Proof.
  intros Hne. unfold read_profile. destruct (String.eqb_spec name "") as [|_]; [contradiction|]. cbv zeta.
  destruct (read_region from_string c ("profile." ++ name ++ ".")) as [r|] eqn:Er; [|discriminate].
  apply read_region_some in Er. keys name. cbv beta iota.
  destruct (match g_strings c (key name "pickUncertaintyClasses") with Some l => read_classes from_string l | None => _ end) as [classes cok] eqn:Ec.
  destruct (read_files abs_path c ("profile." ++ name ++ ".catalog.")) as [[[sf pf] ef] idf] eqn:Ef.
  destruct (read_pair c (key name "solver.downWeightingByResidual") (10%Q, 5%Q)) as [down|] eqn:E1; [|discriminate].
  destruct (read_pair c (key name "solver.dampingFactor") (0.01%Q, 0.01%Q)) as [damp|] eqn:E2; [|discriminate].
  destruct (read_pair c (key name "solver.absoluteLocationConstraint") (0.3%Q, 0.3%Q)) as [loc|] eqn:E3; [|discriminate].
  cbn [fst st_ok]. destruct cok; [|rewrite andb_false_r; discriminate]. intros _.
  assert (N : forall k d p, read_pair c (key name k) d = Some p -> forall l, g_doubles c (key name k) = Some l -> (1 <= length l <= 2)%nat).
  { intros k d p E l El. unfold read_pair in E. rewrite El in E. destruct l as [|x [|y [|]]]; try discriminate E; cbn; lia. }
  constructor; [exists r; exact Er| |eapply N; exact E1|eapply N; exact E2|eapply N; exact E3].
  intros l El. rewrite El in Ec. apply read_classes_bool. rewrite Ec. reflexivity.
Qed.
Lemma read_profile_false st name : st_ok st = false -> st_ok (read_profile from_string abs_path c url o st name).1 = false.
Proof.
  intros E. unfold read_profile. destruct (String.eqb name ""); [exact E|]. cbv zeta.
  repeat match goal with |- context [match ?x with _ => _ end] => lazymatch x with context [match _ with _ => _ end] => fail | _ => destruct x end end;
    cbn; try reflexivity; rewrite E; reflexivity.
Qed.
Lemma read_profiles_false st names : st_ok st = false -> st_ok (read_profiles from_string abs_path c url o st names) = false.
Proof.
  revert st. induction names as [|n names IH]; intros st E; cbn [read_profiles]; [exact E|].
  pose proof (read_profile_false st n E) as F. destruct (read_profile from_string abs_path c url o st n) as [st' stop]. destruct stop; [exact F|].
  apply IH. exact F.
Qed.
Lemma read_profiles_ok st names : st_ok st = true -> Forall (fun n => n <> "" -> acceptable from_string c n) names ->
  exists ps, Forall2 (documented from_string abs_path c url (o_diag o)) (List.filter (fun s => negb (String.eqb s "")) names) ps /\
    read_profiles from_string abs_path c url o st names =
    State true (st_db st || existsb (fun n => negb (String.eqb n "") && uses_ids n) names) (st_profiles st ++ ps)%list.
Proof.
  revert st. induction names as [|n names IH]; intros st E F; cbn [read_profiles].
  - exists []. split; [constructor|]. rewrite orb_false_r, app_nil_r. destruct st; cbn in *; congruence.
  - inversion F as [|? ? Fn Fns]; subst. cbn [List.filter existsb]. destruct (String.eqb_spec n "") as [->|Hn]; cbn [negb].
    + cbn [read_profile String.eqb]. destruct (IH st E Fns) as (ps & H1 & H2). exists ps. split; [exact H1|exact H2].
    + destruct (read_profile_ok st n Hn (Fn Hn)) as (p & Hp & ->). destruct (IH (State (st_ok st) (st_db st || uses_ids n) (st_profiles st ++ [p])%list) E Fns) as (ps & H1 & H2).
      exists (p :: ps). split; [constructor; assumption|]. rewrite H2. cbn [st_db st_profiles]. rewrite <- app_assoc. cbn [app andb]. rewrite orb_assoc. reflexivity.
Qed.
Lemma read_profiles_good st names : st_ok (read_profiles from_string abs_path c url o st names) = true ->
  Forall (fun n => n <> "" -> acceptable from_string c n) names.
Proof.
  revert st. induction names as [|n names IH]; intros st; cbn [read_profiles]; [constructor|].
  destruct (read_profile from_string abs_path c url o st n) as [st' stop] eqn:E. destruct stop; intros H.
  - exfalso. revert E. unfold read_profile. destruct (String.eqb n ""); [intros E; injection E; discriminate|]. cbv zeta.
    repeat match goal with |- context [match ?x with _ => _ end] => lazymatch x with context [match _ with _ => _ end] => fail | _ => destruct x end end;
      intros E; injection E; intros; subst; discriminate.
  - constructor; [|apply (IH st'); exact H]. intros Hn. apply (read_profile_good st n Hn). rewrite E. cbn [fst].
    destruct (st_ok st') eqn:Ok; [reflexivity|]. rewrite (read_profiles_false st' names Ok) in H. discriminate H.
Qed.
End proofs.
