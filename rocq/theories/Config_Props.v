(** C82: the configuration of the application. *)
From Coq Require Import Ascii String ZArith QArith Lia.
From stdpp Require Import numbers list strings.
From Verif Require Import Region_Model Config_Model Config_Spec Config_Proofs Config_Keys.
Local Open Scope string_scope.

(** The parameters that are not those of a profile *)
Definition global_keys : list string :=
  ["onlyPreferredOrigins"; "automaticOrigins"; "manualOrigins"; "activeProfiles"; "performance.delayTime"; "performance.profileTimeAlive";
   "performance.cacheWaveforms"; "performance.cacheDirectory"; "performance.cachedWaveformLength"; "acceptedOriginAuthors"].
(** Two configurations that agree on all parameters that are documented *)
Definition is_documented (k : string) : Prop := In k global_keys \/ exists n d, In d doc_keys /\ k = key n d.
Record agree (c c' : cfg) : Prop := Agree {
  ag_string k : is_documented k -> g_string c k = g_string c' k;
  ag_strings k : is_documented k -> g_strings c k = g_strings c' k;
  ag_path k : is_documented k -> g_path c k = g_path c' k;
  ag_bool k : is_documented k -> g_bool c k = g_bool c' k;
  ag_int k : is_documented k -> g_int c k = g_int c' k;
  ag_double k : is_documented k -> g_double c k = g_double c' k;
  ag_doubles k : is_documented k -> g_doubles c k = g_doubles c' k }.

Section props.
Variable from_string : string → option Q.
Variable abs_path : string → string.
Variable url : string.
Variable o : cmd.
Variable inv_db : bool.
Notation validate_ c := (validate from_string abs_path c url o inv_db).

Lemma bind_none {A B} (x : option A) (f : A → option B) : x ≫= f = None <-> x = None \/ exists a, x = Some a /\ f a = None.
Proof. destruct x as [a|]; cbn; split; [eauto|intros [E|(b & E & H)]; [discriminate|injection E as <-; exact H]|auto|reflexivity]. Qed.
Lemma bind_some {A B} (x : option A) (f : A → option B) b : x ≫= f = Some b <-> exists a, x = Some a /\ f a = Some b.
Proof. destruct x as [a|]; cbn; split; [eauto|intros (a' & E & H); injection E as <-; exact H|discriminate|intros (a' & E & H); discriminate]. Qed.

(** The program stops with an exception exactly if one of nine parameters cannot be read *)
Theorem C82_throws c : validate_ c = None <->
  g_bool c "onlyPreferredOrigins" = None \/ g_bool c "automaticOrigins" = None \/ g_bool c "manualOrigins" = None \/
  g_strings c "activeProfiles" = None \/ g_int c "performance.delayTime" = None \/ g_int c "performance.profileTimeAlive" = None \/
  g_bool c "performance.cacheWaveforms" = None \/ g_path c "performance.cacheDirectory" = None \/ g_double c "performance.cachedWaveformLength" = None.
Proof.
  unfold validate.
  destruct (g_bool c "onlyPreferredOrigins"), (g_bool c "automaticOrigins"), (g_bool c "manualOrigins"), (g_strings c "activeProfiles"),
    (g_int c "performance.delayTime"), (g_int c "performance.profileTimeAlive"), (g_bool c "performance.cacheWaveforms"),
    (g_path c "performance.cacheDirectory"), (g_double c "performance.cachedWaveformLength"); cbn [mbind option_bind]; split; intros H; try reflexivity;
    first [discriminate H | tauto | (repeat (destruct H as [H|H]; [discriminate H|]); discriminate H)].
Qed.

(** The parameters that are not those of a profile *)
Theorem C82_globals c r : validate_ c = Some r -> let g := r_globals r in
  g_bool c "onlyPreferredOrigins" = Some (l_onlyPreferred g) /\ g_bool c "automaticOrigins" = Some (l_automatic g) /\
  g_bool c "manualOrigins" = Some (l_manual g) /\ g_strings c "activeProfiles" = Some (l_active g) /\
  g_int c "performance.delayTime" = Some (l_delay g) /\ g_int c "performance.profileTimeAlive" = Some (l_alive g) /\
  g_bool c "performance.cacheWaveforms" = Some (l_cache g) /\ (exists d, g_path c "performance.cacheDirectory" = Some d /\ l_cacheDir g = abs_path d) /\
  g_double c "performance.cachedWaveformLength" = Some (l_cacheLen g) /\
  (g_strings c "acceptedOriginAuthors" = Some (l_authors g) \/ (g_strings c "acceptedOriginAuthors" = None /\ l_authors g = [])).
Proof.
  unfold validate. intros H. repeat (apply bind_some in H; destruct H as (? & ? & H)). cbv zeta in H. injection H as <-.
  cbv zeta. cbn [r_globals l_onlyPreferred l_automatic l_manual l_active l_delay l_alive l_cache l_cacheDir l_cacheLen l_authors].
  repeat (split; [first [assumption | eauto]|]). unfold try_. destruct (g_strings c "acceptedOriginAuthors"); auto.
Qed.

Definition to_load (active : list string) : list string :=
  if given (o_profile o) && negb (bool_decide (o_profile o ∈ active)) then (active ++ [o_profile o])%list else active.
Definition offline : bool :=
  given (o_eventXML o) || given (o_dumpCatalog o) || given (o_mergeCatalogs o) || given (o_relocateCatalog o)
  || o_loadWf o || given (o_dumpWaveforms o) || given (o_dumpClusters o) || (given (o_originIDs o) && o_test o).
Definition single (s : string) : bool := given s && Nat.eqb (length (split_string s ",")) 1.
Definition requires : bool := single (o_dumpWaveforms o) || single (o_dumpClusters o) || single (o_relocateCatalog o).
Definition db_off (db : bool) : bool :=
  negb inv_db && negb db && (given (o_eventXML o) || given (o_mergeCatalogs o) || given (o_relocateCatalog o) || given (o_dumpWaveforms o)
                             || o_loadWf o || given (o_dumpClusters o)).
Lemma validate_some c r : validate_ c = Some r -> exists active,
  g_strings c "activeProfiles" = Some active /\ l_active (r_globals r) = active /\
  let st := read_profiles from_string abs_path c url o (State true requires []) (to_load active) in
  r_ok r = st_ok st /\ r_profiles r = st_profiles st /\ r_test r = (offline || o_test o) /\ r_messaging r = negb offline /\
  r_database r = negb (db_off (st_db st)).
Proof.
  unfold validate. intros H. repeat (apply bind_some in H; destruct H as (? & ? & H)). cbv zeta in H. injection H as <-.
  eexists. split; [eassumption|]. split; [reflexivity|]. cbv zeta. cbn [r_ok r_profiles r_test r_messaging r_database r_globals l_active].
  auto 10.
Qed.

Lemma to_load_wanted active : wanted active (o_profile o) (List.filter (fun s => negb (String.eqb s "")) (to_load active)).
Proof.
  unfold wanted, to_load, given. split; intros H.
  - rewrite bool_decide_eq_true_2 by (apply elem_of_list_In; exact H). rewrite andb_false_r. reflexivity.
  - rewrite bool_decide_eq_false_2 by (rewrite elem_of_list_In; exact H). rewrite andb_true_r. destruct (String.eqb_spec (o_profile o) "") as [E|E]; cbn [negb].
    + rewrite app_nil_r. reflexivity.
    + rewrite List.filter_app. cbn [List.filter]. destruct (String.eqb_spec (o_profile o) ""); [contradiction|]. reflexivity.
Qed.

(** The configuration is accepted exactly if every profile to be loaded is acceptable, and
    then the profiles are the wanted ones, in their order, with every parameter as configured
    or with its documented default *)
Theorem C82_accepted c r active names : validate_ c = Some r -> g_strings c "activeProfiles" = Some active -> wanted active (o_profile o) names ->
  (r_ok r = true <-> Forall (acceptable from_string c) names) /\
  (r_ok r = true -> Forall2 (documented from_string abs_path c url (o_diag o)) names (r_profiles r)).
Proof.
  intros H E W. apply validate_some in H. destruct H as (active' & E' & _ & Hok & Hps & _). rewrite E in E'. injection E' as <-.
  assert (N : names = List.filter (fun s => negb (String.eqb s "")) (to_load active)).
  { destruct W as [W1 W2]. destruct (to_load_wanted active) as [T1 T2]. destruct (in_dec String.string_dec (o_profile o) active) as [I|I].
    - rewrite (W1 I), (T1 I). reflexivity.
    - rewrite (W2 I), (T2 I). reflexivity. }
  subst names. set (L := to_load active) in *.
  assert (Eq : Forall (acceptable from_string c) (List.filter (fun s => negb (String.eqb s "")) L) <-> Forall (fun n => n <> "" -> acceptable from_string c n) L).
  { clear. induction L as [|n L IH]; [split; constructor|]. cbn [List.filter]. destruct (String.eqb_spec n "") as [->|Hn]; cbn [negb].
    - rewrite Forall_cons, IH. split; [intros F; split; [congruence|exact F]|tauto].
    - rewrite !Forall_cons, IH. tauto. }
  rewrite Eq. split.
  - rewrite Hok. split; [apply read_profiles_good|]. intros F.
    destruct (read_profiles_ok from_string abs_path c url o (State true requires []) L eq_refl F) as (ps & _ & ->). reflexivity.
  - intros Ok. rewrite Hok in Ok. apply read_profiles_good in Ok.
    destruct (read_profiles_ok from_string abs_path c url o (State true requires []) L eq_refl Ok) as (ps & H1 & H2). rewrite Hps, H2. exact H1.
Qed.

(** The parameters of one profile do not matter for the others *)
Theorem C82_separate c c' name r r' : differ_in name c c' -> validate_ c = Some r -> validate_ c' = Some r' -> r_ok r = true -> r_ok r' = true ->
  Forall2 (fun p p' => p_name p = p_name p' /\ (p_name p <> name -> p = p')) (r_profiles r) (r_profiles r').
Proof.
  intros D H H' Ok Ok'. apply validate_some in H, H'. destruct H as (a & E & _ & Hok & Hps & _), H' as (a' & E' & _ & Hok' & Hps' & _).
  rewrite Hok in Ok. rewrite Hok' in Ok'.
  assert (a' = a) as ->.
  { rewrite (df_strings _ _ _ D) in E; [congruence|]. intros d _ F. discriminate F. }
  rewrite Hps, Hps', (read_profiles_profiles _ _ _ _ _ _ _ Ok), (read_profiles_profiles _ _ _ _ _ _ _ Ok'). cbn [st_profiles app].
  pose proof (read_profiles_good _ _ _ _ _ _ _ Ok) as G. pose proof (read_profiles_good _ _ _ _ _ _ _ Ok') as G'.
  clear Ok Ok' Hok Hok' Hps Hps'. induction (to_load a) as [|n L IH]; cbn [fmap list_fmap concat]; [constructor|].
  inversion G as [|? ? Gn GL]; subst. inversion G' as [|? ? Gn' GL']; subst. apply Forall2_app; [|apply IH; assumption].
  destruct (String.eqb_spec n "") as [->|Hn]; [constructor|].
  destruct (decide (n = name)) as [->|Hd].
  - destruct (read_profile_ok from_string abs_path c url o st0 name Hn (Gn Hn)) as (p & Dp & ->).
    destruct (read_profile_ok from_string abs_path c' url o st0 name Hn (Gn' Hn)) as (p' & Dp' & ->). cbn.
    constructor; [|constructor]. split; [|rewrite (do_name _ _ _ _ _ _ _ Dp); tauto].
    rewrite (do_name _ _ _ _ _ _ _ Dp), (do_name _ _ _ _ _ _ _ Dp'). reflexivity.
  - assert (S : same_at c c' n).
    { constructor; intros k Hk; apply D; intros d Hk' F; apply Hd; exact (keys_apart n k name d Hk Hk' F). }
    rewrite (read_profile_same from_string abs_path url o c c' st0 n S).
    destruct (read_profile_ok from_string abs_path c' url o st0 n Hn (Gn' Hn)) as (p' & Dp' & ->). cbn. constructor; [|constructor]. auto.
Qed.

(** An entry that is not documented has no effect *)
Theorem C82_undocumented c c' : agree c c' -> validate_ c = validate_ c'.
Proof.
  intros A. unfold validate.
  assert (G : forall k, existsb (String.eqb k) global_keys = true -> is_documented k).
  { intros k H. left. apply existsb_exists in H. destruct H as (x & H & E). apply String.eqb_eq in E. subst x. exact H. }
  rewrite (ag_bool _ _ A "onlyPreferredOrigins") by (apply G; reflexivity).
  rewrite (ag_bool _ _ A "automaticOrigins") by (apply G; reflexivity).
  rewrite (ag_bool _ _ A "manualOrigins") by (apply G; reflexivity).
  rewrite (ag_strings _ _ A "activeProfiles") by (apply G; reflexivity).
  rewrite (ag_int _ _ A "performance.delayTime") by (apply G; reflexivity).
  rewrite (ag_int _ _ A "performance.profileTimeAlive") by (apply G; reflexivity).
  rewrite (ag_bool _ _ A "performance.cacheWaveforms") by (apply G; reflexivity).
  rewrite (ag_path _ _ A "performance.cacheDirectory") by (apply G; reflexivity).
  rewrite (ag_double _ _ A "performance.cachedWaveformLength") by (apply G; reflexivity).
  rewrite (ag_strings _ _ A "acceptedOriginAuthors") by (apply G; reflexivity).
  destruct (g_bool c' "onlyPreferredOrigins"); [|reflexivity]. destruct (g_bool c' "automaticOrigins"); [|reflexivity].
  destruct (g_bool c' "manualOrigins"); [|reflexivity]. destruct (g_strings c' "activeProfiles") as [a|]; [|reflexivity]. cbn [mbind option_bind]. cbv zeta.
  rewrite (read_profiles_same from_string abs_path url o c c').
  - reflexivity.
  - apply Forall_forall. intros n _. constructor; intros k Hk; apply A; right; exists n, k; auto.
Qed.

(** The messaging is off exactly for the commands that must not disturb a running system,
    and then nothing is sent *)
Theorem C82_messages c r : validate_ c = Some r ->
  (r_messaging r = false <-> o_eventXML o <> "" \/ o_dumpCatalog o <> "" \/ o_mergeCatalogs o <> "" \/ o_relocateCatalog o <> "" \/ o_loadWf o = true \/
     o_dumpWaveforms o <> "" \/ o_dumpClusters o <> "" \/ (o_originIDs o <> "" /\ o_test o = true)) /\
  (r_test r = true <-> r_messaging r = false \/ o_test o = true).
Proof.
  intros H. apply validate_some in H. destruct H as (a & _ & _ & _ & _ & Ht & Hm & _). rewrite Ht, Hm.
  assert (Gv : forall s, given s = true <-> s <> "").
  { intros s. unfold given. destruct (String.eqb_spec s ""); cbn; split; congruence. }
  split.
  - unfold offline. rewrite negb_false_iff. rewrite !orb_true_iff, andb_true_iff, !Gv. tauto.
  - rewrite orb_true_iff, negb_false_iff. tauto.
Qed.

(** The database is switched off only if nothing needs it: the inventory comes from a file,
    neither a catalog of the command line nor that of a profile is a list of origin ids *)
Theorem C82_database c r active names : validate_ c = Some r -> g_strings c "activeProfiles" = Some active -> wanted active (o_profile o) names ->
  r_ok r = true ->
  (r_database r = false <->
   inv_db = false /\
   (o_eventXML o <> "" \/ o_mergeCatalogs o <> "" \/ o_relocateCatalog o <> "" \/ o_dumpWaveforms o <> "" \/ o_loadWf o = true \/ o_dumpClusters o <> "") /\
   (forall s, In s [o_dumpWaveforms o; o_dumpClusters o; o_relocateCatalog o] -> s = "" \/ In ","%char (list_ascii_of_string s)) /\
   (forall n, In n names -> g_path c (key n "catalog.eventFile") <> None ->
      g_path c (key n "catalog.stationFile") <> None /\ g_path c (key n "catalog.phaFile") <> None)).
Proof.
  intros H E W Ok. apply validate_some in H. destruct H as (active' & E' & _ & Hok & _ & _ & _ & Hdb). rewrite E in E'. injection E' as <-.
  assert (N : names = List.filter (fun s => negb (String.eqb s "")) (to_load active)).
  { destruct W as [W1 W2]. destruct (to_load_wanted active) as [T1 T2]. destruct (in_dec String.string_dec (o_profile o) active) as [I|I].
    - rewrite (W1 I), (T1 I). reflexivity.
    - rewrite (W2 I), (T2 I). reflexivity. }
  rewrite Hok in Ok. apply read_profiles_good in Ok.
  destruct (read_profiles_ok from_string abs_path c url o (State true requires []) (to_load active) eq_refl Ok) as (ps & _ & Hst).
  rewrite Hdb, Hst. cbn [st_db]. unfold db_off.
  assert (Gv : forall s, given s = true <-> s <> "").
  { intros s. unfold given. destruct (String.eqb_spec s ""); cbn; split; congruence. }
  assert (Sg : forall s, single s = false <-> s = "" \/ In ","%char (list_ascii_of_string s)).
  { intros s. unfold single. destruct (given s) eqn:Gs.
    - assert (Hs : s <> "") by (apply Gv; exact Gs). cbn [andb]. destruct (Nat.eqb_spec (length (split_string s ",")) 1) as [L|L].
      + split; [discriminate|]. apply split_one in L. intros [F|F]; contradiction.
      + split; [|reflexivity]. intros _. right. destruct (in_dec ascii_dec ","%char (list_ascii_of_string s)) as [I|I]; [exact I|].
        exfalso. apply L. apply split_one. exact I.
    - split; [|reflexivity]. intros _. left. destruct (String.eqb_spec s "") as [F|F]; [exact F|]. apply Gv in F. congruence. }
  assert (Ids : existsb (fun n => negb (String.eqb n "") && uses_ids c n) (to_load active) = false <->
    forall n, In n names -> g_path c (key n "catalog.eventFile") <> None -> g_path c (key n "catalog.stationFile") <> None /\ g_path c (key n "catalog.phaFile") <> None).
  { subst names. split.
    - intros H n I Ev. apply filter_In in I. destruct I as [I Hn].
      assert (U : uses_ids c n = false).
      { destruct (uses_ids c n) eqn:U; [|reflexivity]. exfalso. assert (X : existsb (fun n => negb (String.eqb n "") && uses_ids c n) (to_load active) = true).
        { apply existsb_exists. exists n. rewrite Hn, U. auto. } congruence. }
      unfold uses_ids in U. destruct (g_path c (key n "catalog.stationFile")), (g_path c (key n "catalog.phaFile")), (g_path c (key n "catalog.eventFile")); try discriminate U; try (exfalso; apply Ev; reflexivity); split; discriminate.
    - intros H. apply not_true_is_false. intros X. apply existsb_exists in X. destruct X as (n & I & X). apply andb_true_iff in X. destruct X as [Hn U].
      specialize (H n (proj2 (filter_In _ _ _) (conj I Hn))). unfold uses_ids in U.
      destruct (g_path c (key n "catalog.stationFile")), (g_path c (key n "catalog.phaFile")), (g_path c (key n "catalog.eventFile")); try discriminate U;
        destruct (H ltac:(discriminate)); contradiction. }
  rewrite negb_false_iff, !andb_true_iff, !negb_true_iff, !orb_false_iff, !orb_true_iff, !Gv, Ids. unfold requires. rewrite !orb_false_iff, !Sg. cbn [In].
  split.
  - intros [[H1 [[[H2 H3] H4] H5]] H6]. split; [exact H1|]. split; [tauto|]. split; [|exact H5]. intros s [<-|[<-|[<-|[]]]]; assumption.
  - intros (H1 & H2 & H3 & H4). split; [split; [exact H1|split; [split; [split|]; apply H3; tauto|exact H4]]|tauto].
Qed.
End props.

(** Any word other than RECTANGULAR stands for a circle: the documentation has two words, and
    the message "invalid region type" is never written *)
Theorem C82_region_word_refuted : exists (c : cfg) r p,
  g_string c (key "a" "regionType") = Some "RECTANGLE" /\
  validate (fun _ => Some 1%Q) (fun s => s) c "" (Cmd "" "" "" "" "" "" "" "a" "" false false false) true = Some r /\
  r_ok r = true /\ r_profiles r = [p] /\ p_region p = Circ 1 1 1.
Proof.
  exists (Cfg (fun k => if String.eqb k (key "a" "regionType") then Some "RECTANGLE" else None)
            (fun k => if String.eqb k (key "a" "region") then Some ["46"; "8"; "100"] else if String.eqb k "activeProfiles" then Some [] else None)
            (fun _ => Some "f") (fun _ => Some true) (fun _ => Some 1%Z) (fun _ => Some 1%Q) (fun _ => None)).
  eexists _, _. split; [reflexivity|]. split; [vm_compute; reflexivity|]. split; [reflexivity|]. split; reflexivity.
Qed.

(** A negative number of phases, neighbours, ellipsoids or iterations is not refused: it
    becomes larger than any number an int can hold *)
Theorem C82_negative c name k d z u : g_int c (key name k) = Some z -> (- 2 ^ 31 <= z < 0)%Z -> count c name k d u -> (Z.of_N u = 2 ^ 32 + z)%Z /\ (2 ^ 31 <= Z.of_N u)%Z.
Proof.
  intros E Hz (z' & V & L & m & Em). destruct V as [V|[V _]]; [|congruence]. rewrite E in V. injection V as <-.
  assert (m = 1)%Z by lia. subst m. lia.
Qed.

(** A configuration with one profile: three numbers for the circle, one damping factor, two
    constraints, and nothing else *)
Definition example : cfg :=
  Cfg (fun k => if String.eqb k "profile.alps.regionType" then Some "circular" else if String.eqb k "profile.alps.tableModel" then Some "alps3D" else None)
    (fun k => if String.eqb k "profile.alps.region" then Some ["46"; "8"; "100"] else if String.eqb k "activeProfiles" then Some ["alps"; ""] else None)
    (fun k => if String.eqb k "performance.cacheDirectory" then Some "cache" else if String.eqb k "profile.alps.catalog.eventFile" then Some "ids.txt" else None)
    (fun _ => Some true) (fun k => if String.eqb k "profile.alps.doubleDifferenceSystem.eventFiltering.minNumPhases" then Some (-1)%Z
                                   else if String.eqb k "performance.delayTime" then Some 10%Z else if String.eqb k "performance.profileTimeAlive" then Some 600%Z else None)
    (fun k => if String.eqb k "performance.cachedWaveformLength" then Some 10%Q else None)
    (fun k => if String.eqb k "profile.alps.solver.dampingFactor" then Some [0.1%Q] else if String.eqb k "profile.alps.solver.absoluteLocationConstraint" then Some [0.2%Q; 0.4%Q] else None).
Definition number (s : string) : option Q := if String.eqb s "46" then Some 46%Q else if String.eqb s "8" then Some 8%Q else if String.eqb s "100" then Some 100%Q else None.
Example C82_example : exists r p, validate number (fun s => "/" ++ s) example "sdsarchive" (Cmd "" "" "" "a,b,c" "" "" "" "alps" "" false false false) false = Some r /\
  r_ok r = true /\ r_messaging r = false /\ r_database r = true /\ r_profiles r = [p] /\ p_name p = "alps" /\ p_region p = Circ 46 8 100 /\
  p_eventIDFile p = "/ids.txt" /\ p_tttType p = "LOCSAT" /\ p_tttModel p = "alps3D" /\ s_damp (p_solver p) = (0.1, 0.1)%Q /\ s_loc (p_solver p) = (0.2, 0.4)%Q /\
  s_down (p_solver p) = (10, 5)%Q /\ k_minPhases (p_single p) = 4294967295%N.
Proof. eexists _, _. split; [vm_compute; reflexivity|]. repeat split; reflexivity. Qed.
Example C82_example_wanted : wanted ["alps"; ""] "alps" ["alps"] /\ wanted ["alps"] "jura" ["alps"; "jura"].
Proof. split; split; cbn; intros H; try reflexivity; try (exfalso; apply H; tauto). destruct H as [H|[]]. discriminate H. Qed.

Print Assumptions C82_throws.
Print Assumptions C82_globals.
Print Assumptions C82_accepted.
Print Assumptions C82_separate.
Print Assumptions C82_undocumented.
Print Assumptions C82_messages.
Print Assumptions C82_database.
Print Assumptions C82_region_word_refuted.
Print Assumptions C82_negative.
