(** C76: what the real-time program relocates and sends. *)
From Coq Require Import QArith String.
From stdpp Require Import gmap list.
From Verif Require Import Scheduler_Model Scheduler_Props Region_Model Region_Props RealTime_Model.
Local Open Scope Z_scope.

(** ** Specification *)
(** Origin [o] is to be relocated with profile [p] for the object [ob]. *)
Record accepted (cfg : config) (w : world) (ob : obj) (o : origin) (p : string) : Prop := {
  (* an origin stands for itself, an event for its preferred origin, *)
  acc_subject : match ob with OOrigin o' => o' = o | OEvent e => w_get w (ev_pref e) = Some o | OPick _ => False end;
  (* which it has to be if so configured; *)
  acc_preferred : only_preferred cfg = true → force_processing cfg = false →
    match ob with OOrigin o' => ∃ e, w_parent w (o_id o') = Some e ∧ ev_pref e = o_id o' | _ => True end;
  (* the profile is the first wanted one; *)
  acc_profile : ∃ lat lon i pr, o_place o = Some (lat, lon) ∧ profiles cfg !! i = Some pr ∧ p_name pr = p ∧
    wanted (w_dist w) lat lon (force_profile cfg) pr ∧
    ∀ j q, (j < i)%nat → profiles cfg !! j = Some q → ¬ wanted (w_dist w) lat lon (force_profile cfg) q;
  (* and unless forced, mode, author and agency are admitted. *)
  acc_filters : force_processing cfg = false →
    (o_mode o = Some Manual → allow_manual cfg = true) ∧
    (o_mode o ≠ Some Manual → allow_automatic cfg = true) ∧
    (accepted_authors cfg ≠ [] → ∃ a, o_author o = Some a ∧ a ∈ accepted_authors cfg) ∧
    w_blocked w (o_agency o) = false }.

(** What arrives with an operation: events if only preferred origins are wanted, else origins *)
Definition delivers (cfg : config) (op : aop) : option obj :=
  match op with
  | AObject ob _ _ _ => match ob, only_preferred cfg with OOrigin _, false | OEvent _, true => Some ob | _, _ => None end
  | ACommand o _ _ _ => Some (OOrigin o)
  | _ => None
  end.
Definition op_world (op : aop) : option world := match op with AObject _ w _ _ | ATick w _ | ACommand _ w _ _ => Some w | _ => None end.
Definition op_now (op : aop) (T : Z) : Z := match op with AObject _ _ _ now | ATick _ now | ACommand _ _ _ now => now | _ => T end.
(** When the object of an operation is to be processed *)
Definition op_schedules (cfg : config) (op : aop) (k : N) (t : Z) : Prop :=
  match op with
  | AObject ob _ t0 _ => delivers cfg op = Some ob ∧ obj_key ob = k ∧ ∃ d, d ∈ delays cfg ∧ t = t0 + d
  | ACommand o _ t0 _ => o_id o = k ∧ ∃ d, d ∈ delays cfg ∧ t = t0 + d
  | _ => False
  end.
(** A clock that never goes back *)
Fixpoint app_clock (T : Z) (ops : list aop) : Prop :=
  match ops with
  | [] => True
  | op :: ops' =>
      match op with AObject _ _ t0 now | ACommand _ _ t0 now => T ≤ t0 ≤ now | ATick _ now => T ≤ now | _ => True end ∧ app_clock (op_now op T) ops'
  end.
Fixpoint app_time (T : Z) (ops : list aop) (i : nat) : Z :=
  match ops, i with
  | [], _ => T
  | op :: _, O => op_now op T
  | op :: ops', S i' => app_time (op_now op T) ops' i'
  end.
(** The last object with a key that arrived *)
Definition latest (cfg : config) (ops : list aop) (k : N) : option obj :=
  last (filter (λ ob, obj_key ob = k) (omap (delivers cfg) ops)).

Lemma relevant_spec cfg ob w t0 now : delivers cfg (AObject ob w t0 now) = if relevant cfg ob then Some ob else None.
Proof. unfold delivers, relevant. destruct ob, (only_preferred cfg); done. Qed.

(** ** One process *)
Section decide.
Variable cfg : config.
Implicit Types w : world.

Lemma nth_error_lookup {A} (l : list A) i : nth_error l i = l !! i.
Proof using. revert i. induction l; intros [|i]; cbn; done. Qed.
Lemma origin_profile_spec w o :
  match origin_profile cfg w o with
  | Some pr => ∃ lat lon i, o_place o = Some (lat, lon) ∧ profiles cfg !! i = Some pr ∧
      wanted (w_dist w) lat lon (force_profile cfg) pr ∧ ∀ j q, (j < i)%nat → profiles cfg !! j = Some q → ¬ wanted (w_dist w) lat lon (force_profile cfg) q
  | None => ∀ lat lon q, o_place o = Some (lat, lon) → q ∈ profiles cfg → ¬ wanted (w_dist w) lat lon (force_profile cfg) q
  end.
Proof using.
  unfold origin_profile. destruct (o_place o) as [[lat lon]|]; [|done]. pose proof (C58_first_profile (w_dist w) (profiles cfg) lat lon (force_profile cfg)) as H.
  destruct (get_profile _ _ _ _ _) as [pr|].
  - destruct H as (i & H1 & H2 & H3). exists lat, lon, i. split; [done|]. rewrite nth_error_lookup in H1. split; [done|]. split; [done|].
    intros j q Hj Hq. apply (H3 j q Hj). by rewrite nth_error_lookup.
  - intros lat' lon' q [= <- <-] Hq. apply H. by apply elem_of_list_In.
Qed.
Lemma passes_spec w o : passes cfg w o = true ↔ (force_processing cfg = false →
    (o_mode o = Some Manual → allow_manual cfg = true) ∧
    (o_mode o ≠ Some Manual → allow_automatic cfg = true) ∧
    (accepted_authors cfg ≠ [] → ∃ a, o_author o = Some a ∧ a ∈ accepted_authors cfg) ∧
    w_blocked w (o_agency o) = false).
Proof using.
  unfold passes. destruct (force_processing cfg); [by split|].
  set (m := match o_mode o with Some m => negb (bool_decide (m = Automatic)) | None => false end).
  assert (m = true ↔ o_mode o = Some Manual) as Hm. { unfold m. destruct (o_mode o) as [[]|]; by split. }
  set (au := match accepted_authors cfg with [] => false | l => _ end).
  assert (au = false ↔ (accepted_authors cfg ≠ [] → ∃ a, o_author o = Some a ∧ a ∈ accepted_authors cfg)) as Ha.
  { unfold au. destruct (accepted_authors cfg) as [|a0 l]; [by split|]. rewrite negb_false_iff, existsb_exists. split.
    - intros (a & Hin & E) _. destruct (o_author o) as [b|]; [|done]. apply String.eqb_eq in E as ->. exists a. split; [done|]. by apply elem_of_list_In.
    - intros H. destruct H as (a & E & Hin); [done|]. exists a. split; [by apply elem_of_list_In|]. rewrite E. apply String.eqb_refl. }
  destruct m, (allow_manual cfg), (allow_automatic cfg), au, (w_blocked w (o_agency o)); cbn [andb negb]; intuition congruence.
Qed.

(** Everything that is not accepted leaves no trace, and is not tried again. *)
Lemma subject_cases w ob :
  (∃ i, ob = OPick i) ∨
  (∃ o pref, (match ob with OOrigin o => (Some o, match w_parent w (o_id o) with Some e => bool_decide (ev_pref e = o_id o) | None => false end)
     | OEvent e => (w_get w (ev_pref e), true) | OPick _ => (None, false) end) = (Some o, pref) ∧
     (match ob with OOrigin o' => o' = o | OEvent e => w_get w (ev_pref e) = Some o | OPick _ => False end) ∧
     (pref = true ↔ match ob with OOrigin o' => ∃ e, w_parent w (o_id o') = Some e ∧ ev_pref e = o_id o' | _ => True end)) ∨
  (∃ e, ob = OEvent e ∧ w_get w (ev_pref e) = None).
Proof using.
  destruct ob as [i|o|e]; [by left; exists i| |].
  - right. left. eexists _, _. split; [reflexivity|]. split; [done|]. destruct (w_parent w (o_id o)) as [e|].
    + rewrite bool_decide_eq_true. split; [intros; by exists e|]. intros (e' & [= <-] & ?). done.
    + split; [done|]. by intros (e & ? & _).
  - destruct (w_get w (ev_pref e)) as [o|] eqn:E; [|right; right; eauto]. right. left. exists o, true. split; [done|]. split; [done|]. by split.
Qed.
Theorem C76_rejected w loaded ob : (∀ i, ob ≠ OPick i) → (∀ o p, ¬ accepted cfg w ob o p) → start_process cfg w loaded ob = (PRet false, loaded, []).
Proof using.
  intros Hp Hn. unfold start_process. destruct (subject_cases w ob) as [[i ->]|[(o & pref & -> & HS & HP)|(e & -> & ->)]]; [by destruct (Hp i)| |].
  - destruct (only_preferred cfg && negb (force_processing cfg) && negb pref) eqn:EP; [done|].
    pose proof (origin_profile_spec w o) as HO. destruct (origin_profile cfg w o) as [pr|]; [|done].
    unfold process_origin. destruct (passes cfg w o) eqn:EQ; [|done]. exfalso. apply (Hn o (p_name pr)). destruct HO as (lat & lon & i & H1 & H2 & H3 & H4). split.
    + done.
    + intros E1 E2. rewrite E1, E2 in EP. cbn in EP. apply negb_false_iff in EP. by apply HP.
    + exists lat, lon, i, pr. done.
    + by apply passes_spec.
  - rewrite andb_false_r. done.
Qed.
(** What is accepted is decided. *)
Theorem C76_unique w ob o p o' p' : accepted cfg w ob o p → accepted cfg w ob o' p' → o = o' ∧ p = p'.
Proof using.
  intros [S1 _ (lat & lon & i & pr & L & P & <- & W & F) _] [S2 _ (lat' & lon' & i' & pr' & L' & P' & <- & W' & F') _].
  assert (o = o') as <- by (destruct ob; [done|congruence|congruence]). split; [done|]. rewrite L in L'. injection L' as <- <-.
  destruct (lt_eq_lt_dec i i') as [[H| ->]|H]; [by destruct (F' _ _ H P)|congruence|by destruct (F _ _ H P')].
Qed.
Lemma accepted_dec w ob : (∃ o p, accepted cfg w ob o p) ∨ ∀ o p, ¬ accepted cfg w ob o p.
Proof using.
  destruct (subject_cases w ob) as [[i ->]|[(o & pref & E & HS & HP)|(e & -> & E)]].
  - right. by intros o p [? _ _ _].
  - assert (∀ o' p, accepted cfg w ob o' p → o' = o) as HU by (intros o' p [S1 _ _ _]; destruct ob; [done|congruence|congruence]).
    destruct (passes cfg w o) eqn:EP. 2: { right. intros o' p H. pose proof (HU _ _ H) as ->. destruct H as [_ _ _ H]. apply passes_spec in H. congruence. }
    pose proof (origin_profile_spec w o) as HO. destruct (origin_profile cfg w o) as [pr|].
    2: { right. intros o' p H. pose proof (HU _ _ H) as ->. destruct H as [_ _ (lat & lon & i & q & L & P & _ & W & _) _].
         apply (HO lat lon q); [done|by eapply elem_of_list_lookup_2|done]. }
    destruct (only_preferred cfg && negb (force_processing cfg) && negb pref) eqn:Eb.
    + right. intros o' p H. pose proof (HU _ _ H) as ->. destruct H as [_ H _ _].
      destruct (only_preferred cfg); [|done]. destruct (force_processing cfg); [done|]. specialize (H eq_refl eq_refl).
      apply HP in H. by rewrite H in Eb.
    + left. exists o, (p_name pr). destruct HO as (lat & lon & i & H1 & H2 & H3 & H4). split.
      * done.
      * intros E1 E2. rewrite E1, E2 in Eb. cbn in Eb. apply negb_false_iff in Eb. by apply HP.
      * exists lat, lon, i, pr. done.
      * by apply passes_spec.
  - right. intros o p [H _ _ _]. congruence.
Qed.
(** An accepted origin: its profile is loaded if need be; then there is one relocation, and a
    new origin is added to the XML output if there is one and sent if there is a connection
    and no test mode. Only an exception of the relocation ends the program, and only a
    rejection ends the attempts. *)
Theorem C76_accepted w loaded ob o p : accepted cfg w ob o p →
  let ready := p ∈ loaded ∨ w_load w p = true in
  ∃ out loaded' ef ef', start_process cfg w loaded ob = (out, loaded', ef ++ ef') ∧
    (∀ e, e ∈ ef ↔ e = ELoad p ∧ p ∉ loaded) ∧
    (∀ q, q ∈ loaded' ↔ q ∈ loaded ∨ (q = p ∧ ready)) ∧
    (¬ ready → out = PRet true ∧ ef' = []) ∧
    (ready → ∃ sent, ef' = ERelocate p o :: sent ∧
      ((o_mode o = None ∨ w_reloc w p o = LThrow) ∧ out = PThrow ∧ sent = [] ∨
       o_mode o ≠ None ∧ w_reloc w p o = LEmpty ∧ out = PRet true ∧ sent = [] ∨
       ∃ id picks, o_mode o ≠ None ∧ w_reloc w p o = LNew id picks ∧ out = PRet true ∧ NoDup sent ∧
         ∀ e, e ∈ sent ↔ (e = EXml id picks ∧ w_ep w = true) ∨ (e = ESend id picks ∧ w_conn w = true ∧ test_mode cfg = false))).
Proof using.
  intros [HS HP (lat & lon & i & pr & L & P & <- & W & F) HF] ready. unfold start_process.
  destruct (subject_cases w ob) as [[j ->]|[(o' & pref & -> & HS' & HP')|(e & -> & E)]]; [done| |by rewrite HS in E].
  assert (o' = o) as -> by (destruct ob; [done|congruence|congruence]).
  assert (only_preferred cfg && negb (force_processing cfg) && negb pref = false) as ->.
  { destruct (only_preferred cfg), (force_processing cfg); try done. cbn. apply negb_false_iff. apply HP'. by apply HP. }
  pose proof (origin_profile_spec w o) as HO. destruct (origin_profile cfg w o) as [pr'|].
  2: { exfalso. apply (HO lat lon pr); [done|by eapply elem_of_list_lookup_2|done]. }
  assert (pr' = pr) as ->.
  { destruct HO as (lat' & lon' & i' & L' & P' & W' & F'). rewrite L in L'. injection L' as <- <-.
    destruct (lt_eq_lt_dec i i') as [[H| ->]|H]; [by destruct (F' _ _ H P)|congruence|by destruct (F _ _ H P')]. }
  apply passes_spec in HF. unfold process_origin. rewrite HF. cbn [negb]. set (p := p_name pr) in *.
  set (ld := load_profile w loaded p).
  assert ((∀ e, e ∈ ld.2 ↔ e = ELoad p ∧ p ∉ loaded) ∧ (∀ q, q ∈ ld.1 ↔ q ∈ loaded ∨ (q = p ∧ ready)) ∧ (p ∈ ld.1 ↔ ready)) as (HE & HQ & HR).
  { unfold ld, load_profile, ready. case_decide as Hl; cbn [fst snd].
    - split; [intros e; rewrite elem_of_nil; naive_solver|]. split; [|tauto]. intros q. naive_solver.
    - split; [intros e; rewrite elem_of_list_singleton; naive_solver|]. destruct (w_load w p); (split; [intros q|]); set_solver. }
  destruct ld as [ld ef1]. cbn [fst snd] in *. unfold profile_relocate. case_decide as Hd.
  - assert (ready) as Hr by tauto. destruct (o_mode o) as [m|] eqn:Em.
    2: { exists PThrow, ld, ef1, [ERelocate p o]. split; [done|]. split; [done|]. split; [done|]. split; [done|]. intros _. exists []. split; [done|]. left. split; [by left|done]. }
    destruct (w_reloc w p o) as [| |id picks] eqn:Er.
    + exists PThrow, ld, ef1, [ERelocate p o]. split; [done|]. split; [done|]. split; [done|]. split; [done|]. intros _. exists []. split; [done|]. left. split; [by right|done].
    + exists (PRet true), ld, ef1, [ERelocate p o]. split; [done|]. split; [done|]. split; [done|]. split; [done|]. intros _. exists []. split; [done|]. right. left. done.
    + exists (PRet true), ld, ef1, (ERelocate p o :: (if w_ep w then [EXml id picks] else []) ++ (if w_conn w && negb (test_mode cfg) then [ESend id picks] else [])).
      split; [done|]. split; [done|]. split; [done|]. split; [done|]. intros _. eexists. split; [done|]. right. right. exists id, picks. split; [done|]. split; [done|]. split; [done|].
      destruct (w_ep w), (w_conn w), (test_mode cfg); cbn [andb negb Datatypes.app]; (split; [repeat (apply NoDup_cons; split; [set_solver|]); apply NoDup_nil_2|]); intros e; rewrite ?elem_of_cons, ?elem_of_nil; naive_solver.
  - exists (PRet true), ld, ef1, []. split; [by rewrite app_nil_r|]. split; [done|]. split; [done|]. split; [done|]. intros Hr. tauto.
Qed.
End decide.

(** ** Executions *)
Section run.
Variable cfg : config.
Variable shared : bool.
Variable ord : gmap key proc → list proc.
Hypothesis Hord : ∀ m, ord m ≡ₚ (map_to_list m).*2.
Notation run_jobs := (run_jobs cfg ord).
Notation app_step := (app_step cfg shared ord).
Notation app_runs := (app_runs cfg shared ord).

Definition due_in (hist : list aop) (k : key) (t : Z) : Prop := ∃ op, op ∈ hist ∧ op_schedules cfg op k t.
(** An object that may be processed after the operations [hist] *)
Definition job (hist : list aop) (T : Z) (ob : obj) : Prop :=
  (∃ t, due_in hist (obj_key ob) t ∧ t ≤ T) ∧ (∃ op, op ∈ hist ∧ delivers cfg op = Some ob) ∧
  (shared = true → latest cfg hist (obj_key ob) = Some ob).
Definition known (hist : list aop) (procs : gmap key proc) (objs : gmap nat obj) : Prop :=
  ∀ k p, procs !! k = Some p → ∃ ob, objs !! pr_id p = Some ob ∧ obj_key ob = k ∧
    (∃ op, op ∈ hist ∧ delivers cfg op = Some ob) ∧ (shared = true → latest cfg hist k = Some ob).
Record ainv (hist : list aop) (T : Z) (a : app) : Prop := {
  ai_inv : inv (due_in hist) T (a_sched a);
  ai_obj : known hist (sc_procs (a_sched a)) (a_objs a) }.

Lemma run_jobs_spec hist T w now a : T ≤ now → ainv hist T a →
  (∃ a', run_jobs w now a = Running a' [] ∧ ainv hist now a') ∨
  (∃ ob out l' ef, job hist now ob ∧ start_process cfg w (a_loaded a) ob = (out, l', ef) ∧
    ((∃ ok a', out = PRet ok ∧ run_jobs w now a = Running a' ef ∧ ainv hist now a') ∨
     ((∀ ok, out ≠ PRet ok) ∧ run_jobs w now a = Stopped ef))).
Proof using Hord.
  intros HT [I K]. unfold RealTime_Model.run_jobs. set (s := a_sched a) in *.
  destruct (sc_counter s - 1 <=? 0).
  2: { left. eexists. split; [done|]. split; [|done]. cbn [a_sched].
       assert (inv (due_in hist) now s) as [A B C D] by (by eapply inv_mono; [| |exact I]). by split. }
  set (s0 := Sched _ _ (wakeup cfg) _). assert (inv (due_in hist) T s0) as I0 by (destruct I as [A B C D]; by split).
  pose proof (inv_update_all ord Hord (due_in hist) T now s0 HT I0) as I1.
  assert (known hist (sc_procs (update_all ord now s0)) (a_objs a)) as K1.
  { intros k p Hp. destruct (update_all_times ord Hord (due_in hist) T s0 now k p I0 Hp) as (p0 & Hp0 & _ & Hi).
    rewrite Hi. by apply K. }
  cbn zeta. set (s1 := update_all ord now s0) in *. destruct (sc_queue s1) as [|[i k] q] eqn:Eq.
  { left. eexists. split; [done|]. by split. }
  destruct (i_queue _ _ _ I1 i k) as ((p & Hp & Hi) & Ht); [rewrite Eq; by left|].
  destruct (K1 k p Hp) as (ob & Hob & <- & Hd & Hl). right. cbn [fst]. rewrite <-Hi, Hob.
  destruct (start_process cfg w (a_loaded a) ob) as [[out l'] ef] eqn:Es. exists ob, out, l', ef.
  split; [done|]. split; [done|]. destruct out as [| |ok].
  - right. by split.
  - right. by split.
  - left. exists ok. eexists. split; [done|]. split; [done|].
    destruct (run_front ok s1) as [s2 x] eqn:Ef. destruct (inv_run_front _ _ _ _ _ _ I1 Ef) as (I2 & _ & _). split; [done|].
    intros k' p' Hp'. apply K1. cbn [a_sched fst] in Hp'. unfold run_front in Ef. rewrite Eq in Ef. injection Ef as <- _.
    destruct ok; [done|]. cbn in Hp'. by apply lookup_delete_Some in Hp' as [_ ?].
Qed.

Lemma latest_snoc hist op k : latest cfg (hist ++ [op]) k =
  match delivers cfg op with Some ob => if decide (obj_key ob = k) then Some ob else latest cfg hist k | None => latest cfg hist k end.
Proof using.
  unfold latest. rewrite omap_app. cbn [omap list_omap]. destruct (delivers cfg op) as [ob|]; [|by rewrite app_nil_r].
  rewrite filter_app, filter_cons, filter_nil. case_decide; [by rewrite last_snoc|]. by rewrite app_nil_r.
Qed.
Lemma known_mono hist op procs objs : delivers cfg op = None → known hist procs objs → known (hist ++ [op]) procs objs.
Proof using.
  intros Hd K k p Hp. destruct (K k p Hp) as (ob & H1 & H2 & (op' & H3 & H3') & H4). exists ob. split; [done|]. split; [done|].
  split; [exists op'; split; [apply elem_of_app; by left|done]|]. rewrite latest_snoc, Hd. done.
Qed.
Lemma due_mono hist op k t : due_in hist k t → due_in (hist ++ [op]) k t.
Proof using. intros (op' & ? & ?). exists op'. split; [apply elem_of_app; by left|done]. Qed.
Lemma ainv_mono hist op T T' a : delivers cfg op = None → T ≤ T' → ainv hist T a → ainv (hist ++ [op]) T' a.
Proof using.
  intros Hd HT [I K]. split; [|by apply known_mono]. eapply inv_mono; [|exact HT|exact I]. intros. by apply due_mono.
Qed.

(** The effects of an operation: profiles are loaded, and perhaps an object is processed *)
Definition step_spec (hist : list aop) (T : Z) (op : aop) (ef : list effect) (stopped : bool) : Prop :=
  ∃ ef1 ef2, ef = ef1 ++ ef2 ∧ (∀ e, e ∈ ef1 → ∃ pr, pr ∈ profiles cfg ∧ e = ELoad (p_name pr)) ∧
    ((ef2 = [] ∧ stopped = false) ∨
     ∃ w ob loaded out l', op_world op = Some w ∧ job hist T ob ∧ start_process cfg w loaded ob = (out, l', ef2) ∧
       stopped = match out with PRet _ => false | _ => true end).
Definition result_spec (hist : list aop) (T : Z) (op : aop) (r : app_result) : Prop :=
  match r with Running a' ef => ainv hist T a' ∧ step_spec hist T op ef false | Stopped ef => step_spec hist T op ef true end.

Lemma check_effects w loaded : ∀ e, e ∈ (check_profiles cfg w loaded).2 → ∃ pr, pr ∈ profiles cfg ∧ e = ELoad (p_name pr).
Proof using.
  unfold check_profiles.
  assert (∀ l acc, (∀ e, e ∈ acc.2 → ∃ pr, pr ∈ profiles cfg ∧ e = ELoad (p_name pr)) → (∀ p, p ∈ l → p ∈ profiles cfg) →
    ∀ e, e ∈ (fold_left (λ acc p, let '(l, ef) := load_profile w acc.1 (p_name p) in (l, acc.2 ++ ef)) l acc).2 → ∃ pr, pr ∈ profiles cfg ∧ e = ELoad (p_name pr)) as H.
  { induction l as [|p l IH]; intros acc Ha Hl; [done|]. cbn [fold_left]. apply IH; [|intros; apply Hl; by right].
    unfold load_profile. case_decide; cbn [snd]; [by rewrite app_nil_r|].
    intros e [He|He]%elem_of_app; [by apply Ha|]. apply elem_of_list_singleton in He as ->. exists p. split; [apply Hl; by left|done]. }
  apply H; [by intros e ?%elem_of_nil|done].
Qed.
Lemma timeout_spec hist T op w now a : op_world op = Some w → T ≤ now → ainv hist T a →
  result_spec hist now op (handle_timeout cfg ord w now a).
Proof using Hord.
  intros Hw HT [I K]. unfold handle_timeout. pose proof (check_effects w (a_loaded a)) as HC.
  destruct (check_profiles cfg w (a_loaded a)) as [loaded ef1]. cbn [snd] in HC. cbn [and_then].
  set (a1 := App _ _ loaded). assert (ainv hist T a1) as A1 by (by split).
  destruct (run_jobs_spec hist T w now a1 HT A1) as [(a' & -> & A')|(ob & out & l' & ef & HJ & HS & [(ok & a' & -> & -> & A')|[Hn ->]])].
  - cbn. split; [done|]. exists ef1, []. split; [done|]. split; [done|]. by left.
  - cbn. split; [done|]. exists ef1, ef. split; [done|]. split; [done|]. right. exists w, ob, loaded, (PRet ok), l'. done.
  - cbn. exists ef1, ef. split; [done|]. split; [done|]. right. exists w, ob, loaded, out, l'. split; [done|]. split; [done|]. split; [done|].
    destruct out as [| |ok]; [done|done|by destruct (Hn ok)].
Qed.
Lemma insert_ainv hist T op ob t0 a : delivers cfg op = Some ob →
  (∀ k t, (obj_key ob = k ∧ ∃ d, d ∈ delays cfg ∧ t = t0 + d) → op_schedules cfg op k t) → ainv hist T a →
  ainv (hist ++ [op]) T (insert_object cfg shared ob t0 a).
Proof using.
  intros Hdel Hsch [I K]. unfold insert_object. cbn zeta.
  pose proof (inv_insert (delays cfg) (due_in hist) T (a_sched a) (obj_key ob) t0 I) as I1.
  assert (∀ k ob', obj_key ob' = k → latest cfg hist k = Some ob' → k ≠ obj_key ob → latest cfg (hist ++ [op]) k = Some ob') as HL.
  { intros k ob' Hk Hl Hn. rewrite latest_snoc, Hdel, decide_False by congruence. done. }
  assert (latest cfg (hist ++ [op]) (obj_key ob) = Some ob) as HL'.
  { rewrite latest_snoc, Hdel, decide_True by done. done. }
  assert (op ∈ hist ++ [op]) as Hop by (apply elem_of_app; right; by left).
  assert (∀ k p, sc_procs (a_sched a) !! k = Some p → k ≠ obj_key ob → ∃ ob', a_objs a !! pr_id p = Some ob' ∧ obj_key ob' = k ∧
    (∃ op', op' ∈ hist ++ [op] ∧ delivers cfg op' = Some ob') ∧ (shared = true → latest cfg (hist ++ [op]) k = Some ob')) as K'.
  { intros k p Hp Hn. destruct (K k p Hp) as (ob' & H1 & H2 & (op' & H3 & H3') & H4). exists ob'. split; [done|]. split; [done|].
    split; [exists op'; split; [apply elem_of_app; by left|done]|]. intros E. apply HL; auto. }
  destruct (sc_procs (a_sched a) !! obj_key ob) as [p|] eqn:Ep.
  - split; cbn [a_sched a_objs sc_procs].
    + eapply inv_mono; [|reflexivity|exact I1]. intros k t [H|H]; [by apply due_mono|]. exists op. split; [done|]. by apply Hsch.
    + intros k q. rewrite lookup_insert_Some. intros [[<- <-]|[Hn Hq]]; cbn [pr_id].
      * destruct (K _ _ Ep) as (ob' & H1 & H2 & (op' & H3 & H3') & H4). destruct shared eqn:Esh.
        -- exists ob. rewrite lookup_insert. split; [done|]. split; [done|]. split; [by exists op|done].
        -- exists ob'. split; [done|]. split; [done|]. split; [exists op'; split; [apply elem_of_app; by left|done]|done].
      * destruct (K' k q Hq) as (ob' & H1 & H2); [done|]. exists ob'. split; [|done]. destruct shared; [|done].
        rewrite lookup_insert_ne; [done|]. intros E. apply Hn. exact (i_inj _ _ _ I _ _ _ _ Ep Hq E).
  - split; cbn [a_sched a_objs sc_procs].
    + eapply inv_mono; [|reflexivity|exact I1]. intros k t [H|H]; [by apply due_mono|]. exists op. split; [done|]. by apply Hsch.
    + intros k q. rewrite lookup_insert_Some. intros [[<- <-]|[Hn Hq]]; cbn [pr_id].
      * exists ob. rewrite lookup_insert. split; [done|]. split; [done|]. split; [by exists op|done].
      * destruct (K' k q Hq) as (ob' & H1 & H2); [done|]. exists ob'. split; [|done].
        rewrite lookup_insert_ne; [done|]. destruct (i_key _ _ _ I _ _ Hq) as (_ & Hlt & _). lia.
Qed.
Lemma add_spec hist T op ob w t0 now a : op_world op = Some w → delivers cfg op = Some ob →
  (∀ k t, (obj_key ob = k ∧ ∃ d, d ∈ delays cfg ∧ t = t0 + d) → op_schedules cfg op k t) → T ≤ now → ainv hist T a →
  result_spec (hist ++ [op]) now op (add_object cfg shared ord ob w t0 now a).
Proof using Hord.
  intros Hw Hdel Hsch HT A. unfold add_object. apply timeout_spec with (T := T); [done|done|]. by apply insert_ainv.
Qed.
Lemma app_step_spec hist T op a : app_clock T [op] → ainv hist T a →
  result_spec (hist ++ [op]) (op_now op T) op (app_step a op).
Proof using Hord.
  intros [Hc _] A. destruct op as [ob w t0 now|w now|p| |o w t0 now]; cbn [RealTime_Model.app_step op_now].
  - destruct (relevant cfg ob) eqn:Er.
    + apply (add_spec hist T); [done|by rewrite relevant_spec, Er| |lia|done]. intros k t [H1 H2]. split; [by rewrite relevant_spec, Er|done].
    + cbn. split; [apply (ainv_mono hist _ T); [by rewrite relevant_spec, Er|lia|done]|]. exists [], []. split; [done|]. split; [by intros e ?%elem_of_nil|by left].
  - apply (timeout_spec _ T); [done|done|]. by apply (ainv_mono hist _ T).
  - cbn. split; [|exists [], []; split; [done|]; split; [by intros e ?%elem_of_nil|by left]].
    apply (ainv_mono hist _ T); [done|done|]. destruct A as [I K]. by split.
  - cbn. split; [|exists [], []; split; [done|]; split; [by intros e ?%elem_of_nil|by left]].
    apply (ainv_mono hist _ T); [done|done|]. destruct A as [[A B C D] K]. split; [by split|done].
  - apply (add_spec hist T); [done|done| |lia|done]. intros k t H. by cbn.
Qed.
Lemma ainv_init T : ainv [] T (app_init cfg).
Proof using. split; [apply inv_init|]. intros k p Hp. cbn in Hp. by rewrite lookup_empty in Hp. Qed.

Lemma runs_spec ops : ∀ hist T a r efs, app_clock T ops → ainv hist T a → app_runs a ops = (r, efs) →
  (∀ a', r = Some a' → ∃ T', ainv (hist ++ ops) T' a') ∧
  (match r with Some _ => length efs = length ops | None => (0 < length efs ≤ length ops)%nat end) ∧
  ∀ i ef, efs !! i = Some ef → ∃ op, ops !! i = Some op ∧
    step_spec (hist ++ take (S i) ops) (app_time T ops i) op ef (match r with Some _ => false | None => bool_decide (S i = length efs) end).
Proof using Hord.
  induction ops as [|op ops IH]; intros hist T a r efs Hc A H.
  { cbn in H. injection H as <- <-. split; [intros a' [= <-]; rewrite app_nil_r; by exists T|]. split; [done|]. done. }
  cbn [RealTime_Model.app_runs] in H. destruct Hc as [Hc1 Hc2]. pose proof (app_step_spec hist T op a (conj Hc1 Logic.I) A) as HS.
  destruct (app_step a op) as [a1 ef1|ef1].
  - destruct HS as [A1 HS]. destruct (app_runs a1 ops) as [r1 efs1] eqn:E1. injection H as <- <-.
    destruct (IH (hist ++ [op]) _ a1 r1 efs1 Hc2 A1 E1) as (J1 & J2 & J3). split; [|split].
    + intros a' Ha. rewrite cons_middle, app_assoc. by apply J1.
    + destruct r1; cbn [length]; lia.
    + intros [|i] ef Hi.
      * injection Hi as <-. exists op. split; [done|]. cbn [take app_time]. rewrite take_0. destruct r1 as [a'|]; [done|].
        rewrite bool_decide_eq_false_2; [done|]. cbn [length]. lia.
      * cbn in Hi. destruct (J3 i ef Hi) as (op' & H1 & H2). exists op'. split; [done|].
        change (take (S (S i)) (op :: ops)) with ([op] ++ take (S i) ops). rewrite app_assoc. cbn [app_time].
        destruct r1; [done|]. cbn [length]. erewrite bool_decide_ext; [exact H2|]. lia.
  - injection H as <- <-. split; [done|]. split; [cbn; lia|]. intros [|i] ef Hi; [|done]. injection Hi as <-. exists op. split; [done|].
    cbn [take app_time length]. rewrite take_0, bool_decide_eq_true_2 by done. done.
Qed.

(** C76: whatever happens, every operation first loads configured profiles, if anything, and
    then relocates at most one origin.  The origin is the one of an object that has arrived
    and was to be processed by then; it is accepted in the current state of the system; it is
    relocated with the accepted profile; a new origin goes to the XML output and to the
    connection as configured; and the program ends exactly with an exception of the
    relocation. *)
Theorem C76_execution (T : Z) (ops : list aop) r efs : app_clock T ops → app_runs (app_init cfg) ops = (r, efs) →
  match r with Some _ => length efs = length ops | None => (0 < length efs ≤ length ops)%nat end ∧
  ∀ i ef, efs !! i = Some ef → ∃ op loads done, ops !! i = Some op ∧ ef = loads ++ done ∧
    (∀ e, e ∈ loads → ∃ pr, pr ∈ profiles cfg ∧ e = ELoad (p_name pr)) ∧
    ((done = [] ∧ (r ≠ None ∨ S i ≠ length efs)) ∨
     ∃ w ob o p sent, op_world op = Some w ∧ accepted cfg w ob o p ∧
       (∃ j opj, (j ≤ i)%nat ∧ ops !! j = Some opj ∧ delivers cfg opj = Some ob) ∧
       (∃ j opj t, (j ≤ i)%nat ∧ ops !! j = Some opj ∧ op_schedules cfg opj (obj_key ob) t ∧ t ≤ app_time T ops i) ∧
       (shared = true → latest cfg (take (S i) ops) (obj_key ob) = Some ob) ∧
       done = ERelocate p o :: sent ∧
       ((o_mode o = None ∨ w_reloc w p o = LThrow) ↔ (r = None ∧ S i = length efs)) ∧
       (∀ e, e ∈ sent ↔ o_mode o ≠ None ∧ ∃ id picks, w_reloc w p o = LNew id picks ∧
          ((e = EXml id picks ∧ w_ep w = true) ∨ (e = ESend id picks ∧ w_conn w = true ∧ test_mode cfg = false))) ∧ NoDup sent).
Proof using Hord.
  intros Hc H. destruct (runs_spec ops [] T (app_init cfg) r efs Hc (ainv_init T) H) as (_ & HL & HS). split; [done|].
  intros i ef Hi. destruct (HS i ef Hi) as (op & Hop & ef1 & ef2 & -> & HE & HB). rewrite app_nil_l in HB.
  set (stopped := match r with Some _ => false | None => _ end) in HB.
  assert (stopped = true ↔ r = None ∧ S i = length efs) as Hst. { unfold stopped. destruct r; [by split; [|intros [? _]]|]. rewrite bool_decide_eq_true. tauto. }
  clearbody stopped. exists op. destruct HB as [[-> Hb]|(w & ob & loaded & out & l' & Hw & ((t & (ops1 & Ho1 & Hs) & Ht) & (ops2 & Ho2 & Hd) & Hl) & HR & Hb)].
  { exists ef1, []. split; [done|]. split; [done|]. split; [done|]. left. split; [done|]. destruct r; [by left|]. right. intros E. destruct Hst as [_ Hst]. rewrite Hst in Hb; done. }
  assert (∀ op', op' ∈ take (S i) ops → ∃ j, (j ≤ i)%nat ∧ ops !! j = Some op') as HT.
  { intros op' (j & Hj)%elem_of_list_lookup. apply lookup_take_Some in Hj as [Hj Hlt]. exists j. split; [lia|done]. }
  assert (∀ k, ob ≠ OPick k) as Hnp. { intros k ->. destruct ops2 as [ob' ? ? ?| | | |]; cbn in Hd; try done. destruct ob', (only_preferred cfg); done. }
  destruct (accepted_dec cfg w ob) as [(o & p & Ha)|Hn].
  2: { rewrite (C76_rejected cfg w loaded ob Hnp Hn) in HR. injection HR as <- <- <-. exists ef1, []. split; [done|]. split; [done|]. split; [done|]. left. split; [done|].
       destruct r; [by left|]. right. intros E. destruct Hst as [_ Hst]. rewrite Hst in Hb; done. }
  destruct (C76_accepted cfg w loaded ob o p Ha) as (out' & l2 & e1 & e2 & E & HE1 & _ & HNR & HRR). rewrite HR in E. injection E as <- <- ->.
  assert (∀ e, e ∈ ef1 ++ e1 → ∃ pr, pr ∈ profiles cfg ∧ e = ELoad (p_name pr)) as HE'.
  { intros e [He|He]%elem_of_app; [by apply HE|]. apply HE1 in He as [-> _]. destruct Ha as [_ _ (lat & lon & j & pr & _ & P & <- & _) _].
    exists pr. split; [by eapply elem_of_list_lookup_2|done]. }
  exists (ef1 ++ e1), e2. split; [done|]. split; [by rewrite app_assoc|]. split; [done|].
  assert ((p ∈ loaded ∨ w_load w p = true) ∨ ¬ (p ∈ loaded ∨ w_load w p = true)) as [HY|HN].
  { destruct (decide (p ∈ loaded)), (w_load w p); tauto || (right; intros [?|?]; done). }
  2: { destruct (HNR HN) as [-> ->]. left. split; [done|]. destruct r; [by left|]. right. intros E. destruct Hst as [_ Hst]. rewrite Hst in Hb; done. }
  right. destruct (HRR HY) as (sent & -> & HX). exists w, ob, o, p, sent. split; [done|]. split; [done|].
  split; [destruct (HT _ Ho2) as (j & ? & ?); by exists j, ops2|]. split; [destruct (HT _ Ho1) as (j & ? & ?); by exists j, ops1, t|]. split; [done|]. split; [done|].
  destruct HX as [(HX & -> & ->)|[(H1 & H2 & -> & ->)|(id & picks & H1 & H2 & -> & H4 & H5)]]; cbn in Hb; subst stopped.
  - split; [tauto|]. split; [|apply NoDup_nil_2]. intros e. rewrite elem_of_nil. split; [done|]. intros (Hm & id & picks & Hx & _). destruct HX; congruence.
  - split; [split; [intros [?|?]; congruence|intros Hx; apply Hst in Hx; done]|]. split; [|apply NoDup_nil_2]. intros e. rewrite elem_of_nil. split; [done|]. intros (Hm & id & picks & Hx & _). congruence.
  - split; [split; [intros [?|?]; congruence|intros Hx; apply Hst in Hx; done]|]. split; [|done]. intros e. rewrite H5. split.
    + intros Hx. split; [done|]. by exists id, picks.
    + intros (_ & id' & picks' & Hx & Hy). rewrite H2 in Hx. injection Hx as <- <-. done.
Qed.

(** ** Liveness *)
Definition relocations (ef : list effect) : list (string * origin) :=
  omap (λ e, match e with ERelocate p o => Some (p, o) | _ => None end) ef.
Definition effects_of (r : app_result) : list effect := match r with Running _ ef | Stopped ef => ef end.
Lemma relocations_loads ef : (∀ e, e ∈ ef → ∃ pr, pr ∈ profiles cfg ∧ e = ELoad (p_name pr)) → relocations ef = [].
Proof using.
  induction ef as [|e ef IH]; intros H; [done|]. destruct (H e) as (pr & _ & ->); [by left|]. apply IH. intros e' He. apply H. by right.
Qed.
Lemma run_alone hist T w now a k : ainv hist T a → sc_queue (a_sched a) = [] → sc_counter (a_sched a) ≤ 1 →
  due_at (a_sched a) now k → (∀ k', k' ≠ k → ¬ due_at (a_sched a) now k') →
  ∃ ob, obj_key ob = k ∧ (∃ op, op ∈ hist ∧ delivers cfg op = Some ob) ∧ (shared = true → latest cfg hist k = Some ob) ∧
    ∀ out l' ef, start_process cfg w (a_loaded a) ob = (out, l', ef) →
      (∀ ok, out = PRet ok → ∃ a', run_jobs w now a = Running a' ef ∧ sc_queue (a_sched a') = [] ∧
         ∀ k' p, sc_procs (a_sched a') !! k' = Some p → ∃ p0, sc_procs (a_sched a) !! k' = Some p0 ∧ pr_times p = drop_past now (pr_times p0)) ∧
      ((∀ ok, out ≠ PRet ok) → run_jobs w now a = Stopped ef).
Proof using Hord.
  intros [I K] Hq Hc Hd Ho. unfold RealTime_Model.run_jobs. set (s := a_sched a) in *.
  destruct (Z.leb_spec (sc_counter s - 1) 0); [|lia]. cbn zeta.
  set (s0 := Sched _ _ (wakeup cfg) _). assert (inv (due_in hist) now s0) as I0.
  { destruct I as [A B C D]. split; [done|done| |done]. intros i k'. subst s0. cbn [sc_queue]. rewrite Hq. by intros ?%elem_of_nil. }
  pose proof (inv_update_all ord Hord (due_in hist) now now s0 (Z.le_refl _) I0) as I1.
  pose proof (update_all_times ord Hord (due_in hist) now s0 now) as HT.
  destruct (update_alone ord Hord (due_in hist) now s0 now k I0 Hq Hd Ho) as [i Hi].
  set (s1 := update_all ord now s0) in *. rewrite Hi. cbn [fst].
  destruct (i_queue _ _ _ I1 i k) as ((p & Hp & <-) & _); [rewrite Hi; by left|].
  destruct (HT k p I0 Hp) as (p0 & Hp0 & _ & ->). destruct (K k p0 Hp0) as (ob & Hob & Hk & Hdel & Hl). rewrite Hob.
  exists ob. split; [done|]. split; [done|]. split; [done|]. intros out l' ef ->. split.
  - intros ok ->. eexists. split; [reflexivity|]. cbn [a_sched]. unfold run_front. rewrite Hi. cbn [fst]. split; [by destruct ok|].
    intros k' q Hq'. assert (sc_procs s1 !! k' = Some q) as Hq2.
    { destruct ok; [done|]. cbn in Hq'. by apply lookup_delete_Some in Hq' as [_ ?]. }
    destruct (HT k' q I0 Hq2) as (q0 & ? & ? & _). by exists q0.
  - intros Hn. destruct out as [| |ok]; [done|done|by destruct (Hn ok)].
Qed.

Lemma timeout_alone hist T w now a k : ainv hist T a → sc_queue (a_sched a) = [] → sc_counter (a_sched a) ≤ 1 →
  due_at (a_sched a) now k → (∀ k', k' ≠ k → ¬ due_at (a_sched a) now k') →
  ∃ ob, obj_key ob = k ∧ (∃ op, op ∈ hist ∧ delivers cfg op = Some ob) ∧ (shared = true → latest cfg hist k = Some ob) ∧
    ∀ o p, accepted cfg w ob o p → w_load w p = true →
      relocations (effects_of (handle_timeout cfg ord w now a)) = [(p, o)] ∧
      (o_mode o ≠ None → w_reloc w p o ≠ LThrow → ∃ a' ef, handle_timeout cfg ord w now a = Running a' ef ∧ sc_queue (a_sched a') = [] ∧
         ∀ k' p, sc_procs (a_sched a') !! k' = Some p → ∃ p0, sc_procs (a_sched a) !! k' = Some p0 ∧ pr_times p = drop_past now (pr_times p0)).
Proof using Hord.
  intros [I K] Hq Hcn Hd Ho. unfold handle_timeout.
  pose proof (check_effects w (a_loaded a)) as HC. destruct (check_profiles cfg w (a_loaded a)) as [loaded ef1]. cbn [snd] in HC.
  set (a1 := App _ _ loaded). assert (ainv hist T a1) as A1 by (by split).
  destruct (run_alone hist T w now a1 k A1 Hq Hcn Hd Ho) as (ob & Hk & Hdel & Hl & HR). exists ob. split; [done|]. split; [done|]. split; [done|].
  intros o p Ha Hw. destruct (C76_accepted cfg w (a_loaded a1) ob o p Ha) as (out & l2 & e1 & e2 & E & HE1 & _ & _ & HRR).
  destruct (HRR (or_intror Hw)) as (sent & -> & HX). destruct (HR _ _ _ E) as [R1 R2]. split.
  2: { intros Hm Hr. assert (out = PRet true) as -> by (destruct HX as [([?|?] & _)|[(_ & _ & ? & _)|(? & ? & _ & _ & ? & _)]]; done).
       destruct (R1 true eq_refl) as (a' & Ea & H1 & H2). cbn [and_then]. rewrite Ea. by eexists _, _. }
  assert (effects_of (and_then (Running a1 ef1) (run_jobs w now)) = ef1 ++ e1 ++ ERelocate p o :: sent) as ->.
  { destruct out as [| |ok]; cbn [and_then].
    - rewrite R2 by done. done.
    - rewrite R2 by done. done.
    - destruct (R1 ok eq_refl) as (a' & -> & _). done. }
  unfold relocations. rewrite !omap_app. fold (relocations ef1) (relocations e1). rewrite relocations_loads by done.
  rewrite relocations_loads. 2: { intros e He. apply HE1 in He as [-> _]. destruct Ha as [_ _ (lat & lon & j & pr & _ & P & <- & _) _].
    exists pr. split; [by eapply elem_of_list_lookup_2|done]. }
  cbn. assert (∀ e, e ∈ sent → ∃ id picks, e = EXml id picks ∨ e = ESend id picks) as HS.
  { intros e He. destruct HX as [(_ & _ & ->)|[(_ & _ & _ & ->)|(id & picks & _ & _ & _ & _ & H5)]]; [by apply elem_of_nil in He..|].
    apply H5 in He as [[-> _]|[-> _]]; eauto. }
  clear -HS. f_equal. induction sent as [|e sent IH]; [done|]. destruct (HS e) as (id & picks & [-> | ->]); [by left| |]; cbn; (apply IH; intros; apply HS; by right).
Qed.
(** C76: an object that is due alone when the queue is empty and the wake-up period has
    elapsed is processed: the accepted origin is relocated. *)
Theorem C76_due_alone (T : Z) (ops : list aop) a efs k w now : app_clock T ops → app_runs (app_init cfg) ops = (Some a, efs) →
  sc_queue (a_sched a) = [] → sc_counter (a_sched a) ≤ 1 →
  due_at (a_sched a) now k → (∀ k', k' ≠ k → ¬ due_at (a_sched a) now k') →
  ∃ ob, obj_key ob = k ∧ (∃ op, op ∈ ops ∧ delivers cfg op = Some ob) ∧ (shared = true → latest cfg ops k = Some ob) ∧
    ∀ o p, accepted cfg w ob o p → w_load w p = true →
      relocations (effects_of (app_step a (ATick w now))) = [(p, o)].
Proof using Hord.
  intros Hc H Hq Hcn Hd Ho. destruct (runs_spec ops [] T (app_init cfg) _ _ Hc (ainv_init T) H) as (HA & _).
  destruct (HA a eq_refl) as (T' & A). rewrite app_nil_l in *.
  destruct (timeout_alone ops T' w now a k A Hq Hcn Hd Ho) as (ob & H1 & H2 & H3 & H4). exists ob. split; [done|]. split; [done|]. split; [done|].
  intros o p Ha Hw. by destruct (H4 o p Ha Hw).
Qed.

(** C76: origins given on the command line (delayTimes is {0}), each to be accepted, with
    distinct ids unless updates are shared, are relocated one after the other in the given
    order, each once with its profile. *)
Definition app_batch (l : list (origin * world * Z * Z)) : list aop :=
  concat ((λ x : origin * world * Z * Z, [AReset; ACommand x.1.1.1 x.1.1.2 x.1.2 x.2]) <$> l).
Theorem C76_batch (T : Z) (l : list (origin * world * Z * Z)) (prof : list string) : delays cfg = [0] →
  (shared = true ∨ NoDup ((λ x : origin * world * Z * Z, o_id x.1.1.1) <$> l)) → app_clock T (app_batch l) →
  Forall2 (λ (x : origin * world * Z * Z) p, let '(o, w, _, _) := x in
    accepted cfg w (OOrigin o) o p ∧ w_load w p = true ∧ o_mode o ≠ None ∧ w_reloc w p o ≠ LThrow) l prof →
  ∃ a efs, app_runs (app_init cfg) (app_batch l) = (Some a, efs) ∧
    relocations (concat efs) = zip_with (λ p (x : origin * world * Z * Z), (p, x.1.1.1)) prof l.
Proof using Hord.
  intros Hdl Hsh.
  assert (∀ l hist T a prof, ainv hist T a → sc_queue (a_sched a) = [] → (∀ k p, sc_procs (a_sched a) !! k = Some p → pr_times p = []) →
    (shared = true ∨ NoDup ((λ x : origin * world * Z * Z, o_id x.1.1.1) <$> l) ∧
       ∀ op ob x, op ∈ hist → delivers cfg op = Some ob → x ∈ l → obj_key ob ≠ o_id x.1.1.1) → app_clock T (app_batch l) →
    Forall2 (λ (x : origin * world * Z * Z) p, let '(o, w, _, _) := x in
      accepted cfg w (OOrigin o) o p ∧ w_load w p = true ∧ o_mode o ≠ None ∧ w_reloc w p o ≠ LThrow) l prof →
    ∃ a' efs, app_runs a (app_batch l) = (Some a', efs) ∧
      relocations (concat efs) = zip_with (λ p (x : origin * world * Z * Z), (p, x.1.1.1)) prof l) as H.
  2: { intros Hc HF. apply (H l [] T (app_init cfg) prof); [apply ainv_init|done|intros k p Hp; cbn in Hp; by rewrite lookup_empty in Hp| |done|done].
       destruct Hsh as [?|?]; [by left|]. right. split; [done|]. by intros op ob x ?%elem_of_nil. }
  clear T l prof Hsh. induction l as [|[[[o w] t0] now] l IH]; intros hist T a prof A Hq Ht Hsh Hc HF.
  { apply Forall2_nil_inv_l in HF as ->. by exists a, []. }
  apply Forall2_cons_inv_l in HF as (p & prof' & (Ha & Hw & Hm & Hr) & HF & ->).
  unfold app_batch in *. cbn [fmap list_fmap concat Datatypes.app fst snd] in *. cbn [RealTime_Model.app_runs]. destruct Hc as (_ & Hc1 & Hc2). cbn [op_now] in *.
  set (s0 := Sched (sc_procs (a_sched a)) (sc_queue (a_sched a)) 0 (sc_next (a_sched a))).
  set (a0 := App s0 (a_objs a) (a_loaded a)). set (op := ACommand o w t0 now).
  change (app_step a AReset) with (Running a0 []). cbn iota.
  assert (ainv hist T a0) as A0. { destruct A as [[? ? ? ?] K]. split; [by split|done]. }
  pose proof (app_step_spec hist T op a0 (conj Hc1 Logic.I) A0) as HS. cbn [op_now op] in HS.
  assert (ainv (hist ++ [op]) T (insert_object cfg shared (OOrigin o) t0 a0)) as A1.
  { apply insert_ainv; [done| |done]. intros k t Hk. exact Hk. }
  set (a1 := insert_object _ _ _ _ _) in A1.
  assert (∃ q, sc_procs (a_sched a1) = <[o_id o := q]> (sc_procs (a_sched a)) ∧ pr_times q = [t0 + 0] ∧ sc_queue (a_sched a1) = [] ∧ sc_counter (a_sched a1) = 0) as (q & Hp & Hqt & Hq1 & Hc1').
  { subst a1. unfold insert_object. cbn zeta. rewrite Hdl. subst a0 s0. cbn [a_sched sc_procs obj_key]. destruct (sc_procs (a_sched a) !! o_id o); cbn [a_sched sc_procs sc_queue sc_counter]; rewrite Hq; eexists; done. }
  destruct (timeout_alone (hist ++ [op]) T w now a1 (o_id o) A1 Hq1) as (ob & Hk & Hdel & Hl & HR).
  { lia. }
  { exists q, (t0 + 0), []. rewrite Hp, lookup_insert. split; [done|]. split; [done|]. lia. }
  { intros k' Hk (q' & u & tl & Hq' & Hu & _). rewrite Hp, lookup_insert_ne in Hq' by done. apply Ht in Hq'. congruence. }
  assert (ob = OOrigin o) as ->.
  { destruct Hsh as [Hs|[Hn Hs]].
    - specialize (Hl Hs). rewrite latest_snoc in Hl. cbn [delivers op] in Hl. rewrite decide_True in Hl by done. by injection Hl as <-.
    - destruct Hdel as (op' & [Ho|Ho]%elem_of_app & Hd).
      + destruct (Hs op' ob (o, w, t0, now) Ho Hd); [by left|done].
      + apply elem_of_list_singleton in Ho as ->. by injection Hd as <-. }
  destruct (HR o p Ha Hw) as [HR1 HR2]. destruct (HR2 Hm Hr) as (a2 & ef & Ea & Hq2 & Ht2).
  change (app_step a0 op) with (handle_timeout cfg ord w now a1) in *. rewrite Ea in *. cbn iota in *. destruct HS as [A2 _].
  destruct (IH (hist ++ [op]) now a2 prof' A2 Hq2) as (a' & efs & Er & Hre); [| |done|done|].
  - intros k' q' Hq'. destruct (Ht2 k' q' Hq') as (p0 & Hp0 & ->). rewrite Hp in Hp0. apply lookup_insert_Some in Hp0 as [[<- <-]|[_ Hp0]].
    + rewrite Hqt. cbn. destruct (Z.leb_spec (t0 + 0) now); [done|lia].
    + by rewrite (Ht _ _ Hp0).
  - destruct Hsh as [?|[Hn Hs]]; [by left|]. right. apply NoDup_cons in Hn as [Hn1 Hn2]. split; [done|].
    intros op' ob' x [Ho|Ho]%elem_of_app Hd Hx; [apply (Hs op' ob' x Ho Hd); by right|].
    apply elem_of_list_singleton in Ho as ->. injection Hd as <-. cbn [obj_key]. intros E. apply Hn1. cbn. rewrite E. apply elem_of_list_fmap. by exists x.
  - rewrite Er. eexists _, _. split; [done|]. cbn [concat Datatypes.app]. unfold relocations in *. rewrite omap_app, Hre. cbn [effects_of] in HR1. rewrite HR1. done.
Qed.
End run.

(** ** Instances and counterexamples *)
Definition ex_near : profile := Profile "near" (Rect 45 5 48 11).
Definition ex_all : profile := Profile "all" RectEmpty.
Definition ex_cfg (pref : bool) (d : list Z) : config := Cfg pref false true true [] "" false [ex_near; ex_all] 1 d.
Definition ex_o1 : origin := Org 11 (Some Automatic) (Some "a"%string) "X" (Some (46%Q, 8%Q)).
Definition ex_o2 : origin := Org 12 (Some Manual) None "X" (Some (10%Q, 8%Q)).
Definition ex_o3 : origin := Org 13 None None "X" (Some (46%Q, 8%Q)).
Definition ex_get (id : N) : option origin := if decide (id = 11%N) then Some ex_o1 else if decide (id = 12%N) then Some ex_o2 else if decide (id = 13%N) then Some ex_o3 else None.
Definition ex_world : world := World ex_get (λ _, None) (λ _, false) (λ _ _ _ _, 0%Q) (λ _, true) (λ p o, LNew (100 + o_id o) [1%N]) false true.
(** Event 1 prefers origin 11, then 12; it is to be processed 20 seconds after an update. *)
Definition ex_update : list aop := [AObject (OEvent (Ev 1 11)) ex_world 0 0; AObject (OEvent (Ev 1 12)) ex_world 5 5; ATick ex_world 20; ATick ex_world 25].
Definition ord0 (m : gmap key proc) : list proc := (map_to_list m).*2.
Example ex_run_shared : app_clock 0 ex_update ∧ (app_runs (ex_cfg true [20]) true ord0 (app_init (ex_cfg true [20])) ex_update).2 =
  [[ELoad "near"; ELoad "all"]; []; []; [ERelocate "all" ex_o2; ESend 112 [1%N]]].
Proof. split; [vm_compute; intuition discriminate|]. vm_compute. reflexivity. Qed.
Example ex_accepted : accepted (ex_cfg true [20]) ex_world (OEvent (Ev 1 12)) ex_o2 "all".
Proof.
  split; [done|done| |done]. exists 10%Q, 8%Q, 1%nat, ex_all. split; [done|]. split; [done|]. split; [done|].
  split; [right; done|]. intros [|j] q Hj Hq; [|lia]. injection Hq as <-. intros [[? _]|[_ ?]]; done.
Qed.
Example ex_due_alone : ∃ a efs, app_runs (ex_cfg true [20]) true ord0 (app_init (ex_cfg true [20])) (take 3 ex_update) = (Some a, efs) ∧
  sc_queue (a_sched a) = [] ∧ sc_counter (a_sched a) ≤ 1 ∧ sc_procs (a_sched a) !! 1%N = Some (Proc 0 1 [25]).
Proof. eexists _, _. split; [vm_compute; reflexivity|]. split; [vm_compute; reflexivity|]. split; [vm_compute; discriminate|]. vm_compute. reflexivity. Qed.
(** If an update arrives as another object, the preferred origin known before the update is
    relocated although only preferred origins are to be. *)
Theorem C76_stale_refuted : ∃ cfg ops efs a ef i p o, only_preferred cfg = true ∧ app_clock 0 ops ∧
  app_runs cfg false ord0 (app_init cfg) ops = (Some a, efs) ∧ efs !! i = Some ef ∧ ERelocate p o ∈ ef ∧
  (∀ op ob, op ∈ ops → delivers cfg op = Some ob → obj_key ob = 1%N) ∧
  ∃ e o' p', latest cfg (take (S i) ops) 1 = Some (OEvent e) ∧ ev_pref e ≠ o_id o ∧ accepted cfg ex_world (OEvent e) o' p' ∧ o' ≠ o.
Proof.
  exists (ex_cfg true [20]), ex_update, [[ELoad "near"; ELoad "all"]; []; []; [ERelocate "near" ex_o1; ESend 111 [1%N]]].
  eexists _, _, 3%nat, "near"%string, ex_o1. split; [done|]. split; [vm_compute; intuition discriminate|]. split; [vm_compute; reflexivity|].
  split; [done|]. split; [by left|]. split.
  - intros op ob. unfold ex_update. rewrite !elem_of_cons, elem_of_nil. intros [->|[->|[->|[->|[]]]]]; cbn; intros [= <-]; done.
  - exists (Ev 1 12), ex_o2, "all"%string. split; [done|]. split; [done|]. split; [apply ex_accepted|done].
Qed.
(** An origin without evaluation mode counts as automatic and is accepted, but ends the
    program, although the relocation itself succeeds. *)
Theorem C76_no_mode_refuted : ∃ cfg ops efs w o p, app_clock 0 ops ∧ accepted cfg w (OOrigin o) o p ∧ w_load w p = true ∧
  (∀ p o, w_reloc w p o ≠ LThrow) ∧ app_runs cfg true ord0 (app_init cfg) ops = (None, efs) ∧ (∀ op w', op ∈ ops → op_world op = Some w' → w' = w).
Proof.
  exists (ex_cfg false [0]), [AObject (OOrigin ex_o3) ex_world 0 0], [[ELoad "near"; ELoad "all"; ERelocate "near" ex_o3]], ex_world, ex_o3, "near"%string.
  split; [vm_compute; intuition discriminate|]. split.
  - split; [done|done| |done]. exists 46%Q, 8%Q, 0%nat, ex_near. split; [done|]. split; [done|]. split; [done|]. split; [right; done|]. intros j q Hj. lia.
  - split; [done|]. split; [done|]. split; [vm_compute; reflexivity|]. intros op w' ->%elem_of_list_singleton. cbn. congruence.
Qed.
(** A command line with two origins *)
Definition ex_batch : list (origin * world * Z * Z) := [(ex_o1, ex_world, 0, 0); (ex_o2, ex_world, 1, 2)].
Example ex_batch_run : app_clock 0 (app_batch ex_batch) ∧
  Forall2 (λ (x : origin * world * Z * Z) p, let '(o, w, _, _) := x in
    accepted (ex_cfg false [0]) w (OOrigin o) o p ∧ w_load w p = true ∧ o_mode o ≠ None ∧ w_reloc w p o ≠ LThrow) ex_batch ["near"; "all"]%string ∧
  (app_runs (ex_cfg false [0]) false ord0 (app_init (ex_cfg false [0])) (app_batch ex_batch)).2 =
    [[]; [ELoad "near"; ELoad "all"; ERelocate "near" ex_o1; ESend 111 [1%N]]; []; [ERelocate "all" ex_o2; ESend 112 [1%N]]].
Proof.
  split; [vm_compute; intuition discriminate|]. split; [|vm_compute; reflexivity]. constructor; [|constructor; [|constructor]].
  - split; [|done]. split; [done|done| |done]. exists 46%Q, 8%Q, 0%nat, ex_near. split; [done|]. split; [done|]. split; [done|]. split; [right; done|]. intros j q Hj. lia.
  - split; [|done]. split; [done|done| |done]. exists 10%Q, 8%Q, 1%nat, ex_all. split; [done|]. split; [done|]. split; [done|].
    split; [right; done|]. intros [|j] q Hj Hq; [|lia]. injection Hq as <-. intros [[? _]|[_ ?]]; done.
Qed.
Example ex_rejected w : let o := Org 14 (Some Automatic) None "X" None in ∀ o' p, ¬ accepted (ex_cfg false [0]) w (OOrigin o) o' p.
Proof. intros o o' p [<- _ (lat & lon & i & pr & H & _) _]. done. Qed.
Print Assumptions C76_rejected.
Print Assumptions C76_unique.
Print Assumptions C76_accepted.
Print Assumptions C76_execution.
Print Assumptions C76_due_alone.
Print Assumptions C76_batch.
Print Assumptions C76_stale_refuted.
Print Assumptions C76_no_mode_refuted.
