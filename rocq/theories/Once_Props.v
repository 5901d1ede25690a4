(** C86: the commands that relocate given origins and exit. *)
From Coq Require Import QArith String.
From stdpp Require Import gmap list.
From Verif Require Import Scheduler_Model Scheduler_Props Region_Model Region_Props RealTime_Model RealTime_Props Once_Model.
Local Open Scope Z_scope.

(** ** Specification *)
(** The relocation of [o] gives the origin [id] with [picks] *)
Definition gives (cfg : config) (w : world) (o : origin) (id : N) (picks : list N) : Prop :=
  ∃ p, accepted cfg w (OOrigin o) o p ∧ w_load w p = true ∧ o_mode o ≠ None ∧ w_reloc w p o = LNew id picks.
(** It ends in an exception *)
Definition breaks (cfg : config) (w : world) (o : origin) : Prop :=
  ∃ p, accepted cfg w (OOrigin o) o p ∧ w_load w p = true ∧ (o_mode o = None ∨ w_reloc w p o = LThrow).
Notation item := (option origin * world * Z * Z)%type.
(** What an origin of the command line contributes *)
Definition expected (cfg : config) (x : item) (r : list (N * list N)) : Prop :=
  match x with
  | (None, _, _, _) => r = []
  | (Some o, w, _, _) => (∃ id picks, gives cfg w o id picks ∧ r = [(id, picks)]) ∨ ((∀ id picks, ¬ gives cfg w o id picks) ∧ r = [])
  end.
Definition breaking (cfg : config) (x : item) : Prop := match x with (Some o, w, _, _) => breaks cfg w o | _ => False end.
Fixpoint rising (T : Z) (l : list item) : Prop :=
  match l with [] => True | (Some _, _, t0, now) :: l' => T ≤ t0 ≤ now ∧ rising now l' | (None, _, _, _) :: l' => rising T l' end.
Definition item_ids (l : list item) : list N := omap (λ x : item, o_id <$> x.1.1.1) l.
(** The new origins in the effects: added to the event parameters, and sent *)
Definition xmls (ef : list effect) : list (N * list N) := omap (λ e, match e with EXml id picks => Some (id, picks) | _ => None end) ef.
Definition sends (ef : list effect) : list (N * list N) := omap (λ e, match e with ESend id picks => Some (id, picks) | _ => None end) ef.
Definition objects (r : N * list N) : list xobj := XOrigin r.1 :: (XPick <$> r.2).

Lemma added_xmls ef : added ef = concat (objects <$> xmls ef).
Proof. induction ef as [|[p|p o|id picks|id picks] ef IH]; [done| | | |]; unfold added, xmls in *; cbn; [done|done|by rewrite IH|done]. Qed.
Lemma xmls_app a b : xmls (a ++ b) = xmls a ++ xmls b.
Proof. apply omap_app. Qed.
Lemma sends_app a b : sends (a ++ b) = sends a ++ sends b.
Proof. apply omap_app. Qed.
Lemma sent_exact sent id picks (b1 b2 : bool) : NoDup sent → (∀ e, e ∈ sent ↔ (e = EXml id picks ∧ b1 = true) ∨ (e = ESend id picks ∧ b2 = true)) →
  xmls sent = (if b1 then [(id, picks)] else []) ∧ sends sent = (if b2 then [(id, picks)] else []).
Proof.
  intros ND H. assert (sent ≡ₚ (if b1 then [EXml id picks] else []) ++ (if b2 then [ESend id picks] else [])) as P.
  { apply NoDup_Permutation; [done| |].
    - destruct b1, b2; cbn; [|apply NoDup_singleton|apply NoDup_singleton|apply NoDup_nil_2]. apply NoDup_cons. split; [by intros [=]%elem_of_list_singleton|apply NoDup_singleton].
    - intros e. rewrite H, elem_of_app. destruct b1, b2; rewrite ?elem_of_list_singleton, ?elem_of_nil; naive_solver. }
  split.
  - assert (xmls sent ≡ₚ if b1 then [(id, picks)] else []) as Q. { unfold xmls. rewrite P. by destruct b1, b2. }
    destruct b1; [by apply Permutation_singleton_r in Q|by apply Permutation_nil_r in Q].
  - assert (sends sent ≡ₚ if b2 then [(id, picks)] else []) as Q. { unfold sends. rewrite P. by destruct b1, b2. }
    destruct b2; [by apply Permutation_singleton_r in Q|by apply Permutation_nil_r in Q].
Qed.
Lemma loads_nothing ef : (∀ e, e ∈ ef → ∃ p, e = ELoad p) → xmls ef = [] ∧ sends ef = [].
Proof.
  induction ef as [|e ef IH]; intros H; [done|]. destruct (H e) as [p ->]; [by left|]. apply IH. intros e' He. apply H. by right.
Qed.

Section once.
Variable query shared : bool.
Variable ord : gmap key proc → list proc.
Hypothesis Hord : ∀ m, ord m ≡ₚ (map_to_list m).*2.
Section loop.
Variable cfg : config.
Hypothesis Hdl : delays cfg = [0].
Notation ainv := (ainv cfg shared).

Lemma check_loaded w loaded p : p ∈ (check_profiles cfg w loaded).1 ↔ p ∈ loaded ∨ (w_load w p = true ∧ ∃ pr, pr ∈ profiles cfg ∧ p_name pr = p).
Proof using.
  unfold check_profiles.
  assert (∀ l acc, p ∈ (fold_left (λ acc p, let '(l, ef) := load_profile w acc.1 (p_name p) in (l, acc.2 ++ ef)) l acc).1 ↔
    p ∈ acc.1 ∨ (w_load w p = true ∧ ∃ pr, pr ∈ l ∧ p_name pr = p)) as H; [|apply H].
  induction l as [|q l IH]; intros acc; cbn [fold_left].
  { split; [by left|]. intros [?|(_ & pr & ?%elem_of_nil & _)]; done. }
  rewrite IH. unfold load_profile. case_decide as Hq; cbn [fst].
  - split; [intros [?|(? & pr & ? & ?)]; [by left|right; split; [done|]; exists pr; split; [by right|done]]|].
    intros [?|(Hl & pr & [->|?]%elem_of_cons & <-)]; [by left|by left|right; split; [done|]; by exists pr].
  - split.
    + intros [H|(? & pr & ? & ?)]; [|right; split; [done|]; exists pr; split; [by right|done]].
      destruct (w_load w (p_name q)) eqn:E; [|by left]. apply elem_of_union in H as [->%elem_of_singleton|?]; [|by left].
      right. split; [done|]. exists q. split; [by left|done].
    + intros [H|(Hl & pr & [->|?]%elem_of_cons & <-)].
      * left. destruct (w_load w (p_name q)); [apply elem_of_union; by right|done].
      * left. rewrite Hl. apply elem_of_union. left. by apply elem_of_singleton.
      * right. split; [done|]. by exists pr.
Qed.

(** One job that is due alone *)
Lemma next_alone hist T now a k : ainv hist T a → sc_queue (a_sched a) = [] → sc_counter (a_sched a) ≤ 1 →
  due_at (a_sched a) now k → (∀ k', k' ≠ k → ¬ due_at (a_sched a) now k') →
  ∃ ob, next_object ord cfg now a = Some ob ∧ obj_key ob = k ∧ (∃ op, op ∈ hist ∧ delivers cfg op = Some ob) ∧ (shared = true → latest cfg hist k = Some ob) ∧
    ∀ w loaded out l' ef, start_process cfg w loaded ob = (out, l', ef) →
      match out with
      | PRet ok => ∃ a', run_jobs cfg ord w now (App (a_sched a) (a_objs a) loaded) = Running a' ef ∧ sc_queue (a_sched a') = [] ∧ a_loaded a' = l' ∧
         ∀ k' p, sc_procs (a_sched a') !! k' = Some p → ∃ p0, sc_procs (a_sched a) !! k' = Some p0 ∧ pr_times p = drop_past now (pr_times p0)
      | _ => run_jobs cfg ord w now (App (a_sched a) (a_objs a) loaded) = Stopped ef
      end.
Proof using Hord.
  intros [I K] Hq Hc Hd Ho. unfold run_jobs, next_object. cbn [a_sched a_objs a_loaded]. set (s := a_sched a) in *.
  destruct (Z.leb_spec (sc_counter s - 1) 0); [|lia]. cbn zeta.
  set (s0 := Sched _ _ (wakeup cfg) _). assert (inv (due_in cfg hist) now s0) as I0.
  { destruct I as [A B C D]. split; [done|done| |done]. intros i k'. subst s0. cbn [sc_queue]. rewrite Hq. by intros ?%elem_of_nil. }
  pose proof (inv_update_all ord Hord (due_in cfg hist) now now s0 (Z.le_refl _) I0) as I1.
  pose proof (update_all_times ord Hord (due_in cfg hist) now s0 now) as HT.
  destruct (update_alone ord Hord (due_in cfg hist) now s0 now k I0 Hq Hd Ho) as [i Hi].
  set (s1 := update_all ord now s0) in *. rewrite Hi. cbn [fst].
  destruct (i_queue _ _ _ I1 i k) as ((p & Hp & <-) & _); [rewrite Hi; by left|].
  destruct (HT k p I0 Hp) as (p0 & Hp0 & _ & ->). destruct (K k p0 Hp0) as (ob & Hob & Hk & Hdel & Hl). rewrite Hob.
  exists ob. split; [done|]. split; [done|]. split; [done|]. split; [done|]. intros w loaded out l' ef ->. destruct out as [| |ok]; [done|done|].
  eexists. split; [reflexivity|]. cbn [a_sched a_loaded]. unfold run_front. rewrite Hi. cbn [fst]. split; [by destruct ok|]. split; [done|].
  intros k' q Hq'. assert (sc_procs s1 !! k' = Some q) as Hq2.
  { destruct ok; [done|]. cbn in Hq'. by apply lookup_delete_Some in Hq' as [_ ?]. }
  destruct (HT k' q I0 Hq2) as (q0 & ? & ? & _). by exists q0.
Qed.

Record idle (hist : list aop) (T : Z) (a : app) : Prop := {
  id_inv : ainv hist T a;
  id_queue : sc_queue (a_sched a) = [];
  id_times : ∀ k p, sc_procs (a_sched a) !! k = Some p → pr_times p = [] }.
Definition fresh (hist : list aop) (id : N) : Prop := ∀ op ob, op ∈ hist → delivers cfg op = Some ob → obj_key ob ≠ id.
Lemma process_spec hist T a o w t0 now : idle hist T a → T ≤ t0 ≤ now → shared = true ∨ fresh hist (o_id o) →
  (query = false → process query shared ord cfg o w t0 now a = SUndefined) ∧
  (query = true → ∀ out l' ef, start_process cfg w (check_profiles cfg w (a_loaded a)).1 (OOrigin o) = (out, l', ef) →
     match out with
     | PRet _ => ∃ a', process query shared ord cfg o w t0 now a = SResult (Running a' ((check_profiles cfg w (a_loaded a)).2 ++ ef)) ∧
         idle (hist ++ [ACommand o w t0 now]) now a' ∧ a_loaded a' = l'
     | _ => process query shared ord cfg o w t0 now a = SResult (Stopped ((check_profiles cfg w (a_loaded a)).2 ++ ef))
     end).
Proof using Hord Hdl.
  intros [A Hq Ht] Hc Hsh. set (op := ACommand o w t0 now).
  set (s0 := Sched (sc_procs (a_sched a)) (sc_queue (a_sched a)) 0 (sc_next (a_sched a))). set (a0 := App s0 (a_objs a) (a_loaded a)).
  assert (ainv hist T a0) as A0. { destruct A as [[? ? ? ?] K]. split; [by split|done]. }
  pose proof (app_step_spec cfg shared ord Hord hist T op a0 (conj Hc Logic.I) A0) as HS. cbn [op_now op] in HS.
  assert (ainv (hist ++ [op]) T (insert_object cfg shared (OOrigin o) t0 a0)) as A1.
  { apply insert_ainv; [done| |done]. intros k t Hk. exact Hk. }
  change (app_step cfg shared ord a0 op) with (handle_timeout cfg ord w now (insert_object cfg shared (OOrigin o) t0 a0)) in HS.
  assert (a_loaded (insert_object cfg shared (OOrigin o) t0 a0) = a_loaded a) as El.
  { unfold insert_object. cbn zeta. by destruct (sc_procs (a_sched a0) !! obj_key (OOrigin o)). }
  unfold process. cbn zeta. fold s0 a0. set (a1 := insert_object _ _ _ _ _) in *.
  assert (∃ q, sc_procs (a_sched a1) = <[o_id o := q]> (sc_procs (a_sched a)) ∧ pr_times q = [t0 + 0] ∧ sc_queue (a_sched a1) = [] ∧ sc_counter (a_sched a1) = 0) as (q & Hp & Hqt & Hq1 & Hc1').
  { subst a1. unfold insert_object. cbn zeta. rewrite Hdl. subst a0 s0. cbn [a_sched sc_procs obj_key]. destruct (sc_procs (a_sched a) !! o_id o); cbn [a_sched sc_procs sc_queue sc_counter]; rewrite Hq; eexists; done. }
  destruct (next_alone (hist ++ [op]) T now a1 (o_id o) A1 Hq1) as (ob & Hn & Hk & Hdel & Hl & HR).
  { lia. }
  { exists q, (t0 + 0), []. rewrite Hp, lookup_insert. split; [done|]. split; [done|]. lia. }
  { intros k' Hk (q' & u & tl & Hq' & Hu & _). rewrite Hp, lookup_insert_ne in Hq' by done. apply Ht in Hq'. congruence. }
  assert (ob = OOrigin o) as ->.
  { destruct Hsh as [Hs|Hs].
    - specialize (Hl Hs). rewrite latest_snoc in Hl. cbn [delivers op] in Hl. rewrite decide_True in Hl by done. by injection Hl as <-.
    - destruct Hdel as (op' & [Ho|Ho]%elem_of_app & Hd).
      + by destruct (Hs op' ob Ho Hd).
      + apply elem_of_list_singleton in Ho as ->. by injection Hd as <-. }
  rewrite Hn. split; [by intros ->|]. intros -> out l' ef Es. revert HS. unfold handle_timeout. rewrite El.
  destruct (check_profiles cfg w (a_loaded a)) as [loaded ef1]. cbn [fst snd] in *. cbn [and_then]. specialize (HR w loaded out l' ef Es).
  destruct out as [| |ok]; [by rewrite HR..|]. destruct HR as (a' & -> & H1 & H2 & H3). intros [A' _]. exists a'. split; [done|]. split; [|done]. split; [done|done|].
  intros k' q' Hq'. destruct (H3 k' q' Hq') as (p0 & Hp0 & ->). rewrite Hp in Hp0. apply lookup_insert_Some in Hp0 as [[<- <-]|[_ Hp0]].
  - rewrite Hqt. cbn. destruct (Z.leb_spec (t0 + 0) now); [done|lia].
  - by rewrite (Ht _ _ Hp0).
Qed.

(** One origin: what is added and sent, or that it stops *)
Lemma start_spec w loaded o (ld : string → bool) : (∀ p, w_load w p = ld p) → (∀ p, p ∈ loaded → ld p = true) →
  ∃ out l' ef, start_process cfg w loaded (OOrigin o) = (out, l', ef) ∧ (∀ p, p ∈ l' → ld p = true) ∧
    (breaks cfg w o → out = PThrow) ∧
    (¬ breaks cfg w o → (∃ ok, out = PRet ok) ∧ ∃ r, expected cfg (Some o, w, 0, 0) r ∧
       xmls ef = (if w_ep w then r else []) ∧ sends ef = (if w_conn w && negb (test_mode cfg) then r else [])).
Proof using.
  intros Hld Hl. destruct (accepted_dec cfg w (OOrigin o)) as [(o' & p & Ha)|Hn].
  - assert (o' = o) as -> by (by destruct Ha as [<- _ _ _]). destruct (C76_accepted cfg w loaded (OOrigin o) o p Ha) as (out & l' & ef & ef' & E & H1 & H2 & H3 & H4).
    assert (xmls ef = [] ∧ sends ef = []) as [X1 X2]. { apply loads_nothing. intros e He. apply H1 in He as [-> _]. by exists p. }
    exists out, l', (ef ++ ef'). split; [done|]. rewrite xmls_app, sends_app, X1, X2. cbn [Datatypes.app].
    assert (p ∈ loaded ∨ w_load w p = true ↔ ld p = true) as HR. { rewrite Hld. split; [intros [?|?]; [by apply Hl|done]|by right]. }
    split. { intros q Hq. apply H2 in Hq as [?|[-> ?]]; [by apply Hl|by apply HR]. }
    assert (∀ p', accepted cfg w (OOrigin o) o p' → p' = p) as HU by (intros p' H; by destruct (C76_unique cfg w _ _ _ _ _ H Ha)).
    destruct (ld p) eqn:EL.
    + destruct (H4 (proj2 HR eq_refl)) as (sent & -> & HX). cbn. change (xmls (ERelocate p o :: sent)) with (xmls sent). change (sends (ERelocate p o :: sent)) with (sends sent).
      destruct HX as [(Hb & -> & ->)|[(Hm & Hr & -> & ->)|(id & picks & Hm & Hr & -> & ND & Hs)]].
      * split; [done|]. intros Hnb. destruct Hnb. exists p. rewrite Hld. done.
      * split; [intros (p' & Ha' & _ & [?|Hb]); [done|]; rewrite (HU _ Ha') in Hb; congruence|]. intros _. split; [by exists true|]. exists []. split.
        { right. split; [|done]. intros id picks (p' & Ha' & _ & _ & Hg). rewrite (HU _ Ha') in Hg. congruence. }
        by destruct (w_ep w), (w_conn w && negb (test_mode cfg)).
      * split; [intros (p' & Ha' & _ & [?|Hb]); [done|]; rewrite (HU _ Ha') in Hb; congruence|]. intros _. split; [by exists true|]. exists [(id, picks)]. split.
        { left. exists id, picks. split; [|done]. exists p. rewrite Hld. done. }
        apply sent_exact; [done|]. intros e. rewrite Hs, andb_true_iff, negb_true_iff. done.
    + assert (¬ (p ∈ loaded ∨ w_load w p = true)) as HR'. { rewrite HR. done. } destruct (H3 HR') as [-> ->]. split.
      { intros (p' & Ha' & Hw & _). rewrite (HU _ Ha'), Hld in Hw. congruence. }
      intros _. split; [by exists true|]. exists []. split.
      { right. split; [|done]. intros id picks (p' & Ha' & Hw & _). rewrite (HU _ Ha'), Hld in Hw. congruence. }
      by destruct (w_ep w), (w_conn w && negb (test_mode cfg)).
  - exists (PRet false), loaded, []. split; [by apply C76_rejected|]. split; [done|]. split; [intros (p & Ha & _); by destruct (Hn o p)|]. intros _. split; [by exists false|].
    exists []. split; [right; split; [|done]; intros id picks (p & Ha & _); by destruct (Hn o p)|]. by destruct (w_ep w), (w_conn w && negb (test_mode cfg)).
Qed.

(** All of them *)
Definition alike (ld : string → bool) (ep conn : bool) (x : item) : Prop := (∀ p, w_load x.1.1.2 p = ld p) ∧ w_ep x.1.1.2 = ep ∧ w_conn x.1.1.2 = conn.
Lemma loop_spec ld ep conn l : ∀ hist T a, query = true → idle hist T a → rising T l → (shared = true ∨ NoDup (item_ids l) ∧ ∀ id, id ∈ item_ids l → fresh hist id) →
  Forall (alike ld ep conn) l → (∀ p, p ∈ a_loaded a → ld p = true) →
  (Forall (λ x, ¬ breaking cfg x) l → ∃ ef rs, loop query shared ord cfg l a = LDone ef ∧ Forall2 (expected cfg) l rs ∧
     xmls ef = (if ep then concat rs else []) ∧ sends ef = (if conn && negb (test_mode cfg) then concat rs else [])) ∧
  (∀ l1 x l2, l = l1 ++ x :: l2 → Forall (λ x, ¬ breaking cfg x) l1 → breaking cfg x → ∃ ef, loop query shared ord cfg l a = LStopped ef).
Proof using Hord Hdl.
  induction l as [|x l IH]; intros hist T a Hqy HI Hr Hsh HA Hl.
  { split; [intros _; exists [], []; split; [done|]; split; [constructor|]; by destruct ep, (conn && negb (test_mode cfg))|]. intros [|??] ? ? ?; done. }
  apply Forall_cons in HA as [(Hld & Hep & Hcn) HA]. destruct x as [[[[o|] w] t0] now]; cbn [fst snd] in *.
  - destruct Hr as [Hr1 Hr2]. cbn [loop].
    destruct (process_spec hist T a o w t0 now HI Hr1) as [_ HP]. { destruct Hsh as [?|[? H]]; [by left|]. right. apply H. cbn. by left. }
    specialize (HP Hqy).
    destruct (start_spec w (check_profiles cfg w (a_loaded a)).1 o ld Hld) as (out & l' & ef & Es & Hl' & S1 & S2).
    { intros p [Hp|[Hp _]]%check_loaded; [by apply Hl|]. by rewrite <-Hld. }
    specialize (HP _ _ _ Es). split.
    + intros [Hb HB]%Forall_cons. destruct (S2 Hb) as ((ok & ->) & r & Hex & Hx & Hs). destruct HP as (a' & -> & HI' & <-).
      destruct (IH (hist ++ [ACommand o w t0 now]) now a' Hqy HI' Hr2) as [H1 _]; [|done|done|].
      { destruct Hsh as [?|[ND HF]]; [by left|]. right. cbn in ND. apply NoDup_cons in ND as [N1 N2]. split; [done|]. intros id Hid op ob [Ho|Ho]%elem_of_app Hd.
        - eapply HF; [cbn; right; exact Hid|done|done].
        - apply elem_of_list_singleton in Ho as ->. injection Hd as <-. cbn. intros <-. by apply N1. }
      destruct (H1 HB) as (ef' & rs & -> & HF2 & X & Y). cbn [before]. exists (((check_profiles cfg w (a_loaded a)).2 ++ ef) ++ ef'), (r :: rs). split; [done|].
      split; [constructor; done|]. destruct (loads_nothing (check_profiles cfg w (a_loaded a)).2) as [L1 L2]. { intros e He. destruct (check_effects cfg w _ e He) as (pr & _ & ->). by exists (p_name pr). }
      rewrite !xmls_app, !sends_app, L1, L2, Hx, Hs, X, Y, Hep, Hcn. cbn. by destruct ep, (conn && negb (test_mode cfg)).
    + intros [|y l1] x l2 E HB Hx; cbn in E; injection E as <- ->.
      * specialize (S1 Hx) as ->. rewrite HP. by eexists.
      * apply Forall_cons in HB as [Hb HB]. destruct (S2 Hb) as ((ok & ->) & r & _). destruct HP as (a' & -> & HI' & <-).
        destruct (IH (hist ++ [ACommand o w t0 now]) now a' Hqy HI' Hr2) as [_ H1]; [|done|done|].
        { destruct Hsh as [?|[ND HF]]; [by left|]. right. cbn in ND. apply NoDup_cons in ND as [N1 N2]. split; [done|]. intros id Hid op ob [Ho|Ho]%elem_of_app Hd.
          - eapply HF; [cbn; right; exact Hid|done|done].
          - apply elem_of_list_singleton in Ho as ->. injection Hd as <-. cbn. intros <-. by apply N1. }
        destruct (H1 l1 x l2 eq_refl HB Hx) as (ef' & ->). by eexists.
  - destruct (IH hist T a Hqy HI Hr Hsh HA Hl) as [H1 H2]. cbn [loop]. split.
    + intros [_ HB]%Forall_cons. destruct (H1 HB) as (ef & rs & -> & HF & X & Y). exists ef, ([] :: rs). split; [done|]. split; [by constructor|]. done.
    + intros [|y l1] x l2 E HB Hx; cbn in E; injection E as <- ->; [done|]. apply Forall_cons in HB as [_ HB]. by apply (H2 l1 x l2).
Qed.
Lemma idle_init T : idle [] T (app_init cfg).
Proof using. split; [apply ainv_init|done|]. intros k p Hp. cbn in Hp. by rewrite lookup_empty in Hp. Qed.
Lemma loop_no_query l a hist T : query = false → idle hist T a → rising T l → (shared = true ∨ hist = []) → item_ids l ≠ [] → loop query shared ord cfg l a = LUndefined [].
Proof using Hord Hdl.
  intros Hqy. revert hist T a. induction l as [|[[[[o|] w] t0] now] l IH]; intros hist T a HI Hr Hsh Hne; [done| |].
  - cbn [loop]. destruct Hr as [Hr _]. destruct (process_spec hist T a o w t0 now HI Hr) as [HP _]; [|by rewrite HP].
    destruct Hsh as [?| ->]; [by left|]. right. by intros ? ? ?%elem_of_nil.
  - cbn [loop]. by apply (IH hist T).
Qed.
End loop.

(** ** The commands *)
Lemma accepted_ep cfg b w ob o p : accepted cfg (with_ep b w) ob o p ↔ accepted cfg w ob o p.
Proof using. split; intros [H1 H2 H3 H4]; split; assumption. Qed.
Lemma gives_ep cfg b w o id picks : gives cfg (with_ep b w) o id picks ↔ gives cfg w o id picks.
Proof using. unfold gives. split; intros (p & H & ?); exists p; (split; [by eapply accepted_ep|done]). Qed.
Lemma breaks_ep cfg b w o : breaks cfg (with_ep b w) o ↔ breaks cfg w o.
Proof using. unfold breaks. split; intros (p & H & ?); exists p; (split; [by eapply accepted_ep|done]). Qed.
Definition ep_item (b : bool) (x : item) : item := let '(o, w, t0, now) := x in (o, with_ep b w, t0, now).
Lemma expected_ep cfg b x r : expected cfg (ep_item b x) r ↔ expected cfg x r.
Proof using.
  destruct x as [[[[o|] w] t0] now]; [|done]. cbn. split; (intros [(id & picks & H & ->)|[H ->]]; [left; exists id, picks; split; [by eapply gives_ep|done]|right; split; [|done]; intros id picks Hg; apply (H id picks); by eapply gives_ep]).
Qed.
Lemma breaking_ep cfg b x : breaking cfg (ep_item b x) ↔ breaking cfg x.
Proof using. destruct x as [[[[o|] w] t0] now]; [|done]. apply breaks_ep. Qed.
Lemma rising_ep b l : ∀ T, rising T (ep_item b <$> l) ↔ rising T l.
Proof using. induction l as [|[[[[o|] w] t0] now] l IH]; intros T; cbn; [done|by rewrite IH|by rewrite IH]. Qed.
Lemma ids_ep b l : item_ids (ep_item b <$> l) = item_ids l.
Proof using. induction l as [|[[[[o|] w] t0] now] l IH]; [done| |]; unfold item_ids in *; cbn; by rewrite IH. Qed.
Lemma expected_unique cfg x r r' : expected cfg x r → expected cfg x r' → r = r'.
Proof using.
  destruct x as [[[[o|] w] t0] now]; [|cbn; congruence]. intros [(id & picks & Hg & ->)|[Hn ->]] [(id' & picks' & Hg' & ->)|[Hn' ->]].
  - destruct Hg as (p & Ha & _ & _ & Hr), Hg' as (p' & Ha' & _ & _ & Hr'). destruct (C76_unique cfg w _ _ _ _ _ Ha Ha') as [_ <-]. congruence.
  - by destruct (Hn' _ _ Hg).
  - by destruct (Hn _ _ Hg').
  - done.
Qed.
(** Forced processing: only the place and the profiles matter. *)
Theorem C86_forced cfg test w o p : accepted (forced cfg test) w (OOrigin o) o p ↔
  ∃ lat lon i pr, o_place o = Some (lat, lon) ∧ profiles cfg !! i = Some pr ∧ p_name pr = p ∧ wanted (w_dist w) lat lon (force_profile cfg) pr ∧
    ∀ j q, (j < i)%nat → profiles cfg !! j = Some q → ¬ wanted (w_dist w) lat lon (force_profile cfg) q.
Proof using. split; [by intros [_ _ H _]|]. intros H. by split. Qed.

(** The same conditions for both commands: a clock that does not go back, ids that are given
    once unless updates are shared, loading of profiles and the connection that do not change
    meanwhile *)
Record usual (ld : string → bool) (conn : bool) (T : Z) (l : list item) : Prop := {
  us_query : query = true;
  us_clock : rising T l;
  us_ids : shared = true ∨ NoDup (item_ids l);
  us_alike : Forall (λ x : item, (∀ p, w_load x.1.1.2 p = ld p) ∧ w_conn x.1.1.2 = conn) l }.
Lemma loop_usual cfg test ld conn b T l : usual ld conn T l →
  let cfg' := forced cfg test in
  (Forall (λ x, ¬ breaking cfg' x) l → ∃ ef rs, loop query shared ord cfg' (ep_item b <$> l) (app_init cfg') = LDone ef ∧ Forall2 (expected cfg') l rs ∧
     xmls ef = (if b then concat rs else []) ∧ sends ef = (if conn && negb test then concat rs else [])) ∧
  (∀ x, x ∈ l → breaking cfg' x → ∃ ef, loop query shared ord cfg' (ep_item b <$> l) (app_init cfg') = LStopped ef).
Proof using Hord.
  intros [Hq Hc Hi Ha] cfg'. destruct (loop_spec cfg' eq_refl ld b conn (ep_item b <$> l) [] T (app_init cfg') Hq (idle_init cfg' T)) as [H1 H2].
  { by apply rising_ep. }
  { rewrite ids_ep. destruct Hi as [?|?]; [by left|right]. split; [done|]. by intros id _ op ob ?%elem_of_nil. }
  { apply Forall_fmap. eapply Forall_impl; [exact Ha|]. intros [[[o w] t0] now] [HA HB]. cbn in *. by split. }
  { by intros p ?%elem_of_empty. }
  split.
  - intros HB. destruct H1 as (ef & rs & -> & HF & X & Y). { apply Forall_fmap. eapply Forall_impl; [exact HB|]. intros x Hx Hb. apply Hx. by eapply breaking_ep. }
    exists ef, rs. split; [done|]. split; [|by split]. rewrite Forall2_fmap_l in HF. eapply Forall2_impl; [exact HF|]. intros x r Hx. by eapply expected_ep.
  - intros x Hx Hb. assert (∃ l1 y l2, l = l1 ++ y :: l2 ∧ Forall (λ x, ¬ breaking cfg' x) l1 ∧ breaking cfg' y) as (l1 & y & l2 & -> & HB & Hy).
    { assert (∀ z, breaking cfg' z ∨ ¬ breaking cfg' z) as Hdec.
      { intros [[[[o|] w] t0] now]; [|right; intros []]. cbn. destruct (accepted_dec cfg' w (OOrigin o)) as [(o' & p & Hp)|Hn].
        - assert (o' = o) as -> by (by destruct Hp as [<- _ _ _]). destruct (w_load w p) eqn:Ew.
          + destruct (o_mode o) eqn:Em; [destruct (w_reloc w p o) eqn:Er|].
            * left. exists p. auto.
            * right. intros (p' & Hp' & _ & [?|E]); [congruence|]. destruct (C76_unique cfg' w _ _ _ _ _ Hp Hp') as [_ <-]. congruence.
            * right. intros (p' & Hp' & _ & [?|E]); [congruence|]. destruct (C76_unique cfg' w _ _ _ _ _ Hp Hp') as [_ <-]. congruence.
            * left. exists p. auto.
          + right. intros (p' & Hp' & E & _). destruct (C76_unique cfg' w _ _ _ _ _ Hp Hp') as [_ <-]. congruence.
        - right. intros (p' & Hp' & _). by destruct (Hn o p'). }
      clear -Hx Hb Hdec. induction l as [|z l IH]; [by apply elem_of_nil in Hx|]. destruct (Hdec z) as [Hz|Hz]; [by exists [], z, l|].
      apply elem_of_cons in Hx as [->|Hx]; [done|]. destruct (IH Hx) as (l1 & y & l2 & -> & H1 & H2). exists (z :: l1), y, l2. split; [done|]. split; [by constructor|done]. }
    apply (H2 (ep_item b <$> l1) (ep_item b y) (ep_item b <$> l2)); [by rewrite fmap_app| |by eapply breaking_ep].
    apply Forall_fmap. eapply Forall_impl; [exact HB|]. intros z Hz Hbz. apply Hz. by eapply breaking_ep.
Qed.

Definition file_items (origins : list (origin * world * Z * Z)) : list item := (λ x : origin * world * Z * Z, (Some x.1.1.1, x.1.1.2, x.1.2, x.2)) <$> origins.
Lemma file_ep origins : ((λ x : origin * world * Z * Z, let '(o, w, t0, now) := x in (Some o, with_ep true w, t0, now)) <$> origins) = ep_item true <$> file_items origins.
Proof using. unfold file_items. rewrite <-list_fmap_compose. apply list_fmap_ext. by intros i [[[o w] t0] now]. Qed.
(** C86, --ep: the output has the objects of the file, followed by the new origins with their
    picks in the order of the origins of the file. *)
Theorem C86_ep cfg objs origins ld conn T : usual ld conn T (file_items origins) → Forall (λ x, ¬ breaking (forced cfg (test_mode cfg)) x) (file_items origins) →
  ∃ rs ef, run_ep query shared ord cfg (Some (Some (objs, origins))) = Exit true (Some (objs ++ concat (objects <$> concat rs))) ef ∧
    Forall2 (expected (forced cfg (test_mode cfg))) (file_items origins) rs ∧ sends ef = (if conn && negb (test_mode cfg) then concat rs else []).
Proof using Hord.
  intros HU HB. destruct (loop_usual cfg (test_mode cfg) ld conn true T _ HU) as [H1 _]. destruct (H1 HB) as (ef & rs & E & HF & X & Y). exists rs, ef.
  split; [|by split]. unfold run_ep. rewrite file_ep, E. cbn [finish]. by rewrite added_xmls, X.
Qed.
(** What an origin contributes does not depend on the others. *)
Theorem C86_alone cfg objs origins ld conn T x : usual ld conn T (file_items origins) → Forall (λ x, ¬ breaking (forced cfg (test_mode cfg)) x) (file_items origins) → x ∈ origins →
  ∃ before own after ef ef', run_ep query shared ord cfg (Some (Some (objs, origins))) = Exit true (Some (objs ++ before ++ own ++ after)) ef ∧
    run_ep query shared ord cfg (Some (Some ([], [x]))) = Exit true (Some own) ef'.
Proof using Hord.
  intros HU HB Hx. destruct (C86_ep cfg objs origins ld conn T HU HB) as (rs & ef & E & HF & _).
  apply elem_of_list_split in Hx as (l1 & l2 & ->). unfold file_items in *. rewrite fmap_app, fmap_cons in *.
  apply Forall2_app_inv_l in HF as (r1 & r2 & HF1 & HF2 & ->). apply Forall2_cons_inv_l in HF2 as (r & r2' & Hr & HF2 & ->).
  apply Forall_app in HB as [_ HB]. apply Forall_cons in HB as [HB _]. destruct HU as [U1 U2 U3 U4]. apply Forall_app in U4 as [_ U4]. apply Forall_cons in U4 as [U4 _].
  destruct x as [[[o w] t0] now]. cbn [fst snd] in *.
  assert (rising t0 (file_items [(o, w, t0, now)])) as UR.
  { assert (∀ l T, rising T (l ++ (Some o, w, t0, now) :: ((λ x : origin * world * Z * Z, (Some x.1.1.1, x.1.1.2, x.1.2, x.2)) <$> l2)) → t0 ≤ now) as H.
    { induction l as [|[[[[o'|] w'] t'] now'] l IH]; intros T' H; cbn in H; [lia|eapply IH; apply H|eapply IH; apply H]. }
    cbn. split; [|done]. split; [lia|]. by eapply H. }
  destruct (C86_ep cfg [] [(o, w, t0, now)] ld conn t0) as (rs' & ef' & E' & HF' & _).
  { split; [done|done|right; cbn; apply NoDup_singleton|]. cbn. by constructor. }
  { cbn. by constructor. }
  apply Forall2_cons_inv_l in HF' as (r' & ? & Hr' & ->%Forall2_nil_inv_l & ->). cbn [fst snd] in *. pose proof (expected_unique _ _ _ _ Hr Hr') as ->.
  exists (concat (objects <$> concat r1)), (concat (objects <$> r')), (concat (objects <$> concat r2')), ef, ef'. split.
  - rewrite E. rewrite concat_app, fmap_app, concat_app. cbn [concat]. by rewrite fmap_app, concat_app.
  - rewrite E'. cbn. by rewrite app_nil_r.
Qed.
Definition id_items (ids : list (N * world * Z * Z)) : list item := (λ x : N * world * Z * Z, (w_get x.1.1.2 x.1.1.1, x.1.1.2, x.1.2, x.2)) <$> ids.
Lemma ids_ep' b ids : ((λ x : N * world * Z * Z, let '(id, w, t0, now) := x in (w_get w id, with_ep b w, t0, now)) <$> ids) = ep_item b <$> id_items ids.
Proof using. unfold id_items. rewrite <-list_fmap_compose. apply list_fmap_ext. by intros i [[[o w] t0] now]. Qed.
(** C86, --origin-id: ids that are not found are skipped; without XML every new origin is sent
    once if there is a connection and no test mode; with XML the output has the new origins,
    and nothing is sent unless --ep was given as well. *)
Theorem C86_ids cfg xmlout ep ids ld conn T : usual ld conn T (id_items ids) →
  let test := match ep with Some _ => test_mode cfg | None => xmlout || test_mode cfg end in
  Forall (λ x, ¬ breaking (forced cfg test) x) (id_items ids) →
  ∃ rs ef, run_ids query shared ord cfg xmlout ep ids =
      Exit true (match ep with Some objs => Some (objs ++ concat (objects <$> concat rs)) | None => if xmlout then Some (concat (objects <$> concat rs)) else None end) ef ∧
    Forall2 (expected (forced cfg test)) (id_items ids) rs ∧ sends ef = (if conn && negb test then concat rs else []).
Proof using Hord.
  intros HU test HB. unfold run_ids. destruct ep as [objs|]; [|destruct xmlout]; cbn [orb] in test; subst test.
  - destruct (loop_usual cfg (test_mode cfg) ld conn true T _ HU) as [H1 _]. destruct (H1 HB) as (ef & rs & E & HF & X & Y). exists rs, ef.
    split; [|by split]. rewrite ids_ep', E. cbn [finish]. by rewrite added_xmls, X.
  - destruct (loop_usual cfg true ld conn true T _ HU) as [H1 _]. destruct (H1 HB) as (ef & rs & E & HF & X & Y). exists rs, ef.
    split; [|by split]. rewrite ids_ep', E. cbn [finish]. by rewrite added_xmls, X.
  - destruct (loop_usual cfg (test_mode cfg) ld conn false T _ HU) as [H1 _]. destruct (H1 HB) as (ef & rs & E & HF & X & Y). exists rs, ef.
    split; [|by split]. rewrite ids_ep', E. done.
Qed.
(** One exception, and nothing is written, whatever the other origins gave. *)
Theorem C86_exception cfg objs origins ld conn T x : usual ld conn T (file_items origins) → x ∈ file_items origins → breaking (forced cfg (test_mode cfg)) x →
  ∃ ef, run_ep query shared ord cfg (Some (Some (objs, origins))) = ExThrow ef.
Proof using Hord.
  intros HU Hx Hb. destruct (loop_usual cfg (test_mode cfg) ld conn true T _ HU) as [_ H2]. destruct (H2 x Hx Hb) as (ef & E). exists ef. unfold run_ep. rewrite file_ep, E. done.
Qed.
(** Without a query object the first origin already leads to undefined behaviour. *)
Theorem C86_no_query cfg objs origins T : query = false → rising T (file_items origins) → origins ≠ [] →
  run_ep query shared ord cfg (Some (Some (objs, origins))) = ExUndefined [].
Proof using Hord.
  intros Hq Hr Hne. unfold run_ep. rewrite file_ep. rewrite (loop_no_query (forced cfg (test_mode cfg)) eq_refl _ _ [] T Hq (idle_init _ T)); [done|by apply rising_ep|by right|].
  rewrite ids_ep. by destruct origins.
Qed.
(** A file that cannot be opened or has no event parameters *)
Example no_file cfg : run_ep query shared ord cfg None = Exit false None [] ∧ run_ep query shared ord cfg (Some None) = Exit false None [].
Proof using. done. Qed.
End once.

(** ** Instances and counterexamples *)
Definition on_cfg : config := ex_cfg true [20].
Definition on_origins : list (origin * world * Z * Z) := [(ex_o1, ex_world, 0, 0); (Org 14 (Some Automatic) None "X" None, ex_world, 1, 1); (ex_o2, ex_world, 1, 2)].
Definition exit_xml (e : exit_) : option (option (list xobj)) := match e with Exit true x _ => Some x | _ => None end.
Example on_run : exit_xml (run_ep true false ord0 on_cfg (Some (Some ([XOrigin 11; XOrigin 14; XOrigin 12], on_origins)))) =
  Some (Some [XOrigin 11; XOrigin 14; XOrigin 12; XOrigin 111; XPick 1; XOrigin 112; XPick 1]).
Proof. vm_compute. reflexivity. Qed.
Example on_usual : usual true false (λ _, true) true 0 (file_items on_origins).
Proof.
  split; [done|cbn; lia| |].
  - right. cbn. rewrite !NoDup_cons, !elem_of_cons, !elem_of_nil. split; [lia|]. split; [lia|]. split; [lia|]. apply NoDup_nil_2.
  - cbn. repeat constructor.
Qed.
Example on_quiet : Forall (λ x, ¬ breaking (forced on_cfg false) x) (file_items on_origins).
Proof. cbn. repeat constructor; cbn; intros (p & _ & _ & [?|?]); done. Qed.
(** Two ids, of which one is not found *)
Example on_ids : exit_xml (run_ids true false ord0 on_cfg true None [(12%N, ex_world, 0, 0); (99%N, ex_world, 0, 0)]) = Some (Some [XOrigin 112; XPick 1]).
Proof. vm_compute. reflexivity. Qed.
(** One origin without evaluation mode, and the relocation of the other one is lost. *)
Theorem C86_lost_refuted : ∃ cfg origins o w id picks, usual true false (λ _, true) true 0 (file_items origins) ∧ (o, w, 0, 0) ∈ origins ∧ gives (forced cfg false) w o id picks ∧
  ∃ ef, run_ep true false ord0 cfg (Some (Some ([], origins))) = ExThrow ef.
Proof.
  exists on_cfg, [(ex_o1, ex_world, 0, 0); (ex_o3, ex_world, 0, 0)], ex_o1, ex_world, 111%N, [1%N]. split.
  { split; [done|cbn; lia| |cbn; repeat constructor]. right. cbn. rewrite !NoDup_cons, !elem_of_cons, !elem_of_nil. split; [lia|]. split; [lia|]. apply NoDup_nil_2. }
  split; [by left|]. split.
  - exists "near"%string. split; [|done]. apply C86_forced. exists 46%Q, 8%Q, 0%nat, ex_near. split; [done|]. split; [done|]. split; [done|]. split; [right; done|]. intros j q Hj. lia.
  - eexists. vm_compute. reflexivity.
Qed.
Print Assumptions C86_forced.
Print Assumptions C86_ep.
Print Assumptions C86_alone.
Print Assumptions C86_ids.
Print Assumptions C86_exception.
Print Assumptions C86_no_query.
Print Assumptions C86_lost_refuted.
