(** The order in which pairs of events are visited, and entries that were never assigned (C72). *)
From Coq Require Import Ascii String Reals QArith Qreals Lra.
From stdpp Require Import numbers list gmap countable strings sets.
From Verif Require Import TimeWindow_Model Trace_Model XcorrWindow_Model WaveCache_Model Csv_Model Catalog_Model Neighbours_Model XCorrCache_Model Solver_Model XcorrBuild_Model.
From Verif Require Import Catalog_Props XCorrCache_Props XcorrBuild_Props XcorrMeasure_Props XcorrRecover_Props.
From Verif Require XCorr_Model.
Local Open Scope R_scope.

Lemma first_phase_unique {V} (c : catalog V) k s t p q : first_phase c k s t p → first_phase c k s t q → p = q.
Proof. intros H1%find_first H2%find_first. congruence. Qed.

(** C72: the contents of the cache do not depend on the order of the neighbours, nor on that of
    the events, nor on which event of a pair is the reference, if exchanging the events of a
    pair gives the opposite lag (which C72_exchange shows). *)
Theorem C72_order {V} opt (c : catalog V) sta_dist ev_dist ids ids' measure os cluster cluster' m m' calls calls' :
  integrity c → (∀ n k, k ∈ ids n ↔ k ∈ n_ids n) → (∀ n k, k ∈ ids' n ↔ k ∈ n_ids n) →
  xo_enable opt = true → no_self cluster → (∀ n, n ∈ cluster ↔ n ∈ cluster') →
  (∀ n n' a b s t ea pa eb pb o, n ∈ cluster → n' ∈ cluster → selected opt c sta_dist ev_dist n a b s t ea pa eb pb → selected opt c sta_dist ev_dist n' b a s t eb pb ea pa →
     measure ea pa eb pb = Ok o → measure eb pb ea pa = Ok (o.1, dneg o.2)) →
  build_cache opt c sta_dist ev_dist ids measure (xc_run os) cluster = Ok (m, calls) →
  build_cache opt c sta_dist ev_dist ids' measure (xc_run os) cluster' = Ok (m', calls') →
  ∀ a b s t, a ≠ b → xc_get dneg m a b (tstr s) (tstr t) = xc_get dneg m' a b (tstr s) (tstr t).
Proof.
  intros Hint Hids Hids' Hen Hself Hcl Hex E E' a b s t Hab.
  assert (no_self cluster') as Hself' by (intros n s0 t0 Hn; apply Hself; by apply Hcl).
  destruct (C72_cache opt c sta_dist ev_dist ids measure _ Hint Hids _ _ _ os a b s t Hen Hself eq_refl E Hab) as (G1 & G2 & G3).
  destruct (C72_cache opt c sta_dist ev_dist ids' measure _ Hint Hids' _ _ _ os a b s t Hen Hself' eq_refl E' Hab) as (G1' & G2' & G3'). cbn zeta in *.
  assert (is_Some (xc_get dneg m a b (tstr s) (tstr t)) ↔ is_Some (xc_get dneg m' a b (tstr s) (tstr t))) as Hiff.
  { rewrite G1, G1'. split; intros (n & Hn & H); exists n; (split; [by apply Hcl|done]). }
  destruct (xc_get dneg m a b (tstr s) (tstr t)) as [e|] eqn:Eg; destruct (xc_get dneg m' a b (tstr s) (tstr t)) as [e'|] eqn:Eg'.
  2: { destruct Hiff as [H _]. destruct (H ltac:(eauto)); done. }
  2: { destruct Hiff as [_ H]. destruct (H ltac:(eauto)); done. }
  2: done.
  destruct (xc_get dneg (xc_run os) a b (tstr s) (tstr t)) as [eo|] eqn:Eo.
  { pose proof (G2 e eq_refl ltac:(eauto)). pose proof (G2' e' eq_refl ltac:(eauto)). congruence. }
  destruct (G3 e eq_refl eq_refl) as (l1 & n & l2 & ea & pa & eb & pb & o & -> & _ & H).
  destruct (G3' e' eq_refl eq_refl) as (l1' & n' & l2' & ea' & pa' & eb' & pb' & o' & Ecl & _ & H').
  assert (n ∈ l1 ++ n :: l2) as Hn by (apply elem_of_app; right; left).
  assert (n' ∈ l1 ++ n :: l2) as Hn' by (apply Hcl; rewrite Ecl; apply elem_of_app; right; left).
  assert (∀ n n' ea pa eb pb ea' pa' eb' pb', selected opt c sta_dist ev_dist n a b s t ea pa eb pb → selected opt c sta_dist ev_dist n' a b s t ea' pa' eb' pb' → ea = ea' ∧ pa = pa' ∧ eb = eb' ∧ pb = pb') as Same.
  { intros ? ? ? ? ? ? ? ? ? ? [_ A1 B1 P1 Q1 _ _ _] [_ A2 B2 P2 Q2 _ _ _]. split; [congruence|]. split; [by eapply first_phase_unique|]. split; [congruence|by eapply first_phase_unique]. }
  assert (∀ n n' ea pa eb pb ea' pa' eb' pb', selected opt c sta_dist ev_dist n a b s t ea pa eb pb → selected opt c sta_dist ev_dist n' b a s t eb' pb' ea' pa' → ea = ea' ∧ pa = pa' ∧ eb = eb' ∧ pb = pb') as Opp.
  { intros ? ? ? ? ? ? ? ? ? ? [_ A1 B1 P1 Q1 _ _ _] [_ A2 B2 P2 Q2 _ _ _]. split; [congruence|]. split; [by eapply first_phase_unique|]. split; [congruence|by eapply first_phase_unique]. }
  assert (∀ n n' ea pa eb pb ea' pa' eb' pb', selected opt c sta_dist ev_dist n b a s t eb pb ea pa → selected opt c sta_dist ev_dist n' b a s t eb' pb' ea' pa' → ea = ea' ∧ pa = pa' ∧ eb = eb' ∧ pb = pb') as Same'.
  { intros ? ? ? ? ? ? ? ? ? ? [_ A1 B1 P1 Q1 _ _ _] [_ A2 B2 P2 Q2 _ _ _]. split; [congruence|]. split; [by eapply first_phase_unique|]. split; [congruence|by eapply first_phase_unique]. }
  assert (∀ v x y, flip dneg (outcome_entry (v, x, dneg y)) = outcome_entry (v, x, y)) as Fl by (intros v x y; unfold flip; cbn; by rewrite dneg_dneg).
  f_equal. destruct H as [(Hs & _ & Hm & ->)|(Hs & _ & Hm & ->)], H' as [(Hs' & _ & Hm' & ->)|(Hs' & _ & Hm' & ->)].
  - destruct (Same _ _ _ _ _ _ _ _ _ _ Hs Hs') as (<- & <- & <- & <-). congruence.
  - destruct (Opp _ _ _ _ _ _ _ _ _ _ Hs Hs') as (<- & <- & <- & <-). pose proof (Hex _ _ _ _ _ _ _ _ _ _ _ Hn Hn' Hs Hs' Hm) as Hm2.
    rewrite Hm' in Hm2. injection Hm2 as ->. destruct o as [[v x] y]. cbn [fst snd]. by rewrite Fl.
  - destruct (Opp _ _ _ _ _ _ _ _ _ _ Hs' Hs) as (<- & <- & <- & <-). pose proof (Hex _ _ _ _ _ _ _ _ _ _ _ Hn' Hn Hs' Hs Hm') as Hm2.
    rewrite Hm in Hm2. injection Hm2 as ->. destruct o' as [[v x] y]. cbn [fst snd]. by rewrite Fl.
  - destruct (Same' _ _ _ _ _ _ _ _ _ _ Hs Hs') as (<- & <- & <- & <-). congruence.
Qed.

(** ** Two events with a phase each at one station *)
Module Pair.
Local Open Scope Z_scope.
Definition code (s : string) : text := list_ascii_of_string s.
Definition opt : xcorr_opt := XcorrOpt true 0%R (-1)%R (-1)%R (λ _, Some (PhaseOpt (XcorrCfg (-(1#2)) 1 (1#2) (1#25)) [[]])).
Definition sta : station Z := Sta (code "CH.A.") 0 0 0 (code "CH") (code "A") [].
Definition ev (k : N) : event Z := Ev k 0 0 0 0 0 None.
Definition pick (k : N) (cha : string) : phase Z :=
  Pha k (code "CH.A.") 5000000 0 0 (code "P") (code "CH") (code "A") [] (code cha) (Some (Proc TP 0 SrcCatalog)) None.
Definition cat (cha1 cha2 : string) : catalog Z :=
  Cat {[code "CH.A." := sta]} {[1%N := ev 1; 2%N := ev 2]} {[1%N := [pick 1 cha1]; 2%N := [pick 2 cha2]]}.
Definition near : neigh := Neigh 1 {[2%N := {[code "P" := {[code "CH.A."]}]}]}.
Definition near' : neigh := Neigh 2 {[1%N := {[code "P" := {[code "CH.A."]}]}]}.
Definition ids (n : neigh) : list N := elements (n_ids n).

Lemma phs_in cha1 cha2 k p : p ∈ phs (cat cha1 cha2) k → k = 1%N ∧ p = pick 1 cha1 ∨ k = 2%N ∧ p = pick 2 cha2.
Proof.
  unfold phs, cat. cbn [c_ph]. destruct (decide (k = 1%N)) as [-> |H1]; [rewrite lookup_insert; cbn; intros ->%elem_of_list_singleton; by left|].
  rewrite lookup_insert_ne by done. destruct (decide (k = 2%N)) as [-> |H2]; [rewrite lookup_singleton; cbn; intros ->%elem_of_list_singleton; by right|].
  rewrite lookup_singleton_ne by done. cbn. by intros ?%elem_of_nil.
Qed.
Lemma ok cha1 cha2 : integrity (cat cha1 cha2).
Proof.
  split.
  - intros k e. unfold cat. cbn [c_ev]. intros [[<- <-]|[_ [<- <-]%lookup_singleton_Some]]%lookup_insert_Some; done.
  - intros k s. unfold cat. cbn [c_sta]. intros [<- <-]%lookup_singleton_Some. done.
  - intros k p [[-> ->]|[-> ->]]%phs_in; (split; [done|]); split; eexists; reflexivity.
Qed.
Lemma ids_ok n k : k ∈ ids n ↔ k ∈ n_ids n.
Proof. unfold ids. apply elem_of_elements. Qed.
Lemma near_has k s t : n_has_ph near k s t = true → k = 2%N ∧ s = code "CH.A." ∧ t = code "P".
Proof.
  unfold n_has_ph, near. cbn [n_map]. destruct (decide (k = 2%N)) as [-> |H]; [|by rewrite lookup_singleton_ne].
  rewrite lookup_singleton. destruct (decide (t = code "P")) as [-> |H]; [|by rewrite lookup_singleton_ne]. rewrite lookup_singleton.
  rewrite bool_decide_eq_true, elem_of_singleton. done.
Qed.
Lemma near'_has k s t : n_has_ph near' k s t = true → k = 1%N ∧ s = code "CH.A." ∧ t = code "P".
Proof.
  unfold n_has_ph, near'. cbn [n_map]. destruct (decide (k = 1%N)) as [-> |H]; [|by rewrite lookup_singleton_ne].
  rewrite lookup_singleton. destruct (decide (t = code "P")) as [-> |H]; [|by rewrite lookup_singleton_ne]. rewrite lookup_singleton.
  rewrite bool_decide_eq_true, elem_of_singleton. done.
Qed.
Lemma self cluster : (∀ n, n ∈ cluster → n = near ∨ n = near') → no_self cluster.
Proof.
  intros H n s t Hn. destruct (n_has_ph n (n_ref n) s t) eqn:E; [|done]. exfalso.
  destruct (H n Hn) as [-> | ->]; [apply near_has in E as [E _]|apply near'_has in E as [E _]]; done.
Qed.
Lemma first1 cha1 cha2 : first_phase (cat cha1 cha2) 1 (code "CH.A.") (code "P") (pick 1 cha1).
Proof. exists [], []. split; [reflexivity|]. split; [done|]. split; [done|]. by intros q ?%elem_of_nil. Qed.
Lemma first2 cha1 cha2 : first_phase (cat cha1 cha2) 2 (code "CH.A.") (code "P") (pick 2 cha2).
Proof. exists [], []. split; [reflexivity|]. split; [done|]. split; [done|]. by intros q ?%elem_of_nil. Qed.
Lemma sel cha1 cha2 : selected opt (cat cha1 cha2) (λ _ _, 1%R) (λ _ _, 1%R) near 1 2 (code "CH.A.") (code "P") (ev 1) (pick 1 cha1) (ev 2) (pick 2 cha2).
Proof.
  split; try done; [apply first1|apply first2|..].
  - exists sta. split; [done|]. cbn. split; [lra|left; lra].
  - left. cbn. lra.
Qed.
Lemma sel' cha1 cha2 : selected opt (cat cha1 cha2) (λ _ _, 1%R) (λ _ _, 1%R) near' 2 1 (code "CH.A.") (code "P") (ev 2) (pick 2 cha2) (ev 1) (pick 1 cha1).
Proof.
  split; try done; [apply first2|apply first1|..].
  - exists sta. split; [done|]. cbn. split; [lra|left; lra].
  - left. cbn. lra.
Qed.
(** The cache can be built, by C72_total, whenever the measurement of the pair succeeds. *)
Lemma built cha1 cha2 measure cluster os : (∀ n, n ∈ cluster → n = near ∨ n = near') →
  (∃ o, measure (ev 1) (pick 1 cha1) (ev 2) (pick 2 cha2) = Ok o) → (∃ o, measure (ev 2) (pick 2 cha2) (ev 1) (pick 1 cha1) = Ok o) →
  ∃ st, build_cache opt (cat cha1 cha2) (λ _ _, 1%R) (λ _ _, 1%R) ids measure (xc_run os) cluster = Ok st.
Proof.
  intros Hcl H1 H2. apply C72_total; [apply ok|apply ids_ok|..].
  - intros n Hn. destruct (Hcl n Hn) as [-> | ->]; (split; [eexists; reflexivity|]); intros k; unfold n_ids, near, near'; cbn [n_map];
      rewrite dom_singleton_L, elem_of_singleton; intros ->; eexists; reflexivity.
  - intros n k rp Hn _ Hh. destruct (Hcl n Hn) as [-> | ->].
    + apply near_has in Hh as (-> & -> & ->). eexists _, _. split; [apply first2|]. done.
    + apply near'_has in Hh as (-> & -> & ->). eexists _, _. split; [apply first1|]. done.
  - intros n k ea rp eb p Hn Ea Eb Hrp Hh Hp. destruct (Hcl n Hn) as [-> | ->].
    + apply near_has in Hh as (-> & Hs & Ht). rewrite Hs, Ht in Hp. rewrite (first_phase_unique _ _ _ _ _ _ Hp (first2 _ _)).
      apply phs_in in Hrp as [[_ ->]|[K _]]; [|done]. change (n_ref near) with 1%N in Ea. unfold cat in Ea, Eb. cbn [c_ev] in Ea, Eb. rewrite lookup_insert in Ea.
      rewrite lookup_insert_ne, lookup_singleton in Eb by done. injection Ea as <-. injection Eb as <-. exact H1.
    + apply near'_has in Hh as (-> & Hs & Ht). rewrite Hs, Ht in Hp. rewrite (first_phase_unique _ _ _ _ _ _ Hp (first1 _ _)).
      apply phs_in in Hrp as [[K _]|[_ ->]]; [done|]. change (n_ref near') with 2%N in Ea. unfold cat in Ea, Eb. cbn [c_ev] in Ea, Eb. rewrite lookup_insert in Eb.
      rewrite lookup_insert_ne, lookup_singleton in Ea by done. injection Ea as <-. injection Eb as <-. exact H2.
Qed.
End Pair.

(** C72: the entry of a pair whose channels have different bands holds values that were never
    assigned. *)
Theorem C72_unset_refuted : ∃ opt (bg c : catalog Z) sta_dist ev_dist ids (ld : tw → phase Z → event Z → station Z → transform → option (@trace unit R)) cluster m calls s t,
  integrity c ∧ bg = c ∧ no_self cluster ∧ good ld ∧
  build_cache opt c sta_dist ev_dist ids (xcorr_phases opt bg ld ld) ∅ cluster = Ok (m, calls) ∧
  xc_get dneg m 1 2 s t = Some (Entry false Indet Indet).
Proof.
  set (c := Pair.cat "HHZ" "EHZ"). set (ld := λ (_ : tw) (_ : phase Z) (_ : event Z) (_ : station Z) (_ : transform), @None (@trace unit R)).
  set (me := xcorr_phases Pair.opt c ld ld).
  assert (me (Pair.ev 1) (Pair.pick 1 "HHZ") (Pair.ev 2) (Pair.pick 2 "EHZ") = Ok (false, Indet, Indet)) as M1
    by (unfold me, xcorr_phases; rewrite decide_True, decide_False by done; done).
  assert (me (Pair.ev 2) (Pair.pick 2 "EHZ") (Pair.ev 1) (Pair.pick 1 "HHZ") = Ok (false, Indet, Indet)) as M2
    by (unfold me, xcorr_phases; rewrite decide_True, decide_False by done; done).
  assert (∀ n, n ∈ [Pair.near] → n = Pair.near ∨ n = Pair.near') as Hcl by (intros n ->%elem_of_list_singleton; by left).
  destruct (Pair.built "HHZ" "EHZ" me [Pair.near] [] Hcl ltac:(eauto) ltac:(eauto)) as [[m calls] E].
  exists Pair.opt, c, c, (λ _ _, 1), (λ _ _, 1), Pair.ids, ld, [Pair.near], m, calls, (tstr (Pair.code "CH.A.")), (tstr (Pair.code "P")).
  split; [apply Pair.ok|]. split; [done|]. split; [by apply Pair.self|]. split; [done|]. split; [exact E|].
  destruct (C72_cache Pair.opt c (λ _ _, 1) (λ _ _, 1) Pair.ids me (xc_run []) (Pair.ok _ _) Pair.ids_ok [Pair.near] m calls [] 1%N 2%N (Pair.code "CH.A.") (Pair.code "P") eq_refl (Pair.self _ Hcl) eq_refl E ltac:(done)) as (G1 & _ & G3).
  cbn zeta in *. destruct G1 as [_ G1]. destruct G1 as [e Ee].
  { exists Pair.near. split; [left|]. left. do 4 eexists. apply Pair.sel. }
  rewrite Ee. destruct (G3 e Ee eq_refl) as (l1 & n & l2 & ea & pa & eb & pb & o & El & _ & [(Hs & _ & Hm & ->)|(Hs & _ & Hm & ->)]).
  - assert (n ∈ [Pair.near]) as ->%elem_of_list_singleton by (rewrite El; apply elem_of_app; right; left).
    destruct Hs as [_ A1 B1 P1 Q1 _ _ _]. destruct (Pair.sel "HHZ" "EHZ") as [_ A2 B2 P2 Q2 _ _ _].
    pose proof (first_phase_unique _ _ _ _ _ _ P1 P2) as ->. pose proof (first_phase_unique _ _ _ _ _ _ Q1 Q2) as ->.
    fold c in A2, B2. rewrite A2 in A1. rewrite B2 in B1. injection A1 as <-. injection B1 as <-. rewrite M1 in Hm. by injection Hm as <-.
  - assert (n ∈ [Pair.near]) as ->%elem_of_list_singleton by (rewrite El; apply elem_of_app; right; left). destruct Hs as [K _ _ _ _ _ _ _]. done.
Qed.

(** The hypotheses of C72_order are met by two clusters that differ in the reference event. *)
Example C72_order_case : ∃ m m' calls calls',
  let me := λ (_ : event Z) (p : phase Z) (_ : event Z) (_ : phase Z), Ok (true, Num 1, Num (if decide (p_ev p = 1%N) then 1/4 else -(1/4))) in
  build_cache Pair.opt (Pair.cat "HHZ" "HHZ") (λ _ _, 1) (λ _ _, 1) Pair.ids me (xc_run []) [Pair.near; Pair.near'] = Ok (m, calls) ∧
  build_cache Pair.opt (Pair.cat "HHZ" "HHZ") (λ _ _, 1) (λ _ _, 1) Pair.ids me (xc_run []) [Pair.near'; Pair.near] = Ok (m', calls') ∧
  ∀ a b s t, a ≠ b → xc_get dneg m a b (tstr s) (tstr t) = xc_get dneg m' a b (tstr s) (tstr t).
Proof.
  set (me := λ (_ : event Z) (p : phase Z) (_ : event Z) (_ : phase Z), Ok (true, Num 1, Num (if decide (p_ev p = 1%N) then 1/4 else -(1/4)))).
  destruct (Pair.built "HHZ" "HHZ" me [Pair.near; Pair.near'] []) as [[m calls] E]; [by intros n [-> |[-> |?%elem_of_nil]%elem_of_cons]%elem_of_cons; auto|by eexists|by eexists|].
  destruct (Pair.built "HHZ" "HHZ" me [Pair.near'; Pair.near] []) as [[m' calls'] E']; [by intros n [-> |[-> |?%elem_of_nil]%elem_of_cons]%elem_of_cons; auto|by eexists|by eexists|].
  exists m, m', calls, calls'. cbn zeta. fold me. split; [done|]. split; [done|].
  eapply (C72_order Pair.opt (Pair.cat "HHZ" "HHZ") (λ _ _, 1) (λ _ _, 1) Pair.ids Pair.ids me []); [apply Pair.ok|apply Pair.ids_ok|apply Pair.ids_ok|done|..|exact E|exact E'].
  - apply Pair.self. by intros n [-> |[-> |?%elem_of_nil]%elem_of_cons]%elem_of_cons; auto.
  - intros n. rewrite !elem_of_cons. tauto.
  - intros n n' a b s t ea pa eb pb o Hn Hn' Hs Hs' Hm. injection Hm as <-. cbn [fst snd]. unfold me. do 3 f_equal.
    assert (∀ k p, first_phase (Pair.cat "HHZ" "HHZ") k s t p → p_ev p = k) as Hev.
    { intros k p (pre & post & Ep & _). assert (p ∈ phs (Pair.cat "HHZ" "HHZ") k) as Hp by (rewrite Ep; apply elem_of_app; right; left). by apply (in_ph _ (Pair.ok _ _)) in Hp as [? _]. }
    rewrite (Hev _ _ (sel_pa _ _ _ _ _ _ _ _ _ _ _ _ _ Hs)), (Hev _ _ (sel_pb _ _ _ _ _ _ _ _ _ _ _ _ _ Hs)).
    rewrite <- (sel_ref _ _ _ _ _ _ _ _ _ _ _ _ _ Hs).
    assert (n = Pair.near ∧ b = 2%N ∨ n = Pair.near' ∧ b = 1%N) as [[-> ->]|[-> ->]].
    { pose proof (sel_has _ _ _ _ _ _ _ _ _ _ _ _ _ Hs) as Hh. apply elem_of_cons in Hn as [-> |[-> |?%elem_of_nil]%elem_of_cons]; [| |done].
      - apply Pair.near_has in Hh as [-> _]. by left.
      - apply Pair.near'_has in Hh as [-> _]. by right. }
    + cbn. f_equal. 
    + rewrite decide_True, decide_False by done. cbn [dneg]. f_equal. lra.
Qed.
(** The hypotheses of C72_preload are met, and a request is made. *)
Example C72_preload_case : ∃ w,
  preload Pair.opt (Pair.cat "HHZ" "HHZ") (Pair.cat "HHZ" "HHZ") (λ _ _, 1) (λ _ _, 1) Pair.ids Pair.near (Pair.ev 1)
  = Ok [(w, Pair.ev 1, Pair.pick 1 "HHZ", Pair.code "Z")].
Proof.
  assert (∀ e s, sta_in_range (V := Z) Pair.opt (λ _ _, 1) e s = true) as Hs by (intros e s; apply sta_range; cbn; split; [lra|left; lra]).
  assert (∀ e f, ev_in_range (V := Z) Pair.opt (λ _ _, 1) e f = true) as He by (intros e f; apply ev_range; left; cbn; lra).
  destruct (long_window Pair.opt (Pair.ev 1) (Pair.pick 1 "HHZ")) as [w| |] eqn:W; [|vm_compute in W; done|vm_compute in W; done].
  exists w. unfold preload. change (phs (Pair.cat "HHZ" "HHZ") (e_id (Pair.ev 1))) with [Pair.pick 1 "HHZ"]. cbn [rloop]. unfold preload_phase at 1.
  change (at_ (c_sta (Pair.cat "HHZ" "HHZ") !! p_staid (Pair.pick 1 "HHZ"))) with (Ok Pair.sta). cbn [rbind].
  change (components Pair.opt (Pair.pick 1 "HHZ")) with (Ok [Pair.code "Z"]). cbn [rbind]. rewrite Hs.
  change (Pair.ids Pair.near) with [2%N]. cbn [rloop]. unfold preload_pair at 1.
  change (at_ (c_ev (Pair.cat "HHZ" "HHZ") !! 2%N)) with (Ok (Pair.ev 2)). cbn [rbind]. rewrite He.
  change (n_has_ph Pair.near 2 (p_staid (Pair.pick 1 "HHZ")) (p_type (Pair.pick 1 "HHZ"))) with true. rewrite W. reflexivity.
Qed.
Print Assumptions C72_cache.
Print Assumptions C72_once.
Print Assumptions C72_total.
Print Assumptions C72_preload.
Print Assumptions C72_measurement.
Print Assumptions C72_exchange.
Print Assumptions C72_order.
Print Assumptions C72_unset_refuted.
