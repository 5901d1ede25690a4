(** The construction of the cross-correlation cache (C72). *)
From Coq Require Import Ascii String Reals QArith Qreals Lra.
From stdpp Require Import numbers list gmap countable strings sets.
From Verif Require Import TimeWindow_Model Trace_Model XcorrWindow_Model WaveCache_Model Csv_Model Catalog_Model Neighbours_Model XCorrCache_Model Solver_Model XcorrBuild_Model.
From Verif Require Import Catalog_Props XCorrCache_Props.
From Verif Require XCorr_Model XCorr_Props.
Local Open Scope R_scope.
Notation tstr := string_of_list_ascii (only parsing).

Lemma dneg_dneg x : dneg (dneg x) = x.
Proof. destruct x; cbn; [|done]. f_equal. lra. Qed.
Lemma tstr_inj s t : tstr s = tstr t → s = t.
Proof. intros H. rewrite <- (list_ascii_of_string_of_list_ascii s), <- (list_ascii_of_string_of_list_ascii t). by rewrite H. Qed.

(** ** Loops *)
Lemma rloop_app {A B} (f : A → B → res A) l l' a : rloop f (l ++ l') a = rbind (rloop f l a) (rloop f l').
Proof. revert a. induction l as [|x l IH]; intros a; cbn [app rloop rbind]; [done|]. destruct (f a x); cbn [rbind]; auto. Qed.
Lemma rloop_bind {A B B'} (f : A → B → res A) (g : A → B' → res A) (h : B → list B') l a a' :
  (∀ x a a', x ∈ l → f a x = Ok a' → rloop g (h x) a = Ok a') → rloop f l a = Ok a' → rloop g (l ≫= h) a = Ok a'.
Proof.
  revert a. induction l as [|x l IH]; intros a H E; cbn [rloop mbind list_bind] in *; [done|].
  rewrite rloop_app. destruct (f a x) as [a1| |] eqn:E1; cbn [rbind] in E; try done.
  rewrite (H x a a1) by (try done; left). cbn [rbind]. apply IH; [|done]. intros y b b' Hy. apply H. by right.
Qed.
Lemma first_in_bind {A B} (h : A → list B) (P : B → Prop) l pre v post :
  l ≫= h = pre ++ v :: post → (∀ u, u ∈ pre → ¬ P u) →
  ∃ l1 x l2 pre' post', l = l1 ++ x :: l2 ∧ h x = pre' ++ v :: post' ∧ (∀ y u, y ∈ l1 → u ∈ h y → ¬ P u) ∧ (∀ u, u ∈ pre' → ¬ P u).
Proof.
  revert pre. induction l as [|x l IH]; intros pre E H; cbn [mbind list_bind] in E; [by destruct pre|].
  destruct (decide (length pre < length (h x))%nat) as [L|L].
  - exists [], x, l, pre. assert (h x !! length pre = Some v) as Hv.
    { rewrite <- (lookup_app_l (h x) (l ≫= h)) by done. rewrite E. by apply list_lookup_middle. }
    exists (drop (S (length pre)) (h x)). split; [done|]. split; [|split; [by intros y u Hy%elem_of_nil|done]].
    assert (take (length pre) (h x) = pre) as T. { rewrite <- (take_app_le (h x) (l ≫= h)) by lia. rewrite E. by rewrite take_app. }
    rewrite <- T at 1. symmetry. by apply take_drop_middle.
  - assert (∃ pre2, pre = h x ++ pre2) as [pre2 ->].
    { exists (drop (length (h x)) pre). rewrite <- (take_drop (length (h x)) pre) at 1. f_equal.
      assert (take (length (h x)) (h x ++ l ≫= h) = h x) as T by by rewrite take_app. rewrite E in T. rewrite take_app_le in T by lia. done. }
    rewrite <- app_assoc in E. apply app_inv_head in E.
    destruct (IH pre2 E) as (l1 & y & l2 & pre' & post' & -> & E2 & H2 & H3).
    { intros u Hu. apply H. apply elem_of_app. by right. }
    exists (x :: l1), y, l2, pre', post'. split; [done|]. split; [done|]. split; [|done].
    intros z u [->|Hz]%elem_of_cons Hu; [apply H; apply elem_of_app; by left|by eapply H2].
Qed.

Section build.
Context {V : Type}.
Notation xcache := (gmap N (gmap string (gmap string (gmap N (@entry dbl dbl))))).
Notation call := (event V * phase V * event V * phase V)%type.
Notation state := (xcache * list call)%type.
Variable opt : xcorr_opt.
Variable c : catalog V.
Variable sta_dist : event V → station V → R.
Variable ev_dist : event V → event V → R.
Variable ids : neigh → list N.
Variable measure : event V → phase V → event V → phase V → res outcome.
Variable precomputed : xcache.
Notation sta_in_range := (sta_in_range opt sta_dist).
Notation ev_in_range := (ev_in_range opt ev_dist).
Notation build_pairs := (build_pairs opt c sta_dist ev_dist ids measure precomputed).
Notation build_cache := (build_cache opt c sta_dist ev_dist ids measure precomputed).
Notation pair_step := (pair_step opt c ev_dist measure precomputed).
Notation phase_step := (phase_step opt c sta_dist ev_dist ids measure precomputed).

(** ** Specification *)
(** The first phase of an event with this station and type *)
Definition first_phase (k : N) (s t : text) (p : phase V) : Prop :=
  ∃ pre post, phs c k = pre ++ p :: post ∧ p_staid p = s ∧ p_type p = t ∧
    (∀ q, q ∈ pre → ¬ (p_staid q = s ∧ p_type q = t)).
(** The pair of events [a] and [b] is to be measured at this station, because of the
    neighbours [n] of [a]. *)
Record selected (n : neigh) (a b : N) (s t : text) (ea : event V) (pa : phase V) (eb : event V) (pb : phase V) : Prop := Sel {
  sel_ref : n_ref n = a;
  sel_ea : c_ev c !! a = Some ea;
  sel_eb : c_ev c !! b = Some eb;
  sel_pa : first_phase a s t pa;
  sel_pb : first_phase b s t pb;
  sel_has : n_has_ph n b s t = true;
  sel_sta : ∃ sta, c_sta c !! s = Some sta ∧ xo_minEvStaDist opt <= sta_dist ea sta ∧
              (xo_maxEvStaDist opt < 0 ∨ sta_dist ea sta <= xo_maxEvStaDist opt);
  sel_dist : xo_maxInterEvDist opt < 0 ∨ ev_dist ea eb <= xo_maxInterEvDist opt }.
Definition selects (n : neigh) (a b : N) (s t : text) : Prop := ∃ ea pa eb pb, selected n a b s t ea pa eb pb.

(** ** Proof *)
Hypothesis Hint : integrity c.
Hypothesis Hids : ∀ n k, k ∈ ids n ↔ k ∈ n_ids n.

Lemma sta_range e s : sta_in_range e s = true ↔
  xo_minEvStaDist opt <= sta_dist e s ∧ (xo_maxEvStaDist opt < 0 ∨ sta_dist e s <= xo_maxEvStaDist opt).
Proof using. unfold XcorrBuild_Model.sta_in_range. repeat destruct Rlt_dec; try destruct Rle_dec; split; intros; try done; try lra; exfalso; lra. Qed.
Lemma ev_range e f : ev_in_range e f = true ↔ xo_maxInterEvDist opt < 0 ∨ ev_dist e f <= xo_maxInterEvDist opt.
Proof using. unfold XcorrBuild_Model.ev_in_range. repeat destruct Rlt_dec; try destruct Rle_dec; split; intros; try done; try lra; exfalso; lra. Qed.
Lemma find_first k s t p : find_phase c k s t = Ok p ↔ first_phase k s t p.
Proof using.
  unfold find_phase, search_phase, first_phase. split.
  - destruct (list_find _ _) as [[i q]|] eqn:E; cbn [fmap option_fmap option_map fst]; [|done].
    apply list_find_Some in E as (Hi & Hq & Hlt). rewrite Hi. intros [= ->].
    exists (take i (phs c k)), (drop (S i) (phs c k)). split; [symmetry; by apply take_drop_middle|]. split; [tauto|]. split; [tauto|].
    intros q (j & Hj)%elem_of_list_lookup. apply lookup_take_Some in Hj as [Hj Hlt']. by eapply Hlt.
  - intros (pre & post & E & Hs & Ht & Hpre).
    assert (list_find (λ q : phase V, p_staid q = s ∧ p_type q = t) (phs c k) = Some (length pre, p)) as ->.
    { apply list_find_Some. rewrite E. split; [by apply list_lookup_middle|]. split; [done|].
      intros j y Hj Hlt. rewrite lookup_app_l in Hj by done. apply Hpre. by eapply elem_of_list_lookup_2. }
    cbn [fmap option_fmap option_map fst]. rewrite E. by rewrite list_lookup_middle.
Qed.
Lemma first_unique k s t p q : first_phase k s t p → first_phase k s t q → p = q.
Proof using. intros H1%find_first H2%find_first. congruence. Qed.
Lemma first_exists k s t q : q ∈ phs c k → p_staid q = s → p_type q = t → ∃ p, first_phase k s t p.
Proof using.
  intros Hq Hs Ht. destruct (list_find (λ q : phase V, p_staid q = s ∧ p_type q = t) (phs c k)) as [[i p]|] eqn:E.
  - exists p. apply find_first. unfold find_phase, search_phase. rewrite E. cbn. apply list_find_Some in E as (-> & _). done.
  - apply list_find_None in E. rewrite Forall_forall in E. exfalso. by apply (E q Hq).
Qed.
Lemma first_codes k s t p : first_phase k s t p → p ∈ phs c k ∧ p_staid p = s ∧ p_type p = t.
Proof using. intros (pre & post & E & Hs & Ht & _). rewrite E. split; [apply elem_of_app; right; left|done]. Qed.
Lemma has_in_ids n k s t : n_has_ph n k s t = true → k ∈ ids n.
Proof using Hids. intros H. apply Hids. unfold n_ids, n_has_ph in *. destruct (n_map n !! k) eqn:E; [|done]. by eapply elem_of_dom_2. Qed.

(** The visits of the loops *)
Definition pair_visits (n : neigh) (ref : event V) (rp : phase V) (k : N) : list call :=
  match c_ev c !! k with
  | Some ev => if ev_in_range ref ev then
                 if n_has_ph n k (p_staid rp) (p_type rp) then
                   match find_phase c (e_id ev) (p_staid rp) (p_type rp) with Ok p => [(ref, rp, ev, p)] | _ => [] end
                 else []
               else []
  | None => []
  end.
Definition phase_visits (n : neigh) (ref : event V) (rp : phase V) : list call :=
  match c_sta c !! p_staid rp with
  | Some s => if sta_in_range ref s then ids n ≫= pair_visits n ref rp else []
  | None => []
  end.
Definition neigh_visits (n : neigh) : list call :=
  match c_ev c !! n_ref n with
  | Some ref => phs c (e_id ref) ≫= phase_visits n ref
  | None => []
  end.
Definition vstep (st : state) (v : call) : res state :=
  let '(ref, rp, ev, p) := v in
  rbind (proc p) (λ i,
  if decide (pr_source i = SrcCatalog) then
    if xc_has dneg st.1 (e_id ref) (e_id ev) (tstr (p_staid rp)) (tstr (p_type rp)) then Ok st
    else match xc_get dneg precomputed (e_id ref) (e_id ev) (tstr (p_staid rp)) (tstr (p_type rp)) with
         | Some e => Ok (xc_add st.1 (e_id ref) (e_id ev) (tstr (p_staid rp)) (tstr (p_type rp)) e, st.2)
         | None => rbind (measure ref rp ev p) (λ o,
                   Ok (xc_add st.1 (e_id ref) (e_id ev) (tstr (p_staid rp)) (tstr (p_type rp)) (outcome_entry o), st.2 ++ [(ref, rp, ev, p)]))
         end
  else Exc).
Lemma pair_step_visits n ref rp k st : (∃ st', pair_step n ref rp st k = Ok st') → pair_step n ref rp st k = rloop vstep (pair_visits n ref rp k) st.
Proof using.
  intros [st' E]. revert E. unfold XcorrBuild_Model.pair_step, pair_visits. destruct (c_ev c !! k) as [ev|]; cbn [at_ rbind]; [|done].
  destruct (ev_in_range ref ev); [|done]. destruct (n_has_ph n k _ _); [|done].
  destruct (find_phase c (e_id ev) _ _) as [p| |]; cbn [rbind]; [|done|done]. cbn [rloop]. unfold vstep.
  destruct (proc p) as [i| |]; cbn [rbind]; [|done|done]. case_decide; [|done].
  destruct (xc_has _ _ _ _ _ _); [done|]. destruct (xc_get _ precomputed _ _ _ _); [done|]. destruct (measure ref rp ev p); done.
Qed.
Lemma build_visits n ref st st' : c_ev c !! n_ref n = Some ref → build_pairs n ref st = Ok st' → rloop vstep (neigh_visits n) st = Ok st'.
Proof using.
  intros Hr. unfold XcorrBuild_Model.build_pairs, neigh_visits. rewrite Hr. apply rloop_bind. intros rp a a' _. unfold XcorrBuild_Model.phase_step, phase_visits.
  destruct (c_sta c !! p_staid rp) as [s|]; cbn [at_ rbind]; [|done]. destruct (sta_in_range ref s); [|done].
  apply rloop_bind. intros k b b' _ Hp. rewrite <- pair_step_visits; [done|by eexists].
Qed.
Lemma cache_visits cluster st : xo_enable opt = true → build_cache cluster = Ok st → rloop vstep (cluster ≫= neigh_visits) (∅, []) = Ok st.
Proof using.
  intros Hen. unfold XcorrBuild_Model.build_cache. rewrite Hen. apply rloop_bind. intros n a a' _.
  destruct (c_ev c !! n_ref n) as [ref|] eqn:E; cbn [at_ rbind]; [|done]. by apply build_visits.
Qed.

(** A visit is for these events, station and phase type *)
Definition fits (v : call) (a b : N) (s t : text) : Prop :=
  e_id v.1.1.1 = a ∧ e_id v.1.2 = b ∧ p_staid v.1.1.2 = s ∧ p_type v.1.1.2 = t.
Definition touches (a b : N) (s t : text) (v : call) : Prop := fits v a b s t ∨ fits v b a s t.
Lemma visits_phase_in n ref rp v : v ∈ phase_visits n ref rp ↔
  ∃ s k ev p, c_sta c !! p_staid rp = Some s ∧ sta_in_range ref s = true ∧ k ∈ ids n ∧ c_ev c !! k = Some ev ∧ ev_in_range ref ev = true ∧
    n_has_ph n k (p_staid rp) (p_type rp) = true ∧ first_phase k (p_staid rp) (p_type rp) p ∧ v = (ref, rp, ev, p).
Proof using Hint.
  unfold phase_visits. split.
  - destruct (c_sta c !! p_staid rp) as [s|]; [|by intros ?%elem_of_nil]. destruct (sta_in_range ref s) eqn:Es; [|by intros ?%elem_of_nil].
    intros (k & Hv & Hk)%elem_of_list_bind. unfold pair_visits in Hv. destruct (c_ev c !! k) as [ev|] eqn:Ek; [|by apply elem_of_nil in Hv].
    destruct (ev_in_range ref ev) eqn:Er; [|by apply elem_of_nil in Hv]. destruct (n_has_ph n k _ _) eqn:Eh; [|by apply elem_of_nil in Hv].
    rewrite (in_ev _ Hint _ _ Ek) in Hv. destruct (find_phase c k _ _) as [p| |] eqn:Ef; try by apply elem_of_nil in Hv.
    apply elem_of_list_singleton in Hv as ->. exists s, k, ev, p. rewrite <- find_first. done.
  - intros (s & k & ev & p & -> & -> & Hk & Ek & Er & Eh & Hp & ->). apply elem_of_list_bind. exists k. split; [|done].
    unfold pair_visits. rewrite Ek, Er, Eh, (in_ev _ Hint _ _ Ek). apply find_first in Hp as ->. by left.
Qed.
Lemma visits_selected n v a b s t : v ∈ neigh_visits n → fits v a b s t → selects n a b s t.
Proof using Hint.
  unfold neigh_visits. destruct (c_ev c !! n_ref n) as [ref|] eqn:Er; [|by intros ?%elem_of_nil]. pose proof (in_ev _ Hint _ _ Er) as Eid.
  intros (rp & (st & k & ev & p & Es & Hs & Hk & Ek & Hr & Hh & Hp & ->)%visits_phase_in & Hrp)%elem_of_list_bind (<- & <- & <- & <-). cbn [fst snd].
  pose proof (in_ev _ Hint _ _ Ek) as Ekid. destruct (first_exists (e_id ref) (p_staid rp) (p_type rp) rp Hrp) as [pa Hpa]; [done|done|].
  exists ref, pa, ev, p. split; try done; try congruence.
  - exists st. split; [done|]. by apply sta_range.
  - by apply ev_range.
Qed.
Lemma selected_visit n a b s t : selects n a b s t → ∃ v, v ∈ neigh_visits n ∧ fits v a b s t.
Proof using Hint Hids.
  intros (ea & pa & eb & pb & [Hr Hea Heb Hpa Hpb Hh (sta & Hst & Hr1) Hr2]). subst a. exists (ea, pa, eb, pb). split.
  - unfold neigh_visits. rewrite Hea. apply elem_of_list_bind. exists pa. destruct (first_codes _ _ _ _ Hpa) as (Hin & Hs & Ht).
    split; [|by rewrite (in_ev _ Hint _ _ Hea)]. apply visits_phase_in. rewrite Hs, Ht. exists sta, b, eb, pb.
    split; [done|]. split; [by apply sta_range|]. split; [by eapply has_in_ids|]. split; [done|]. split; [by apply ev_range|]. done.
  - unfold fits. cbn [fst snd]. rewrite (in_ev _ Hint _ _ Hea), (in_ev _ Hint _ _ Heb). destruct (first_codes _ _ _ _ Hpa) as (Hin & Hs & Ht). done.
Qed.

(** Where an entry comes from *)
Definition origin (calls : list call) (v : call) (e : @entry dbl dbl) : Prop :=
  let '(ref, rp, ev, p) := v in
  let old := xc_get dneg precomputed (e_id ref) (e_id ev) (tstr (p_staid rp)) (tstr (p_type rp)) in
  old = Some e ∨ old = None ∧ v ∈ calls ∧ ∃ o, measure ref rp ev p = Ok o ∧ e = outcome_entry o.
Record inv (vs : list call) (st : state) : Prop := Inv {
  i_get : ∀ a b s t e, a ≠ b → xc_get dneg st.1 a b (tstr s) (tstr t) = Some e →
    ∃ pre v post, vs = pre ++ v :: post ∧ (∀ u, u ∈ pre → ¬ touches a b s t u) ∧
      (fits v a b s t ∧ origin st.2 v e ∨ fits v b a s t ∧ ∃ e', origin st.2 v e' ∧ e = flip dneg e');
  i_none : ∀ a b s t, a ≠ b → xc_get dneg st.1 a b (tstr s) (tstr t) = None → ∀ u, u ∈ vs → ¬ touches a b s t u;
  i_calls : ∀ v, v ∈ st.2 → v ∈ vs ∧ e_id v.1.1.1 ≠ e_id v.1.2 ∧
    xc_get dneg precomputed (e_id v.1.1.1) (e_id v.1.2) (tstr (p_staid v.1.1.2)) (tstr (p_type v.1.1.2)) = None ∧
    is_Some (xc_get dneg st.1 (e_id v.1.1.1) (e_id v.1.2) (tstr (p_staid v.1.1.2)) (tstr (p_type v.1.1.2)));
  i_once : ∀ i j v w, st.2 !! i = Some v → st.2 !! j = Some w →
    touches (e_id v.1.1.1) (e_id v.1.2) (p_staid v.1.1.2) (p_type v.1.1.2) w → i = j }.

Lemma origin_mono calls calls' v e : calls ⊆ calls' → origin calls v e → origin calls' v e.
Proof using. destruct v as [[[ref rp] ev] p]. cbn. intros Hs [H|(H & Hv & H')]; [by left|]. right. split; [done|]. split; [by apply Hs|done]. Qed.
Lemma get_swap (m : xcache) a b s t : is_Some (xc_get dneg m a b s t) ↔ is_Some (xc_get dneg m b a s t).
Proof using. unfold xc_get. destruct (at4 m a s t b), (at4 m b s t a); split; intros [? He]; cbn in *; try done; eauto. Qed.
Lemma get_add_some (m : xcache) a b s t e a' b' s' t' : a' ≠ b' →
  xc_get dneg (xc_add m a b s t e) a' b' s' t' =
  if decide (s' = s ∧ t' = t ∧ a = a' ∧ b = b') then Some e
  else if decide (s' = s ∧ t' = t ∧ a = b' ∧ b = a') then Some (flip dneg e) else xc_get dneg m a' b' s' t'.
Proof using. apply get_add. Qed.

(** A new entry *)
Lemma inv_add vs m calls ref rp ev p e new :
  inv vs (m, calls) → e_id ref ≠ e_id ev →
  xc_get dneg m (e_id ref) (e_id ev) (tstr (p_staid rp)) (tstr (p_type rp)) = None →
  (new = [] ∨ new = [(ref, rp, ev, p)] ∧ xc_get dneg precomputed (e_id ref) (e_id ev) (tstr (p_staid rp)) (tstr (p_type rp)) = None) →
  origin (calls ++ new) (ref, rp, ev, p) e →
  inv (vs ++ [(ref, rp, ev, p)]) (xc_add m (e_id ref) (e_id ev) (tstr (p_staid rp)) (tstr (p_type rp)) e, calls ++ new).
Proof using Hids sta_dist ev_dist.
  intros [Ig In Ic Io] Hne Hnone Hnew Hor. cbn [fst snd] in *. set (v := (ref, rp, ev, p)) in *.
  assert (∀ a b s t, touches a b s t v ↔ (tstr s = tstr (p_staid rp) ∧ tstr t = tstr (p_type rp) ∧ e_id ref = a ∧ e_id ev = b) ∨ (tstr s = tstr (p_staid rp) ∧ tstr t = tstr (p_type rp) ∧ e_id ref = b ∧ e_id ev = a)) as Ht.
  { intros a b s t. unfold touches, fits. cbn [fst snd v]. split.
    - intros [(-> & -> & -> & ->)|(-> & -> & -> & ->)]; tauto.
    - intros [(E1%tstr_inj & E2%tstr_inj & -> & ->)|(E1%tstr_inj & E2%tstr_inj & -> & ->)]; subst; tauto. }
  split; cbn [fst snd].
  - intros a b s t x Hab. rewrite get_add_some by done. intros Hx.
    case_decide as D1; [|case_decide as D2].
    + injection Hx as <-. destruct D1 as (E1%tstr_inj & E2%tstr_inj & <- & <-). subst s t. exists vs, v, []. split; [done|]. split; [|left; done].
      intros u Hu. by apply In.
    + injection Hx as <-. destruct D2 as (E1%tstr_inj & E2%tstr_inj & <- & <-). subst s t. exists vs, v, []. split; [done|]. split.
      * intros u Hu Hto. eapply (In (e_id ref) (e_id ev)); [done|done|exact Hu|]. unfold touches in *. tauto.
      * right. split; [done|]. eauto.
    + destruct (Ig a b s t x Hab Hx) as (pre & w & post & -> & Hpre & Hw). exists pre, w, (post ++ [v]). split; [by rewrite <- app_assoc|]. split; [done|].
      destruct Hw as [[Hf Ho]|[Hf (e' & Ho & ->)]]; [left|right]; (split; [done|]); [|exists e'; split; [|done]];
        (eapply origin_mono; [|exact Ho]); intros ? ?; apply elem_of_app; by left.
  - intros a b s t Hab. rewrite get_add_some by done. case_decide as D1; [done|]. case_decide as D2; [done|]. intros Hx u [Hu|Hu]%elem_of_app; [by eapply In|].
    apply elem_of_list_singleton in Hu as ->. rewrite Ht. tauto.
  - intros w [Hw|Hw]%elem_of_app.
    + destruct (Ic w Hw) as (Hin & Hd & Hp & Hs). split; [apply elem_of_app; by left|]. split; [done|]. split; [done|].
      rewrite get_add_some by done. repeat case_decide; eauto.
    + destruct Hnew as [->|[-> Hpre]]; [by apply elem_of_nil in Hw|]. apply elem_of_list_singleton in Hw as ->. split; [apply elem_of_app; right; by left|]. split; [done|]. split; [done|].
      cbn [fst snd v]. rewrite get_add_some by done. rewrite decide_True by done. eauto.
  - (* the new call is for a pair that had no entry *)
    assert (∀ w, w ∈ calls → ¬ touches (e_id w.1.1.1) (e_id w.1.2) (p_staid w.1.1.2) (p_type w.1.1.2) v) as Hold.
    { intros w Hw. destruct (Ic w Hw) as (_ & _ & _ & [x Hs]). rewrite Ht. intros [(E1 & E2 & E3 & E4)|(E1 & E2 & E3 & E4)].
      - rewrite E1, E2, <- E3, <- E4, Hnone in Hs. done.
      - assert (is_Some (xc_get dneg m (e_id ref) (e_id ev) (tstr (p_staid rp)) (tstr (p_type rp)))) as [y Hy]; [|by rewrite Hnone in Hy].
        rewrite get_swap. rewrite E1, E2, <- E3, <- E4 in Hs. eauto. }
    assert (∀ w, w ∈ calls → ¬ touches (e_id ref) (e_id ev) (p_staid rp) (p_type rp) w) as Hold'.
    { intros w Hw Hto. apply (Hold w Hw). unfold touches, fits in *. cbn [fst snd v]. naive_solver. }
    intros i j w1 w2 H1 H2 Hto. apply lookup_app_Some in H1, H2.
    assert (∀ l w, new !! l = Some w → l = 0%nat ∧ w = v) as Hnew1.
    { intros l w Hl. destruct Hnew as [->|[-> _]]; [done|]. destruct l as [|l]; cbn in Hl; [by injection Hl|done]. }
    destruct H1 as [H1|[L1 H1]], H2 as [H2|[L2 H2]].
    + by eapply Io.
    + destruct (Hnew1 _ _ H2) as [_ ->]. exfalso. eapply Hold; [by eapply elem_of_list_lookup_2|done].
    + destruct (Hnew1 _ _ H1) as [_ ->]. exfalso. eapply Hold'; [by eapply elem_of_list_lookup_2|done].
    + destruct (Hnew1 _ _ H1) as [? _], (Hnew1 _ _ H2) as [? _]. lia.
Qed.

Definition proper (v : call) : Prop := e_id v.1.1.1 ≠ e_id v.1.2.
Lemma inv_step vs st v st' : inv vs st → proper v → vstep st v = Ok st' → inv (vs ++ [v]) st'.
Proof using Hids sta_dist ev_dist.
  destruct st as [m calls], v as [[[ref rp] ev] p]. unfold proper, vstep. cbn [fst snd]. intros Hinv Hne.
  destruct (proc p) as [i| |]; cbn [rbind]; [|done|done]. case_decide; [|done].
  unfold xc_has. case_bool_decide as Hs.
  - intros [= <-]. destruct Hinv as [Ig In Ic Io]. cbn [fst snd] in *. split; cbn [fst snd].
    + intros a b s t e Hab He. destruct (Ig a b s t e Hab He) as (pre & w & post & -> & Hpre & Hw). exists pre, w, (post ++ [(ref, rp, ev, p)]). by rewrite <- app_assoc.
    + intros a b s t Hab Hn u [Hu|Hu]%elem_of_app; [by eapply In|]. apply elem_of_list_singleton in Hu as ->.
      unfold touches, fits. cbn [fst snd]. intros [(<- & <- & <- & <-)|(<- & <- & <- & <-)].
      * rewrite Hn in Hs. by destruct Hs.
      * apply get_swap in Hs. rewrite Hn in Hs. by destruct Hs.
    + intros w Hw. destruct (Ic w Hw) as (Hin & H'). split; [apply elem_of_app; by left|done].
    + done.
  - apply eq_None_not_Some in Hs. destruct (xc_get dneg precomputed _ _ _ _) as [e|] eqn:Ep.
    + intros [= <-]. rewrite <- (app_nil_r calls). apply inv_add; [done|done|done|by left|]. cbn. by left.
    + destruct (measure ref rp ev p) as [o| |] eqn:Em; cbn [rbind]; [|done|done]. intros [= <-]. apply inv_add; [done|done|done|right; done|].
      cbn. right. split; [done|]. split; [apply elem_of_app; right; by left|]. eauto.
Qed.
Lemma inv_run vs st : Forall proper vs → rloop vstep vs (∅, []) = Ok st → inv vs st.
Proof using Hids sta_dist ev_dist.
  revert st. induction vs as [|v vs IH] using rev_ind; intros st Hp E.
  - injection E as <-. split; cbn [fst snd].
    + intros a b s t e _ H. unfold xc_get, at4 in H. rewrite !lookup_empty in H. done.
    + by intros a b s t _ _ u Hu%elem_of_nil.
    + by intros v Hv%elem_of_nil.
    + done.
  - rewrite rloop_app in E. apply Forall_app in Hp as [Hp1 Hp2]. destruct (rloop vstep vs (∅, [])) as [st1| |] eqn:E1; cbn [rbind] in E; try done.
    cbn [rloop] in E. destruct (vstep st1 v) as [st2| |] eqn:E2; cbn [rbind rloop] in E; try done. injection E as <-.
    apply (inv_step vs st1); [by apply IH| |done]. by inversion Hp2.
Qed.

(** ** Theorems about the cache *)
Definition no_self (cluster : list neigh) : Prop := ∀ n s t, n ∈ cluster → n_has_ph n (n_ref n) s t = false.
Lemma visits_proper cluster : no_self cluster → Forall proper (cluster ≫= neigh_visits).
Proof using Hint.
  intros Hself. apply Forall_forall. intros v (n & Hv & Hn)%elem_of_list_bind Heq. unfold proper in *.
  destruct (visits_selected n v (e_id v.1.1.1) (e_id v.1.2) (p_staid v.1.1.2) (p_type v.1.1.2)) as (ea & pa & eb & pb & Hsel); [done|done|].
  pose proof (sel_has _ _ _ _ _ _ _ _ _ Hsel) as Hh. rewrite <- Heq, <- (sel_ref _ _ _ _ _ _ _ _ _ Hsel), Hself in Hh by done. done.
Qed.
Lemma first_touch cluster pre v post a b s t :
  cluster ≫= neigh_visits = pre ++ v :: post → (∀ u, u ∈ pre → ¬ touches a b s t u) → fits v a b s t →
  ∃ l1 n l2, cluster = l1 ++ n :: l2 ∧ (∀ n', n' ∈ l1 → ¬ selects n' a b s t ∧ ¬ selects n' b a s t) ∧
    selected n a b s t v.1.1.1 v.1.1.2 v.1.2 v.2.
Proof using Hint Hids.
  intros E Hpre Hf. destruct (first_in_bind _ (touches a b s t) _ _ _ _ E Hpre) as (l1 & n & l2 & pre' & post' & -> & En & H1 & Hpre').
  exists l1, n, l2. split; [done|]. split.
  { intros n' Hn'. split; intros Hs; destruct (selected_visit _ _ _ _ _ Hs) as (u & Hu & Hfu); eapply (H1 n' u); try done; [by left|by right]. }
  unfold neigh_visits in En. destruct (c_ev c !! n_ref n) as [ref|] eqn:Er; [|by destruct pre']. pose proof (in_ev _ Hint _ _ Er) as Eid.
  destruct (first_in_bind _ (touches a b s t) _ _ _ _ En Hpre') as (q1 & rp & q2 & pre2 & post2 & Eq & Erp & Hq1 & _).
  assert (v ∈ phase_visits n ref rp) as Hv by (rewrite Erp; apply elem_of_app; right; left).
  apply visits_phase_in in Hv as (sta & k & ev & p & Es & Hs & Hk & Ek & Hr & Hh & Hp & ->). destruct Hf as (<- & <- & <- & <-). cbn [fst snd] in *.
  pose proof (in_ev _ Hint _ _ Ek) as Ekid. rewrite Ekid. split; try done; try congruence.
  - exists q1, q2. split; [done|]. split; [done|]. split; [done|]. intros q Hq [E1 E2].
    eapply (Hq1 q (ref, q, ev, p)); [done| |].
    + apply visits_phase_in. rewrite E1, E2. exists sta, k, ev, p. done.
    + left. unfold fits. cbn [fst snd]. done.
  - exists sta. split; [done|]. by apply sta_range.
  - by apply ev_range.
Qed.

(** C72: after a successful construction there is an entry exactly for the selected pairs; it
    is the precomputed one if there is any, and otherwise the result of one measurement, made
    for the first of the neighbour lists that selects the pair. *)
Theorem C72_cache cluster m calls os a b s t :
  xo_enable opt = true → no_self cluster → precomputed = xc_run os → build_cache cluster = Ok (m, calls) → a ≠ b →
  let got := xc_get dneg m a b (tstr s) (tstr t) in
  let old := xc_get dneg precomputed a b (tstr s) (tstr t) in
  (is_Some got ↔ ∃ n, n ∈ cluster ∧ (selects n a b s t ∨ selects n b a s t)) ∧
  (∀ e, got = Some e → is_Some old → old = Some e) ∧
  (∀ e, got = Some e → old = None →
     ∃ l1 n l2 ea pa eb pb o, cluster = l1 ++ n :: l2 ∧ (∀ n', n' ∈ l1 → ¬ selects n' a b s t ∧ ¬ selects n' b a s t) ∧
       (selected n a b s t ea pa eb pb ∧ (ea, pa, eb, pb) ∈ calls ∧ measure ea pa eb pb = Ok o ∧ e = outcome_entry o ∨
        selected n b a s t eb pb ea pa ∧ (eb, pb, ea, pa) ∈ calls ∧ measure eb pb ea pa = Ok o ∧ e = flip dneg (outcome_entry o))).
Proof using Hint Hids.
  intros Hen Hself Hpre E Hab got old. pose proof (inv_run _ _ (visits_proper cluster Hself) (cache_visits _ _ Hen E)) as [Ig In Ic Io]. cbn [fst snd] in *.
  assert (∀ e, got = Some e → (∃ n, n ∈ cluster ∧ (selects n a b s t ∨ selects n b a s t)) ∧ (is_Some old → old = Some e) ∧
    (old = None → ∃ l1 n l2 ea pa eb pb o, cluster = l1 ++ n :: l2 ∧ (∀ n', n' ∈ l1 → ¬ selects n' a b s t ∧ ¬ selects n' b a s t) ∧
       (selected n a b s t ea pa eb pb ∧ (ea, pa, eb, pb) ∈ calls ∧ measure ea pa eb pb = Ok o ∧ e = outcome_entry o ∨
        selected n b a s t eb pb ea pa ∧ (eb, pb, ea, pa) ∈ calls ∧ measure eb pb ea pa = Ok o ∧ e = flip dneg (outcome_entry o)))) as Main.
  { intros e He. destruct (Ig a b s t e Hab He) as (pre & v & post & Ev & Hpr & [[Hf Ho]|[Hf (e' & Ho & ->)]]).
    - destruct (first_touch _ _ _ _ _ _ _ _ Ev Hpr Hf) as (l1 & n & l2 & -> & Hl1 & Hsel). destruct v as [[[ref rp] ev] p]. cbn [fst snd] in *.
      destruct Hf as (<- & <- & <- & <-). cbn [fst snd] in *. split; [exists n; split; [apply elem_of_app; right; left|left; do 4 eexists; exact Hsel]|].
      destruct Ho as [Ho|(Ho & Hc & o & Hm & ->)]; fold old in Ho.
      + split; [done|]. by rewrite Ho.
      + split; [rewrite Ho; by intros [??]|]. intros _. exists l1, n, l2, ref, rp, ev, p, o. split; [done|]. split; [done|]. by left.
    - assert (∀ u, u ∈ pre → ¬ touches b a s t u) as Hpr' by (intros u Hu Hto; apply (Hpr u Hu); unfold touches in *; tauto).
      destruct (first_touch _ _ _ _ _ _ _ _ Ev Hpr' Hf) as (l1 & n & l2 & -> & Hl1 & Hsel). destruct v as [[[ref rp] ev] p]. cbn [fst snd] in *.
      destruct Hf as (<- & <- & <- & <-). cbn [fst snd] in *. split; [exists n; split; [apply elem_of_app; right; left|right; do 4 eexists; exact Hsel]|].
      assert (old = flip dneg <$> xc_get dneg precomputed (e_id ref) (e_id ev) (tstr (p_staid rp)) (tstr (p_type rp))) as Eold.
      { unfold old. rewrite Hpre. apply (C05_xcorrcache_antisymmetric dneg os). apply dneg_dneg. }
      destruct Ho as [Ho|(Ho & Hc & o & Hm & ->)].
      + rewrite Ho in Eold. cbn in Eold. split; [by rewrite Eold|]. by rewrite Eold.
      + rewrite Ho in Eold. cbn in Eold. split; [rewrite Eold; by intros [??]|]. intros _. exists l1, n, l2, ev, p, ref, rp, o. split; [done|]. split.
        { intros n' Hn'. destruct (Hl1 n' Hn'). tauto. } by right. }
  split; [split|].
  - intros [e He]. by destruct (Main e He).
  - intros (n & Hn & Hs). destruct got as [e|] eqn:Eg; [eauto|]. exfalso.
    destruct Hs as [Hs|Hs]; destruct (selected_visit _ _ _ _ _ Hs) as (u & Hu & Hfu); eapply (In a b s t Hab Eg u);
      try (apply elem_of_list_bind; by exists n); [by left|by right].
  - split; intros e He; destruct (Main e He) as (_ & H1 & H2); done.
Qed.
(** C72: every pair is measured at most once at a station and phase type, whatever the order of
    its events, and never if it was precomputed. *)
Theorem C72_once cluster m calls :
  xo_enable opt = true → no_self cluster → build_cache cluster = Ok (m, calls) →
  (∀ i j ea pa eb pb ea' pa' eb' pb', calls !! i = Some (ea, pa, eb, pb) → calls !! j = Some (ea', pa', eb', pb') →
     p_staid pa = p_staid pa' → p_type pa = p_type pa' →
     (e_id ea = e_id ea' ∧ e_id eb = e_id eb' ∨ e_id ea = e_id eb' ∧ e_id eb = e_id ea') → i = j) ∧
  (∀ ea pa eb pb, (ea, pa, eb, pb) ∈ calls →
     xc_get dneg precomputed (e_id ea) (e_id eb) (tstr (p_staid pa)) (tstr (p_type pa)) = None ∧
     ∃ n, n ∈ cluster ∧ selects n (e_id ea) (e_id eb) (p_staid pa) (p_type pa)).
Proof using Hint Hids.
  intros Hen Hself E. pose proof (inv_run _ _ (visits_proper cluster Hself) (cache_visits _ _ Hen E)) as [Ig In Ic Io]. cbn [fst snd] in *. split.
  - intros i j ea pa eb pb ea' pa' eb' pb' Hi Hj Hs Ht Hev. eapply Io; [exact Hi|exact Hj|]. unfold touches, fits. cbn [fst snd]. naive_solver.
  - intros ea pa eb pb Hc. destruct (Ic _ Hc) as (Hv & _ & Hp & _). cbn [fst snd] in *. split; [done|].
    apply elem_of_list_bind in Hv as (n & Hv & Hn). exists n. split; [done|]. by eapply visits_selected.
Qed.

(** C72: the construction succeeds if the cluster refers to events of the catalog, the
    neighbours have the phases they are listed with, these come from the catalog, and the
    measurements succeed. *)
Theorem C72_total cluster :
  (∀ n, n ∈ cluster → is_Some (c_ev c !! n_ref n) ∧ ∀ k, k ∈ n_ids n → is_Some (c_ev c !! k)) →
  (∀ n k rp, n ∈ cluster → rp ∈ phs c (n_ref n) → n_has_ph n k (p_staid rp) (p_type rp) = true →
     ∃ p i, first_phase k (p_staid rp) (p_type rp) p ∧ p_proc p = Some i ∧ pr_source i = SrcCatalog) →
  (∀ n k ea rp eb p, n ∈ cluster → c_ev c !! n_ref n = Some ea → c_ev c !! k = Some eb → rp ∈ phs c (n_ref n) → n_has_ph n k (p_staid rp) (p_type rp) = true →
     first_phase k (p_staid rp) (p_type rp) p → ∃ o, measure ea rp eb p = Ok o) →
  ∃ st, build_cache cluster = Ok st.
Proof using Hint Hids.
  intros Hev Hph Hme. unfold XcorrBuild_Model.build_cache. destruct (xo_enable opt); [|eauto].
  assert (∀ {B} (f : state → B → res state) l, (∀ x st, x ∈ l → ∃ st', f st x = Ok st') → ∀ st, ∃ st', rloop f l st = Ok st') as Loop.
  { intros B f l. induction l as [|x l IH]; intros H st; cbn [rloop]; [eauto|]. destruct (H x st) as [st1 ->]; [left|]. cbn [rbind]. apply IH. intros y st2 Hy. apply H. by right. }
  apply Loop. intros n st Hn. destruct (Hev n Hn) as [[ref Hr] Hk]. rewrite Hr. cbn [at_ rbind]. unfold XcorrBuild_Model.build_pairs.
  pose proof (in_ev _ Hint _ _ Hr) as Eid. apply Loop. intros rp st1 Hrp. rewrite Eid in Hrp. unfold XcorrBuild_Model.phase_step.
  destruct (in_ph _ Hint _ _ Hrp) as (_ & _ & [s ->]). cbn [at_ rbind]. destruct (sta_in_range ref s); [|eauto].
  apply Loop. intros k st2 Hki. apply Hids in Hki. destruct (Hk k Hki) as [ev Ek]. unfold XcorrBuild_Model.pair_step. rewrite Ek. cbn [at_ rbind].
  destruct (ev_in_range ref ev); [|eauto]. destruct (n_has_ph n k _ _) eqn:Eh; [|eauto].
  destruct (Hph n k rp Hn Hrp Eh) as (p & i & Hp & Hi & Hsrc). rewrite (in_ev _ Hint _ _ Ek). pose proof (proj2 (find_first _ _ _ _) Hp) as ->. cbn [rbind].
  unfold proc. rewrite Hi. cbn [rbind]. rewrite decide_True by done. destruct (xc_has _ _ _ _ _ _); [eauto|]. destruct (xc_get _ precomputed _ _ _ _); [eauto|].
  destruct (Hme n k ref rp ev p Hn Hr Ek Hrp Eh Hp) as [o ->]. cbn [rbind]. eauto.
Qed.
End build.

(** ** The waveforms of an event that is not in the catalog are requested beforehand *)
Section preload.
Context {V I : Type}.
Notation xcache := (gmap N (gmap string (gmap string (gmap N (@entry dbl dbl))))).
Notation wave := (@trace I R).
Notation loader := (tw → phase V → event V → station V → transform → option wave).
Variable opt : xcorr_opt.
Variable bg c : catalog V.
Variable sta_dist : event V → station V → R.
Variable ev_dist : event V → event V → R.
Variable ids : neigh → list N.
Variable precomputed : xcache.
Notation preload := (preload opt bg c sta_dist ev_dist ids).
Notation build_pairs := (build_pairs opt c sta_dist ev_dist ids).

Lemma rloop_ext {A B} (f g : A → B → res A) l a : (∀ x a, x ∈ l → f a x = g a x) → rloop f l a = rloop g l a.
Proof. revert a. induction l as [|x l IH]; intros a H; cbn [rloop]; [done|]. rewrite H by left. destruct (g a x); cbn [rbind]; [|done|done]. apply IH. intros y b Hy. apply H. by right. Qed.
Lemma rloop_grows {B C} (f : list C → B → res (list C)) l (a a' : list C) :
  (∀ x b b', x ∈ l → f b x = Ok b' → b ⊆ b') → rloop f l a = Ok a' → a ⊆ a'.
Proof.
  revert a. induction l as [|x l IH]; intros a H E; cbn [rloop] in E; [by injection E as ->|]. destruct (f a x) as [b| |] eqn:E1; cbn [rbind] in E; try done.
  transitivity b; [by apply (H x); [left|]|]. apply IH; [|done]. intros y b' b'' Hy. apply H. by right.
Qed.
Lemma rloop_adds {B C} (f : list C → B → res (list C)) l (a a' : list C) (P : list C → B → Prop) :
  (∀ x b b', x ∈ l → f b x = Ok b' → b ⊆ b' ∧ P b' x) → (∀ x b b', b ⊆ b' → P b x → P b' x) →
  rloop f l a = Ok a' → ∀ x, x ∈ l → P a' x.
Proof.
  intros H Hm. revert a. induction l as [|y l IH]; intros a E x Hx; [by apply elem_of_nil in Hx|]. cbn [rloop] in E.
  destruct (f a y) as [b| |] eqn:E1; cbn [rbind] in E; try done. destruct (H y a b) as [_ Hp]; [left|done|].
  apply elem_of_cons in Hx as [->|Hx].
  - eapply Hm; [|exact Hp]. eapply rloop_grows; [|exact E]. intros z b1 b2 Hz Hf. apply (H z b1 b2); [by right|done].
  - apply (IH (λ z b1 b2 Hz, H z b1 b2 (elem_of_list_further _ _ _ Hz)) b E x Hx).
Qed.

(** Everything the loops of the construction ask for about the reference event *)
Definition wanted (reqs : list (tw * event V * phase V * text)) (ref : event V) (rp : phase V) : Prop :=
  ∃ w comps, long_window opt ref rp = Ok w ∧ components opt rp = Ok comps ∧ ∀ x, x ∈ comps → (w, ref, rp, x) ∈ reqs.
Lemma preload_pair_ok n ref rp comps b b' k :
  preload_pair opt bg c ev_dist n ref rp comps b k = Ok b' → b ⊆ b' ∧
  (∀ ev, c_ev c !! k = Some ev → ev_in_range opt ev_dist ref ev = true → n_has_ph n k (p_staid rp) (p_type rp) = true →
     ∃ w, long_window opt ref rp = Ok w ∧ ∀ x, x ∈ comps → (w, ref, rp, x) ∈ b').
Proof.
  unfold preload_pair. destruct (c_ev c !! k) as [ev|] eqn:Ek; cbn [at_ rbind]; [|done].
  destruct (ev_in_range opt ev_dist ref ev) eqn:Er; [|intros [= ->]; split; [done|]; intros ev' [= <-]; congruence].
  destruct (n_has_ph n k _ _) eqn:Eh; [|intros [= ->]; split; done].
  destruct (long_window opt ref rp) as [w| |] eqn:Ew; cbn [rbind]; [|done|done]. intros E.
  assert (∀ x b1 b2, x ∈ comps → rbind (at_ (c_sta bg !! p_staid rp)) (λ _, Ok (b1 ++ [(w, ref, rp, x)])) = Ok b2 → b1 ⊆ b2 ∧ (w, ref, rp, x) ∈ b2) as H1.
  { intros x b1 b2 _. destruct (c_sta bg !! p_staid rp); cbn [at_ rbind]; [|done]. intros [= <-]. split; [intros y Hy; apply elem_of_app; by left|apply elem_of_app; right; by left]. }
  split.
  - eapply rloop_grows; [|exact E]. intros x b1 b2 Hx Hf. by apply (H1 x b1 b2).
  - intros _ _ _ _. exists w. split; [done|]. eapply (rloop_adds _ _ _ _ (λ b2 x, (w, ref, rp, x) ∈ b2)); [exact H1| |exact E]. intros x b1 b2 Hs. apply Hs.
Qed.
Lemma preload_ok n ref reqs rp s k ev : preload n ref = Ok reqs → rp ∈ phs c (e_id ref) →
  c_sta c !! p_staid rp = Some s → sta_in_range opt sta_dist ref s = true → k ∈ ids n → c_ev c !! k = Some ev → ev_in_range opt ev_dist ref ev = true →
  n_has_ph n k (p_staid rp) (p_type rp) = true → wanted reqs ref rp.
Proof.
  intros E Hrp Hs Hr Hk Hev Her Hh. unfold XcorrBuild_Model.preload in E. revert Hs Hr Hh.
  refine (rloop_adds _ _ _ _ (λ b rp, c_sta c !! p_staid rp = Some s → sta_in_range opt sta_dist ref s = true → n_has_ph n k (p_staid rp) (p_type rp) = true → wanted b ref rp) _ _ E rp Hrp).
  - clear rp Hrp. intros rp b b' _. unfold preload_phase. destruct (c_sta c !! p_staid rp) as [s'|]; cbn [at_ rbind]; [|done].
    destruct (components opt rp) as [comps| |] eqn:Ec; cbn [rbind]; [|done|done]. destruct (sta_in_range opt sta_dist ref s') eqn:Es'.
    + intros El. split.
      * eapply rloop_grows; [|exact El]. intros y b1 b2 _ Hy. by apply (preload_pair_ok n ref rp comps b1 b2 y).
      * intros [= ->] _ Hh. assert (∀ ev, c_ev c !! k = Some ev → ev_in_range opt ev_dist ref ev = true → n_has_ph n k (p_staid rp) (p_type rp) = true →
           ∃ w, long_window opt ref rp = Ok w ∧ ∀ x, x ∈ comps → (w, ref, rp, x) ∈ b') as El'.
        { refine (rloop_adds _ _ _ _ (λ b k, ∀ ev, c_ev c !! k = Some ev → ev_in_range opt ev_dist ref ev = true → n_has_ph n k (p_staid rp) (p_type rp) = true →
           ∃ w, long_window opt ref rp = Ok w ∧ ∀ x, x ∈ comps → (w, ref, rp, x) ∈ b) _ _ El k Hk).
        -- intros y b1 b2 _. apply preload_pair_ok.
        -- intros y b1 b2 Hsub H1 ev' H2 H3 H4. destruct (H1 ev' H2 H3 H4) as (w & Hw & Hin). exists w. split; [done|]. intros x Hx. by apply Hsub, Hin. }
        destruct (El' ev Hev Her Hh) as (w & Hw & Hin). exists w, comps. done.
    + intros [= ->]. split; [done|]. intros [= ->]. congruence.
  - intros x b b' Hsub H1 H2 H3 H4. destruct (H1 H2 H3 H4) as (w & comps & Hw & Hc & Hin). exists w, comps. split; [done|]. split; [done|]. intros y Hy. by apply Hsub, Hin.
Qed.

(** C72: the construction gives the same result with any two waveform sources for the reference
    event that give the same answers to the requests made beforehand. *)
Theorem C72_preload n ref reqs (ld ld' ldc : loader) st :
  preload n ref = Ok reqs →
  (∀ w e p x s p' tr, (w, e, p, x) ∈ reqs → c_sta bg !! p_staid p = Some s → request p x = Some (p', tr) → ld w p' e s tr = ld' w p' e s tr) →
  build_pairs (xcorr_phases opt bg ld ldc) precomputed n ref st = build_pairs (xcorr_phases opt bg ld' ldc) precomputed n ref st.
Proof.
  intros Hpre Hld. unfold XcorrBuild_Model.build_pairs. apply rloop_ext. intros rp st1 Hrp. unfold phase_step.
  destruct (c_sta c !! p_staid rp) as [s|] eqn:Es; cbn [at_ rbind]; [|done]. destruct (sta_in_range opt sta_dist ref s) eqn:Er; [|done].
  apply rloop_ext. intros k st2 Hk. unfold pair_step. destruct (c_ev c !! k) as [ev|] eqn:Ek; cbn [at_ rbind]; [|done].
  destruct (ev_in_range opt ev_dist ref ev) eqn:Eer; [|done]. destruct (n_has_ph n k (p_staid rp) (p_type rp)) eqn:Eh; [|done].
  destruct (find_phase c (e_id ev) _ _) as [p| |]; cbn [rbind]; [|done|done]. destruct (proc p) as [i| |]; cbn [rbind]; [|done|done]. case_decide; [|done].
  destruct (xc_has _ _ _ _ _ _); [done|]. destruct (xc_get _ precomputed _ _ _ _); [done|].
  destruct (preload_ok n ref reqs rp s k ev Hpre Hrp Es Er Hk Ek Eer Eh) as (w & comps & Ew & Ec & Hin).
  assert (xcorr_phases opt bg ld ldc ref rp ev p = xcorr_phases opt bg ld' ldc ref rp ev p) as ->; [|done].
  unfold xcorr_phases. case_decide; [|done]. case_decide; [|done]. rewrite Ec. cbn [rbind].
  generalize (false, Indet, Indet). clear Ec. induction comps as [|x comps IH]; intros o; cbn [try_components]; [done|].
  assert (one_component opt bg ld ldc ref rp ev p x = one_component opt bg ld' ldc ref rp ev p x) as ->.
  { unfold one_component. rewrite Ew. cbn [rbind]. assert (get_waveform bg ld w ref rp x = get_waveform bg ld' w ref rp x) as ->; [|done].
    unfold get_waveform. destruct (c_sta bg !! p_staid rp) as [s'|] eqn:Ebg; cbn [at_ rbind]; [|done].
    destruct (request rp x) as [[p' tr]|] eqn:Eq; [|done]. f_equal. eapply Hld; [apply Hin; left|done|done]. }
  destruct (one_component opt bg ld' ldc ref rp ev p x) as [o'| |]; cbn [rbind]; [|done|done]. destruct (o'.1.1); [done|].
  apply IH. intros y Hy. apply Hin. by right.
Qed.
End preload.
