(** C91: what the data source delivers, and the import of origins through it. *)
From Coq Require Import Ascii Lia.
From stdpp Require Import gmap list strings.
From Verif Require Import Solver_Model Index_Model Csv_Model Table_Model Catalog_Model Catalog_Props Import_Model Import_Props DataSource_Model.
Local Open Scope nat_scope.

(** * Specification *)
Definition first_with {A} (P : A → Prop) (l : list A) (x : A) : Prop :=
  ∃ l1 l2, l = l1 ++ x :: l2 ∧ P x ∧ ∀ y, y ∈ l1 → ¬ P y.
Definition none_with {A} (P : A → Prop) (l : list A) : Prop := ∀ y, y ∈ l → ¬ P y.
(** A pointer to what is there, or the null pointer *)
Definition pointer {A} (x : option A) : ptr A := match x with Some a => To a | None => Null end.
Definition listed {A B} (f : A → list B) (x : option A) : list B := match x with Some a => f a | None => [] end.

Section props.
Context {V : Type}.
Notation s_origin := (s_origin V). Notation s_arrival := (s_arrival V). Notation s_magnitude := (s_magnitude V).
Notation object := (object V).
Variables (db : option (database V)) (ca : option (class → text → option object)) (ep : option (eparams V)).
Notation src := (source3 (pointer db) (pointer ca) (pointer ep)).

(** Objects of the event parameters; magnitudes are not looked for there *)
Inductive in_file : class → text → object → Prop :=
| if_pick id k : first_with (λ x, x.1 = id) (listed ep_picks ep) (id, k) → in_file KPick id (OPick id k)
| if_amp id : id ∈ listed ep_amps ep → in_file KAmplitude id (OAmplitude id)
| if_origin id o : first_with (λ x, r_id x = id) (listed ep_origins ep) o → in_file KOrigin id (OOrigin o)
| if_event id e : first_with (λ x, v_id x = id) (listed ep_events ep) e → in_file KEvent id (OEvent e).
(** The event parameters come first, then the cache *)
Definition holds (k : class) (id : text) (o : object) : Prop :=
  in_file k id o ∨ (∀ o', ¬ in_file k id o') ∧ ∃ f, ca = Some f ∧ f k id = Some o.
(** The event an origin belongs to *)
Definition parent (id : text) (e : s_event) : Prop :=
  first_with (λ x, id ∈ v_refs x) (listed ep_events ep) e ∨
  none_with (λ x, id ∈ v_refs x) (listed ep_events ep) ∧ ∃ d, db = Some d ∧ q_event d id = Some e.
(** The arrivals of an origin: those it has, those of the database if it has none *)
Definition arrivals_for (o : s_origin) (l : list s_arrival) : Prop :=
  (r_arr o ≠ [] ∧ l = r_arr o) ∨ (r_arr o = [] ∧ l = match db with Some d => q_arr d (r_id o) | None => [] end).
(** The same origin but for arrivals, magnitudes and station magnitudes *)
Definition same_origin (o o' : s_origin) : Prop :=
  r_id o' = r_id o ∧ r_time o' = r_time o ∧ r_lat o' = r_lat o ∧ r_lon o' = r_lon o ∧ r_depth o' = r_depth o.
(** The value of the preferred magnitude of the event of an origin *)
Definition preferred (id : text) (v : V) : Prop :=
  ∃ e m, parent id e ∧ holds KMagnitude (v_pref e) (OMagnitude m) ∧ m_value m = v.
(** What the import of Import_Model is given for an origin *)
Record describes (r : s_origin) (o : origin V) : Prop := {
  de_time : o_time o = r_time r; de_lat : o_lat o = r_lat r; de_lon : o_lon o = r_lon r; de_depth : o_depth o = r_depth r;
  de_arr : ∃ l, arrivals_for r l ∧
    Forall2 (λ (a : s_arrival) (b : arrival V), a_code b = g_code a ∧ a_weight b = g_weight a ∧ a_used b = g_used a ∧
                     ∀ k, a_pick b = Some k ↔ ∃ i, holds KPick (g_pick a) (OPick i k)) l (o_arr o);
  de_mag : o_arr o ≠ [] → ∀ v, o_mag o = Some v ↔ preferred (r_id r) v }.
(** The origins of the ids that are known, in their order *)
Inductive found_all : list text → list s_origin → Prop :=
| fa_nil : found_all [] []
| fa_found id ids o l : holds KOrigin id (OOrigin o) → found_all ids l → found_all (id :: ids) (o :: l)
| fa_unknown id ids l : (∀ o, ¬ holds KOrigin id (OOrigin o)) → found_all ids l → found_all (id :: ids) l.

(** * Proofs *)
Lemma with_id_first {A} (f : A → text) id l x : with_id f id l = Some x ↔ first_with (λ y, f y = id) l x.
Proof.
  unfold with_id. induction l as [|a l IH]; cbn.
  - split; [done|]. by intros ([|] & ? & ? & _).
  - case_bool_decide as Ha.
    + split.
      * intros [= ->]. exists [], l. split; [done|]. split; [done|]. intros y H. by apply elem_of_nil in H.
      * intros (l1 & l2 & E & Hx & Hn). destruct l1 as [|b l1]; cbn in E; injection E as -> E; [done|].
        destruct (Hn b); [by left|done].
    + rewrite IH. split.
      * intros (l1 & l2 & -> & Hx & Hn). exists (a :: l1), l2. split; [done|]. split; [done|].
        intros y [->|Hy]%elem_of_cons; [done|auto].
      * intros (l1 & l2 & E & Hx & Hn). destruct l1 as [|b l1]; cbn in E; injection E as -> E; [done|].
        exists l1, l2. split; [done|]. split; [done|]. intros y Hy. apply Hn. by right.
Qed.
Lemma with_id_none {A} (f : A → text) id l : with_id f id l = None ↔ none_with (λ y, f y = id) l.
Proof.
  unfold with_id, none_with. induction l as [|a l IH]; cbn.
  - split; [|done]. intros _ y H. by apply elem_of_nil in H.
  - case_bool_decide as Ha.
    + split; [done|]. intros H. destruct (H a); [by left|done].
    + rewrite IH. split; [intros H y [->|Hy]%elem_of_cons; auto|intros H y Hy; apply H; by right].
Qed.
Lemma first_with_fun {A} (P : A → Prop) l x y : first_with P l x → first_with P l y → x = y.
Proof.
  intros (l1 & l2 & -> & Hx & Hn). revert Hn. induction l1 as [|a l1 IH]; intros Hn (k1 & k2 & E & Hy & Hm); destruct k1 as [|b k1]; cbn in E; injection E as E1 E2.
  - done.
  - subst b. destruct (Hm x); [by left|done].
  - subst a. destruct (Hn y); [by left|done].
  - apply IH; [intros z Hz; apply Hn; by right|]. exists k1, k2. split; [done|]. split; [done|]. intros z Hz. apply Hm. by right.
Qed.
Lemma in_ep_file (e : eparams V) k id o : ep = Some e → in_ep e k id = Some o ↔ in_file k id o.
Proof using.
  intros He. split.
  - destruct k; cbn; intros H.
    + apply fmap_Some in H as ([i k] & H & ->). apply with_id_first in H. pose proof H as (l1 & l2 & _ & E & _). cbn in E. subst i.
      constructor. by rewrite He.
    + apply fmap_Some in H as (i & H & ->). apply with_id_first in H as (l1 & l2 & E & -> & _).
      constructor. rewrite He. cbn. rewrite E. apply elem_of_app. right. by left.
    + apply fmap_Some in H as (x & H & ->). apply with_id_first in H. constructor. by rewrite He.
    + apply fmap_Some in H as (x & H & ->). apply with_id_first in H. constructor. by rewrite He.
    + done.
  - intros H. destruct H as [i k H|i H|i x H|i x H]; rewrite He in H; cbn in *.
    + apply with_id_first in H. by rewrite H.
    + destruct (with_id (λ x : text, x) i (ep_amps e)) as [j|] eqn:E.
      * apply with_id_first in E as (? & ? & _ & -> & _). done.
      * apply with_id_none in E. by destruct (E i H).
    + apply with_id_first in H. by rewrite H.
    + apply with_id_first in H. by rewrite H.
Qed.
Lemma no_file k id o : ep = None → ¬ in_file k id o.
Proof using.
  intros He H. destruct H as [i k H|i H|i x H|i x H]; rewrite He in H; cbn in H.
  - destruct H as (l1 & l2 & E & _). by destruct l1.
  - by apply elem_of_nil in H.
  - destruct H as (l1 & l2 & E & _). by destruct l1.
  - destruct H as (l1 & l2 & E & _). by destruct l1.
Qed.
Lemma in_file_fun k id o o' : in_file k id o → in_file k id o' → o = o'.
Proof using.
  destruct ep as [e|] eqn:E.
  - intros H1 H2. apply (in_ep_file e) in H1; [|done]. apply (in_ep_file e) in H2; [|done]. congruence.
  - intros H. by apply no_file in H.
Qed.
Lemma in_file_dec k id : (∃ o, in_file k id o) ∨ ∀ o, ¬ in_file k id o.
Proof using.
  destruct ep as [e|] eqn:E.
  - destruct (in_ep e k id) as [o|] eqn:Eo.
    + left. exists o. by apply (in_ep_file e).
    + right. intros o H. apply (in_ep_file e) in H; [|done]. congruence.
  - right. intros o. by apply no_file.
Qed.

(** C91: an object is the first with its id in the event parameters, else what the cache delivers. *)
Theorem C91_object k id : ∃ r, get_object src k id = Ok r ∧ ∀ o, r = Some o ↔ holds k id o.
Proof using.
  unfold get_object, holds. cbn.
  assert (∀ f r, (match ep with Some e => in_ep e k id | None => None end) = r →
     ca = f → ∀ o, match f, r with Some f, None => f k id | _, _ => r end = Some o ↔
     in_file k id o ∨ (∀ o', ¬ in_file k id o') ∧ ∃ g, ca = Some g ∧ g k id = Some o) as H.
  { intros f r Hr Hf o. destruct r as [x|].
    - destruct ep as [e|] eqn:He; [|done]. apply (in_ep_file e) in Hr; [|done].
      assert (match f with Some _ | _ => Some x end = Some x) as -> by by destruct f. split.
      + intros [= <-]. by left.
      + intros [H|[H _]]; [|by destruct (H x)]. f_equal. by apply (in_file_fun k id).
    - assert (∀ o', ¬ in_file k id o') as Hn.
      { intros o' H. destruct ep as [e|] eqn:He; [|by apply no_file in H]. apply (in_ep_file e) in H; [|done]. congruence. }
      rewrite Hf. destruct f as [g|]; split.
      + intros H. right. eauto.
      + intros [H|(_ & g' & [= <-] & H)]; [by destruct (Hn o)|done].
      + done.
      + intros [H|(_ & g' & ? & _)]; [by destruct (Hn o)|done]. }
  specialize (H ca _ eq_refl eq_refl).
  assert (value (pointer ep) = Ok ep) as -> by by destruct ep. cbn.
  assert (value (pointer ca) = Ok ca) as -> by by destruct ca. cbn.
  destruct ca as [f|].
  - destruct (match ep with Some e => in_ep e k id | None => None end) as [x|] eqn:Ex; eexists; (split; [reflexivity|]); exact H.
  - eexists. split; [reflexivity|]. intros o. exact (H o).
Qed.
Lemma holds_fun k id o o' : holds k id o → holds k id o' → o = o'.
Proof using db. destruct (C91_object k id) as (r & _ & H). intros H1%H H2%H. congruence. Qed.

Theorem C91_get id :
  (∃ r, get_pick src id = Ok r ∧ ∀ k, r = Some k ↔ ∃ i, holds KPick id (OPick i k)) ∧
  (∃ r, get_origin src id = Ok r ∧ ∀ o, r = Some o ↔ holds KOrigin id (OOrigin o)) ∧
  (∃ r, get_magnitude src id = Ok r ∧ ∀ m, r = Some m ↔ holds KMagnitude id (OMagnitude m)).
Proof using.
  unfold get_pick, get_origin, get_magnitude. split; [|split].
  - destruct (C91_object KPick id) as (r & -> & H). cbn. eexists. split; [reflexivity|]. intros k.
    destruct r as [[i k'| | | |]|]; cbn.
    + split; [intros [= ->]; exists i; by apply H|intros (j & Hj%H); congruence].
    + split; [done|]. intros (j & Hj%H). done.
    + split; [done|]. intros (j & Hj%H). done.
    + split; [done|]. intros (j & Hj%H). done.
    + split; [done|]. intros (j & Hj%H). done.
    + split; [done|]. intros (j & Hj%H). done.
  - destruct (C91_object KOrigin id) as (r & -> & H). cbn. eexists. split; [reflexivity|]. intros o. rewrite <- H.
    destruct r as [[]|]; cbn; split; congruence.
  - destruct (C91_object KMagnitude id) as (r & -> & H). cbn. eexists. split; [reflexivity|]. intros o. rewrite <- H.
    destruct r as [[]|]; cbn; split; congruence.
Qed.

Lemma refers_spec id l : refers id l = true ↔ id ∈ l.
Proof.
  induction l as [|r l IH]; cbn.
  - split; [done|]. intros H. by apply elem_of_nil in H.
  - rewrite elem_of_cons. case_decide as E; [subst; naive_solver|]. rewrite IH. naive_solver.
Qed.
Lemma parent_in_spec id l :
  (∀ e, parent_in id l = Some e ↔ first_with (λ x, id ∈ v_refs x) l e) ∧ (parent_in id l = None ↔ none_with (λ x, id ∈ v_refs x) l).
Proof.
  induction l as [|a l [IH1 IH2]]; cbn.
  - split; [|split; [|done]].
    + intros e. split; [done|]. by intros ([|] & ? & ? & _).
    + intros _ y H. by apply elem_of_nil in H.
  - destruct (refers id (v_refs a)) eqn:Ea.
    + apply refers_spec in Ea. split.
      * intros e. split.
        -- intros [= ->]. exists [], l. split; [done|]. split; [done|]. intros y H. by apply elem_of_nil in H.
        -- intros (l1 & l2 & E & Hx & Hn). destruct l1 as [|b l1]; cbn in E; injection E as -> E; [done|]. destruct (Hn b); [by left|done].
      * split; [done|]. intros H. destruct (H a); [by left|done].
    + assert (id ∉ v_refs a) as Ha by (intros H%refers_spec; congruence). split.
      * intros e. rewrite IH1. split.
        -- intros (l1 & l2 & -> & Hx & Hn). exists (a :: l1), l2. split; [done|]. split; [done|]. intros y [->|Hy]%elem_of_cons; auto.
        -- intros (l1 & l2 & E & Hx & Hn). destruct l1 as [|b l1]; cbn in E; injection E as -> E; [done|].
           exists l1, l2. split; [done|]. split; [done|]. intros y Hy. apply Hn. by right.
      * rewrite IH2. split; [intros H y [->|Hy]%elem_of_cons; [done|by apply H]|intros H y Hy; apply H; by right].
Qed.
(** C91: the event of an origin is the first of the event parameters that refers to it, else the
    one of the database. *)
Theorem C91_parent id : ∃ r, get_parent_event src id = Ok r ∧ ∀ e, r = Some e ↔ parent id e.
Proof using.
  unfold get_parent_event, parent. cbn.
  assert (value (pointer ep) = Ok ep) as -> by by destruct ep. cbn.
  assert (value (pointer db) = Ok db) as -> by by destruct db. cbn.
  assert (match ep with Some e => parent_in id (ep_events e) | None => None end = parent_in id (listed ep_events ep)) as -> by by destruct ep.
  destruct (parent_in_spec id (listed ep_events ep)) as [H1 H2].
  destruct (parent_in id (listed ep_events ep)) as [x|] eqn:E.
  - exists (Some x). split; [by destruct db|]. intros e. rewrite H1. split; [by left|]. intros [H|[H _]]; [done|].
    apply H2 in H. done.
  - destruct db as [d|]; (eexists; split; [reflexivity|]); intros e.
    + split; [intros H; right; split; [by apply H2|eauto]|]. intros [H%H1|(_ & d' & [= <-] & H)]; done.
    + split; [done|]. intros [H%H1|(_ & d' & [=] & _)]; done.
Qed.

(** C91: arrivals are asked for only if the origin has none; those it has are kept; nothing else of
    the origin changes. *)
Theorem C91_arrivals o : ∃ o' calls, load_arrivals src o = Ok (o', calls) ∧
  same_origin o o' ∧ r_mags o' = r_mags o ∧ r_stamags o' = r_stamags o ∧ arrivals_for o (r_arr o') ∧
  calls = match db, r_arr o with Some _, [] => [QArrivals (r_id o)] | _, _ => [] end ∧
  (r_arr o' ≠ [] → load_arrivals src o' = Ok (o', [])).
Proof using.
  unfold load_arrivals, same_origin, arrivals_for. cbn.
  assert (value (pointer db) = Ok db) as -> by by destruct db. cbn.
  destruct db as [d|].
  - destruct (r_arr o) as [|a l] eqn:Ea.
    + eexists _, _. split; [reflexivity|]. cbn. split; [done|]. split; [done|]. split; [done|]. split; [by right|].
      split; [done|]. intros H. by destruct (q_arr d (r_id o)).
    + exists o, []. rewrite Ea. split; [done|]. split; [done|]. split; [done|]. split; [done|]. split; [by left|].
      split; done.
  - exists o, []. split; [done|]. split; [done|]. split; [done|]. split; [done|]. split.
    + destruct (r_arr o) eqn:Ea; [by right|by left].
    + split; done.
Qed.

(** Contributions of a magnitude *)
Definition contributions_for (m m' : s_magnitude) : Prop :=
  m_id m' = m_id m ∧ m_value m' = m_value m ∧
  m_contribs m' = match m_contribs m with [] => match db with Some d => q_contribs d (m_id m) | None => [] end | l => l end.
Lemma load_contributions_spec d l : db = Some d → Forall2 contributions_for l (load_contributions d l).1 ∧
  (load_contributions d l).2 = (QContributions ∘ m_id) <$> filter (λ m, m_contribs m = []) l.
Proof using.
  intros Hd. induction l as [|m l [IH1 IH2]]; [split; [constructor|done]|]. cbn [load_contributions].
  destruct (m_contribs m) as [|x r] eqn:E; cbn [fst snd].
  - rewrite filter_cons_True by done. rewrite IH2. split; [|done]. constructor; [|done].
    split; [done|]. split; [done|]. rewrite E, Hd. done.
  - rewrite filter_cons_False by (rewrite E; done). split; [|done]. constructor; [|done]. split; [done|]. split; [done|]. by rewrite E.
Qed.
(** C91: magnitudes, contributions and station magnitudes are asked for only if there are none, and
    only if wanted. *)
Theorem C91_magnitudes o con sta : ∃ o' calls, load_magnitudes src o con sta = Ok (o', calls) ∧
  same_origin o o' ∧ r_arr o' = r_arr o ∧
  (∃ mags, mags = match r_mags o with [] => match db with Some d => q_mags d (r_id o) | None => [] end | l => l end ∧
     (if con then Forall2 contributions_for mags (r_mags o') else r_mags o' = mags) ∧
     (db = None → calls = []) ∧
     (db ≠ None → calls =
        (if bool_decide (r_mags o = []) then [QMagnitudes (r_id o)] else []) ++
        (if con then (QContributions ∘ m_id) <$> filter (λ m, m_contribs m = []) mags else []) ++
        (if sta && bool_decide (r_stamags o = []) then [QStationMagnitudes (r_id o)] else []))) ∧
  r_stamags o' = match r_stamags o with [] => match db with Some d => if sta then q_stamags d (r_id o) else [] | None => [] end | l => l end.
Proof using.
  unfold load_magnitudes, same_origin. cbn.
  assert (value (pointer db) = Ok db) as -> by by destruct db. cbn.
  destruct db as [d|] eqn:Hd.
  2: { exists o, []. split; [done|]. split; [done|]. split; [done|]. split; [|by destruct (r_stamags o)].
       exists (r_mags o). split; [by destruct (r_mags o)|]. split; [|done].
       destruct con; [|done]. unfold contributions_for. rewrite Hd. clear. induction (r_mags o) as [|m l IH]; constructor; [|done].
       split; [done|]. split; [done|]. by destruct (m_contribs m). }
  set (mags := match r_mags o with [] => q_mags d (r_id o) | l => l end).
  assert ((match r_mags o with
           | [] => (set_mags o (r_mags o ++ q_mags d (r_id o)), [QMagnitudes (r_id o)])
           | _ :: _ => (o, [])
           end) = (set_mags o mags, if bool_decide (r_mags o = []) then [QMagnitudes (r_id o)] else [])) as ->.
  { unfold mags. destruct (r_mags o) eqn:E; [by rewrite bool_decide_eq_true_2 by done|]. rewrite bool_decide_eq_false_2 by done.
    f_equal. destruct o. cbn in *. by subst. }
  destruct (load_contributions_spec d mags Hd) as [C1 C2].
  destruct con; cbn.
  - destruct sta; cbn.
    + destruct (r_stamags o) as [|x r] eqn:Es; cbn; eexists _, _; (split; [reflexivity|]); cbn; (split; [done|]); (split; [done|]).
      * split; [|done]. exists mags. split; [done|]. split; [done|]. split; [done|]. intros _. rewrite C2.
        reflexivity.
      * split; [|done]. exists mags. split; [done|]. split; [done|]. split; [done|]. intros _. rewrite C2.
        reflexivity.
    + eexists _, _. split; [reflexivity|]. cbn. split; [done|]. split; [done|]. split; [|by destruct (r_stamags o)].
      exists mags. split; [done|]. split; [done|]. split; [done|]. intros _. by rewrite C2.
  - destruct sta; cbn.
    + destruct (r_stamags o) as [|x r] eqn:Es; cbn; eexists _, _; (split; [reflexivity|]); cbn; (split; [done|]); (split; [done|]).
      * split; [|done]. exists mags. split; [done|]. split; [done|]. split; [done|]. intros _.
        reflexivity.
      * split; [|done]. exists mags. split; [done|]. split; [done|]. split; [done|]. intros _.
        reflexivity.
    + eexists _, _. split; [reflexivity|]. cbn. split; [done|]. split; [done|]. split; [|by destruct (r_stamags o)].
      exists mags. split; [done|]. split; [done|]. split; [done|]. done.
Qed.

(** ** The import *)
Variable ins : list (phase V) → phase V → list (phase V).
Variable zero : V → bool.
Variable nan : V.
Variable inv : text → text → text → Z → located V.
Notation arr_ok := (λ (a : s_arrival) (b : arrival V), a_code b = g_code a ∧ a_weight b = g_weight a ∧ a_used b = g_used a ∧
                     ∀ k, a_pick b = Some k ↔ ∃ i, holds KPick (g_pick a) (OPick i k)).
Lemma fetch_arrivals l : ∃ l', Forall2 arr_ok l l' ∧ ∀ id c, add_arrivals ins zero nan inv src id c l = import_arrivals ins zero nan inv id c l'.
Proof using.
  induction l as [|a l (l' & IH1 & IH2)].
  - exists []. split; [constructor|done].
  - destruct (C91_get (g_pick a)) as [(r & E & Hr) _].
    exists (Arr (g_code a) r (g_weight a) (g_used a) :: l'). split; [constructor; [done|done]|].
    intros id c. cbn [add_arrivals import_arrivals]. rewrite E. cbn [lift]. unfold cthen.
    destruct (import_arrival _ _ _ _ _ _ _); [apply IH2|done|done].
Qed.
Lemma magnitude_spec o : ∃ om, magnitude_of nan src o = Ok (default nan om) ∧ ∀ v, om = Some v ↔ preferred (r_id o) v.
Proof using.
  unfold magnitude_of, preferred. destruct (C91_parent (r_id o)) as (re & -> & He). cbn [rbind].
  destruct re as [e|].
  - destruct (C91_get (v_pref e)) as (_ & _ & rm & -> & Hm). cbn [rbind]. exists (m_value <$> rm).
    split; [by destruct rm|]. intros v. rewrite fmap_Some. split.
    + intros (m & -> & ->). exists e, m. split; [by apply He|]. split; [by apply Hm|done].
    + intros (e' & m & H1%He & H2 & <-). injection H1 as <-. apply Hm in H2. eauto.
  - exists None. split; [done|]. intros v. split; [done|]. intros (e & m & H%He & _). done.
Qed.
Lemma arrivals_for_fun o l l' : arrivals_for o l → arrivals_for o l' → l = l'.
Proof using. intros [[H ->]|[H ->]] [[H' ->]|[H' ->]]; congruence. Qed.
(** An origin in the resulting map is the loaded one *)
Definition entry_ok (x : N * s_origin) (y : N * origin V) : Prop :=
  x.1 = y.1 ∧ describes x.2 y.2 ∧ r_arr x.2 ≠ [] ∧ o_arr y.2 ≠ [].
Definition same_end (x : cres V (list (N * s_origin))) (y : cres V (list (N * origin V))) : Prop :=
  match y with
  | CRet c m => ∃ m', x = CRet c m' ∧ Forall2 entry_ok m' m
  | CExc c => x = CExc c
  | CUB => x = CUB
  end.
Lemma add_origins_import l : ∃ l', Forall2 describes l l' ∧ ∀ c idm idm', Forall2 entry_ok idm idm' →
  same_end (add_origins ins zero nan inv src c l idm) (import ins zero nan inv c l' idm').
Proof using.
  induction l as [|o l (l' & IH1 & IH2)].
  - exists []. split; [constructor|]. intros c idm idm' H. cbn. eauto.
  - destruct (C91_arrivals o) as (o1 & calls & E & (S1 & S2 & S3 & S4 & S5) & _ & _ & Ha & _ & Hagain).
    destruct (fetch_arrivals (r_arr o1)) as (as' & Ha1 & Ha2).
    destruct (magnitude_spec o1) as (om & Em & Hom).
    set (o' := Orig (r_time o1) (r_lat o1) (r_lon o1) (r_depth o1) om as').
    assert (describes o o') as D.
    { split; [done|done|done|done| |].
      - exists (r_arr o1). split; [done|]. exact Ha1.
      - intros _ v. cbn. rewrite Hom, S1. done. }
    exists (o' :: l'). split; [by constructor|]. intros c idm idm' H. cbn [add_origins import]. rewrite E. cbn [lift fst].
    destruct (r_arr o1) as [|a r] eqn:Er.
    { apply Forall2_nil_inv_l in Ha1. subst as'. cbn. by apply IH2. }
    apply Forall2_cons_inv_l in Ha1 as (a' & r' & Ha0 & Ha1 & Has). unfold o' at 1. cbn [o_arr]. rewrite Has.
    cbn [o_depth o_time o_lat o_lon o_mag o']. destruct (r_depth o1) as [d|] eqn:Ed; [|done].
    rewrite Em. cbn [lift]. unfold cthen at 1.
    destruct (add_event c _ false) as [c1 id|c1|]; [|done|done].
    unfold cthen. rewrite Ha2, <- Has.
    destruct (import_arrivals ins zero nan inv id c1 as') as [c2 []|c2|]; [|done|done].
    apply IH2. apply Forall2_app; [done|]. constructor; [|constructor]. split; [done|]. cbn. split; [|split].
    + split; [done|done|done|done| |].
      * exists (r_arr o1). split; [left; rewrite Er; done|]. change (o_arr _) with as'. rewrite Er, Has. by constructor.
      * intros _ v. cbn. apply Hom.
    + by rewrite Er.
    + by rewrite Has.
Qed.
Lemma find_origins_spec ids : ∃ l, find_origins src ids = Ok l ∧ found_all ids l.
Proof using.
  induction ids as [|id ids (l & E & H)]; [exists []; split; [done|constructor]|].
  cbn [find_origins]. destruct (C91_get id) as (_ & (r & -> & Hr) & _). cbn [rbind]. rewrite E. cbn [rbind].
  eexists. split; [reflexivity|]. destruct r as [o|].
  - apply fa_found; [by apply Hr|done].
  - apply fa_unknown; [|done]. intros o Ho%Hr. done.
Qed.
(** C91: an import by ids is the import (Import_Model) of the origins found, in the order of their
    ids, each with what the source delivers for it. *)
Theorem C91_ids c ids : ∃ l l', found_all ids l ∧ Forall2 describes l l' ∧
  same_end (add_ids ins zero nan inv src c ids) (import ins zero nan inv c l' []).
Proof using.
  destruct (find_origins_spec ids) as (l & E & H). destruct (add_origins_import l) as (l' & D & HI).
  exists l, l'. split; [done|]. split; [done|]. unfold add_ids. rewrite E. cbn [lift]. apply HI. constructor.
Qed.
Lemma found_all_length ids l : found_all ids l → length l ≤ length ids.
Proof using. induction 1; cbn; lia. Qed.
(** Origins that have arrivals, in themselves or in the database *)
Definition has_arrivals (o : s_origin) : bool :=
  match r_arr o with [] => match db with Some d => match q_arr d (r_id o) with [] => false | _ => true end | None => false end | _ => true end.
Lemma has_arrivals_spec o l : arrivals_for o l → has_arrivals o = match l with [] => false | _ => true end.
Proof using. unfold has_arrivals. intros [[H ->]|[-> ->]]; [by destruct (r_arr o)|]. by destruct db. Qed.
Lemma add_origins_map l : ∀ c idm c' m, add_origins ins zero nan inv src c l idm = CRet c' m →
  ∃ t, m = idm ++ t ∧ Forall2 (λ o o', same_origin o o' ∧ arrivals_for o (r_arr o')) (List.filter has_arrivals l) t.*2.
Proof using.
  induction l as [|o l IH]; intros c idm c' m.
  - cbn. intros [= <- <-]. exists []. rewrite app_nil_r. split; [done|constructor].
  - cbn [add_origins]. destruct (C91_arrivals o) as (o1 & calls & -> & S1 & _ & _ & Ha & _ & _). cbn [lift fst].
    cbn [List.filter]. rewrite (has_arrivals_spec _ _ Ha).
    destruct (r_arr o1) as [|a r] eqn:Er; [apply IH|].
    destruct (r_depth o1); [|done]. destruct (magnitude_spec o1) as (om & -> & _). cbn [lift]. unfold cthen.
    destruct (add_event _ _ _) as [c1 id|c1|]; [|done|done].
    destruct (add_arrivals _ _ _ _ _ _ _ _) as [c2 u|c2|]; [|done|done].
    intros (t & -> & Ht)%IH. exists ((id, o1) :: t). rewrite <- app_assoc. split; [done|]. cbn. constructor; [|done].
    split; [done|]. by rewrite Er.
Qed.
Lemma filter_nth (l : list (origin V)) : ∀ i x, filter has_arr l !! i = Some x → ∃ l1 l2, l = l1 ++ x :: l2 ∧ length (filter has_arr l1) = i.
Proof.
  induction l as [|o l IH]; intros i x; [done|]. destruct (decide (has_arr o)) as [Ho|Ho].
  - rewrite filter_cons_True by done. destruct i as [|i]; cbn.
    + intros [= ->]. exists [], l. done.
    + intros (l1 & l2 & -> & <-)%IH. exists (o :: l1), l2. rewrite filter_cons_True by done. done.
  - rewrite filter_cons_False by done. intros (l1 & l2 & -> & <-)%IH. exists (o :: l1), l2. rewrite filter_cons_False by done. done.
Qed.
(** C91: what is in the catalog after an import by ids. *)
Theorem C91_import c ids : any_place ins → integrity c → (max_key (c_ev c) + N.of_nat (length ids) < 2 ^ 32)%N →
  match add_ids ins zero nan inv src c ids with
  | CRet c' idm =>
      integrity c' ∧ extends c c' ∧
      (∀ k : N, is_Some (c_ev c' !! k) ↔ is_Some (c_ev c !! k) ∨ k ∈ idm.*1) ∧
      ∃ l, found_all ids l ∧
      Forall2 (λ o o', same_origin o o' ∧ arrivals_for o (r_arr o')) (List.filter has_arrivals l) idm.*2 ∧
      ∀ k o, (k, o) ∈ idm → ∃ d v, r_depth o = Some d ∧ c_ev c' !! k = Some (Ev k (r_time o) (r_lat o) (r_lon o) d v None) ∧
        (preferred (r_id o) v ∨ (∀ v', ¬ preferred (r_id o) v') ∧ v = nan)
  | CExc c' => integrity c' ∧ extends c c'
  | CUB => False
  end.
Proof using.
  intros Hins I Hm. unfold add_ids. destruct (find_origins_spec ids) as (l & -> & Hl). cbn [lift].
  destruct (add_origins_import l) as (l' & D & HI). specialize (HI c [] [] ltac:(constructor)).
  assert (length (filter has_arr l') ≤ length ids) as Hlen.
  { etrans; [apply filter_length|]. rewrite <- (Forall2_length _ _ _ D). by apply found_all_length. }
  pose proof (C71_import ins Hins zero nan inv c l' I ltac:(lia)) as HC.
  destruct (import ins zero nan inv c l' []) as [c' m|c'|]; cbn [same_end] in HI; [| |done].
  2: { rewrite HI. destruct HC as (H1 & H2 & _). done. }
  destruct HI as (m' & E & Hm'). rewrite E. destruct (add_origins_map _ _ _ _ _ E) as (t & -> & Ht). cbn [app].
  destruct HC as (I' & X & Hid & Hk & _ & Hev). split; [done|]. split; [done|]. split.
  { intros k. rewrite Hk. assert ((t.*1) = m.*1) as ->; [|done].
    clear - Hm'. cbn in Hm'. induction Hm' as [|x y t m (H & _) _ IH]; [done|]. cbn. by rewrite H, IH. }
  exists l. split; [done|]. split; [done|]. intros k o Hko.
  destruct (elem_of_list_lookup_1 _ _ Hko) as (i & Hi). cbn in Hm'.
  destruct (Forall2_lookup_l _ _ _ _ _ Hm' Hi) as ([k' o'] & Hi' & (Hk' & Ho & _ & Hne)). cbn in Hk', Ho, Hne. subst k'.
  rewrite Hid in Hi'. unfold entry in Hi'. rewrite list_lookup_imap in Hi'. apply fmap_Some in Hi' as (x & Hx & Heq). injection Heq as Hk' <-.
  destruct (filter_nth l' i o' Hx) as (l1 & l2 & E1 & E2).
  assert (has_arr o') as Hha by (unfold has_arr; by destruct (o_arr o')).
  destruct (Hev l1 o' l2 E1 Hha) as (_ & d & ps & Hd & Hc & _). rewrite E2 in Hc. rewrite <- Hk' in Hc.
  exists d, (default nan (o_mag o')). rewrite <- (de_depth _ _ Ho). split; [done|]. split.
  { rewrite Hc. unfold new_event. by rewrite (de_time _ _ Ho), (de_lat _ _ Ho), (de_lon _ _ Ho). }
  pose proof (de_mag _ _ Ho Hne) as Hmag. destruct (o_mag o') as [v|]; cbn.
  - left. by apply Hmag.
  - right. split; [|done]. intros v' Hv%Hmag. done.
Qed.
End props.

(** * Cases *)
Module Cases.
Definition arr1 : s_arrival Z := SArr (tx "P") (tx "p1") (Some 1%Z) (Some true).
Definition arr2 : s_arrival Z := SArr (tx "S") (tx "p2") (Some 1%Z) (Some true).
Definition pk (t : Z) : pick Z := Pick (tx "CH") (tx "BAL") [] (tx "HHZ") t (Some 1%Z) None None (Some true).
Definition org (id : text) (t : Z) (l : list (s_arrival Z)) : s_origin Z := SOrg id t 46%Z 8%Z (Some 10%Z) l [] [].
Definition db : database Z := DB (λ id, if decide (id = tx "o2") then [arr1; arr2] else [])
  (λ _, []) (λ _, []) (λ _, []) (λ id, if decide (id = tx "o2") then Some (SEv (tx "e2") (tx "m2") []) else None).
(** the cache knows another pick p1, the pick p2, an origin and the magnitude of event e2 *)
Definition ca (k : class) (id : text) : option (object Z) :=
  match k with
  | KPick => if decide (id = tx "p1") then Some (OPick id (pk 77)) else if decide (id = tx "p2") then Some (OPick id (pk 22)) else None
  | KOrigin => if decide (id = tx "o2") then Some (OOrigin (org id 20 [])) else if decide (id = tx "o3") then Some (OOrigin (org id 30 [])) else None
  | KMagnitude => if decide (id = tx "m2") then Some (OMagnitude (SMag id 3%Z [])) else None
  | _ => None
  end.
Definition ep : eparams Z := EP [(tx "p1", pk 11)] [] [org (tx "o1") 10 [arr1]] [SEv (tx "e1") (tx "m1") [tx "o0"; tx "o1"]].
Definition src := source3 (pointer (Some db)) (pointer (Some ca)) (pointer (Some ep)).
Definition ins (l : list (phase Z)) (p : phase Z) := p :: l.
Definition inv (_ _ _ : text) (_ : Z) : located Z := InvAt 46%Z 8%Z 100%Z.
Definition zero (x : Z) : bool := Z.eqb x 0.
Definition summary (r : cres Z (list (N * s_origin Z))) : option (list (N * Z * Z) * list (list (text * Z)) * list (N * text)) :=
  match r with
  | CRet c m => Some ((λ e, (e_id e, e_time e, e_mag e)) <$> sorted_events (c_ev c),
                      (λ e, (λ p, (p_type p, p_time p)) <$> phs c (e_id e)) <$> sorted_events (c_ev c),
                      (λ x, (x.1, r_id x.2)) <$> m)
  | _ => None
  end.
(** o1 of the event parameters has no magnitude since the cache does not know it; o2 takes its
    arrivals and event from the database; o3 has no arrivals; o4 is unknown *)
Example C91_example : summary (add_ids ins zero (-1)%Z inv src empty_cat [tx "o1"; tx "o4"; tx "o2"; tx "o3"]) =
  Some ([(1%N, 10%Z, (-1)%Z); (2%N, 20%Z, 3%Z)], [[(tx "P", 11%Z)]; [(tx "S", 22%Z); (tx "P", 11%Z)]], [(1%N, tx "o1"); (2%N, tx "o2")]).
Proof. vm_compute. reflexivity. Qed.
Example C91_hypotheses : any_place ins ∧ integrity (empty_cat (V := Z)) ∧
  (max_key (c_ev (empty_cat (V := Z))) + N.of_nat (length [tx "o1"; tx "o4"; tx "o2"; tx "o3"]) < 2 ^ 32)%N.
Proof. split; [by intros l p|]. split; [apply integrity_empty|]. vm_compute. reflexivity. Qed.
End Cases.

(** The other two constructors leave members without a value; whatever is asked is undefined. *)
Theorem C91_uninitialised_refuted :
  (∀ (q : ptr (database Z)) c k id, get_object (source2 q c) k id = Bad) ∧
  (∀ (q : ptr (database Z)) c id, get_parent_event (source2 q c) id = Bad) ∧
  (∀ (e : ptr (eparams Z)) k id, get_object (source1 e) k id = Bad) ∧
  (∀ (e : ptr (eparams Z)) o, load_arrivals (source1 e) o = Bad).
Proof.
  split; [done|]. split; [done|]. split; [|done]. intros [| |e] k id; done.
Qed.
(** The preferred magnitude of an event is not found although it is in the event parameters. *)
Theorem C91_magnitude_refuted : ∃ (ep : eparams Z) (o : s_origin Z) (e : s_event) (m : s_magnitude Z),
  o ∈ ep_origins ep ∧ m ∈ r_mags o ∧ e ∈ ep_events ep ∧ r_id o ∈ v_refs e ∧ v_pref e = m_id m ∧
  get_magnitude (source3 (pointer None) (pointer None) (pointer (Some ep))) (m_id m) = Ok None ∧
  magnitude_of (-1)%Z (source3 (pointer None) (pointer None) (pointer (Some ep))) o = Ok (-1)%Z.
Proof.
  set (m := SMag (tx "m") 3%Z []). set (o := SOrg (tx "o") 10 46%Z 8%Z (Some 10%Z) [Cases.arr1] [m] []).
  set (e := SEv (tx "e") (tx "m") [tx "o"]). exists (EP [] [] [o] [e]), o, e, m.
  split; [by left|]. split; [by left|]. split; [by left|]. split; [by left|]. split; [done|]. split; vm_compute; reflexivity.
Qed.
(** A file with ids that is empty is not an error but undefined behaviour. *)
Theorem C91_empty_file_refuted (ins : list (phase Z) → phase Z → list (phase Z)) zero nan inv s c :
  add_file ins zero nan inv s c None = CExc c ∧ add_file ins zero nan inv s c (Some []) = CUB.
Proof. done. Qed.

Print Assumptions C91_object.
Print Assumptions C91_get.
Print Assumptions C91_parent.
Print Assumptions C91_arrivals.
Print Assumptions C91_magnitudes.
Print Assumptions C91_ids.
Print Assumptions C91_import.
Print Assumptions C91_uninitialised_refuted.
Print Assumptions C91_magnitude_refuted.
Print Assumptions C91_empty_file_refuted.
