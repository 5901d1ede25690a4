(** Theorems about the observations added to the solver: C43. *)
From Coq Require Import Ascii String Reals Lra Psatz.
From stdpp Require Import numbers list gmap countable strings.
From Verif Require Import Time_Model Index_Model Index_Props DDSystem_Model Csv_Model Catalog_Model Catalog_Props XCorrCache_Model.
From Verif Require Import Solver_Model Solver_Hist Solver_Props AddObs_Model.

(** ** Specification *)
Section spec.
Notation op := (@op R).
Notation text := (list ascii).
Notation xcache := (gmap N (gmap string (gmap string (gmap N (@entry R R))))).
Variable ttt : event R → station R → text → option (R * R * R * R * R).
Variable cfg : obs_cfg.

(** The first pick of a phase at a station *)
Definition pick (c : catalog R) (k : N) (sta ph : text) : option (phase R) :=
  head (filter (λ p, p_staid p = sta ∧ p_type p = ph) (phs c k)).
(** The name of the phase in the travel time tables *)
Definition table_name (p : phase R) : text :=
  match oc_ps cfg, pr_type <$> p_proc p with
  | true, Some TP => ["P"%char]
  | true, Some TS => ["S"%char]
  | _, _ => p_type p
  end.
(** The solver already knows the parameters or there is a travel time *)
Definition available (h : list op) (e : event R) (s : station R) (sta ph : text) (p : phase R) : Prop :=
  is_Some (first_prm h (e_id e, sta, ph)) ∨ is_Some (ttt e s (table_name p)).
(** The cross-correlation of the two picks: the lag and the coefficient, if valid and large enough *)
Definition correlated (xc : xcache) (e1 e2 : N) (sta ph : text) (m : R) (lag coeff : R) : Prop :=
  xc_get Ropp xc e1 e2 (string_of_list_ascii sta) (string_of_list_ascii ph) = Some (Entry true coeff lag) ∧ (m <= Rabs coeff)%R.
Definition base_weight (pr pn : phase R) (w : R) : Prop :=
  if oc_unc cfg then ∃ ir iw, p_proc pr = Some ir ∧ p_proc pn = Some iw ∧ w = ((pr_weight ir + pr_weight iw) / 2)%R else w = 1%R.
(** What is added for reference event, neighbour, station and phase *)
Definition value_ok (xc : xcache) (ref ev : event R) (sta ph : text) (pr pn : phase R) (m td w : R) (xu : bool) : Prop :=
  let dt := (IZR ((p_time pr - e_time ref) - (p_time pn - e_time ev)) / 10 ^ 6)%R in
  ∃ w0, base_weight pr pn w0 ∧
  ((∃ lag coeff, correlated xc (e_id ref) (e_id ev) sta ph m lag coeff ∧ xu = true ∧ td = (dt - lag)%R ∧
      w = (w0 * (1 + (oc_scale cfg - 1) * Rabs coeff))%R) ∨
   ((∀ lag coeff, ¬ correlated xc (e_id ref) (e_id ev) sta ph m lag coeff) ∧ xu = false ∧ td = dt ∧ w = w0)).
Definition wanted (c : catalog R) (xc : xcache) (h : list op) (ref : event R) (order : list (text * text * N)) 
    (e1 e2 : N) (sta ph : text) (td w : R) (xu : bool) : Prop :=
  e1 = e_id ref ∧ (sta, ph, e2) ∈ order ∧
  ∃ ev s pr pn ir m, c_ev c !! e2 = Some ev ∧ c_sta c !! sta = Some s ∧
    pick c (e_id ref) sta ph = Some pr ∧ pick c e2 sta ph = Some pn ∧ p_proc pr = Some ir ∧ oc_min cfg (pr_type ir) = Some m ∧
    available h ref s sta ph pr ∧ available h ev s sta ph pn ∧
    (e_time ref <= p_time pr)%Z ∧ (e_time ev <= p_time pn)%Z ∧ value_ok xc ref ev sta ph pr pn m td w xu.
(** The picks named by the neighbours exist and their processing information is filled *)
Definition ready (c : catalog R) (ref : event R) (order : list (text * text * N)) : Prop :=
  integrity c ∧ c_ev c !! e_id ref = Some ref ∧
  ∀ sta ph k, (sta, ph, k) ∈ order → "@"%char ∉ ph ∧ is_Some (c_ev c !! k) ∧ is_Some (c_sta c !! sta) ∧
    (∃ pr ir, pick c (e_id ref) sta ph = Some pr ∧ p_proc pr = Some ir ∧ is_Some (oc_min cfg (pr_type ir))) ∧
    (∃ pn iw, pick c k sta ph = Some pn ∧ p_proc pn = Some iw).
(** Parameters of an event given to the solver by this call *)
Definition params_wanted (km : R) (c : catalog R) (h : list op) (ref : event R) (order : list (text * text * N)) (fixed : bool)
    (e : N) (sta ph : text) (o : @oprm R) : Prop :=
  ∃ ev s p tm azim dip dtdd dtdh, c_ev c !! e = Some ev ∧ c_sta c !! sta = Some s ∧ pick c e sta ph = Some p ∧
    first_prm h (e, sta, ph) = None ∧ ttt ev s (table_name p) = Some (tm, azim, dip, dtdd, dtdh) ∧
    (op_ch o = true ∧ e = e_id ref ∨ op_ch o = negb fixed ∧ (sta, ph, e) ∈ order) ∧
    op_tt o = tm ∧ op_res o = (IZR (p_time p - e_time ev) / 10 ^ 6 - tm)%R ∧
    op_dx o = (- (dtdd / km) * sin (azim * PI / 180))%R ∧ op_dy o = (- (dtdd / km) * cos (azim * PI / 180))%R ∧ op_dz o = (- dtdh)%R.
(** Some pick of the reference event has a travel time *)
Definition some_travel_time (c : catalog R) (h : list op) (ref : event R) (order : list (text * text * N)) : Prop :=
  ∃ sta ph k s p, (sta, ph, k) ∈ order ∧ c_sta c !! sta = Some s ∧ pick c (e_id ref) sta ph = Some p ∧ available h ref s sta ph p.
End spec.

(** ** Proofs *)
Lemma get_params_run {D} (d0 : D) (h : list op) e sta ph : hist_ok h → "@"%char ∉ ph → get_params (run d0 h) e sta ph = first_prm h (e, sta, ph).
Proof.
  intros [HF Hb] Hph. destruct (inv_run d0 h HF Hb) as (le & lp & lo & I).
  apply option_eq. intros o. unfold get_params, idx_toIdx. split.
  - destruct (i_to (cv_ev (run d0 h)) !! e) as [i|] eqn:Ei; [|done]. destruct (i_to (cv_ph (run d0 h)) !! _) as [p|] eqn:Ep; [|done].
    intros Ho. destruct (iv_prm1 _ _ _ _ _ I _ _ _ Ho) as (ev & sta' & ph' & H1 & H2 & H3 & H4).
    apply (rep_to _ _ (iv_ev _ _ _ _ _ I)) in Ei. apply (rep_to _ _ (iv_ph _ _ _ _ _ I)) in Ep.
    assert (ph_sta_id sta' ph' = ph_sta_id sta ph) as E by congruence. apply ph_sta_inj in E as [-> ->]; [|done..]. rewrite Ei in H2. injection H2 as ->. exact H1.
  - intros Hf. destruct (iv_prm2 _ _ _ _ _ I _ _ _ _ Hf) as (i & p & H1 & H2 & H3).
    apply (rep_to _ _ (iv_ev _ _ _ _ _ I)) in H2. apply (rep_to _ _ (iv_ph _ _ _ _ _ I)) in H3. by rewrite H2, H3.
Qed.

Lemma head_filter_find {A} (P : A → Prop) `{!∀ x, Decision (P x)} (l : list A) x :
  head (filter P l) = Some x ↔ ∃ i, list_find P l = Some (i, x).
Proof.
  induction l as [|y l IH]; [cbn; naive_solver|]. rewrite filter_cons. cbn [list_find]. case_decide as D.
  - cbn. split; [intros [= ->]; eauto|]. intros (i & [= _ ->]). done.
  - rewrite IH. split; intros (i & Hi); [rewrite Hi; cbn; eauto|].
    destruct (list_find P l) as [[j z]|]; cbn in Hi; [|done]. injection Hi as _ ->. eauto.
Qed.
Lemma find_pick c k sta ph p : pick c k sta ph = Some p ↔ find_phase c k sta ph = Ok p.
Proof.
  unfold pick, find_phase, search_phase. rewrite head_filter_find. split.
  - intros (i & Hi). rewrite Hi. cbn. apply list_find_Some in Hi as (Hl & _). by rewrite Hl.
  - destruct (list_find _ _) as [[i x]|] eqn:E; cbn; [|done]. intros Hp. exists i. 
    apply list_find_Some in E as (Hl & _). rewrite Hl in Hp. by simplify_eq.
Qed.
Lemma pick_codes c k sta ph p : pick c k sta ph = Some p → p_staid p = sta ∧ p_type p = ph.
Proof.
  unfold pick. intros H. apply head_filter_find in H as (i & Hi). by apply list_find_Some in Hi as (_ & ? & _).
Qed.

Section proofs.
Notation op := (@op R).
Notation text := (list ascii).
Notation xcache := (gmap N (gmap string (gmap string (gmap N (@entry R R))))).
Variable ttt : event R → station R → text → option (R * R * R * R * R).
Variable km : R.
Variable cfg : obs_cfg.
Variables (c : catalog R) (xc : xcache) (ref : event R) (fixed : bool) (h : list op) (all : list (text * text * N)).
Hypothesis Hready : ready cfg c ref all.
Hypothesis Hbound : (N.of_nat (2 * (length h + 5 * length all)) < 2 ^ 32)%N.
Hypothesis Hhist : Forall phase_ok h.

(** Parameters added by this call *)
Definition legit (e : N) (sta ph : text) (o : @oprm R) : Prop :=
  ∃ ev s p t ch, c_ev c !! e = Some ev ∧ c_sta c !! sta = Some s ∧ pick c e sta ph = Some p ∧
    ttt ev s (table_name cfg p) = Some t ∧ o = params_of km ev p ch t ∧ first_prm h (e, sta, ph) = None ∧
    (ch = true ∧ e = e_id ref ∨ ch = negb fixed ∧ (sta, ph, e) ∈ all).
Record okstate (n : nat) (st : @solver R * list op) (new : list op) : Prop := {
  ok_run : st.1 = run 0%R st.2;
  ok_app : st.2 = h ++ new;
  ok_len : length new ≤ n;
  ok_ph : Forall phase_ok new;
  ok_prm : ∀ e sta ph o, AddPrm e sta ph o ∈ new → legit e sta ph o }.
Lemma ok_hist n st new : okstate n st new → n ≤ 5 * length all → hist_ok st.2.
Proof using Hbound Hhist.
  intros [H1 H2 H3 H4 _] Hn. rewrite H2. split; [by apply Forall_app|]. rewrite app_length. lia.
Qed.
Lemma ok_mono n m st new : n ≤ m → okstate n st new → okstate m st new.
Proof. intros Hn [? ? ? ? ?]. split; try done. lia. Qed.
Lemma ok_push n st new x : okstate n st new → phase_ok x → (∀ e sta ph o, x = AddPrm e sta ph o → legit e sta ph o) →
  okstate (S n) (push st x) (new ++ [x]).
Proof.
  intros [H1 H2 H3 H4 H5] Hx Hl. split; cbn.
  - unfold run. rewrite fold_left_app. cbn. f_equal. apply H1.
  - by rewrite H2, app_assoc.
  - rewrite app_length. cbn. lia.
  - apply Forall_app. split; [done|]. by apply Forall_singleton.
  - intros e sta ph o [Hi|Hi%elem_of_list_singleton]%elem_of_app; [by apply H5|]. by apply Hl.
Qed.
Lemma first_of_app {K V} `{EqDecision K} (f : op → option (K * V)) (a b : list op) (k : K) :
  first_of f (a ++ b) k = match first_of f a k with Some v => Some v | None => first_of f b k end.
Proof. induction a as [|x a IH]; [done|]. cbn. destruct (f x) as [[k' v]|]; [|done]. by case_decide. Qed.
Lemma first_of_in {K V} `{EqDecision K} (f : op → option (K * V)) (a : list op) (x : op) (k : K) (v : V) :
  x ∈ a → f x = Some (k, v) → is_Some (first_of f a k).
Proof.
  induction a as [|y a IH]; [by intros ?%elem_of_nil|]. intros [->|Hi]%elem_of_cons Hx; cbn.
  - rewrite Hx. rewrite decide_True by done. eauto.
  - destruct (f y) as [[k' v']|]; [case_decide; eauto|eauto].
Qed.

Lemma phase_name_spec p i : p_proc p = Some i → phase_name cfg p = Some (table_name cfg p).
Proof. intros Hi. unfold phase_name, table_name. rewrite Hi. cbn. by destruct (oc_ps cfg), (pr_type i). Qed.

(** Extension of the list of calls *)
Lemma add_params_ok n st new ev s sta ph p i ch :
  okstate n st new → n ≤ 5 * length all → c_ev c !! e_id ev = Some ev → c_sta c !! sta = Some s → pick c (e_id ev) sta ph = Some p → p_proc p = Some i →
  "@"%char ∉ ph → (ch = true ∧ e_id ev = e_id ref ∨ ch = negb fixed ∧ (sta, ph, e_id ev) ∈ all) →
  ∃ st' ok ext, add_obs_params ttt km cfg st ev s p ch = Ok (st', ok) ∧ okstate (2 + n) st' (new ++ ext) ∧
    (ok = true ↔ available ttt cfg h ev s sta ph p) ∧
    (ok = true → is_Some (first_prm st'.2 (e_id ev, sta, ph))) ∧
    (∀ a, a ∈ ext → obs_of a = None).
Proof using Hready Hbound Hhist.
  intros O Hn Hev Hs Hp Hi Hph Hch. destruct (pick_codes _ _ _ _ _ Hp) as [_ Ht].
  assert (s_id s = sta) as Hsid by (apply (in_sta _ (proj1 Hready)); done).
  unfold add_obs_params. rewrite (ok_run _ _ _ O), Hsid, Ht.
  rewrite get_params_run by (done || by eapply ok_hist).
  destruct (first_prm st.2 (e_id ev, sta, ph)) as [o|] eqn:Ef.
  { exists st, true, []. rewrite app_nil_r. split; [done|]. split; [eapply ok_mono; [|done]; lia|]. split; [|split; [by eauto|by intros a ?%elem_of_nil]].
    split; [intros _|done]. rewrite (ok_app _ _ _ O) in Ef. unfold first_prm in Ef. rewrite first_of_app in Ef.
    destruct (first_of prm_of h (e_id ev, sta, ph)) as [v|] eqn:Eh; [left; unfold first_prm; rewrite Eh; eauto|].
    right. apply first_of_Some in Ef as (x & Hx & Ex). destruct x; cbn in Ex; try done. simplify_eq.
    destruct (ok_prm _ _ _ O _ _ _ _ Hx) as (ev' & s' & p' & t & ch' & L1 & L2 & L3 & L4 & _). simplify_eq. eauto. }
  rewrite (phase_name_spec p i Hi).
  assert (first_prm h (e_id ev, sta, ph) = None) as Eh.
  { rewrite (ok_app _ _ _ O) in Ef. unfold first_prm in *. rewrite first_of_app in Ef. by destruct (first_of prm_of h _). }
  destruct (ttt ev s (table_name cfg p)) as [t|] eqn:Et.
  - eexists _, true, _. split; [done|]. split.
    { replace (2 + n) with (S (S n)) by lia.
      assert (okstate (S n) (push st (AddEv (e_id ev))) (new ++ [AddEv (e_id ev)])) as O1 by (apply ok_push; done).
      pose proof (ok_push (S n) _ _ (AddPrm (e_id ev) sta ph (params_of km ev p ch t)) O1) as O2.
      rewrite <-app_assoc in O2. apply O2; [done|]. intros ? ? ? ? [= <- <- <- <-].
      exists ev, s, p, t, ch. done. }
    split; [split; [intros _; right; eauto|done]|]. split.
    { intros _. cbn. rewrite <-app_assoc. unfold first_prm. rewrite first_of_app. 
      destruct (first_of prm_of st.2 _); [eauto|]. cbn. rewrite decide_True by done. eauto. }
    intros a [->|[->|?%elem_of_nil]%elem_of_cons]%elem_of_cons; done.
  - exists st, false, []. rewrite app_nil_r. split; [done|]. split; [eapply ok_mono; [|done]; lia|]. split; [|split; [done|by intros a ?%elem_of_nil]].
    split; [done|]. intros [[x Hx]|[x Hx]]; congruence.
Qed.

Lemma observation_ok ev sta ph pr pn ir iw m td w xu co :
  p_proc pr = Some ir → p_proc pn = Some iw →
  observation cfg xc ref ev sta ph pr pn (pr_weight ir) (pr_weight iw) m = (td, w, xu, co) →
  ∀ td' w' xu', value_ok cfg xc ref ev sta ph pr pn m td' w' xu' ↔ td' = td ∧ w' = w ∧ xu' = xu.
Proof.
  intros Hr Hn E td' w' xu'. unfold value_ok, base_weight, correlated. unfold observation, sec in E.
  replace (10 ^ 6)%R with 1000000%R by ring.
  set (dt := (IZR (p_time pr - e_time ref - (p_time pn - e_time ev)) / 1000000)%R) in *.
  set (wt := if oc_unc cfg then ((pr_weight ir + pr_weight iw) / 2)%R else 1%R) in *.
  assert (∀ w0, (if oc_unc cfg then ∃ ir iw, p_proc pr = Some ir ∧ p_proc pn = Some iw ∧ w0 = ((pr_weight ir + pr_weight iw) / 2)%R else w0 = 1%R) ↔ w0 = wt) as Hw.
  { intros w0. unfold wt. destruct (oc_unc cfg); [|done]. split; [|naive_solver]. intros (? & ? & ? & ? & ?). by simplify_eq. }
  destruct (xc_get _ _ _ _ _ _) as [[v co' lag]|] eqn:Ex; cbn in E.
  - destruct v; [destruct (Rle_dec m (Rabs co')) as [Hm|Hm]|].
    + injection E as <- <- <- <-. split.
      * intros (w0 & ->%Hw & [(l & cc & [H1 H2] & -> & -> & ->)|(H & _)]); [|exfalso; eapply H; eauto].
        simplify_eq. split_and!; try done. ring.
      * intros (-> & -> & ->). exists wt. split; [by apply Hw|]. left. exists lag, co'. split_and!; try done. ring.
    + injection E as <- <- <- <-. split.
      * intros (w0 & ->%Hw & [(l & cc & [H1 H2] & _)|(H & -> & -> & ->)]); [by simplify_eq|done].
      * intros (-> & -> & ->). exists wt. split; [by apply Hw|]. right. split_and!; try done. intros l cc [? ?]. by simplify_eq.
    + injection E as <- <- <- <-. split.
      * intros (w0 & ->%Hw & [(l & cc & [H1 H2] & _)|(H & -> & -> & ->)]); [by simplify_eq|done].
      * intros (-> & -> & ->). exists wt. split; [by apply Hw|]. right. split_and!; try done. intros l cc [? ?]. by simplify_eq.
  - injection E as <- <- <- <-. split.
    * intros (w0 & ->%Hw & [(l & cc & [H1 H2] & _)|(H & -> & -> & ->)]); [by simplify_eq|done].
    * intros (-> & -> & ->). exists wt. split; [by apply Hw|]. right. split_and!; try done. intros l cc [? ?]. by simplify_eq.
Qed.

(** *** The loop *)
Definition ref_avail (t : text * text * N) : Prop :=
  ∃ s p, c_sta c !! t.1.1 = Some s ∧ pick c (e_id ref) t.1.1 t.1.2 = Some p ∧ available ttt cfg h ref s t.1.1 t.1.2 p.
Record linv (dn : list (text * text * N)) (l : loop) (new : list op) : Prop := {
  li_st : okstate (5 * length dn) (l_st l) new;
  li_obs : ∀ e1 e2 sta ph td w xu, (∃ co, AddObs e1 e2 sta ph td w xu co ∈ new) ↔ wanted ttt cfg c xc h ref dn e1 e2 sta ph td w xu;
  li_comp : ∀ e1 e2 sta ph td w xu co, AddObs e1 e2 sta ph td w xu co ∈ new →
     is_Some (first_prm (l_st l).2 (e1, sta, ph)) ∧ is_Some (first_prm (l_st l).2 (e2, sta, ph));
  li_ref : ∀ p err, l_ref l = Some (p, err) → ∃ s, c_sta c !! p_staid p = Some s ∧ pick c (e_id ref) (p_staid p) (p_type p) = Some p ∧
     (err = false ↔ available ttt cfg h ref s (p_staid p) (p_type p) p) ∧
     (err = false → 0 < l_ok l ∧ is_Some (first_prm (l_st l).2 (e_id ref, p_staid p, p_type p)));
  li_try : l_try l = 0 ↔ dn = [];
  li_ok : 0 < l_ok l ↔ ∃ t, t ∈ dn ∧ ref_avail t;
  li_cache : l_ref l = None ↔ l_try l = 0 }.

Lemma first_prm_grow (a b : list op) k : is_Some (first_prm a k) → is_Some (first_prm (a ++ b) k).
Proof. intros [v Hv]. unfold first_prm in *. rewrite first_of_app, Hv. eauto. Qed.

(** The part of the step that looks up the pick of the reference event *)
Lemma ref_phase_ok dn l new sta ph k s pr ir :
  linv dn l new → S (length dn) ≤ length all → (sta, ph, k) ∈ all → c_sta c !! sta = Some s → 
  pick c (e_id ref) sta ph = Some pr → p_proc pr = Some ir →
  ∃ l' err ext, ref_phase ttt km cfg c ref s l sta ph = Ok (l', pr, err) ∧ (∀ a, a ∈ ext → obs_of a = None) ∧
    okstate (2 + 5 * length dn) (l_st l') (new ++ ext) ∧ l_ref l' = Some (pr, err) ∧ l_try l' ≠ 0 ∧
    (err = false ↔ available ttt cfg h ref s sta ph pr) ∧ (err = false → 0 < l_ok l' ∧ is_Some (first_prm (l_st l').2 (e_id ref, sta, ph))) ∧
    (0 < l_ok l' ↔ (∃ t, t ∈ dn ∧ ref_avail t) ∨ err = false) ∧ (l_st l').2 = (l_st l).2 ++ ext.
Proof using Hready Hbound Hhist.
  intros [L1 L2 L3 L4 L5 L6 L7] Hlen Hall Hs Hp Hi. destruct Hready as (HI & Href & Hr).
  destruct (Hr _ _ _ Hall) as (Hph & _). destruct (pick_codes _ _ _ _ _ Hp) as [Hps Hpt].
  unfold ref_phase, cached. destruct (l_ref l) as [[p err]|] eqn:El; [destruct (decide _) as [[D1 D2]|D]|].
  - destruct (L4 p err eq_refl) as (s' & E1 & E2 & E3 & E4). rewrite D1 in E1, E2, E3, E4; rewrite D2 in E2, E3, E4. assert (p = pr) as -> by congruence. assert (s' = s) as -> by congruence.
    exists l, err, []. rewrite !app_nil_r. split; [done|]. split; [by intros a ?%elem_of_nil|]. split; [eapply ok_mono; [|done]; lia|].
    split; [done|]. split. { intros Ht. by apply L7 in Ht. }
    split; [done|]. split; [done|]. split; [|done]. rewrite L6. split; [by left|]. intros [?| ->]; [done|]. apply L6. by apply E4.
  - assert (available ttt cfg h ref s sta ph pr → ref_avail (sta, ph, k)) as Hra by (intros ?; exists s, pr; done).
    destruct (add_params_ok (5 * length dn) (l_st l) new ref s sta ph pr ir true L1 ltac:(lia) Href Hs Hp Hi Hph) as (st' & ok & ext & A1 & A2 & A3 & A4 & A5); [by left|].
    rewrite (proj1 (find_pick _ _ _ _ _) Hp). cbn [rbind]. rewrite A1. cbn [rbind].
    eexists _, (negb ok), ext. split; [done|]. split; [done|]. cbn. split; [done|]. split; [done|]. split; [lia|].
    rewrite negb_false_iff. split; [done|]. split; [intros ->; split; [lia|by apply A4]|].
    split; [|by rewrite (ok_app _ _ _ A2), (ok_app _ _ _ L1), app_assoc].
    rewrite <-L6. destruct ok; [split; [by right|lia]|]. split; [by left|]. by intros [?|?].
  - destruct (add_params_ok (5 * length dn) (l_st l) new ref s sta ph pr ir true L1 ltac:(lia) Href Hs Hp Hi Hph) as (st' & ok & ext & A1 & A2 & A3 & A4 & A5); [by left|].
    rewrite (proj1 (find_pick _ _ _ _ _) Hp). cbn [rbind]. rewrite A1. cbn [rbind].
    eexists _, (negb ok), ext. split; [done|]. split; [done|]. cbn. split; [done|]. split; [done|]. split; [lia|].
    rewrite negb_false_iff. split; [done|]. split; [intros ->; split; [lia|by apply A4]|].
    split; [|by rewrite (ok_app _ _ _ A2), (ok_app _ _ _ L1), app_assoc].
    rewrite <-L6. destruct ok; [split; [by right|lia]|]. split; [by left|]. by intros [?|?].
Qed.

Lemma wanted_snoc dn t e1 e2 sta ph td w xu :
  wanted ttt cfg c xc h ref (dn ++ [t]) e1 e2 sta ph td w xu ↔
  wanted ttt cfg c xc h ref dn e1 e2 sta ph td w xu ∨ wanted ttt cfg c xc h ref [t] e1 e2 sta ph td w xu.
Proof. unfold wanted. rewrite elem_of_app. tauto. Qed.
Lemma obs_in_app (new ext : list op) e1 e2 sta ph td w xu : (∀ a, a ∈ ext → obs_of a = None) →
  (∃ co, AddObs e1 e2 sta ph td w xu co ∈ new ++ ext) ↔ ∃ co, AddObs e1 e2 sta ph td w xu co ∈ new.
Proof.
  intros H. split; intros (co & Hc); exists co; [|rewrite elem_of_app; by left].
  apply elem_of_app in Hc as [?|Hc]; [done|]. by apply H in Hc.
Qed.

Lemma step_ok dn l new t : linv dn l new → S (length dn) ≤ length all → t ∈ all →
  ∃ l' new', obs_step ttt km cfg c xc ref fixed l t = Ok l' ∧ linv (dn ++ [t]) l' new'.
Proof using Hready Hbound Hhist.
  intros L Hlen Hall. destruct t as [[sta ph] k]. pose proof Hready as (HI & Href & Hr).
  destruct (Hr _ _ _ Hall) as (Hph & [ev Hev] & [s Hs] & (pr & ir & Hpr & Hir & [m Hm]) & (pn & iw & Hpn & Hiw)).
  destruct (ref_phase_ok dn l new sta ph k s pr ir L Hlen Hall Hs Hpr Hir) as (l1 & err & ext & R1 & R2 & R3 & R4 & R5 & R6 & R7 & R8 & R9).
  destruct L as [L1 L2 L3 L4 L5 L6 L7]. destruct (pick_codes _ _ _ _ _ Hpr) as [Q1 Q2].
  assert (e_id ev = k) as Hid by (by apply (in_ev _ HI)).
  assert (length (dn ++ [(sta, ph, k)]) = S (length dn)) as Hl by (rewrite app_length; cbn; lia).
  assert (∀ p err', l_ref l1 = Some (p, err') → ∃ s, c_sta c !! p_staid p = Some s ∧ pick c (e_id ref) (p_staid p) (p_type p) = Some p ∧
     (err' = false ↔ available ttt cfg h ref s (p_staid p) (p_type p) p) ∧
     (err' = false → 0 < l_ok l1 ∧ is_Some (first_prm (l_st l1).2 (e_id ref, p_staid p, p_type p)))) as Hrf.
  { intros p err' Hp. rewrite R4 in Hp. injection Hp as <- <-. exists s. rewrite Q1, Q2. done. }
  assert (0 < l_ok l1 ↔ ∃ t, t ∈ dn ++ [(sta, ph, k)] ∧ ref_avail t) as Hok.
  { rewrite R8. split.
    - intros [(t & Ht & ?)|He]; [exists t; rewrite elem_of_app; auto|]. exists (sta, ph, k). split; [apply elem_of_app; right; by left|].
      exists s, pr. split; [done|]. split; [done|]. by apply R6.
    - intros (t & [Ht| ->%elem_of_list_singleton]%elem_of_app & Ha); [left; eauto|]. right. apply R6. 
      destruct Ha as (s' & p' & A1 & A2 & A3). cbn in *. by simplify_eq. }
  unfold obs_step. rewrite Hs. cbn [rbind at_]. rewrite R1. cbn [rbind]. destruct err.
  { exists l1, (new ++ ext). split; [done|]. split.
    - eapply ok_mono; [|done]. lia.
    - intros e1 e2 sta' ph' td w xu. rewrite obs_in_app by done. rewrite L2, wanted_snoc. split; [by left|]. intros [?|(E & Hin & Hw)]; [done|]. exfalso.
      apply elem_of_list_singleton in Hin. simplify_eq. destruct Hw as (? & ? & ? & ? & ? & ? & ? & ? & ? & ? & ? & ? & Ha & _). simplify_eq.
      by apply R6 in Ha.
    - intros e1 e2 sta' ph' td w xu co [Hi|Hi%R2]%elem_of_app; [|done]. rewrite R9. destruct (L3 _ _ _ _ _ _ _ _ Hi). split; by apply first_prm_grow.
    - done.
    - split; [done|]. intros E. by destruct dn.
    - done.
    - rewrite R4. split; [done|]. intros E. done. }
  rewrite Hir. cbn [rbind]. rewrite Hm, Hev. cbn [rbind at_]. rewrite Hid, (proj1 (find_pick _ _ _ _ _) Hpn). cbn [rbind].
  assert (c_ev c !! e_id ev = Some ev) as Hev' by (by rewrite Hid).
  assert (pick c (e_id ev) sta ph = Some pn) as Hpn' by (by rewrite Hid).
  destruct (add_params_ok _ (l_st l1) _ ev s sta ph pn iw (negb fixed) R3 ltac:(lia) Hev' Hs Hpn' Hiw Hph) as (st2 & ok & ext2 & A1 & A2 & A3 & A4 & A5); [right; by rewrite Hid|].
  rewrite A1. cbn [rbind].
  assert (st2.2 = (l_st l1).2 ++ ext2) as A6 by (by rewrite (ok_app _ _ _ A2), (ok_app _ _ _ R3), app_assoc).
  (* the loop state without a new observation *)
  assert (∀ ext3 st3, okstate (5 * S (length dn)) st3 ((new ++ ext ++ ext2) ++ ext3) → st3.2 = st2.2 ++ ext3 →
    (∀ e1 e2 sta' ph' td w xu, (∃ co, AddObs e1 e2 sta' ph' td w xu co ∈ ext3) ↔ wanted ttt cfg c xc h ref [(sta, ph, k)] e1 e2 sta' ph' td w xu) →
    (∀ e1 e2 sta' ph' td w xu co, AddObs e1 e2 sta' ph' td w xu co ∈ ext3 → is_Some (first_prm st2.2 (e1, sta', ph')) ∧ is_Some (first_prm st2.2 (e2, sta', ph'))) →
    linv (dn ++ [(sta, ph, k)]) (Loop st3 (l_ref l1) (l_try l1) (l_ok l1)) ((new ++ ext ++ ext2) ++ ext3)) as Hfin.
  { intros ext3 st3 O3 E3 Hw Hc3. split; cbn.
    - by rewrite Hl.
    - intros e1 e2 sta' ph' td w xu. rewrite wanted_snoc, <-L2, <-Hw. split.
      + intros (co & [Hi|Hi]%elem_of_app); [|right; eauto]. left. rewrite app_assoc in Hi. 
        apply (obs_in_app new ext) ; [done|]. apply (obs_in_app (new ++ ext) ext2); [done|]. eauto.
      + intros [Hi|[co Hi]]; [|exists co; apply elem_of_app; by right].
        destruct Hi as [co Hi]. exists co. apply elem_of_app. left. apply elem_of_app. by left.
    - intros e1 e2 sta' ph' td w xu co [Hi|Hi]%elem_of_app.
      + apply elem_of_app in Hi as [Hi|Hi]; [|apply elem_of_app in Hi as [Hi%R2|Hi%A5]; done].
        destruct (L3 _ _ _ _ _ _ _ _ Hi). rewrite E3, A6, R9. split; by do 3 apply first_prm_grow.
      + destruct (Hc3 _ _ _ _ _ _ _ _ Hi). rewrite E3. split; by apply first_prm_grow.
    - intros p err' Hp. destruct (Hrf p err' Hp) as (s' & H1 & H2 & H3 & H4). exists s'. split; [done|]. split; [done|]. split; [done|].
      intros He. destruct (H4 He). split; [done|]. rewrite E3, A6. by do 2 apply first_prm_grow.
    - split; [done|]. intros E. by destruct dn.
    - done.
    - rewrite R4. split; [done|]. intros E. done. }
  assert (okstate (5 * S (length dn)) st2 ((new ++ ext ++ ext2) ++ [])) as O2.
  { rewrite app_nil_r, app_assoc. eapply ok_mono; [|done]. lia. }
  assert (∀ b : Prop, (∀ e1 e2 sta' ph' td w xu, wanted ttt cfg c xc h ref [(sta, ph, k)] e1 e2 sta' ph' td w xu → False) →
     linv (dn ++ [(sta, ph, k)]) (Loop st2 (l_ref l1) (l_try l1) (l_ok l1)) ((new ++ ext ++ ext2) ++ [])) as Hnone.
  { intros _ H. apply Hfin; [done|by rewrite app_nil_r| |].
    - intros. split; [intros (co & ?%elem_of_nil); done|]. intros Hw. exfalso. by eapply H.
    - intros ? ? ? ? ? ? ? ? ?%elem_of_nil. done. }
  assert (∀ e1 e2 sta' ph' td w xu, wanted ttt cfg c xc h ref [(sta, ph, k)] e1 e2 sta' ph' td w xu →
    e1 = e_id ref ∧ e2 = k ∧ sta' = sta ∧ ph' = ph ∧ available ttt cfg h ev s sta ph pn ∧ (e_time ref <= p_time pr)%Z ∧ (e_time ev <= p_time pn)%Z ∧ value_ok cfg xc ref ev sta ph pr pn m td w xu) as Hinv.
  { intros e1 e2 sta' ph' td w xu (E & Hin & ev' & s' & pr' & pn' & ir' & m' & W). apply elem_of_list_singleton in Hin. simplify_eq.
    destruct W as (W1 & W2 & W3 & W4 & W5 & W6 & W7 & W8 & W9 & W10 & W11). simplify_eq. done. }
  destruct ok; cbn [negb].
  2: { exists (Loop st2 (l_ref l1) (l_try l1) (l_ok l1)). eexists. split; [done|]. apply (Hnone True). intros ? ? ? ? ? ? ? W%Hinv. destruct W as (_ & _ & _ & _ & W & _). by apply A3 in W. }
  destruct (decide (p_time pr - e_time ref < 0)%Z) as [D1|D1].
  { eexists _, _. split; [done|]. apply (Hnone True). intros ? ? ? ? ? ? ? W%Hinv. destruct W as (_ & _ & _ & _ & _ & W & _). lia. }
  destruct (decide (p_time pn - e_time ev < 0)%Z) as [D2|D2].
  { eexists _, _. split; [done|]. apply (Hnone True). intros ? ? ? ? ? ? ? W%Hinv. destruct W as (_ & _ & _ & _ & _ & _ & W & _). lia. }
  unfold class_weight. rewrite Hiw. cbn [rbind].
  destruct (observation cfg xc ref ev sta ph pr pn (pr_weight ir) (pr_weight iw) m) as [[[td w] xu] co] eqn:Eo.
  pose proof (observation_ok ev sta ph pr pn ir iw m td w xu co Hir Hiw Eo) as Hv.
  eexists _, _. split; [done|]. cbn [l_ref l_try l_ok]. apply (Hfin [AddObs (e_id ref) k sta ph td w xu co]).
  - rewrite app_assoc. eapply ok_mono; [|apply ok_push; [exact A2|done|done]]. lia.
  - done.
  - intros e1 e2 sta' ph' td' w' xu'. split.
    + intros (co' & Hi%elem_of_list_singleton). injection Hi as -> -> -> -> -> -> -> ->. split; [done|]. split; [by left|].
      exists ev, s, pr, pn, ir, m. split_and!; try done; [by apply R6|by apply A3|lia|lia|by apply Hv].
    + intros W%Hinv. destruct W as (-> & -> & -> & -> & _ & _ & _ & W). apply Hv in W as (-> & -> & ->). exists co. by left.
  - intros ? ? ? ? ? ? ? ? Hi%elem_of_list_singleton. injection Hi as -> -> -> -> -> -> -> ->. rewrite <-Hid. split; [rewrite A6; apply first_prm_grow; by apply R7|by apply A4].
Qed.

Lemma loop_ok todo : ∀ dn l new, linv dn l new → dn ++ todo = all →
  ∃ l' new', rloop (obs_step ttt km cfg c xc ref fixed) todo l = Ok l' ∧ linv all l' new'.
Proof using Hready Hbound Hhist.
  induction todo as [|t todo IH]; intros dn l new L E.
  { rewrite app_nil_r in E. subst dn. exists l, new. done. }
  cbn [rloop]. destruct (step_ok dn l new t L) as (l1 & n1 & S1 & S2).
  - rewrite <-E, app_length. cbn. lia.
  - rewrite <-E. apply elem_of_app. right. by left.
  - rewrite S1. cbn [rbind]. eapply IH; [done|]. by rewrite <-app_assoc.
Qed.

Lemma add_all_ok : ∃ l' new, add_observations ttt km cfg c xc (e_id ref) all fixed (run 0%R h, h) = 
    Ok (l_st l', bool_decide (l_try l' = 0) || bool_decide (0 < l_ok l')) ∧ linv all l' new.
Proof using Hready Hbound Hhist.
  unfold add_observations. pose proof Hready as (_ & Href & _). rewrite Href. cbn [rbind at_].
  destruct (loop_ok all [] (Loop (run 0%R h, h) None 0 0) []) as (l' & new & E & L).
  - split; cbn; try done.
    + split; cbn; try done; [by rewrite app_nil_r|]. by intros ? ? ? ? ?%elem_of_nil.
    + intros. split; [intros (co & ?%elem_of_nil); done|]. intros (_ & ?%elem_of_nil & _). done.
    + by intros ? ? ? ? ? ? ? ? ?%elem_of_nil.
    + split; [lia|]. by intros (t & ?%elem_of_nil & _).
  - done.
  - rewrite E. cbn [rbind]. exists l', new. done.
Qed.
End proofs.

Lemma legit_params ttt km cfg c ref fixed h all e sta ph o :
  legit ttt km cfg c ref fixed h all e sta ph o → params_wanted ttt cfg km c h ref all fixed e sta ph o.
Proof.
  intros (ev & s & p & [[[[tm azim] dip] dtdd] dtdh] & ch & L1 & L2 & L3 & L4 & -> & L6 & L7).
  exists ev, s, p, tm, azim, dip, dtdd, dtdh. split_and!; try done; cbn [params_of op_res op_dx op_dy].
  - unfold sec. replace (10 ^ 6)%R with 1000000%R by ring. done.
  - replace ((90 - azim) * PI / 180)%R with (PI / 2 - azim * PI / 180)%R by field. rewrite cos_shift. ring.
  - replace ((90 - azim) * PI / 180)%R with (PI / 2 - azim * PI / 180)%R by field. rewrite sin_shift. ring.
Qed.

(** *** C43 *)
(** The observations given to the solver are exactly the wanted ones, each with the parameters of both events; the
    parameters are those of the travel time table; the result tells whether any travel time was found. *)
Theorem C43_observations ttt km cfg c xc ref fixed h order :
  ready cfg c ref order → Forall phase_ok h → (N.of_nat (2 * (length h + 5 * length order)) < 2 ^ 32)%N →
  ∃ new b, add_observations ttt km cfg c xc (e_id ref) order fixed (run 0%R h, h) = Ok ((run 0%R (h ++ new), h ++ new), b) ∧
    hist_ok (h ++ new) ∧ (complete h → complete (h ++ new)) ∧
    (∀ e1 e2 sta ph td w xu, (∃ co, AddObs e1 e2 sta ph td w xu co ∈ new) ↔ wanted ttt cfg c xc h ref order e1 e2 sta ph td w xu) ∧
    (∀ e sta ph o, AddPrm e sta ph o ∈ new → params_wanted ttt cfg km c h ref order fixed e sta ph o) ∧
    (b = true ↔ order = [] ∨ some_travel_time ttt cfg c h ref order).
Proof.
  intros Hr HF Hb. destruct (add_all_ok ttt km cfg c xc ref fixed h order Hr Hb HF) as (l & new & E & L).
  destruct L as [L1 L2 L3 L4 L5 L6 L7].
  assert (l_st l = (run 0%R (h ++ new), h ++ new)) as El.
  { destruct L1 as [O1 O2 _ _ _]. destruct (l_st l) as [a b]. cbn in *. by subst. }
  exists new, (bool_decide (l_try l = 0) || bool_decide (0 < l_ok l)). split; [by rewrite E, El|].
  split. { pose proof (ok_hist _ _ _ _ _ _ _ _ Hb HF _ _ _ L1) as Hh. rewrite El in Hh. apply Hh. lia. }
  split.
  { intros Hc e1 e2 sta ph a Ha. unfold first_obs in Ha. rewrite first_of_app in Ha.
    destruct (first_of obs_of h (e1, e2, sta, ph)) as [a'|] eqn:Eh.
    - destruct (Hc e1 e2 sta ph a' Eh). split; by apply first_prm_grow.
    - apply first_of_Some in Ha as (x & Hx & Ex). destruct x as [f1 f2 s q td w xu co| |]; cbn in Ex; try done. injection Ex as -> -> -> -> _.
      rewrite El in L3. cbn in L3. by eapply L3. }
  split; [done|]. split; [intros e sta ph o Ho; apply legit_params; by apply (ok_prm _ _ _ _ _ _ _ _ _ _ _ L1)|].
  rewrite orb_true_iff, !bool_decide_eq_true, L5, L6. unfold some_travel_time, ref_avail. split.
  - intros [?|([[sta ph] k] & Hi & s & p & H)]; [by left|right]. cbn in H. eauto 10.
  - intros [?|(sta & ph & k & s & p & Hi & H)]; [by left|right]. exists (sta, ph, k). eauto.
Qed.

(** The weight grows with the coefficient from the plain weight to the scaled one. *)
Theorem C43_weight cfg xc ref ev sta ph pr pn m td w xu w0 : (1 <= oc_scale cfg)%R → (0 <= w0)%R → base_weight cfg pr pn w0 →
  value_ok cfg xc ref ev sta ph pr pn m td w xu →
  (∀ lag co, correlated xc (e_id ref) (e_id ev) sta ph m lag co → (Rabs co <= 1)%R) →
  (w0 <= w <= w0 * oc_scale cfg)%R ∧ (xu = false → w = w0) ∧
  (xu = true → ∃ lag co, correlated xc (e_id ref) (e_id ev) sta ph m lag co ∧ (Rabs co = 1 → w = w0 * oc_scale cfg)%R).
Proof.
  intros Hs Hw Hb (w1 & Hb1 & Hv) Hco.
  assert (w1 = w0) as ->.
  { unfold base_weight in *. destruct (oc_unc cfg); [|congruence].
    destruct Hb as (? & ? & H1 & H2 & ->), Hb1 as (? & ? & H3 & H4 & ->). by simplify_eq. }
  destruct Hv as [(lag & co & Hc & -> & _ & ->)|(_ & -> & _ & ->)].
  - pose proof (Hco _ _ Hc). pose proof (Rabs_pos co).
    assert (0 <= (oc_scale cfg - 1) * Rabs co <= oc_scale cfg - 1)%R by nra.
    split; [nra|]. split; [done|]. intros _. exists lag, co. split; [done|]. intros ->. ring.
  - split; [nra|]. split; [done|]. done.
Qed.
Theorem C43_weight_monotone cfg xc xc' ref ev ref' ev' sta ph sta' ph' pr pn pr' pn' m m' td td' w w' lag lag' co co' w0 :
  (1 <= oc_scale cfg)%R → (0 <= w0)%R → base_weight cfg pr pn w0 → base_weight cfg pr' pn' w0 →
  correlated xc (e_id ref) (e_id ev) sta ph m lag co → correlated xc' (e_id ref') (e_id ev') sta' ph' m' lag' co' →
  value_ok cfg xc ref ev sta ph pr pn m td w true → value_ok cfg xc' ref' ev' sta' ph' pr' pn' m' td' w' true →
  (Rabs co <= Rabs co' → w <= w')%R.
Proof.
  intros Hs Hw Hb Hb' [Hc _] [Hc' _] (w1 & B1 & V1) (w2 & B2 & V2) Hle.
  assert (w1 = w0 ∧ w2 = w0) as [-> ->].
  { unfold base_weight in *. destruct (oc_unc cfg); [|split; congruence].
    destruct Hb as (? & ? & H1 & H2 & ->), B1 as (? & ? & H3 & H4 & ->), Hb' as (? & ? & H5 & H6 & E), B2 as (? & ? & H7 & H8 & ->).
    simplify_eq. split; [done|]. congruence. }
  destruct V1 as [(l1 & c1 & [H1 _] & _ & _ & ->)|(_ & ? & _)]; [|done].
  destruct V2 as [(l2 & c2 & [H2 _] & _ & _ & ->)|(_ & ? & _)]; [|done]. simplify_eq.
  apply Rmult_le_compat_l; [done|]. apply Rplus_le_compat_l. apply Rmult_le_compat_l; lra.
Qed.

(** Seen from the other event the observation is the opposite one. *)
Lemma xc_get_swap (xc : gmap N (gmap string (gmap string (gmap N (@entry R R))))) a b s p :
  (at4 xc a s p b = None ∨ at4 xc b s p a = None) →
  xc_get Ropp xc b a s p = (λ e, Entry (e_valid e) (e_coeff e) (- e_lag e)%R) <$> xc_get Ropp xc a b s p.
Proof.
  intros H. unfold xc_get. destruct (at4 xc a s p b) as [e|], (at4 xc b s p a) as [e'|]; [by destruct H|done| |done].
  cbn. rewrite Ropp_involutive. by destruct e'.
Qed.
Theorem C43_symmetric cfg xc e1 e2 sta ph p1 p2 m td w xu :
  (let s := string_of_list_ascii sta in let p := string_of_list_ascii ph in at4 xc (e_id e1) s p (e_id e2) = None ∨ at4 xc (e_id e2) s p (e_id e1) = None) →
  value_ok cfg xc e1 e2 sta ph p1 p2 m td w xu → value_ok cfg xc e2 e1 sta ph p2 p1 m (- td)%R w xu.
Proof.
  intros Hx. pose proof (xc_get_swap xc (e_id e1) (e_id e2) _ _ Hx) as Hsw.
  assert (∀ lag co, correlated xc (e_id e2) (e_id e1) sta ph m lag co ↔ correlated xc (e_id e1) (e_id e2) sta ph m (- lag) co) as Hc.
  { intros lag co. unfold correlated. rewrite Hsw. destruct (xc_get _ xc (e_id e1) _ _ _) as [[v cc l]|]; cbn.
    - split; intros [[= -> -> E] ?]; (split; [|done]); [subst lag; by rewrite Ropp_involutive|]. by rewrite E, Ropp_involutive.
    - by split; intros [? _]. }
  unfold value_ok. cbn zeta.
  replace (IZR (p_time p2 - e_time e2 - (p_time p1 - e_time e1)) / 10 ^ 6)%R with (- (IZR (p_time p1 - e_time e1 - (p_time p2 - e_time e2)) / 10 ^ 6))%R
    by (rewrite !minus_IZR; field).
  intros (w0 & Hw & H). exists w0. split.
  { unfold base_weight in *. destruct (oc_unc cfg); [|done]. destruct Hw as (i & j & ? & ? & ->). exists j, i. split_and!; try done. lra. }
  destruct H as [(lag & co & H1 & H2 & H3 & H4)|(H1 & H2 & H3 & H4)].
  - left. exists (- lag)%R, co. rewrite Hc, Ropp_involutive. split_and!; try done. subst td. ring.
  - right. split; [|by subst]. intros lag co. rewrite Hc. apply H1.
Qed.

(** *** A concrete case *)
Module Case.
Definition tA : list ascii := ["A"%char]. Definition tP : list ascii := ["P"%char].
Definition dots : list ascii := ["."%char; "A"%char; "."%char].
Definition st : station R := Sta dots 0%R 0%R 0%R [] tA [].
Definition ev (k : N) (t : Z) : event R := Ev k t 0%R 0%R 0%R 0%R None.
Definition ph (k : N) (t : Z) : phase R := Pha k dots t 0%R 0%R tP [] tA [] [] (Some (Proc TP 1%R SrcCatalog)) None.
Definition cat : catalog R := Cat {[ dots := st ]} {[ 1%N := ev 1 0%Z; 2%N := ev 2 0%Z ]} {[ 1%N := [ph 1 3000000%Z]; 2%N := [ph 2 2500000%Z] ]}.
Definition cfg : obs_cfg := ObsCfg true true 2%R (λ _, Some (1 / 2)%R).
Definition tt (e : event R) (s : station R) (t : list ascii) : option (R * R * R * R * R) := Some (1, 0, 0, 1, 1)%R.
Definition xc : gmap N (gmap string (gmap string (gmap N (@entry R R)))) :=
  xc_add ∅ 1%N 2%N (string_of_list_ascii dots) (string_of_list_ascii tP) (Entry true (4 / 5)%R (1 / 10)%R).
Definition order : list (list ascii * list ascii * N) := [(dots, tP, 2%N)].

Lemma is_ready : ready cfg cat (ev 1 0%Z) order.
Proof.
  split; [|split; [done|]].
  - split.
    + intros k e. cbn. rewrite lookup_insert_Some, lookup_singleton_Some. naive_solver.
    + intros k s H. apply (lookup_singleton_Some dots k st s) in H as [<- <-]. done.
    + intros k p. unfold phs. cbn. destruct (decide (k = 1%N)) as [->|D1].
      { rewrite lookup_insert. cbn. intros ->%elem_of_list_singleton. cbn. split; [done|]. split; eexists; reflexivity. }
      rewrite lookup_insert_ne by done. destruct (decide (k = 2%N)) as [->|D2].
      { rewrite lookup_singleton. cbn. intros ->%elem_of_list_singleton. cbn. split; [done|]. split; eexists; reflexivity. }
      rewrite lookup_singleton_ne by done. cbn. by intros ?%elem_of_nil.
  - intros sta p k Hi%elem_of_list_singleton. injection Hi as -> -> ->. split_and!.
    + unfold tP. set_solver.
    + eexists; reflexivity.
    + eexists; reflexivity.
    + eexists _, _. split; [reflexivity|]. split; [reflexivity|]. eexists; reflexivity.
    + eexists _, _. split; reflexivity.
Qed.
(** Half a second of difference, corrected by the lag of a tenth; coefficient 0.8 and scale 2 give the weight 1.8 *)
Example observed : wanted tt cfg cat xc [] (ev 1 0%Z) order 1 2 dots tP (4 / 10)%R (9 / 5)%R true.
Proof.
  split; [done|]. split; [by left|].
  exists (ev 2 0%Z), st, (ph 1 3000000%Z), (ph 2 2500000%Z), (Proc TP 1%R SrcCatalog), (1 / 2)%R.
  split_and!; try done.
  - right. eexists; reflexivity.
  - right. eexists; reflexivity.
  - exists 1%R. split. { cbn. eexists _, _. split; [reflexivity|]. split; [reflexivity|]. cbn. lra. }
    left. exists (1 / 10)%R, (4 / 5)%R. split_and!.
    + split; [|rewrite Rabs_right; lra]. unfold xc. cbn [e_id ev]. reflexivity.
    + done.
    + cbn [p_time e_time ph ev]. replace (3000000 - 0 - (2500000 - 0))%Z with 500000%Z by lia. replace (10 ^ 6)%R with 1000000%R by ring. lra.
    + cbn. rewrite Rabs_right; lra.
Qed.
End Case.

(** A pair of a cluster file (rtddtool --clusters) whose pick is not in the catalog: end()->second is read. *)
Theorem C43_missing_pick_refuted : ∃ ttt cfg c xc ref order, integrity c ∧ c_ev c !! ref = Some (Case.ev 1 0%Z) ∧
  (∀ sta ph k, (sta, ph, k) ∈ order → is_Some (c_ev c !! k) ∧ is_Some (c_sta c !! sta)) ∧
  add_observations ttt 1%R cfg c xc ref order false (run 0%R [], []) = Bad.
Proof.
  exists Case.tt, Case.cfg, Case.cat, ∅, 1%N, [(Case.dots, ["S"%char], 2%N)].
  split; [apply Case.is_ready|]. split; [done|]. split; [|reflexivity].
  intros sta ph k Hi%elem_of_list_singleton. injection Hi as -> -> ->. split; eexists; reflexivity.
Qed.

Print Assumptions C43_missing_pick_refuted.
Print Assumptions C43_observations.
Print Assumptions C43_weight.
Print Assumptions C43_weight_monotone.
Print Assumptions C43_symmetric.
