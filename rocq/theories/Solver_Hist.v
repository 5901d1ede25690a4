(** Identifiers and the contents of the solver after any sequence of additions. *)
From Coq Require Import Ascii.
From stdpp Require Import numbers list gmap countable strings.
From Verif Require Import Time_Model Time_Proofs Index_Model Index_Props DDSystem_Model Solver_Model.

(** ** Identifiers *)
Lemma split_unique {A} (c : A) (a b r r' : list A) : c ∉ a → c ∉ b → a ++ c :: r = b ++ c :: r' → a = b ∧ r = r'.
Proof.
  revert b. induction a as [|x a IH]; intros [|y b] Ha Hb E; cbn in E.
  - by injection E.
  - injection E as -> _. exfalso. apply Hb. left.
  - injection E as -> _. exfalso. apply Ha. left.
  - injection E as -> E. rewrite not_elem_of_cons in Ha, Hb. destruct (IH b) as [-> ->]; tauto.
Qed.
Lemma dec_spec (n : N) : forallb is_dig (dec (Z.of_N n)) = true ∧ value (dec (Z.of_N n)) = Z.of_N n.
Proof.
  unfold dec. destruct (dec_aux_spec (S (Z.to_nat (Z.of_N n))) (Z.of_N n) []) as (p & E & Hv & Hd & _); [lia|lia|].
  rewrite E, app_nil_r. done.
Qed.
Lemma not_digit (c : ascii) (t : text) : is_dig c = false → forallb is_dig t = true → c ∉ t.
Proof. intros Hc Ht Hin. rewrite forallb_forall in Ht. apply elem_of_list_In, Ht in Hin. congruence. Qed.
Lemma dec_inj (n m : N) : dec (Z.of_N n) = dec (Z.of_N m) → n = m.
Proof. intros E. destruct (dec_spec n) as [_ H1]. destruct (dec_spec m) as [_ H2]. rewrite E in H1. lia. Qed.

Lemma ph_sta_inj (sta sta' ph ph' : text) : "@"%char ∉ ph → "@"%char ∉ ph' → ph_sta_id sta ph = ph_sta_id sta' ph' → sta = sta' ∧ ph = ph'.
Proof. intros H1 H2 E. unfold ph_sta_id in E. cbn [app] in E. destruct (split_unique _ _ _ _ _ H1 H2 E); done. Qed.
Lemma obs_id_inj (e1 e2 e1' e2' : N) (sta sta' ph ph' : text) : "@"%char ∉ ph → "@"%char ∉ ph' →
  obs_id e1 e2 sta ph = obs_id e1' e2' sta' ph' → (e1, e2, sta, ph) = (e1', e2', sta', ph').
Proof.
  intros H1 H2 E. unfold obs_id in E. cbn [app] in E.
  apply split_unique in E as [E1 E]; [|apply not_digit; [done|apply dec_spec]..].
  apply split_unique in E as [E2 E]; [|apply not_digit; [done|apply dec_spec]..].
  apply ph_sta_inj in E as [-> ->]; [|done..]. by rewrite (dec_inj _ _ E1), (dec_inj _ _ E2).
Qed.
Lemma split_at_id (sta ph : text) : "@"%char ∉ ph → split_at "@"%char (ph_sta_id sta ph) = Some (ph, sta).
Proof.
  unfold ph_sta_id. cbn [app]. induction ph as [|x ph IH]; intros H.
  - cbn [app split_at]. rewrite decide_True; done.
  - rewrite not_elem_of_cons in H. destruct H as [Hx H]. cbn [app split_at]. rewrite decide_False by congruence. by rewrite IH.
Qed.

(** ** Conversion of one identifier *)
Lemma conv_spec {T} `{Countable T} (s : idx T) (l : list T) (id : T) : Rep s l → (N.of_nat (S (length l)) < 2 ^ 32)%N →
  ∃ l', Rep (idx_convert s id).1 l' ∧ l `prefix_of` l' ∧ (length l' <= S (length l)) ∧ l' !! N.to_nat (idx_convert s id).2 = Some id ∧
    (∀ j x, l' !! j = Some x → l !! j = Some x ∨ x = id).
Proof.
  intros HR Hl. destruct (rep_convert s l id HR Hl) as [R1 R2]. eexists. split; [exact R1|].
  destruct (decide (id ∈ l)) as [Hin|Hin].
  - split; [done|]. split; [lia|]. split; [done|]. auto.
  - split; [by apply prefix_app_r|]. split; [rewrite app_length; cbn; lia|]. split; [done|].
    intros j x Hj. apply lookup_app_Some in Hj as [Hj|[_ Hj]]; [by left|]. apply list_lookup_singleton_Some in Hj as [_ <-]. by right.
Qed.
Lemma prefix_lookup' {A} (l l' : list A) (i : nat) (x : A) : l `prefix_of` l' → l !! i = Some x → l' !! i = Some x.
Proof. intros [k ->] Hx. by apply lookup_app_l_Some. Qed.

Section hist.
Context {D : Type}.
Variable d0 : D.
Notation obsv := (@obsv D).
Notation oprm := (@oprm D).
Notation solver := (@solver D).

(** ** Specification: the calls made *)
Inductive op :=
  | AddObs (e1 e2 : N) (sta ph : text) (td w : D) (xu : bool) (xc : D)
  | AddPrm (e : N) (sta ph : text) (o : oprm)
  | AddEv (e : N).
Definition apply (s : solver) (x : op) : solver :=
  match x with
  | AddObs e1 e2 sta ph td w xu xc => add_observation d0 s e1 e2 sta ph td w xu xc
  | AddPrm e sta ph o => add_params s e sta ph o
  | AddEv e => add_event s e
  end.
Definition run (h : list op) : solver := fold_left apply h (solver_init d0).

Notation key := (N * N * text * text)%type.
Notation pkey := (N * text * text)%type.
Definition obs_of (x : op) : option (key * (D * D * bool * D)) :=
  match x with AddObs e1 e2 sta ph td w xu xc => Some ((e1, e2, sta, ph), (td, w, xu, xc)) | _ => None end.
Definition prm_of (x : op) : option (pkey * oprm) := match x with AddPrm e sta ph o => Some ((e, sta, ph), o) | _ => None end.
(** The value of the first call for a key *)
Fixpoint first_of {K V} `{EqDecision K} (f : op → option (K * V)) (h : list op) (k : K) : option V :=
  match h with
  | [] => None
  | x :: r => match f x with Some (k', v) => if decide (k' = k) then Some v else first_of f r k | None => first_of f r k end
  end.
Definition first_obs := first_of obs_of.
Definition first_prm := first_of prm_of.
(** No phase name contains '@' *)
Definition phase_ok (x : op) : Prop :=
  match x with AddObs _ _ _ ph _ _ _ _ => "@"%char ∉ ph | AddPrm _ _ ph _ => "@"%char ∉ ph | AddEv _ => True end.

Lemma first_of_snoc {K V} `{EqDecision K} (f : op → option (K * V)) (h : list op) (x : op) (k : K) :
  first_of f (h ++ [x]) k = match first_of f h k with Some v => Some v | None => match f x with Some (k', v) => if decide (k' = k) then Some v else None | None => None end end.
Proof.
  induction h as [|y h IH]; cbn [app first_of]; [done|]. destruct (f y) as [[k' v]|]; [|done]. destruct (decide (k' = k)); done.
Qed.
Lemma first_of_Some {K V} `{EqDecision K} (f : op → option (K * V)) (h : list op) (k : K) (v : V) : first_of f h k = Some v → ∃ x, x ∈ h ∧ f x = Some (k, v).
Proof.
  induction h as [|y h IH]; [done|]. cbn [first_of]. destruct (f y) as [[k' v']|] eqn:E.
  - destruct (decide (k' = k)) as [->|]; [intros [= ->]; exists y; split; [left|done]|intros Hf].
    destruct (IH Hf) as (x & Hx & Ex). exists x. split; [by right|done].
  - intros Hf. destruct (IH Hf) as (x & Hx & Ex). exists x. split; [by right|done].
Qed.

(** ** The invariant *)
Definition key_id (k : key) : text := let '(e1, e2, sta, ph) := k in obs_id e1 e2 sta ph.
Definition key_ph (k : key) : text := k.2.
Definition omatch (le : list N) (lp : list text) (k : key) (a : D * D * bool * D) (o : obsv) : Prop :=
  let '(e1, e2, sta, ph) := k in
  let '(td, w, xu, xc) := a in
  le !! N.to_nat (ob_e1 o) = Some e1 ∧ le !! N.to_nat (ob_e2 o) = Some e2 ∧ lp !! N.to_nat (ob_ph o) = Some (ph_sta_id sta ph) ∧
  ob_diff o = td ∧ ob_apri o = w ∧ ob_xu o = xu ∧ ob_xc o = xc.
Record Inv (s : solver) (h : list op) (le : list N) (lp lo : list text) : Prop := {
  iv_ev : Rep (cv_ev s) le; iv_ph : Rep (cv_ph s) lp; iv_ob : Rep (cv_ob s) lo;
  iv_len : length le <= 2 * length h ∧ length lp <= length h ∧ length lo <= length h;
  iv_ids : ∀ j id, lo !! j = Some id → ∃ k a, first_obs h k = Some a ∧ id = key_id k ∧ "@"%char ∉ key_ph k;
  iv_pids : ∀ j id, lp !! j = Some id → ∃ sta ph, id = ph_sta_id sta ph ∧ "@"%char ∉ ph;
  iv_obs1 : ∀ i o, s_obs s !! i = Some o → ∃ k a, first_obs h k = Some a ∧ lo !! N.to_nat i = Some (key_id k) ∧ omatch le lp k a o;
  iv_obs2 : ∀ k a, first_obs h k = Some a → ∃ i o, s_obs s !! i = Some o ∧ lo !! N.to_nat i = Some (key_id k) ∧ omatch le lp k a o;
  iv_prm1 : ∀ e p o, get_prm s e p = Some o → ∃ ev sta ph, first_prm h (ev, sta, ph) = Some o ∧ le !! N.to_nat e = Some ev ∧ lp !! N.to_nat p = Some (ph_sta_id sta ph) ∧ "@"%char ∉ ph;
  iv_prm2 : ∀ ev sta ph o, first_prm h (ev, sta, ph) = Some o → ∃ e p, get_prm s e p = Some o ∧ le !! N.to_nat e = Some ev ∧ lp !! N.to_nat p = Some (ph_sta_id sta ph);
  iv_rest : s_stat s = ∅ ∧ s_delta s = ∅ }.

Lemma omatch_mono le le' lp lp' k a o : le `prefix_of` le' → lp `prefix_of` lp' → omatch le lp k a o → omatch le' lp' k a o.
Proof.
  intros H1 H2. destruct k as [[[e1 e2] sta] ph], a as [[[td w] xu] xc]. unfold omatch. intros (A & B & C & E).
  split; [by eapply prefix_lookup'|]. split; [by eapply prefix_lookup'|]. split; [by eapply prefix_lookup'|done].
Qed.
(** Keys of different observations have different identifiers *)
Lemma key_id_inj (k k' : key) : "@"%char ∉ key_ph k → "@"%char ∉ key_ph k' → key_id k = key_id k' → k = k'.
Proof. destruct k as [[[e1 e2] sta] ph], k' as [[[e1' e2'] sta'] ph']. cbn. intros. by apply obs_id_inj. Qed.
Lemma first_obs_ok (h : list op) (k : key) a : Forall phase_ok h → first_obs h k = Some a → "@"%char ∉ key_ph k.
Proof.
  intros HF Hf. apply first_of_Some in Hf as (x & Hx & Ex). rewrite Forall_forall in HF. specialize (HF x Hx).
  destruct x; try done. injection Ex as <- <-. done.
Qed.
Lemma first_prm_ok (h : list op) ev sta ph o : Forall phase_ok h → first_prm h (ev, sta, ph) = Some o → "@"%char ∉ ph.
Proof.
  intros HF Hf. apply first_of_Some in Hf as (x & Hx & Ex). rewrite Forall_forall in HF. specialize (HF x Hx).
  destruct x; try done. injection Ex as -> -> -> ->. done.
Qed.

Lemma inv_init : Inv (solver_init d0) [] [] [] [].
Proof.
  constructor; try apply rep_init; done.
Qed.

Lemma first_obs_other h x k : obs_of x = None → first_obs (h ++ [x]) k = first_obs h k.
Proof. intros E. unfold first_obs. rewrite first_of_snoc, E. by destruct (first_of obs_of h k). Qed.
Lemma first_prm_other h x k : prm_of x = None → first_prm (h ++ [x]) k = first_prm h k.
Proof. intros E. unfold first_prm. rewrite first_of_snoc, E. by destruct (first_of prm_of h k). Qed.

Lemma inv_step (s : solver) (h : list op) le lp lo (x : op) : Inv s h le lp lo → Forall phase_ok (h ++ [x]) → (N.of_nat (2 * length h + 2) < 2 ^ 32)%N →
  ∃ le' lp' lo', Inv (apply s x) (h ++ [x]) le' lp' lo'.
Proof.
  intros I HF Hb. assert (HFh : Forall phase_ok h) by (by apply Forall_app in HF as [? _]). assert (HFx : phase_ok x) by (apply Forall_app in HF as [_ HF]; by inversion HF).
  destruct (iv_len _ _ _ _ _ I) as (L1 & L2 & L3).
  destruct x as [e1 e2 sta ph td w xu xc|e sta ph o|e]; cbn [apply].
  - destruct (conv_spec (cv_ev s) le e1 (iv_ev _ _ _ _ _ I)) as (le1 & Re1 & Pe1 & Le1 & Ke1 & _); [lia|].
    destruct (conv_spec (idx_convert (cv_ev s) e1).1 le1 e2 Re1) as (le2 & Re2 & Pe2 & Le2 & Ke2 & _); [lia|].
    destruct (conv_spec (cv_ph s) lp (ph_sta_id sta ph) (iv_ph _ _ _ _ _ I)) as (lp' & Rp & Pp & Lp & Kp & Hp); [lia|].
    destruct (conv_spec (cv_ob s) lo (obs_id e1 e2 sta ph) (iv_ob _ _ _ _ _ I)) as (lo' & Ro & Po & Lo & Ko & Ho); [lia|].
    exists le2, lp', lo'. unfold add_observation.
    destruct (idx_convert (cv_ev s) e1) as [c1 i1]. cbn [fst snd] in *. destruct (idx_convert c1 e2) as [c2 i2].
    destruct (idx_convert (cv_ph s) _) as [cp ip]. destruct (idx_convert (cv_ob s) _) as [co io]. cbn [fst snd] in *.
    set (X := AddObs e1 e2 sta ph td w xu xc).
    assert (Pe : le `prefix_of` le2) by (by etrans).
    assert (Ke1' : le2 !! N.to_nat i1 = Some e1) by (by apply (prefix_lookup' le1)). clear Pe1 Pe2 Re1.
    assert (Hfst : ∀ k a, first_obs h k = Some a → first_obs (h ++ [X]) k = Some a).
    { intros k a Ha. unfold first_obs in *. by rewrite first_of_snoc, Ha. }
    assert (Hmem : is_Some (s_obs s !! io) ↔ is_Some (first_obs h (e1, e2, sta, ph))).
    { split.
      - intros [o Hs]. destruct (iv_obs1 _ _ _ _ _ I _ _ Hs) as (k & a & Ha & Hlo & _).
        assert (key_id k = obs_id e1 e2 sta ph) by (pose proof (prefix_lookup' _ _ _ _ Po Hlo); congruence).
        assert (k = (e1, e2, sta, ph)) as ->; [|by eexists]. apply key_id_inj; [by eapply first_obs_ok|done|done].
      - intros [a Ha]. destruct (iv_obs2 _ _ _ _ _ I _ _ Ha) as (i & o & Hs & Hlo & _).
        assert (N.to_nat i = N.to_nat io) as E; [|apply N2Nat.inj in E; subst; by eexists].
        eapply (NoDup_lookup lo'); [apply (rep_nodup _ _ Ro)|by eapply prefix_lookup'|exact Ko]. }
    constructor; try done.
    + rewrite app_length. cbn [length]. lia.
    + intros j id Hj. destruct (Ho j id Hj) as [Hj'| ->].
      * destruct (iv_ids _ _ _ _ _ I _ _ Hj') as (k & a & Ha & -> & Hk). exists k, a. split; [by apply Hfst|]. done.
      * exists (e1, e2, sta, ph). unfold first_obs. rewrite first_of_snoc. cbn [obs_of X]. rewrite decide_True by done.
        destruct (first_of obs_of h _) as [v|]; eexists; (split; [done|]); split; done.
    + intros j id Hj. destruct (Hp j id Hj) as [Hj'| ->]; [by eapply iv_pids|]. by exists sta, ph.
    + cbn [s_obs]. intros i o Hs. destruct (s_obs s !! io) as [o'|] eqn:Eo.
      * destruct (iv_obs1 _ _ _ _ _ I _ _ Hs) as (k & a & Ha & Hlo & Hm). exists k, a. split; [by apply Hfst|]. split; [by eapply prefix_lookup'|by eapply omatch_mono].
      * apply lookup_insert_Some in Hs as [[<- <-]|[Hne Hs]].
        -- exists (e1, e2, sta, ph), (td, w, xu, xc). split; [|split; [done|]].
           ++ unfold first_obs. rewrite first_of_snoc. destruct (first_of obs_of h (e1, e2, sta, ph)) as [v|] eqn:Ef.
              { exfalso. destruct Hmem as [_ [? ?]]; [by exists v|done]. }
              cbn [obs_of X]. by rewrite decide_True.
           ++ cbn. done.
        -- destruct (iv_obs1 _ _ _ _ _ I _ _ Hs) as (k & a & Ha & Hlo & Hm). exists k, a. split; [by apply Hfst|]. split; [by eapply prefix_lookup'|by eapply omatch_mono].
    + cbn [s_obs]. intros k a Ha. unfold first_obs in Ha. rewrite first_of_snoc in Ha. destruct (first_of obs_of h k) as [v|] eqn:Ef.
      * injection Ha as <-. destruct (iv_obs2 _ _ _ _ _ I _ _ Ef) as (i & o & Hs & Hlo & Hm). exists i, o. split; [|split; [by eapply prefix_lookup'|by eapply omatch_mono]].
        destruct (s_obs s !! io) eqn:Eo; [done|]. rewrite lookup_insert_ne; [done|]. intros ->. congruence.
      * cbn [obs_of X] in Ha. destruct (decide _) as [<-|]; [|done]. injection Ha as <-.
        destruct (s_obs s !! io) as [o'|] eqn:Eo.
        { exfalso. apply eq_None_not_Some in Ef. apply Ef, Hmem. rewrite ?Eo. by exists o'. }
        eexists io, _. split; [apply lookup_insert|]. split; [done|]. cbn. done.
    + intros e p o Hm. destruct (iv_prm1 _ _ _ _ _ I e p o Hm) as (ev & sta' & ph' & H1 & H2 & H3 & H4). exists ev, sta', ph'.
      rewrite first_prm_other by done. split; [done|]. split; [by eapply prefix_lookup'|]. split; [by eapply prefix_lookup'|done].
    + intros ev sta' ph' o Ho'. rewrite first_prm_other in Ho' by done. destruct (iv_prm2 _ _ _ _ _ I _ _ _ _ Ho') as (e & p & H1 & H2 & H3).
      exists e, p. split; [done|]. split; by eapply prefix_lookup'.
    + apply (iv_rest _ _ _ _ _ I).
  - destruct (conv_spec (cv_ev s) le e (iv_ev _ _ _ _ _ I)) as (le1 & Re1 & Pe1 & Le1 & Ke1 & _); [lia|].
    destruct (conv_spec (cv_ph s) lp (ph_sta_id sta ph) (iv_ph _ _ _ _ _ I)) as (lp' & Rp & Pp & Lp & Kp & Hp); [lia|].
    exists le1, lp', lo. unfold add_params.
    destruct (idx_convert (cv_ev s) e) as [c1 i1]. destruct (idx_convert (cv_ph s) _) as [cp ip]. cbn [fst snd] in *.
    set (X := AddPrm e sta ph o).
    set (S' := Solver _ _ _ _ _ _ _ _).
    assert (Hget : ∀ a b, get_prm S' a b = if decide (a = i1 ∧ b = ip) then match get_prm s a b with Some v => Some v | None => Some o end else get_prm s a b).
    { intros a b. unfold get_prm, S'. cbn [s_prm]. destruct (decide (a = i1)) as [->|Hne].
      2: { rewrite lookup_insert_ne by done. rewrite decide_False by tauto. done. }
      rewrite lookup_insert. cbn [mbind option_bind]. destruct (decide (b = ip)) as [->|Hne].
      - rewrite decide_True by done. destruct (s_prm s !! i1) as [m|]; cbn [default from_option mbind option_bind]; unfold id.
        + destruct (m !! ip) eqn:Em; [done|by rewrite lookup_insert].
        + by rewrite lookup_empty, lookup_insert.
      - rewrite decide_False by tauto. destruct (s_prm s !! i1) as [m|]; cbn [default from_option mbind option_bind]; unfold id.
        + destruct (m !! ip); [done|by rewrite lookup_insert_ne].
        + rewrite lookup_empty, lookup_insert_ne by done. apply lookup_empty. }
    assert (Hmem : is_Some (get_prm s i1 ip) ↔ is_Some (first_prm h (e, sta, ph))).
    { split.
      - intros [o' Ho]. destruct (iv_prm1 _ _ _ _ _ I _ _ _ Ho) as (ev & sta' & ph' & H1 & H2 & H3 & H4).
        pose proof (prefix_lookup' _ _ _ _ Pe1 H2). pose proof (prefix_lookup' _ _ _ _ Pp H3).
        assert (ev = e) as -> by congruence. assert (Heq : ph_sta_id sta' ph' = ph_sta_id sta ph) by congruence.
        apply ph_sta_inj in Heq as [-> ->]; [|done..]. by eexists.
      - intros [o' Ho]. destruct (iv_prm2 _ _ _ _ _ I _ _ _ _ Ho) as (a & b & H1 & H2 & H3).
        assert (a = i1) as ->. { apply N2Nat.inj. eapply (NoDup_lookup le1); [apply (rep_nodup _ _ Re1)|by eapply prefix_lookup'|done]. }
        assert (b = ip) as ->. { apply N2Nat.inj. eapply (NoDup_lookup lp'); [apply (rep_nodup _ _ Rp)|by eapply prefix_lookup'|done]. }
        by eexists. }
    constructor; try done; try apply I.
    + rewrite app_length. cbn [length]. lia.
    + intros j id Hj. destruct (iv_ids _ _ _ _ _ I _ _ Hj) as (k & a & Ha & H2). exists k, a. by rewrite first_obs_other.
    + intros j id Hj. destruct (Hp j id Hj) as [Hj'| ->]; [by eapply iv_pids|]. by exists sta, ph.
    + intros i o' Hs. destruct (iv_obs1 _ _ _ _ _ I _ _ Hs) as (k & a & Ha & Hlo & Hm). exists k, a. rewrite first_obs_other by done. split; [done|]. split; [done|by eapply omatch_mono].
    + intros k a Ha. rewrite first_obs_other in Ha by done. destruct (iv_obs2 _ _ _ _ _ I _ _ Ha) as (i & o' & Hs & Hlo & Hm). exists i, o'. split; [done|]. split; [done|by eapply omatch_mono].
    + intros a b o' Ho'. rewrite Hget in Ho'.
      assert (Hold : get_prm s a b = Some o' → ∃ ev sta ph, first_prm (h ++ [X]) (ev, sta, ph) = Some o' ∧ le1 !! N.to_nat a = Some ev ∧ lp' !! N.to_nat b = Some (ph_sta_id sta ph) ∧ "@"%char ∉ ph).
      { intros Hg. destruct (iv_prm1 _ _ _ _ _ I _ _ _ Hg) as (ev & sta' & ph' & H1 & H2 & H3 & H4). exists ev, sta', ph'.
        split; [unfold first_prm in *; by rewrite first_of_snoc, H1|]. split; [by eapply prefix_lookup'|]. split; [by eapply prefix_lookup'|done]. }
      destruct (decide _) as [[-> ->]|]; [|by apply Hold]. destruct (get_prm s i1 ip) as [v|] eqn:Eg; [apply Hold; by rewrite <- Ho'|].
      injection Ho' as <-. exists e, sta, ph. split; [|done]. unfold first_prm. rewrite first_of_snoc.
      destruct (first_of prm_of h (e, sta, ph)) as [v|] eqn:Ef.
      { exfalso. destruct Hmem as [_ [? ?]]; [by exists v|congruence]. }
      cbn [prm_of X]. by rewrite decide_True.
    + intros ev sta' ph' o' Ho'. unfold first_prm in Ho'. rewrite first_of_snoc in Ho'. destruct (first_of prm_of h (ev, sta', ph')) as [v|] eqn:Ef.
      * injection Ho' as <-. destruct (iv_prm2 _ _ _ _ _ I _ _ _ _ Ef) as (a & b & H1 & H2 & H3). exists a, b.
        split; [|split; by eapply prefix_lookup']. rewrite Hget, H1. by destruct (decide _).
      * cbn [prm_of X] in Ho'. destruct (decide _) as [Heq|]; [|done]. injection Heq as <- <- <-. injection Ho' as <-.
        exists i1, ip. split; [|done]. rewrite Hget, decide_True by done. destruct (get_prm s i1 ip) as [v|] eqn:Eg; [|done].
        exfalso. destruct Hmem as [[? ?] _]; [by rewrite ?Eg|]. unfold first_prm in *. congruence.


  - destruct (conv_spec (cv_ev s) le e (iv_ev _ _ _ _ _ I)) as (le1 & Re1 & Pe1 & Le1 & Ke1 & _); [lia|].
    exists le1, lp, lo. unfold add_event. set (X := AddEv e). constructor; try done; try apply I.
    + rewrite app_length. cbn [length]. lia.
    + intros j id Hj. destruct (iv_ids _ _ _ _ _ I _ _ Hj) as (k & a & Ha & H2). exists k, a. by rewrite first_obs_other.
    + intros i o Hs. destruct (iv_obs1 _ _ _ _ _ I _ _ Hs) as (k & a & Ha & Hlo & Hm). exists k, a. rewrite first_obs_other by done. split; [done|]. split; [done|by eapply omatch_mono].
    + intros k a Ha. rewrite first_obs_other in Ha by done. destruct (iv_obs2 _ _ _ _ _ I _ _ Ha) as (i & o & Hs & Hlo & Hm). exists i, o. split; [done|]. split; [done|by eapply omatch_mono].
    + intros a b o Ho. destruct (iv_prm1 _ _ _ _ _ I a b o Ho) as (ev & sta' & ph' & H1 & H2 & H3 & H4). exists ev, sta', ph'. rewrite first_prm_other by done.
      split; [done|]. split; [by eapply prefix_lookup'|done].
    + intros ev sta' ph' o Ho. rewrite first_prm_other in Ho by done. destruct (iv_prm2 _ _ _ _ _ I _ _ _ _ Ho) as (a & b & H1 & H2 & H3). exists a, b. split; [done|]. split; [by eapply prefix_lookup'|done].
Qed.

Lemma inv_run (h : list op) : Forall phase_ok h → (N.of_nat (2 * length h) < 2 ^ 32)%N → ∃ le lp lo, Inv (run h) h le lp lo.
Proof.
  unfold run. induction h as [|x h IH] using rev_ind; intros HF Hb; [exists [], [], []; apply inv_init|].
  rewrite app_length in Hb. cbn [length] in Hb.
  destruct IH as (le & lp & lo & I); [by apply Forall_app in HF as [? _]|lia|].
  rewrite fold_left_app. cbn [fold_left]. eapply inv_step; [exact I|done|lia].
Qed.
End hist.
