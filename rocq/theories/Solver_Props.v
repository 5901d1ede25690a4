(** C37: the double difference system built from the calls made.
    C38: observations are kept apart and reported under their names.
    C40: which events are given a solution. *)
From Coq Require Import Ascii.
From stdpp Require Import numbers list list_numbers gmap sets countable strings.
From Verif Require Import Time_Model Index_Model Index_Props DDSystem_Model Solver_Model Solver_Hist Solver_Prep Solver_Sys.

Section props.
Context {D : Type}.
Variable d0 d1 : D.
Variable dadd dsub dmul : D → D → D.
Variable is0 : D → bool.
Variable dquot : D → nat → D.
Variable finite : D → bool.
Notation obsv := (@obsv D).
Notation oprm := (@oprm D).
Notation solver := (@solver D).
Notation srow := (@srow D).
Notation op := (@op D).
Notation prepare := (prepare d0 d1 dadd dsub dmul is0 dquot).
Notation run := (@run D d0).
Notation load_solutions := (load_solutions d0 finite).

(** ** Specification *)
(** Phase names do not contain '@' and indexes fit 32 bits *)
Definition hist_ok (h : list op) : Prop := Forall phase_ok h ∧ (N.of_nat (2 * length h) < 2 ^ 32)%N.
(** The parameters of both events of every observation have been given *)
Definition complete (h : list op) : Prop := ∀ e1 e2 sta ph a, first_obs h (e1, e2, sta, ph) = Some a →
  is_Some (first_prm h (e1, sta, ph)) ∧ is_Some (first_prm h (e2, sta, ph)).
(** The indexes given to events, phases at stations and observations *)
Definition ev_index (s : solver) (e : N) : option nat := N.to_nat <$> idx_toIdx (cv_ev s) e.
Definition ph_index (s : solver) (sta ph : text) : option nat := N.to_nat <$> idx_toIdx (cv_ph s) (ph_sta_id sta ph).
Definition obs_index (s : solver) (k : N * N * text * text) : option nat := N.to_nat <$> idx_toIdx (cv_ob s) (key_id k).
(** The weights, other than zero, of the rows among the first [nObs] which move event x for phase/station q *)
Definition row_uses (S : dds D) (x q : nat) : list D :=
  seq 0 (nObs S) ≫= λ i,
    match aW S !! i, aPh S !! i with
    | Some w, Some q' =>
        if is0 w then [] else
          (if decide (aEv1 S !! i = Some (Some x) ∧ q' = q) then [w] else []) ++ (if decide (aEv2 S !! i = Some (Some x) ∧ q' = q) then [w] else [])
    | _, _ => []
    end.

(** ** From the invariant of the history *)
Section inv.
Variables (s : solver) (h : list op) (le : list N) (lp lo : list text).
Hypothesis I : Inv s h le lp lo.
Lemma ev_index_le (e : N) (x : nat) : ev_index s e = Some x ↔ le !! x = Some e.
Proof using I.
  unfold ev_index, idx_toIdx. rewrite fmap_Some. split.
  - intros (i & Hi & ->). by apply (rep_to _ _ (iv_ev _ _ _ _ _ I)).
  - intros Hx. exists (N.of_nat x). split; [|lia]. apply (rep_to _ _ (iv_ev _ _ _ _ _ I)). by rewrite Nat2N.id.
Qed.
Lemma ph_index_lp (sta ph : text) (x : nat) : ph_index s sta ph = Some x ↔ lp !! x = Some (ph_sta_id sta ph).
Proof using I.
  unfold ph_index, idx_toIdx. rewrite fmap_Some. split.
  - intros (i & Hi & ->). by apply (rep_to _ _ (iv_ph _ _ _ _ _ I)).
  - intros Hx. exists (N.of_nat x). split; [|lia]. apply (rep_to _ _ (iv_ph _ _ _ _ _ I)). by rewrite Nat2N.id.
Qed.
Lemma obs_index_lo (k : N * N * text * text) (x : nat) : obs_index s k = Some x ↔ lo !! x = Some (key_id k).
Proof using I.
  unfold obs_index, idx_toIdx. rewrite fmap_Some. split.
  - intros (i & Hi & ->). by apply (rep_to _ _ (iv_ob _ _ _ _ _ I)).
  - intros Hx. exists (N.of_nat x). split; [|lia]. apply (rep_to _ _ (iv_ob _ _ _ _ _ I)). by rewrite Nat2N.id.
Qed.
Lemma same_index {A} (l : list A) (i j : nat) (x : A) : NoDup l → l !! i = Some x → l !! j = Some x → i = j.
Proof using. intros. by eapply NoDup_lookup. Qed.
Lemma prm_named (e p : N) (ev : N) (sta ph : text) : le !! N.to_nat e = Some ev → lp !! N.to_nat p = Some (ph_sta_id sta ph) → "@"%char ∉ ph →
  Forall phase_ok h → get_prm s e p = first_prm h (ev, sta, ph).
Proof using I.
  intros He Hp Hph HF. destruct (first_prm h (ev, sta, ph)) as [o|] eqn:Ef.
  - destruct (iv_prm2 _ _ _ _ _ I _ _ _ _ Ef) as (e' & p' & H1 & H2 & H3).
    assert (e' = e) as <- by (apply N2Nat.inj; eapply same_index; [apply (rep_nodup _ _ (iv_ev _ _ _ _ _ I))|done|done]).
    assert (p' = p) as <- by (apply N2Nat.inj; eapply same_index; [apply (rep_nodup _ _ (iv_ph _ _ _ _ _ I))|done|done]). done.
  - destruct (get_prm s e p) as [o|] eqn:Eg; [|done]. destruct (iv_prm1 _ _ _ _ _ I _ _ _ Eg) as (ev' & sta' & ph' & H1 & H2 & H3 & H4).
    assert (ev' = ev) as -> by congruence. assert (E : ph_sta_id sta' ph' = ph_sta_id sta ph) by congruence. apply ph_sta_inj in E as [-> ->]; [|done..]. congruence.
Qed.
Lemma inv_size : size (s_obs s) = length lo ∧ ∀ i, is_Some (s_obs s !! i) ↔ N.to_nat i < length lo.
Proof using I.
  assert (Hd : ∀ i, is_Some (s_obs s !! i) ↔ N.to_nat i < length lo).
  { intros i. split.
    - intros [o Ho]. destruct (iv_obs1 _ _ _ _ _ I _ _ Ho) as (k & a & _ & Hl & _). by eapply lookup_lt_Some.
    - intros Hi. destruct (lookup_lt_is_Some_2 lo _ Hi) as [id Hid]. destruct (iv_ids _ _ _ _ _ I _ _ Hid) as (k & a & Ha & -> & _).
      destruct (iv_obs2 _ _ _ _ _ I _ _ Ha) as (j & o & Ho & Hj & _).
      assert (j = i) as -> by (apply N2Nat.inj; eapply same_index; [apply (rep_nodup _ _ (iv_ob _ _ _ _ _ I))|done|done]). by eexists. }
  split; [|done]. assert (HP : (map_to_list (s_obs s)).*1 ≡ₚ N.of_nat <$> seq 0 (length lo)).
  { apply NoDup_Permutation; [apply NoDup_fst_map_to_list|apply NoDup_fmap_2; [apply _|apply NoDup_seq]|].
    intros i. rewrite !elem_of_list_fmap. split.
    - intros ([i' o] & -> & Hin). apply elem_of_map_to_list in Hin. exists (N.to_nat i'). cbn. split; [lia|]. apply elem_of_seq. split; [lia|]. apply Hd. by eexists.
    - intros (j & -> & Hj%elem_of_seq). destruct (Hd (N.of_nat j)) as [_ [o Ho]]; [lia|]. exists (N.of_nat j, o). split; [done|]. by apply elem_of_map_to_list. }
  apply Permutation_length in HP. rewrite !fmap_length, seq_length in HP. by unfold size, map_size.
Qed.
Lemma inv_wfS : wfS s.
Proof using I.
  destruct inv_size as [H1 H2]. split.
  - intros i. rewrite H1. apply H2.
  - intros i o Ho. destruct (iv_obs1 _ _ _ _ _ I _ _ Ho) as ([[[e1 e2] sta] ph] & [[[td w] xu] xc] & _ & _ & A & B & C & _).
    rewrite (rep_size _ _ (iv_ev _ _ _ _ _ I)), (rep_size _ _ (iv_ph _ _ _ _ _ I)). split; [by eapply lookup_lt_Some|]. split; by eapply lookup_lt_Some.
  - intros e p o Ho. destruct (iv_prm1 _ _ _ _ _ I _ _ _ Ho) as (ev & sta & ph & _ & A & B & _).
    rewrite (rep_size _ _ (iv_ev _ _ _ _ _ I)), (rep_size _ _ (iv_ph _ _ _ _ _ I)). split; by eapply lookup_lt_Some.
Qed.
(** An observation with its names *)
Lemma named (i : N) (o : obsv) : Forall phase_ok h → s_obs s !! i = Some o → ∃ e1 e2 sta ph td w xu xc,
  first_obs h (e1, e2, sta, ph) = Some (td, w, xu, xc) ∧ "@"%char ∉ ph ∧ lo !! N.to_nat i = Some (obs_id e1 e2 sta ph) ∧
  le !! N.to_nat (ob_e1 o) = Some e1 ∧ le !! N.to_nat (ob_e2 o) = Some e2 ∧ lp !! N.to_nat (ob_ph o) = Some (ph_sta_id sta ph) ∧
  ob_diff o = td ∧ ob_apri o = w ∧ ob_xu o = xu ∧ ob_xc o = xc ∧
  get_prm s (ob_e1 o) (ob_ph o) = first_prm h (e1, sta, ph) ∧ get_prm s (ob_e2 o) (ob_ph o) = first_prm h (e2, sta, ph).
Proof using I.
  intros HF Ho. destruct (iv_obs1 _ _ _ _ _ I _ _ Ho) as ([[[e1 e2] sta] ph] & [[[td w] xu] xc] & Hf & Hl & A & B & C & Ed & Ea & Exu & Exc).
  pose proof (first_obs_ok _ _ _ HF Hf) as Hph. cbn in Hph.
  exists e1, e2, sta, ph, td, w, xu, xc. do 10 (split; [done|]). split; by apply prm_named.
Qed.
Lemma has_params_complete : Forall phase_ok h → (complete h ↔ ∀ i o, s_obs s !! i = Some o → has_params s o).
Proof using I.
  intros HF. split.
  - intros Hc i o Ho. destruct (named i o HF Ho) as (e1 & e2 & sta & ph & td & w & xu & xc & Hf & _ & _ & _ & _ & _ & _ & _ & _ & _ & E1 & E2).
    unfold has_params. rewrite E1, E2. by eapply Hc.
  - intros Hp e1 e2 sta ph a Ha. destruct (iv_obs2 _ _ _ _ _ I _ _ Ha) as (i & o & Ho & Hl & _).
    destruct (named i o HF Ho) as (e1' & e2' & sta' & ph' & td & w & xu & xc & Hf & Hph & Hl' & _ & _ & _ & _ & _ & _ & _ & E1 & E2).
    assert (E : obs_id e1' e2' sta' ph' = obs_id e1 e2 sta ph) by (unfold key_id in Hl; congruence).
    apply obs_id_inj in E as [= -> -> -> ->]; [|done|by apply (first_obs_ok h (e1, e2, sta, ph) a)].
    rewrite <- E1, <- E2. by eapply Hp.
Qed.
End inv.

(** ** C37 *)
(** Missing parameters of an event of an observation: an exception; no access is out of bounds *)
Theorem C37_missing (h : list op) tt rw pl ol : hist_ok h → prm_order (run h) pl → obs_order (run h) ol →
  (∃ e1 e2 sta ph a, first_obs h (e1, e2, sta, ph) = Some a ∧ (first_prm h (e1, sta, ph) = None ∨ first_prm h (e2, sta, ph) = None)) →
  prepare tt rw pl ol (run h) = Exc.
Proof.
  intros [HF Hb] Hpl Hol (e1 & e2 & sta & ph & a & Ha & Hmiss). destruct (inv_run d0 h HF Hb) as (le & lp & lo & I).
  apply prepare_exc; [by eapply inv_wfS|done|done|].
  destruct (iv_obs2 _ _ _ _ _ I _ _ Ha) as (i & o & Ho & Hl & _). exists i, o. split; [done|].
  destruct (named _ _ _ _ _ I i o HF Ho) as (e1' & e2' & sta' & ph' & td & w & xu & xc & Hf & Hph & Hl' & _ & _ & _ & _ & _ & _ & _ & E1 & E2).
  assert (E : obs_id e1' e2' sta' ph' = obs_id e1 e2 sta ph) by (unfold key_id in Hl; congruence).
  apply obs_id_inj in E as [= -> -> -> ->]; [|done|by apply (first_obs_ok h (e1, e2, sta, ph) a)].
  unfold has_params. rewrite E1, E2. intros [[? A1] [? A2]]. destruct Hmiss; congruence.
Qed.

(** The rows of the observations *)
Theorem C37_rows (h : list op) tt rw pl ol : hist_ok h → prm_order (run h) pl → obs_order (run h) ol → rw_ok rw → complete h →
  let s := run h in
  ∃ s', prepare tt rw pl ol s = Ok s' ∧ let S := s_sys s' in
    wf S ∧ (tt = None → nTT S = 0) ∧
    (∀ k a, first_obs h k = Some a → ∃ i, obs_index s k = Some i ∧ i < nObs S) ∧
    (∀ i, i < nObs S → ∃ k a, first_obs h k = Some a ∧ obs_index s k = Some i) ∧
    (∀ k k' a a' i, first_obs h k = Some a → first_obs h k' = Some a' → obs_index s k = Some i → obs_index s k' = Some i → k = k') ∧
    (∀ e1 e2 sta ph td w xu xc p1 p2 i, first_obs h (e1, e2, sta, ph) = Some (td, w, xu, xc) →
       first_prm h (e1, sta, ph) = Some p1 → first_prm h (e2, sta, ph) = Some p2 → obs_index s (e1, e2, sta, ph) = Some i →
       ∃ x1 x2 q fw, ev_index s e1 = Some x1 ∧ ev_index s e2 = Some x2 ∧ ph_index s sta ph = Some q ∧
         final_weight dmul rw (take (nObs S) (aD S)) i w fw ∧ aW S !! i = Some fw ∧
         aEv1 S !! i = Some (if op_ch p1 then Some x1 else None) ∧ aEv2 S !! i = Some (if op_ch p2 then Some x2 else None) ∧ aPh S !! i = Some q ∧
         aD S !! i = Some (dsub td (dsub (op_tt p1) (op_tt p2))) ∧
         aG S !! (x1 * nPhStas S + q) = Some [op_dx p1; op_dy p1; op_dz p1; d1] ∧ aG S !! (x2 * nPhStas S + q) = Some [op_dx p2; op_dy p2; op_dz p2; d1]).
Proof.
  intros [HF Hb] Hpl Hol Hrw Hc s. destruct (inv_run d0 h HF Hb) as (le & lp & lo & I). fold s in I.
  pose proof (inv_wfS _ _ _ _ _ I) as W. pose proof (proj1 (has_params_complete _ _ _ _ _ I HF) Hc) as Hhas.
  destruct (inv_size _ _ _ _ _ I) as [Sz Dom].
  destruct (prepare_ok d0 d1 dadd dsub dmul is0 dquot s tt rw pl ol W Hpl Hol (proj1 (iv_rest _ _ _ _ _ I)) Hrw Hhas) as
    (s' & rws & G & HP & Len & Rows & _ & Cev & Cph & Cob & _ & _ & Hst & G1 & G2 & G3 & Hcl & Hsys). cbn zeta in Hsys.
  exists s'. split; [done|]. cbn zeta.
  set (q := constraints d0 dmul dquot tt (s_stat s') pl) in *. set (nb := ntt_of tt pl - length q) in *.
  set (all := rws ++ q ++ replicate nb (blank_row d0)) in *.
  assert (Hall : length all = size (s_obs s) + ntt_of tt pl) by (unfold all; rewrite !app_length, replicate_length; lia).
  assert (Hrow : ∀ j r, all !! j = Some r → (∀ e, r_e1 r = Some e → e < idx_size (cv_ev s)) ∧ (∀ e, r_e2 r = Some e → e < idx_size (cv_ev s)) ∧ r_ph r < idx_size (cv_ph s)).
  { intros j r Hj. unfold all in Hj. apply lookup_app_Some in Hj as [Hj|[_ Hj]]; [|apply lookup_app_Some in Hj as [Hj|[_ Hj]]].
    - assert (j < length lo) as Hjl by (apply lookup_lt_Some in Hj; lia). destruct (Dom (N.of_nat j)) as [_ [o Ho]]; [lia|].
      destruct (Hhas _ _ Ho) as [[p1 E1] [p2 E2]]. destruct (Rows j o p1 p2 Ho E1 E2) as (w & _ & R & _). rewrite R in Hj. injection Hj as <-. cbn [r_e1 r_e2 r_ph].
      destruct (ws_obs _ W _ _ Ho) as (A & B & C). split; [|split; [|done]]; intros e; unfold used; [destruct (op_ch p1)|destruct (op_ch p2)]; intros [= <-]; done.
    - apply elem_of_list_lookup_2 in Hj. unfold q, constraints in Hj. destruct tt as [c|]; [|by apply elem_of_nil in Hj].
      apply elem_of_list_omap in Hj as ([[e p] o] & Hin & E). destruct Hpl as [_ Hpl]. apply Hpl in Hin. destruct (ws_prm _ W _ _ _ Hin) as [A B].
      cbn in E. destruct (op_ch o); [|done]. destruct (get_stat _ e p) as [[n t]|]; [|done]. injection E as <-. cbn. split; [intros ? [= <-]; done|]. split; [done|done].
    - apply lookup_replicate in Hj as [-> Hjn]. cbn. split; [done|]. split; [done|].
      assert (0 < ntt_of tt pl) as Hpos by (unfold nb in Hjn; lia). unfold ntt_of in Hpos. destruct tt as [c|]; [|lia].
      destruct (filter (λ x, op_ch x.2 = true) pl) as [|[[e p] o] rest] eqn:Ef; [cbn in Hpos; lia|].
      assert ((e, p, o) ∈ filter (λ x, op_ch x.2 = true) pl) as Hin by (rewrite Ef; left). apply elem_of_list_filter in Hin as [_ Hin].
      destruct Hpl as [_ Hpl]. apply Hpl in Hin. destruct (ws_prm _ W _ _ _ Hin). lia. }
  split; [|split; [|split; [|split; [|split]]]].
  - rewrite Hsys. constructor; unfold rows, cols; cbn [aW aD aEv1 aEv2 aPh aM aL aG nObs nTT nEvts nPhStas]; rewrite ?fmap_length, ?replicate_length; try done.
    + intros ob e He. rewrite list_lookup_fmap in He. destruct (all !! ob) as [r|] eqn:Er; [|done]. apply (inj Some) in He. by apply (proj1 (Hrow ob r Er)).
    + intros ob e He. rewrite list_lookup_fmap in He. destruct (all !! ob) as [r|] eqn:Er; [|done]. apply (inj Some) in He. by apply (proj1 (proj2 (Hrow ob r Er))).
    + intros ob p He. rewrite list_lookup_fmap in He. destruct (all !! ob) as [r|] eqn:Er; [|done]. apply (inj Some) in He. subst. by apply (proj2 (proj2 (Hrow ob r Er))).
  - intros ->. by rewrite Hsys.
  - intros k a Ha. destruct (iv_obs2 _ _ _ _ _ I _ _ Ha) as (i & o & Ho & Hl & _). exists (N.to_nat i). rewrite (obs_index_lo _ _ _ _ _ I). split; [done|].
    rewrite Hsys. cbn [nObs]. rewrite Sz. by eapply lookup_lt_Some.
  - rewrite Hsys. cbn [nObs]. intros i Hi. rewrite Sz in Hi. destruct (lookup_lt_is_Some_2 lo i Hi) as [id Hid]. destruct (iv_ids _ _ _ _ _ I _ _ Hid) as (k & a & Ha & -> & _).
    exists k, a. split; [done|]. by apply (obs_index_lo _ _ _ _ _ I).
  - intros k k' a a' i Ha Ha' Hi Hi'. apply (obs_index_lo _ _ _ _ _ I) in Hi, Hi'. apply key_id_inj; [by apply (first_obs_ok h k a)|by apply (first_obs_ok h k' a')|congruence].
  - intros e1 e2 sta ph td w xu xc p1 p2 i Ha Hp1 Hp2 Hi. apply (obs_index_lo _ _ _ _ _ I) in Hi. unfold key_id in Hi.
    destruct (Dom (N.of_nat i)) as [_ [o Ho]]; [rewrite Nat2N.id; by eapply lookup_lt_Some|].
    destruct (named _ _ _ _ _ I _ o HF Ho) as (e1' & e2' & sta' & ph' & td' & w' & xu' & xc' & Hf & Hph & Hl' & Ex1 & Ex2 & Exq & Etd & Ew & _ & _ & E1 & E2).
    rewrite Nat2N.id in Hl'. assert (E : obs_id e1' e2' sta' ph' = obs_id e1 e2 sta ph) by congruence.
    apply obs_id_inj in E as [= -> -> -> ->]; [|done|by apply (first_obs_ok h (e1, e2, sta, ph) _ HF Ha)].
    rewrite Ha in Hf. injection Hf as <- <- <- <-. rewrite Hp1 in E1. rewrite Hp2 in E2.
    destruct (Rows i o p1 p2 Ho E1 E2) as (fw & Hw & R & _).
    assert (Ri : all !! i = Some (Row fw (used (op_ch p1) (ob_e1 o)) (used (op_ch p2) (ob_e2 o)) (N.to_nat (ob_ph o)) (dsub (ob_diff o) (dsub (op_tt p1) (op_tt p2))))) by (by apply lookup_app_l_Some).
    exists (N.to_nat (ob_e1 o)), (N.to_nat (ob_e2 o)), (N.to_nat (ob_ph o)), fw.
    rewrite !(ev_index_le _ _ _ _ _ I), (ph_index_lp _ _ _ _ _ I). split; [done|]. split; [done|]. split; [done|].
    rewrite Hsys. cbn [nObs aD aW aEv1 aEv2 aPh aG nPhStas]. rewrite !list_lookup_fmap, Ri. cbn. rewrite <- Etd, <- Ew.
    split.
    { rewrite <- fmap_take. unfold all. rewrite take_app_alt by done. done. }
    do 5 (split; [done|]). split; by apply G3.
Qed.
Print Assumptions C37_rows.

(** The rows used, in terms of the system *)
Lemma row_uses_spec (rws rest : list srow) (G : list (list D)) (nev nph ntt x q : nat) m L :
  let all := rws ++ rest in
  row_uses (DDS (length rws) nev nph ntt (r_w <$> all) G m (r_d <$> all) L (r_e1 <$> all) (r_e2 <$> all) (r_ph <$> all)) x q =
  weights_at (rws ≫= uses is0) (N.of_nat x) (N.of_nat q).
Proof.
  intros all. unfold row_uses, weights_at. cbn [nObs aW aPh aEv1 aEv2].
  assert (Hgen : ∀ l pre, all = pre ++ l ++ rest →
    (seq (length pre) (length l) ≫= λ i, match (r_w <$> all) !! i, (r_ph <$> all) !! i with
      | Some w, Some q' => if is0 w then [] else (if decide ((r_e1 <$> all) !! i = Some (Some x) ∧ q' = q) then [w] else []) ++ (if decide ((r_e2 <$> all) !! i = Some (Some x) ∧ q' = q) then [w] else [])
      | _, _ => [] end) = (filter (λ y, y.1 = (N.of_nat x, N.of_nat q)) (l ≫= uses is0)).*2).
  { induction l as [|r l IH]; intros pre Hall; [done|]. cbn [length seq]. rewrite !bind_cons, filter_app, fmap_app.
    specialize (IH (pre ++ [r])). rewrite app_length in IH. cbn [length] in IH. rewrite Nat.add_1_r in IH. rewrite IH by (rewrite Hall, <- !app_assoc; done).
    f_equal. assert (Hl : all !! length pre = Some r) by (rewrite Hall; by apply list_lookup_middle). rewrite !list_lookup_fmap, Hl. cbn [fmap option_fmap option_map].
    unfold uses. destruct (is0 (r_w r)); [done|]. rewrite filter_app, fmap_app. f_equal.
    - destruct (r_e1 r) as [e|]; [|by rewrite decide_False by (intros [? _]; congruence)]. rewrite filter_cons, filter_nil. cbn [fst snd].
      destruct (decide (Some (Some e) = Some (Some x) ∧ r_ph r = q)) as [[[= ->] ->]|Hn]; [by rewrite decide_True|].
      rewrite decide_False; [done|]. intros [= E1 E2]. apply Hn. split; [do 2 f_equal|]; lia.
    - destruct (r_e2 r) as [e|]; [|by rewrite decide_False by (intros [? _]; congruence)]. rewrite filter_cons, filter_nil. cbn [fst snd].
      destruct (decide (Some (Some e) = Some (Some x) ∧ r_ph r = q)) as [[[= ->] ->]|Hn]; [by rewrite decide_True|].
      rewrite decide_False; [done|]. intros [= E1 E2]. apply Hn. split; [do 2 f_equal|]; lia. }
  apply (Hgen rws []). done.
Qed.

Lemma row_uses_nonempty (S : dds D) (x q : nat) : row_uses S x q ≠ [] ↔
  ∃ i w, i < nObs S ∧ aW S !! i = Some w ∧ is0 w = false ∧ aPh S !! i = Some q ∧ (aEv1 S !! i = Some (Some x) ∨ aEv2 S !! i = Some (Some x)).
Proof.
  unfold row_uses. split.
  - intros Hn. destruct (_ ≫= _) as [|w l] eqn:E in Hn; [done|]. assert (Hw : w ∈ w :: l) by left. rewrite <- E in Hw.
    apply elem_of_list_bind in Hw as (i & Hw & Hi%elem_of_seq). destruct (aW S !! i) as [w'|] eqn:Ew; [|by apply elem_of_nil in Hw].
    destruct (aPh S !! i) as [q'|] eqn:Eq; [|by apply elem_of_nil in Hw]. destruct (is0 w') eqn:E0; [by apply elem_of_nil in Hw|].
    exists i, w'. split; [lia|]. split; [done|]. split; [done|]. apply elem_of_app in Hw as [Hw|Hw]; (destruct (decide _) as [[H1 ->]|]; [by auto|by apply elem_of_nil in Hw]).
  - intros (i & w & Hi & Ew & E0 & Eq & He) Hn.
    assert (Hin : w ∈ ([] : list D)); [|by apply elem_of_nil in Hin]. rewrite <- Hn. apply elem_of_list_bind. exists i. split; [|apply elem_of_seq; lia].
    rewrite Ew, Eq, E0. apply elem_of_app. destruct He as [He|He]; [left|right]; rewrite decide_True by done; left.
Qed.

(** What is known after preparation *)
Lemma prepared (h : list op) tt rw pl ol s' : hist_ok h → prm_order (run h) pl → obs_order (run h) ol → rw_ok rw → prepare tt rw pl ol (run h) = Ok s' →
  let s := run h in
  ∃ le lp lo rws G, Inv s h le lp lo ∧ length rws = size (s_obs s) ∧ (∀ i o, s_obs s !! i = Some o → has_params s o) ∧
    (∀ i o p1 p2, s_obs s !! N.of_nat i = Some o → get_prm s (ob_e1 o) (ob_ph o) = Some p1 → get_prm s (ob_e2 o) (ob_ph o) = Some p2 →
       ∃ w, rws !! i = Some (Row w (used (op_ch p1) (ob_e1 o)) (used (op_ch p2) (ob_e2 o)) (N.to_nat (ob_ph o)) (dsub (ob_diff o) (dsub (op_tt p1) (op_tt p2)))) ∧
         s_obs s' !! N.of_nat i = Some (upd_obs dsub o p1 p2 w)) ∧
    (∀ i, is_Some (s_obs s' !! i) ↔ is_Some (s_obs s !! i)) ∧ cv_ev s' = cv_ev s ∧ cv_ph s' = cv_ph s ∧ cv_ob s' = cv_ob s ∧ s_delta s' = ∅ ∧
    s_stat s' = fold_left (put d0 dadd) (rws ≫= uses is0) ∅ ∧
    (∀ x q, row_uses (s_sys s') x q = weights_at (rws ≫= uses is0) (N.of_nat x) (N.of_nat q)) ∧
    length (constraints d0 dmul dquot tt (s_stat s') pl) <= ntt_of tt pl ∧
    let all := rws ++ constraints d0 dmul dquot tt (s_stat s') pl ++ replicate (ntt_of tt pl - length (constraints d0 dmul dquot tt (s_stat s') pl)) (blank_row d0) in
    s_sys s' = DDS (size (s_obs s)) (idx_size (cv_ev s)) (idx_size (cv_ph s)) (ntt_of tt pl) (r_w <$> all) G (replicate (idx_size (cv_ev s) * 4) d0)
                 (r_d <$> all) (replicate (idx_size (cv_ev s) * 4) d0) (r_e1 <$> all) (r_e2 <$> all) (r_ph <$> all).
Proof.
  intros [HF Hb] Hpl Hol Hrw HP s. destruct (inv_run d0 h HF Hb) as (le & lp & lo & I). fold s in I.
  pose proof (inv_wfS _ _ _ _ _ I) as W.
  assert (Hhas : ∀ i o, s_obs s !! i = Some o → has_params s o).
  { intros i o Ho. assert (Hdec : Decision (has_params s o)) by (unfold has_params; apply _). destruct (decide (has_params s o)) as [|Hno]; [done|]. exfalso.
    assert (E : prepare tt rw pl ol s = Exc) by (apply prepare_exc; [done..|]; by exists i, o). unfold s in E. congruence. }
  destruct (prepare_ok d0 d1 dadd dsub dmul is0 dquot s tt rw pl ol W Hpl Hol (proj1 (iv_rest _ _ _ _ _ I)) Hrw Hhas) as
    (s2 & rws & G & HP2 & Len & Rows & Dom & Cev & Cph & Cob & _ & Hdl & Hst & G1 & G2 & G3 & Hcl & Hsys). cbn zeta in Hsys.
  assert (s2 = s') as -> by (unfold s in HP2; congruence).
  exists le, lp, lo, rws, G. split; [done|]. split; [done|]. split; [done|]. split.
  { intros i o p1 p2 Ho E1 E2. destruct (Rows i o p1 p2 Ho E1 E2) as (w & _ & A & B). by exists w. }
  split; [done|]. split; [done|]. split; [done|]. split; [done|]. split; [rewrite Hdl; apply (proj2 (iv_rest _ _ _ _ _ I))|]. split; [done|].
  split; [|done]. intros x q. rewrite Hsys. rewrite <- Len. apply row_uses_spec.
Qed.

Lemma omap_lookup_filter {A B} (f : A → option B) (l : list A) (j : nat) : omap f l !! j = filter (λ x, is_Some (f x)) l !! j ≫= f.
Proof.
  revert j. induction l as [|x l IH]; intros j; [done|]. cbn [omap list_omap]. rewrite filter_cons. destruct (f x) as [y|] eqn:E.
  - rewrite decide_True by eauto. destruct j as [|j]; cbn; [done|]. apply IH.
  - rewrite decide_False by (intros [? ?]; congruence). apply IH.
Qed.
Lemma omap_length_filter {A B} (f : A → option B) (l : list A) : length (omap f l) = length (filter (λ x, is_Some (f x)) l).
Proof.
  induction l as [|x l IH]; [done|]. cbn [omap list_omap]. rewrite filter_cons. destruct (f x) as [y|] eqn:E.
  - rewrite decide_True by eauto. cbn. by rewrite IH.
  - rewrite decide_False by (intros [? ?]; congruence). done.
Qed.

(** The rows of the travel time constraints: one for each event, station and phase in use *)
Theorem C37_constraints (h : list op) c rw pl ol s' : hist_ok h → prm_order (run h) pl → obs_order (run h) ol → rw_ok rw → prepare (Some c) rw pl ol (run h) = Ok s' →
  let s := run h in let S := s_sys s' in
  ∃ qs : list (N * text * text), NoDup qs ∧ length qs <= nTT S ∧
    (∀ e sta ph, (e, sta, ph) ∈ qs ↔ ∃ o x q, first_prm h (e, sta, ph) = Some o ∧ op_ch o = true ∧ ev_index s e = Some x ∧ ph_index s sta ph = Some q ∧ row_uses S x q ≠ []) ∧
    (∀ j e sta ph, qs !! j = Some (e, sta, ph) → ∃ o x q, first_prm h (e, sta, ph) = Some o ∧ ev_index s e = Some x ∧ ph_index s sta ph = Some q ∧
       let ws := row_uses S x q in
       aW S !! (nObs S + j) = Some (dmul c (dquot (fold_left dadd ws d0) (length ws))) ∧ aD S !! (nObs S + j) = Some (op_res o) ∧
       aEv1 S !! (nObs S + j) = Some (Some x) ∧ aEv2 S !! (nObs S + j) = Some None ∧ aPh S !! (nObs S + j) = Some q) ∧
    (∀ j, length qs <= j < nTT S → aW S !! (nObs S + j) = Some d0 ∧ aD S !! (nObs S + j) = Some d0 ∧ aEv1 S !! (nObs S + j) = Some None ∧ aEv2 S !! (nObs S + j) = Some None).
Proof.
  intros Hok Hpl Hol Hrw HP s S. destruct (prepared h (Some c) rw pl ol s' Hok Hpl Hol Hrw HP) as (le & lp & lo & rws & G & I & Len & _ & _ & _ & Cev & Cph & _ & _ & Hst & Huse & Hcl & Hsys).
  destruct Hok as [HF Hb]. fold s in I, Len, Cev, Cph. cbn zeta in Hsys. cbn [constraints] in Hsys, Hcl. fold S in Huse.
  set (f := constraint d0 dmul dquot c (s_stat s')) in *. set (ql := omap f pl) in *.
  set (fs := filter (λ x, is_Some (f x)) pl).
  assert (Hlen : length ql = length fs) by apply omap_length_filter.
  assert (Hf : ∀ e p o r, f (e, p, o) = Some r → op_ch o = true ∧ row_uses S (N.to_nat e) (N.to_nat p) ≠ [] ∧ let ws := row_uses S (N.to_nat e) (N.to_nat p) in
    r = Row (dmul c (dquot (fold_left dadd ws d0) (length ws))) (Some (N.to_nat e)) None (N.to_nat p) (op_res o)).
  { intros e p o r. unfold f, constraint. destruct (op_ch o); [|done]. rewrite Hst, get_puts, Huse, !N2Nat.id.
    set (ws := weights_at _ e p). destruct (decide (ws = [])) as [->|Hws]; [done|]. assert (0 < length ws) by (destruct ws; [done|cbn; lia]). destruct ws as [|w ws'] eqn:Ews; [done|]. rewrite <- Ews in *. cbn zeta. cbv iota. rewrite decide_True by done. intros [= <-]. done. }
  assert (Hf' : ∀ e p o, op_ch o = true → row_uses S (N.to_nat e) (N.to_nat p) ≠ [] → is_Some (f (e, p, o))).
  { intros e p o Ho. unfold f, constraint. rewrite Ho, Hst, get_puts, Huse, !N2Nat.id. destruct (weights_at _ e p) as [|w ws]; [done|]. by eexists. }
  set (name := λ x : N * N * oprm, match le !! N.to_nat x.1.1, lp !! N.to_nat x.1.2 ≫= split_at "@"%char with Some ev, Some (ph, sta) => (ev, sta, ph) | _, _ => (0%N, [], []) end).
  assert (Hname : ∀ e p o, (e, p, o) ∈ pl → ∃ ev sta ph, name (e, p, o) = (ev, sta, ph) ∧ le !! N.to_nat e = Some ev ∧ lp !! N.to_nat p = Some (ph_sta_id sta ph) ∧ first_prm h (ev, sta, ph) = Some o).
  { intros e p o Hin. destruct Hpl as [_ Hpl]. apply Hpl in Hin. destruct (iv_prm1 _ _ _ _ _ I _ _ _ Hin) as (ev & sta & ph & Hp & A & B & Cc).
    exists ev, sta, ph. split; [|by auto]. unfold name. cbn [fst snd]. rewrite A, B. cbn [mbind option_bind]. by rewrite split_at_id. }
  assert (Hnd : NoDup pl) by (destruct Hpl as [Hnd _]; by apply NoDup_fmap_1 in Hnd).
  exists (name <$> fs). rewrite fmap_length, <- Hlen.
  assert (HnTT : nTT S = ntt_of (Some c) pl) by (unfold S; by rewrite Hsys).
  assert (HnObs : nObs S = size (s_obs s)) by (unfold S; by rewrite Hsys).
  set (all := rws ++ ql ++ replicate (ntt_of (Some c) pl - length ql) (blank_row d0)) in *.
  assert (Hfields : aW S = r_w <$> all ∧ aD S = r_d <$> all ∧ aEv1 S = r_e1 <$> all ∧ aEv2 S = r_e2 <$> all ∧ aPh S = r_ph <$> all) by (unfold S; by rewrite Hsys).
  destruct Hfields as (FW & FD & F1 & F2 & FP).
  split; [|split; [|split; [|split]]].
  - apply NoDup_fmap_2_strong; [|by apply NoDup_filter]. intros [[e p] o] [[e' p'] o'] [_ H1]%elem_of_list_filter [_ H2]%elem_of_list_filter E.
    destruct (Hname _ _ _ H1) as (ev & sta & ph & N1 & A & B & Cc). destruct (Hname _ _ _ H2) as (ev' & sta' & ph' & N2 & A' & B' & Cc').
    rewrite N1, N2 in E. injection E as <- <- <-.
    assert (e' = e) as -> by (apply N2Nat.inj; eapply same_index; [apply (rep_nodup _ _ (iv_ev _ _ _ _ _ I))|done|done]).
    assert (p' = p) as -> by (apply N2Nat.inj; eapply same_index; [apply (rep_nodup _ _ (iv_ph _ _ _ _ _ I))|done|done]). congruence.
  - lia.
  - intros e sta ph. rewrite elem_of_list_fmap. split.
    + intros ([[e' p'] o] & E & Hin). apply elem_of_list_filter in Hin as [[r Hr] Hin]. destruct (Hname _ _ _ Hin) as (ev & sta' & ph' & N1 & A & B & Cc).
      rewrite N1 in E. injection E as -> -> ->. destruct (Hf _ _ _ _ Hr) as (Ho & Hu & _).
      exists o, (N.to_nat e'), (N.to_nat p'). rewrite (ev_index_le _ _ _ _ _ I), (ph_index_lp _ _ _ _ _ I). done.
    + intros (o & x & q & Ho & Hch & Hx & Hq & Hu). rewrite (ev_index_le _ _ _ _ _ I) in Hx. rewrite (ph_index_lp _ _ _ _ _ I) in Hq.
      pose proof (first_prm_ok _ _ _ _ _ HF Ho) as Hph.
      assert (Hg : get_prm s (N.of_nat x) (N.of_nat q) = Some o) by (rewrite (prm_named _ _ _ _ _ I _ _ e sta ph); rewrite ?Nat2N.id; done).
      assert (Hin : (N.of_nat x, N.of_nat q, o) ∈ pl) by (by apply Hpl).
      exists (N.of_nat x, N.of_nat q, o). split.
      * unfold name. cbn [fst snd]. rewrite !Nat2N.id, Hx, Hq. cbn [mbind option_bind]. by rewrite split_at_id.
      * apply elem_of_list_filter. split; [|done]. apply Hf'; [done|]. by rewrite !Nat2N.id.
  - intros j e sta ph Hj. rewrite list_lookup_fmap in Hj. destruct (fs !! j) as [[[e' p'] o]|] eqn:Ej; [|done].
    assert (Hin : (e', p', o) ∈ fs) by (by eapply elem_of_list_lookup_2). apply elem_of_list_filter in Hin as [[r Hr] Hin].
    destruct (Hname _ _ _ Hin) as (ev & sta' & ph' & N1 & A & B & Cc). apply (inj Some) in Hj. rewrite N1 in Hj. injection Hj as -> -> ->.
    destruct (Hf _ _ _ _ Hr) as (Ho & Hu & Er). exists o, (N.to_nat e'), (N.to_nat p'). rewrite (ev_index_le _ _ _ _ _ I), (ph_index_lp _ _ _ _ _ I).
    split; [done|]. split; [done|]. split; [done|]. cbn zeta.
    assert (Hall : all !! (nObs S + j) = Some r).
    { rewrite HnObs, <- Len. unfold all. rewrite lookup_app_r by lia. replace (length rws + j - length rws) with j by lia. apply lookup_app_l_Some.
      unfold ql. rewrite omap_lookup_filter. fold fs. by rewrite Ej. }
    cbn zeta in Er. rewrite Er in Hall. rewrite FW, FD, F1, F2, FP, !list_lookup_fmap, Hall. done.
  - intros j Hj.
    assert (Hall : all !! (nObs S + j) = Some (blank_row d0)).
    { rewrite HnObs, <- Len. unfold all. rewrite lookup_app_r by lia. replace (length rws + j - length rws) with j by lia. rewrite lookup_app_r by lia.
      apply lookup_replicate. split; [done|]. rewrite HnTT in Hj. lia. }
    rewrite FW, FD, F1, F2, !list_lookup_fmap, Hall. done.
Qed.
Print Assumptions C37_constraints.

(** ** C38 *)
Definition dd_key (d : @ddiff D) : N * N * text * text := (dd_e1 d, dd_e2 d, dd_sta d, dd_ph d).
Lemma gdd_loop (s : solver) (ol : list (N * obsv)) (g : N * obsv → @ddiff D) acc : (∀ x, x ∈ ol → double_difference s x.2 = Ok (g x)) →
  rloop (λ acc '(i, o), rbind (double_difference s o) (λ d, Ok (acc ++ [d]))) ol acc = Ok (acc ++ (g <$> ol)).
Proof.
  revert acc. induction ol as [|[i o] ol IH]; intros acc Hg; [cbn; by rewrite app_nil_r|].
  cbn [rloop]. pose proof (Hg (i, o) ltac:(left)) as E. cbn [snd] in E. rewrite E. cbn [rbind]. rewrite IH by (intros; apply Hg; by right).
  cbn [fmap list_fmap]. by rewrite <- app_assoc.
Qed.

(** After preparation each observation is reported once, under its names, with the values of
    the first call made for it and the weight of its row. *)
Theorem C38_reported (h : list op) tt rw pl ol ol' s' : hist_ok h → prm_order (run h) pl → obs_order (run h) ol → rw_ok rw → prepare tt rw pl ol (run h) = Ok s' → obs_order s' ol' →
  ∃ L, get_double_differences ol' s' = Ok L ∧ NoDup (dd_key <$> L) ∧
    ∀ d : @ddiff D, d ∈ L ↔ ∃ e1 e2 sta ph td w xu xc p1 p2 i fw,
      first_obs h (e1, e2, sta, ph) = Some (td, w, xu, xc) ∧ first_prm h (e1, sta, ph) = Some p1 ∧ first_prm h (e2, sta, ph) = Some p2 ∧
      obs_index (run h) (e1, e2, sta, ph) = Some i ∧ aW (s_sys s') !! i = Some fw ∧
      d = DDiff e1 e2 sta ph fw xu xc td (dsub (op_tt p1) (op_tt p2)) (dsub td (dsub (op_tt p1) (op_tt p2))).
Proof.
  intros Hok Hpl Hol Hrw HP Hol'. destruct (prepared h tt rw pl ol s' Hok Hpl Hol Hrw HP) as (le & lp & lo & rws & G & I & Len & Hhas & Rows & Dom & Cev & Cph & Cob & _ & _ & _ & _ & Hsys).
  destruct Hok as [HF Hb]. set (s := run h) in *. cbn zeta in Hsys. destruct (inv_size _ _ _ _ _ I) as [Sz Dm].
  (* one entry *)
  assert (Hone : ∀ i o', s_obs s' !! i = Some o' → ∃ e1 e2 sta ph td w xu xc p1 p2 fw,
    first_obs h (e1, e2, sta, ph) = Some (td, w, xu, xc) ∧ first_prm h (e1, sta, ph) = Some p1 ∧ first_prm h (e2, sta, ph) = Some p2 ∧
    obs_index s (e1, e2, sta, ph) = Some (N.to_nat i) ∧ aW (s_sys s') !! N.to_nat i = Some fw ∧
    double_difference s' o' = Ok (DDiff e1 e2 sta ph fw xu xc td (dsub (op_tt p1) (op_tt p2)) (dsub td (dsub (op_tt p1) (op_tt p2))))).
  { intros i o' Ho'. destruct (proj1 (Dom i) ltac:(by eexists)) as [o Ho]. destruct (Hhas _ _ Ho) as [[p1 E1] [p2 E2]].
    destruct (Rows (N.to_nat i) o p1 p2) as (fw & R & O); [by rewrite N2Nat.id|done|done|]. rewrite N2Nat.id, Ho' in O. injection O as ->.
    destruct (named _ _ _ _ _ I i o HF Ho) as (e1 & e2 & sta & ph & td & w & xu & xc & Hf & Hph & Hl & Ex1 & Ex2 & Exq & Etd & Ew & Exu & Exc & G1 & G2).
    exists e1, e2, sta, ph, td, w, xu, xc, p1, p2, fw. split; [done|]. split; [congruence|]. split; [congruence|]. split; [by apply (obs_index_lo _ _ _ _ _ I)|]. split.
    - rewrite Hsys. cbn [aW]. rewrite list_lookup_fmap, (lookup_app_l_Some _ _ _ _ R). done.
    - unfold double_difference, upd_obs. cbn [ob_e1 ob_e2 ob_ph ob_diff ob_w ob_xu ob_xc ob_comp ob_dd]. unfold idx_fromIdx. rewrite Cph, Cev.
      rewrite (rep_from _ _ (iv_ph _ _ _ _ _ I)), Exq. cbn [at_ rbind]. rewrite split_at_id by done. cbn [at_ rbind].
      rewrite !(rep_from _ _ (iv_ev _ _ _ _ _ I)), Ex1, Ex2. cbn [at_ rbind]. by rewrite Exu, Exc, Etd. }
  set (g := λ x : N * obsv, match double_difference s' x.2 with Ok d => d | _ => DDiff 0%N 0%N [] [] d0 false d0 d0 d0 d0 end).
  assert (Hin : ∀ i o, (i, o) ∈ ol' ↔ s_obs s' !! i = Some o).
  { intros i o. unfold obs_order in Hol'. rewrite Hol'. apply elem_of_map_to_list. }
  exists (g <$> ol'). split; [|split].
  - unfold get_double_differences. rewrite (gdd_loop s' ol' g); [done|]. intros [i o] Hi. apply Hin in Hi. cbn [snd].
    destruct (Hone i o Hi) as (e1 & e2 & sta & ph & td & w & xu & xc & p1 & p2 & fw & _ & _ & _ & _ & _ & E). unfold g. cbn [snd]. by rewrite E.
  - rewrite <- list_fmap_compose. apply NoDup_fmap_2_strong.
    + intros [i o] [j o2] Hi Hj E. apply Hin in Hi, Hj. cbn [compose] in E. unfold g in E. cbn [snd] in E.
      destruct (Hone i o Hi) as (e1 & e2 & sta & ph & td & w & xu & xc & p1 & p2 & fw & _ & _ & _ & X1 & _ & E1).
      destruct (Hone j o2 Hj) as (e1' & e2' & sta' & ph' & td' & w' & xu' & xc' & p1' & p2' & fw' & _ & _ & _ & X2 & _ & E2).
      rewrite E1, E2 in E. cbn in E. injection E as -> -> -> ->. assert (i = j) as -> by (apply N2Nat.inj; congruence). congruence.
    + unfold obs_order in Hol'. rewrite Hol'. apply NoDup_map_to_list.
  - intros d. rewrite elem_of_list_fmap. split.
    + intros ([i o] & -> & Hi). apply Hin in Hi. destruct (Hone i o Hi) as (e1 & e2 & sta & ph & td & w & xu & xc & p1 & p2 & fw & A1 & A2 & A3 & A4 & A5 & E).
      exists e1, e2, sta, ph, td, w, xu, xc, p1, p2, (N.to_nat i), fw. do 5 (split; [done|]). unfold g. cbn [snd]. by rewrite E.
    + intros (e1 & e2 & sta & ph & td & w & xu & xc & p1 & p2 & i & fw & A1 & A2 & A3 & A4 & A5 & ->).
      pose proof A4 as Hlo. apply (obs_index_lo _ _ _ _ _ I) in Hlo. destruct (proj2 (Dm (N.of_nat i))) as [o0 Ho0]; [rewrite Nat2N.id; by eapply lookup_lt_Some|].
      destruct (proj2 (Dom (N.of_nat i)) ltac:(by eexists)) as [o Ho]. exists (N.of_nat i, o). split; [|by apply Hin].
      destruct (Hone _ _ Ho) as (e1' & e2' & sta' & ph' & td' & w' & xu' & xc' & p1' & p2' & fw' & B1 & B2 & B3 & B4 & B5 & E).
      rewrite Nat2N.id in B4, B5. apply (obs_index_lo _ _ _ _ _ I) in B4.
      assert (K : (e1', e2', sta', ph') = (e1, e2, sta, ph)) by (apply key_id_inj; [by eapply first_obs_ok|by eapply first_obs_ok|congruence]). injection K as -> -> -> ->.
      unfold g. cbn [snd]. rewrite E. congruence.
Qed.
Print Assumptions C38_reported.

(** ** C40 *)
(** Event x takes part in an observation of weight other than zero, and is not fixed *)
Definition constrained (S : dds D) (x : nat) : Prop :=
  ∃ i w, i < nObs S ∧ aW S !! i = Some w ∧ is0 w = false ∧ (aEv1 S !! i = Some (Some x) ∨ aEv2 S !! i = Some (Some x)).
(** The part of the solution for event x, all of it finite *)
Definition solution (m : list D) (x : nat) (v : D * D * D * D) : Prop :=
  let '(vx, vy, vz, vt) := v in
  m !! (x * 4) = Some vx ∧ m !! (x * 4 + 1) = Some vy ∧ m !! (x * 4 + 2) = Some vz ∧ m !! (x * 4 + 3) = Some vt ∧
  finite vx = true ∧ finite vy = true ∧ finite vz = true ∧ finite vt = true.

Lemma mark_spec (s : solver) (el : list (N * gmap N (nat * D))) (e : N) : s_delta s = ∅ →
  is_Some (mark d0 s el !! e) ↔ ∃ m, (e, m) ∈ el ∧ some_obs m = true.
Proof.
  unfold mark. intros ->. induction el as [|[e' m'] l IH] using rev_ind.
  - cbn. rewrite lookup_empty. split; [by intros [? ?]|]. by intros (m & H%elem_of_nil & _).
  - rewrite fold_left_app. cbn [fold_left]. set (M := fold_left _ l ∅) in *. split.
    + intros HS. destruct (some_obs m') eqn:Es; [destruct (decide (e' = e)) as [->|Hne]|].
      * exists m'. split; [apply elem_of_app; right; left|done].
      * rewrite lookup_insert_ne in HS by done. apply IH in HS as (m & Hm & Hs). exists m. split; [apply elem_of_app; by left|done].
      * apply IH in HS as (m & Hm & Hs). exists m. split; [apply elem_of_app; by left|done].
    + intros (m & Hm & Hs). apply elem_of_app in Hm as [Hm|Hm].
      * assert (HS : is_Some (M !! e)) by (apply IH; by exists m). destruct (some_obs m'); [|done].
        destruct (decide (e' = e)) as [->|Hne]; [rewrite lookup_insert; by eexists|by rewrite lookup_insert_ne].
      * apply elem_of_list_singleton in Hm as [= -> ->]. rewrite Hs, lookup_insert. by eexists.
Qed.
Lemma fetch_loop (m : list D) (dl : list (N * (D * D * D * D))) : NoDup dl.*1 → ∀ acc, (∀ e, e ∈ dl.*1 → N.to_nat e * 4 + 3 < length m) →
  ∃ acc', rloop (fetch finite m) dl acc = Ok acc' ∧ (∀ e, e ∉ dl.*1 → acc' !! e = acc !! e) ∧ ∀ e v, e ∈ dl.*1 → (acc' !! e = Some v ↔ solution m (N.to_nat e) v).
Proof.
  induction dl as [|[e x] dl IH]; intros Hnd acc Hb.
  - exists acc. split; [done|]. split; [done|]. by intros e v ?%elem_of_nil.
  - cbn [fmap list_fmap fst] in Hnd, Hb. apply NoDup_cons in Hnd as [He Hnd]. cbn [rloop]. unfold fetch at 1. cbn [fst].
    pose proof (Hb e ltac:(left)) as Hbe.
    destruct (lookup_lt_is_Some_2 m (N.to_nat e * 4 + 0)) as [vx X]; [lia|]. destruct (lookup_lt_is_Some_2 m (N.to_nat e * 4 + 1)) as [vy Y]; [lia|].
    destruct (lookup_lt_is_Some_2 m (N.to_nat e * 4 + 2)) as [vz Z]; [lia|]. destruct (lookup_lt_is_Some_2 m (N.to_nat e * 4 + 3)) as [vt T]; [lia|].
    rewrite (read_lookup _ _ _ X), (read_lookup _ _ _ Y), (read_lookup _ _ _ Z), (read_lookup _ _ _ T). cbn [rbind]. rewrite Nat.add_0_r in X.
    set (fin := finite vx && finite vy && finite vz && finite vt).
    assert (Hsol : ∀ v, solution m (N.to_nat e) v ↔ fin = true ∧ v = (vx, vy, vz, vt)).
    { intros [[[a b] c] d]. unfold solution. rewrite X, Y, Z, T. unfold fin. rewrite !andb_true_iff. split.
      - intros ([= <-] & [= <-] & [= <-] & [= <-] & ? & ? & ? & ?). done.
      - intros [[[[? ?] ?] ?] [= -> -> -> ->]]. done. }
    assert (Hrest : ∀ acc1, (∀ e', e' ≠ e → acc1 !! e' = acc !! e') → (∀ v, acc1 !! e = Some v ↔ solution m (N.to_nat e) v) →
      ∃ acc', rloop (fetch finite m) dl acc1 = Ok acc' ∧ (∀ e', e' ∉ e :: dl.*1 → acc' !! e' = acc !! e') ∧ ∀ e' v, e' ∈ e :: dl.*1 → (acc' !! e' = Some v ↔ solution m (N.to_nat e') v)).
    { intros acc1 H1 H2. destruct (IH Hnd acc1) as (acc' & L & A & B); [intros; apply Hb; by right|]. exists acc'. split; [done|]. split.
      - intros e' [Hne Hn]%not_elem_of_cons. rewrite A by done. by apply H1.
      - intros e' v [->|Hin]%elem_of_cons; [rewrite A by done; apply H2|by apply B]. }
    destruct fin eqn:Ef; cbn [rbind]; apply Hrest.
    + intros e' Hne. by rewrite lookup_insert_ne.
    + intros v. rewrite lookup_insert, Hsol. split; [by intros [= <-]|by intros [_ ->]].
    + intros e' Hne. by rewrite lookup_delete_ne.
    + intros v. rewrite lookup_delete, Hsol. split; [done|by intros [? _]].
Qed.

Lemma load_result (h : list op) tt rw pl ol s' m el dl : hist_ok h → prm_order (run h) pl → obs_order (run h) ol → rw_ok rw → prepare tt rw pl ol (run h) = Ok s' →
  ∀ s2, cv_ev s2 = cv_ev s' → s_stat s2 = s_stat s' → s_delta s2 = s_delta s' →
  length m = cols (s_sys s') → el ≡ₚ map_to_list (s_stat s') → dl ≡ₚ map_to_list (mark d0 s2 el) →
  ∃ s3, load_solutions m el dl s2 = Ok s3 ∧ cv_ev s3 = cv_ev s2 ∧ cv_ph s3 = cv_ph s2 ∧ s_stat s3 = s_stat s2 ∧
    (∀ i v, s_delta s3 !! i = Some v → ∃ e, get_event_changes s3 e = Some v) ∧
    ∀ e v, get_event_changes s3 e = Some v ↔ ∃ x, ev_index (run h) e = Some x ∧ constrained (s_sys s') x ∧ solution m x v.
Proof.
  intros Hok Hpl Hol Hrw HP s2 C2 S2 D2 Hm Hel Hdl.
  destruct (prepared h tt rw pl ol s' Hok Hpl Hol Hrw HP) as (le & lp & lo & rws & G & I & Len & Hhas & Rows & Dom & Cev & Cph & Cob & Hdel & Hst & Huse & _ & Hsys).
  assert (Hc : complete h) by (apply (has_params_complete _ _ _ _ _ I (proj1 Hok)); done).
  destruct (C37_rows h tt rw pl ol Hok Hpl Hol Hrw Hc) as (s'' & HP2 & Hwf & _). assert (s'' = s') as -> by congruence.
  set (s := run h) in *.
  assert (Huses : ∀ x, constrained (s_sys s') x ↔ ∃ q, row_uses (s_sys s') x q ≠ []).
  { intros x. unfold constrained. split.
    - intros (i & w & Hi & Ew & E0 & He). destruct (lookup_lt_is_Some_2 (aPh (s_sys s')) i) as [q Hq]; [rewrite (wf_P _ Hwf); unfold rows; lia|].
      exists q. apply row_uses_nonempty. exists i, w. done.
    - intros (q & Hq). apply row_uses_nonempty in Hq as (i & w & ? & ? & ? & ? & ?). by exists i, w. }
  assert (Hmark : ∀ e, is_Some (mark d0 s2 el !! e) ↔ constrained (s_sys s') (N.to_nat e)).
  { intros e. rewrite mark_spec by (by rewrite D2). rewrite Huses. split.
    - intros (mm & Hin & Hs). rewrite Hel in Hin. apply elem_of_map_to_list in Hin. unfold some_obs in Hs. apply bool_decide_eq_true in Hs.
      destruct Hs as (p & [n t] & Hp & Hn). exists (N.to_nat p). rewrite Huse, !N2Nat.id. intros E0.
      assert (get_stat (s_stat s') e p = Some (n, t)) as Eg by (unfold get_stat; by rewrite Hin). rewrite Hst, get_puts, E0 in Eg. done.
    - intros (q & Hq). rewrite Huse, !N2Nat.id in Hq.
      pose proof (get_puts d0 dadd (rws ≫= uses is0) e (N.of_nat q)) as Eg. rewrite <- Hst in Eg.
      destruct (weights_at _ e (N.of_nat q)) as [|w ws]; [done|]. unfold get_stat in Eg. destruct (s_stat s' !! e) as [mm|] eqn:Em; [|done]. cbn in Eg.
      exists mm. rewrite Hel. split; [by apply elem_of_map_to_list|]. unfold some_obs. apply bool_decide_eq_true. eexists _, _. split; [exact Eg|]. cbn. lia. }
  assert (Hdom : ∀ e, e ∈ dl.*1 ↔ constrained (s_sys s') (N.to_nat e)).
  { intros e. rewrite <- Hmark, elem_of_list_fmap. split.
    - intros ([e' v] & -> & Hin). rewrite Hdl in Hin. apply elem_of_map_to_list in Hin. by eexists.
    - intros [v Hv]. exists (e, v). split; [done|]. rewrite Hdl. by apply elem_of_map_to_list. }
  assert (Hlt : ∀ x, constrained (s_sys s') x → x < nEvts (s_sys s')).
  { intros x (i & w & _ & _ & _ & [He|He]); [by eapply (wf_e1 _ Hwf)|by eapply (wf_e2 _ Hwf)]. }
  destruct (fetch_loop m dl) with (acc := mark d0 s2 el) as (acc' & L & A & B).
  { rewrite Hdl. apply NoDup_fst_map_to_list. }
  { intros e He. apply Hdom, Hlt in He. rewrite Hm. unfold cols. lia. }
  unfold Solver_Model.load_solutions. rewrite L. cbn [rbind]. eexists. split; [reflexivity|]. split; [done|]. split; [done|]. split; [done|].
  assert (Hin : ∀ i v, acc' !! i = Some v → i ∈ dl.*1).
  { intros i v Hv. destruct (decide (i ∈ dl.*1)) as [|Hout]; [done|]. rewrite A in Hv by done. exfalso. apply Hout, Hdom, Hmark. by eexists. }
  split.
  { intros i v Hv. cbn [s_delta] in Hv. pose proof (Hin _ _ Hv) as Hi. apply Hdom, Hlt in Hi. rewrite Hsys in Hi. cbn [nEvts] in Hi.
    rewrite (rep_size _ _ (iv_ev _ _ _ _ _ I)) in Hi. destruct (lookup_lt_is_Some_2 le _ Hi) as [e He]. exists e. unfold get_event_changes. cbn [cv_ev s_delta].
    unfold idx_toIdx. rewrite C2, Cev. apply (rep_to _ _ (iv_ev _ _ _ _ _ I)) in He. by rewrite He. }
  intros e v. unfold get_event_changes. cbn [cv_ev s_delta]. rewrite C2, Cev. unfold ev_index.
  destruct (idx_toIdx (cv_ev s) e) as [i|] eqn:Ei; cbn [fmap option_fmap option_map]; [|split; [done|by intros (x & ? & _)]].
  split.
  - intros Hv. pose proof (Hin _ _ Hv). exists (N.to_nat i). split; [done|]. split; [by apply Hdom|]. by apply B.
  - intros (x & [= <-] & Hcx & Hsol). apply B; [by apply Hdom|done].
Qed.

(** Changes are reported exactly for the events which take part in an observation with a
    weight other than zero and whose solution is finite *)
Theorem C40_changes (h : list op) tt rw pl ol s' m el dl : hist_ok h → prm_order (run h) pl → obs_order (run h) ol → rw_ok rw → prepare tt rw pl ol (run h) = Ok s' →
  length m = cols (s_sys s') → el ≡ₚ map_to_list (s_stat s') → dl ≡ₚ map_to_list (mark d0 s' el) →
  ∃ s3, load_solutions m el dl s' = Ok s3 ∧
    ∀ e v, get_event_changes s3 e = Some v ↔ ∃ x, ev_index (run h) e = Some x ∧ constrained (s_sys s') x ∧ solution m x v.
Proof.
  intros Hok Hpl Hol Hrw HP Hm Hel Hdl. destruct (load_result h tt rw pl ol s' m el dl Hok Hpl Hol Hrw HP s' eq_refl eq_refl eq_refl Hm Hel Hdl) as (s3 & L & _ & _ & _ & _ & R). by exists s3.
Qed.
Print Assumptions C40_changes.

(** In terms of what is reported: the event has a double difference of weight other than zero *)
Theorem C40_observed (h : list op) tt rw pl ol ol' s' L e x : hist_ok h → prm_order (run h) pl → obs_order (run h) ol → rw_ok rw → prepare tt rw pl ol (run h) = Ok s' → obs_order s' ol' →
  get_double_differences ol' s' = Ok L → ev_index (run h) e = Some x →
  (constrained (s_sys s') x ↔ ∃ d o, d ∈ L ∧ is0 (dd_w d) = false ∧ (dd_e1 d = e ∨ dd_e2 d = e) ∧ first_prm h (e, dd_sta d, dd_ph d) = Some o ∧ op_ch o = true).
Proof.
  intros Hok Hpl Hol Hrw HP Hol' HL Hx.
  destruct (C38_reported h tt rw pl ol ol' s' Hok Hpl Hol Hrw HP Hol') as (L' & HL' & _ & HinL). assert (L' = L) as -> by congruence.
  destruct (prepared h tt rw pl ol s' Hok Hpl Hol Hrw HP) as (le & lp & lo & rws & G & I & Len & Hhas & _).
  assert (Hc : complete h) by (apply (has_params_complete _ _ _ _ _ I (proj1 Hok)); done).
  destruct (C37_rows h tt rw pl ol Hok Hpl Hol Hrw Hc) as (s'' & HP2 & Hwf & _ & R1 & R2 & _ & R4). assert (s'' = s') as -> by congruence. cbn zeta in *.
  set (s := run h) in *. assert (Hxl : le !! x = Some e) by (by apply (ev_index_le _ _ _ _ _ I)).
  assert (Hinj : ∀ e' x', ev_index s e' = Some x' → (x' = x ↔ e' = e)).
  { intros e' x' He'. pose proof (proj1 (ev_index_le _ _ _ _ _ I _ _) He') as Hl. split; intros; subst; [congruence|].
    eapply same_index; [apply (rep_nodup _ _ (iv_ev _ _ _ _ _ I))|done|done]. }
  split.
  - intros (i & w & Hi & Ew & E0 & He). destruct (R2 i Hi) as ([[[e1 e2] sta] ph] & [[[td w0] xu] xc] & Hf & Hoi).
    destruct (Hc _ _ _ _ _ Hf) as [[p1 P1] [p2 P2]].
    destruct (R4 _ _ _ _ _ _ _ _ _ _ _ Hf P1 P2 Hoi) as (x1 & x2 & q & fw & X1 & X2 & Q & _ & W & V1 & V2 & _).
    assert (fw = w) as -> by congruence.
    assert (Hd : DDiff e1 e2 sta ph w xu xc td (dsub (op_tt p1) (op_tt p2)) (dsub td (dsub (op_tt p1) (op_tt p2))) ∈ L).
    { apply HinL. exists e1, e2, sta, ph, td, w0, xu, xc, p1, p2, i, w. done. }
    destruct He as [He|He].
    + rewrite V1 in He. destruct (op_ch p1) eqn:Ech; [|done]. injection He as Ex. apply (Hinj e1 x1 X1) in Ex as ->. eexists _, p1. split; [exact Hd|]. cbn. auto.
    + rewrite V2 in He. destruct (op_ch p2) eqn:Ech; [|done]. injection He as Ex. apply (Hinj e2 x2 X2) in Ex as ->. eexists _, p2. split; [exact Hd|]. cbn. auto.
  - intros (d & o & Hd & Hw & He & Ho & Hch). apply HinL in Hd as (e1 & e2 & sta & ph & td & w0 & xu & xc & p1 & p2 & i & fw & Hf & P1 & P2 & Hoi & W & ->).
    cbn [dd_w dd_e1 dd_e2 dd_sta dd_ph] in *. destruct (R4 _ _ _ _ _ _ _ _ _ _ _ Hf P1 P2 Hoi) as (x1 & x2 & q & fw' & X1 & X2 & Q & _ & W' & V1 & V2 & _).
    destruct (R1 _ _ Hf) as (i' & Hoi' & Hi'). assert (i' = i) as -> by congruence.
    exists i, fw. split; [done|]. split; [done|]. split; [done|]. destruct He as [->| ->]; [left|right].
    + assert (p1 = o) as -> by congruence. rewrite V1, Hch. do 2 f_equal. by apply (Hinj _ _ X1).
    + assert (p2 = o) as -> by congruence. rewrite V2, Hch. do 2 f_equal. by apply (Hinj _ _ X2).
Qed.
Print Assumptions C40_observed.

(** The whole of solve: an exception if nothing was added, the least squares solver gives up or
    no event is left, and the changes above otherwise *)
Theorem C40_solve (h : list op) tt rw pl ol s' lsq el dl : hist_ok h → prm_order (run h) pl → obs_order (run h) ol → rw_ok rw → prepare tt rw pl ol (run h) = Ok s' →
  (∀ m, lsq (s_sys s') = Some m → length m = cols (s_sys s')) → el ≡ₚ map_to_list (s_stat s') → (∀ d, dl d ≡ₚ map_to_list d) →
  match solve d0 finite lsq el dl s' with
  | Bad => False
  | Exc => s_obs s' = ∅ ∨ lsq (s_sys s') = None ∨ ∃ m, lsq (s_sys s') = Some m ∧ ∀ e x v, ev_index (run h) e = Some x → constrained (s_sys s') x → ¬ solution m x v
  | Ok s3 => ∃ m, lsq (s_sys s') = Some m ∧ (∃ e v, get_event_changes s3 e = Some v) ∧
      ∀ e v, get_event_changes s3 e = Some v ↔ ∃ x, ev_index (run h) e = Some x ∧ constrained (s_sys s') x ∧ solution m x v
  end.
Proof.
  intros Hok Hpl Hol Hrw HP Hlsq Hel Hdl. unfold solve. case_decide as He; [by left|]. destruct (lsq (s_sys s')) as [m|] eqn:El; [|by right; left].
  set (s2 := Solver _ _ _ _ _ _ _ _).
  destruct (load_result h tt rw pl ol s' m el (dl (mark d0 s2 el)) Hok Hpl Hol Hrw HP s2 eq_refl eq_refl eq_refl) as (s3 & L & C3 & _ & _ & Hev & R); [by apply Hlsq|done|apply Hdl|].
  rewrite L. cbn [rbind]. case_decide as Hd.
  - right. right. exists m. split; [done|]. intros e x v Hx Hc Hs. assert (E : get_event_changes s3 e = Some v) by (apply R; by exists x).
    unfold get_event_changes in E. rewrite Hd in E. destruct (idx_toIdx (cv_ev s3) e); [|done]. by rewrite lookup_empty in E.
  - exists m. split; [done|]. split; [|done].
    apply map_choose in Hd as (i & v & Hv). destruct (Hev _ _ Hv) as [e Hge]. by exists e, v.
Qed.
Print Assumptions C40_solve.

(** The phases an event is said to use *)
Theorem C40_used (h : list op) tt rw pl ol s' e sta ph : hist_ok h → prm_order (run h) pl → obs_order (run h) ol → rw_ok rw → prepare tt rw pl ol (run h) = Ok s' →
  is_event_phase_used s' e sta ph = true ↔ ∃ x q, ev_index (run h) e = Some x ∧ ph_index (run h) sta ph = Some q ∧
    ∃ i w, i < nObs (s_sys s') ∧ aW (s_sys s') !! i = Some w ∧ is0 w = false ∧ aPh (s_sys s') !! i = Some q ∧ (aEv1 (s_sys s') !! i = Some (Some x) ∨ aEv2 (s_sys s') !! i = Some (Some x)).
Proof.
  intros Hok Hpl Hol Hrw HP. destruct (prepared h tt rw pl ol s' Hok Hpl Hol Hrw HP) as (le & lp & lo & rws & G & I & Len & _ & _ & _ & Cev & Cph & _ & _ & Hst & Huse & _).
  set (s := run h) in *. unfold is_event_phase_used. rewrite Cev, Cph. unfold ev_index, ph_index.
  destruct (idx_toIdx (cv_ev s) e) as [i|]; cbn [fmap option_fmap option_map]; [|split; [done|by intros (x & q & ? & _)]].
  destruct (idx_toIdx (cv_ph s) (ph_sta_id sta ph)) as [p|]; cbn [fmap option_fmap option_map]; [|split; [done|by intros (x & q & _ & ? & _)]].
  transitivity (row_uses (s_sys s') (N.to_nat i) (N.to_nat p) ≠ []).
  - rewrite Huse, !N2Nat.id. pose proof (get_puts d0 dadd (rws ≫= uses is0) i p) as Eg. rewrite <- Hst in Eg. unfold get_stat in Eg.
    destruct (weights_at (rws ≫= uses is0) i p) as [|w ws]; destruct (s_stat s' !! i) as [mm|]; cbn [mbind option_bind] in Eg.
    + rewrite Eg. done.
    + done.
    + rewrite Eg. rewrite bool_decide_eq_true. cbn [length]. split; [done|]. intros _. lia.
    + done.
  - rewrite row_uses_nonempty. split.
    + intros Hu. exists (N.to_nat i), (N.to_nat p). done.
    + intros (x & q & [= <-] & [= <-] & Hu). done.
Qed.
Print Assumptions C40_used.

(** The orders of iteration exist *)
Lemma orders_exist (s : solver) : (∃ pl, prm_order s pl) ∧ ∃ ol, obs_order s ol.
Proof.
  split; [|exists (map_to_list (s_obs s)); by unfold obs_order].
  exists (map_to_list (s_prm s) ≫= λ x, (λ y, (x.1, y.1, y.2)) <$> map_to_list x.2). split.
  - assert (Hgen : ∀ l : list (N * gmap N oprm), NoDup l.*1 → NoDup (l ≫= λ x, (λ y, (x.1, y.1, y.2)) <$> map_to_list x.2).*1).
    { induction l as [|[e m] l IH]; intros Hnd; [constructor|]. cbn [fmap list_fmap fst] in Hnd. apply NoDup_cons in Hnd as [He Hnd].
      rewrite bind_cons, fmap_app. apply NoDup_app. cbn [fst snd]. split; [|split; [|by apply IH]].
      - rewrite <- list_fmap_compose. cbn [compose fst]. apply (NoDup_fmap_1 (λ x : N * N, x.2)). rewrite <- list_fmap_compose. apply NoDup_fst_map_to_list.
      - intros [e' p] Hin Hin2. rewrite <- list_fmap_compose in Hin. apply elem_of_list_fmap in Hin as (y & E & _). cbn in E. injection E as Ee _. subst e'.
        apply elem_of_list_fmap in Hin2 as ([[e' p'] o] & E & Hin2). cbn in E. injection E as <- _.
        apply elem_of_list_bind in Hin2 as ([e2 m'] & Hin2 & Hl). apply elem_of_list_fmap in Hin2 as (y' & E & _). cbn in E. injection E as E _ _. subst e2.
        apply He. apply elem_of_list_fmap. by exists (e, m'). }
    apply Hgen, NoDup_fst_map_to_list.
  - intros e p o. rewrite elem_of_list_bind. unfold get_prm. split.
    + intros ([e' m] & Hin & Hl). apply elem_of_map_to_list in Hl. apply elem_of_list_fmap in Hin as ([p' o'] & E & Hin). cbn in E. injection E as -> -> ->.
      apply elem_of_map_to_list in Hin. by rewrite Hl.
    + destruct (s_prm s !! e) as [m|] eqn:Em; [|done]. cbn. intros Hp. exists (e, m). split; [|by apply elem_of_map_to_list].
      apply elem_of_list_fmap. exists (p, o). split; [done|]. by apply elem_of_map_to_list.
Qed.

(** ** Phase names with '@' *)
(** The solver joins phase and station with '@' and takes them apart at the first '@': a call with
    another '@' in the phase name is the same as the call with the names found in this way. *)
Definition norm_names (sta ph : text) : text * text := default (ph, sta) (split_at "@"%char (ph_sta_id sta ph)).
Definition norm (x : op) : op :=
  match x with
  | AddObs e1 e2 sta ph td w xu xc => AddObs e1 e2 (norm_names sta ph).2 (norm_names sta ph).1 td w xu xc
  | AddPrm e sta ph o => AddPrm e (norm_names sta ph).2 (norm_names sta ph).1 o
  | AddEv e => AddEv e
  end.
Lemma split_at_spec (t a b : text) : split_at "@"%char t = Some (a, b) → t = a ++ "@"%char :: b ∧ "@"%char ∉ a.
Proof.
  revert a b. induction t as [|x t IH]; intros a b; [done|]. cbn [split_at]. case_decide as E.
  - intros [= <- <-]. subst x. split; [done|]. apply not_elem_of_nil.
  - destruct (split_at _ t) as [[a' b']|]; [|done]. intros [= <- <-]. destruct (IH a' b' eq_refl) as [-> Hn]. split; [done|].
    apply not_elem_of_cons. split; [congruence|done].
Qed.
Lemma split_at_some (t : text) : "@"%char ∈ t → is_Some (split_at "@"%char t).
Proof.
  induction t as [|x t IH]; [by intros ?%elem_of_nil|]. cbn [split_at]. case_decide as E; [by eexists|].
  intros [Hx|Ht]%elem_of_cons; [congruence|]. destruct (IH Ht) as [[a b] ->]. by eexists.
Qed.
Lemma norm_names_spec (sta ph : text) : ph_sta_id (norm_names sta ph).2 (norm_names sta ph).1 = ph_sta_id sta ph ∧ "@"%char ∉ (norm_names sta ph).1.
Proof.
  unfold norm_names. destruct (split_at_some (ph_sta_id sta ph)) as [[a b] E].
  { unfold ph_sta_id. apply elem_of_app. right. cbn. left. }
  rewrite E. cbn. destruct (split_at_spec _ _ _ E) as [-> Hn]. done.
Qed.
Lemma norm_id (sta ph : text) : "@"%char ∉ ph → norm_names sta ph = (ph, sta).
Proof. intros H. unfold norm_names. by rewrite split_at_id. Qed.
Lemma norm_same (h : list op) : Forall phase_ok h → norm <$> h = h.
Proof.
  induction 1 as [|x h Hx _ IH]; [done|]. cbn [fmap list_fmap]. f_equal; [|done].
  destruct x; cbn [norm phase_ok] in *; [by rewrite norm_id|by rewrite norm_id|done].
Qed.
Lemma run_norm (h : list op) : run (norm <$> h) = run h.
Proof.
  unfold Solver_Hist.run. generalize (solver_init d0). induction h as [|x h IH]; intros s; [done|]. cbn [fmap list_fmap fold_left]. rewrite IH. f_equal.
  destruct x as [e1 e2 sta ph td w xu xc|e sta ph o|e]; cbn [norm Solver_Hist.apply]; [| |done].
  - unfold add_observation, obs_id. by rewrite (proj1 (norm_names_spec sta ph)).
  - unfold add_params. by rewrite (proj1 (norm_names_spec sta ph)).
Qed.
Lemma norm_ok (h : list op) : (N.of_nat (2 * length h) < 2 ^ 32)%N → hist_ok (norm <$> h).
Proof.
  intros Hb. split; [|by rewrite fmap_length]. apply Forall_fmap, Forall_true. intros [e1 e2 sta ph td w xu xc|e sta ph o|e]; cbn; [apply norm_names_spec..|done].
Qed.

(** C37 and C40 for any names *)
Theorem C37_any_names (h : list op) tt rw pl ol : (N.of_nat (2 * length h) < 2 ^ 32)%N → prm_order (run h) pl → obs_order (run h) ol → rw_ok rw →
  let h' := norm <$> h in
  ((∃ e1 e2 sta ph a, first_obs h' (e1, e2, sta, ph) = Some a ∧ (first_prm h' (e1, sta, ph) = None ∨ first_prm h' (e2, sta, ph) = None)) → prepare tt rw pl ol (run h) = Exc) ∧
  (complete h' → ∃ s', prepare tt rw pl ol (run h) = Ok s' ∧ let S := s_sys s' in wf S ∧
    (∀ k a, first_obs h' k = Some a → ∃ i, obs_index (run h) k = Some i ∧ i < nObs S) ∧
    (∀ i, i < nObs S → ∃ k a, first_obs h' k = Some a ∧ obs_index (run h) k = Some i) ∧
    (∀ k k' a a' i, first_obs h' k = Some a → first_obs h' k' = Some a' → obs_index (run h) k = Some i → obs_index (run h) k' = Some i → k = k') ∧
    (∀ e1 e2 sta ph td w xu xc p1 p2 i, first_obs h' (e1, e2, sta, ph) = Some (td, w, xu, xc) →
       first_prm h' (e1, sta, ph) = Some p1 → first_prm h' (e2, sta, ph) = Some p2 → obs_index (run h) (e1, e2, sta, ph) = Some i →
       ∃ x1 x2 q fw, ev_index (run h) e1 = Some x1 ∧ ev_index (run h) e2 = Some x2 ∧ ph_index (run h) sta ph = Some q ∧
         final_weight dmul rw (take (nObs S) (aD S)) i w fw ∧ aW S !! i = Some fw ∧
         aEv1 S !! i = Some (if op_ch p1 then Some x1 else None) ∧ aEv2 S !! i = Some (if op_ch p2 then Some x2 else None) ∧ aPh S !! i = Some q ∧
         aD S !! i = Some (dsub td (dsub (op_tt p1) (op_tt p2))) ∧
         aG S !! (x1 * nPhStas S + q) = Some [op_dx p1; op_dy p1; op_dz p1; d1] ∧ aG S !! (x2 * nPhStas S + q) = Some [op_dx p2; op_dy p2; op_dz p2; d1])).
Proof.
  intros Hb Hpl Hol Hrw h'. assert (Hr : run h' = run h) by apply run_norm. assert (Hok : hist_ok h') by (by apply norm_ok). clearbody h'. rewrite <- Hr in *. clear Hr Hb h. split.
  - by apply C37_missing.
  - intros Hc. destruct (C37_rows h' tt rw pl ol Hok Hpl Hol Hrw Hc) as (s' & HP & Hwf & _ & R). exists s'. done.
Qed.
Print Assumptions C37_any_names.
Theorem C40_any_names (h : list op) tt rw pl ol s' lsq el dl : (N.of_nat (2 * length h) < 2 ^ 32)%N → prm_order (run h) pl → obs_order (run h) ol → rw_ok rw → prepare tt rw pl ol (run h) = Ok s' →
  (∀ m, lsq (s_sys s') = Some m → length m = cols (s_sys s')) → el ≡ₚ map_to_list (s_stat s') → (∀ d, dl d ≡ₚ map_to_list d) →
  match solve d0 finite lsq el dl s' with
  | Bad => False
  | Exc => s_obs s' = ∅ ∨ lsq (s_sys s') = None ∨ ∃ m, lsq (s_sys s') = Some m ∧ ∀ e x v, ev_index (run h) e = Some x → constrained (s_sys s') x → ¬ solution m x v
  | Ok s3 => ∃ m, lsq (s_sys s') = Some m ∧ (∃ e v, get_event_changes s3 e = Some v) ∧
      ∀ e v, get_event_changes s3 e = Some v ↔ ∃ x, ev_index (run h) e = Some x ∧ constrained (s_sys s') x ∧ solution m x v
  end.
Proof.
  intros Hb. pose proof (norm_ok h Hb) as Hok. rewrite <- (run_norm h). by apply C40_solve.
Qed.
Print Assumptions C40_any_names.
End props.

(** ** Examples, with integers for the numbers *)
Definition zprep := Solver_Model.prepare 0%Z 1%Z Z.add Z.sub Z.mul (Z.eqb 0) (λ a n, Z.div a (Z.of_nat n)).
Definition sA : text := ["A"%char]. Definition sB : text := ["B"%char]. Definition pP : text := ["P"%char].
(** Three events, the second one fixed at B; the second call for the pair 1, 2 is ignored and
    the pair 2, 3 has no weight *)
Definition ex_h : list (@op Z) :=
  [AddPrm 1 sA pP (Oprm true 10 1 2 3 4); AddPrm 2 sA pP (Oprm true 20 2 5 6 7); AddPrm 2 sB pP (Oprm false 30 3 8 9 10); AddPrm 3 sB pP (Oprm true 40 4 11 12 13);
   AddObs 1 2 sA pP 7 6 false 0; AddObs 1 2 sA pP 99 99 true 1; AddObs 2 3 sB pP 8 0 true 5]%Z.
Example ex_h_ok : hist_ok ex_h ∧ complete ex_h.
Proof.
  split.
  - split; [|done]. repeat (apply Forall_cons_2; [cbn; set_solver|]). apply Forall_nil_2.
  - intros e1 e2 sta ph a Ha. unfold first_obs in Ha. cbn [first_of obs_of ex_h] in Ha.
    destruct (decide _) as [[= <- <- <- <-]|]; [split; (eexists; reflexivity)|].
    destruct (decide _) as [[= <- <- <- <-]|]; [split; (eexists; reflexivity)|done].
Qed.
Definition ex_pl : list (N * N * @oprm Z) :=
  [(0%N, 0%N, Oprm true 10 1 2 3 4); (1%N, 0%N, Oprm true 20 2 5 6 7); (1%N, 1%N, Oprm false 30 3 8 9 10); (2%N, 1%N, Oprm true 40 4 11 12 13)]%Z.
Definition ex_ol : list (N * @obsv Z) :=
  [(1%N, Obsv 1 2 1 8 0 true 5 0 0 0); (0%N, Obsv 0 1 0 7 6 false 0 0 0 0)]%Z.
Example ex_rows :
  match zprep (Some 2%Z) None ex_pl ex_ol (run 0%Z ex_h) with
  | Ok s' =>
      aW (s_sys s') = [6; 0; 12; 12; 0]%Z ∧ aD (s_sys s') = [17; 18; 1; 2; 0]%Z ∧
      aEv1 (s_sys s') = [Some 0; None; Some 0; Some 1; None] ∧ aEv2 (s_sys s') = [Some 1; Some 2; None; None; None] ∧ aPh (s_sys s') = [0; 1; 0; 0; 0] ∧
      aG (s_sys s') = [[2; 3; 4; 1]; [0; 0; 0; 0]; [5; 6; 7; 1]; [8; 9; 10; 1]; [0; 0; 0; 0]; [11; 12; 13; 1]]%Z
  | _ => False
  end.
Proof. vm_compute. done. Qed.
(** A solution with a change for the first two events; the third has no weight left *)
Example ex_changes :
  match rbind (zprep (Some 2%Z) None ex_pl ex_ol (run 0%Z ex_h)) (λ s', 
    Solver_Model.load_solutions 0%Z (λ _, true) [1; 2; 3; 4; 5; 6; 7; 8; 9; 10; 11; 12]%Z (map_to_list (s_stat s')) (map_to_list (mark 0%Z s' (map_to_list (s_stat s')))) s') with
  | Ok s => get_event_changes s 1 = Some (1, 2, 3, 4)%Z ∧ get_event_changes s 2 = Some (5, 6, 7, 8)%Z ∧ get_event_changes s 3 = None
  | _ => False
  end.
Proof. vm_compute. done. Qed.

(** With '@' in a phase name two observations are one *)
Theorem C38_at_refuted : ∃ (sta sta' ph ph' : text), (ph, sta) ≠ (ph', sta') ∧
  let s := run 0%Z [AddObs 1 2 sta ph 5 1 false 0; AddObs 1 2 sta' ph' 6 1 false 0]%Z in
  size (s_obs s) = 1 ∧ (ob_diff <$> s_obs s !! 0%N) = Some 5%Z.
Proof.
  exists ["B"%char], ["A"; "@"; "B"]%char, ["P"; "@"; "A"]%char, ["P"%char]. split; [done|]. vm_compute. done.
Qed.
Print Assumptions C38_at_refuted.
