(** Theorems about the catalog container: C14, C15, C16, C17. *)
From Coq Require Import Ascii.
From stdpp Require Import gmap list sorting strings.
From Verif Require Import Index_Model Csv_Model Catalog_Model.

(** ** Specification *)

(** Referential integrity: keys are the stored ids, and the event and the station
    of each phase exist.  The id of a station is made of its codes. *)
Record integrity {V} (c : catalog V) : Prop := Integ {
  in_ev : ∀ k e, c_ev c !! k = Some e → e_id e = k;
  in_sta : ∀ k s, c_sta c !! k = Some s → s_id s = k ∧ sta_id s = k;
  in_ph : ∀ k p, p ∈ phs c k → p_ev p = k ∧ is_Some (c_ev c !! k) ∧ is_Some (c_sta c !! p_staid p) }.

(** States an operation can leave behind, by returning or by throwing. *)
Definition leaves {V A} (r : cres V A) (c : catalog V) : Prop := (∃ a, r = CRet c a) ∨ r = CExc c.

(** Any place among the equals is allowed for a new element of the multimap. *)
Definition any_place {V} (ins : list (phase V) → phase V → list (phase V)) : Prop :=
  ∀ l p, ins l p ≡ₚ p :: l.

(** Catalogs that can be built through the interface.  A phase is added for an
    existing event and station; a station is replaced by one whose id matches its
    codes. *)
Inductive built {V} (ins : list (phase V) → phase V → list (phase V)) : catalog V → Prop :=
| b_empty : built ins empty_cat
| b_station c s : built ins c → built ins (add_station c s)
| b_event c e keep c' : built ins c → leaves (add_event c e keep) c' → built ins c'
| b_phase c p : built ins c → is_Some (c_ev c !! p_ev p) → is_Some (c_sta c !! p_staid p) →
    built ins (add_phase ins c p)
| b_add c k src keep c' : built ins c → built ins src → leaves (add_from ins c k src keep) c' → built ins c'
| b_add_all c src keep c' : built ins c → built ins src → leaves (add_cat ins c src keep) c' → built ins c'
| b_extract c k keep c' : built ins c → extract_event ins c k keep = Some c' → built ins c'
| b_rm_event c k : built ins c → built ins (remove_event c k)
| b_rm_phase c k sid ty : built ins c → built ins (remove_phase c k sid ty)
| b_up_station c s addm : built ins c → s_id s = sta_id s → built ins (update_station c s addm).1
| b_up_event c e addm keep c' : built ins c → leaves (update_event c e addm keep) c' → built ins c'
| b_fill c weight src vp vs : built ins c → built ins (fill_proc ins weight src vp vs c).

Section proofs.
Context {V : Type}.
Implicit Types (c src : catalog V) (p : phase V) (e : event V) (s : station V).
Context (ins : list (phase V) → phase V → list (phase V)) (Hins : any_place ins).

Lemma set_s_id_same s : s_id s = sta_id s → set_s_id s (sta_id s) = s.
Proof. intros E. unfold set_s_id. rewrite <-E. by destruct s. Qed.
Lemma set_e_id_same e : set_e_id e (e_id e) = e.
Proof. by destruct e. Qed.
Lemma set_p_ev_same p : set_p_ev p (p_ev p) = p.
Proof. by destruct p. Qed.

(** *** Elementary operations *)
Lemma add_station_ev c s : c_ev (add_station c s) = c_ev c.
Proof. unfold add_station. by destruct (c_sta c !! _). Qed.
Lemma add_station_phs c s k : phs (add_station c s) k = phs c k.
Proof. unfold add_station. by destruct (c_sta c !! _). Qed.
Lemma add_station_lookup c s k :
  c_sta (add_station c s) !! k =
    match c_sta c !! k with Some s' => Some s' | None => if decide (k = sta_id s) then Some (set_s_id s (sta_id s)) else None end.
Proof.
  unfold add_station. destruct (c_sta c !! sta_id s) as [s0|] eqn:E.
  - destruct (c_sta c !! k) eqn:Ek; [done|]. case_decide; [congruence|done].
  - simpl. case_decide as D.
    + subst k. by rewrite lookup_insert, E.
    + rewrite lookup_insert_ne by done. by destruct (c_sta c !! k).
Qed.
Lemma add_station_mono c s k : is_Some (c_sta c !! k) → is_Some (c_sta (add_station c s) !! k).
Proof. intros [x Hx]. rewrite add_station_lookup, Hx. eauto. Qed.

Lemma add_phase_phs c p k :
  phs (add_phase ins c p) k = if decide (k = p_ev p) then ins (phs c k) p else phs c k.
Proof.
  unfold phs at 1. simpl. case_decide as D; [subst k; by rewrite lookup_insert|by rewrite lookup_insert_ne].
Qed.

Lemma integrity_empty : integrity (V := V) empty_cat.
Proof.
  split; [intros k x H; simpl in H; by rewrite lookup_empty in H..|].
  intros k x H. unfold phs in H. simpl in H. rewrite lookup_empty in H. by apply elem_of_nil in H.
Qed.
Lemma integrity_add_station c s : integrity c → integrity (add_station c s).
Proof.
  intros [I1 I2 I3]. split.
  - rewrite add_station_ev. apply I1.
  - intros k s' H. rewrite add_station_lookup in H. destruct (c_sta c !! k) eqn:E; simplify_eq; [by apply I2|].
    case_decide; simplify_eq. done.
  - intros k p. rewrite add_station_phs, add_station_ev. intros H. apply I3 in H as (? & ? & ?).
    split; [done|]. split; [done|]. by apply add_station_mono.
Qed.
Lemma integrity_put_event c e :
  integrity c → integrity (Cat (c_sta c) (<[e_id e := e]> (c_ev c)) (c_ph c)).
Proof.
  intros [I1 I2 I3]. split; simpl.
  - intros k e' H. apply lookup_insert_Some in H as [[<- <-]|[_ H]]; [done|by apply I1].
  - apply I2.
  - intros k p H. destruct (I3 k p H) as (? & ? & ?). split; [done|]. split; [|done].
    apply lookup_insert_is_Some'. by right.
Qed.
Lemma integrity_add_phase c p :
  integrity c → is_Some (c_ev c !! p_ev p) → is_Some (c_sta c !! p_staid p) → integrity (add_phase ins c p).
Proof.
  intros [I1 I2 I3] He Hs. split; [apply I1|apply I2|].
  intros k q Hq. rewrite add_phase_phs in Hq. case_decide as D; [|by apply I3].
  subst k. rewrite Hins in Hq. apply elem_of_cons in Hq as [->|Hq]; [done|]. by apply I3.
Qed.
Lemma integrity_add_event c e keep c' : integrity c → leaves (add_event c e keep) c' → integrity c'.
Proof.
  intros I [[a H]|H]; unfold add_event in H; destruct keep.
  - destruct (c_ev c !! e_id e); simplify_eq. by apply integrity_put_event.
  - simplify_eq. by apply (integrity_put_event c (set_e_id e (u32 (max_key (c_ev c) + 1)))).
  - destruct (c_ev c !! e_id e); by simplify_eq.
  - done.
Qed.

(** *** Copying phases *)
Lemma copy_phases_spec src new l : ∀ c,
  integrity src → (∀ p, p ∈ l → is_Some (c_sta src !! p_staid p)) →
  ∃ c', copy_phases ins src c new l = CRet c' new ∧ c_ev c' = c_ev c ∧
    phs c' new ≡ₚ ((λ p, set_p_ev p new) <$> l) ++ phs c new ∧
    (∀ k, k ≠ new → phs c' k = phs c k) ∧
    (∀ k, c_sta c' !! k = match c_sta c !! k with
                          | Some s => Some s
                          | None => if decide (k ∈ p_staid <$> l) then c_sta src !! k else None end).
Proof.
  induction l as [|p l IH]; intros c I Hl.
  - exists c. simpl. split; [done|]. split; [done|]. split; [done|]. split; [done|].
    intros k. by destruct (c_sta c !! k).
  - simpl. destruct (Hl p) as [s Hs]; [by left|]. rewrite Hs.
    destruct (in_sta _ I _ _ Hs) as [Hid Hcode].
    assert (s_id s = sta_id s) as Hsame by congruence.
    destruct (IH (add_phase ins (add_station c s) (set_p_ev p new)) I) as (c' & E & H1 & H2 & H3 & H4);
      [intros q Hq; apply Hl; by right|].
    exists c'. split; [done|]. split; [by rewrite H1; simpl; rewrite add_station_ev|]. split; [|split].
    + rewrite H2, add_phase_phs. change (p_ev (set_p_ev p new)) with new. rewrite decide_True by done. rewrite Hins, add_station_phs. simpl.
      by rewrite <-Permutation_middle.
    + intros k Hk. rewrite H3, add_phase_phs by done. change (p_ev (set_p_ev p new)) with new. rewrite decide_False by done. apply add_station_phs.
    + intros k. rewrite H4. simpl. rewrite add_station_lookup. destruct (c_sta c !! k) eqn:Ek; [done|].
      rewrite set_s_id_same by done. rewrite Hcode.
      destruct (decide (k = p_staid p)) as [->|D].
      * rewrite decide_True by set_solver. done.
      * destruct (decide (k ∈ p_staid <$> l)).
        -- rewrite decide_True by set_solver. done.
        -- rewrite decide_False by set_solver. done.
Qed.
Lemma copy_phases_integrity src new l c c' :
  integrity src → integrity c → is_Some (c_ev c !! new) →
  leaves (copy_phases ins src c new l) c' → integrity c'.
Proof.
  intros I. revert c. induction l as [|p l IH]; intros c Ic He H; simpl in H.
  - destruct H as [[a H]|H]; by simplify_eq.
  - destruct (c_sta src !! p_staid p) as [s|] eqn:Hs; [|destruct H as [[a H]|H]; by simplify_eq].
    destruct (in_sta _ I _ _ Hs) as [Hid Hcode].
    eapply IH; [| |exact H].
    + apply integrity_add_phase; [by apply integrity_add_station| |].
      * simpl. by rewrite add_station_ev.
      * simpl. rewrite add_station_lookup. destruct (c_sta c !! p_staid p); [eauto|].
        rewrite decide_True by done. eauto.
    + simpl. by rewrite add_station_ev.
Qed.

Lemma add_event_present c e keep c' new : add_event c e keep = CRet c' new → is_Some (c_ev c' !! new).
Proof.
  unfold add_event. destruct keep; [destruct (c_ev c !! e_id e); intros; simplify_eq|intros; simplify_eq];
    simpl; rewrite lookup_insert; eauto.
Qed.
Lemma integrity_add_from c k src keep c' :
  integrity c → integrity src → leaves (add_from ins c k src keep) c' → integrity c'.
Proof.
  intros I Is H. unfold add_from in H. destruct (c_ev src !! k) as [e|] eqn:E; [|by destruct H as [[a H]|H]].
  destruct (add_event c e keep) as [c1 new|c1|] eqn:Ea.
  - eapply copy_phases_integrity; [exact Is| | |exact H].
    + eapply integrity_add_event; [exact I|]. left. eauto.
    + by eapply add_event_present.
  - destruct H as [[a H]|H]; simplify_eq. eapply integrity_add_event; [exact I|]. by right.
  - by destruct H as [[a H]|H].
Qed.
Lemma integrity_add_events src keep l : ∀ c c',
  integrity c → integrity src → leaves (add_events ins c src keep l) c' → integrity c'.
Proof.
  induction l as [|e l IH]; intros c c' I Is H; simpl in H.
  - by destruct H as [[a H]|H]; simplify_eq.
  - destruct (keep && _); [by apply (IH c c' I Is H)|].
    destruct (add_from ins c (e_id e) src keep) as [c1 a|c1|] eqn:E.
    + eapply IH; [|done|exact H]. eapply integrity_add_from; [exact I|exact Is|]. left. eauto.
    + destruct H as [[a H]|H]; simplify_eq. eapply integrity_add_from; [exact I|exact Is|]. right. eauto.
    + by destruct H as [[a H]|H].
Qed.

(** *** Events in key order *)
Lemma elem_of_sorted_events (m : gmap N (event V)) e :
  e ∈ sorted_events m ↔ ∃ k, m !! k = Some e.
Proof.
  unfold sorted_events. rewrite elem_of_list_omap. split.
  - intros (k & _ & H). eauto.
  - intros [k H]. exists k. split; [|done]. rewrite merge_sort_Permutation.
    apply elem_of_elements, elem_of_dom. eauto.
Qed.
Lemma sorted_events_ids c : integrity c → (e_id <$> sorted_events (c_ev c)) ≡ₚ elements (dom (c_ev c)).
Proof.
  intros I. unfold sorted_events. etransitivity; [|apply (merge_sort_Permutation N.le (elements (dom (c_ev c))))].
  assert (∀ k, k ∈ merge_sort N.le (elements (dom (c_ev c))) → is_Some (c_ev c !! k)) as H.
  { intros k Hk. rewrite merge_sort_Permutation in Hk. by apply elem_of_elements, elem_of_dom in Hk. }
  induction (merge_sort N.le (elements (dom (c_ev c)))) as [|k l IH]; [done|].
  destruct (H k) as [e He]; [set_solver|]. simpl. rewrite He. simpl.
  rewrite (in_ev _ I k e He). constructor. apply IH. intros x Hx. apply H. set_solver.
Qed.
Lemma sorted_events_NoDup c : integrity c → NoDup (e_id <$> sorted_events (c_ev c)).
Proof. intros I. rewrite sorted_events_ids by done. apply NoDup_elements. Qed.

Lemma fold_add_phase l : ∀ c k,
  phs (fold_left (add_phase ins) l c) k ≡ₚ filter (λ p, p_ev p = k) l ++ phs c k.
Proof.
  induction l as [|p l IH]; intros c k; [done|]. simpl. rewrite IH, add_phase_phs, filter_cons.
  destruct (decide (k = p_ev p)) as [->|D].
  - rewrite decide_True by done. rewrite Hins. by rewrite <-Permutation_middle.
  - by rewrite decide_False by congruence.
Qed.
Lemma fold_add_phase_ev l : ∀ c, c_ev (fold_left (add_phase ins) l c) = c_ev c ∧ c_sta (fold_left (add_phase ins) l c) = c_sta c.
Proof. induction l as [|p l IH]; intros c; [done|]. simpl. destruct (IH (add_phase ins c p)) as [-> ->]. done. Qed.

Lemma fill_proc_phs weight sr vp vs c k : integrity c →
  phs (fill_proc ins weight sr vp vs c) k ≡ₚ with_proc weight sr vp vs <$> phs c k.
Proof.
  intros I. unfold fill_proc. unfold phs at 1. simpl.
  change (phs (fold_left (add_phase ins)
     (e ← sorted_events (c_ev c); with_proc weight sr vp vs <$> phs c (e_id e)) (Cat ∅ ∅ ∅)) k
     ≡ₚ with_proc weight sr vp vs <$> phs c k).
  rewrite fold_add_phase. unfold phs at 2. simpl. rewrite lookup_empty. simpl. rewrite (app_nil_r (filter _ _)).
  assert (∀ l : list (event V), NoDup (e_id <$> l) → 
    filter (λ p, p_ev p = k) (l ≫= (λ e, with_proc weight sr vp vs <$> phs c (e_id e))) =
    if decide (k ∈ e_id <$> l) then with_proc weight sr vp vs <$> phs c k else []) as H.
  { induction l as [|e l IH]; intros Hn; [done|]. simpl in Hn. apply NoDup_cons in Hn as [Hn1 Hn2].
    rewrite bind_cons, filter_app, IH by done. rewrite fmap_cons. destruct (decide (k = e_id e)) as [->|D].
    - rewrite decide_False by done. rewrite decide_True by set_solver. rewrite app_nil_r.
      assert (∀ p, p ∈ phs c (e_id e) → p_ev p = e_id e) as Hp by (intros p Hp; by apply (in_ph _ I)).
      revert Hp. generalize (phs c (e_id e)) as ll. clear. intros ll Hp.
      induction ll as [|p ll IH]; [done|]. simpl. rewrite filter_cons, decide_True.
      + f_equal. apply IH. intros q Hq. apply Hp. set_solver.
      + simpl. apply Hp. set_solver.
    - assert (filter (λ p, p_ev p = k) (with_proc weight sr vp vs <$> phs c (e_id e)) = []) as ->.
      { assert (∀ p, p ∈ phs c (e_id e) → p_ev p = e_id e) as Hp by (intros p Hp; by apply (in_ph _ I)).
        revert Hp. generalize (phs c (e_id e)) as ll. intros ll Hp.
        induction ll as [|p ll IH2]; [done|]. simpl. rewrite filter_cons, decide_False.
        + apply IH2. intros q Hq. apply Hp. set_solver.
        + simpl. rewrite (Hp p) by set_solver. done. }
      simpl. destruct (decide (k ∈ e_id <$> l)).
      + by rewrite decide_True by set_solver.
      + by rewrite decide_False by set_solver. }
  rewrite H by (by apply sorted_events_NoDup). case_decide as D; [done|].
  destruct (phs c k) as [|p ll] eqn:E; [done|]. exfalso. apply D.
  rewrite sorted_events_ids by done. apply elem_of_elements, elem_of_dom.
  apply (in_ph _ I k p). rewrite E. set_solver.
Qed.

(** *** C14 *)
Theorem C14_catalog_integrity c : built ins c → integrity c.
Proof.
  induction 1 as [|c s _ I|c e keep c' _ I H|c p _ I He Hs|c k src keep c' _ I _ Is H|c src keep c' _ I _ Is H
    |c k keep c' _ I H|c k _ I|c k sid ty _ I|c s addm _ I Hs|c e addm keep c' _ I H|c w src vp vs _ I].
  - apply integrity_empty.
  - by apply integrity_add_station.
  - eapply integrity_add_event; eassumption.
  - by apply integrity_add_phase.
  - eapply integrity_add_from; [exact I|exact Is|exact H].
  - eapply integrity_add_events; [exact I|exact Is|exact H].
  - unfold extract_event in H. destruct (c_ev c !! k) as [e|]; [|done].
    destruct (add_event empty_cat e keep) as [c1 new|c1|] eqn:Ea; [|done|done].
    destruct (copy_phases ins c c1 new (phs c (e_id e))) as [c2 a| |] eqn:Ec; simplify_eq.
    eapply copy_phases_integrity; [exact I| | |].
    + eapply integrity_add_event; [apply integrity_empty|left; eauto].
    + by eapply add_event_present.
    + left. eauto.
  - destruct I as [I1 I2 I3]. split; simpl.
    + intros k' e H. apply lookup_delete_Some in H as [_ H]. by apply I1.
    + apply I2.
    + intros k' p Hp. unfold phs in Hp. simpl in Hp. destruct (decide (k = k')) as [->|D].
      * rewrite lookup_delete in Hp. by apply elem_of_nil in Hp.
      * rewrite lookup_delete_ne in Hp by done. rewrite lookup_delete_ne by done. apply I3, Hp.
  - unfold remove_phase. destruct (search_phase c k sid ty) as [i|]; [|done].
    destruct I as [I1 I2 I3]. split; simpl; [done|done|].
    intros k' p Hp. unfold phs in Hp. simpl in Hp. destruct (decide (k = k')) as [->|D].
    + rewrite lookup_insert in Hp. simpl in Hp. apply I3.
      eapply elem_of_submseteq; [exact Hp|]. apply sublist_submseteq, sublist_delete.
    + rewrite lookup_insert_ne in Hp by done. by apply I3.
  - unfold update_station. destruct (c_sta c !! s_id s) as [s0|] eqn:E; simpl.
    + destruct I as [I1 I2 I3]. split; simpl; [done| |].
      * intros k s' H. apply lookup_insert_Some in H as [[<- <-]|[_ H]]; [done|by apply I2].
      * intros k p Hp. destruct (I3 k p Hp) as (? & ? & ?). split; [done|]. split; [done|].
        apply lookup_insert_is_Some'. by right.
    + destruct addm; [by apply integrity_add_station|done].
  - unfold update_event in H. destruct (c_ev c !! e_id e) as [e0|] eqn:E.
    + destruct H as [[a H]|H]; simplify_eq. by apply integrity_put_event.
    + destruct addm.
      * destruct (add_event c e keep) as [c1 a|c1|] eqn:Ea; destruct H as [[a' H]|H]; simplify_eq;
          (eapply integrity_add_event; [exact I|]); [left; eauto|right; eauto].
      * by destruct H as [[a H]|H]; simplify_eq.
  - split.
    + apply I.
    + apply I.
    + intros k p Hp. rewrite fill_proc_phs in Hp by done. apply elem_of_list_fmap in Hp as (q & -> & Hq).
      simpl. by apply (in_ph _ I).
Qed.

(** *** C15 *)
Lemma max_key_ge (m : gmap N (event V)) k : is_Some (m !! k) → (k ≤ max_key m)%N.
Proof.
  intros H. unfold max_key. assert (k ∈ elements (dom m)) as Hk by (by apply elem_of_elements, elem_of_dom).
  induction (elements (dom m)) as [|x l IH]; [by apply elem_of_nil in Hk|].
  simpl. apply elem_of_cons in Hk as [->|Hk]; [lia|]. specialize (IH Hk). lia.
Qed.
Lemma max_key_in (m : gmap N (event V)) : max_key m = 0%N ∨ is_Some (m !! max_key m).
Proof.
  unfold max_key. assert (∀ k, k ∈ elements (dom m) → is_Some (m !! k)) as H.
  { intros k Hk. by apply elem_of_elements, elem_of_dom in Hk. }
  induction (elements (dom m)) as [|x l IH]; [by left|]. simpl.
  destruct (IH ltac:(set_solver)) as [E|E].
  - rewrite E. rewrite N.max_0_r. right. apply H. set_solver.
  - destruct (N.max_spec x (foldr N.max 0%N l)) as [[_ ->]|[_ ->]]; [by right|right; apply H; set_solver].
Qed.

Definition ids_ok (m : gmap N (event V)) : Prop := ∀ k, is_Some (m !! k) → (k < 2 ^ 32)%N.

(** Adding under a new id.  The id is unused unless the catalog holds both the
    largest and the smallest 32 bit id. *)
Theorem C15_new_id_unused c e c' k :
  ids_ok (c_ev c) → ¬ (is_Some (c_ev c !! (2 ^ 32 - 1)%N) ∧ is_Some (c_ev c !! 0%N)) →
  add_event c e false = CRet c' k →
  c_ev c !! k = None ∧ (k < 2 ^ 32)%N ∧ c_ev c' !! k = Some (set_e_id e k) ∧
  (∀ k', k' ≠ k → c_ev c' !! k' = c_ev c !! k') ∧ c_sta c' = c_sta c ∧ c_ph c' = c_ph c.
Proof.
  intros Hok Hw H. unfold add_event in H. injection H as <- <-. simpl.
  set (k := u32 (max_key (c_ev c) + 1)).
  assert (c_ev c !! k = None) as Hnone.
  { destruct (c_ev c !! k) eqn:E; [|done]. exfalso.
    assert (is_Some (c_ev c !! k)) as Hk by eauto.
    pose proof (max_key_ge _ _ Hk) as Hle.
    destruct (max_key_in (c_ev c)) as [H0|Hin].
    - subst k. unfold u32 in *. rewrite H0 in *. change ((0 + 1) `mod` 2 ^ 32)%N with 1%N in Hle. lia.
    - pose proof (Hok _ Hin) as Hb. destruct (decide (max_key (c_ev c) = 2 ^ 32 - 1)%N) as [Em|Em].
      + apply Hw. rewrite <-Em. split; [done|].
        subst k. unfold u32 in Hk. rewrite Em in Hk.
        change ((2 ^ 32 - 1 + 1) `mod` 2 ^ 32)%N with 0%N in Hk. done.
      + subst k. unfold u32 in Hle. rewrite N.mod_small in Hle by lia. lia. }
  split; [done|]. split; [apply N.mod_lt; lia|]. split; [by rewrite lookup_insert|].
  split; [|done]. intros k' Hk'. by rewrite lookup_insert_ne.
Qed.
(** Keeping the id: stored under it, or an exception and no change. *)
Theorem C15_keep_id c e :
  (c_ev c !! e_id e = None ∧ ∃ c', add_event c e true = CRet c' (e_id e) ∧ c_ev c' !! e_id e = Some e ∧
     (∀ k', k' ≠ e_id e → c_ev c' !! k' = c_ev c !! k') ∧ c_sta c' = c_sta c ∧ c_ph c' = c_ph c) ∨
  (is_Some (c_ev c !! e_id e) ∧ add_event c e true = CExc c).
Proof.
  unfold add_event. destruct (c_ev c !! e_id e) as [e0|] eqn:E; [right; split; [eauto|done]|].
  left. split; [done|]. eexists. split; [done|]. simpl. split; [by rewrite lookup_insert|].
  split; [|done]. intros k' Hk'. by rewrite lookup_insert_ne.
Qed.

(** *** C16 *)
Lemma integrity_phs_sta src k : integrity src → ∀ p, p ∈ phs src k → is_Some (c_sta src !! p_staid p).
Proof. intros I p Hp. by apply (in_ph _ I k p). Qed.

(** What copying event [k] of [src] to [c] under the id [new] must produce. *)
Definition copied (c src : catalog V) (k new : N) (c' : catalog V) : Prop :=
  (∃ e, c_ev src !! k = Some e ∧ c_ev c' !! new = Some (set_e_id e new)) ∧
  (∀ k', k' ≠ new → c_ev c' !! k' = c_ev c !! k') ∧
  phs c' new ≡ₚ (λ p, set_p_ev p new) <$> phs src k ∧
  (∀ k', k' ≠ new → phs c' k' = phs c k') ∧
  (∀ i, c_sta c' !! i = match c_sta c !! i with
                        | Some s => Some s
                        | None => if decide (i ∈ p_staid <$> phs src k) then c_sta src !! i else None
                        end).

Lemma add_from_copied c k src keep e c1 new :
  integrity c → integrity src → c_ev src !! k = Some e → add_event c e keep = CRet c1 new →
  c_ev c !! new = None → ∃ c', add_from ins c k src keep = CRet c' new ∧ copied c src k new c'.
Proof.
  intros I Is He Ha Hnew. unfold add_from. rewrite He, Ha.
  pose proof (in_ev _ Is _ _ He) as Hid. rewrite Hid.
  destruct (copy_phases_spec src new (phs src k) c1 Is (integrity_phs_sta src k Is)) as (c' & E & H1 & H2 & H3 & H4).
  assert (phs c new = []) as Hp0.
  { destruct (phs c new) as [|p l] eqn:Ep; [done|]. exfalso.
    destruct (in_ph _ I new p) as (_ & [x Hx] & _); [rewrite Ep; set_solver|congruence]. }
  assert (c_ev c1 = <[new := set_e_id e new]> (c_ev c) ∧ c_sta c1 = c_sta c ∧ c_ph c1 = c_ph c) as (Q1 & Q2 & Q3).
  { unfold add_event in Ha. destruct keep.
    - destruct (c_ev c !! e_id e); simplify_eq. by rewrite set_e_id_same.
    - by simplify_eq. }
  assert (∀ k', phs c1 k' = phs c k') as Q4 by (intros k'; unfold phs; by rewrite Q3).
  exists c'. split; [done|]. split.
  { exists e. split; [done|]. rewrite H1, Q1. by rewrite lookup_insert. }
  split; [intros k' Hk'; rewrite H1, Q1; by rewrite lookup_insert_ne|].
  split; [rewrite H2, Q4, Hp0; by rewrite app_nil_r|].
  split; [intros k' Hk'; by rewrite H3, Q4|].
  intros i. rewrite H4, Q2. destruct (c_sta c !! i); [done|].
  done.
Qed.

Theorem C16_add_keeps_id c k src :
  integrity c → integrity src → is_Some (c_ev src !! k) → c_ev c !! k = None →
  ∃ c', add_from ins c k src true = CRet c' k ∧ copied c src k k c'.
Proof.
  intros I Is [e He] Hn. pose proof (in_ev _ Is _ _ He) as Hid.
  eapply add_from_copied; [done|done|done| |done].
  unfold add_event. by rewrite Hid, Hn.
Qed.
Theorem C16_add_new_id c k src :
  integrity c → integrity src → is_Some (c_ev src !! k) → ids_ok (c_ev c) →
  ¬ (is_Some (c_ev c !! (2 ^ 32 - 1)%N) ∧ is_Some (c_ev c !! 0%N)) →
  ∃ c' new, add_from ins c k src false = CRet c' new ∧ c_ev c !! new = None ∧ (new < 2 ^ 32)%N ∧ copied c src k new c'.
Proof.
  intros I Is [e He] Hok Hw.
  destruct (add_event c e false) as [c1 new| |] eqn:E; [|done|done].
  destruct (C15_new_id_unused c e c1 new Hok Hw E) as (Hn & Hb & _).
  destruct (add_from_copied c k src false e c1 new I Is He E Hn) as (c' & H1 & H2). eauto 6.
Qed.
Theorem C16_extract c k keep :
  integrity c →
  (c_ev c !! k = None → extract_event ins c k keep = None) ∧
  (is_Some (c_ev c !! k) → ∃ c', extract_event ins c k keep = Some c' ∧
     copied empty_cat c k (if keep then k else 1%N) c').
Proof.
  intros I. split; [unfold extract_event; by intros ->|]. intros [e He].
  pose proof (in_ev _ I _ _ He) as Hid.
  assert (∃ c1, add_event empty_cat e keep = CRet c1 (if keep then k else 1%N)) as [c1 Ha].
  { unfold add_event. destruct keep; simpl; [rewrite lookup_empty, Hid; eauto|eauto]. }
  destruct (add_from_copied empty_cat k c keep e c1 _ integrity_empty I He Ha) as (c' & H1 & H2); [apply lookup_empty|].
  exists c'. split; [|done]. unfold extract_event. rewrite He, Ha.
  unfold add_from in H1. rewrite He, Ha in H1. by rewrite H1.
Qed.

(** Merging with ids kept: events present before win, all others are copied. *)
Theorem C16_merge_keeping_ids c src :
  integrity c → integrity src →
  ∃ c', add_cat ins c src true = CRet c' tt ∧
    (∀ k, c_ev c' !! k = match c_ev c !! k with Some e => Some e | None => c_ev src !! k end) ∧
    (∀ k, phs c' k ≡ₚ match c_ev c !! k with Some _ => phs c k | None => phs src k end) ∧
    (∀ i s, c_sta c !! i = Some s → c_sta c' !! i = Some s) ∧
    (∀ i s, c_sta c' !! i = Some s → c_sta c !! i = Some s ∨ c_sta src !! i = Some s).
Proof.
  intros I Is. unfold add_cat.
  assert (∀ l c0, integrity c0 → (∀ e, e ∈ l → c_ev src !! e_id e = Some e) → NoDup (e_id <$> l) →
    ∃ c', add_events ins c0 src true l = CRet c' tt ∧
    (∀ k, c_ev c' !! k = match c_ev c0 !! k with Some e => Some e | None => 
         if decide (k ∈ e_id <$> l) then c_ev src !! k else None end) ∧
    (∀ k, phs c' k ≡ₚ match c_ev c0 !! k with Some _ => phs c0 k | None => 
         if decide (k ∈ e_id <$> l) then phs src k else [] end) ∧
    (∀ i s, c_sta c0 !! i = Some s → c_sta c' !! i = Some s) ∧
    (∀ i s, c_sta c' !! i = Some s → c_sta c0 !! i = Some s ∨ c_sta src !! i = Some s)) as H.
  { induction l as [|e l IH]; intros c0 I0 Hl Hn.
    - exists c0. split; [done|]. split; [|split; [|split; [done|by left]]].
      + intros k. simpl. by destruct (c_ev c0 !! k).
      + intros k. simpl. destruct (c_ev c0 !! k) eqn:E; [done|].
        destruct (phs c0 k) as [|p ll] eqn:Ep; [done|]. exfalso.
        destruct (in_ph _ I0 k p) as (_ & [x Hx] & _); [rewrite Ep; set_solver|congruence].
    - simpl in Hn. apply NoDup_cons in Hn as [Hn1 Hn2].
      assert (∀ e0, e0 ∈ l → c_ev src !! e_id e0 = Some e0) as Hl' by (intros; apply Hl; set_solver).
      simpl. case_bool_decide as D; simpl.
      + destruct (IH c0 I0 Hl' Hn2) as (c' & H0 & H1 & H2 & H3 & H4). exists c'. split; [done|].
        destruct D as [x Dx]. split; [|split; [|done]].
        * intros k. rewrite H1. destruct (decide (k = e_id e)) as [->|Dk]; [by rewrite Dx|].
          destruct (c_ev c0 !! k); [done|]. destruct (decide (k ∈ e_id <$> l)).
          -- by rewrite decide_True by set_solver.
          -- by rewrite decide_False by set_solver.
        * intros k. rewrite H2. destruct (decide (k = e_id e)) as [->|Dk]; [by rewrite Dx|].
          destruct (c_ev c0 !! k); [done|]. destruct (decide (k ∈ e_id <$> l)).
          -- by rewrite decide_True by set_solver.
          -- by rewrite decide_False by set_solver.
      + assert (c_ev c0 !! e_id e = None) as Dn.
        { destruct (c_ev c0 !! e_id e); [|done]. exfalso. apply D. eauto. }
        assert (c_ev src !! e_id e = Some e) as He by (apply Hl; set_solver).
        destruct (C16_add_keeps_id c0 (e_id e) src I0 Is) as (c1 & Ha & ((e' & He' & K1) & K2 & K3 & K4 & K5)); [eauto|done|].
        rewrite Ha. assert (e' = e) as -> by congruence. rewrite set_e_id_same in K1.
        assert (integrity c1) as I1 by (eapply integrity_add_from; [exact I0|exact Is|left; eauto]).
        destruct (IH c1 I1 Hl' Hn2) as (c' & H0 & H1 & H2 & H3 & H4). exists c'. split; [done|].
        split; [|split; [|split]].
        * intros k. rewrite H1. destruct (decide (k = e_id e)) as [->|Dk].
          -- rewrite K1, Dn. rewrite decide_True by set_solver. done.
          -- rewrite K2 by done. destruct (c_ev c0 !! k); [done|]. destruct (decide (k ∈ e_id <$> l)).
             ++ by rewrite decide_True by set_solver.
             ++ by rewrite decide_False by set_solver.
        * intros k. rewrite H2. destruct (decide (k = e_id e)) as [->|Dk].
          -- rewrite K1, Dn. rewrite decide_True by set_solver. rewrite K3.
             assert (∀ p, p ∈ phs src (e_id e) → set_p_ev p (e_id e) = p) as Hsame.
             { intros p Hp. destruct (in_ph _ Is _ _ Hp) as [Hpe _]. rewrite <-Hpe. apply set_p_ev_same. }
             revert Hsame. generalize (phs src (e_id e)) as ll. clear. intros ll Hs.
             assert ((λ p, set_p_ev p (e_id e)) <$> ll = ll) as ->; [|done].
             induction ll as [|p ll IH]; [done|]. simpl. rewrite (Hs p) by set_solver. f_equal.
             apply IH. intros q Hq. apply Hs. set_solver.
          -- rewrite K2, K4 by done. destruct (c_ev c0 !! k); [done|]. destruct (decide (k ∈ e_id <$> l)).
             ++ by rewrite decide_True by set_solver.
             ++ by rewrite decide_False by set_solver.
        * intros i s Hs. apply H3. by rewrite K5, Hs.
        * intros i s Hs. apply H4 in Hs as [Hs|Hs]; [|by right]. rewrite K5 in Hs.
          destruct (c_sta c0 !! i); [by left|]. case_decide; [by right|done]. }
  destruct (H (sorted_events (c_ev src)) c I) as (c' & H0 & H1 & H2 & H3 & H4).
  { intros e He. apply elem_of_sorted_events in He as [k Hk]. by rewrite (in_ev _ Is _ _ Hk). }
  { by apply sorted_events_NoDup. }
  exists c'. split; [done|]. split; [|split; [|done]].
  - intros k. rewrite H1. destruct (c_ev c !! k); [done|]. case_decide as D; [done|].
    destruct (c_ev src !! k) eqn:E; [|done]. exfalso. apply D. rewrite sorted_events_ids by done.
    apply elem_of_elements, elem_of_dom. eauto.
  - intros k. rewrite H2. destruct (c_ev c !! k); [done|]. case_decide as D; [done|].
    destruct (phs src k) as [|p ll] eqn:E; [done|]. exfalso. apply D. rewrite sorted_events_ids by done.
    apply elem_of_elements, elem_of_dom. apply (in_ph _ Is k p). rewrite E. set_solver.
Qed.

(** Merging under new ids: every event of [src] gets its own unused id, nothing
    that was there changes, and nothing else appears. *)
Theorem C16_merge_new_ids c src :
  integrity c → integrity src → (max_key (c_ev c) + N.of_nat (size (dom (c_ev src))) < 2 ^ 32)%N →
  ∃ c' (f : N → N), add_cat ins c src false = CRet c' tt ∧
    (∀ k, is_Some (c_ev src !! k) →
       c_ev c !! f k = None ∧ c_ev c' !! f k = (λ e, set_e_id e (f k)) <$> c_ev src !! k ∧
       phs c' (f k) ≡ₚ (λ p, set_p_ev p (f k)) <$> phs src k) ∧
    (∀ k k', is_Some (c_ev src !! k) → is_Some (c_ev src !! k') → f k = f k' → k = k') ∧
    (∀ k, is_Some (c_ev c !! k) → c_ev c' !! k = c_ev c !! k ∧ phs c' k = phs c k) ∧
    (∀ k, is_Some (c_ev c' !! k) → is_Some (c_ev c !! k) ∨ ∃ k0, is_Some (c_ev src !! k0) ∧ k = f k0) ∧
    (∀ i s, c_sta c !! i = Some s → c_sta c' !! i = Some s).
Proof.
  intros I Is HB. unfold add_cat.
  assert (∀ l c0 B, integrity c0 → (∀ e, e ∈ l → c_ev src !! e_id e = Some e) → NoDup (e_id <$> l) →
    (∀ k, is_Some (c_ev c0 !! k) → (k ≤ B)%N) → (B + N.of_nat (length l) < 2 ^ 32)%N →
    ∃ c' (f : N → N), add_events ins c0 src false l = CRet c' tt ∧
    (∀ k, k ∈ e_id <$> l →
       c_ev c0 !! f k = None ∧ c_ev c' !! f k = (λ e, set_e_id e (f k)) <$> c_ev src !! k ∧
       phs c' (f k) ≡ₚ (λ p, set_p_ev p (f k)) <$> phs src k) ∧
    (∀ k k', k ∈ e_id <$> l → k' ∈ e_id <$> l → f k = f k' → k = k') ∧
    (∀ k, is_Some (c_ev c0 !! k) → c_ev c' !! k = c_ev c0 !! k ∧ phs c' k = phs c0 k) ∧
    (∀ k, is_Some (c_ev c' !! k) → is_Some (c_ev c0 !! k) ∨ ∃ k0, k0 ∈ e_id <$> l ∧ k = f k0) ∧
    (∀ i s, c_sta c0 !! i = Some s → c_sta c' !! i = Some s)) as H.
  { clear c I HB. induction l as [|e l IH]; intros c0 B I0 Hl Hn Hb HB.
    - exists c0, id. split; [done|]. split; [intros k Hk; by apply elem_of_nil in Hk|].
      split; [intros k k' Hk; by apply elem_of_nil in Hk|]. split; [done|]. split; [by left|done].
    - simpl in Hn. apply NoDup_cons in Hn as [Hn1 Hn2]. simpl length in HB.
      assert (∀ e0, e0 ∈ l → c_ev src !! e_id e0 = Some e0) as Hl' by (intros; apply Hl; by right).
      assert (c_ev src !! e_id e = Some e) as He by (apply Hl; by left).
      cbn [add_events andb].
      assert (ids_ok (c_ev c0)) as Hok by (intros k Hk; specialize (Hb k Hk); lia).
      destruct (add_event c0 e false) as [c1' new'| |] eqn:Ea; [|done|done].
      assert (¬ (is_Some (c_ev c0 !! (2 ^ 32 - 1)%N) ∧ is_Some (c_ev c0 !! 0%N))) as Hnw.
      { intros [Hx _]. specialize (Hb _ Hx). lia. }
      destruct (C15_new_id_unused c0 e c1' new' Hok Hnw Ea) as (Hfree & _).
      assert (new' ≤ B + 1)%N as Hnew.
      { unfold add_event in Ea. injection Ea as _ <-. unfold u32.
        assert (max_key (c_ev c0) ≤ B)%N; [destruct (max_key_in (c_ev c0)) as [->|Hm]; [lia|by apply Hb]|].
        rewrite N.mod_small by lia. lia. }
      destruct (add_from_copied c0 (e_id e) src false e c1' new' I0 Is He Ea Hfree) as
        (c1 & Hadd & ((e' & He' & K1) & K2 & K3 & K4 & K5)).
      rewrite Hadd. assert (e' = e) as -> by congruence.
      assert (integrity c1) as I1 by (eapply integrity_add_from; [exact I0|exact Is|left; eauto]).
      destruct (IH c1 (B + 1)%N I1 Hl' Hn2) as (c' & f & H0 & H1 & H2 & H3 & H4 & H5).
      { intros k [x Hx]. destruct (decide (k = new')) as [->|D]; [done|].
        rewrite K2 in Hx by done. assert (k ≤ B)%N by (apply Hb; eauto). lia. }
      { lia. }
      assert (∀ k, k ∈ e_id <$> l → f k ≠ new') as Hfn.
      { intros k Hk Heq. destruct (H1 k Hk) as (Q & _). rewrite Heq, K1 in Q. done. }
      assert (∀ k, k ∈ e_id <$> l → k ≠ e_id e) as Hne by (intros k Hk ->; by apply Hn1).
      exists c', (λ k, if decide (k = e_id e) then new' else f k). split; [done|].
      assert (c_ev c' !! new' = c_ev c1 !! new' ∧ phs c' new' = phs c1 new') as [N1 N2] by (apply H3; eauto).
      split; [|split; [|split; [|split]]].
      + intros k Hk. simpl in Hk. case_decide as D.
        * subst k. split; [done|]. split; [by rewrite N1, K1, He|]. by rewrite N2, K3.
        * apply elem_of_cons in Hk as [?|Hk]; [done|]. destruct (H1 k Hk) as (Q1 & Q2 & Q3).
          split; [|done]. rewrite <-Q1. symmetry. apply K2. by apply Hfn.
      + intros k k' Hk Hk'. simpl in Hk, Hk'. apply elem_of_cons in Hk, Hk'.
        repeat case_decide; intros E; subst; try done.
        * destruct Hk' as [->|Hk']; [done|]. by destruct (Hfn k' Hk').
        * destruct Hk as [->|Hk]; [done|]. by destruct (Hfn k Hk).
        * destruct Hk as [->|Hk]; [done|]. destruct Hk' as [->|Hk']; [done|]. by apply H2.
      + intros k Hk. assert (k ≠ new') as D by (intros ->; rewrite Hfree in Hk; by destruct Hk).
        destruct (H3 k) as [-> ->]; [by rewrite K2|]. by rewrite K2, K4.
      + intros k Hk. destruct (H4 k Hk) as [Hk1|(k0 & Hk0 & ->)].
        * destruct (decide (k = new')) as [->|D].
          -- right. exists (e_id e). split; [by left|]. by rewrite decide_True.
          -- left. by rewrite <-K2.
        * right. exists k0. split; [by right|]. rewrite decide_False by (by apply Hne). done.
      + intros i s0 Hs0. apply H5. by rewrite K5, Hs0. }
  assert (∀ k, k ∈ e_id <$> sorted_events (c_ev src) ↔ is_Some (c_ev src !! k)) as Hdom.
  { intros k. rewrite sorted_events_ids by done. by rewrite elem_of_elements, elem_of_dom. }
  destruct (H (sorted_events (c_ev src)) c (max_key (c_ev c)) I) as (c' & f & H0 & H1 & H2 & H3 & H4 & H5).
  { intros e He. apply elem_of_sorted_events in He as [k Hk]. by rewrite (in_ev _ Is _ _ Hk). }
  { by apply sorted_events_NoDup. }
  { intros k. apply max_key_ge. }
  { rewrite <-(fmap_length e_id), (sorted_events_ids src Is). exact HB. }
  exists c', f. split; [done|]. split; [intros k Hk; by apply H1, Hdom|].
  split; [intros k k' Hk Hk'; apply H2; by apply Hdom|]. split; [done|]. split; [|done].
  intros k Hk. destruct (H4 k Hk) as [?|(k0 & Hk0 & ->)]; [by left|]. right. exists k0. by rewrite <-Hdom.
Qed.

(** *** C17 *)
Theorem C17_remove_event c k :
  c_ev (remove_event c k) !! k = None ∧ phs (remove_event c k) k = [] ∧
  (∀ k', k' ≠ k → c_ev (remove_event c k) !! k' = c_ev c !! k' ∧ phs (remove_event c k) k' = phs c k') ∧
  c_sta (remove_event c k) = c_sta c.
Proof.
  unfold remove_event, phs. simpl. rewrite !lookup_delete. split; [done|]. split; [done|]. split; [|done].
  intros k' Hk. by rewrite !lookup_delete_ne.
Qed.
Theorem C17_remove_phase c k sid ty :
  let c' := remove_phase c k sid ty in
  (∀ k', k' ≠ k → phs c' k' = phs c k') ∧ c_ev c' = c_ev c ∧ c_sta c' = c_sta c ∧
  ((∃ p, p ∈ phs c k ∧ p_staid p = sid ∧ p_type p = ty ∧ phs c k ≡ₚ p :: phs c' k) ∨
   ((∀ p, p ∈ phs c k → ¬ (p_staid p = sid ∧ p_type p = ty)) ∧ phs c' k = phs c k)).
Proof.
  unfold remove_phase, search_phase.
  destruct (list_find (λ p, p_staid p = sid ∧ p_type p = ty) (phs c k)) as [[i p]|] eqn:E; simpl.
  - apply list_find_Some in E as (Hi & [H1 H2] & _). split; [|split; [done|split; [done|]]].
    + intros k' Hk. unfold phs. simpl. by rewrite lookup_insert_ne.
    + left. exists p. split; [by eapply elem_of_list_lookup_2|]. split; [done|]. split; [done|].
      unfold phs at 2. simpl. rewrite lookup_insert. simpl. by apply delete_Permutation.
  - split; [done|]. split; [done|]. split; [done|]. right. split; [|done].
    apply list_find_None in E. rewrite Forall_forall in E. exact E.
Qed.

(** fillProcessingInfo changes only the processing information. *)
Theorem C14_fill_processing_info weight sr vp vs c : integrity c →
  let c' := fill_proc ins weight sr vp vs c in
  c_ev c' = c_ev c ∧ c_sta c' = c_sta c ∧
  ∀ k, phs c' k ≡ₚ with_proc weight sr vp vs <$> phs c k.
Proof. intros I. split; [done|]. split; [done|]. intros k. by apply fill_proc_phs. Qed.
End proofs.

Print Assumptions C14_catalog_integrity.
Print Assumptions C14_fill_processing_info.
Print Assumptions C15_new_id_unused.
Print Assumptions C15_keep_id.
Print Assumptions C16_add_keeps_id.
Print Assumptions C16_add_new_id.
Print Assumptions C16_extract.
Print Assumptions C16_merge_keeping_ids.
Print Assumptions C16_merge_new_ids.
Print Assumptions C17_remove_event.
Print Assumptions C17_remove_phase.

(** ** Counterexamples and instances *)
Definition tx (s : string) : text := String.list_ascii_of_string s.
Definition ins0 (l : list (phase Z)) (p : phase Z) : list (phase Z) := p :: l.
Lemma ins0_any : any_place ins0.
Proof. intros l p. done. Qed.
Definition ex_ev (k : N) (m : Z) : event Z := Ev k 0%Z 1%Z 2%Z 3%Z m None.
Definition ex_sta (n s l : string) (x : Z) : station Z := Sta [] x 0%Z 0%Z (tx n) (tx s) (tx l).
Definition ex_ph (k : N) (sid ty : string) : phase Z := Pha k (tx sid) 7%Z 1%Z 1%Z (tx ty) [] [] [] [] None None.
Definition ex_c1 : catalog Z :=
  add_phase ins0 (add_phase ins0 (add_phase ins0
    (Cat (c_sta (add_station (add_station empty_cat (ex_sta "N" "A" "" 1)) (ex_sta "N" "B" "00" 2)))
         {[ 5%N := ex_ev 5 1; 7%N := ex_ev 7 2 ]} ∅)
    (ex_ph 5 "N.A." "P")) (ex_ph 5 "N.B.00" "S")) (ex_ph 5 "N.A." "P").

(** A catalog with two events, two stations and a repeated pick can be built. *)
Example ex_c1_built : built ins0 ex_c1.
Proof.
  assert (built ins0 (Cat (c_sta (add_station (add_station (V:=Z) empty_cat (ex_sta "N" "A" "" 1)) (ex_sta "N" "B" "00" 2)))
         {[ 5%N := ex_ev 5 1; 7%N := ex_ev 7 2 ]} ∅)) as H.
  { eapply (b_event ins0 (Cat (c_sta (add_station (add_station empty_cat (ex_sta "N" "A" "" 1)) (ex_sta "N" "B" "00" 2)))
              {[ 7%N := ex_ev 7 2 ]} ∅) (ex_ev 5 1) true).
    - eapply (b_event ins0 (add_station (add_station empty_cat (ex_sta "N" "A" "" 1)) (ex_sta "N" "B" "00" 2)) (ex_ev 7 2) true).
      + apply b_station, b_station, b_empty.
      + left. exists 7%N. reflexivity.
    - left. exists 5%N. reflexivity. }
  unfold ex_c1. apply b_phase; [apply b_phase; [apply b_phase; [exact H|..]|..]|..];
    eexists; vm_compute; reflexivity.
Qed.
Example ex_extract : match extract_event ins0 ex_c1 5 false with
  | Some c => length (phs c 1) = 3 ∧ size (c_sta c) = 2 ∧ size (c_ev c) = 1 | None => False end.
Proof. vm_compute. split; [done|]. split; done. Qed.
Example ex_merge_hyp : (max_key (c_ev ex_c1) + N.of_nat (size (dom (c_ev ex_c1))) < 2 ^ 32)%N.
Proof. vm_compute. reflexivity. Qed.
Example ex_remove : length (phs (remove_phase ex_c1 5 (tx "N.A.") (tx "P")) 5) = 2.
Proof. vm_compute. reflexivity. Qed.

(** C15 fails when the largest and the smallest 32 bit id are both in use: the
    event with id 0 is replaced. *)
Theorem C15_wraparound_refuted :
  ∃ (c : catalog Z) e c' k, integrity c ∧ ids_ok (c_ev c) ∧ add_event c e false = CRet c' k ∧
    is_Some (c_ev c !! k) ∧ c_ev c' !! k ≠ c_ev c !! k.
Proof.
  exists (Cat ∅ {[ 0%N := ex_ev 0 1; (2 ^ 32 - 1)%N := ex_ev (2 ^ 32 - 1) 2 ]} ∅), (ex_ev 3 5).
  eexists _, 0%N. split; [|split; [|split; [|split]]].
  - split.
    + intros k e H. cbn [c_ev] in H. apply lookup_insert_Some in H as [[<- <-]|[_ H]]; [done|].
      apply lookup_singleton_Some in H as [<- <-]. done.
    + intros k s H. cbn [c_sta] in H. by rewrite lookup_empty in H.
    + intros k p H. unfold phs in H. cbn [c_ph] in H. rewrite lookup_empty in H. by apply elem_of_nil in H.
  - intros k [e H]. cbn [c_ev] in H. apply lookup_insert_Some in H as [[<- <-]|[_ H]]; [lia|].
    apply lookup_singleton_Some in H as [<- <-]. lia.
  - reflexivity.
  - eexists. reflexivity.
  - vm_compute. discriminate.
Qed.
Print Assumptions C15_wraparound_refuted.

(** updateStation accepts a station whose codes do not match its id; copying an
    event then stores the station under another id and the copied phase has no
    station. *)
Theorem C14_station_codes_refuted :
  ∃ (c : catalog Z) s k c' p, built ins0 c ∧ is_Some (c_sta c !! s_id s) ∧
    extract_event ins0 (update_station c s false).1 k true = Some c' ∧
    p ∈ phs c' k ∧ c_sta c' !! p_staid p = None.
Proof.
  exists ex_c1, (Sta (tx "N.A.") 1%Z 2%Z 3%Z (tx "N") (tx "ZZ") (tx "")), 5%N.
  destruct (extract_event ins0 (update_station ex_c1 _ false).1 5 true) as [c'|] eqn:E; [|by vm_compute in E].
  exists c', (ex_ph 5 "N.A." "P"). split; [apply ex_c1_built|]. split; [eexists; vm_compute; reflexivity|]. split; [done|].
  assert (match extract_event ins0 (update_station ex_c1 (Sta (tx "N.A.") 1%Z 2%Z 3%Z (tx "N") (tx "ZZ") (tx "")) false).1 5 true with
     | Some c' => (negb (bool_decide (is_Some (c_sta c' !! tx "N.A."))) &&
                  match phs c' 5 with p :: _ => bool_decide (p_staid p = tx "N.A." ∧ p_type p = tx "P" ∧ p_ev p = 5%N) | _ => false end)%bool
     | None => false end = true) as H by (vm_compute; reflexivity).
  rewrite E in H. apply andb_prop in H as [H1 H2].
  assert (∃ l, phs c' 5 = ex_ph 5 "N.A." "P" :: l) as [l Hl].
  { injection E as <-. eexists. vm_compute. reflexivity. }
  split; [rewrite Hl; by left|].
  destruct (c_sta c' !! p_staid (ex_ph 5 "N.A." "P")) eqn:Es; [|done].
  change (p_staid (ex_ph 5 "N.A." "P")) with (tx "N.A.") in Es. rewrite Es in H1. by rewrite bool_decide_true in H1 by eauto.
Qed.
Print Assumptions C14_station_codes_refuted.

(** Codes that contain a dot: two different stations share an id and the second
    one is dropped without notice. *)
Theorem C14_station_id_collision_refuted :
  ∃ (s1 s2 : station Z), s_net s1 ≠ s_net s2 ∧ s_sta s1 ≠ s_sta s2 ∧
    add_station (add_station empty_cat s1) s2 = add_station empty_cat s1.
Proof.
  exists (ex_sta "A.B" "C" "" 1), (ex_sta "A" "B.C" "" 2).
  split; [discriminate|]. split; [discriminate|]. reflexivity.
Qed.
Print Assumptions C14_station_id_collision_refuted.

(** Without dots in network and station codes the id determines the codes. *)
Theorem C14_station_id_unique (n s l n' s' l' : text) :
  dot ∉ n → dot ∉ s → dot ∉ n' → dot ∉ s' → code_id n s l = code_id n' s' l' → n = n' ∧ s = s' ∧ l = l'.
Proof.
  assert (∀ a b a' b' : text, dot ∉ a → dot ∉ a' → a ++ dot :: b = a' ++ dot :: b' → a = a' ∧ b = b') as H.
  { induction a as [|x a IH]; intros b [|x' a'] b' Ha Ha' E; simplify_eq/=.
    - done.
    - exfalso. apply Ha'. by left.
    - exfalso. apply Ha. by left.
    - destruct (IH b a' b') as [-> ->]; [set_solver|set_solver|done|done]. }
  unfold code_id. simpl. intros H1 H2 H3 H4 E. apply H in E as [-> E]; [|done|done].
  apply H in E as [-> ->]; done.
Qed.
Print Assumptions C14_station_id_unique.
