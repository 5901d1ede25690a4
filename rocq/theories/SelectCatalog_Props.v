(** Property C31: selectNeighbouringEventsCatalog is closed and terminates. *)
From stdpp Require Import gmap list sets.
From Verif Require Import Cluster_Model SelectCatalog_Model.

(** What is assumed of the selection for one event (proved of the model of
    selectNeighbouringEvents in Select_Props.v): it is labelled with the event
    and proposes only other events of the given catalog. *)
Definition valid_sel {P} (sel : gset N → N → nb P) : Prop :=
  ∀ V e, nb_ref (sel V e) = e ∧ nb_ids (sel V e) ⊆ V ∖ {[e]}.
Definition valid_order (ord : nat → gset N → list N) : Prop := ∀ t X, ord t X ≡ₚ elements X.

Section proofs.
Context {P : Type}.
Variable sel : gset N → N → nb P.
Variable ord : nat → gset N → list N.
Variable minNum : nat.
Hypothesis Hsel : valid_sel sel.
Hypothesis Hord : valid_order ord.
Variable E : gset N.      (* all events of the catalog *)

(** An element of the list: comes from a selection on a set containing [V]. *)
Definition good (V : gset N) (k : N) (n : nb P) : Prop :=
  nb_ref n = k ∧ minNum ≤ nb_amount n ∧ ∃ W, V ⊆ W ∧ W ⊆ E ∧ n = sel W k.

(** An event was dropped because a selection on a set containing [V] failed. *)
Definition dropped (V : gset N) (k : N) : Prop :=
  ∃ W, V ⊆ W ∧ W ⊆ E ∧ k ∈ W ∧ nb_amount (sel W k) < minNum.

Lemma good_mono V V' k n : V' ⊆ V → good V k n → good V' k n.
Proof. intros HV (?&?&W&?&?&?). split; [done|]. split; [done|]. exists W. set_solver. Qed.
Lemma dropped_mono V V' k : V' ⊆ V → dropped V k → dropped V' k.
Proof. intros HV (W&?&?&?&?). exists W. set_solver. Qed.

Record SInv (s : sst P) : Prop := {
  si_dom : dom (s_list s) = s_valid s;
  si_part : s_valid s = E ∖ s_removed s;
  si_sub : s_removed s ⊆ E;
  si_good : ∀ k n, s_list s !! k = Some n → good (s_valid s) k n;
  si_drop : ∀ k, k ∈ s_removed s → dropped (s_valid s) k }.

Lemma first_loop (l done : list N) (s : sst P) :
  NoDup (done ++ l) → E = list_to_set (done ++ l) →
  dom (s_list s) ∪ list_to_set l = s_valid s → dom (s_list s) ## list_to_set l →
  s_valid s = E ∖ s_removed s → s_removed s ⊆ E →
  (∀ k n, s_list s !! k = Some n → good (s_valid s) k n) →
  (∀ k, k ∈ s_removed s → dropped (s_valid s) k) →
  SInv (fold_left (first_step sel minNum) l s).
Proof.
  revert done s. induction l as [|e l IH]; intros don s ND HE Hd Hdisj Hp Hsub Hg Hdr.
  { simpl. split; try done. set_solver. }
  cbn [fold_left]. 
  assert (NoDup ((don ++ [e]) ++ l)) as ND' by (by rewrite <-app_assoc).
  assert (e ∉ l) as Hel.
  { apply NoDup_app in ND as (_&_&ND). by apply NoDup_cons in ND as [? _]. }
  assert (E = list_to_set ((don ++ [e]) ++ l)) as HE' by (by rewrite <-app_assoc).
  destruct (Hsel (s_valid s) e) as [Hr Hi].
  simpl in Hd, Hdisj.
  assert (e ∈ E) as HeE by (rewrite HE; clear; set_solver).
  assert (e ∈ s_valid s) as HeV by (rewrite <-Hd; clear; set_solver).
  assert (s_valid s ⊆ E) as HVE by (rewrite Hp; clear; set_solver).
  unfold first_step. destruct (decide (minNum ≤ nb_amount (sel (s_valid s) e))) as [Hm|Hm].
  - rewrite Hr. assert (s_list s !! e = None) as Hn.
    { apply not_elem_of_dom. clear -Hdisj. set_solver. }
    rewrite Hn. apply (IH (don ++ [e])); try done; simpl.
    + rewrite dom_insert_L, <-Hd. clear. set_solver.
    + rewrite dom_insert_L. clear -Hdisj Hel. set_solver.
    + intros k n Hk. apply lookup_insert_Some in Hk as [[<- <-]|[_ Hk]]; [|by apply Hg].
      split; [done|]. split; [done|]. exists (s_valid s). done.
  - apply (IH (don ++ [e])); try done; simpl.
    + rewrite <-Hd. clear -Hdisj Hel. set_solver.
    + clear -Hdisj. set_solver.
    + rewrite Hp. clear. set_solver.
    + clear -HeE Hsub. set_solver.
    + intros k n Hk. eapply good_mono; [|by apply Hg]. clear; set_solver.
    + intros k Hk. apply elem_of_union in Hk as [Hk|Hk].
      * apply elem_of_singleton in Hk as ->. exists (s_valid s).
        split; [clear; set_solver|]. split; [done|]. split; [done|lia].
      * eapply dropped_mono; [|by apply Hdr]. clear; set_solver.
Qed.

(** One pass: [todo] are the keys still to be looked at. *)
Lemma pass_spec m l p :
  NoDup l → (∀ k, k ∈ l → is_Some (m !! k)) →
  (∀ k n, k ∈ l → m !! k = Some n → good (p_valid p) k n) →
  dom (p_new p) ∪ list_to_set l = p_valid p → dom (p_new p) ## list_to_set l →
  p_valid p = E ∖ p_removed p → p_removed p ⊆ E →
  (∀ k n, p_new p !! k = Some n → good (p_valid p) k n) →
  (∀ k, k ∈ p_removed p → dropped (p_valid p) k) →
  (p_redo p = false → ∀ k n, p_new p !! k = Some n → nb_ids n ∩ p_removed p = ∅) →
  ∃ p', pass sel minNum l m p = Done p' ∧
    SInv (Sst (p_new p') (p_valid p') (p_removed p')) ∧
    (p_redo p' = false → ∀ k n, p_new p' !! k = Some n → nb_ids n ∩ p_removed p' = ∅) ∧
    p_valid p' ⊆ p_valid p ∧
    (p_redo p' = true → p_redo p = true ∨ p_valid p' ≠ p_valid p).
Proof.
  revert p. induction l as [|k l IH]; intros p ND Hin Hgl Hd Hdisj Hp Hsub Hg Hdr Hok.
  { exists p. split; [done|]. split; [|split; [done|split; [done|tauto]]].
    split; simpl; try done. set_solver. }
  apply NoDup_cons in ND as [Hkl ND]. simpl in Hd, Hdisj. cbn [pass].
  destruct (Hin k) as [n Hn]; [by left|]. rewrite Hn.
  assert (p_new p !! k = None) as Hnone by (apply not_elem_of_dom; clear -Hdisj; set_solver).
  assert (k ∈ p_valid p) as HkV by (rewrite <-Hd; clear; set_solver).
  assert (p_valid p ⊆ E) as HVE by (rewrite Hp; clear; set_solver).
  assert (k ∈ E) as HkE by (by apply HVE).
  assert (∀ n', good (p_valid p) k n' →
     (p_redo p = false → nb_ids n' ∩ p_removed p = ∅) →
     ∃ p', pass sel minNum l m (Pst (<[k := n']> (p_new p)) (p_valid p) (p_removed p) (p_redo p)) = Done p' ∧
      SInv (Sst (p_new p') (p_valid p') (p_removed p')) ∧
      (p_redo p' = false → ∀ k n, p_new p' !! k = Some n → nb_ids n ∩ p_removed p' = ∅) ∧
      p_valid p' ⊆ p_valid p ∧
      (p_redo p' = true → p_redo p = true ∨ p_valid p' ≠ p_valid p)) as Hkeep.
  { intros n' Hgood Hids.
    apply (IH (Pst (<[k := n']> (p_new p)) (p_valid p) (p_removed p) (p_redo p))); simpl; try done.
    - intros k' Hk'. apply Hin. by right.
    - intros k' n'' Hk'. apply Hgl. by right.
    - rewrite dom_insert_L, <-Hd. clear. set_solver.
    - rewrite dom_insert_L. clear -Hdisj Hkl. set_solver.
    - intros k' n'' Hk'. apply lookup_insert_Some in Hk' as [[<- <-]|[_ Hk']]; [done|by apply Hg].
    - intros Hr k' n'' Hk'. apply lookup_insert_Some in Hk' as [[<- <-]|[_ Hk']]; [by apply Hids|].
      by eapply Hok. }
  destruct (Hgl k n) as (Hr & Hm & W & HW1 & HW2 & HnW); [by left|done|].
  unfold pass_step. rewrite Hr, Hnone. case_bool_decide as Hbad.
  - rewrite decide_True by done. destruct (Hsel (p_valid p) k) as [Hr' Hi'].
    rewrite Hr'. destruct (decide (nb_amount (sel (p_valid p) k) < minNum)) as [Hlt|Hge].
    + destruct (IH (Pst (p_new p) (p_valid p ∖ {[k]}) ({[k]} ∪ p_removed p) true))
        as (p' & H1 & H2 & H3 & H4 & H5); simpl; try done.
      * intros k' Hk'. apply Hin. by right.
      * intros k' n'' Hk' Hn''. eapply good_mono; [|apply Hgl; [by right|done]]. clear. set_solver.
      * rewrite <-Hd. clear -Hdisj Hkl. set_solver.
      * clear -Hdisj. set_solver.
      * rewrite Hp. clear. set_solver.
      * clear -HkE Hsub. set_solver.
      * intros k' n'' Hk'. eapply good_mono; [|by apply Hg]. clear; set_solver.
      * intros k' Hk'. apply elem_of_union in Hk' as [Hk'|Hk'].
        -- apply elem_of_singleton in Hk' as ->. exists (p_valid p).
           split; [clear; set_solver|]. split; [done|]. split; done.
        -- eapply dropped_mono; [|by apply Hdr]. clear; set_solver.
      * exists p'. split; [done|]. split; [done|]. split; [done|].
        simpl in H4. split; [clear -H4; set_solver|]. intros _. right. intros Heq. rewrite Heq in H4.
        clear -H4 HkV. set_solver.
    + rewrite Hnone. apply Hkeep.
      * split; [done|]. split; [lia|]. exists (p_valid p). done.
      * intros _. rewrite Hp in Hi' at 2. clear -Hi'. set_solver.
  - apply Hkeep.
    + split; [done|]. split; [done|]. exists W. done.
    + done.
Qed.

Lemma pass_all t s :
  SInv s →
  ∃ p, pass sel minNum (ord t (dom (s_list s))) (s_list s) (Pst ∅ (s_valid s) (s_removed s) false) = Done p ∧
    SInv (Sst (p_new p) (p_valid p) (p_removed p)) ∧
    (p_redo p = false → ∀ k n, p_new p !! k = Some n → nb_ids n ∩ p_removed p = ∅) ∧
    (p_redo p = true → size (p_valid p) < size (s_valid s)).
Proof.
  intros I.
  assert (∀ k, k ∈ ord t (dom (s_list s)) ↔ k ∈ dom (s_list s)) as Ho.
  { intros k. rewrite (Hord t _). apply elem_of_elements. }
  destruct (pass_spec (s_list s) (ord t (dom (s_list s))) (Pst ∅ (s_valid s) (s_removed s) false))
    as (p & H1 & H2 & H3 & H4 & H5); simpl in *.
  - rewrite (Hord t _). apply NoDup_elements.
  - intros k Hk. apply elem_of_dom. by apply Ho.
  - intros k n _ Hk. by apply (si_good _ I).
  - rewrite dom_empty_L, <-(si_dom _ I). apply set_eq. intros x.
    rewrite elem_of_union, elem_of_list_to_set, Ho. set_solver.
  - rewrite dom_empty_L. set_solver.
  - apply I.
  - apply I.
  - intros k n Hk. by rewrite lookup_empty in Hk.
  - apply I.
  - intros _ k n Hk. by rewrite lookup_empty in Hk.
  - exists p. split; [done|]. split; [done|]. split; [done|]. intros Hr.
    destruct (H5 Hr) as [|Hne]; [done|]. apply subset_size. split; [done|].
    intros Hs. apply Hne. by apply (anti_symm (⊆)).
Qed.

Lemma passes_total t s :
  SInv s →
  ∃ fuel r, (∀ f, fuel ≤ f → passes sel ord minNum f t s = Done r) ∧
    (∃ V R, SInv (Sst r V R) ∧ ∀ k n, r !! k = Some n → nb_ids n ∩ R = ∅).
Proof.
  remember (size (s_valid s)) as a eqn:Ha. revert s t Ha.
  induction (lt_wf a) as [a _ IH]. intros s t Ha I.
  destruct (pass_all t s I) as (p & Hp & I' & Hok & Hsz).
  destruct (p_redo p) eqn:Er.
  - destruct (IH (size (p_valid p)) ltac:(specialize (Hsz eq_refl); lia)
                 (Sst (p_new p) (p_valid p) (p_removed p)) (S t) eq_refl I') as (fuel & r & Hr & Hx).
    exists (S fuel), r. split; [|done]. intros [|f] Hf; [lia|]. simpl. rewrite Hp, Er.
    apply Hr. lia.
  - exists 1, (p_new p). split.
    + intros [|f] Hf; [lia|]. simpl. by rewrite Hp, Er.
    + exists (p_valid p), (p_removed p). split; [done|]. by apply Hok.
Qed.

Lemma passes_mono f f' t s r :
  f ≤ f' → passes sel ord minNum f t s = Done r → passes sel ord minNum f' t s = Done r.
Proof.
  revert f' t s. induction f as [|f IH]; intros f' t s Hle; [done|].
  destruct f' as [|f']; [lia|]. simpl. destruct (pass _ _ _ _ _); try done.
  destruct (p_redo a); [|done]. apply IH. lia.
Qed.
End proofs.

Lemma select_catalog_inv {P : Type} (sel : gset N → N → nb P) ord minNum (events : list N) :
  valid_sel sel → valid_order ord → NoDup events →
  ∃ fuel r, (∀ f, fuel ≤ f → select_catalog sel ord minNum f events = Done r) ∧
    (∃ V R, SInv sel minNum (list_to_set events) (Sst r V R) ∧
            ∀ k n, r !! k = Some n → nb_ids n ∩ R = ∅).
Proof.
  intros Hs Ho ND.
  assert (SInv sel minNum (list_to_set events)
     (fold_left (first_step sel minNum) events (Sst ∅ (list_to_set events) ∅))) as I.
  { apply (first_loop sel ord minNum Hs Ho (list_to_set events) events []); simpl; try done; set_solver. }
  apply (passes_total sel ord minNum Hs Ho _ 0 _ I).
Qed.

(** C31. The selection terminates without undefined behaviour, whatever the
    selection for single events does and whatever the order of the hash maps. *)
Theorem C31_select_catalog_terminates {P : Type} (sel : gset N → N → nb P) ord minNum events :
  valid_sel sel → valid_order ord → NoDup events →
  ∃ fuel r, ∀ f, fuel ≤ f → select_catalog sel ord minNum f events = Done r.
Proof.
  intros Hs Ho ND. destruct (select_catalog_inv sel ord minNum events Hs Ho ND) as (fuel & r & H & _).
  eauto.
Qed.
Print Assumptions C31_select_catalog_terminates.

(** C31. In the result every event is one of the catalog, is labelled with its
    own id, has at least [minNum] neighbours, and all of them are themselves
    events of the result; each list is the outcome of a selection made among a
    set of events that contains the result; and an event is left out only if
    such a selection gave fewer than [minNum] neighbours for it. *)
Theorem C31_select_catalog_closed {P : Type} (sel : gset N → N → nb P) ord minNum events f r :
  valid_sel sel → valid_order ord → NoDup events →
  select_catalog sel ord minNum f events = Done r →
  (∀ e n, r !! e = Some n →
     e ∈ events ∧ nb_ref n = e ∧ minNum ≤ size (nb_phs n) ∧
     (∀ e', is_Some (nb_phs n !! e') → e' ≠ e ∧ is_Some (r !! e')) ∧
     ∃ W : gset N, dom r ⊆ W ∧ W ⊆ list_to_set events ∧ n = sel W e) ∧
  (∀ e, e ∈ events → r !! e = None →
     ∃ W : gset N, dom r ⊆ W ∧ W ⊆ list_to_set events ∧ e ∈ W ∧ size (nb_phs (sel W e)) < minNum).
Proof.
  intros Hs Ho ND Er.
  destruct (select_catalog_inv sel ord minNum events Hs Ho ND) as (fuel & r' & H & V & R & I & Hok).
  assert (r' = r) as ->.
  { apply (passes_mono _ _ _ f (f `max` fuel)) in Er; [|lia].
    specialize (H (f `max` fuel) ltac:(lia)). unfold select_catalog in H. congruence. }
  destruct I as [Hdom Hpart Hsub Hg Hd]. simpl in *. split.
  - intros e n He. destruct (Hg e n He) as (Hr & Hm & W & HW1 & HW2 & ->).
    assert (e ∈ V) as HeV by (rewrite <-Hdom; apply elem_of_dom; eauto).
    split; [set_solver|]. split; [done|]. split; [done|]. split; [|exists W; set_solver].
    intros e' He'. apply elem_of_dom in He'. destruct (Hs W e) as [_ Hi].
    assert (e' ∈ nb_ids (sel W e)) as He2 by done.
    split; [set_solver|]. apply elem_of_dom. specialize (Hok _ _ He). rewrite Hdom, Hpart. clear -Hok Hi He2 HW2. set_solver.
  - intros e He Hn. apply not_elem_of_dom in Hn.
    assert (e ∈ R) as HeR.
    { destruct (decide (e ∈ R)); [done|]. exfalso. apply Hn. rewrite Hdom, Hpart. set_solver. }
    destruct (Hd e HeR) as (W & ? & ? & ? & ?). exists W. rewrite Hdom. done.
Qed.
Print Assumptions C31_select_catalog_closed.

(** Non-trivial instance: 1-2-3 chain, two neighbours required, with a triangle
    4,5,6: the removal of 1 cascades, the triangle stays. *)
Definition ex_links (e : N) : gset N :=
  match e with
  | 1 => {[2]} | 2 => {[1; 3]} | 3 => {[2; 4]} | 4 => {[5; 6]} | 5 => {[4; 6]} | 6 => {[4; 5]}
  | _ => ∅ end%N.
Definition ex_sel (V : gset N) (e : N) : nb unit := Nb e (gset_to_gmap tt ((V ∩ ex_links e) ∖ {[e]})).
Definition ex_ord (t : nat) (X : gset N) : list N := elements X.
Lemma ex_sel_valid : valid_sel ex_sel.
Proof.
  intros V e. split; [done|]. unfold ex_sel, nb_ids. simpl. rewrite dom_gset_to_gmap. set_solver.
Qed.
Example select_catalog_nontrivial :
  match select_catalog ex_sel ex_ord 2 10 [1; 2; 3; 4; 5; 6]%N with
  | Done r => elements (dom r) = [5; 4; 6]%N
  | _ => False
  end.
Proof. vm_compute. reflexivity. Qed.
