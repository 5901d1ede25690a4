(** C71: the import of origins into a catalog. *)
From Coq Require Import Ascii.
From stdpp Require Import gmap list.
From Verif Require Import Index_Model Csv_Model Catalog_Model Catalog_Props Import_Model.

Section import.
Context {V : Type}.
Implicit Types (c : catalog V) (a : arrival V) (k : pick V) (o : origin V).
Variable ins : list (phase V) → phase V → list (phase V).
Hypothesis Hins : any_place ins.
Variable zero : V → bool.
Variable nan : V.
Variable inv : text → text → text → Z → located V.

(** ** Specification *)
(** An automatic pick that the origin did not use; what is not told counts as used. *)
Definition unused a k : Prop :=
  k_manual k = Some false ∧ ∃ w, a_weight a = Some w ∧ (zero w = true ∨ a_used a = Some false).
Definition code k : text := code_id (k_net k) (k_sta k) (k_loc k).
Definition found k : bool := match inv (k_net k) (k_sta k) (k_loc k) (k_time k) with InvAt _ _ _ => true | _ => false end.
(** arrival [b] is wanted and the inventory knows its station [i] at its time *)
Definition locates (i : text) (b : arrival V) : bool :=
  match a_pick b with
  | Some k => negb (discarded zero b k) && bool_decide (code k = i) && found k
  | None => false
  end.
(** The arrivals that become phases: the pick exists, is not discarded, and its station was in the
    catalog [c0], or was found in the inventory for it or for an earlier arrival. *)
Definition becomes c0 (before : list (arrival V)) (a : arrival V) : option (pick V) :=
  match a_pick a with
  | Some k =>
      if negb (discarded zero a k) && (bool_decide (is_Some (c_sta c0 !! code k)) || existsb (locates (code k)) (before ++ [a]))
      then Some k else None
  | None => None
  end.
Fixpoint chosen c0 (before arrs : list (arrival V)) : list (arrival V * pick V) :=
  match arrs with
  | [] => []
  | a :: r => match becomes c0 before a with Some k => [(a, k)] | None => [] end ++ chosen c0 (before ++ [a]) r
  end.
(** The phase made from an arrival: one uncertainty for both sides if there is one, else each side. *)
Definition phase_ok (id : N) (a : arrival V) (k : pick V) (p : phase V) : Prop :=
  p_ev p = id ∧ p_staid p = code k ∧ p_time p = k_time k ∧ p_type p = a_code a ∧
  p_net p = k_net k ∧ p_sta p = k_sta k ∧ p_loc p = k_loc k ∧ p_cha p = k_cha k ∧
  p_proc p = None ∧ p_reloc p = None ∧
  (∀ u, k_unc k = Some u → p_lower p = u ∧ p_upper p = u) ∧
  (k_unc k = None → ∀ l u, k_lower k = Some l → k_upper k = Some u → p_lower p = l ∧ p_upper p = u) ∧
  (k_unc k = None → k_lower k = None → p_lower p = nan ∧ p_upper p = nan).
Definition unset a : Prop := ∃ k, a_pick a = Some k ∧ discarded zero a k = false ∧ inv (k_net k) (k_sta k) (k_loc k) (k_time k) = InvUnset.
Definition has_arr o : bool := match o_arr o with [] => false | _ => true end.

(** Stations after the arrivals [before]: those of [c0] as they were, and those found. *)
Record stations_ok c0 (before : list (arrival V)) c : Prop := StOk {
  so_kept : ∀ i s, c_sta c0 !! i = Some s → c_sta c !! i = Some s;
  so_all : ∀ i, is_Some (c_sta c !! i) ↔ is_Some (c_sta c0 !! i) ∨ existsb (locates i) before = true }.

(** ** Proofs *)
Lemma discarded_unused a k : discarded zero a k = true ↔ unused a k.
Proof.
  unfold discarded, unused. destruct (k_manual k) as [[]|]; [split; [done|naive_solver]| |split; [done|naive_solver]].
  destruct (a_weight a) as [w|]; [|split; [done|naive_solver]].
  destruct (zero w) eqn:Z.
  - split; [intros _; split; [done|]; exists w; auto|done].
  - destruct (a_used a) as [[]|]; split; try done; try naive_solver.
Qed.
Lemma phase_of_ok id a k : phase_ok id a k (phase_of nan id (code k) a k).
Proof.
  unfold phase_ok, phase_of, pick_uncertainty. destruct (k_unc k) as [u|], (k_lower k) as [l|], (k_upper k) as [up|]; cbn;
    split_and!; try done; intros; simplify_eq; done.
Qed.
Lemma existsb_snoc {A} (f : A → bool) l x : existsb f (l ++ [x]) = existsb f l || f x.
Proof. rewrite existsb_app. cbn. by rewrite orb_false_r. Qed.

Lemma search_code c k : search_station c (k_net k) (k_sta k) (k_loc k) = c_sta c !! code k.
Proof. done. Qed.
Lemma stations_keep c0 before a c : stations_ok c0 before c →
  (∀ i, locates i a = true → is_Some (c_sta c !! i)) → stations_ok c0 (before ++ [a]) c.
Proof.
  intros [Hk Ha] H. split; [done|]. intros i. rewrite existsb_snoc, orb_true_iff, Ha. split; [tauto|].
  intros [?|[?|?]]; [tauto|tauto|]. apply Ha. by apply H.
Qed.
Definition grows c c' : Prop := ∀ i s, c_sta c !! i = Some s → c_sta c' !! i = Some s.
Local Hint Extern 0 (grows _ _) => (intros ? ? ?; assumption) : core.
Lemma import_arrival_ok id c0 before c a :
  integrity c → stations_ok c0 before c → is_Some (c_ev c !! id) →
  match import_arrival ins zero nan inv id c a with
  | CRet c' _ => grows c c' ∧ integrity c' ∧ stations_ok c0 (before ++ [a]) c' ∧ c_ev c' = c_ev c ∧ (∀ j, j ≠ id → phs c' j = phs c j) ∧
      phs c' id ≡ₚ phs c id ++ match becomes c0 before a with Some k => [phase_of nan id (code k) a k] | None => [] end
  | CExc c' => c' = c ∧ unset a
  | CUB => False
  end.
Proof using Hins.
  intros I S Hid. unfold import_arrival, becomes. destruct (a_pick a) as [k|] eqn:Ep.
  2: { split; [done|]. split; [done|]. split; [|split; [done|]; split; [done|]; by rewrite app_nil_r].
       apply stations_keep; [done|]. intros i. unfold locates. by rewrite Ep. }
  destruct (discarded zero a k) eqn:Ed; cbn [negb andb].
  { split; [done|]. split; [done|]. split; [|split; [done|]; split; [done|]; by rewrite app_nil_r].
    apply stations_keep; [done|]. intros i. unfold locates. by rewrite Ep, Ed. }
  rewrite !search_code. destruct (c_sta c !! code k) as [s|] eqn:Es.
  - assert (bool_decide (is_Some (c_sta c0 !! code k)) || existsb (locates (code k)) (before ++ [a]) = true) as ->.
    { assert (is_Some (c_sta c !! code k)) as Hs by eauto. apply (so_all _ _ _ S) in Hs. rewrite existsb_snoc.
      destruct Hs as [Hs|Hs]; [rewrite bool_decide_eq_true_2 by done; done|]. rewrite Hs. by rewrite orb_true_r. }
    destruct (in_sta _ I _ _ Es) as [Esid _]. rewrite Esid.
    split; [done|]. split; [apply integrity_add_phase; [done|done|..]|].
    { unfold phase_of. destruct (pick_uncertainty nan k). done. }
    { unfold phase_of. destruct (pick_uncertainty nan k). cbn. rewrite Es. eauto. }
    split; [apply stations_keep|].
    { destruct S as [S1 S2]. split; done. }
    { intros i Hi. unfold locates in Hi. rewrite Ep, Ed in Hi. cbn in Hi. apply andb_true_iff in Hi as [Hi _].
      apply bool_decide_eq_true in Hi as <-. cbn. rewrite Es. eauto. }
    split; [done|]. 
    assert (p_ev (phase_of nan id (code k) a k) = id) as Epe by (unfold phase_of; by destruct (pick_uncertainty nan k)).
    split.
    + intros j Hj. rewrite add_phase_phs. by rewrite Epe, decide_False.
    + rewrite add_phase_phs, Epe, decide_True by done. rewrite Hins. by rewrite Permutation_cons_append.
  - assert (c_sta c0 !! code k = None) as Es0.
    { destruct (c_sta c0 !! code k) as [s0|] eqn:E0; [|done]. by rewrite (so_kept _ _ _ S _ _ E0) in Es. }
    assert (existsb (locates (code k)) before = false) as Eb.
    { apply not_true_is_false. intros Hb. assert (is_Some (c_sta c !! code k)) as [? ?] by (apply (so_all _ _ _ S); by right). congruence. }
    rewrite bool_decide_eq_false_2 by (rewrite Es0; apply is_Some_None). rewrite existsb_snoc, Eb. cbn [orb].
    assert (locates (code k) a = found k) as ->.
    { unfold locates. rewrite Ep, Ed. cbn. by rewrite bool_decide_eq_true_2. }
    unfold found. destruct (inv (k_net k) (k_sta k) (k_loc k) (k_time k)) as [| |lat lon elev] eqn:Einv.
    + split; [done|]. split; [done|]. split; [|split; [done|]; split; [done|]; by rewrite app_nil_r].
      apply stations_keep; [done|]. intros i. unfold locates, found. rewrite Ep, Einv, andb_false_r. done.
    + split; [done|]. by exists k.
    + set (s0 := Sta [] lat lon elev (k_net k) (k_sta k) (k_loc k)).
      assert (sta_id s0 = code k) as Esid by done.
      rewrite search_code, add_station_lookup, Es, Esid, decide_True by done. cbn [set_s_id s_id].
      assert (integrity (add_station c s0)) as I1 by (by apply integrity_add_station).
      assert (p_ev (phase_of nan id (code k) a k) = id ∧ p_staid (phase_of nan id (code k) a k) = code k) as [Epe Eps] by (unfold phase_of; by destruct (pick_uncertainty nan k)).
      split; [intros i s Hi; cbn; by rewrite add_station_lookup, Hi|].
      split; [apply integrity_add_phase; [done|done| |]|].
      { rewrite Epe, add_station_ev. done. }
      { rewrite Eps, add_station_lookup, Es, Esid, decide_True by done. eauto. }
      split.
      { split.
        - intros i s Hi. cbn. rewrite add_station_lookup. by rewrite (so_kept _ _ _ S _ _ Hi).
        - intros i. cbn. rewrite add_station_lookup, existsb_snoc, orb_true_iff. pose proof (so_all _ _ _ S i) as Ha.
          destruct (c_sta c !! i) as [si|] eqn:Ei.
          + split; [|eauto]. intros _. destruct Ha as [Ha _]. destruct (Ha ltac:(eauto)); tauto.
          + rewrite Esid. case_decide as D.
            * split; [|eauto]. intros _. right. right. subst i. unfold locates. rewrite Ep, Ed. cbn. rewrite bool_decide_eq_true_2 by done.
              unfold found. by rewrite Einv.
            * split; [intros [? [=]]|]. intros [Hi|[Hi|Hi]]; [apply Ha; tauto|apply Ha; tauto|]. exfalso. apply D.
              unfold locates in Hi. rewrite Ep in Hi. apply andb_true_iff in Hi as [Hi _]. apply andb_true_iff in Hi as [_ Hi].
              by apply bool_decide_eq_true in Hi. }
      split; [apply add_station_ev|]. split.
      * intros j Hj. rewrite add_phase_phs, Epe, decide_False by done. apply add_station_phs.
      * rewrite add_phase_phs, Epe, decide_True by done. rewrite Hins, add_station_phs. by rewrite Permutation_cons_append.
Qed.
Definition phases_of (id : N) (l : list (arrival V * pick V)) : list (phase V) := (λ x, phase_of nan id (code x.2) x.1 x.2) <$> l.
Lemma import_arrivals_ok id c0 arrs : ∀ before c,
  integrity c → stations_ok c0 before c → is_Some (c_ev c !! id) →
  match import_arrivals ins zero nan inv id c arrs with
  | CRet c' _ => grows c c' ∧ integrity c' ∧ stations_ok c0 (before ++ arrs) c' ∧ c_ev c' = c_ev c ∧ (∀ j, j ≠ id → phs c' j = phs c j) ∧
      phs c' id ≡ₚ phs c id ++ phases_of id (chosen c0 before arrs)
  | CExc c' => grows c c' ∧ integrity c' ∧ c_ev c' = c_ev c ∧ (∀ j, j ≠ id → phs c' j = phs c j) ∧ ∃ a, a ∈ arrs ∧ unset a
  | CUB => False
  end.
Proof using Hins.
  induction arrs as [|a arrs IH]; intros before c I S Hid; cbn [import_arrivals].
  { rewrite !app_nil_r. done. }
  pose proof (import_arrival_ok id c0 before c a I S Hid) as H.
  destruct (import_arrival ins zero nan inv id c a) as [c1 []|c1|]; [| |done].
  - destruct H as (G1 & I1 & S1 & E1 & P1 & Q1). specialize (IH (before ++ [a]) c1 I1 S1 ltac:(rewrite E1; done)).
    destruct (import_arrivals ins zero nan inv id c1 arrs) as [c2 []|c2|]; [| |done].
    + destruct IH as (G2 & I2 & S2 & E2 & P2 & Q2). rewrite <- app_assoc in S2. split; [intros ???; auto|]. split; [done|]. split; [done|]. split; [by rewrite E2|].
      split; [intros j Hj; by rewrite P2, P1|]. rewrite Q2, Q1. cbn [chosen]. unfold phases_of. rewrite fmap_app, <- app_assoc.
      destruct (becomes c0 before a); done.
    + destruct IH as (G2 & I2 & E2 & P2 & x & Hx & Hu). split; [intros ???; auto|]. split; [done|]. split; [by rewrite E2|].
      split; [intros j Hj; by rewrite P2, P1|]. exists x. split; [by right|done].
  - destruct H as [-> Hu]. do 4 (split; [done|]). exists a. split; [by left|done].
Qed.

(** ** The whole import *)
Definition new_event (id : N) o (d : V) : event V := Ev id (o_time o) (o_lat o) (o_lon o) d (default nan (o_mag o)) None.
(** Whatever was in [c] is still there as it was. *)
Definition extends c c' : Prop :=
  (∀ k : N, is_Some (c_ev c !! k) → c_ev c' !! k = c_ev c !! k ∧ phs c' k = phs c k) ∧
  (∀ i s, c_sta c !! i = Some s → c_sta c' !! i = Some s).
Definition arrivals_of (l : list (origin V)) : list (arrival V) := o ← l; o_arr o.

Lemma max_key_insert (m : gmap N (event V)) (k : N) e : (max_key m < k)%N → max_key (<[k := e]> m) = k.
Proof.
  intros H. apply N.le_antisymm.
  - destruct (max_key_in ins Hins (<[k := e]> m)) as [E|Hin]; [lia|].
    apply lookup_insert_is_Some in Hin as [<-|[_ Hin]]; [done|]. apply max_key_ge in Hin. lia.
  - apply max_key_ge. rewrite lookup_insert. eauto.
Qed.
Lemma max_key_same (m m' : gmap N (event V)) : m = m' → max_key m = max_key m'.
Proof. by intros ->. Qed.

Definition entry (b : N) (l : list (origin V)) : list (N * origin V) := imap (λ j o, (b + 1 + N.of_nat j, o)%N) (filter has_arr l).
Lemma entry_cons b o l : has_arr o → entry b (o :: l) = (b + 1, o)%N :: entry (b + 1) l.
Proof.
  intros Ho. unfold entry. rewrite filter_cons_True by done. cbn [imap]. f_equal; [f_equal; lia|].
  apply imap_ext. intros j x _. cbn. f_equal. lia.
Qed.
Definition needs o : Prop := (has_arr o ∧ o_depth o = None) ∨ ∃ a, a ∈ o_arr o ∧ unset a.

Lemma import_ok c0 l : ∀ before c idm,
  integrity c → stations_ok c0 before c → (max_key (c_ev c) + N.of_nat (length (filter has_arr l)) < 2 ^ 32)%N →
  match import ins zero nan inv c l idm with
  | CRet c' idm' =>
      integrity c' ∧ extends c c' ∧ stations_ok c0 (before ++ arrivals_of l) c' ∧
      idm' = idm ++ entry (max_key (c_ev c)) l ∧
      (∀ k : N, is_Some (c_ev c' !! k) → is_Some (c_ev c !! k) ∨ k ∈ (entry (max_key (c_ev c)) l).*1) ∧
      (∀ l1 o l2, l = l1 ++ o :: l2 → has_arr o →
         let id := (max_key (c_ev c) + 1 + N.of_nat (length (filter has_arr l1)))%N in
         ∃ d, o_depth o = Some d ∧ c_ev c' !! id = Some (new_event id o d) ∧
           phs c' id ≡ₚ phases_of id (chosen c0 (before ++ arrivals_of l1) (o_arr o)))
  | CExc c' => integrity c' ∧ extends c c' ∧ ∃ o, o ∈ l ∧ needs o
  | CUB => False
  end.
Proof using Hins.
  induction l as [|o l IH]; intros before c idm I S Hm; cbn [import].
  { unfold arrivals_of, entry. cbn. rewrite !app_nil_r. split; [done|]. split; [done|]. split; [done|]. split; [done|]. split; [by left|].
    intros l1 o l2 H. by destruct l1. }
  destruct (decide (has_arr o)) as [Ho|Ho].
  2: { unfold has_arr in Ho. destruct (o_arr o) as [|a0 ar] eqn:Ea; [|done].
       rewrite filter_cons_False in Hm by (unfold has_arr; by rewrite Ea). specialize (IH before c idm I S Hm).
       destruct (import ins zero nan inv c l idm) as [c' idm'|c'|]; [| |done].
       - destruct IH as (I' & E' & S' & Hidm & Hk & Hn). split; [done|]. split; [done|].
         split. { unfold arrivals_of in *. cbn. by rewrite Ea. }
         assert (∀ b, entry b (o :: l) = entry b l) as Een.
         { intros b. unfold entry. rewrite filter_cons_False by (unfold has_arr; by rewrite Ea). done. }
         rewrite Een. split; [done|]. split; [done|]. intros l1 o' l2 Hl Ho'. destruct l1 as [|o1 l1]; cbn in Hl; injection Hl as <- Hl.
         + unfold has_arr in Ho'. by rewrite Ea in Ho'.
         + destruct (Hn l1 o' l2 Hl Ho') as (d & Hd & He & Hp). rewrite filter_cons_False by (unfold has_arr; by rewrite Ea).
           exists d. split; [done|]. split; [done|]. unfold arrivals_of in *. cbn. by rewrite Ea.
       - destruct IH as (I' & E' & x & Hx & Hn). split; [done|]. split; [done|]. exists x. split; [by right|done]. }
  rewrite filter_cons_True in Hm by done. cbn [length] in Hm.
  pose proof Ho as Ho'. unfold has_arr in Ho'. destruct (o_arr o) as [|a0 ar] eqn:Ea; [done|]. clear Ho'. rewrite <- Ea.
  destruct (o_depth o) as [d|] eqn:Edep.
  2: { split; [done|]. split; [done|]. exists o. split; [by left|]. by left. }
  unfold add_event. cbn [e_id].
  set (mk := max_key (c_ev c)) in *. set (ev := Ev 0 (o_time o) (o_lat o) (o_lon o) d (default nan (o_mag o)) None).
  assert (u32 (mk + 1) = mk + 1)%N as Eu by (unfold u32; apply N.mod_small; lia). rewrite Eu.
  set (c1 := Cat (c_sta c) (<[(mk + 1)%N := set_e_id ev (mk + 1)]> (c_ev c)) (c_ph c)).
  assert (c_ev c !! (mk + 1)%N = None) as Hnew.
  { destruct (c_ev c !! (mk + 1)%N) eqn:E; [|done]. assert (is_Some (c_ev c !! (mk + 1)%N)) as H by eauto. apply max_key_ge in H. fold mk in H. lia. }
  assert (phs c (mk + 1) = []) as Hnop.
  { destruct (phs c (mk + 1)) as [|p ps] eqn:E; [done|]. destruct (in_ph _ I (mk + 1)%N p) as (_ & [? ?] & _); [rewrite E; by left|]. congruence. }
  assert (integrity c1) as I1 by (apply (integrity_put_event c (set_e_id ev (mk + 1))); done).
  assert (stations_ok c0 before c1) as S1 by (destruct S; split; done).
  assert (c_ev c1 !! (mk + 1)%N = Some (set_e_id ev (mk + 1))) as Hc1 by (unfold c1; cbn; by rewrite lookup_insert).
  pose proof (import_arrivals_ok (mk + 1) c0 (o_arr o) before c1 I1 S1 ltac:(rewrite Hc1; eauto)) as H.
  destruct (import_arrivals ins zero nan inv (mk + 1) c1 (o_arr o)) as [c2 []|c2|]; [| |done].
  - destruct H as (G2 & I2 & S2 & E2 & P2 & Q2).
    assert (max_key (c_ev c2) = mk + 1)%N as Em by (rewrite (max_key_same _ _ E2); apply max_key_insert; unfold mk; lia).
    specialize (IH (before ++ o_arr o) c2 (idm ++ [((mk + 1)%N, o)]) I2 S2 ltac:(rewrite Em; lia)). rewrite Em in IH.
    assert (c_ev c2 !! (mk + 1)%N = Some (new_event (mk + 1) o d)) as Hc2 by (by rewrite E2, Hc1).
    assert (extends c c2) as [X1 X2].
    { split; [|exact G2].
      intros k Hk. assert (k ≠ mk + 1)%N as Hne by (intros ->; rewrite Hnew in Hk; by apply is_Some_None in Hk).
      rewrite E2, P2 by done. unfold c1. cbn. by rewrite lookup_insert_ne. }
    destruct (import ins zero nan inv c2 l _) as [c' idm'|c'|]; [| |done].
    + destruct IH as (I' & [Y1 Y2] & S' & Hidm & Hk & Hn). split; [done|]. split.
      { split; [|intros; by apply Y2, X2]. intros k Hk'. destruct (X1 k Hk') as [Z1 Z2]. rewrite <- Z1, <- Z2. apply Y1. by rewrite Z1. }
      split. { unfold arrivals_of in *. cbn. by rewrite <- app_assoc in S'. }
      rewrite entry_cons by done. split; [by rewrite Hidm, <- app_assoc|]. split.
      { intros k Hk'. destruct (Hk k Hk') as [Hk2|Hk2]; [|right; by right].
        rewrite E2 in Hk2. unfold c1 in Hk2. cbn in Hk2. apply lookup_insert_is_Some in Hk2 as [<-|[_ Hk2]]; [right; by left|by left]. }
      intros l1 o' l2 Hl Ho'. destruct l1 as [|o1 l1]; cbn in Hl; injection Hl as <- Hl.
      * cbn [filter list_filter length]. rewrite N.add_0_r. exists d. split; [done|].
        destruct (Y1 (mk + 1)%N ltac:(rewrite Hc2; eauto)) as [-> ->]. split; [done|].
        rewrite Q2. unfold c1 at 1. unfold phs at 1. cbn [c_ph]. fold (phs c (mk + 1)). rewrite Hnop. cbn.
        unfold arrivals_of. cbn. by rewrite app_nil_r.
      * destruct (Hn l1 o' l2 Hl Ho') as (d' & Hd & He & Hp). rewrite filter_cons_True by done. cbn [length].
        replace (mk + 1 + N.of_nat (Datatypes.S (length (filter has_arr l1))))%N with (mk + 1 + 1 + N.of_nat (length (filter has_arr l1)))%N by lia.
        exists d'. split; [done|]. split; [done|]. unfold arrivals_of in *. cbn. by rewrite <- app_assoc in Hp.
    + destruct IH as (I' & [Y1 Y2] & x & Hx & Hne). split; [done|]. split.
      { split; [|intros; by apply Y2, X2]. intros k Hk'. destruct (X1 k Hk') as [Z1 Z2]. rewrite <- Z1, <- Z2. apply Y1. by rewrite Z1. }
      exists x. split; [by right|done].
  - destruct H as (G2 & I2 & E2 & P2 & x & Hx & Hu). split; [done|]. split.
    + split; [|exact G2]. intros k Hk. assert (k ≠ mk + 1)%N as Hne by (intros ->; rewrite Hnew in Hk; by apply is_Some_None in Hk).
      rewrite E2, P2 by done. unfold c1. cbn. by rewrite lookup_insert_ne.
    + exists o. split; [by left|]. right. eauto.
Qed.

(** C71: the import adds one event for every origin that has arrivals, under consecutive new ids,
    with a phase for each arrival that is chosen; what the catalog held is kept. *)
Theorem C71_import c l : integrity c → (max_key (c_ev c) + N.of_nat (length (filter has_arr l)) < 2 ^ 32)%N →
  match import ins zero nan inv c l [] with
  | CRet c' idm =>
      integrity c' ∧ extends c c' ∧ idm = entry (max_key (c_ev c)) l ∧
      (∀ k : N, is_Some (c_ev c' !! k) ↔ is_Some (c_ev c !! k) ∨ k ∈ idm.*1) ∧
      (∀ i, is_Some (c_sta c' !! i) ↔ is_Some (c_sta c !! i) ∨ existsb (locates i) (arrivals_of l) = true) ∧
      (∀ l1 o l2, l = l1 ++ o :: l2 → has_arr o →
         let id := (max_key (c_ev c) + 1 + N.of_nat (length (filter has_arr l1)))%N in
         (id, o) ∈ idm ∧
         ∃ d ps, o_depth o = Some d ∧ c_ev c' !! id = Some (new_event id o d) ∧
           phs c' id ≡ₚ ps ∧ Forall2 (λ x p, phase_ok id x.1 x.2 p) (chosen c (arrivals_of l1) (o_arr o)) ps)
  | CExc c' => integrity c' ∧ extends c c' ∧ ∃ o, o ∈ l ∧ needs o
  | CUB => False
  end.
Proof using Hins.
  intros I Hm. assert (stations_ok c [] c) as S by (split; [done|]; intros i; cbn; naive_solver).
  pose proof (import_ok c l [] c [] I S Hm) as H.
  destruct (import ins zero nan inv c l []) as [c' idm|c'|]; [|done|done].
  destruct H as (I' & E' & S' & Hidm & Hk & Hn). cbn in Hidm, S'.
  assert (∀ l1 o l2, l = l1 ++ o :: l2 → has_arr o →
    ((max_key (c_ev c) + 1 + N.of_nat (length (filter has_arr l1)))%N, o) ∈ idm) as Hin.
  { intros l1 o l2 -> Ho. rewrite Hidm. unfold entry. rewrite filter_app, filter_cons_True by done.
    apply elem_of_lookup_imap. exists (length (filter has_arr l1)), o. split; [done|].
    rewrite lookup_app_r by done. by rewrite Nat.sub_diag. }
  split; [done|]. split; [done|]. split; [done|]. split.
  { intros k. split; [rewrite Hidm; apply Hk|]. intros [Hk'|Hk'].
    - destruct E' as [E' _]. destruct (E' k Hk') as [-> _]. done.
    - rewrite Hidm in Hk'. apply elem_of_list_fmap in Hk' as ([k' o] & -> & Hko). unfold entry in Hko.
      apply elem_of_lookup_imap in Hko as (j & o' & [= -> ->] & Hj). cbn.
      assert (∃ l1 l2, l = l1 ++ o' :: l2 ∧ length (filter has_arr l1) = j ∧ has_arr o') as (l1 & l2 & -> & <- & Ho').
      { clear -Hj. revert j Hj. induction l as [|x l IH]; intros j Hj; [done|]. destruct (decide (has_arr x)) as [Hx|Hx].
        - rewrite filter_cons_True in Hj by done. destruct j as [|j]; cbn in Hj.
          + injection Hj as ->. by exists [], l.
          + destruct (IH j Hj) as (l1 & l2 & -> & <- & Ho). exists (x :: l1), l2. rewrite filter_cons_True by done. done.
        - rewrite filter_cons_False in Hj by done. destruct (IH j Hj) as (l1 & l2 & -> & <- & Ho). exists (x :: l1), l2. rewrite filter_cons_False by done. done. }
      destruct (Hn l1 o' l2 eq_refl Ho') as (d & _ & -> & _). eauto. }
  split. { intros i. apply (so_all _ _ _ S'). }
  intros l1 o l2 Hl Ho id. split; [by eapply Hin|].
  destruct (Hn l1 o l2 Hl Ho) as (d & Hd & He & Hp). exists d, (phases_of id (chosen c (arrivals_of l1) (o_arr o))).
  split; [done|]. split; [done|]. split; [done|].
  unfold phases_of. induction (chosen c (arrivals_of l1) (o_arr o)) as [|[a k] r IH]; [constructor|].
  cbn. constructor; [apply phase_of_ok|done].
Qed.
(** It does not throw when every origin with arrivals has a depth and the sensor locations have a position. *)
Theorem C71_no_exception c l : integrity c → (max_key (c_ev c) + N.of_nat (length (filter has_arr l)) < 2 ^ 32)%N →
  (∀ o, o ∈ l → ¬ needs o) → ∃ c' idm, import ins zero nan inv c l [] = CRet c' idm.
Proof using Hins.
  intros I Hm Hn. pose proof (C71_import c l I Hm) as H. destruct (import ins zero nan inv c l []) as [c' idm|c'|]; [eauto| |done].
  destruct H as (_ & _ & o & Ho & Hno). by destruct (Hn o Ho).
Qed.
End import.

(** *** Concrete cases *)
Module Cases.
Definition ins (l : list (phase Z)) p := p :: l.
Definition zero (w : Z) : bool := Z.eqb w 0.
Definition txt (x : nat) : text := [ascii_of_nat (65 + x)].
(** the inventory knows station B, and C only before time 10 *)
Definition inv (_ s _ : text) (t : Z) : located Z :=
  if decide (s = txt 1) then InvAt 46%Z 8%Z 100%Z else if decide (s = txt 2) then if decide (t < 10)%Z then InvAt 47%Z 9%Z 200%Z else InvNone
  else InvNone.
Definition pk (s : nat) (t : Z) (manual : bool) : pick Z := Pick (txt 25) (txt s) [] (txt 7) t (Some 1%Z) None None (Some manual).
Definition arr (s : nat) (t : Z) (manual : bool) (w : Z) : arrival Z := Arr (txt 15) (Some (pk s t manual)) (Some w) (Some true).
(** unknown station, unused automatic pick, unused manual pick, pick missing, C in time, C too late but known by then *)
Definition o1 : origin Z := Orig 5 46%Z 8%Z (Some 10%Z) None
  [arr 0 6 false 1; arr 1 6 false 0; arr 1 7 true 0; Arr (txt 15) None None None; arr 2 8 false 1].
Definition o2 : origin Z := Orig 15 46%Z 8%Z (Some 11%Z) (Some 3%Z) [arr 2 16 false 1].
Definition o3 : origin Z := Orig 15 46%Z 8%Z None None [].
Definition summary (r : cres Z (list (N * origin Z))) : option (list (N * Z) * list (list (text * Z)) * list N) :=
  match r with
  | CRet c m => Some ((λ e, (e_id e, e_time e)) <$> sorted_events (c_ev c),
                      (λ e, (λ p, (p_staid p, p_time p)) <$> phs c (e_id e)) <$> sorted_events (c_ev c), m.*1)
  | _ => None
  end.
Example imported : summary (import ins zero (-1)%Z inv empty_cat [o1; o3; o2] []) =
  Some ([(1%N, 5%Z); (2%N, 15%Z)],
        [[(code_id (txt 25) (txt 2) [], 8%Z); (code_id (txt 25) (txt 1) [], 7%Z)]; [(code_id (txt 25) (txt 2) [], 16%Z)]], [1%N; 2%N]).
Proof. vm_compute. reflexivity. Qed.
(** alone the second origin has no station *)
Example imported_alone : summary (import ins zero (-1)%Z inv empty_cat [o2] []) = Some ([(1%N, 15%Z)], [[]], [1%N]).
Proof. vm_compute. reflexivity. Qed.
Example hypotheses : any_place ins ∧ integrity (empty_cat (V := Z)) ∧
  (max_key (c_ev (empty_cat (V := Z))) + N.of_nat (length (filter has_arr [o1; o3; o2])) < 2 ^ 32)%N.
Proof. split; [by intros l p|]. split; [apply integrity_empty|]. vm_compute. reflexivity. Qed.
End Cases.

(** Which phases an origin gives can depend on the origins imported before it. *)
Theorem C71_order_refuted : ∃ (ins : list (phase Z) → phase Z → list (phase Z)) zero nan inv (c : catalog Z) o1 o2 c1 c2 m1 m2,
  any_place ins ∧ integrity c ∧
  import ins zero nan inv c [o1; o2] [] = CRet c1 m1 ∧ import ins zero nan inv c [o2; o1] [] = CRet c2 m2 ∧
  m1.*2 = [o1; o2] ∧ m2.*2 = [o2; o1] ∧ length (phs c1 2) = 1 ∧ length (phs c2 1) = 0.
Proof.
  exists Cases.ins, Cases.zero, (-1)%Z, Cases.inv, empty_cat, Cases.o1, Cases.o2.
  eexists _, _, _, _. split; [by intros l p|]. split; [apply integrity_empty|].
  split; [vm_compute; reflexivity|]. split; [vm_compute; reflexivity|]. split; [reflexivity|]. split; [reflexivity|]. split; reflexivity.
Qed.
(** An origin without depth makes the import throw; the catalog keeps what was imported before. *)
Theorem C71_atomic_refuted : ∃ (ins : list (phase Z) → phase Z → list (phase Z)) zero nan inv (c : catalog Z) l c',
  any_place ins ∧ integrity c ∧ import ins zero nan inv c l [] = CExc c' ∧ c_ev c = ∅ ∧ is_Some (c_ev c' !! 1%N).
Proof.
  exists Cases.ins, Cases.zero, (-1)%Z, Cases.inv, empty_cat, [Cases.o2; Orig 15 46%Z 8%Z None None (o_arr Cases.o2)].
  eexists. split; [by intros l p|]. split; [apply integrity_empty|].
  split; [vm_compute; reflexivity|]. split; [reflexivity|]. vm_compute. eauto.
Qed.

Theorem C71_unused {V} (zero : V → bool) (a : arrival V) k : discarded zero a k = true ↔ unused zero a k.
Proof. apply discarded_unused. Qed.

Print Assumptions C71_import.
Print Assumptions C71_no_exception.
Print Assumptions C71_unused.
Print Assumptions C71_order_refuted.
Print Assumptions C71_atomic_refuted.
