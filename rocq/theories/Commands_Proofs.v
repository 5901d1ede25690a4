(** Lemmas about the commands on catalogs. *)
From Coq Require Import Ascii Lia.
From stdpp Require Import gmap list strings.
From Verif Require Import Index_Model Csv_Model Table_Model Table_Proofs Catalog_Model Catalog_Props Neighbours_Model Neighbours_Props Import_Model Config_Model Commands_Model.
From Verif Require Solver_Model.
Local Open Scope nat_scope.

(** *** Lists of names *)
Fixpoint commas (l : list text) : text :=
  match l with
  | [] => []
  | [a] => a
  | a :: l => a ++ [","%char] ++ commas l
  end.
Definition name_ok (t : text) : Prop := t ≠ [] ∧ ","%char ∉ t.

Lemma split_word a : ∀ cur b s, ","%char ∉ a → a ≠ [] → split_from "," cur b (a ++ s) = split_from "," (rev a ++ cur) false s.
Proof.
  assert (∀ a cur s, ","%char ∉ a → split_from "," cur false (a ++ s) = split_from "," (rev a ++ cur) false s) as H.
  { clear. induction a as [|x a IH]; intros cur s Ha; [done|]. apply not_elem_of_cons in Ha as [Hx Ha].
    cbn [app split_from]. destruct (ascii_dec x ",") as [->|_]; [done|]. rewrite IH by done. cbn [rev].
    by rewrite <-app_assoc. }
  intros cur b s Ha Hn. destruct a as [|x a]; [done|]. apply not_elem_of_cons in Ha as [Hx Ha].
  cbn [app split_from]. destruct (ascii_dec x ",") as [->|_]; [done|]. rewrite H by done. cbn [rev].
  by rewrite <-app_assoc.
Qed.
Lemma split_commas l : ∀ b, l ≠ [] → Forall name_ok l → split_from "," [] b (commas l) = l.
Proof.
  induction l as [|a l IH]; intros b Hn Hl; [done|]. apply List.Forall_cons_iff in Hl as [[Ha1 Ha2] Hl].
  destruct l as [|a' l].
  - cbn [commas]. rewrite <-(app_nil_r a) at 1. rewrite split_word by done. cbn [split_from].
    by rewrite app_nil_r, rev_involutive.
  - change (commas (a :: a' :: l)) with (a ++ [","%char] ++ commas (a' :: l)).
    rewrite split_word by done. cbn [app split_from]. destruct (ascii_dec "," ",") as [_|]; [|done].
    rewrite app_nil_r, rev_involutive. f_equal. by apply IH.
Qed.
Lemma tokens_commas l : l ≠ [] → Forall name_ok l → tokens (commas l) = l.
Proof. intros. by apply split_commas. Qed.
Lemma given_commas l : l ≠ [] → Forall name_ok l → given (commas l) = true.
Proof.
  intros Hn Hl. apply bool_decide_eq_true. destruct l as [|a l]; [done|]. apply List.Forall_cons_iff in Hl as [[Ha _] _].
  destruct l; cbn [commas]; [done|]. by destruct a.
Qed.

(** *** Merging *)
Section merge.
Context {V : Type} (ins : list (phase V) → phase V → list (phase V)) (Hins : any_place ins).
Variable read_triple : text → text → text → bool → option (catalog V).

Definition flat (l : list (text * text * text)) : list text := '(a, b, d) ← l; [a; b; d].
Definition reads (l : list (text * text * text)) (cats : list (catalog V)) : Prop :=
  Forall2 (λ '(a, b, d) c, read_triple a b d true = Some c) l cats.
Definition events (cats : list (catalog V)) : nat := sum_list_with (λ c, size (dom (c_ev c))) cats.

Lemma length_flat l : length (flat l) = 3 * length l.
Proof. induction l as [|[[a b] d] l IH]; [done|]. unfold flat in *. cbn [mbind list_bind]. rewrite app_length, IH. cbn [length]. lia. Qed.

Lemma add_events_more src l : integrity src → ∀ c0 B c', integrity c0 → (∀ e, e ∈ l → c_ev src !! e_id e = Some e) → NoDup (e_id <$> l) →
  (∀ k, is_Some (c_ev c0 !! k) → (k ≤ B)%N) → (B + N.of_nat (length l) < 2 ^ 32)%N →
  add_events ins c0 src false l = CRet c' tt →
  (∀ k, is_Some (c_ev c' !! k) → (k ≤ B + N.of_nat (length l))%N) ∧
  (∀ i s, c_sta c' !! i = Some s → c_sta c0 !! i = Some s ∨ c_sta src !! i = Some s).
Proof using Hins.
  intros Is. induction l as [|e l IH]; intros c0 B c' I0 Hl Hn Hb HB H.
  - injection H as <-. split; [|by left]. intros k Hk. specialize (Hb k Hk). cbn [length]. lia.
  - cbn [fmap list_fmap] in Hn. apply NoDup_cons in Hn as [Hn1 Hn2]. cbn [length] in HB.
    assert (∀ e0, e0 ∈ l → c_ev src !! e_id e0 = Some e0) as Hl' by (intros; apply Hl; by right).
    assert (c_ev src !! e_id e = Some e) as He by (apply Hl; by left).
    cbn [add_events andb] in H.
    assert (ids_ok (c_ev c0)) as Hok by (intros k Hk; specialize (Hb k Hk); lia).
    destruct (add_event c0 e false) as [c1' new'| |] eqn:Ea; [|done|done].
    assert (¬ (is_Some (c_ev c0 !! (2 ^ 32 - 1)%N) ∧ is_Some (c_ev c0 !! 0%N))) as Hnw.
    { intros [Hx _]. specialize (Hb _ Hx). lia. }
    destruct (C15_new_id_unused ins Hins c0 e c1' new' Hok Hnw Ea) as (Hfree & _).
    assert (new' ≤ B + 1)%N as Hnew.
    { unfold add_event in Ea. injection Ea as _ <-. unfold u32.
      assert (max_key (c_ev c0) ≤ B)%N; [destruct (max_key_in ins Hins (c_ev c0)) as [->|Hm]; [lia|by apply Hb]|].
      rewrite N.mod_small by lia. lia. }
    destruct (add_from_copied ins Hins c0 (e_id e) src false e c1' new' I0 Is He Ea Hfree) as
      (c1 & Hadd & ((e' & He' & K1) & K2 & K3 & K4 & K5)).
    rewrite Hadd in H.
    assert (integrity c1) as I1 by (eapply (integrity_add_from ins Hins); [exact I0|exact Is|left; eauto]).
    destruct (IH c1 (B + 1)%N c' I1 Hl' Hn2) as [H1 H2].
    { intros k [x Hx]. destruct (decide (k = new')) as [->|D]; [done|].
      rewrite K2 in Hx by done. assert (k ≤ B)%N by (apply Hb; eauto). lia. }
    { lia. }
    { done. }
    split.
    + intros k Hk. specialize (H1 k Hk). cbn [length]. lia.
    + intros i s Hs. destruct (H2 i s Hs) as [H3|H3]; [|by right]. rewrite K5 in H3.
      destruct (c_sta c0 !! i) as [s0|]; [left; congruence|]. right. by case_decide.
Qed.
Lemma add_cat_more c src B c' : integrity c → integrity src → (∀ k, is_Some (c_ev c !! k) → (k ≤ B)%N) →
  (B + N.of_nat (size (dom (c_ev src))) < 2 ^ 32)%N → add_cat ins c src false = CRet c' tt →
  (∀ k, is_Some (c_ev c' !! k) → (k ≤ B + N.of_nat (size (dom (c_ev src))))%N) ∧
  (∀ i s, c_sta c' !! i = Some s → c_sta c !! i = Some s ∨ c_sta src !! i = Some s).
Proof using Hins.
  intros I Is Hb HB H.
  assert (length (sorted_events (c_ev src)) = size (dom (c_ev src))) as El.
  { by rewrite <-(fmap_length e_id), (sorted_events_ids ins Hins src Is). }
  rewrite <-El in *. eapply add_events_more; [exact Is|exact I| | |done|done|exact H].
  - intros e He. apply elem_of_sorted_events in He as [k Hk]. by rewrite (in_ev _ Is _ _ Hk).
  - by apply (sorted_events_NoDup ins Hins).
Qed.

Lemma merge_new l cats : reads l cats → Forall integrity cats → ∀ c B,
  integrity c → (∀ k, is_Some (c_ev c !! k) → (k ≤ B)%N) → (B + N.of_nat (events cats) < 2 ^ 32)%N →
  ∃ c' (g : nat → N → N), merge_loop ins read_triple false c (flat l) = CRet c' tt ∧ integrity c' ∧
    (∀ i x k, cats !! i = Some x → is_Some (c_ev x !! k) →
       c_ev c !! g i k = None ∧ c_ev c' !! g i k = (λ e, set_e_id e (g i k)) <$> c_ev x !! k ∧
       phs c' (g i k) ≡ₚ (λ p, set_p_ev p (g i k)) <$> phs x k) ∧
    (∀ i x k i' x' k', cats !! i = Some x → is_Some (c_ev x !! k) → cats !! i' = Some x' → is_Some (c_ev x' !! k') →
       g i k = g i' k' → i = i' ∧ k = k') ∧
    (∀ k, is_Some (c_ev c !! k) → c_ev c' !! k = c_ev c !! k ∧ phs c' k = phs c k) ∧
    (∀ k, is_Some (c_ev c' !! k) → is_Some (c_ev c !! k) ∨ ∃ i x k0, cats !! i = Some x ∧ is_Some (c_ev x !! k0) ∧ k = g i k0) ∧
    (∀ i s, c_sta c !! i = Some s → c_sta c' !! i = Some s) ∧
    (∀ i s, c_sta c' !! i = Some s → c_sta c !! i = Some s ∨ ∃ x, x ∈ cats ∧ c_sta x !! i = Some s).
Proof using Hins.
  intros Hr. induction Hr as [|[[a b] d] x l cats Hx Hr IH]; intros Hc c B I Hb HB.
  - exists c, (λ _ k, k). split; [done|]. split; [done|]. split; [done|]. split; [done|]. split; [done|].
    split; [by left|]. split; [done|by left].
  - apply List.Forall_cons_iff in Hc as [Ix Hc]. cbn [events sum_list_with] in HB. fold (events cats) in HB.
    assert (max_key (c_ev c) ≤ B)%N as Hm.
    { destruct (max_key_in ins Hins (c_ev c)) as [->|Hm]; [lia|by apply Hb]. }
    destruct (C16_merge_new_ids ins Hins c x I Ix) as (c1 & f & E & F1 & F2 & F3 & F4 & F5); [lia|].
    destruct (add_cat_more c x B c1 I Ix Hb) as [G1 G2]; [lia|done|].
    assert (integrity c1) as I1.
    { eapply (integrity_add_events ins Hins x false); [exact I|exact Ix|]. left. eauto. }
    destruct (IH Hc c1 (B + N.of_nat (size (dom (c_ev x))))%N I1 G1) as (c' & g & M0 & M1 & M2 & M3 & M4 & M5 & M6 & M7); [lia|].
    exists c', (λ i, match i with 0 => f | S i => g i end).
    assert (∀ k, is_Some (c_ev x !! k) → is_Some (c_ev c1 !! f k)) as Hf.
    { intros k Hk. destruct (F1 k Hk) as (_ & -> & _). by apply fmap_is_Some. }
    split.
    { change (flat ((a, b, d) :: l)) with (a :: b :: d :: flat l). cbn [merge_loop]. rewrite Hx, E. exact M0. }
    split; [done|]. split; [|split; [|split; [|split; [|split]]]].
    + intros [|i] y k Hy Hk.
      * injection Hy as <-. destruct (F1 k Hk) as (Q1 & Q2 & Q3). destruct (M4 (f k) (Hf k Hk)) as [-> ->]. done.
      * destruct (M2 i y k Hy Hk) as (Q1 & Q2 & Q3). split; [|done].
        destruct (c_ev c !! g i k) as [e|] eqn:Ec; [|done]. exfalso.
        destruct (F3 (g i k)) as [Q4 _]; [by rewrite Ec|]. congruence.
    + intros [|i] y k [|i'] y' k' Hy Hk Hy' Hk' Eq.
      * injection Hy as <-. injection Hy' as <-. split; [done|]. by apply F2.
      * injection Hy as <-. exfalso. destruct (M2 i' y' k' Hy' Hk') as (Q1 & _). rewrite <-Eq in Q1.
        destruct (Hf k Hk) as [? ?]. congruence.
      * injection Hy' as <-. exfalso. destruct (M2 i y k Hy Hk) as (Q1 & _). rewrite Eq in Q1.
        destruct (Hf k' Hk') as [? ?]. congruence.
      * destruct (M3 i y k i' y' k' Hy Hk Hy' Hk' Eq) as [-> ->]. done.
    + intros k Hk. destruct (F3 k Hk) as [Q1 Q2]. destruct (M4 k) as [-> ->]; [by rewrite Q1|]. done.
    + intros k Hk. destruct (M5 k Hk) as [Hk1|(i & y & k0 & Hy & Hk0 & ->)].
      * destruct (F4 k Hk1) as [?|(k0 & Hk0 & ->)]; [by left|]. right. by exists 0, x, k0.
      * right. by exists (S i), y, k0.
    + intros i s Hs. by apply M6, F5.
    + intros i s Hs. destruct (M7 i s Hs) as [H1|(y & Hy & H1)].
      * destruct (G2 i s H1) as [?|?]; [by left|]. right. exists x. split; [by left|done].
      * right. exists y. split; [by right|done].
Qed.

Definition first_with (cats : list (catalog V)) (k : N) (x : catalog V) : Prop :=
  ∃ l1 l2, cats = l1 ++ x :: l2 ∧ is_Some (c_ev x !! k) ∧ ∀ y, y ∈ l1 → c_ev y !! k = None.

Lemma merge_keep l cats : reads l cats → Forall integrity cats → ∀ c, integrity c →
  ∃ c', merge_loop ins read_triple true c (flat l) = CRet c' tt ∧ integrity c' ∧
    (∀ k, is_Some (c_ev c !! k) → c_ev c' !! k = c_ev c !! k ∧ phs c' k ≡ₚ phs c k) ∧
    (∀ k x, c_ev c !! k = None → first_with cats k x → c_ev c' !! k = c_ev x !! k ∧ phs c' k ≡ₚ phs x k) ∧
    (∀ k, is_Some (c_ev c' !! k) → is_Some (c_ev c !! k) ∨ ∃ x, x ∈ cats ∧ is_Some (c_ev x !! k)) ∧
    (∀ i s, c_sta c !! i = Some s → c_sta c' !! i = Some s) ∧
    (∀ i s, c_sta c' !! i = Some s → c_sta c !! i = Some s ∨ ∃ x, x ∈ cats ∧ c_sta x !! i = Some s).
Proof using Hins.
  intros Hr. induction Hr as [|[[a b] d] x l cats Hx Hr IH]; intros Hc c I.
  - exists c. split; [done|]. split; [done|]. split; [done|]. split.
    { intros k x _ (l1 & l2 & H & _). by destruct l1. }
    split; [by left|]. split; [done|by left].
  - apply List.Forall_cons_iff in Hc as [Ix Hc].
    destruct (C16_merge_keeping_ids ins Hins c x I Ix) as (c1 & E & F1 & F2 & F3 & F4).
    assert (integrity c1) as I1.
    { eapply (integrity_add_events ins Hins x true); [exact I|exact Ix|]. left. eauto. }
    destruct (IH Hc c1 I1) as (c' & M0 & M1 & M2 & M3 & M4 & M5 & M6).
    exists c'. split.
    { change (flat ((a, b, d) :: l)) with (a :: b :: d :: flat l). cbn [merge_loop]. rewrite Hx, E. exact M0. }
    split; [done|]. split; [|split; [|split; [|split]]].
    + intros k [e He]. specialize (F1 k). specialize (F2 k). rewrite He in F1, F2.
      destruct (M2 k) as [H1 H2]; [by rewrite F1|]. rewrite H1, H2, F1, F2. by rewrite He.
    + intros k y Hk (l1 & l2 & Hl & Hy & Hn). specialize (F1 k). specialize (F2 k). rewrite Hk in F1, F2.
      destruct l1 as [|z l1].
      * injection Hl as -> ->. destruct (M2 k) as [H1 H2]; [by rewrite F1|]. by rewrite H1, H2, F1, F2.
      * injection Hl as -> ->. apply M3.
        -- rewrite F1. apply Hn. by left.
        -- exists l1, l2. split; [done|]. split; [done|]. intros w Hw. apply Hn. by right.
    + intros k Hk. destruct (M4 k Hk) as [[e He]|(y & Hy & Hk1)].
      * rewrite F1 in He. destruct (c_ev c !! k) as [e'|]; [left; eauto|]. right. exists x. split; [by left|eauto].
      * right. exists y. split; [by right|done].
    + intros i s Hs. by apply M5, F3.
    + intros i s Hs. destruct (M6 i s Hs) as [H1|(y & Hy & H1)].
      * destruct (F4 i s H1) as [?|?]; [by left|]. right. exists x. split; [by left|done].
      * right. exists y. split; [by right|done].
Qed.
End merge.

(** *** Pair files of clusters *)
Lemma inner_eq (m m' : neigh) (k : N) :
  (∀ i, n_map m !! k = Some i → i ≠ ∅ ∧ ∀ ph s, i !! ph = Some s → s ≠ ∅) →
  (∀ i, n_map m' !! k = Some i → i ≠ ∅ ∧ ∀ ph s, i !! ph = Some s → s ≠ ∅) →
  (∀ sta ph, (∃ i s, n_map m !! k = Some i ∧ i !! ph = Some s ∧ sta ∈ s) ↔ (∃ i s, n_map m' !! k = Some i ∧ i !! ph = Some s ∧ sta ∈ s)) →
  n_map m !! k = n_map m' !! k.
Proof.
  intros W W' H.
  assert (∀ (a b : neigh) i,
    (∀ sta ph, (∃ i s, n_map a !! k = Some i ∧ i !! ph = Some s ∧ sta ∈ s) → (∃ i s, n_map b !! k = Some i ∧ i !! ph = Some s ∧ sta ∈ s)) →
    n_map a !! k = Some i → i ≠ ∅ → (∀ ph s, i !! ph = Some s → s ≠ ∅) →
    ∃ j, n_map b !! k = Some j ∧ ∀ ph s, i !! ph = Some s → ∃ t, j !! ph = Some t ∧ s ⊆ t) as G.
  { intros a b i Hab Ha Hi Hs.
    assert (∀ ph s, i !! ph = Some s → ∃ j t, n_map b !! k = Some j ∧ j !! ph = Some t ∧ s ⊆ t) as Q.
    { intros ph s Hph. destruct (set_choose_L s) as [x Hx]; [by eapply Hs|].
      destruct (Hab x ph) as (j & t & H1 & H2 & H3); [eauto 6|]. exists j, t. split; [done|]. split; [done|].
      intros y Hy. destruct (Hab y ph) as (j' & t' & H1' & H2' & H3'); [eauto 6|]. congruence. }
    apply map_choose in Hi as (ph & s & Hph). destruct (Q ph s Hph) as (j & t & H1 & _).
    exists j. split; [done|]. intros ph' s' Hph'. destruct (Q ph' s' Hph') as (j' & t' & H1' & H2' & H3').
    assert (j' = j) as -> by congruence. eauto. }
  destruct (n_map m !! k) as [i|] eqn:E; destruct (n_map m' !! k) as [i'|] eqn:E'; [| | |done].
  - destruct (W i eq_refl) as [N1 N2]. destruct (W' i' eq_refl) as [N1' N2'].
    destruct (G m m' i) as (j & Hj & Q); [|done..|].
    { intros sta ph. rewrite E, E'. apply H. }
    destruct (G m' m i') as (j' & Hj' & Q'); [|done..|].
    { intros sta ph. rewrite E, E'. apply H. }
    assert (j = i') as -> by congruence. assert (j' = i) as -> by congruence. f_equal. apply map_eq. intros ph.
    destruct (i !! ph) as [s|] eqn:Es.
    + destruct (Q ph s Es) as (t & Ht & St). rewrite Ht. destruct (Q' ph t Ht) as (s' & Hs' & Ss').
      assert (s' = s) as -> by congruence. f_equal. apply set_eq. intros x. split; [apply St|apply Ss'].
    + destruct (i' !! ph) as [t|] eqn:Et; [|done]. destruct (Q' ph t Et) as (s' & Hs' & _). congruence.
  - exfalso. destruct (W i eq_refl) as [N1 N2]. destruct (G m m' i) as (j & Hj & _); [|done..|congruence].
    intros sta ph. rewrite E, E'. apply H.
  - exfalso. destruct (W' i' eq_refl) as [N1 N2]. destruct (G m' m i') as (j & Hj & _); [|done..|congruence].
    intros sta ph. rewrite E, E'. apply H.
Qed.
Lemma neigh_eq n n' : nwf n → nwf n' → n_ref n = n_ref n' → (∀ k sta ph, inn n k sta ph ↔ inn n' k sta ph) → n = n'.
Proof.
  intros W W' Hr H. destruct n as [r m], n' as [r' m']. cbn in Hr. subst r'. f_equal. apply map_eq. intros k.
  apply (inner_eq (Neigh r m) (Neigh r m')); [apply W|apply W'|]. intros sta ph. apply H.
Qed.

Definition all_nwf (m : gmap N neigh) : Prop := ∀ k n, m !! k = Some n → nwf n.
Lemma nwf_fresh k : nwf (Neigh k ∅).
Proof. intros k' i H. cbn in H. by rewrite lookup_empty in H. Qed.
Lemma all_nwf_ensure m k : all_nwf m → all_nwf (ensure m k).
Proof.
  intros H r n. rewrite ensure_lookup. case_decide as D; [|apply H]. subst r.
  destruct (m !! k) as [n0|] eqn:E; cbn; intros [= <-]; [by eapply H|apply nwf_fresh].
Qed.
Lemma all_nwf_record m a b s ph : all_nwf m → all_nwf (record_pair m a b s ph).
Proof.
  intros H. unfold record_pair. assert (all_nwf (ensure (ensure m a) b)) as H2 by (by apply all_nwf_ensure, all_nwf_ensure).
  cbv zeta. destruct (ensure (ensure m a) b !! a) as [n|] eqn:E; [|done].
  intros k n' Hk. apply lookup_insert_Some in Hk as [[<- <-]|[_ Hk]]; [|by eapply H2]. apply nwf_add. by eapply H2.
Qed.
Section read.
Context {V : Type}.
Lemma all_nwf_rows (c : catalog V) rows : ∀ m m', all_nwf m → read_rows c m rows = ROk m' → all_nwf m'.
Proof.
  induction rows as [|r rows IH]; intros m m' H E; [by injection E as <-|]. cbn [read_rows] in E.
  destruct (read_row c m r) as [m1| |] eqn:E1; [|done|done]. eapply IH; [|exact E]. unfold read_row in E1.
  repeat case_match; try done. injection E1 as <-. by apply all_nwf_record.
Qed.
Lemma all_nwf_read (c : catalog V) s m : read_neighs c s = ROk m → all_nwf m.
Proof.
  unfold read_neighs. destruct (read_with_header s); [|done]. apply all_nwf_rows. intros k n. by rewrite lookup_empty.
Qed.
End read.

(** *** Catalogs of clusters *)
Section clusters.
Context {V : Type} (ins : list (phase V) → phase V → list (phase V)) (Hins : any_place ins).
Variable order : gmap N neigh → list (N * neigh).
Variable elems : neigh → list (text * text * N).
Hypothesis Horder : ∀ m, order m ≡ₚ map_to_list m.
Hypothesis Helems : ∀ n, elems n ≡ₚ n_phases n.

Lemma add_all_ok c : integrity c → ∀ ids acc, integrity acc → NoDup ids → (∀ k, k ∈ ids → is_Some (c_ev c !! k) ∧ c_ev acc !! k = None) →
  ∃ c', add_all ins acc c ids = CRet c' tt ∧ integrity c' ∧
    ∀ k, if decide (k ∈ ids) then c_ev c' !! k = c_ev c !! k ∧ phs c' k ≡ₚ phs c k
         else c_ev c' !! k = c_ev acc !! k ∧ phs c' k = phs acc k.
Proof using Hins.
  intros I. induction ids as [|k ids IH]; intros acc Ia Hn Hi.
  - exists acc. split; [done|]. split; [done|]. intros k. done.
  - apply NoDup_cons in Hn as [Hn1 Hn2]. destruct (Hi k) as [Hk1 Hk2]; [by left|]. cbn [add_all].
    destruct (C16_add_keeps_id ins Hins acc k c Ia I Hk1 Hk2) as (c1 & E & ((e & He & K1) & K2 & K3 & K4 & K5)).
    rewrite E. assert (integrity c1) as I1 by (eapply (integrity_add_from ins Hins); [exact Ia|exact I|left; eauto]).
    destruct (IH c1 I1 Hn2) as (c' & E' & I' & H').
    { intros k' Hk'. destruct (Hi k') as [? ?]; [by right|]. split; [done|]. rewrite K2; [done|]. by intros ->. }
    exists c'. split; [done|]. split; [done|]. intros k'. specialize (H' k').
    destruct (decide (k' ∈ ids)) as [D|D].
    + rewrite decide_True by (by right). done.
    + destruct H' as [-> ->]. destruct (decide (k' = k)) as [->|Dk].
      * rewrite decide_True by (by left). rewrite K1, He.
        rewrite <-(in_ev _ I _ _ He) at 1. rewrite set_e_id_same. split; [done|]. rewrite K3.
        assert (∀ p, p ∈ phs c k → set_p_ev p k = p) as Hsame.
        { intros p Hp. destruct (in_ph _ I _ _ Hp) as [Hpe _]. rewrite <-Hpe. apply set_p_ev_same. }
        revert Hsame. generalize (phs c k) as ll. clear. intros ll Hs.
        assert ((λ p, set_p_ev p k) <$> ll = ll) as ->; [|done].
        induction ll as [|p ll IH]; [done|]. simpl. rewrite (Hs p) by (by left). f_equal.
        apply IH. intros q Hq. apply Hs. by right.
      * rewrite decide_False by (by intros [?|?]%elem_of_cons). by rewrite K2, K4.
Qed.

(** What holds of a cluster that was found, see C83_found_clusters: every event is in a pair. *)
Definition pairs_ok (bg : catalog V) (cl : gmap N neigh) : Prop :=
  cl ≠ ∅ ∧
  ∀ k n, cl !! k = Some n →
    n_ref n = k ∧ nwf n ∧ (k < 2 ^ 32)%N ∧ is_Some (c_ev bg !! k) ∧
    (∃ k1 n1 k2 sta ph, cl !! k1 = Some n1 ∧ inn n1 k2 sta ph ∧ (k = k1 ∨ k = k2)) ∧
    ∀ k' sta ph, inn n k' sta ph → is_Some (cl !! k') ∧ is_Some (c_sta bg !! sta) ∧ plain_last ph.

(** The catalog of exactly the events of the cluster *)
Definition cluster_catalog (bg : catalog V) (cl : gmap N neigh) (c : catalog V) : Prop :=
  integrity c ∧
  ∀ k, (is_Some (cl !! k) → c_ev c !! k = c_ev bg !! k ∧ phs c k ≡ₚ phs bg k) ∧
       (cl !! k = None → c_ev c !! k = None ∧ phs c k = []).

Lemma one_cluster bg cl : integrity bg → codes_plain bg → pairs_ok bg cl →
  ∃ s c, write_neighs elems bg (snd <$> order cl) = WFile s ∧ read_neighs bg s = ROk cl ∧
    add_all ins empty_cat bg (fst <$> order cl) = CRet c tt ∧ cluster_catalog bg cl c.
Proof using Hins Horder Helems.
  intros I Hp [Hne Hc].
  assert (∀ n, n ∈ (snd <$> order cl) ↔ cl !! n_ref n = Some n) as Hin.
  { intros n. rewrite elem_of_list_fmap. split.
    - intros ([k n'] & -> & H). rewrite Horder in H. apply elem_of_map_to_list in H. cbn.
      by rewrite (proj1 (Hc k n' H)).
    - intros H. exists (n_ref n, n). split; [done|]. rewrite Horder. by apply elem_of_map_to_list. }
  assert ((snd <$> order cl) ≠ []) as Hnil.
  { intros E. apply map_choose in Hne as (k & n & H). assert (n ∈ (snd <$> order cl)) as H2.
    { apply Hin. by rewrite (proj1 (Hc k n H)). } rewrite E in H2. by apply elem_of_nil in H2. }
  destruct (proj2 (C34_write_defined elems Helems bg (snd <$> order cl) Hnil)) as [s Hs].
  { intros n k sta ph Hn Hi. apply Hin in Hn. destruct (Hc _ _ Hn) as (_ & _ & _ & _ & _ & H6). by destruct (H6 _ _ _ Hi) as (_ & ? & _). }
  destruct (C34_pair_file_roundtrip elems Helems bg (snd <$> order cl) s I Hp) as (m & Hm & Hr & Ht & Hd).
  { intros n k sta ph Hn Hi. apply Hin in Hn. destruct (Hc _ _ Hn) as (H1 & H2 & H3 & H4 & H5 & H6).
    destruct (H6 k sta ph Hi) as ([n' Hn'] & _ & H7). split; [done|]. split; [done|]. by destruct (Hc _ _ Hn') as (_ & _ & ? & _). }
  { done. }
  assert (m = cl) as ->.
  { apply map_eq. intros k. pose proof (all_nwf_read _ _ _ Hm) as Hw.
    assert (∀ n, cl !! k = Some n → is_Some (m !! k)) as Hdom.
    { intros n Hn. apply Hd. destruct (Hc k n Hn) as (H1 & H2 & H3 & H4 & H5 & H6).
      destruct H5 as (k1 & n1 & k2 & sta & ph & Q1 & Q2 & Q3). exists n1, k2, sta, ph.
      rewrite (proj1 (Hc _ _ Q1)). split; [|done]. apply Hin. by rewrite (proj1 (Hc _ _ Q1)). }
    destruct (cl !! k) as [n|] eqn:E.
    - destruct (Hdom n eq_refl) as [n' Hn']. rewrite Hn'. f_equal. destruct (Hc k n E) as (H1 & H2 & _).
      apply neigh_eq; [by eapply Hw|done|by rewrite H1, (Hr _ _ Hn')|].
      intros k' sta ph. specialize (Ht k k' sta ph). unfold in_map in Ht. split.
      + intros Hi. destruct (proj1 Ht) as (n0 & Q1 & Q2 & Q3); [by exists n'|]. apply Hin in Q1. rewrite Q2, E in Q1. by injection Q1 as <-.
      + intros Hi. destruct (proj2 Ht) as (n0 & Q1 & Q2).
        * exists n. split; [apply Hin; by rewrite H1|]. done.
        * rewrite Hn' in Q1. by injection Q1 as <-.
    - destruct (m !! k) as [n'|] eqn:E'; [|done]. exfalso. destruct (proj1 (Hd k)) as (n & k' & sta & ph & Q1 & Q2 & Q3); [by rewrite E'|].
      apply Hin in Q1. destruct Q3 as [->| ->]; [congruence|]. destruct (Hc _ _ Q1) as (_ & _ & _ & _ & _ & Q4).
      destruct (Q4 k' sta ph Q2) as [[? ?] _]. congruence. }
  assert (∀ k, k ∈ (fst <$> order cl) ↔ is_Some (cl !! k)) as Hk.
  { intros k. rewrite elem_of_list_fmap. split.
    - intros ([k' n] & -> & H). rewrite Horder in H. apply elem_of_map_to_list in H. cbn. eauto.
    - intros [n H]. exists (k, n). split; [done|]. rewrite Horder. by apply elem_of_map_to_list. }
  destruct (add_all_ok bg I (fst <$> order cl) empty_cat integrity_empty) as (c & E & Ic & H).
  { rewrite Horder. apply NoDup_fst_map_to_list. }
  { intros k Hx. apply Hk in Hx as [n Hn]. split; [by destruct (Hc k n Hn) as (_ & _ & _ & ? & _)|]. by cbn; rewrite lookup_empty. }
  exists s, c. split; [done|]. split; [done|]. split; [done|]. split; [done|]. intros k. specialize (H k). split.
  - intros Hx. by rewrite decide_True in H by (by apply Hk).
  - intros Hx. rewrite decide_False in H by (rewrite Hk, Hx; by intros [? ?]). destruct H as [-> ->].
    split; [by cbn; rewrite lookup_empty|]. unfold phs. cbn. by rewrite lookup_empty.
Qed.

(** The files of the clusters numbered from [id] *)
Definition pair_name (id : nat) : text := cluster_prefix (N.of_nat id) ++ tx "-pair.csv".
Definition part (id : nat) (suffix : string) : text := cluster_prefix (N.of_nat id) ++ tx suffix.
Inductive dumped (bg : catalog V) : nat → list (gmap N neigh) → list (effect V) → Prop :=
  | dumped_nil id : dumped bg id [] []
  | dumped_cons id cl cls s c out :
      read_neighs bg s = ROk cl → cluster_catalog bg cl c → dumped bg (S id) cls out →
      dumped bg id (cl :: cls)
        (WPairs (pair_name id) s :: WCatalog (part id "-station.csv") (part id "-event.csv") (part id "-phase.csv") c :: out).

Lemma dump_loop_ok bg cls : integrity bg → codes_plain bg → Forall (pairs_ok bg) cls →
  ∀ id out0, (N.of_nat (id + length cls) < 2 ^ 32)%N →
  ∃ out, dump_loop ins order elems bg (N.of_nat id) cls out0 = (Return true, out0 ++ out) ∧ dumped bg id cls out.
Proof using Hins Horder Helems.
  intros I Hp. induction 1 as [|cl cls Hcl Hcls IH]; intros id out0 Hid.
  - exists []. rewrite app_nil_r. split; [done|constructor].
  - cbn [length] in Hid. destruct (one_cluster bg cl I Hp Hcl) as (s & c & E1 & E2 & E3 & E4).
    cbn [dump_loop]. rewrite E1, E3. cbv zeta. unfold u32. rewrite N.mod_small by lia.
    replace (N.of_nat id + 1)%N with (N.of_nat (S id)) by lia.
    destruct (IH (S id) ((out0 ++ [WPairs (cluster_prefix (N.of_nat id) ++ tx "-pair.csv") s]) ++
        [WCatalog (cluster_prefix (N.of_nat id) ++ tx "-station.csv") (cluster_prefix (N.of_nat id) ++ tx "-event.csv")
           (cluster_prefix (N.of_nat id) ++ tx "-phase.csv") c])) as (out & H1 & H2); [lia|].
    eexists. split; [etransitivity; [exact H1|by rewrite <-!app_assoc]|by econstructor].
Qed.

(** The last pair file written under a name *)
Definition pair_file (out : list (effect V)) (name : text) : option text :=
  last (omap (λ e, match e with WPairs n s => if decide (n = name) then Some s else None | _ => None end) out).
Lemma prefix_inj a b s : (N.of_nat a < 2 ^ 64)%N → (N.of_nat b < 2 ^ 64)%N →
  cluster_prefix (N.of_nat a) ++ s = cluster_prefix (N.of_nat b) ++ s → a = b.
Proof.
  intros Ha Hb H. unfold cluster_prefix in H. rewrite <-!app_assoc in H. apply (inj (app _)) in H.
  apply (inj (λ x, x ++ s)) in H. apply (f_equal stoul) in H. rewrite !stoul_put_u in H by done.
  injection H as H. lia.
Qed.
Lemma dumped_later bg id cls out : dumped bg id cls out → (N.of_nat (id + length cls) < 2 ^ 32)%N →
  ∀ j, j < id → omap (λ e, match e with WPairs n s => if decide (n = pair_name j) then Some s else None | _ => None end) out = [].
Proof.
  induction 1 as [|id cl cls s c out H1 H2 H3 IH]; intros Hid j Hj; [done|]. cbn [length] in Hid.
  cbn [omap list_omap]. rewrite decide_False.
  - apply IH; lia.
  - intros E. unfold pair_name in E. apply prefix_inj in E; [lia|lia|lia].
Qed.
Lemma dumped_files bg id cls out : dumped bg id cls out → (N.of_nat (id + length cls) < 2 ^ 32)%N →
  ∀ i cl, cls !! i = Some cl → ∃ s, pair_file out (pair_name (id + i)) = Some s ∧ read_neighs bg s = ROk cl.
Proof.
  induction 1 as [|id cl cls s c out H1 H2 H3 IH]; intros Hid i x Hx; [done|]. cbn [length] in Hid.
  destruct i as [|i].
  - injection Hx as <-. exists s. split; [|done]. unfold pair_file. cbn [omap list_omap]. rewrite Nat.add_0_r.
    rewrite decide_True by done. by rewrite (dumped_later _ _ _ _ H3) by lia.
  - destruct (IH ltac:(lia) i x Hx) as (s' & Q1 & Q2). exists s'. split; [|done].
    replace (id + S i) with (S id + i) by lia. unfold pair_file in *. cbn [omap list_omap]. rewrite decide_False; [done|].
    apply (lookup_lt_Some cls) in Hx. intros E. unfold pair_name in E. apply prefix_inj in E; lia.
Qed.
Lemma pair_name_ok i : name_ok (pair_name i).
Proof.
  split.
  - unfold pair_name, cluster_prefix. intros E. apply app_eq_nil in E as [E _]. by apply app_eq_nil in E as [E _].
  - unfold pair_name, cluster_prefix. rewrite !not_elem_of_app.
    destruct (put_u_plain (N.of_nat i)) as [[H _] _]. split; [split; [|exact H]|].
    + apply (bool_decide_unpack _). vm_compute. exact Logic.I.
    + apply (bool_decide_unpack _). vm_compute. exact Logic.I.
Qed.
Lemma read_clusters_ok (bg : catalog V) (file : text → option text) names cls :
  Forall2 (λ f cl, ∃ s, file f = Some s ∧ read_neighs bg s = ROk cl) names cls → read_clusters file bg names = Solver_Model.Ok cls.
Proof.
  induction 1 as [|f cl names cls (s & H1 & H2) H IH]; [done|]. cbn [read_clusters]. by rewrite H1, H2, IH.
Qed.
End clusters.
