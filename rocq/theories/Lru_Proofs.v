(** Proofs about the LRU cache model. *)
From stdpp Require Import gmap list.
From Verif Require Import Lru_Model Lru_Spec.

Section proofs.
Context {K V : Type} `{Countable K}.

Notation history := (list (op K V * (ret V * list (K * V)))).

(** Representation invariant. *)
Record Inv (s : lru K V) : Prop := {
  inv_keys : NoDup (n_key <$> l_items s);
  inv_ids : NoDup (n_id <$> l_items s);
  inv_next : ∀ n, n ∈ l_items s → n_id n < l_next s;
  inv_map : ∀ k id, l_map s !! k = Some id ↔ ∃ n, n ∈ l_items s ∧ n_key n = k ∧ n_id n = id;
  inv_cap : length (l_items s) ≤ l_max s }.

Lemma map_none s k : Inv s → l_map s !! k = None ↔ k ∉ n_key <$> l_items s.
Proof.
  intros I. rewrite elem_of_list_fmap. split.
  - intros E (n & -> & Hn). assert (l_map s !! n_key n = Some (n_id n)) as E2.
    { apply (inv_map _ I). eauto. } congruence.
  - intros Hk. destruct (l_map s !! k) as [id|] eqn:E; [|done].
    apply (inv_map _ I) in E as (n & ? & ? & ?). destruct Hk. eauto.
Qed.

Lemma node_at_some id l n :
  NoDup (n_id <$> l) → n ∈ l → n_id n = id → node_at id (l : list (node K V)) = Some n.
Proof.
  intros ND Hn Hid. unfold node_at.
  destruct (list_find (λ m, n_id m = id) l) as [[i m]|] eqn:E; simpl.
  - apply list_find_Some in E as (Hm & Hid2 & _).
    apply elem_of_list_lookup in Hn as (j & Hj).
    assert (i = j).
    { eapply (NoDup_lookup (n_id <$> l)); [done|..].
      - rewrite list_lookup_fmap, Hm. simpl. by rewrite Hid2.
      - rewrite list_lookup_fmap, Hj. simpl. by rewrite Hid. }
    subst j. congruence.
  - apply list_find_None in E. rewrite Forall_forall in E. by destruct (E n Hn).
Qed.

Lemma filter_id_key l n : 
  NoDup (n_id <$> l) → NoDup (n_key <$> l) → n ∈ l →
  filter (λ m, n_id m ≠ n_id n) (l : list (node K V)) = filter (λ m, n_key m ≠ n_key n) l.
Proof.
  intros N1 N2 Hn.
  assert (∀ m, m ∈ l → n_id m ≠ n_id n ↔ n_key m ≠ n_key n) as Heq.
  { intros m Hm. apply elem_of_list_lookup in Hn as (i & Hi).
    apply elem_of_list_lookup in Hm as (j & Hj).
    split; intros Hne Hx; apply Hne.
    - assert (i = j).
      { eapply (NoDup_lookup (n_key <$> l)); [done|..];
          rewrite list_lookup_fmap, ?Hi, ?Hj; simpl; [done|by rewrite Hx]. }
      subst; congruence.
    - assert (i = j).
      { eapply (NoDup_lookup (n_id <$> l)); [done|..];
          rewrite list_lookup_fmap, ?Hi, ?Hj; simpl; [done|by rewrite Hx]. }
      subst; congruence. }
  clear N1 N2 Hn. induction l as [|m l IH]; [done|].
  rewrite !filter_cons. rewrite IH by (intros; apply Heq; by right).
  specialize (Heq m (elem_of_list_here _ _)).
  repeat case_decide; tauto.
Qed.

Lemma filter_key_fmap k (l : list (node K V)) :
  n_key <$> filter (λ m, n_key m ≠ k) l = filter (λ x, x ≠ k) (n_key <$> l).
Proof.
  induction l as [|m l IH]; [done|].
  rewrite fmap_cons, !filter_cons. repeat case_decide; try done; by rewrite ?fmap_cons, IH.
Qed.

Lemma NoDup_filter_fmap {B} (f : node K V → B) (P : node K V → Prop) `{∀ x, Decision (P x)} l :
  NoDup (f <$> l) → NoDup (f <$> filter P l).
Proof.
  induction l as [|m l IH]; [done|]. rewrite fmap_cons, NoDup_cons, filter_cons.
  intros [Hm Hl]. case_decide; [|auto]. rewrite fmap_cons. constructor; [|auto].
  intros Hin. apply Hm. apply elem_of_list_fmap in Hin as (y & -> & Hy).
  apply elem_of_list_filter in Hy as [_ ?]. apply elem_of_list_fmap; eauto.
Qed.

Lemma filter_absent k (l : list K) : k ∉ l → filter (λ x, x ≠ k) l = l.
Proof.
  induction l as [|x l IH]; [done|]. intros Hk. rewrite filter_cons.
  rewrite elem_of_cons in Hk. case_decide as Hd; [f_equal; apply IH; tauto|].
  exfalso. apply Hk. left. congruence.
Qed.

Lemma filter_absent_node k (l : list (node K V)) :
  k ∉ n_key <$> l → filter (λ x, n_key x ≠ k) l = l.
Proof.
  induction l as [|x l IH]; [done|]. intros Hk. rewrite filter_cons.
  rewrite fmap_cons, elem_of_cons in Hk. case_decide as Hd; [f_equal; apply IH; tauto|].
  exfalso. apply Hk. left. congruence.
Qed.

Lemma length_filter_in k (l : list K) :
  NoDup l → k ∈ l → S (length (filter (λ x, x ≠ k) l)) = length l.
Proof.
  induction l as [|x l IH]; [by rewrite elem_of_nil|].
  rewrite NoDup_cons, elem_of_cons. intros [Hx Hl] Hk. rewrite filter_cons.
  destruct (decide (x = k)) as [->|Hne].
  - rewrite decide_False by tauto. by rewrite filter_absent.
  - rewrite decide_True by done. simpl. f_equal. apply IH; [done|]. destruct Hk; congruence.
Qed.

(** The map has as many elements as the list. *)
Lemma size_of_map (items : list (node K V)) (m : gmap K nat) :
  NoDup (n_key <$> items) →
  (∀ k id, m !! k = Some id ↔ ∃ n, n ∈ items ∧ n_key n = k ∧ n_id n = id) →
  size m = length items.
Proof.
  intros ND Hm.
  assert (map_to_list m ≡ₚ (λ n, (n_key n, n_id n)) <$> items) as P.
  { apply NoDup_Permutation.
    - apply NoDup_map_to_list.
    - apply (NoDup_fmap_1 fst). rewrite <-list_fmap_compose. exact ND.
    - intros [k id]. rewrite elem_of_map_to_list, Hm, elem_of_list_fmap.
      split; [intros (n & ? & <- & <-); eauto|intros (n & [= -> ->] & ?); eauto]. }
  unfold size, map_size. rewrite P. by rewrite fmap_length.
Qed.

Lemma inv_size s : Inv s → lru_size s = length (l_items s).
Proof. intros I. apply size_of_map; apply I. Qed.

Lemma inv_init mx : Inv (lru_init mx).
Proof.
  split; simpl; try constructor; try (intros ? Hx; by apply elem_of_nil in Hx).
  - by rewrite lookup_empty.
  - intros (n & Hn & _). by apply elem_of_nil in Hn.
  - lia.
Qed.

(** The list a put must leave. *)
Definition put_items (s : lru K V) k v :=
  Node (l_next s) k v :: filter (λ m, n_key m ≠ k) (l_items s).

Lemma put_core (s : lru K V) k v :
  Inv s → l_max s ≠ 0 →
  ∃ m, (match l_map s !! k with
         | Some old => items2 ← list_erase old (Node (l_next s) k v :: l_items s);
                        Some (items2, delete k (l_map s))
         | None => Some (Node (l_next s) k v :: l_items s, l_map s)
         end) = Some (put_items s k v, m) ∧
    let m3 := <[k := l_next s]> m in
    (∀ k' id, m3 !! k' = Some id ↔ ∃ n, n ∈ put_items s k v ∧ n_key n = k' ∧ n_id n = id).
Proof.
  intros I Hmax. unfold put_items. destruct (l_map s !! k) as [old|] eqn:E.
  - exists (delete k (l_map s)). pose proof E as E'.
    apply (inv_map _ I) in E' as (n & Hn & Hk & Hid).
    unfold list_erase.
    assert (l_next s ≠ old) by (pose proof (inv_next _ I n Hn); lia).
    rewrite (node_at_some old (Node (l_next s) k v :: l_items s) n); simpl.
    4: done. 3: by right.
    2: { rewrite NoDup_cons. split; [|apply I]. intros Hin.
      apply elem_of_list_fmap in Hin as (m & Hm1 & Hm2).
      pose proof (inv_next _ I m Hm2). lia. }
    split.
    + f_equal. f_equal. rewrite filter_cons. rewrite decide_True by done. f_equal.
      rewrite <-Hid, <-Hk. apply filter_id_key; [apply I|apply I|done].
    + intros k' id. rewrite lookup_insert_Some. split.
      * intros [[<- <-]|[Hne Hl]].
        -- exists (Node (l_next s) k v). split; [left|done].
        -- rewrite lookup_delete_ne in Hl by done.
           apply (inv_map _ I) in Hl as (m & Hm & <- & <-).
           exists m. split; [|done]. right. apply elem_of_list_filter. split; done.
      * intros (m & Hm & <- & <-). apply elem_of_cons in Hm as [->|Hm]; [by left|].
        right. apply elem_of_list_filter in Hm as [Hne Hm]. split; [done|].
        rewrite lookup_delete_ne by done. apply (inv_map _ I). eauto.
  - exists (l_map s). split.
    { f_equal. f_equal. f_equal. symmetry. apply filter_absent_node. by apply map_none. }
    intros k' id. rewrite lookup_insert_Some. split.
    + intros [[<- <-]|[Hne Hl]].
      * exists (Node (l_next s) k v). split; [left|done].
      * apply (inv_map _ I) in Hl as (m & Hm & <- & <-).
        exists m. split; [|done]. right. apply elem_of_list_filter. split; done.
    + intros (m & Hm & <- & <-). apply elem_of_cons in Hm as [->|Hm]; [by left|].
      right. apply elem_of_list_filter in Hm as [Hne Hm]. split; [done|].
      apply (inv_map _ I). eauto.
Qed.

Lemma put_items_keys (s : lru K V) k v :
  n_key <$> put_items s k v = k :: filter (λ x, x ≠ k) (n_key <$> l_items s).
Proof. unfold put_items. by rewrite fmap_cons, filter_key_fmap. Qed.

Lemma put_items_len (s : lru K V) k v :
  Inv s → length (put_items s k v) ≤ S (l_max s).
Proof.
  intros I. unfold put_items. simpl.
  pose proof (filter_length (λ m, n_key m ≠ k) (l_items s)). pose proof (inv_cap _ I). lia.
Qed.

Lemma removelast_take {A} (l : list A) : removelast l = take (length l - 1) l.
Proof.
  induction l as [|x [|y l] IH]; [done|done|].
  change (removelast (x :: y :: l)) with (x :: removelast (y :: l)).
  rewrite IH. simpl. by rewrite Nat.sub_0_r.
Qed.

Lemma last_split {A} (l : list A) n : last l = Some n → l = removelast l ++ [n].
Proof.
  intros Hl. apply last_Some in Hl as (l' & ->). by rewrite removelast_last.
Qed.

(** Full characterisation of put. *)
Lemma put_spec (s : lru K V) k v :
  Inv s →
  ∃ s' c, lru_put s k v = Some (s', c) ∧ Inv s' ∧ l_max s' = l_max s ∧ l_cb s' = l_cb s ∧
    (if bool_decide (l_max s = 0) then s' = s ∧ c = (if l_cb s then [(k,v)] else [])
     else l_items s' = take (l_max s) (put_items s k v) ∧
          c = (if l_cb s then (λ n, (n_key n, n_val n)) <$> drop (l_max s) (put_items s k v) else [])).
Proof.
  intros I. unfold lru_put. case_bool_decide as Hmax.
  { exists s. eexists. split; [done|]. done. }
  destruct (put_core s k v I Hmax) as (m & -> & Hm).
  simpl in Hm.
  assert (NoDup (n_key <$> put_items s k v)) as ND.
  { rewrite put_items_keys. constructor.
    - rewrite elem_of_list_filter. tauto.
    - apply NoDup_filter, I. }
  assert (NoDup (n_id <$> put_items s k v)) as NDi.
  { unfold put_items. rewrite fmap_cons. constructor.
    - intros Hin. apply elem_of_list_fmap in Hin as (x & Hx1 & Hx2).
      apply elem_of_list_filter in Hx2 as [_ Hx2]. pose proof (inv_next _ I x Hx2).
      simpl in Hx1. lia.
    - apply NoDup_filter_fmap, I. }
  assert (∀ n, n ∈ put_items s k v → n_id n < S (l_next s)) as Hnext.
  { intros n Hn. apply elem_of_cons in Hn as [->|Hn]; [simpl; lia|].
    apply elem_of_list_filter in Hn as [_ Hn]. pose proof (inv_next _ I n Hn). lia. }
  rewrite (size_of_map (put_items s k v) _ ND Hm).
  pose proof (put_items_len s k v I) as Hlen.
  case_bool_decide as Hsz.
  - assert (length (put_items s k v) = S (l_max s)) as Hl by lia.
    destruct (last (put_items s k v)) as [n|] eqn:El.
    2: { apply last_None in El. by rewrite El in Hl. }
    apply last_split in El.
    assert (removelast (put_items s k v) = take (l_max s) (put_items s k v)) as Er.
    { rewrite removelast_take, Hl. f_equal. lia. }
    rewrite Er in El.
    assert (drop (l_max s) (put_items s k v) = [n]) as Ed.
    { rewrite El, drop_app_ge; rewrite take_length, Hl; [|lia].
      by replace (l_max s - l_max s `min` S (l_max s)) with 0 by lia. }
    eexists _, _. split; [reflexivity|].
    split; [|rewrite Er, Ed; simpl; by destruct (l_cb s)].
    rewrite Er. split; simpl.
    + rewrite El, fmap_app in ND. apply NoDup_app in ND. tauto.
    + rewrite El, fmap_app in NDi. apply NoDup_app in NDi. tauto.
    + intros x Hx. apply Hnext. rewrite El. apply elem_of_app. by left.
    + intros k' id. rewrite lookup_delete_Some, Hm. rewrite El, fmap_app in ND.
      apply NoDup_app in ND as (_ & ND & _). split.
      * intros (Hne & x & Hx & <- & <-). exists x. split; [|done].
        rewrite El in Hx. apply elem_of_app in Hx as [?|Hx]; [done|].
        apply elem_of_list_singleton in Hx. by subst.
      * intros (x & Hx & <- & <-). split.
        -- intros Hk. apply (ND (n_key x)); [apply elem_of_list_fmap; eauto|].
           rewrite <-Hk. left.
        -- exists x. split; [|done]. rewrite El. apply elem_of_app. by left.
    + rewrite take_length. lia.
  - eexists _, _. split; [reflexivity|]. simpl.
    rewrite take_ge by lia. rewrite drop_ge by lia. 
    split; [split; [exact ND|exact NDi|exact Hnext|exact Hm|change (length (put_items s k v) ≤ l_max s); lia]|].
    split; [done|]. split; [done|]. split; [done|]. by destruct (l_cb s).
Qed.

Lemma NoDup_move (l : list (node K V)) n :
  NoDup (n_key <$> l) → n ∈ l → length (n :: filter (λ m, n_key m ≠ n_key n) l) = length l.
Proof.
  intros ND Hn.
  rewrite <-(fmap_length n_key (n :: _)), fmap_cons, filter_key_fmap.
  simpl. rewrite length_filter_in; [by rewrite fmap_length|done|].
  apply elem_of_list_fmap. eauto.
Qed.

(** Full characterisation of get. *)
Lemma get_spec (s : lru K V) k :
  Inv s →
  ∃ s' r, lru_get s k = Some (s', r) ∧ Inv s' ∧ l_max s' = l_max s ∧ l_cb s' = l_cb s ∧
    ((k ∉ n_key <$> l_items s ∧ r = RThrow ∧ s' = s) ∨
     (∃ n, n ∈ l_items s ∧ n_key n = k ∧ r = RVal (n_val n) ∧
           l_items s' = n :: filter (λ m, n_key m ≠ k) (l_items s))).
Proof.
  intros I. unfold lru_get. destruct (l_map s !! k) as [id|] eqn:E.
  - apply (inv_map _ I) in E as (n & Hn & Hk & Hid).
    rewrite (node_at_some id _ n) by (done || apply I).
    subst id k. rewrite filter_id_key by (done || apply I).
    eexists _, _. split; [reflexivity|]. split; [|repeat split; right; exists n; done].
    split; simpl.
    + rewrite filter_key_fmap. constructor.
      * rewrite elem_of_list_filter. tauto.
      * apply NoDup_filter, I.
    + rewrite <-filter_id_key by (done || apply I). constructor.
      * intros Hin. apply elem_of_list_fmap in Hin as (x & Hx1 & Hx2).
        apply elem_of_list_filter in Hx2 as [? _]. congruence.
      * apply NoDup_filter_fmap, I.
    + intros x Hx. apply elem_of_cons in Hx as [->|Hx]; [by apply I|].
      apply elem_of_list_filter in Hx as [_ Hx]. by apply I.
    + intros k' id. rewrite (inv_map _ I). split.
      * intros (x & Hx & <- & <-). destruct (decide (n_key x = n_key n)) as [Heq|Hne].
        -- exists n. split; [left|]. split; [done|].
           assert (x = n) as ->; [|done].
           apply elem_of_list_lookup in Hx as (i & Hi).
           apply elem_of_list_lookup in Hn as (j & Hj).
           assert (i = j); [|congruence].
           eapply (NoDup_lookup _ i j (n_key n)); [apply (inv_keys _ I)|..];
             rewrite list_lookup_fmap, ?Hi, ?Hj; simpl; [by rewrite Heq|done].
        -- exists x. split; [|done]. right. apply elem_of_list_filter. done.
      * intros (x & Hx & <- & <-). exists x. split; [|done].
        apply elem_of_cons in Hx as [->|Hx]; [done|]. apply elem_of_list_filter in Hx. tauto.
    + pose proof (NoDup_move (l_items s) n (inv_keys _ I) Hn) as Hl. simpl in Hl.
      rewrite Hl. apply I.
  - eexists _, _. split; [reflexivity|]. split; [exact I|]. do 2 (split; [done|]). left.
    split; [by apply map_none|done].
Qed.

(** Relation between a state and the history that led to it. *)
Record Rel (mx : nat) (h : history) (s : lru K V) : Prop := {
  rel_inv : Inv s;
  rel_max : l_max s = mx;
  rel_keys : n_key <$> l_items s = held mx h;
  rel_vals : ∀ n, n ∈ l_items s → lastput h (n_key n) = Some (n_val n) }.

Lemma uses_snoc (h : history) e : uses (h ++ [e]) = use1 (uses h) e.
Proof. unfold uses. by rewrite fold_left_app. Qed.
Lemma lastput_snoc (h : history) e k : lastput (h ++ [e]) k = lastput1 k (lastput h k) e.
Proof. unfold lastput. by rewrite fold_left_app. Qed.

Lemma recency_NoDup (l : list K) : NoDup (recency l).
Proof.
  induction l as [|k l IH]; simpl; constructor.
  - rewrite elem_of_list_filter. tauto.
  - by apply NoDup_filter.
Qed.

Lemma take_filter_take k mx (l : list K) :
  NoDup l →
  take mx (k :: filter (λ x, x ≠ k) (take mx l)) = take mx (k :: filter (λ x, x ≠ k) l).
Proof.
  intros ND. destruct mx as [|m]; [done|]. simpl. f_equal.
  assert (∀ j i, i < j → take i (filter (λ x, x ≠ k) (take j l)) = take i (filter (λ x, x ≠ k) l)
          ) as G0.
  { induction l as [|x l IH]; intros j i Hij; [by rewrite take_nil|].
    apply NoDup_cons in ND as [Hx ND].
    destruct j as [|j]; [lia|]. rewrite firstn_cons.
    rewrite !filter_cons. case_decide as Hd.
    - destruct i as [|i]; [done|]. simpl. f_equal. apply IH; [done|lia].
    - destruct (decide (x = k)) as [->|]; [clear Hd|tauto].
      rewrite !filter_absent; [by rewrite take_take, Nat.min_l by lia|done|].
      intros Hin. apply Hx. by apply elem_of_take in Hin as (?&?%elem_of_list_lookup_2&_). }
  change (match l with [] => [] | a :: l0 => a :: take m l0 end) with (take (S m) l).
  apply G0. lia.
Qed.

Lemma take_filter_in k mx (l : list K) :
  NoDup l → k ∈ take mx l →
  k :: filter (λ x, x ≠ k) (take mx l) = take mx (k :: filter (λ x, x ≠ k) l).
Proof.
  intros ND Hk. rewrite <-take_filter_take by done. symmetry. apply take_ge.
  simpl. rewrite length_filter_in; [rewrite take_length; lia| |done].
  rewrite <-(take_drop mx l) in ND. apply NoDup_app in ND. tauto.
Qed.

Lemma rel_step mx h s o :
  Rel mx h s →
  ∃ s' r, lru_step s o = Some (s', r) ∧ Rel mx (h ++ [(o, r)]) s'.
Proof.
  intros R. pose proof (rel_inv _ _ _ R) as I. pose proof (rel_max _ _ _ R) as Hmx.
  destruct o as [k v|k|k| | |]; simpl.
  - destruct (put_spec s k v I) as (s' & c & -> & I' & Hm' & Hcb & Hs). simpl.
    eexists _, _. split; [reflexivity|].
    case_bool_decide as H0.
    + destruct Hs as [-> _]. split; [done|done|..].
      * rewrite (rel_keys _ _ _ R). unfold held. rewrite <-Hmx, H0. done.
      * intros n Hn. pose proof (inv_cap _ I). rewrite H0 in *.
        destruct (l_items s); [by apply elem_of_nil in Hn|simpl in *; lia].
    + destruct Hs as [Hs _]. split; [done|congruence|..].
      * rewrite Hs.
        unfold held. rewrite uses_snoc. simpl. rewrite Hmx.
        change (λ n, n_key n) with (@n_key K V) in *.
        rewrite fmap_take, put_items_keys, (rel_keys _ _ _ R). unfold held.
        apply take_filter_take, recency_NoDup.

      * intros n Hn. rewrite Hs in Hn. rewrite lastput_snoc. simpl.
        assert (n ∈ put_items s k v) as Hn2.
        { apply elem_of_take in Hn as (?&?&?). by eapply elem_of_list_lookup_2. }

        apply elem_of_cons in Hn2 as [->|Hn2]; [by rewrite decide_True|].
        apply elem_of_list_filter in Hn2 as [Hne Hn2]. rewrite decide_False by done.
        by apply R.
  - destruct (get_spec s k I) as (s' & r & -> & I' & Hm' & Hcb & Hs). simpl.
    eexists _, _. split; [reflexivity|].
    destruct Hs as [(Hk & -> & ->)|(n & Hn & Hk & -> & Hs)].
    + split; [done|done|..].
      * rewrite (rel_keys _ _ _ R). unfold held. by rewrite uses_snoc.
      * intros n Hn. rewrite lastput_snoc. simpl. by apply R.
    + split; [done|congruence|..].
      * rewrite Hs, fmap_cons, filter_key_fmap, (rel_keys _ _ _ R), Hk.
        unfold held. rewrite uses_snoc. simpl. apply take_filter_in; [apply recency_NoDup|].
        change (k ∈ held mx h). rewrite <-(rel_keys _ _ _ R), <-Hk.
        apply elem_of_list_fmap. eauto.
      * intros m Hm. rewrite lastput_snoc. simpl. apply R. rewrite Hs in Hm.
        apply elem_of_cons in Hm as [->|Hm]; [done|]. apply elem_of_list_filter in Hm. tauto.
  - eexists _, _. split; [reflexivity|]. split; [done|done|..].
    + rewrite (rel_keys _ _ _ R). unfold held. by rewrite uses_snoc.
    + intros n Hn. rewrite lastput_snoc. by apply R.
  - eexists _, _. split; [reflexivity|]. split; [done|done|..].
    + rewrite (rel_keys _ _ _ R). unfold held. by rewrite uses_snoc.
    + intros n Hn. rewrite lastput_snoc. by apply R.
  - eexists _, _. split; [reflexivity|]. split; simpl; [|done|..].
    + split; simpl; try constructor; try (intros ? Hx; by apply elem_of_nil in Hx).
      * by rewrite lookup_empty.
      * intros (n & Hn & _). by apply elem_of_nil in Hn.
      * lia.
    + unfold held. rewrite uses_snoc. simpl. by rewrite take_nil.
    + intros n Hn. by apply elem_of_nil in Hn.
  - eexists _, _. split; [reflexivity|]. split; simpl; [|done|..].
    + destruct I. by split.
    + rewrite (rel_keys _ _ _ R). unfold held. by rewrite uses_snoc.
    + intros n Hn. rewrite lastput_snoc. by apply R.
Qed.

Lemma rel_init mx : Rel mx [] (lru_init mx).
Proof.
  split; [apply inv_init|done|..].
  - unfold held. simpl. by rewrite take_nil.
  - intros n Hn. by apply elem_of_nil in Hn.
Qed.

Lemma rel_run mx h s os :
  Rel mx h s → ∃ s' t, lru_run s os = Some (s', t) ∧ Rel mx (h ++ t) s' ∧ t.*1 = os.
Proof.
  revert h s. induction os as [|o os IH]; intros h s R; simpl.
  - exists s, []. rewrite app_nil_r. done.
  - destruct (rel_step mx h s o R) as (s1 & r & -> & R1).
    destruct (IH _ _ R1) as (s2 & t & -> & R2 & Ht).
    exists s2, ((o, r) :: t). rewrite <-app_assoc in R2. split; [done|]. split; [done|].
    rewrite fmap_cons. simpl. by f_equal.
Qed.

Lemma run_reach mx os s t :
  lru_run (lru_init mx) os = Some (s, t) → Rel mx t s.
Proof.
  intros E. destruct (rel_run mx [] _ os (rel_init mx)) as (s' & t' & E' & R & _).
  rewrite E in E'. simplify_eq. done.
Qed.

Lemma exists_held mx h s k : Rel mx h s → lru_exists s k = bool_decide (k ∈ held mx h).
Proof.
  intros R. unfold lru_exists. apply bool_decide_ext.
  rewrite <-(rel_keys _ _ _ R). destruct (decide (k ∈ n_key <$> l_items s)) as [Hk|Hk].
  - split; [done|]. intros _. destruct (l_map s !! k) eqn:E; [eauto|].
    apply map_none in E; [done|apply R].
  - split; [|done]. intros [id Hid]. apply map_none in Hk; [congruence|apply R].
Qed.

Lemma size_held mx h s : Rel mx h s → lru_size s = length (held mx h).
Proof.
  intros R. rewrite inv_size by apply R. by rewrite <-(rel_keys _ _ _ R), fmap_length.
Qed.

Lemma get_held mx h s k :
  Rel mx h s →
  ∃ s', lru_get s k = Some (s', if bool_decide (k ∈ held mx h)
                                then match lastput h k with Some v => RVal v | None => RThrow end
                                else RThrow) ∧
        (k ∈ held mx h → is_Some (lastput h k)).
Proof.
  intros R. destruct (get_spec s k (rel_inv _ _ _ R)) as (s' & r & -> & _ & _ & _ & Hs).
  rewrite <-(rel_keys _ _ _ R).
  destruct Hs as [(Hk & -> & _)|(n & Hn & Hk & -> & _)].
  - rewrite bool_decide_false by done. eexists; split; [done|]. done.
  - rewrite bool_decide_true.
    2: { rewrite <-Hk. apply elem_of_list_fmap. eauto. }
    pose proof (rel_vals _ _ _ R n Hn) as Hv. rewrite Hk in Hv. rewrite Hv. eauto.
Qed.

(** Callback: what put hands over. *)
Lemma put_calls mx h s k v :
  Rel mx h s → l_cb s = true →
  ∃ s' c, lru_put s k v = Some (s', c) ∧
    c.*1 = (if bool_decide (mx = 0) then [k] else drop mx (k :: filter (λ x, x ≠ k) (held mx h))) ∧
    (∀ k' v', (k', v') ∈ c → lastput (h ++ [(Put k v, (RUnit, c))]) k' = Some v').
Proof.
  intros R Hcb.
  destruct (put_spec s k v (rel_inv _ _ _ R)) as (s' & c & -> & I' & Hm' & Hcb' & Hs).
  rewrite (rel_max _ _ _ R), Hcb in Hs.
  exists s', c. split; [done|]. case_bool_decide.
  - destruct Hs as [_ ->]. split; [done|]. intros k' v' Hin.
    apply elem_of_list_singleton in Hin. simplify_eq.
    rewrite lastput_snoc. simpl. by rewrite decide_True.
  - destruct Hs as [_ ->]. split.
    + rewrite <-list_fmap_compose. rewrite <-(rel_keys _ _ _ R), <-(put_items_keys s k v).
      by rewrite fmap_drop.
    + intros k' v' Hin. rewrite lastput_snoc. simpl.
      apply elem_of_list_fmap in Hin as (n & [= -> ->] & Hn).
      assert (n ∈ put_items s k v) as Hn2.
      { rewrite <-(take_drop (l_max s)). apply elem_of_app. right.
        by rewrite (rel_max _ _ _ R). }
      apply elem_of_cons in Hn2 as [->|Hn2]; [by rewrite decide_True|].
      apply elem_of_list_filter in Hn2 as [Hne Hn2]. rewrite decide_False by done.
      by apply R.
Qed.

(** Accounting of values.  [stored s]: what is in the cache. *)
Definition stored (s : lru K V) : list (K * V) := (λ n, (n_key n, n_val n)) <$> l_items s.

Definition puts_of (t : history) : list (K * V) :=
  omap (λ e, match e.1 with Put k v => Some (k, v) | _ => None end) t.
Definition calls_of (t : history) : list (K * V) := mjoin ((λ e, e.2.2) <$> t).

(** A caller that puts a key only when the cache does not hold it (as NLLGrid
    does) and never clears. *)
Definition fresh_put (s : lru K V) (o : op K V) : Prop :=
  match o with Put k _ => lru_exists s k = false | Clear => False | _ => True end.
Fixpoint disciplined (s : lru K V) (os : list (op K V)) : Prop :=
  match os with
  | [] => True
  | o :: os' => fresh_put s o ∧ ∀ s' r, lru_step s o = Some (s', r) → disciplined s' os'
  end.

Lemma account_step mx h s o s' r :
  Rel mx h s → l_cb s = true → fresh_put s o → lru_step s o = Some (s', r) →
  l_cb s' = true ∧
  stored s ++ match o with Put k v => [(k, v)] | _ => [] end ≡ₚ stored s' ++ r.2.
Proof.
  intros R Hcb Hf E. pose proof (rel_inv _ _ _ R) as I. destruct o as [k v|k|k| | |]; simpl in E.
  - destruct (put_spec s k v I) as (s1 & c & E1 & I' & Hm' & Hcb' & Hs).
    rewrite E1 in E. simpl in E. simplify_eq. simpl. split; [congruence|].
    rewrite Hcb in Hs. case_bool_decide.
    + destruct Hs as [-> ->]. done.
    + destruct Hs as [Hs ->]. unfold stored. rewrite Hs.
      rewrite <-fmap_app, take_drop. unfold put_items.
      rewrite filter_absent_node.
      2: { simpl in Hf. unfold lru_exists in Hf. apply bool_decide_eq_false in Hf.
        apply map_none; [done|]. by apply eq_None_not_Some. }
      rewrite fmap_cons. simpl. rewrite Permutation_app_comm. done.
  - destruct (get_spec s k I) as (s1 & r1 & E1 & I' & Hm' & Hcb' & Hs).
    rewrite E1 in E. simpl in E. simplify_eq. simpl. split; [congruence|].
    rewrite !app_nil_r. destruct Hs as [(_ & _ & ->)|(n & Hn & Hk & _ & Hs)]; [done|].
    unfold stored. rewrite Hs. apply Permutation_map. symmetry. subst k.
    apply NoDup_Permutation.
    + apply (NoDup_fmap_1 n_key). rewrite fmap_cons, filter_key_fmap. constructor.
      * rewrite elem_of_list_filter. tauto.
      * apply NoDup_filter, I.
    + apply (NoDup_fmap_1 n_key), I.
    + intros x. rewrite elem_of_cons, elem_of_list_filter. split.
      * intros [->|[_ ?]]; done.
      * intros Hx. destruct (decide (n_key x = n_key n)) as [Heq|]; [|by right].
        left. apply elem_of_list_lookup in Hx as (i & Hi).
        apply elem_of_list_lookup in Hn as (j & Hj).
        assert (i = j); [|congruence].
        eapply (NoDup_lookup _ i j (n_key n)); [apply (inv_keys _ I)|..];
          rewrite list_lookup_fmap, ?Hi, ?Hj; simpl; [by rewrite Heq|done].
  - simplify_eq. simpl. by rewrite !app_nil_r.
  - simplify_eq. simpl. by rewrite !app_nil_r.
  - done.
  - simplify_eq. simpl. unfold stored. simpl. by rewrite !app_nil_r.
Qed.

Lemma account_run mx h s os s' t :
  Rel mx h s → l_cb s = true → disciplined s os → lru_run s os = Some (s', t) →
  stored s ++ puts_of t ≡ₚ stored s' ++ calls_of t.
Proof.
  revert h s t. induction os as [|o os IH]; intros h s t R Hcb Hd E; simpl in E.
  - simplify_eq. unfold puts_of, calls_of. simpl. by rewrite !app_nil_r.
  - destruct Hd as [Hf Hd].
    destruct (rel_step mx h s o R) as (s1 & r & E1 & R1). rewrite E1 in E.
    destruct (lru_run s1 os) as [[s2 t2]|] eqn:E2; [|done]. simplify_eq.
    destruct (account_step mx h s o s1 r R Hcb Hf E1) as [Hcb1 P].
    specialize (IH _ s1 t2 R1 Hcb1 (Hd _ _ E1) E2).
    unfold puts_of, calls_of in *. simpl.
    assert (∀ (a : list (K*V)), omap (λ e : op K V * (ret V * list (K * V)),
        match e.1 with Put k v => Some (k, v) | _ => None end) ((o, r) :: t2) =
        match o with Put k v => [(k, v)] | _ => [] end ++
        omap (λ e : op K V * (ret V * list (K * V)),
        match e.1 with Put k v => Some (k, v) | _ => None end) t2) as Ho.
    { intros _. by destruct o. }
    simpl in Ho. rewrite (Ho []). clear Ho.
    rewrite app_assoc, P, <-app_assoc.
    rewrite (Permutation_app_comm (r.2)), app_assoc, IH, <-app_assoc.
    by rewrite (Permutation_app_comm _ r.2).
Qed.
End proofs.
