(** Properties C01, C02, C03: the LRU cache of libs/hdd/lrucache.h. *)
From stdpp Require Import gmap list.
From Verif Require Import Lru_Model Lru_Spec Lru_Proofs.

(** Every sequence of calls is free of undefined behaviour (no dangling list
    iterator, no back() of an empty list) and returns. *)
Theorem C01_lru_no_undefined_behaviour {K V : Type} `{Countable K} (mx : nat) (os : list (op K V)) :
  ∃ s t, lru_run (lru_init mx) os = Some (s, t) ∧ t.*1 = os.
Proof.
  destruct (rel_run mx [] _ os (rel_init mx)) as (s & t & E & _ & Ht). exists s, t. done.
Qed.
Print Assumptions C01_lru_no_undefined_behaviour.

(** C01. After any sequence of calls: size() never exceeds the capacity, the
    list holds no key twice and as many elements as size() says, and exists(k)
    is true exactly when get(k) returns a value (false: get throws). *)
Theorem C01_lru_bounded_unique {K V : Type} `{Countable K} (mx : nat) (os : list (op K V)) s t :
  lru_run (lru_init mx) os = Some (s, t) →
  lru_size s ≤ mx ∧
  NoDup (n_key <$> l_items s) ∧ length (l_items s) = lru_size s ∧
  ∀ k, (lru_exists s k = true ↔ ∃ s' v, lru_get s k = Some (s', RVal v)) ∧
       (lru_exists s k = false ↔ ∃ s', lru_get s k = Some (s', RThrow)).
Proof.
  intros E. pose proof (run_reach _ _ _ _ E) as R.
  pose proof (inv_size s (rel_inv _ _ _ R)) as Hsz.
  pose proof (inv_cap s (rel_inv _ _ _ R)). rewrite (rel_max _ _ _ R) in *.
  split; [lia|]. split; [apply R|]. split; [lia|]. intros k.
  rewrite (exists_held _ _ _ k R).
  destruct (get_held _ _ _ k R) as (s' & Hg & Hp). rewrite Hg.
  case_bool_decide as Hk.
  - destruct (Hp Hk) as [v ->]. split; split; try done; eauto. by intros (? & [=]).
  - split; split; try done; eauto. by intros (? & ? & [=]).
Qed.
Print Assumptions C01_lru_bounded_unique.

(** C02. What the cache holds is determined by the history of calls: exactly the
    [mx] most recently used distinct keys since the last clear, each with the
    value of its last put. *)
Theorem C02_lru_recency {K V : Type} `{Countable K} (mx : nat) (os : list (op K V)) s t :
  lru_run (lru_init mx) os = Some (s, t) →
  (∀ k, lru_exists s k = bool_decide (k ∈ held mx t)) ∧
  lru_size s = length (held mx t) ∧
  (∀ k, k ∈ held mx t → ∃ s' v, lru_get s k = Some (s', RVal v) ∧ lastput t k = Some v) ∧
  (∀ k, k ∉ held mx t → ∃ s', lru_get s k = Some (s', RThrow)).
Proof.
  intros E. pose proof (run_reach _ _ _ _ E) as R.
  split; [intros k; by apply exists_held|]. split; [by apply size_held|].
  split; intros k Hk; destruct (get_held _ _ _ k R) as (s' & Hg & Hp); rewrite Hg.
  - rewrite bool_decide_true by done. destruct (Hp Hk) as [v Hv]. rewrite Hv. eauto.
  - rewrite bool_decide_false by done. eauto.
Qed.
Print Assumptions C02_lru_recency.

(** C03 (what is true). With a callback registered, a put hands over exactly
    the keys pushed out of the [mx] most recently used (at most one), with
    their stored value. *)
Theorem C03_lru_evicts_least_recent {K V : Type} `{Countable K} (mx : nat) (os : list (op K V)) s t k v :
  lru_run (lru_init mx) os = Some (s, t) → l_cb s = true → mx ≠ 0 →
  ∃ s' c, lru_step s (Put k v) = Some (s', (RUnit, c)) ∧
    c.*1 = drop mx (recency (k :: held mx t)) ∧ length c ≤ 1 ∧
    (∀ k' v', (k', v') ∈ c → lru_exists s' k' = false ∧
       lastput (t ++ [(Put k v, (RUnit, c))]) k' = Some v').
Proof.
  intros E Hcb Hmx. pose proof (run_reach _ _ _ _ E) as R.
  destruct (put_calls _ _ _ k v R Hcb) as (s' & c & Hput & Hc & Hv).
  rewrite bool_decide_false in Hc by done.
  assert (recency (held mx t) = held mx t) as Hrec.
  { assert (∀ l : list K, NoDup l → recency l = l) as G.
    { induction l as [|x l IH]; [done|]. rewrite NoDup_cons. intros [Hx Hl]. simpl.
      by rewrite IH, filter_absent. }
    apply G. rewrite <-(rel_keys _ _ _ R). apply R. }
  destruct (rel_step _ _ _ (Put k v) R) as (s1 & r & Es & R1). simpl in Es |- *.
  rewrite Hput in Es |- *. simpl in Es |- *. simplify_eq.
  exists s1, c. split; [done|]. rewrite Hrec. split; [done|]. split.
  - rewrite <-(fmap_length fst), Hc, drop_length. simpl.
    pose proof (filter_length (λ x, x ≠ k) (held mx t)).
    assert (length (held mx t) ≤ mx) by (unfold held; rewrite take_length; lia). lia.
  - intros k' v' Hin. split; [|by apply Hv].
    rewrite (exists_held _ _ _ k' R1). apply bool_decide_false.
    assert (k' ∈ drop mx (k :: filter (λ x, x ≠ k) (held mx t))) as Hd.
    { rewrite <-Hc. apply elem_of_list_fmap. by exists (k', v'). }
    unfold held. rewrite uses_snoc. simpl.
    rewrite <-take_filter_take by apply recency_NoDup. fold (held mx t).
    intros Hin2.
    assert (NoDup (k :: filter (λ x, x ≠ k) (held mx t))) as ND.
    { constructor; [rewrite elem_of_list_filter; tauto|]. apply NoDup_filter.
      rewrite <-(rel_keys _ _ _ R). apply R. }
    rewrite <-(take_drop mx (k :: _)) in ND. apply NoDup_app in ND as (_ & ND & _).
    by apply (ND k').
Qed.
Print Assumptions C03_lru_evicts_least_recent.

(** C03 (accounting). For a caller that puts a key only when it is absent and
    never clears, from a cache with a callback: what was stored plus what was put is what is
    stored plus what was handed to the callback, as multisets. *)
Theorem C03_lru_accounting {K V : Type} `{Countable K} (mx : nat) (os1 os2 : list (op K V)) s1 t1 s2 t2 :
  lru_run (lru_init mx) os1 = Some (s1, t1) → l_cb s1 = true →
  disciplined s1 os2 → lru_run s1 os2 = Some (s2, t2) →
  stored s1 ++ puts_of t2 ≡ₚ stored s2 ++ calls_of t2.
Proof.
  intros E1 Hcb Hd E2. eapply account_run; [by eapply run_reach|done|done|done].
Qed.
Print Assumptions C03_lru_accounting.

(** C03 as listed is false: a value replaced by a put on its key, and values
    dropped by clear(), leave the cache without any callback. *)
Theorem C03_lru_callback_refuted :
  (∃ s t, lru_run (lru_init 2) [Register; Put 1 10; Put 1 11] = Some (s, t) ∧
     (1, 10) ∈ puts_of t ∧ (1, 10) ∉ stored s ∧ calls_of t = []) ∧
  (∃ s t, lru_run (lru_init 2) [Register; Put 1 10; Clear] = Some (s, t) ∧
     (1, 10) ∈ puts_of t ∧ stored s = [] ∧ calls_of t = []).
Proof.
  split; eexists _, _; (split; [vm_compute; reflexivity|]);
    (split; [vm_compute; left|]); split; try (vm_compute; reflexivity).
  intros Hin. vm_compute in Hin. apply elem_of_list_singleton in Hin. done.
Qed.
Print Assumptions C03_lru_callback_refuted.

(** The hypotheses can be met: a cache of capacity 2 with a callback, three keys,
    a hit that changes the order of eviction. *)
Example lru_nontrivial :
  ∃ s t, lru_run (lru_init 2) [Register; Put 1 10; Put 2 20; Get 1; Put 3 30] = Some (s, t) ∧
    l_cb s = true ∧ calls_of t = [(2, 20)] ∧ held 2 t = [3; 1] ∧
    disciplined (lru_init 2) [Register; Put 1 10; Put 2 20; Get 1; Put 3 30].
Proof.
  eexists _, _. split; [vm_compute; reflexivity|]. split; [done|]. split; [done|].
  split; [done|]. simpl. repeat split; intros; simplify_option_eq; repeat split; intros;
    simplify_option_eq; done.
Qed.
