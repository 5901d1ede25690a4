(** Theorems about the job scheduler: C56, C57. *)
From stdpp Require Import gmap list.
From Verif Require Import Scheduler_Model.
Local Open Scope Z_scope.

Section proofs.
Variable ord : gmap key proc → list proc.
(** The iteration visits every process once. *)
Hypothesis Hord : ∀ m, ord m ≡ₚ (map_to_list m).*2.
Variables (wakeup : Z) (delays : list Z).
Notation step := (step ord wakeup delays).
Notation runs := (runs ord wakeup delays).
Notation init := (init wakeup).

(** Invariant; [due k t]: an update of k has scheduled it at t; [T]: the clock. *)
Record inv (due : key → Z → Prop) (T : Z) (s : sched) : Prop := Inv {
  i_key : ∀ k p, sc_procs s !! k = Some p → pr_key p = k ∧ (pr_id p < sc_next s)%nat ∧ ∀ t, t ∈ pr_times p → due k t;
  i_inj : ∀ k k' p p', sc_procs s !! k = Some p → sc_procs s !! k' = Some p' → pr_id p = pr_id p' → k = k';
  i_queue : ∀ i k, (i, k) ∈ sc_queue s → (∃ p, sc_procs s !! k = Some p ∧ pr_id p = i) ∧ ∃ t, due k t ∧ t ≤ T;
  i_nodup : NoDup (sc_queue s).*1 }.

Lemma inv_mono (due due' : key → Z → Prop) T T' s :
  (∀ k t, due k t → due' k t) → T ≤ T' → inv due T s → inv due' T' s.
Proof.
  intros Hd HT [A B C D]. split; [|done| |done].
  - intros k p H. destruct (A k p H) as (? & ? & ?). eauto.
  - intros i k H. destruct (C i k H) as (? & t & ? & ?). split; [done|]. exists t. split; [eauto|lia].
Qed.
Lemma erase_first_sub i q y : y ∈ erase_first i q → y ∈ q.
Proof.
  induction q as [|z q IH]; [done|]. simpl. case_decide; [by right|]. intros [->|?]%elem_of_cons; [by left|]. right. by apply IH.
Qed.
Lemma erase_first_nodup i q : NoDup q.*1 → NoDup (erase_first i q).*1 ∧ i ∉ (erase_first i q).*1.
Proof.
  induction q as [|z q IH]; [intros _; split; [constructor|apply not_elem_of_nil]|].
  simpl. intros [H1 H2]%NoDup_cons. case_decide as D; [by subst i|]. destruct (IH H2) as [I1 I2]. simpl. split.
  - apply NoDup_cons. split; [|done]. intros H. apply H1. apply elem_of_list_fmap in H as (y & E & Hy).
    apply erase_first_sub in Hy. rewrite E. by apply elem_of_list_fmap_1.
  - rewrite not_elem_of_cons. split; [done|done].
Qed.
Lemma erase_first_other i q y : y ∈ q → y.1 ≠ i → y ∈ erase_first i q.
Proof.
  induction q as [|z q IH]; [done|]. simpl. intros [->|?]%elem_of_cons Hy.
  - rewrite decide_False by done. by left.
  - case_decide; [done|]. right. by apply IH.
Qed.

Lemma inv_remove due T s x :
  inv due T s → (∀ p, sc_procs s !! x.2 = Some p → pr_id p = x.1) → inv due T (remove_proc s x).
Proof.
  intros [A B C D] Hx. unfold remove_proc. split; simpl.
  - intros k p [_ H]%lookup_delete_Some. eauto.
  - intros k k' p p' [_ H]%lookup_delete_Some [_ H']%lookup_delete_Some. eauto.
  - intros i k H. destruct (erase_first_nodup x.1 (sc_queue s) D) as [_ Hn].
    pose proof (erase_first_sub _ _ _ H) as Hq. destruct (C i k Hq) as ((p & Hp & Hi) & Ht). split; [|done].
    exists p. split; [|done]. rewrite lookup_delete_ne; [done|]. intros <-.
    apply Hn. apply elem_of_list_fmap. exists (i, x.2). split; [|done]. simpl. rewrite <-Hi. symmetry. by apply Hx.
  - by apply erase_first_nodup.
Qed.
Lemma drop_past_sub now l t : t ∈ drop_past now l → t ∈ l.
Proof. induction l as [|a l IH]; [done|]. simpl. destruct (a <=? now); [|done]. intros H. right. by apply IH. Qed.
Lemma drop_past_head now l t l' : drop_past now l = t :: l' → now < t.
Proof.
  induction l as [|a l IH]; [done|]. simpl. destruct (Z.leb_spec a now); [done|]. intros [= -> _]. lia.
Qed.

(** A snapshot element still describes the process. *)
Definition snap (s : sched) (p : proc) : Prop := ∃ p', sc_procs s !! pr_key p = Some p' ∧ pr_id p' = pr_id p.
Lemma inv_update_one due now s rm p s' rm' :
  inv due now s → snap s p → (∀ t, t ∈ pr_times p → due (pr_key p) t) →
  update_one now (s, rm) p = (s', rm') →
  inv due now s' ∧ (∀ q, snap s q → snap s' q) ∧ sc_counter s' = sc_counter s ∧ sc_next s' = sc_next s ∧
  ((rm' = rm ++ [(pr_id p, pr_key p)] ∧ pr_times p = []) ∨ rm' = rm).
Proof.
  intros [A B C D] (p' & Hp & Hi) Hd. unfold update_one.
  destruct (pr_times p) as [|t l] eqn:Et.
  { intros [= <- <-]. split; [done|]. split; [done|]. split; [done|]. split; [done|]. by left. }
  destruct (Z.ltb_spec now t) as [Hlt|Hge].
  { intros [= <- <-]. split; [done|]. split; [done|]. split; [done|]. split; [done|]. by right. }
  intros [= <- <-]. split; [|split; [|split; [done|split; [done|by right]]]].
  2: { intros q (q' & Hq & Hqi). unfold snap. simpl. destruct (decide (pr_key q = pr_key p)) as [E|E].
       - rewrite E, lookup_insert. eexists. split; [done|]. simpl. rewrite E in Hq. congruence.
       - rewrite lookup_insert_ne by done. eauto. }
  destruct (A _ _ Hp) as (Ak & An & At). split.
  - simpl. intros k q. rewrite lookup_insert_Some. intros [[<- <-]|[_ H]]; [|by apply A]. simpl.
    split; [done|]. split; [by rewrite <-Hi|]. intros u Hu. apply Hd. by eapply (drop_past_sub now (t :: l)).
  - simpl. intros k k' q q'. rewrite !lookup_insert_Some.
    intros [[<- <-]|[H1 H2]] [[<- <-]|[H3 H4]] E; simpl in *.
    + done.
    + eapply (B _ _ p' q'); [done|done|congruence].
    + eapply (B _ _ q p'); [done|done|congruence].
    + eapply (B _ _ q q'); done.
  - simpl. intros i k Hin. assert ((i, k) ∈ sc_queue s ∨ (i, k) = (pr_id p, pr_key p)) as [Hq|[= -> ->]].
    { destruct (decide _) in Hin; [by left|]. apply elem_of_app in Hin as [?|Hin]; [by left|].
      apply elem_of_list_singleton in Hin. by right. }
    + destruct (C i k Hq) as ((q & Hq1 & Hq2) & Ht). split; [|done].
      destruct (decide (pr_key p = k)) as [<-|E].
      * rewrite lookup_insert. eexists. split; [done|]. simpl. congruence.
      * rewrite lookup_insert_ne by done. eauto.
    + split.
      * rewrite lookup_insert. eauto.
      * exists t. split; [|done]. apply Hd. by left.
  - simpl. destruct (decide (pr_id p ∈ (sc_queue s).*1)) as [E|E]; [done|].
    rewrite fmap_app. apply NoDup_app. split; [done|]. split; [|apply NoDup_singleton].
    intros i Hi1 Hi2. apply elem_of_list_singleton in Hi2 as ->. done.
Qed.

Lemma inv_update_fold due now : ∀ l s rm s' rm',
  inv due now s → (∀ p, p ∈ l → snap s p ∧ ∀ t, t ∈ pr_times p → due (pr_key p) t) →
  fold_left (update_one now) l (s, rm) = (s', rm') →
  inv due now s' ∧ (∀ q, snap s q → snap s' q) ∧ sc_counter s' = sc_counter s ∧ sc_next s' = sc_next s ∧
  ∃ l', sublist l' l ∧ rm' = rm ++ ((λ p, (pr_id p, pr_key p)) <$> l').
Proof.
  induction l as [|p l IH]; intros s rm s' rm' I Hl H.
  { simpl in H. injection H as <- <-. split; [done|]. split; [done|]. split; [done|]. split; [done|]. exists [].
    split; [constructor|]. by rewrite app_nil_r. }
  cbn [fold_left] in H. destruct (update_one now (s, rm) p) as [s1 rm1] eqn:E.
  destruct (Hl p) as [Hs Hd]; [by left|].
  destruct (inv_update_one _ _ _ _ _ _ _ I Hs Hd E) as (I1 & S1 & C1 & N1 & R1).
  destruct (IH s1 rm1 s' rm' I1) as (I2 & S2 & C2 & N2 & l' & L1 & L2); [|done|].
  { intros q Hq. destruct (Hl q) as [??]; [by right|]. eauto. }
  split; [done|]. split; [eauto|]. split; [congruence|]. split; [congruence|].
  destruct R1 as [[-> _]| ->].
  - exists (p :: l'). split; [by apply sublist_skip|]. rewrite L2, fmap_cons, <-app_assoc. done.
  - exists l'. split; [by apply sublist_cons|done].
Qed.

Lemma inv_remove_fold due T : ∀ (l : list proc) s,
  inv due T s → NoDup (pr_key <$> l) → (∀ p, p ∈ l → snap s p) →
  inv due T (fold_left remove_proc ((λ p, (pr_id p, pr_key p)) <$> l) s).
Proof.
  induction l as [|p l IH]; intros s I Hn Hs; [done|]. apply NoDup_cons in Hn as [N1 N2].
  rewrite fmap_cons. simpl. destruct (Hs p) as (p' & Hp & Hi); [by left|]. apply IH; [|done|].
  - apply inv_remove; [done|]. simpl. intros q Hq. congruence.
  - intros q Hq. destruct (Hs q) as (q' & Hq' & Hqi); [by right|]. exists q'. split; [|done]. simpl.
    rewrite lookup_delete_ne; [done|]. intros E. apply N1. rewrite E. by apply elem_of_list_fmap_1.
Qed.
Lemma fold_remove_counter l : ∀ s, sc_counter (fold_left remove_proc l s) = sc_counter s ∧
  sc_next (fold_left remove_proc l s) = sc_next s.
Proof. induction l as [|x l IH]; intros s; [done|]. simpl. by destruct (IH (remove_proc s x)) as [-> ->]. Qed.

Lemma sublist_elem {A} (l l' : list A) x : sublist l l' → x ∈ l → x ∈ l'.
Proof.
  induction 1 as [|y l l' H IH|y l l' H IH]; [done| |].
  - intros [->|Hx]%elem_of_cons; [by left|]. right. by apply IH.
  - intros Hx. right. by apply IH.
Qed.
Lemma sublist_NoDup {A} (l l' : list A) : sublist l l' → NoDup l' → NoDup l.
Proof.
  induction 1 as [|x l l' H IH|x l l' H IH]; [done| |].
  - intros [H1 H2]%NoDup_cons. apply NoDup_cons. split; [|by apply IH]. intros Hx. apply H1. by eapply sublist_elem.
  - intros [_ H2]%NoDup_cons. by apply IH.
Qed.
Lemma ord_elem due T s p : inv due T s → p ∈ ord (sc_procs s) ↔ sc_procs s !! pr_key p = Some p.
Proof.
  intros I. rewrite Hord. split.
  - intros ([k q] & -> & H)%elem_of_list_fmap. apply elem_of_map_to_list in H. simpl.
    by destruct (i_key _ _ _ I _ _ H) as [-> _].
  - intros H. apply elem_of_list_fmap. exists (pr_key p, p). split; [done|]. by apply elem_of_map_to_list.
Qed.
Lemma ord_keys due T s : inv due T s → NoDup (pr_key <$> ord (sc_procs s)).
Proof.
  intros I. rewrite (fmap_Permutation pr_key _ _ (Hord (sc_procs s))).
  assert (pr_key <$> (map_to_list (sc_procs s)).*2 = (map_to_list (sc_procs s)).*1) as ->; [|apply NoDup_fst_map_to_list].
  rewrite <-list_fmap_compose. apply list_fmap_ext. intros i [k p] Hi. apply elem_of_list_lookup_2, elem_of_map_to_list in Hi.
  simpl. by destruct (i_key _ _ _ I _ _ Hi).
Qed.
Lemma inv_update_all due T now s :
  T ≤ now → inv due T s → inv due now (update_all ord now s).
Proof.
  intros HT I0. assert (inv due now s) as I by (by eapply inv_mono; [| |exact I0]).
  unfold update_all. destruct (fold_left (update_one now) (ord (sc_procs s)) (s, [])) as [s' rm] eqn:E.
  destruct (inv_update_fold due now (ord (sc_procs s)) s [] s' rm I) as (I1 & S1 & _ & _ & l & L1 & ->); [|exact E|].
  { intros p Hp. apply (ord_elem _ _ _ _ I) in Hp. split; [by exists p|]. by destruct (i_key _ _ _ I _ _ Hp) as (_ & _ & ?). }
  simpl. apply inv_remove_fold; [done| |].
  - eapply sublist_NoDup; [|by apply (ord_keys due now s)]. by apply fmap_sublist.
  - intros p Hp. apply S1. exists p. split; [|done]. eapply (ord_elem due now); [done|]. by eapply sublist_elem.

Qed.

Lemma inv_run_front due T ok s s' x :
  inv due T s → run_front ok s = (s', x) →
  inv due T s' ∧ (length x ≤ 1)%nat ∧ ∀ k, k ∈ x → ∃ t, due k t ∧ t ≤ T.
Proof.
  intros I. pose proof I as [A B C D]. unfold run_front. destruct (sc_queue s) as [|[i k] q] eqn:Eq.
  { intros [= <- <-]. split; [done|]. split; [simpl; lia|]. by intros ? ?%elem_of_nil. }
  assert (inv due T (Sched (sc_procs s) q (sc_counter s) (sc_next s))) as I1.
  { split; simpl; [done|done| |].
    - intros j l H. apply C. by right.
    - simpl in D. by apply NoDup_cons in D as [_ ?]. }
  intros [= <- <-]. split; [|split; [simpl; lia|]].
  - destruct ok; [done|]. apply inv_remove; [done|]. simpl. intros p Hp.
    destruct (C i k) as ((p' & Hp' & <-) & _); [by left|]. congruence.
  - intros k' Hk'. apply elem_of_list_singleton in Hk' as ->. by destruct (C i k) as [_ ?]; [by left|].
Qed.
Lemma inv_run_new_jobs due T now ok s s' x :
  T ≤ now → inv due T s → run_new_jobs ord wakeup now ok s = (s', x) →
  inv due now s' ∧ (length x ≤ 1)%nat ∧ ∀ k, k ∈ x → ∃ t, due k t ∧ t ≤ now.
Proof.
  intros HT I. unfold run_new_jobs. destruct (sc_counter s - 1 <=? 0).
  - apply inv_run_front. apply (inv_update_all due T); [done|]. destruct I as [A B C D]. by split.
  - intros [= <- <-]. split; [|split; [simpl; lia|by intros ? ?%elem_of_nil]].
    assert (inv due now s) as [A B C D] by (by eapply inv_mono; [| |exact I]). by split.
Qed.

(** What an operation schedules. *)
Definition schedules (o : sop) (k : key) (t : Z) : Prop :=
  match o with SAdd k' t0 _ _ => k' = k ∧ ∃ d, d ∈ delays ∧ t = t0 + d | _ => False end.
Definition now_of (o : sop) (T : Z) : Z := match o with SAdd _ _ now _ | STick now _ => now | SReset => T end.
Definition clock_step (T : Z) (o : sop) : Prop :=
  match o with SAdd _ t0 now _ => T ≤ t0 ≤ now | STick now _ => T ≤ now | SReset => True end.
(** The clock never goes back. *)
Fixpoint clock_ok (T : Z) (ops : list sop) : Prop :=
  match ops with [] => True | o :: ops' => clock_step T o ∧ clock_ok (now_of o T) ops' end.

Lemma inv_insert due T s k t0 : inv due T s →
  inv (λ k' t, due k' t ∨ (k = k' ∧ ∃ d, d ∈ delays ∧ t = t0 + d)) T
    (match sc_procs s !! k with
     | Some p => Sched (<[k := Proc (pr_id p) (pr_key p) ((λ d, t0 + d) <$> delays)]> (sc_procs s)) (sc_queue s) (sc_counter s) (sc_next s)
     | None => Sched (<[k := Proc (sc_next s) k ((λ d, t0 + d) <$> delays)]> (sc_procs s)) (sc_queue s) (sc_counter s) (S (sc_next s))
     end).
Proof.
    intros I.
    assert (inv (λ k' t, due k' t ∨ (k = k' ∧ ∃ d, d ∈ delays ∧ t = t0 + d)) T s) as [A B C D].
    { eapply inv_mono; [|reflexivity|exact I]. by left. }
    assert (∀ t, t ∈ (λ d, t0 + d) <$> delays → ∃ d, d ∈ delays ∧ t = t0 + d) as Ht.
    { intros t (d & -> & ?)%elem_of_list_fmap. eauto. }
    destruct (sc_procs s !! k) as [p|] eqn:E.
    + destruct (A k p E) as (Ak & An & _). split; simpl; [| | |done].
      * intros k' p'. rewrite lookup_insert_Some. intros [[<- <-]|[_ H']]; [|by apply A]. simpl.
        split; [done|]. split; [done|]. intros t Hin. right. split; [done|]. by apply Ht.
      * intros k1 k2 p1 p2. rewrite !lookup_insert_Some. intros [[<- <-]|[H1 H2]] [[<- <-]|[H3 H4]] Heq; simpl in *.
        -- done.
        -- by eapply (B _ _ p p2).
        -- by eapply (B _ _ p1 p).
        -- by eapply (B _ _ p1 p2).
      * intros i k' Hin. destruct (C i k' Hin) as ((q & Hq & Hi) & ?). split; [|done].
        destruct (decide (k = k')) as [<-|N].
        -- rewrite lookup_insert. eexists. split; [done|]. simpl. congruence.
        -- rewrite lookup_insert_ne by done. eauto.
    + split; simpl; [| | |done].
      * intros k' p'. rewrite lookup_insert_Some. intros [[<- <-]|[_ H']]; simpl.
        -- split; [done|]. split; [lia|]. intros t Hin. right. split; [done|]. by apply Ht.
        -- destruct (A _ _ H') as (? & ? & ?). split; [done|]. split; [lia|done].
      * intros k1 k2 p1 p2. rewrite !lookup_insert_Some. intros [[<- <-]|[H1 H2]] [[<- <-]|[H3 H4]] Heq; simpl in *.
        -- done.
        -- destruct (A _ _ H4) as (_ & ? & _). lia.
        -- destruct (A _ _ H2) as (_ & ? & _). lia.
        -- by eapply (B _ _ p1 p2).
      * intros i k' Hin. destruct (C i k' Hin) as ((q & Hq & Hi) & ?). split; [|done].
        rewrite lookup_insert_ne by congruence. eauto.
Qed.
Lemma inv_step due T s o s' x :
  inv due T s → clock_step T o → step s o = (s', x) →
  inv (λ k t, due k t ∨ schedules o k t) (now_of o T) s' ∧ (length x ≤ 1)%nat ∧
  ∀ k, k ∈ x → ∃ t, (due k t ∨ schedules o k t) ∧ t ≤ now_of o T.
Proof.
  intros I Hc. destruct o as [k t0 now ok|now ok|]; simpl in *.
  - unfold add_process. intros H. apply (inv_run_new_jobs (λ k' t, due k' t ∨ (k = k' ∧ ∃ d, d ∈ delays ∧ t = t0 + d)) T) in H; [done|lia|].
    by apply inv_insert.
  - intros H. apply (inv_run_new_jobs due T) in H as (H1 & H2 & H3); [|done..]. split; [|split; [done|]].
    + eapply inv_mono; [|reflexivity|exact H1]. by left.
    + intros k Hk. destruct (H3 k Hk) as (t & ? & ?). eauto.
  - intros [= <- <-]. split; [|split; [simpl; lia|by intros ? ?%elem_of_nil]].
    assert (inv (λ k t, due k t ∨ False) T s) as [A B C D] by (eapply inv_mono; [|reflexivity|exact I]; by left).
    by split.
Qed.

Lemma inv_init due T : inv due T init.
Proof.
  split; simpl.
  - intros k p H. by rewrite lookup_empty in H.
  - intros k k' p p' H. by rewrite lookup_empty in H.
  - by intros i k ?%elem_of_nil.
  - constructor.
Qed.

(** The clock when operation i is executed. *)
Fixpoint time_at (T : Z) (ops : list sop) (i : nat) : Z :=
  match ops, i with
  | [], _ => T
  | o :: _, O => now_of o T
  | o :: ops', S i' => time_at (now_of o T) ops' i'
  end.
Lemma runs_spec ops : ∀ due T s s' xs,
  inv due T s → clock_ok T ops → runs s ops = (s', xs) →
  (∃ due' T', inv due' T' s') ∧ length xs = length ops ∧
  ∀ i x, xs !! i = Some x → (length x ≤ 1)%nat ∧
    ∀ k, k ∈ x → ∃ t, t ≤ time_at T ops i ∧ (due k t ∨ ∃ j o, (j ≤ i)%nat ∧ ops !! j = Some o ∧ schedules o k t).
Proof.
  induction ops as [|o ops IH]; intros due T s s' xs I Hc H.
  { simpl in H. injection H as <- <-. split; [eauto|]. split; [done|]. intros i x Hx. done. }
  simpl in H. destruct (step s o) as [s1 x1] eqn:E1. destruct (runs s1 ops) as [s2 xs2] eqn:E2.
  injection H as <- <-. destruct Hc as [Hc1 Hc2].
  destruct (inv_step _ _ _ _ _ _ I Hc1 E1) as (I1 & L1 & D1).
  destruct (IH _ _ _ _ _ I1 Hc2 E2) as (I2 & L2 & D2). split; [done|]. split; [simpl; lia|].
  intros [|i] x Hx.
  - injection Hx as <-. split; [done|]. intros k Hk. destruct (D1 k Hk) as (t & [Ht|Ht] & Hle); exists t; split; try done.
    + by left.
    + right. exists 0%nat, o. done.
  - simpl in Hx. destruct (D2 i x Hx) as [Hl Hk']. split; [done|]. intros k Hk.
    destruct (Hk' k Hk) as (t & Hle & [[Ht|Ht]|(j & o' & Hj & Ho & Ht)]); exists t; (split; [done|]).
    + by left.
    + right. exists 0%nat, o. split; [lia|done].
    + right. exists (S j), o'. split; [lia|done].
Qed.

(** C56: whatever happens, with a clock that never goes back, each wake-up starts
    at most one job, and a started job had been scheduled for that moment or
    earlier. *)
Theorem C56_never_early (T : Z) (ops : list sop) (s' : sched) (xs : list (list key)) :
  clock_ok T ops → runs init ops = (s', xs) →
  length xs = length ops ∧
  ∀ i x, xs !! i = Some x → (length x ≤ 1)%nat ∧
    ∀ k, k ∈ x → ∃ j o t, (j ≤ i)%nat ∧ ops !! j = Some o ∧ schedules o k t ∧ t ≤ time_at T ops i.
Proof.
  intros Hc H. destruct (runs_spec ops (λ _ _, False) T init s' xs (inv_init _ _) Hc H) as (_ & L & D).
  split; [done|]. intros i x Hx. destruct (D i x Hx) as [D1 D2]. split; [done|].
  intros k Hk. destruct (D2 k Hk) as (t & Hle & [[]|(j & o & Hj & Ho & Ht)]). eauto 8.
Qed.

(** C56: an object has at most one entry in the queue, and it refers to the
    process kept for the object. *)
Theorem C56_no_duplicates (T : Z) (ops : list sop) (s' : sched) (xs : list (list key)) :
  clock_ok T ops → runs init ops = (s', xs) →
  NoDup (sc_queue s').*2 ∧
  (∀ i k, (i, k) ∈ sc_queue s' → ∃ p, sc_procs s' !! k = Some p ∧ pr_id p = i ∧ pr_key p = k).
Proof.
  intros Hc H. destruct (runs_spec ops (λ _ _, False) T init s' xs (inv_init _ _) Hc H) as ((due & T' & [A B C D]) & _ & _).
  split.
  - revert C D. clear -A. induction (sc_queue s') as [|[i k] q IH]; intros C D; [constructor|].
    simpl in *. apply NoDup_cons in D as [D1 D2]. apply NoDup_cons. split.
    + intros Hk. apply elem_of_list_fmap in Hk as ([i' k'] & Ek & Hin). simpl in Ek. subst k'.
      destruct (C i k) as ((p & Hp & Hi) & _); [by left|]. destruct (C i' k) as ((p' & Hp' & Hi') & _); [by right|].
      apply D1. apply elem_of_list_fmap. exists (i', k). split; [simpl; congruence|done].
    + apply IH; [|done]. intros. apply C. by right.
  - intros i k Hin. destruct (C i k Hin) as ((p & Hp & Hi) & _). exists p. split; [done|]. split; [done|].
    by destruct (A _ _ Hp).
Qed.

(** ** C57 *)
(** A process that is due alone is started at the next wake-up, i.e. at the latest
    after as many timer ticks as the counter says. *)
Definition due_at (s : sched) (now : Z) (k : key) : Prop :=
  ∃ p t l, sc_procs s !! k = Some p ∧ pr_times p = t :: l ∧ t ≤ now.
Lemma update_alone due T s now k :
  inv due T s → sc_queue s = [] → due_at s now k → (∀ k', k' ≠ k → ¬ due_at s now k') →
  ∃ i, sc_queue (update_all ord now s) = [(i, k)].
Proof.
  intros I Hq Hd Ho. unfold update_all.
  assert (∀ l s0 rm, NoDup (pr_key <$> l) → (∀ p, p ∈ l → sc_procs s !! pr_key p = Some p) →
    (sc_queue s0 = [] ∨ (∃ i, sc_queue s0 = [(i, k)]) ∧ k ∉ pr_key <$> l) →
    (∀ x, x ∈ rm → x.2 ≠ k) →
    let '(s1, rm1) := fold_left (update_one now) l (s0, rm) in
    (∀ x, x ∈ rm1 → x.2 ≠ k ∧ (x ∈ rm ∨ ∃ p, p ∈ l ∧ x = (pr_id p, pr_key p) )) ∧
    if decide (k ∈ pr_key <$> l) then ∃ p, p ∈ l ∧ pr_key p = k ∧ sc_queue s1 = [(pr_id p, k)] else sc_queue s1 = sc_queue s0) as H.
  { clear Hq. induction l as [|p l IH]; intros s0 rm Hn Hl Hq Hrm.
    { simpl. split; [|done]. intros x Hx. split; [by apply Hrm|by left]. }
    apply NoDup_cons in Hn as [N1 N2]. cbn [fold_left].
    assert (sc_procs s !! pr_key p = Some p) as Hp by (apply Hl; by left).
    destruct (decide (pr_key p = k)) as [Ek|Ek].
    - destruct Hd as (p' & t & tl & Hp' & Ht & Hle). assert (p' = p) as -> by congruence.
      unfold update_one at 2. rewrite Ht. destruct (Z.ltb_spec now t); [lia|].
      assert (sc_queue s0 = []) as E0.
      { destruct Hq as [?|[_ Hk]]; [done|]. exfalso. apply Hk. rewrite fmap_cons, Ek. by left. }
      rewrite E0. simpl decide. rewrite decide_False by apply not_elem_of_nil. simpl app.
      set (s1 := Sched _ _ _ _).
      specialize (IH s1 rm N2). destruct (fold_left (update_one now) l (s1, rm)) as [s2 rm2].
      destruct IH as [I1 I2].
      { intros q Hq'. apply Hl. by right. }
      { right. subst s1. simpl. split; [rewrite Ek; eauto|]. by rewrite <-Ek. }
      { done. }
      split.
      + intros x Hx. destruct (I1 x Hx) as [? [?|(q & ? & ?)]]; (split; [done|]); [by left|]. right. exists q. split; [by right|done].
      + rewrite decide_True by (rewrite fmap_cons, Ek; by left).
        rewrite decide_False in I2 by (by rewrite <-Ek).
        exists p. split; [by left|]. split; [done|]. rewrite I2. subst s1. simpl. by rewrite Ek.
    - assert (∃ rm', update_one now (s0, rm) p = (s0, rm') ∧ (∀ x, x ∈ rm' → x.2 ≠ k) ∧
        ∀ x, x ∈ rm' → x ∈ rm ∨ x = (pr_id p, pr_key p)) as (rm' & E & R1 & R2).
      { unfold update_one. destruct (pr_times p) as [|t tl] eqn:Et.
        - exists (rm ++ [(pr_id p, pr_key p)]). split; [done|]. split.
          + intros x [Hx|Hx]%elem_of_app; [by apply Hrm|]. apply elem_of_list_singleton in Hx as ->. done.
          + intros x [Hx|Hx]%elem_of_app; [by left|]. apply elem_of_list_singleton in Hx. by right.
        - destruct (Z.ltb_spec now t).
          + exists rm. split; [done|]. split; [done|]. by left.
          + exfalso. apply (Ho (pr_key p) Ek). exists p, t, tl. done. }
      rewrite E. specialize (IH s0 rm' N2). destruct (fold_left (update_one now) l (s0, rm')) as [s2 rm2].
      destruct IH as [I1 I2].
      { intros q Hq'. apply Hl. by right. }
      { destruct Hq as [?|[? Hk]]; [by left|]. right. split; [done|]. intros ?. apply Hk. rewrite fmap_cons. by right. }
      { done. }
      split.
      + intros x Hx. destruct (I1 x Hx) as [? [Hx'|(q & ? & ?)]]; (split; [done|]).
        * destruct (R2 x Hx') as [?| ->]; [by left|]. right. exists p. split; [by left|done].
        * right. exists q. split; [by right|done].
      + destruct (decide (k ∈ pr_key <$> l)) as [D|D].
        * rewrite decide_True by (rewrite fmap_cons; by right). destruct I2 as (q & ? & ? & ?). exists q.
          split; [by right|done].
        * rewrite decide_False by (rewrite fmap_cons; by intros [?|?]%elem_of_cons). done. }
  specialize (H (ord (sc_procs s)) s [] (ord_keys _ _ _ I)).
  destruct (fold_left (update_one now) (ord (sc_procs s)) (s, [])) as [s1 rm1].
  destruct H as [H1 H2].
  { intros p Hp. by eapply ord_elem in Hp. }
  { by left. }
  { by intros x ?%elem_of_nil. }
  destruct Hd as (p & t & l & Hp & Ht & Hle).
  assert (pr_key p = k) as Hpk by (by destruct (i_key _ _ _ I _ _ Hp)).
  rewrite decide_True in H2.
  2: { apply elem_of_list_fmap. exists p. split; [done|]. apply (ord_elem due T); [done|]. by rewrite Hpk. }
  destruct H2 as (q & Hq1 & Hq2 & Hq3). exists (pr_id q).
  assert (∀ rm s0, (∀ x, x ∈ rm → x.2 ≠ k ∧ ∃ p, p ∈ ord (sc_procs s) ∧ x = (pr_id p, pr_key p)) →
     sc_queue s0 = [(pr_id q, k)] → sc_queue (fold_left remove_proc rm s0) = [(pr_id q, k)]) as Hrm.
  { induction rm as [|x rm IH]; intros s0 Hx H0; [done|]. simpl. apply IH; [intros; apply Hx; by right|].
    simpl. rewrite H0. simpl. destruct (Hx x) as (Hxk & p0 & Hp0 & ->); [by left|]. simpl in *.
    rewrite decide_False; [done|]. intros E. apply Hxk.
    apply (ord_elem due T) in Hp0; [|done]. apply (ord_elem due T) in Hq1; [|done].
    rewrite <-Hq2. symmetry. eapply (i_inj _ _ _ I _ _ q p0); done. }
  apply Hrm; [|done]. intros x Hx. destruct (H1 x Hx) as [? [?%elem_of_nil|?]]; done.
Qed.

Theorem C57_started_when_alone_partial (T : Z) (ops : list sop) (s : sched) xs (k : key) (nows : list (Z * bool)) (now : Z) (ok : bool) :
  clock_ok T ops → runs init ops = (s, xs) →
  sc_queue s = [] → Z.of_nat (length nows) = Z.max 0 (sc_counter s - 1) →
  due_at s now k → (∀ k', k' ≠ k → ¬ due_at s now k') →
  (runs s (((λ x, STick x.1 x.2) <$> nows) ++ [STick now ok])).2 = replicate (length nows) [] ++ [[k]].
Proof.
  intros Hc H Hq Hlen Hd Ho.
  destruct (runs_spec ops (λ _ _, False) T init s xs (inv_init _ _) Hc H) as ((due & T' & I) & _ & _).
  clear H Hc ops T xs. revert s Hq Hlen Hd Ho I. induction nows as [|[t b] nows IH]; intros s Hq Hlen Hd Ho I.
  - simpl. unfold run_new_jobs. destruct (Z.leb_spec (sc_counter s - 1) 0); [|simpl in Hlen; lia].
    set (s0 := Sched _ _ _ _). destruct (update_alone due T' s0 now k) as [i Hi].
    + destruct I as [A B C D]. by split.
    + done.
    + done.
    + done.
    + unfold run_front. rewrite Hi. done.
  - cbn [fmap list_fmap app length replicate Scheduler_Model.runs Scheduler_Model.step fst snd].
    change (length ((t, b) :: nows)) with (S (length nows)) in Hlen.
    unfold run_new_jobs. destruct (Z.leb_spec (sc_counter s - 1) 0); [lia|].
    set (s0 := Sched _ _ _ _). specialize (IH s0).
    destruct (runs s0 _) as [s2 xs2]. simpl in *. f_equal. apply IH.
    + done.
    + lia.
    + done.
    + done.
    + destruct I as [A B C D]. by split.
Qed.


(** The run times after a wake-up. *)
Definition upd (now : Z) (p : proc) : proc := Proc (pr_id p) (pr_key p) (drop_past now (pr_times p)).
Lemma update_fold_procs now : ∀ l s0 rm s1 rm1,
  NoDup (pr_key <$> l) → (∀ p, p ∈ l → sc_procs s0 !! pr_key p = Some p) →
  fold_left (update_one now) l (s0, rm) = (s1, rm1) →
  ∀ k, sc_procs s1 !! k = if decide (k ∈ pr_key <$> l) then upd now <$> sc_procs s0 !! k else sc_procs s0 !! k.
Proof.
  induction l as [|p l IH]; intros s0 rm s1 rm1 Hn Hl H k.
  { simpl in H. injection H as <- <-. done. }
  apply NoDup_cons in Hn as [N1 N2]. cbn [fold_left] in H.
  destruct (update_one now (s0, rm) p) as [s2 rm2] eqn:E.
  assert (sc_procs s0 !! pr_key p = Some p) as Hp by (apply Hl; by left).
  assert (sc_procs s2 = <[pr_key p := upd now p]> (sc_procs s0)) as E2.
  { unfold update_one in E. destruct p as [i kk times]. simpl in *. destruct times as [|t tl].
    - injection E as <- _. symmetry. by apply insert_id.
    - destruct (Z.ltb_spec now t).
      + injection E as <- _. symmetry. apply insert_id. rewrite Hp. unfold upd. simpl.
        destruct (Z.leb_spec t now); [lia|done].
      + injection E as <- _. done. }
  rewrite (IH s2 rm2 s1 rm1 N2) by
    (done || (intros q Hq; rewrite E2, lookup_insert_ne; [apply Hl; by right|];
              intros Heq; apply N1; rewrite Heq; by apply elem_of_list_fmap_1)).
  rewrite E2. destruct (decide (pr_key p = k)) as [<-|D].
  - rewrite decide_False by done. rewrite decide_True by (rewrite fmap_cons; by left).
    by rewrite lookup_insert, Hp.
  - rewrite lookup_insert_ne by done. destruct (decide (k ∈ pr_key <$> l)) as [D2|D2].
    + by rewrite decide_True by (rewrite fmap_cons; by right).
    + by rewrite decide_False by (rewrite fmap_cons; by intros [?|?]%elem_of_cons).
Qed.
Lemma fold_remove_procs rm : ∀ s k p, sc_procs (fold_left remove_proc rm s) !! k = Some p → sc_procs s !! k = Some p.
Proof.
  induction rm as [|x rm IH]; intros s k p H; [done|]. simpl in H. apply IH in H. simpl in H.
  by apply lookup_delete_Some in H as [_ ?].
Qed.
Lemma update_all_times due T s now k p :
  inv due T s → sc_procs (update_all ord now s) !! k = Some p →
  ∃ p0, sc_procs s !! k = Some p0 ∧ pr_times p = drop_past now (pr_times p0) ∧ pr_id p = pr_id p0.
Proof.
  intros I H. unfold update_all in H.
  destruct (fold_left (update_one now) (ord (sc_procs s)) (s, [])) as [s1 rm1] eqn:E.
  apply fold_remove_procs in H.
  assert (∀ q, q ∈ ord (sc_procs s) → sc_procs s !! pr_key q = Some q) as Hq by (intros q Hq; by eapply ord_elem in Hq).
  rewrite (update_fold_procs now _ s [] s1 rm1 (ord_keys _ _ _ I) Hq E) in H.
  destruct (decide _) as [D|D].
  - apply fmap_Some in H as (p0 & Hp & ->). eauto.
  - exfalso. apply D. destruct (i_key _ _ _ I _ _ H) as [Hk _]. apply elem_of_list_fmap. exists p. split; [done|].
    apply (ord_elem due T); [done|]. by rewrite Hk.
Qed.
End proofs.

(** Origins given on the command line (delayTimes is set to {0}): each is started
    immediately, in the given order. *)
Definition batch (l : list (key * Z * Z * bool)) : list sop :=
  concat ((λ x : key * Z * Z * bool, [SReset; SAdd x.1.1.1 x.1.1.2 x.1.2 x.2]) <$> l).
Lemma batch_step ord wakeup s due T k t0 now ok s1 x1 : (∀ m, ord m ≡ₚ (map_to_list m).*2) →
  inv due T s → sc_queue s = [] → (∀ k p, sc_procs s !! k = Some p → pr_times p = []) → T ≤ t0 ≤ now →
  add_process ord wakeup [0] k t0 now ok (Sched (sc_procs s) (sc_queue s) 0 (sc_next s)) = (s1, x1) →
  x1 = [k] ∧ sc_queue s1 = [] ∧ ∀ k' p, sc_procs s1 !! k' = Some p → pr_times p = [].
Proof.
  intros Hord I Hq Ht [Hc1 Hc2] E. set (s0 := Sched (sc_procs s) (sc_queue s) 0 (sc_next s)) in *.
  unfold add_process in E. cbn [fmap list_fmap] in E.
  set (s2 := match sc_procs s0 !! k with Some _ => _ | None => _ end) in E.
  assert (∃ p, sc_procs s2 = <[k := p]> (sc_procs s) ∧ pr_times p = [t0 + 0]) as (p & Hp & Hpt).
  { subst s2 s0. simpl. destruct (sc_procs s !! k); simpl; eauto. }
  assert (∃ due', inv due' T (Sched (sc_procs s2) (sc_queue s2) wakeup (sc_next s2))) as [due' I2].
  { destruct (inv_step ord Hord 100 [0] due T (Sched (sc_procs s) (sc_queue s) 100 (sc_next s)) (SAdd k t0 now ok)
      (fst (step ord 100 [0] (Sched (sc_procs s) (sc_queue s) 100 (sc_next s)) (SAdd k t0 now ok))) []) as (J & _ & _).
    { destruct I as [A B C D]; by split. }
    { done. }
    { simpl. unfold add_process. simpl. destruct (sc_procs s !! k); reflexivity. }
    exists (λ k' t, due k' t ∨ schedules [0] (SAdd k t0 now ok) k' t).
    simpl in J. unfold add_process in J. simpl in J. subst s2 s0. simpl. rewrite Hq in *.
    destruct (sc_procs s !! k) as [p0|]; simpl in *; destruct J as [A B C D]; simpl in *; split; simpl; try done;
      by intros ? ? ?%elem_of_nil. }
  assert (sc_queue s2 = []) as Hq2. { subst s2 s0. simpl. destruct (sc_procs s !! k); done. }
  assert (sc_counter s2 = 0) as Hc2'. { subst s2 s0. simpl. destruct (sc_procs s !! k); done. }
  unfold run_new_jobs in E. rewrite Hc2' in E. change (0 - 1 <=? 0) with true in E. cbv iota in E.
  set (s3 := Sched (sc_procs s2) (sc_queue s2) wakeup (sc_next s2)) in *.
  destruct (update_alone ord Hord due' T s3 now k I2) as [i Hi].
  { done. }
  { exists p, (t0 + 0), []. split; [subst s3; simpl; by rewrite Hp, lookup_insert|]. split; [done|]. lia. }
  { intros k' Hk (q & u & tl & Hq' & Hu & _). subst s3. simpl in Hq'. rewrite Hp, lookup_insert_ne in Hq' by done.
    apply Ht in Hq'. congruence. }
  assert (∀ k' q, sc_procs (update_all ord now s3) !! k' = Some q → pr_times q = []) as Hall.
  { intros k' q Hq'. destruct (update_all_times ord Hord due' T s3 now k' q I2 Hq') as (q0 & Hq0 & -> & _).
    subst s3. simpl in Hq0. rewrite Hp in Hq0. apply lookup_insert_Some in Hq0 as [[<- <-]|[_ Hq0]].
    - rewrite Hpt. simpl. destruct (Z.leb_spec (t0 + 0) now); [done|lia].
    - by rewrite (Ht _ _ Hq0). }
  unfold run_front in E. rewrite Hi in E. injection E as <- <-. split; [done|]. destruct ok; simpl.
  - split; [done|]. exact Hall.
  - split; [done|]. intros k' q [_ Hq']%lookup_delete_Some. by eapply Hall.
Qed.
Theorem C57_batch_all_started ord wakeup (T : Z) (l : list (key * Z * Z * bool)) :
  (∀ m, ord m ≡ₚ (map_to_list m).*2) → clock_ok T (batch l) →
  concat (runs ord wakeup [0] (init wakeup) (batch l)).2 = (λ x : key * Z * Z * bool, x.1.1.1) <$> l.
Proof.
  intros Hord. revert T. unfold batch.
  assert (∀ s due T, inv due T s → sc_queue s = [] → (∀ k p, sc_procs s !! k = Some p → pr_times p = []) →
    clock_ok T (batch l) → concat (runs ord wakeup [0] s (batch l)).2 = (λ x : key * Z * Z * bool, x.1.1.1) <$> l) as H.
  { induction l as [|[[[k t0] now] ok] l IH]; intros s due T I Hq Ht Hc; [done|].
    unfold batch in *. cbn [fmap list_fmap concat app fst snd] in *.
    cbn [runs step]. destruct Hc as (_ & [Hc1 Hc2] & Hc3). cbn [now_of] in *.
    set (s0 := Sched (sc_procs s) (sc_queue s) 0 (sc_next s)).
    assert (inv due T s0) as I0 by (destruct I as [A B C D]; by split).
    destruct (add_process ord wakeup [0] k t0 now ok s0) as [s1 x1] eqn:E.
    destruct (inv_step ord Hord wakeup [0] due T s0 (SAdd k t0 now ok) s1 x1 I0) as (I1 & _ & _); [done|done|].
    assert (x1 = [k] ∧ sc_queue s1 = [] ∧ ∀ k' p, sc_procs s1 !! k' = Some p → pr_times p = []) as (-> & Hq1 & Ht1).
    { eapply batch_step; [done|exact I|done|done|split; [exact Hc1|exact Hc2]|exact E]. }
    specialize (IH s1 _ now I1 Hq1 Ht1 Hc3). destruct (runs ord wakeup [0] s1 _) as [s4 xs4]. simpl in *. by rewrite IH. }
  intros T Hc. apply (H (init wakeup) (λ _ _, False) T); [apply inv_init|done| |done].
  intros k p Hp. simpl in Hp. by rewrite lookup_empty in Hp.
Qed.

Print Assumptions C56_never_early.
Print Assumptions C56_no_duplicates.
Print Assumptions C57_started_when_alone_partial.
Print Assumptions C57_batch_all_started.

(** ** Counterexamples and instances *)
Definition ord0 (m : gmap key proc) : list proc := (map_to_list m).*2.
(** Two objects scheduled for the same time; wake-up at every tick. *)
Definition two_due : list sop :=
  [SAdd 1 0 0 true; SAdd 2 0 0 true; STick 20 true; STick 21 true].
Definition lost_test : bool :=
  let '(s, xs) := runs ord0 1 [20] (init 1) two_due in
  match map_to_list (sc_procs s), sc_queue s with
  | [], [] => match concat xs with [k] => true | _ => false end
  | _, _ => false
  end.
Lemma lost_test_true : lost_test = true.
Proof. vm_compute. reflexivity. Qed.
Lemma idle_ticks (ticks : list (Z * bool)) : ∀ s, sc_procs s = ∅ → sc_queue s = [] →
  concat (runs ord0 1 [20] s ((λ x, STick x.1 x.2) <$> ticks)).2 = [].
Proof.
  induction ticks as [|[t b] ticks IH]; intros s Hs Hq; [done|]. cbn [fmap list_fmap runs step fst snd].
  unfold run_new_jobs. destruct (sc_counter s - 1 <=? 0).
  - rewrite Hs, Hq.
    assert (∀ n, update_all ord0 t (Sched ∅ [] 1 n) = Sched ∅ [] 1 n) as ->.
    { intros n. unfold update_all, ord0. cbn [sc_procs]. rewrite map_to_list_empty. done. }
    unfold run_front. cbn [sc_queue].
    match goal with |- context [runs ord0 1 [20] ?s2 _] => set (s1 := s2) end.
    specialize (IH s1 eq_refl eq_refl). destruct (runs ord0 1 [20] s1 _). done.
  - set (s1 := Sched _ _ _ _). specialize (IH s1 Hs Hq). destruct (runs ord0 1 [20] s1 _). done.
Qed.
Lemma runs_app ord w d ops ops' : ∀ s, (runs ord w d s (ops ++ ops')).2 =
  (runs ord w d s ops).2 ++ (runs ord w d (runs ord w d s ops).1 ops').2.
Proof.
  induction ops as [|o ops IH]; intros s; [done|]. cbn [app runs]. destruct (step ord w d s o) as [s1 x].
  specialize (IH s1). destruct (runs ord w d s1 (ops ++ ops')) as [a b]. destruct (runs ord w d s1 ops) as [a' b'].
  simpl in *. by rewrite IH.
Qed.
(** C57 is false: of two jobs due in the same wake-up only one is ever started, no
    matter how long the timer goes on. *)
Theorem C57_every_due_job_refuted :
  ∃ ops, clock_ok 0 ops ∧ ops !! 0%nat = Some (SAdd 1 0 0 true) ∧ ops !! 1%nat = Some (SAdd 2 0 0 true) ∧
    ∃ k, ∀ ticks : list (Z * bool),
      concat (runs ord0 1 [20] (init 1) (ops ++ ((λ x, STick x.1 x.2) <$> ticks))).2 = [k].
Proof.
  exists two_due. split; [vm_compute; intuition discriminate|]. split; [done|]. split; [done|].
  pose proof lost_test_true as H. unfold lost_test in H.
  destruct (runs ord0 1 [20] (init 1) two_due) as [s xs] eqn:E.
  destruct (map_to_list (sc_procs s)) eqn:E1; [|done]. destruct (sc_queue s) eqn:E2; [|done].
  destruct (concat xs) as [|k [|]] eqn:E3; [done| |done].
  exists k. intros ticks. rewrite runs_app, E. cbn [fst snd]. rewrite concat_app, E3.
  rewrite idle_ticks; [done| |done]. by apply map_to_list_empty_iff.
Qed.
Print Assumptions C57_every_due_job_refuted.

(** A job left in the queue is started although the last update of its object has
    postponed it. *)
Definition postponed : list sop := [SAdd 1 0 0 true; SAdd 2 0 0 true; STick 20 true; SAdd 2 20 20 true].
Lemma postponed_run : (runs ord0 1 [20] (init 1) postponed).2 = [[]; []; [1%N]; [2%N]].
Proof. vm_compute. reflexivity. Qed.
Theorem C56_last_update_refuted :
  ∃ ops xs i k, clock_ok 0 ops ∧ (runs ord0 1 [20] (init 1) ops).2 = xs ∧
    ops !! i = Some (SAdd k 20 20 true) ∧ (∃ x, xs !! i = Some x ∧ k ∈ x) ∧
    ∀ d, d ∈ [20] → time_at 0 ops i < 20 + d.
Proof.
  exists postponed, [[]; []; [1%N]; [2%N]], 3%nat, 2%N. split; [vm_compute; intuition discriminate|].
  split; [apply postponed_run|]. split; [done|]. split.
  - exists [2%N]. split; [done|]. by left.
  - intros d ->%elem_of_list_singleton. done.
Qed.
Print Assumptions C56_last_update_refuted.

(** Instances: a run with two starts; a job due alone. *)
Definition ex_ops : list sop := [SAdd 1 0 0 true; STick 20 true; SAdd 2 21 21 false; STick 50 false].
Example ex_run : clock_ok 0 ex_ops ∧ (runs ord0 1 [20] (init 1) ex_ops).2 = [[]; [1%N]; []; [2%N]].
Proof. split; [vm_compute; intuition discriminate|]. vm_compute. reflexivity. Qed.
Example ex_alone : let s := (runs ord0 3 [20] (init 3) [SAdd 1 0 0 true; STick 1 true]).1 in
  sc_queue s = [] ∧ sc_counter s = 1 ∧ sc_procs s !! 1%N = Some (Proc 0 1 [20]).
Proof. vm_compute. done. Qed.
Example ex_batch : clock_ok 0 (batch [(1%N, 0, 0, true); (2%N, 1, 2, false); (1%N, 3, 3, true)]).
Proof. vm_compute. intuition discriminate. Qed.
