(** Theorems about Neighbours objects and pair files: C34. *)
From Coq Require Import Ascii.
From stdpp Require Import gmap list strings.
From Verif Require Import Index_Model Csv_Model Csv_Props Table_Model Table_Proofs Catalog_Model Catalog_Props Neighbours_Model.
Local Open Scope nat_scope.

(** ** Specification: a set of (event, station, phase type) *)
Notation triple := (N * text * text)%type.
Inductive nop := OAdd (k : N) (sta ph : text) | ORemove (k : N).
Definition spec_op (S0 : gset triple) (o : nop) : gset triple :=
  match o with
  | OAdd k sta ph => {[ (k, sta, ph) ]} ∪ S0
  | ORemove k => filter (λ x, x.1.1 ≠ k) S0
  end.
Definition run_op (n : neigh) (o : nop) : neigh :=
  match o with OAdd k sta ph => n_add n k sta ph | ORemove k => n_remove n k end.
Definition spec_run (ops : list nop) : gset triple := fold_left spec_op ops ∅.
Definition run (ref : N) (ops : list nop) : neigh := fold_left run_op ops (Neigh ref ∅).

Definition inn (n : neigh) (k : N) (sta ph : text) : Prop :=
  ∃ inner s, n_map n !! k = Some inner ∧ inner !! ph = Some s ∧ sta ∈ s.
(** No empty inner maps or sets. *)
Definition nwf (n : neigh) : Prop :=
  ∀ k inner, n_map n !! k = Some inner → inner ≠ ∅ ∧ ∀ ph s, inner !! ph = Some s → s ≠ ∅.

Lemma inn_add n k sta ph k' sta' ph' :
  inn (n_add n k sta ph) k' sta' ph' ↔ (k', sta', ph') = (k, sta, ph) ∨ inn n k' sta' ph'.
Proof.
  unfold inn, n_add. simpl. destruct (decide (k' = k)) as [->|D].
  - setoid_rewrite lookup_insert. split.
    + intros (inner & s & [= <-] & H2 & H3). destruct (decide (ph' = ph)) as [->|Dp].
      * rewrite lookup_insert in H2. injection H2 as <-. apply elem_of_union in H3 as [H3|H3].
        -- left. apply elem_of_singleton in H3. by subst.
        -- right. destruct (n_map n !! k) as [inn0|] eqn:E; simpl in H3.
           ++ destruct (inn0 !! ph) as [s0|] eqn:E2; simpl in H3; [eauto 6|by apply not_elem_of_empty in H3].
           ++ rewrite lookup_empty in H3. simpl in H3. by apply not_elem_of_empty in H3.
      * rewrite lookup_insert_ne in H2 by done. right. destruct (n_map n !! k) as [inn0|] eqn:E; simpl in H2; [eauto 6|].
        by rewrite lookup_empty in H2.
    + intros [[= -> ->]|(inner & s & H1 & H2 & H3)].
      * eexists _, _. split; [done|]. rewrite lookup_insert. split; [done|]. by apply elem_of_union_l, elem_of_singleton.
      * rewrite H1. simpl. destruct (decide (ph' = ph)) as [->|Dp].
        -- eexists _, _. split; [done|]. rewrite lookup_insert, H2. split; [done|]. simpl. by apply elem_of_union_r.
        -- eexists _, s. split; [done|]. by rewrite lookup_insert_ne.
  - setoid_rewrite lookup_insert_ne; [|done..]. split; [by right|]. intros [[= -> -> ->]|H]; done.
Qed.
Lemma nwf_add n k sta ph : nwf n → nwf (n_add n k sta ph).
Proof.
  intros W k' inner H. unfold n_add in H. simpl in H. apply lookup_insert_Some in H as [[<- <-]|[_ H]]; [|by eapply W].
  split; [apply insert_non_empty|]. intros ph' s Hs. apply lookup_insert_Some in Hs as [[<- <-]|[_ Hs]].
  - intros E. apply (not_elem_of_empty (C := gset text) sta). rewrite <-E. by apply elem_of_union_l, elem_of_singleton.
  - destruct (n_map n !! k) as [inn0|] eqn:E; simpl in Hs; [by eapply W|by rewrite lookup_empty in Hs].
Qed.
Lemma inn_remove n k k' sta ph : inn (n_remove n k) k' sta ph ↔ k' ≠ k ∧ inn n k' sta ph.
Proof.
  unfold inn, n_remove. simpl. split.
  - intros (inner & s & H & H2 & H3). apply lookup_delete_Some in H as [H0 H]. split; [done|]. eauto 6.
  - intros (H0 & inner & s & H & H2 & H3). exists inner, s. split; [|done]. by rewrite lookup_delete_ne.
Qed.
Lemma nwf_remove n k : nwf n → nwf (n_remove n k).
Proof. intros W k' inner H. simpl in H. apply lookup_delete_Some in H as [_ H]. by eapply W. Qed.

Lemma has_ph_inn n k sta ph : n_has_ph n k sta ph = true ↔ inn n k sta ph.
Proof.
  unfold n_has_ph, inn. split.
  - destruct (n_map n !! k) as [inner|] eqn:E; [|done]. destruct (inner !! ph) as [s|] eqn:E2; [|done].
    rewrite bool_decide_eq_true. eauto 6.
  - intros (inner & s & -> & -> & H). by apply bool_decide_eq_true.
Qed.
Lemma has_sta_inn n k sta : n_has_sta n k sta = true ↔ ∃ ph, inn n k sta ph.
Proof.
  unfold n_has_sta, inn. split.
  - destruct (n_map n !! k) as [inner|] eqn:E; [|done]. rewrite existsb_exists.
    intros ([ph s] & H1 & H2). apply elem_of_list_In, elem_of_map_to_list in H1.
    apply bool_decide_eq_true in H2. eauto 8.
  - intros (ph & inner & s & -> & H2 & H3). apply existsb_exists. exists (ph, s).
    split; [by apply elem_of_list_In, elem_of_map_to_list|]. by apply bool_decide_eq_true.
Qed.
Lemma ids_inn n k : nwf n → k ∈ n_ids n ↔ ∃ sta ph, inn n k sta ph.
Proof.
  intros W. unfold n_ids. rewrite elem_of_dom. split.
  - intros [inner H]. destruct (W k inner H) as [W1 W2]. apply map_choose in W1 as (ph & s & Hs).
    destruct (set_choose_L s) as [sta Hsta]; [by eapply W2|]. unfold inn. eauto 8.
  - intros (sta & ph & inner & s & H & _). eauto.
Qed.
Lemma elem_of_inner_phases inner sta ph :
  (sta, ph) ∈ inner_phases inner ↔ ∃ s, inner !! ph = Some s ∧ sta ∈ s.
Proof.
  unfold inner_phases. rewrite elem_of_list_bind. split.
  - intros ([ph' s] & H1 & H2). apply elem_of_map_to_list in H2. apply elem_of_list_fmap in H1 as (x & E & Hx).
    injection E as -> ->. apply elem_of_elements in Hx. eauto.
  - intros (s & H1 & H2). exists (ph, s). split; [|by apply elem_of_map_to_list].
    apply elem_of_list_fmap. exists sta. split; [done|]. by apply elem_of_elements.
Qed.
Lemma elem_of_n_phases n sta ph k : (sta, ph, k) ∈ n_phases n ↔ inn n k sta ph.
Proof.
  unfold n_phases, inn. rewrite elem_of_list_bind. split.
  - intros ([k' inner] & H1 & H2). apply elem_of_map_to_list in H2. apply elem_of_list_fmap in H1 as (x & E & Hx).
    injection E as <- <-. apply elem_of_inner_phases in Hx as (s & ? & ?). eauto 6.
  - intros (inner & s & H1 & H2 & H3). exists (k, inner). split; [|by apply elem_of_map_to_list].
    apply elem_of_list_fmap. exists (sta, ph). split; [done|]. apply elem_of_inner_phases. eauto.
Qed.
Lemma NoDup_bind {A B} (f : A → list B) (l : list A) :
  NoDup l → (∀ x, x ∈ l → NoDup (f x)) → (∀ x y b, x ∈ l → y ∈ l → b ∈ f x → b ∈ f y → x = y) →
  NoDup (l ≫= f).
Proof.
  induction l as [|x l IH]; intros Hn H1 H2; [constructor|]. apply NoDup_cons in Hn as [Hx Hn].
  rewrite bind_cons. apply NoDup_app. split; [apply H1; by left|]. split.
  - intros b Hb Hb'. apply elem_of_list_bind in Hb' as (y & Hy & Hyl).
    assert (x = y) as -> by (eapply (H2 x y b); [by left|by right|done|done]). done.
  - apply IH; [done|intros; apply H1; by right|]. intros y z b Hy Hz. apply H2; by right.
Qed.
Lemma NoDup_inner_phases inner : NoDup (inner_phases inner).
Proof.
  unfold inner_phases. apply NoDup_bind.
  - apply NoDup_map_to_list.
  - intros [ph s] _. apply NoDup_fmap_2; [|apply NoDup_elements]. intros x y E. by injection E.
  - intros [ph s] [ph' s'] [st p] H1 H2 H3 H4. apply elem_of_map_to_list in H1, H2.
    apply elem_of_list_fmap in H3 as (? & E3 & _), H4 as (? & E4 & _). simplify_eq. done.
Qed.
Lemma NoDup_n_phases n : NoDup (n_phases n).
Proof.
  unfold n_phases. apply NoDup_bind.
  - apply NoDup_map_to_list.
  - intros [k inner] _. apply NoDup_fmap_2; [|apply NoDup_inner_phases]. intros x y E. by injection E.
  - intros [k s] [k' s'] [x p] H1 H2 H3 H4. apply elem_of_map_to_list in H1, H2.
    apply elem_of_list_fmap in H3 as (? & E3 & _), H4 as (? & E4 & _). simplify_eq. done.
Qed.

Lemma run_spec ref ops :
  n_ref (run ref ops) = ref ∧ nwf (run ref ops) ∧
  ∀ k sta ph, inn (run ref ops) k sta ph ↔ (k, sta, ph) ∈ spec_run ops.
Proof.
  unfold run, spec_run.
  assert (∀ n S0, n_ref n = ref → nwf n → (∀ k sta ph, inn n k sta ph ↔ (k, sta, ph) ∈ S0) →
    n_ref (fold_left run_op ops n) = ref ∧ nwf (fold_left run_op ops n) ∧
    ∀ k sta ph, inn (fold_left run_op ops n) k sta ph ↔ (k, sta, ph) ∈ fold_left spec_op ops S0) as H.
  { induction ops as [|o ops IH]; intros n S0 H1 H2 H3; [done|]. simpl. apply IH.
    - destruct o; done.
    - destruct o; [by apply nwf_add|by apply nwf_remove].
    - intros k' sta' ph'. destruct o as [k sta ph|k]; simpl.
      + rewrite inn_add, H3, elem_of_union, elem_of_singleton. done.
      + rewrite inn_remove, H3, elem_of_filter. done. }
  apply H; [done| |].
  - intros k inner E. simpl in E. by rewrite lookup_empty in E.
  - intros k sta ph. split; [|by intros ?%not_elem_of_empty].
    intros (inner & s & E & _). simpl in E. by rewrite lookup_empty in E.
Qed.

(** C34, first part: after any sequence of operations all observers agree with the
    set of triples. *)
Theorem C34_set_of_triples (ref : N) (ops : list nop) :
  let n := run ref ops in let S0 := spec_run ops in
  n_ref n = ref ∧
  (∀ k sta ph, n_has_ph n k sta ph = true ↔ (k, sta, ph) ∈ S0) ∧
  (∀ k sta, n_has_sta n k sta = true ↔ ∃ ph, (k, sta, ph) ∈ S0) ∧
  (∀ k, n_has n k = true ↔ ∃ sta ph, (k, sta, ph) ∈ S0) ∧
  (∀ k, k ∈ n_ids n ↔ ∃ sta ph, (k, sta, ph) ∈ S0) ∧
  n_amount n = size (set_map (λ x : triple, x.1.1) S0 : gset N) ∧
  n_phases n ≡ₚ (λ x : triple, (x.1.2, x.2, x.1.1)) <$> elements S0 ∧
  (∀ k, NoDup (n_phases_of n k) ∧ ∀ sta ph, (sta, ph) ∈ n_phases_of n k ↔ (k, sta, ph) ∈ S0) ∧
  (∀ sta, sta ∈ n_stations n ↔ ∃ k ph, (k, sta, ph) ∈ S0).
Proof.
  intros n S0. destruct (run_spec ref ops) as (H1 & W & H). fold n S0 in H1, W, H.
  assert (∀ k, k ∈ n_ids n ↔ ∃ sta ph, (k, sta, ph) ∈ S0) as Hids.
  { intros k. rewrite ids_inn by done. by setoid_rewrite H. }
  split; [done|]. split; [intros; by rewrite has_ph_inn|].
  split; [intros; rewrite has_sta_inn; by setoid_rewrite H|].
  split. { intros k. unfold n_has. rewrite bool_decide_eq_true, <-elem_of_dom. apply Hids. }
  split; [done|]. split.
  { unfold n_amount. rewrite <-size_dom. f_equal. apply set_eq. intros k. fold (n_ids n). rewrite Hids, elem_of_map.
    split.
    - intros (sta & ph & Hx). by exists (k, sta, ph).
    - intros ([[k' sta] ph] & -> & Hx). eauto. }
  split.
  { apply NoDup_Permutation; [apply NoDup_n_phases| |].
    - apply NoDup_fmap_2; [|apply NoDup_elements]. intros [[a b] d] [[a' b'] d'] E. by injection E as -> -> ->.
    - intros [[sta ph] k]. rewrite elem_of_n_phases, H, elem_of_list_fmap. split.
      + intros Hx. exists (k, sta, ph). split; [done|]. by apply elem_of_elements.
      + intros ([[a b] d] & E & Hx). injection E as -> -> ->. by apply elem_of_elements in Hx. }
  split.
  { intros k. unfold n_phases_of. split.
    - destruct (n_map n !! k); [apply NoDup_inner_phases|constructor].
    - intros sta ph. rewrite <-H. unfold inn. destruct (n_map n !! k) as [inner|] eqn:E.
      + rewrite elem_of_inner_phases. split.
        * intros (s & ? & ?). eauto.
        * intros (inner' & s & [= <-] & ? & ?). eauto.
      + split; [by intros ?%elem_of_nil|]. by intros (? & ? & ? & _). }
  intros sta. unfold n_stations. rewrite elem_of_list_to_set, elem_of_list_fmap. split.
  - intros ([[a b] k] & -> & Hx). apply elem_of_n_phases, H in Hx. eauto.
  - intros (k & ph & Hx). exists (sta, ph, k). split; [done|]. by apply elem_of_n_phases, H.
Qed.
Print Assumptions C34_set_of_triples.

(** ** Pair files *)
Section files.
Context {V : Type} (ord : neigh → list (text * text * N)).
(** The elements are written in any order. *)
Hypothesis Hord : ∀ n, ord n ≡ₚ n_phases n.

(** Writing throws exactly if a station is unknown to the catalog. *)
Theorem C34_write_defined (c : catalog V) (ns : list neigh) :
  ns ≠ [] →
  (∃ s, write_neighs ord c ns = WFile s) ↔
  (∀ n k sta ph, n ∈ ns → inn n k sta ph → is_Some (c_sta c !! sta)).
Proof.
  intros Hne. assert (is_Some (mapM (neigh_rows ord c) ns) ↔
    (∀ n k sta ph, n ∈ ns → inn n k sta ph → is_Some (c_sta c !! sta))) as H.
  { rewrite mapM_is_Some. rewrite Forall_forall. unfold neigh_rows. split.
    - intros Hx n k sta ph Hn Hi. specialize (Hx n Hn). apply (mapM_is_Some_1 (entry_row c (n_ref n))) in Hx. rewrite Forall_forall in Hx.
      specialize (Hx (sta, ph, k)). rewrite Hord, elem_of_n_phases in Hx. destruct (Hx Hi) as [y Hy].
      unfold entry_row in Hy. destruct (c_sta c !! sta); [eauto|done].
    - intros Hx n Hn. apply (mapM_is_Some_2 (entry_row c (n_ref n))). rewrite Forall_forall.
 intros [[sta ph] k] Hi.
      rewrite Hord, elem_of_n_phases in Hi. destruct (Hx n k sta ph Hn Hi) as [y Hy].
      unfold compose, entry_row. rewrite Hy. simpl. eauto. }
  rewrite <-H. unfold write_neighs. destruct ns as [|n ns]; [done|].
  destruct (mapM (neigh_rows ord c) (n :: ns)) as [rows|]; split.
  - eauto.
  - eauto.
  - by intros [s ?].
  - by intros [? ?].
Qed.

Definition in_map (m : gmap N neigh) (ref k : N) (sta ph : text) : Prop := ∃ n, m !! ref = Some n ∧ inn n k sta ph.

Lemma ensure_lookup m k r :
  ensure m k !! r = if decide (r = k) then Some (default (Neigh k ∅) (m !! k)) else m !! r.
Proof.
  unfold ensure. destruct (m !! k) as [n|] eqn:E; case_decide as D; try (subst r); simpl; try done.
  - by rewrite lookup_insert.
  - by rewrite lookup_insert_ne.
Qed.
Lemma inn_fresh k k' sta ph : ¬ inn (Neigh k ∅) k' sta ph.
Proof. intros (inner & s & E & _). simpl in E. by rewrite lookup_empty in E. Qed.
Lemma in_map_ensure m k ref k' sta ph : in_map (ensure m k) ref k' sta ph ↔ in_map m ref k' sta ph.
Proof.
  unfold in_map. rewrite ensure_lookup. case_decide as D; [|done]. subst ref.
  destruct (m !! k) as [n|]; simpl; [done|]. split.
  - intros (n & [= <-] & H). by apply inn_fresh in H.
  - by intros (n & ? & _).
Qed.
Definition refs_ok (m : gmap N neigh) : Prop := ∀ r n, m !! r = Some n → n_ref n = r.
Lemma refs_ok_ensure m k : refs_ok m → refs_ok (ensure m k).
Proof.
  intros H r n. rewrite ensure_lookup. case_decide as D; [|by apply H]. subst r.
  destruct (m !! k) as [n0|] eqn:E; simpl; intros [= <-]; [by apply H|done].
Qed.
Lemma record_pair_spec m ev1 ev2 sid ph :
  refs_ok m →
  refs_ok (record_pair m ev1 ev2 sid ph) ∧
  (∀ r, is_Some (record_pair m ev1 ev2 sid ph !! r) ↔ r = ev1 ∨ r = ev2 ∨ is_Some (m !! r)) ∧
  (∀ r k sta p, in_map (record_pair m ev1 ev2 sid ph) r k sta p ↔
     (r, k, sta, p) = (ev1, ev2, sid, ph) ∨ in_map m r k sta p).
Proof.
  intros Hr. unfold record_pair. set (m2 := ensure (ensure m ev1) ev2).
  assert (refs_ok m2) as Hr2 by (by apply refs_ok_ensure, refs_ok_ensure).
  assert (∀ r, is_Some (m2 !! r) ↔ r = ev1 ∨ r = ev2 ∨ is_Some (m !! r)) as Hd.
  { intros r. subst m2. rewrite ensure_lookup. case_decide as D.
    - subst r. split; [by right; left|eauto].
    - rewrite ensure_lookup. case_decide as D2.
      + subst r. split; [by left|eauto].
      + split; [by right; right|]. by intros [?|[?|?]]. }
  assert (∀ r k sta p, in_map m2 r k sta p ↔ in_map m r k sta p) as Hi.
  { intros. subst m2. by rewrite !in_map_ensure. }
  destruct (m2 !! ev1) as [n|] eqn:E.
  2: { exfalso. assert (is_Some (m2 !! ev1)) as [? ?] by (apply Hd; by left). congruence. }
  split; [|split].
  - intros r n0. rewrite lookup_insert_Some. intros [[<- <-]|[_ H]]; [|by apply Hr2].
    simpl. by apply Hr2.
  - intros r. rewrite lookup_insert_is_Some'. rewrite Hd. naive_solver.
  - intros r k sta p. unfold in_map at 1. destruct (decide (r = ev1)) as [->|D].
    + rewrite lookup_insert. split.
      * intros (n0 & [= <-] & H). apply inn_add in H as [H|H]; [left; congruence|].
        right. apply Hi. unfold in_map. eauto.
      * intros [H|H].
        -- eexists. split; [done|]. apply inn_add. left. congruence.
        -- apply Hi in H as (n0 & H1 & H2). assert (n0 = n) as -> by congruence.
           eexists. split; [done|]. apply inn_add. by right.
    + rewrite lookup_insert_ne by done. change (in_map m2 r k sta p ↔ (r, k, sta, p) = (ev1, ev2, sid, ph) ∨ in_map m r k sta p).
      rewrite Hi. split; [by right|]. intros [[= -> _ _ _]|?]; done.
Qed.

(** Fields that can be written without quotes. *)
Definition codes_plain (c : catalog V) : Prop :=
  ∀ i s, c_sta c !! i = Some s → plain (s_net s) ∧ plain (s_sta s) ∧ plain (s_loc s).

Lemma neigh_header_plain : plain_row neigh_header.
Proof.
  split; [done|]. split; [|intros t [= <-]; vm_compute; discriminate].
  unfold neigh_header. repeat (apply Forall_cons; split); try constructor;
    apply (bool_decide_unpack _); vm_compute; exact I.
Qed.
Lemma neigh_header_NoDup : NoDup neigh_header.
Proof. apply (bool_decide_unpack _). vm_compute. exact I. Qed.

Lemma read_row_entry (c : catalog V) m ref sta ph k row :
  integrity c → (ref < 2 ^ 32)%N → (k < 2 ^ 32)%N →
  entry_row c ref (sta, ph, k) = Some row →
  read_row c m (format_row neigh_header row) = ROk (record_pair m ref k sta ph).
Proof.
  intros I H1 H2 H. unfold entry_row in H. destruct (c_sta c !! sta) as [s|] eqn:E; [|done].
  simpl in H. injection H as <-. unfold read_row, cell.
  rewrite (format_row_at neigh_header _ 0 _ neigh_header_NoDup eq_refl).
  rewrite (format_row_at neigh_header _ 1 _ neigh_header_NoDup eq_refl).
  rewrite (format_row_at neigh_header _ 2 _ neigh_header_NoDup eq_refl).
  rewrite (format_row_at neigh_header _ 3 _ neigh_header_NoDup eq_refl).
  rewrite (format_row_at neigh_header _ 4 _ neigh_header_NoDup eq_refl).
  rewrite (format_row_at neigh_header _ 5 _ neigh_header_NoDup eq_refl).
  cbn [nth mbind option_bind]. rewrite !stoul_put_u by lia.
  destruct (in_sta _ I _ _ E) as [S1 S2]. unfold search_station. fold (sta_id s). rewrite S2, E, S1.
  unfold u32. rewrite !N.mod_small by lia. done.
Qed.

(** C34, second part: reading the file gives exactly the triples written, and an
    entry for every event that occurs in a pair. *)
Theorem C34_pair_file_roundtrip (c : catalog V) (ns : list neigh) (s : text) :
  integrity c → codes_plain c →
  (∀ n k sta ph, n ∈ ns → inn n k sta ph → plain_last ph ∧ (n_ref n < 2 ^ 32)%N ∧ (k < 2 ^ 32)%N) →
  write_neighs ord c ns = WFile s →
  ∃ m, read_neighs c s = ROk m ∧ refs_ok m ∧
    (∀ ref k sta ph, in_map m ref k sta ph ↔ ∃ n, n ∈ ns ∧ n_ref n = ref ∧ inn n k sta ph) ∧
    (∀ r, is_Some (m !! r) ↔ ∃ n k sta ph, n ∈ ns ∧ inn n k sta ph ∧ (r = n_ref n ∨ r = k)).
Proof.
  intros I Hc Hp H. unfold write_neighs in H. destruct ns as [|n0 ns0]; [done|].
  remember (n0 :: ns0) as ns eqn:Ens. clear Ens n0 ns0.
  destruct (mapM (neigh_rows ord c) ns) as [rows|] eqn:Em; [|done]. injection H as <-.
  apply mapM_Some in Em.
  (* all entries, flattened *)
  set (ents := n ← ns; (λ x, (n_ref n, x)) <$> ord n).
  assert (Forall2 (λ (x : N * (text * text * N)) r, entry_row c x.1 x.2 = Some r) ents (concat rows)) as Hents.
  { subst ents. clear -Em. induction Em as [|n r ns rows Hn Em IH]; [constructor|].
    rewrite bind_cons. simpl. apply Forall2_app; [|exact IH].
    unfold neigh_rows in Hn. apply mapM_Some in Hn. apply Forall2_fmap_l.
    eapply Forall2_impl; [exact Hn|]. done. }
  assert (∀ ref sta ph k, (ref, (sta, ph, k)) ∈ ents ↔ ∃ n, n ∈ ns ∧ n_ref n = ref ∧ inn n k sta ph) as Hmem.
  { intros ref sta ph k. subst ents. rewrite elem_of_list_bind. split.
    - intros (n & Hx & Hn). apply elem_of_list_fmap in Hx as (y & E & Hy). injection E as -> <-.
      rewrite Hord, elem_of_n_phases in Hy. eauto.
    - intros (n & Hn & <- & Hi). exists n. split; [|done]. apply elem_of_list_fmap. exists (sta, ph, k).
      split; [done|]. by rewrite Hord, elem_of_n_phases. }
  assert (Forall plain_row (neigh_header :: concat rows)) as Hplain.
  { apply Forall_cons. split; [apply neigh_header_plain|].
    rewrite Forall_forall. intros row Hrow. apply elem_of_list_lookup in Hrow as [i Hi].
    destruct (Forall2_lookup_r _ _ _ _ _ Hents Hi) as ([ref [[sta ph] k]] & He & Hr). simpl in Hr.
    apply elem_of_list_lookup_2 in He. apply Hmem in He as (n & Hn & <- & Hin).
    destruct (Hp n k sta ph Hn Hin) as ([P1 P2] & _).
    destruct (c_sta c !! sta) as [s|] eqn:E; [|done]. simpl in Hr. injection Hr as <-.
    destruct (Hc _ _ E) as (Q1 & Q2 & Q3). split; [done|]. split; [|intros t [= <-]; done].
    repeat (apply Forall_cons; split; [first [done|apply put_u_plain]|]). constructor. }
  unfold read_neighs. rewrite read_back by done.
  assert (∀ ents rows m, Forall2 (λ (x : N * (text * text * N)) r, entry_row c x.1 x.2 = Some r) ents rows →
    (∀ ref sta ph k, (ref, (sta, ph, k)) ∈ ents → (ref < 2 ^ 32)%N ∧ (k < 2 ^ 32)%N) → refs_ok m →
    ∃ m', read_rows c m (format_row neigh_header <$> rows) = ROk m' ∧ refs_ok m' ∧
     (∀ ref k sta ph, in_map m' ref k sta ph ↔ (ref, (sta, ph, k)) ∈ ents ∨ in_map m ref k sta ph) ∧
     (∀ r, is_Some (m' !! r) ↔ (∃ ref sta ph k, (ref, (sta, ph, k)) ∈ ents ∧ (r = ref ∨ r = k)) ∨ is_Some (m !! r))) as Hread.
  { clear -I. intros ents rows m HF. revert m. induction HF as [|[ref [[sta ph] k]] row ents rows Hr HF IH]; intros m Hb Hm.
    - exists m. split; [done|]. split; [done|]. split.
      + intros. split; [by right|]. intros [?%elem_of_nil|?]; done.
      + intros r. split; [by right|]. intros [(?&?&?&?&?%elem_of_nil&_)|?]; done.
    - rewrite fmap_cons. cbn [read_rows].
      destruct (Hb ref sta ph k) as [B1 B2]; [by left|].
      rewrite (read_row_entry c m ref sta ph k row I B1 B2 Hr).
      destruct (record_pair_spec m ref k sta ph Hm) as (R1 & R2 & R3).
      destruct (IH (record_pair m ref k sta ph)) as (m' & E & H1 & H2 & H3);
        [intros; eapply Hb; by right|done|].
      exists m'. split; [done|]. split; [done|]. split.
      + intros ref' k' sta' ph'. rewrite H2, R3, elem_of_cons. 
        split; intros [?|[?|?]] || intros [[?|?]|?]; naive_solver.
      + intros r. rewrite H3, R2. split.
        * intros [(a & b & d & e & Hin & Hor)|[->|[->|Hs]]].
          -- left. exists a, b, d, e. split; [by right|done].
          -- left. exists ref, sta, ph, k. split; [by left|by left].
          -- left. exists ref, sta, ph, k. split; [by left|by right].
          -- by right.
        * intros [(a & b & d & e & Hin & Hor)|Hs]; [|by right; right; right].
          apply elem_of_cons in Hin as [Hin|Hin].
          -- simplify_eq. right. destruct Hor as [->| ->]; [by left|by right; left].
          -- left. exists a, b, d, e. done. }
  destruct (Hread ents (concat rows) ∅ Hents) as (m & E & H1 & H2 & H3).
  { intros ref sta ph k He. apply Hmem in He as (n & Hn & <- & Hi). by destruct (Hp n k sta ph Hn Hi). }
  { intros r n E. by rewrite lookup_empty in E. }
  exists m. split; [done|]. split; [done|]. split.
  - intros ref k sta ph. rewrite H2, Hmem. split; [|by left].
    intros [?|(n & E2 & _)]; [done|]. by rewrite lookup_empty in E2.
  - intros r. rewrite H3. split.
    + intros [(ref & sta & ph & k & He & Hor)|[x Hx]]; [|by rewrite lookup_empty in Hx].
      apply Hmem in He as (n & Hn & <- & Hi). eauto 8.
    + intros (n & k & sta & ph & Hn & Hi & Hor). left. exists (n_ref n), sta, ph, k.
      split; [|done]. apply Hmem. eauto.
Qed.
End files.
Print Assumptions C34_write_defined.
Print Assumptions C34_pair_file_roundtrip.

(** ** toCatalog *)
(** The catalog holds exactly the neighbours (and the reference event if asked
    for), each with all its phases. *)
Theorem C34_to_catalog {V} (ins : list (phase V) → phase V → list (phase V)) (n : neigh) (c : catalog V) (inc : bool) :
  any_place ins → integrity c → (∀ k, k ∈ n_ids n → is_Some (c_ev c !! k)) →
  (inc = true → is_Some (c_ev c !! n_ref n) ∧ n_ref n ∉ n_ids n) →
  ∃ c', to_catalog ins n c inc = CRet c' tt ∧ integrity c' ∧
    ∀ k, if decide (k ∈ n_ids n ∨ (inc = true ∧ k = n_ref n))
         then c_ev c' !! k = c_ev c !! k ∧ phs c' k ≡ₚ phs c k
         else c_ev c' !! k = None ∧ phs c' k = [].
Proof.
  intros Hins I Hk Hinc. unfold to_catalog.
  assert (∀ ids acc, integrity acc → NoDup ids → (∀ k, k ∈ ids → is_Some (c_ev c !! k) ∧ c_ev acc !! k = None) →
    ∃ c', add_all ins acc c ids = CRet c' tt ∧ integrity c' ∧
      ∀ k, if decide (k ∈ ids) then c_ev c' !! k = c_ev c !! k ∧ phs c' k ≡ₚ phs c k
           else c_ev c' !! k = c_ev acc !! k ∧ phs c' k = phs acc k) as H.
  { induction ids as [|k ids IH]; intros acc Ia Hn Hi.
    - exists acc. split; [done|]. split; [done|]. intros k. done.
    - apply NoDup_cons in Hn as [Hn1 Hn2]. destruct (Hi k) as [Hk1 Hk2]; [by left|]. simpl.
      destruct (C16_add_keeps_id ins Hins acc k c Ia I Hk1 Hk2) as (c1 & E & ((e & He & K1) & K2 & K3 & K4 & K5)).
      rewrite E. assert (integrity c1) as I1 by (eapply (integrity_add_from ins Hins); [exact Ia|exact I|left; eauto]).
      destruct (IH c1 I1 Hn2) as (c' & E' & I' & H').
      { intros k' Hk'. destruct (Hi k') as [? ?]; [by right|]. split; [done|]. rewrite K2; [done|]. by intros ->. }
      exists c'. split; [done|]. split; [done|]. intros k'. specialize (H' k').
      destruct (decide (k' ∈ ids)) as [D|D].
      + rewrite decide_True by (by right). done.
      + destruct H' as [-> ->]. destruct (decide (k' = k)) as [->|Dk].
        * rewrite decide_True by (by left). rewrite K1, He.
          rewrite <-(in_ev _ I _ _ He) at 1. rewrite set_e_id_same. split; [done|]. rewrite K3.
          assert (∀ p, p ∈ phs c k → set_p_ev p k = p) as Hsame.
          { intros p Hp. destruct (in_ph _ I _ _ Hp) as [Hpe _]. rewrite <-Hpe. apply set_p_ev_same. }
          revert Hsame. generalize (phs c k) as ll. clear. intros ll Hs.
          assert ((λ p, set_p_ev p k) <$> ll = ll) as ->; [|done].
          induction ll as [|p ll IH]; [done|]. simpl. rewrite (Hs p) by (by left). f_equal.
          apply IH. intros q Hq. apply Hs. by right.
        * rewrite decide_False by (by intros [?|?]%elem_of_cons). by rewrite K2, K4. }
  destruct (H (elements (n_ids n) ++ (if inc then [n_ref n] else [])) empty_cat integrity_empty) as (c' & E & I' & Hc').
  { apply NoDup_app. split; [apply NoDup_elements|]. destruct inc.
    - split; [|apply NoDup_singleton]. intros x Hx Hx2. apply elem_of_list_singleton in Hx2 as ->.
      apply elem_of_elements in Hx. by destruct (Hinc eq_refl).
    - split; [|constructor]. intros x _ Hx. by apply elem_of_nil in Hx. }
  { intros k Hin. split; [|by simpl; rewrite lookup_empty]. apply elem_of_app in Hin as [Hin|Hin].
    - by apply Hk, elem_of_elements.
    - destruct inc; [|by apply elem_of_nil in Hin]. apply elem_of_list_singleton in Hin as ->.
      by destruct (Hinc eq_refl). }
  exists c'. split; [done|]. split; [done|]. intros k. specialize (Hc' k).
  assert (k ∈ elements (n_ids n) ++ (if inc then [n_ref n] else []) ↔ k ∈ n_ids n ∨ (inc = true ∧ k = n_ref n)) as Hiff.
  { rewrite elem_of_app, elem_of_elements. destruct inc.
    - rewrite elem_of_list_singleton. naive_solver.
    - rewrite elem_of_nil. naive_solver. }
  destruct (decide (k ∈ elements (n_ids n) ++ (if inc then [n_ref n] else []))) as [D|D].
  - rewrite decide_True by (by apply Hiff). done.
  - rewrite decide_False by (by rewrite <-Hiff). destruct Hc' as [-> ->]. simpl.
    rewrite lookup_empty. split; [done|]. unfold phs. simpl. by rewrite lookup_empty.
Qed.
Print Assumptions C34_to_catalog.

(** ** Counterexamples and instances *)
Definition ex_cat : catalog Z := ex_c1.
Definition ex_ord (n : neigh) := n_phases n.
Definition ex_n5 : neigh := run 5 [OAdd 7 (tx "N.A.") (tx "P"); OAdd 7 (tx "N.B.00") (tx "S"); OAdd 9 (tx "N.A.") (tx "P"); ORemove 9].
Definition ex_n7 : neigh := run 7 [].
Definition ex_n8 : neigh := run 8 [].

Definition ex_test : bool :=
  match write_neighs ex_ord ex_cat [ex_n5; ex_n7] with
  | WFile s => match read_neighs ex_cat s with
               | ROk m => match m !! 5%N, m !! 7%N with
                          | Some n, Some _ => n_has_ph n 7 (tx "N.B.00") (tx "S")
                          | _, _ => false
                          end
               | _ => false
               end
  | _ => false
  end.
Example ex_roundtrip : ex_test = true.
Proof. vm_compute. reflexivity. Qed.
(** The hypotheses of the round trip hold for it. *)
Example ex_hyps : integrity ex_cat ∧ codes_plain ex_cat ∧
  ∀ n k sta ph, n ∈ [ex_n5; ex_n7] → inn n k sta ph → plain_last ph ∧ (n_ref n < 2 ^ 32)%N ∧ (k < 2 ^ 32)%N.
Proof.
  split; [apply (C14_catalog_integrity _ ins0_any), ex_c1_built|]. split.
  - intros i s Hi. unfold ex_cat, ex_c1 in Hi. cbn [c_sta add_phase] in Hi.
    rewrite !add_station_lookup in Hi. change (c_sta (empty_cat (V := Z))) with (∅ : gmap text (station Z)) in Hi.
    rewrite lookup_empty in Hi.
    destruct (decide (i = sta_id (ex_sta "N" "A" "" 1))); [|destruct (decide (i = sta_id (ex_sta "N" "B" "00" 2))); [|done]];
      injection Hi as <-; repeat split; apply (bool_decide_unpack _); vm_compute; exact I.
  - intros n k sta ph Hn Hi. apply elem_of_cons in Hn as [->|Hn].
    + destruct (run_spec 5 [OAdd 7 (tx "N.A.") (tx "P"); OAdd 7 (tx "N.B.00") (tx "S"); OAdd 9 (tx "N.A.") (tx "P"); ORemove 9])
        as (_ & _ & H). apply H in Hi. change (n_ref ex_n5) with 5%N. clear H. unfold spec_run in Hi. simpl in Hi.
      apply elem_of_filter in Hi as [H1 Hi].
      apply elem_of_union in Hi as [Hi|Hi]; [apply elem_of_singleton in Hi; by injection Hi as -> -> ->|].
      apply elem_of_union in Hi as [Hi|Hi].
      { apply elem_of_singleton in Hi. injection Hi as -> -> ->. split; [|done].
        split; [|done]. apply (bool_decide_unpack _); vm_compute; exact I. }
      apply elem_of_union in Hi as [Hi|Hi]; [|by apply not_elem_of_empty in Hi].
      apply elem_of_singleton in Hi. injection Hi as -> -> ->. split; [|done].
      split; [|done]. apply (bool_decide_unpack _); vm_compute; exact I.
    + apply elem_of_list_singleton in Hn as ->. destruct (run_spec 7 []) as (_ & _ & H).
      apply H in Hi. by apply not_elem_of_empty in Hi.
Qed.

(** An event without neighbours that is no neighbour of another event is lost. *)
Definition lost_test : bool :=
  match write_neighs ex_ord ex_cat [ex_n5; ex_n8] with
  | WFile s => match read_neighs ex_cat s with
               | ROk m => match m !! 8%N, m !! 5%N with None, Some _ => true | _, _ => false end
               | _ => false
               end
  | _ => false
  end.
Lemma lost_test_true : lost_test = true.
Proof. vm_compute. reflexivity. Qed.
Theorem C34_empty_entry_refuted :
  ∃ (c : catalog Z) ns n s m, write_neighs ex_ord c ns = WFile s ∧ n ∈ ns ∧ read_neighs c s = ROk m ∧
    m !! n_ref n = None.
Proof.
  pose proof lost_test_true as H. unfold lost_test in H.
  destruct (write_neighs ex_ord ex_cat [ex_n5; ex_n8]) as [s| |] eqn:E; [|discriminate..].
  destruct (read_neighs ex_cat s) as [m| |] eqn:E2; [|discriminate..].
  exists ex_cat, [ex_n5; ex_n8], ex_n8, s, m. split; [exact E|]. split; [by right; left|].
  split; [exact E2|]. change (n_ref ex_n8) with 8%N. destruct (m !! 8%N); [discriminate|reflexivity].
Qed.
Print Assumptions C34_empty_entry_refuted.
(** A file that names a station the catalog does not have leads to undefined
    behaviour. *)
Definition ub_test : bool :=
  match write_neighs ex_ord ex_cat [ex_n5] with
  | WFile s => match read_neighs (empty_cat (V := Z)) s with RUB => true | _ => false end
  | _ => false
  end.
Lemma ub_test_true : ub_test = true.
Proof. vm_compute. reflexivity. Qed.
Theorem C34_unknown_station_refuted :
  ∃ (c c' : catalog Z) ns s, write_neighs ex_ord c ns = WFile s ∧ read_neighs c' s = RUB.
Proof.
  pose proof ub_test_true as H. unfold ub_test in H.
  destruct (write_neighs ex_ord ex_cat [ex_n5]) as [s| |] eqn:E; [|discriminate..].
  exists ex_cat, empty_cat, [ex_n5], s. split; [exact E|].
  destruct (read_neighs empty_cat s); [discriminate..|reflexivity].
Qed.
Print Assumptions C34_unknown_station_refuted.
