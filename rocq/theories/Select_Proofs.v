(** Proofs about selectNeighbouringEvents. *)
From stdpp Require Import gmap list strings.
From Coq Require Import QArith Lqa Sorted.
From Verif Require Import Cluster_Model Select_Model.
Local Open Scope Q_scope.

Lemma Qltb_lt x y : Qltb x y = true ↔ x < y.
Proof.
  unfold Qltb. rewrite negb_true_iff. split.
  - intros H. apply Qnot_le_lt. intros Hle. apply Qle_bool_iff in Hle. congruence.
  - intros H. apply not_true_is_false. intros Hle. apply Qle_bool_iff in Hle. lra.
Qed.
Lemma Qltb_ge x y : Qltb x y = false ↔ y <= x.
Proof.
  rewrite <-not_true_iff_false, Qltb_lt. split; [apply Qnot_lt_le|]. intros H1 H2. lra.
Qed.

(** ** Sorted insertion *)
Section mm.
Context {A : Type}.
Definition ksorted (l : list (Q * A)) : Prop := StronglySorted (λ a b, a.1 <= b.1) l.
Lemma mm_insert_perm k (v : A) l : mm_insert k v l ≡ₚ (k, v) :: l.
Proof.
  induction l as [|[k' v'] l IH]; simpl; [done|]. destruct (Qltb k k'); [done|].
  rewrite IH. by apply Permutation_swap.
Qed.
Lemma mm_insert_sorted k (v : A) l : ksorted l → ksorted (mm_insert k v l).
Proof.
  induction 1 as [|[k' v'] l Hs IH Hf]; simpl.
  { constructor; constructor. }
  destruct (Qltb k k') eqn:E.
  - apply Qltb_lt in E. constructor; [by constructor|]. constructor; simpl; [lra|].
    eapply Forall_impl; [exact Hf|]. intros [? ?]. simpl. lra.
  - apply Qltb_ge in E. constructor; [done|]. simpl.
    apply Forall_forall. intros x Hx. rewrite mm_insert_perm in Hx.
    apply elem_of_cons in Hx as [->|Hx]; [done|]. rewrite Forall_forall in Hf. by apply Hf.
Qed.
Lemma ksorted_take n l x y :
  ksorted l → x ∈ take n l → y ∈ drop n l → x.1 <= y.1.
Proof.
  revert n. induction l as [|z l IH]; intros n Hs Hx Hy.
  { rewrite take_nil in Hx. by apply elem_of_nil in Hx. }
  destruct n as [|n]; [by apply elem_of_nil in Hx|]. simpl in *.
  apply StronglySorted_inv in Hs as [Hs Hf].
  apply elem_of_cons in Hx as [->|Hx]; [|by eapply IH].
  rewrite Forall_forall in Hf. apply Hf.
  rewrite <-(take_drop n l). apply elem_of_app. by right.
Qed.
End mm.

Section proofs.
Variable ref : N.
Variable evs : gset N.
Variable stas : gset string.
Variable phs : N → list phase.
Variable refphs : list phase.
Variable dref : string → Q.
Variable dev : N → string → Q.
Variables minES maxES minRatio : Q.
Variables minPhase maxPhase maxNum : nat.
Variable maxDist : Q.

Notation phase_ok := (phase_ok stas refphs dref dev minES maxES minRatio).
Notation collect := (collect stas refphs dref dev minES maxES minRatio).
Notation add_neighbour :=
  (add_neighbour ref evs stas phs refphs dref dev minES maxES minRatio minPhase maxPhase).
Notation limit := (limit maxPhase).
Notation full := (full maxNum).
Notation nearest :=
  (nearest ref evs stas phs refphs dref dev minES maxES minRatio minPhase maxPhase maxNum maxDist).

(** ** Specification of the phases in common *)

(** The pick of the reference event for that station and type. *)
Definition ref_pick (s t : string) (p' : phase) : Prop :=
  ∃ l1 l2, refphs = l1 ++ p' :: l2 ∧ ph_sta p' = s ∧ ph_type p' = t ∧
    ∀ q, q ∈ l1 → ¬ (ph_sta q = s ∧ ph_type q = t).

Definition good (e : N) (dist : Q) (p : phase) : Prop :=
  ph_no p = false ∧
  (maxES <= 0 ∨ dref (ph_sta p) <= maxES ∨ minES <= dref (ph_sta p)) ∧
  (¬ dist == 0 → minRatio <= dref (ph_sta p) / dist) ∧
  (0 < maxES ∨ 0 < minES ∨ 0 < minRatio →
     (0 < maxES → dev e (ph_sta p) <= maxES) ∧ minES <= dev e (ph_sta p) ∧
     (¬ dist == 0 → minRatio <= dev e (ph_sta p) / dist)) ∧
  ∃ p', ref_pick (ph_sta p) (ph_type p) p' ∧ ph_no p' = false.

Lemma search_ref_spec s t p' : search_ref refphs s t = Some p' ↔ ref_pick s t p'.
Proof.
  unfold search_ref, ref_pick. split.
  - intros H. apply bind_Some in H as ([i x] & H & E). injection E as ->. simpl.
    apply list_find_Some in H as (Hi & [Hs Ht] & Hl).
    exists (take i refphs), (drop (S i) refphs). split.
    { symmetry. by apply take_drop_middle. }
    split; [done|]. split; [done|]. intros q Hq.
    apply elem_of_list_lookup in Hq as [j Hj].
    pose proof (lookup_lt_Some _ _ _ Hj) as Hlt. rewrite take_length in Hlt.
    rewrite lookup_take in Hj by lia. apply (Hl j q Hj). lia.
  - intros (l1 & l2 & -> & Hs & Ht & Hn).
    assert (list_find (λ p, ph_sta p = s ∧ ph_type p = t) (l1 ++ p' :: l2) = Some (length l1, p')) as ->;
      [|done].
    apply list_find_Some. split; [by apply list_lookup_middle|]. split; [done|].
    intros j y Hj Hlt. rewrite lookup_app_l in Hj by done.
    apply Hn. by eapply elem_of_list_lookup_2.
Qed.

Lemma ratio_spec x y r : negb (ratio_lt x y r) = true ↔ (¬ y == 0 → r <= x / y).
Proof.
  unfold ratio_lt. destruct (Qeq_bool y 0) eqn:E.
  - apply Qeq_bool_iff in E. simpl. tauto.
  - apply Qeq_bool_neq in E. rewrite negb_true_iff, Qltb_ge. tauto.
Qed.

Lemma phase_ok_spec e dist p :
  ph_sta p ∈ stas → ∃ b, phase_ok e dist p = Some b ∧ (b = true ↔ good e dist p).
Proof.
  intros Hs. unfold Select_Model.phase_ok. rewrite decide_True by done. eexists. split; [done|].
  rewrite !andb_true_iff. unfold good.
  rewrite negb_true_iff. rewrite ratio_spec. unfold sta_ok. rewrite !orb_true_iff, !Qle_bool_iff.
  rewrite (negb_true_iff (_ && _)), andb_false_iff, !orb_false_iff, andb_false_iff, !Qltb_ge.
  rewrite <-(negb_true_iff (ratio_lt (dev e (ph_sta p)) dist minRatio)), ratio_spec.
  assert (match search_ref refphs (ph_sta p) (ph_type p) with
          | Some p' => negb (ph_no p') | None => false end = true ↔
          ∃ p', ref_pick (ph_sta p) (ph_type p) p' ∧ ph_no p' = false) as ->.
  { setoid_rewrite <-search_ref_spec. destruct (search_ref refphs (ph_sta p) (ph_type p)) as [p'|].
    - rewrite negb_true_iff. split; [eauto|]. intros (? & [= ->] & ?). done.
    - split; [done|]. by intros (? & ? & _). }
  assert (∀ x y : Q, x <= y ∨ y < x) as Hd.
  { intros x y. destruct (Qlt_le_dec y x); auto. }
  assert (((maxES <= 0 ∧ minES <= 0) ∧ minRatio <= 0) ∨
    ((maxES <= 0 ∨ dev e (ph_sta p) <= maxES) ∧ minES <= dev e (ph_sta p)) ∧
    (¬ dist == 0 → minRatio <= dev e (ph_sta p) / dist) ↔
    (0 < maxES ∨ 0 < minES ∨ 0 < minRatio →
     (0 < maxES → dev e (ph_sta p) <= maxES) ∧ minES <= dev e (ph_sta p) ∧
     (¬ dist == 0 → minRatio <= dev e (ph_sta p) / dist))) as ->.
  { split.
    - intros [[[H1 H2] H3]|[[H1 H2] H3]].
      + intros [H|[H|H]]; exfalso; lra.
      + intros _. split; [|done]. intros H. destruct H1; [lra|done].
    - intros H. destruct (Hd maxES 0) as [H1|H1].
      + destruct (Hd minES 0) as [H2|H2].
        * destruct (Hd minRatio 0) as [H3|H3]; [by left|].
          right. destruct H as (?&?&?); [by right; right|]. split; [split; [by left|done]|done].
        * right. destruct H as (?&?&?); [by right; left|]. split; [split; [by left|done]|done].
      + right. destruct H as (?&?&?); [by left|]. split; [split; [right; auto|done]|done]. }
  tauto.
Qed.

Definition pkey (p : phase) : Q * (string * string) := (dref (ph_sta p), (ph_sta p, ph_type p)).

Lemma collect_spec e dist ps acc :
  (∀ p, p ∈ ps → ph_sta p ∈ stas) →
  ∃ l gs, collect e dist ps acc = Some l ∧ gs `sublist_of` ps ∧
    (∀ p, p ∈ ps → (p ∈ gs ↔ good e dist p)) ∧ (∀ p, p ∈ gs → good e dist p) ∧
    l ≡ₚ (pkey <$> gs) ++ acc ∧ (ksorted acc → ksorted l) ∧
    (∀ gs2, gs2 `sublist_of` ps → (∀ p, p ∈ gs2 → good e dist p) → (length gs2 ≤ length gs)%nat).
Proof.
  revert acc. induction ps as [|p ps IH]; intros acc Hs.
  { exists acc, []. split; [done|]. split; [done|]. split; [set_solver|]. split; [set_solver|].
    split; [done|]. split; [done|]. intros gs2 Hgs2 _. apply sublist_nil_r in Hgs2 as ->. done. }
  assert (∀ p, p ∈ ps → ph_sta p ∈ stas) as Hs' by (intros q Hq; apply Hs; by right).
  destruct (phase_ok_spec e dist p) as (b & Hb & Hg); [apply Hs; by left|]. simpl. rewrite Hb.
  destruct b.
  - destruct (IH (mm_insert (dref (ph_sta p)) (ph_sta p, ph_type p) acc) Hs')
      as (l & gs & H1 & H2 & H3 & H4 & H5 & H6 & H7).
    assert (good e dist p) as Hgp by (by apply Hg).
    exists l, (p :: gs). split; [done|]. split; [by constructor|].
    split; [|split; [|split; [|split]]].
    + intros q Hq. apply elem_of_cons in Hq as [->|Hq].
      * split; [done|by left].
      * rewrite elem_of_cons. split; [intros [->|?]; [done|by apply H4]|]. intros ?. right. by apply H3.
    + intros q Hq. apply elem_of_cons in Hq as [->|Hq]; [done|by apply H4].
    + rewrite H5, mm_insert_perm. simpl. by rewrite Permutation_middle.
    + intros Ha. apply H6. by apply mm_insert_sorted.
    + intros gs2 Hgs2 Hall. apply sublist_cons_r in Hgs2 as [Hgs2|(gs3 & -> & Hgs3)].
      * specialize (H7 gs2 Hgs2 Hall). simpl. lia.
      * simpl. apply le_n_S, H7; [done|]. intros q Hq. apply Hall. by right.
  - destruct (IH acc Hs') as (l & gs & H1 & H2 & H3 & H4 & H5 & H6 & H7).
    exists l, gs. split; [done|]. split; [by constructor|].
    split; [|split; [done|split; [done|split; [done|]]]].
    + intros q Hq. apply elem_of_cons in Hq as [->|Hq]; [|by apply H3].
      split; [by apply H4|]. intros Hgood. exfalso. by apply Hg in Hgood.
    + intros gs2 Hgs2 Hall. apply sublist_cons_r in Hgs2 as [Hgs2|(gs3 & -> & Hgs3)]; [by apply H7|].
      exfalso. assert (good e dist p) as Hgood by (apply Hall; by left). by apply Hg in Hgood.
Qed.

Lemma size_list_to_set_le (l : list (string * string)) :
  (size (list_to_set l : gset (string * string)) ≤ length l)%nat.
Proof.
  induction l as [|x l IH]; [done|]. simpl. rewrite size_union_alt, size_singleton.
  assert (size (list_to_set l ∖ {[x]} : gset (string * string)) ≤ size (list_to_set l : gset (string * string)))%nat
    by (apply subseteq_size; set_solver). lia.
Qed.

(** ** What a neighbour event contributes *)
Definition chosen (p : point) : option (gset (string * string)) :=
  if decide (p_id p = ref) then None
  else if decide (p_id p ∈ evs) then
    match collect (p_id p) (p_dist p) (phs (p_id p)) [] with
    | None => None
    | Some l => if decide (length l < minPhase)%nat then None
                else if decide (limit l = []) then None else Some (list_to_set (limit l).*2)
    end
  else None.

Definition Inv (tried : list point) (n : nbp) : Prop :=
  nb_ref n = ref ∧
  ∀ e S, nb_phs n !! e = Some S ↔ ∃ p, p ∈ tried ∧ p_id p = e ∧ chosen p = Some S.

Lemma fold_add n e (l : list (Q * (string * string))) :
  nb_phs n !! e = None →
  fold_left (λ n x, nb_add n e x.2) l n =
    if decide (l = []) then n else Nb (nb_ref n) (<[e := list_to_set l.*2]> (nb_phs n)).
Proof.
  intros Hn.
  assert (∀ (l : list (Q * (string * string))) S, fold_left (λ n x, nb_add n e x.2) l (Nb (nb_ref n) (<[e := S]> (nb_phs n)))
     = Nb (nb_ref n) (<[e := list_to_set l.*2 ∪ S]> (nb_phs n))) as H.
  { clear l. intros l. induction l as [|x l IH]; intros S; simpl.
    - f_equal. f_equal. set_solver.
    - unfold nb_add. simpl. rewrite lookup_insert. simpl. rewrite insert_insert, IH.
      f_equal. f_equal. set_solver. }
  destruct l as [|x l]; [done|]. simpl. unfold nb_add at 2. rewrite Hn. simpl. rewrite H.
  f_equal. f_equal. set_solver.
Qed.

Lemma add_spec tried n p :
  Inv tried n → p_id p ∉ p_id <$> tried →
  (∀ q, q ∈ phs (p_id p) → ph_sta q ∈ stas) →
  ∃ b n', add_neighbour n (p_id p) (p_dist p) = SDone (b, n') ∧ Inv (tried ++ [p]) n' ∧
    (b = false → n' = n ∧ chosen p = None) ∧
    (amount n ≤ amount n')%nat ∧ (amount n' ≤ S (amount n))%nat.
Proof.
  intros [Hr Hi] Hnew Hst.
  assert (nb_phs n !! p_id p = None) as Hnone.
  { destruct (nb_phs n !! p_id p) as [S|] eqn:E; [|done]. exfalso.
    apply Hi in E as (q & Hq & Hid & _). apply Hnew. rewrite <-Hid. by apply elem_of_list_fmap_1. }
  assert (chosen p = None → Inv (tried ++ [p]) n) as Hno.
  { intros Hc. split; [done|]. intros e S. rewrite Hi. split.
    - intros (q & ? & ? & ?). exists q. set_solver.
    - intros (q & Hq & ? & Hcq). apply elem_of_app in Hq as [?|Hq]; [eauto|].
      apply elem_of_list_singleton in Hq as ->. congruence. }
  unfold Select_Model.add_neighbour, chosen in *.
  destruct (decide (p_id p = ref)) as [He|He].
  { exists false, n. split; [done|]. split; [by apply Hno|]. split; [done|]. lia. }
  destruct (decide (p_id p ∈ evs)) as [Hev|Hev].
  2: { exists false, n. split; [done|]. split; [by apply Hno|]. split; [done|]. lia. }
  destruct (collect_spec (p_id p) (p_dist p) (phs (p_id p)) [] Hst) as (l & gs & Hl & _).
  rewrite Hl in *.
  destruct (decide (length l < minPhase)%nat) as [Hm|Hm].
  { exists false, n. split; [done|]. split; [by apply Hno|]. split; [done|]. lia. }
  exists true. eexists. split; [done|]. rewrite (fold_add n (p_id p) (limit l) Hnone).
  destruct (decide (limit l = [])) as [E|E].
  - split; [by apply Hno|]. split; [done|]. lia.
  - split; [|split; [done|]].
    + split; [done|]. intros e S. simpl. rewrite lookup_insert_Some, Hi. split.
      * intros [[<- <-]|[Hne (q & ? & ? & ?)]].
        -- exists p. split; [set_solver|]. split; [done|].
           unfold chosen. rewrite decide_False, decide_True by done. rewrite Hl.
           by rewrite !decide_False.
        -- exists q. set_solver.
      * intros (q & Hq & Hid & Hc). apply elem_of_app in Hq as [Hq|Hq].
        -- right. split; [|eauto]. intros <-. apply Hnew. rewrite <-Hid. by apply elem_of_list_fmap_1.
        -- apply elem_of_list_singleton in Hq as ->. left. split; [done|].
           unfold chosen in Hc. rewrite decide_False, decide_True in Hc by done. rewrite Hl in Hc.
           rewrite !decide_False in Hc by done. congruence.
    + unfold amount. simpl. rewrite map_size_insert_None by done. lia.
Qed.

(** An event with enough phases in common, at least one. *)
Definition eligible (p : point) : Prop :=
  p_id p ≠ ref ∧ p_id p ∈ evs ∧
  ∃ gs, gs `sublist_of` phs (p_id p) ∧ (∀ q, q ∈ gs → good (p_id p) (p_dist p) q) ∧
        gs ≠ [] ∧ (minPhase ≤ length gs)%nat.

Lemma limit_nil l : limit l = [] → l = [].
Proof.
  unfold Select_Model.limit. case_decide; [done|]. destruct l; [done|].
  destruct maxPhase; done.
Qed.

Lemma chosen_eligible p :
  (∀ q, q ∈ phs (p_id p) → ph_sta q ∈ stas) → (is_Some (chosen p) ↔ eligible p).
Proof.
  intros Hst. unfold chosen, eligible.
  destruct (collect_spec (p_id p) (p_dist p) (phs (p_id p)) [] Hst) as (l & gs & Hl & Hsub & _ & Hg & Hp & _ & Hmax).
  rewrite Hl. rewrite app_nil_r in Hp. apply Permutation_length in Hp as Hlen. rewrite fmap_length in Hlen.
  split.
  - intros [S HS]. case_decide; [done|]. case_decide; [|done]. case_decide; [done|]. case_decide as HE; [done|].
    split; [done|]. split; [done|]. exists gs. split; [done|]. split; [done|]. split; [|lia].
    intros ->. destruct l; [|done]. apply HE. unfold Select_Model.limit. case_decide; [done|]. by rewrite take_nil.
  - intros (H1 & H2 & gs2 & H3 & H4 & H5 & H6). specialize (Hmax gs2 H3 H4).
    rewrite decide_False, decide_True, decide_False by (done || lia).
    rewrite decide_False; [by eexists|]. intros E. apply limit_nil in E as ->.
    destruct gs2; [done|]. simpl in *. lia.
Qed.

(** What is recorded for a chosen event. *)
Lemma chosen_spec p S :
  (∀ q, q ∈ phs (p_id p) → ph_sta q ∈ stas) → chosen p = Some S →
  S ≠ ∅ ∧
  (∀ s t, (s, t) ∈ S → ∃ q, q ∈ phs (p_id p) ∧ ph_sta q = s ∧ ph_type q = t ∧ good (p_id p) (p_dist p) q) ∧
  (maxPhase ≠ 0 → size S ≤ maxPhase)%nat ∧
  (NoDup ((λ q, (ph_sta q, ph_type q)) <$> phs (p_id p)) →
     minPhase ≤ size S ∨ (maxPhase ≠ 0 ∧ size S = maxPhase))%nat ∧
  (∀ s t q, (s, t) ∈ S → q ∈ phs (p_id p) → good (p_id p) (p_dist p) q →
     (ph_sta q, ph_type q) ∉ S → dref s <= dref (ph_sta q)).
Proof.
  intros Hst. unfold chosen.
  destruct (collect_spec (p_id p) (p_dist p) (phs (p_id p)) [] Hst) as (l & gs & Hl & Hsub & Hiff & Hg & Hp & Hs & _).
  rewrite Hl. rewrite app_nil_r in Hp. apply Permutation_length in Hp as Hlen. rewrite fmap_length in Hlen.
  assert (ksorted l) as Hsort by (apply Hs; constructor).
  case_decide; [done|]. case_decide; [|done]. case_decide as HM; [done|]. case_decide as HE; [done|].
  intros [= <-].
  assert (∃ l2, l = limit l ++ l2 ∧ ∀ x y, x ∈ limit l → y ∈ l2 → x.1 <= y.1) as (l2 & Hl2 & Hord).
  { unfold Select_Model.limit. case_decide.
    - exists []. rewrite app_nil_r. split; [done|]. set_solver.
    - exists (drop maxPhase l). rewrite take_drop. split; [done|]. intros x y. by apply ksorted_take. }
  assert (∀ x, x ∈ l ↔ ∃ q, q ∈ gs ∧ x = pkey q) as Hel.
  { intros x. rewrite Hp, elem_of_list_fmap. naive_solver. }
  assert (∀ s t, (s, t) ∈ (list_to_set (limit l).*2 : gset (string * string)) ↔
    ∃ q, q ∈ gs ∧ pkey q ∈ limit l ∧ s = ph_sta q ∧ t = ph_type q) as HS.
  { intros s t. rewrite elem_of_list_to_set, elem_of_list_fmap. split.
    - intros ([d x] & E0 & Hx). simpl in E0. subst x. assert ((d, (s, t)) ∈ l) as Hx' by (rewrite Hl2; set_solver).
      apply Hel in Hx' as (q & Hq & E). exists q. split; [done|]. unfold pkey in *. injection E as -> -> ->. done.
    - intros (q & Hq & Hk & -> & ->). exists (pkey q). done. }
  split; [|split; [|split; [|split]]].
  - destruct (limit l) as [|[d [s t]] l'] eqn:E; [done|]. intros HS0. assert ((s,t) ∈ (∅ : gset (string * string))) as Hin.
    { rewrite <-HS0. simpl. set_solver. } set_solver.
  - intros s t Hin. apply HS in Hin as (q & Hq & _ & -> & ->). exists q.
    split; [by eapply elem_of_submseteq, sublist_submseteq|]. auto.
  - intros Hm. etrans; [apply size_list_to_set_le|]. rewrite fmap_length. unfold Select_Model.limit.
    rewrite decide_False by done. rewrite take_length. lia.
  - intros ND. assert (NoDup (limit l).*2) as ND2.
    { assert (NoDup l.*2) as NDl.
      { rewrite Hp, <-list_fmap_compose. 
        assert (∀ (k1 k2 : list phase), k1 `sublist_of` k2 →
          NoDup ((λ q, (ph_sta q, ph_type q)) <$> k2) → NoDup ((λ q, (ph_sta q, ph_type q)) <$> k1)) as Hnd.
        { induction 1 as [|x k1 k2 Hk IH|x k1 k2 Hk IH]; intros N; [constructor| |].
          - apply NoDup_cons in N as [N1 N2]. apply NoDup_cons. split; [|by apply IH].
            intros Hin. apply N1. apply elem_of_list_fmap in Hin as (y & -> & Hy).
            apply elem_of_list_fmap. exists y. split; [done|]. by eapply elem_of_submseteq, sublist_submseteq.
          - apply NoDup_cons in N as [_ N2]. by apply IH. }
        by apply (Hnd gs (phs (p_id p))). }
      rewrite Hl2, fmap_app in NDl. by apply NoDup_app in NDl as (? & _). }
    rewrite size_list_to_set by done. rewrite fmap_length. unfold Select_Model.limit.
    case_decide; [left; lia|]. rewrite take_length.
    destruct (Nat.le_gt_cases maxPhase (length l)); [right; lia|left; lia].
  - intros s t q Hin Hq Hgood Hnot. apply HS in Hin as (q1 & Hq1 & Hk & -> & ->).
    apply (Hord (pkey q1) (pkey q)); [done|].
    assert (pkey q ∈ l) as Hql by (apply Hel; exists q; split; [by apply Hiff|done]).
    rewrite Hl2 in Hql. apply elem_of_app in Hql as [Hql|?]; [|done].
    exfalso. apply Hnot, HS. exists q. split; [by apply Hiff|done].
Qed.

Lemma full_spec n : full n = true ↔ (0 < maxNum ∧ maxNum ≤ amount n)%nat.
Proof. unfold Select_Model.full. by rewrite bool_decide_eq_true. Qed.
Lemma full_false n : full n = false ↔ (maxNum = 0 ∨ amount n < maxNum)%nat.
Proof. unfold Select_Model.full. rewrite bool_decide_eq_false. lia. Qed.

(** ** Nearest neighbour mode *)
Lemma nearest_spec pts tried n :
  Inv tried n → NoDup (p_id <$> tried ++ pts) → full n = false →
  (∀ p q, p ∈ pts → q ∈ phs (p_id p) → ph_sta q ∈ stas) →
  ∃ n' done rest, nearest pts n = SDone n' ∧ pts = done ++ rest ∧ Inv (tried ++ done) n' ∧
    (∀ p, p ∈ done → p_dist p <= maxDist) ∧ (maxNum = 0 ∨ amount n' ≤ maxNum)%nat ∧
    (full n' = true ∨ match rest with [] => True | p :: _ => maxDist < p_dist p end).
Proof.
  revert tried n. induction pts as [|p pts IH]; intros tried n I ND Hf Hst; simpl.
  { exists n, [], []. rewrite (app_nil_r tried). split; [done|]. split; [done|]. split; [done|].
    split; [set_solver|]. split; [apply full_false in Hf; lia|]. by right. }
  destruct (Qltb maxDist (p_dist p)) eqn:Ed.
  { apply Qltb_lt in Ed. exists n, [], (p :: pts). rewrite (app_nil_r tried).
    split; [done|]. split; [done|]. split; [done|]. split; [set_solver|].
    split; [apply full_false in Hf; lia|]. by right. }
  apply Qltb_ge in Ed.
  destruct (add_spec tried n p I) as (b & n1 & Ha & I1 & Hb & Hle & Hle').
  { rewrite fmap_app in ND. apply NoDup_app in ND as (_ & ND & _). intros Hin.
    apply (ND _ Hin). rewrite fmap_cons. by left. }
  { intros q. apply Hst. by left. }
  rewrite Ha. simpl.
  destruct (b && full n1) eqn:Ef.
  { apply andb_true_iff in Ef as [-> Ef]. exists n1, [p], pts.
    split; [done|]. split; [done|]. split; [done|].
    split; [intros q Hq; apply elem_of_list_singleton in Hq as ->; done|].
    split; [|by left]. apply full_false in Hf. lia. }
  assert (full n1 = false) as Hf1.
  { destruct b; [done|]. by destruct (Hb eq_refl) as [-> _]. }
  destruct (IH (tried ++ [p]) n1 I1) as (n' & don & rest & H1 & -> & H3 & H4 & H5 & H6).
  - by rewrite <-app_assoc.
  - done.
  - intros q r Hq. apply Hst. by right.
  - exists n', (p :: don), rest. split; [done|]. split; [done|]. rewrite <-app_assoc in H3.
    split; [done|]. split; [|done]. intros q Hq. apply elem_of_cons in Hq as [->|Hq]; [done|by apply H4].
Qed.

(** ** Ellipsoid mode *)
Variable inside : nat → nat → point → bool.
Notation scan := (scan ref evs stas phs refphs dref dev minES maxES minRatio minPhase maxPhase maxDist inside).
Notation quadrants :=
  (quadrants ref evs stas phs refphs dref dev minES maxES minRatio minPhase maxPhase maxNum maxDist inside).
Notation ellipsoids :=
  (ellipsoids ref evs stas phs refphs dref dev minES maxES minRatio minPhase maxPhase maxNum maxDist inside).
Notation rounds_robin :=
  (rounds_robin ref evs stas phs refphs dref dev minES maxES minRatio minPhase maxPhase maxNum maxDist inside).
Notation lo := (lo maxDist).
Notation hi := (hi maxDist).

Definition hit (k i q : nat) (p : point) : Prop :=
  lo k i <= p_dist p <= hi k i ∧ inside i q p = true.
Lemma hit_spec k i q p :
  in_range (lo k i) (hi k i) p && inside i q p = true ↔ hit k i q p.
Proof.
  unfold in_range, hit. rewrite !andb_true_iff, !Qle_bool_iff. tauto.
Qed.

Definition stations_ok (pts : list point) : Prop :=
  ∀ p q, p ∈ pts → q ∈ phs (p_id p) → ph_sta q ∈ stas.

(** [Split tried pts]: the points are distinct, those tried are accounted for in n. *)
Lemma scan_spec k i q pts : ∀ tried n,
  Inv tried n → NoDup (p_id <$> tried ++ pts) → stations_ok pts →
  ∃ r n' m, scan k i q pts n = SDone (r, n', m) ∧
    ∃ out, pts ≡ₚ out ++ r ∧ r `sublist_of` pts ∧ Inv (tried ++ out) n' ∧
      (∀ p, p ∈ out → hit k i q p) ∧
      (m = false → out = [] ∧ r = pts ∧ n' = n ∧ ∀ p, p ∈ pts → ¬ hit k i q p) ∧
      (m = true → out ≠ []) ∧
      (amount n ≤ amount n')%nat ∧ (amount n' ≤ S (amount n))%nat.
Proof.
  induction pts as [|p pts IH]; intros tried n I ND Hst.
  { exists [], n, false. split; [done|]. exists []. rewrite (app_nil_r tried).
    split; [done|]. split; [done|]. split; [done|]. split; [set_solver|].
    split; [set_solver|]. split; [done|]. lia. }
  cbn [Select_Model.scan].
  assert (stations_ok pts) as Hst' by (intros a b Ha; apply Hst; by right).
  destruct (in_range (lo k i) (hi k i) p && inside i q p) eqn:Eh.
  - apply hit_spec in Eh.
    destruct (add_spec tried n p I) as (b & n1 & Ha & I1 & Hb & Hle & Hle').
    { rewrite fmap_app in ND. apply NoDup_app in ND as (_ & ND & _). intros Hin.
      apply (ND _ Hin). rewrite fmap_cons. by left. }
    { intros x. apply Hst. by left. }
    rewrite Ha. cbn [sbind]. destruct b.
    + exists pts, n1, true. split; [done|]. exists [p].
      split; [done|]. split; [by constructor|]. split; [done|].
      split; [intros x Hx; apply elem_of_list_singleton in Hx as ->; done|].
      split; [done|]. split; [done|]. lia.
    + destruct (Hb eq_refl) as [-> _].
      destruct (IH (tried ++ [p]) n I1) as (r & n' & m & Hs & out & H1 & H1' & H2 & H3 & H4 & H5 & H6).
      { by rewrite <-app_assoc. }
      { done. }
      rewrite Hs. cbn [sbind]. exists r, n', true. split; [done|]. exists (p :: out).
      rewrite <-app_assoc in H2. split; [by rewrite H1|]. split; [by constructor|]. split; [done|].
      split; [intros x Hx; apply elem_of_cons in Hx as [->|Hx]; [done|by apply H3]|].
      split; [done|]. split; [done|]. done.
  - assert (¬ hit k i q p) as Hh by (rewrite <-hit_spec; congruence).
    destruct (IH tried n I) as (r & n' & m & Hs & out & H1 & H1' & H2 & H3 & H4 & H5 & H6).
    { rewrite fmap_app, fmap_cons in ND. rewrite fmap_app.
      apply NoDup_app in ND as (A & B & C). apply NoDup_cons in C as [_ C].
      apply NoDup_app. split; [done|]. split; [|done]. intros x Hx Hx'. apply (B x Hx). by right. }
    { done. }
    rewrite Hs. cbn [sbind]. exists (p :: r), n', m. split; [done|]. exists out.
    split; [rewrite H1; by rewrite Permutation_middle|]. split; [by constructor|]. split; [done|].
    split; [done|]. split; [|done].
    intros Hm. destruct (H4 Hm) as (-> & -> & -> & Hno). split; [done|]. split; [done|].
    split; [done|]. intros x Hx. apply elem_of_cons in Hx as [->|Hx]; [done|by apply Hno].
Qed.


(** Common shape of the results of the nested loops: the points [out] have been
    tried, [r] remain. *)
Definition Step (hits : point → Prop) (tried pts : list point) (n : nbp) (m0 : bool)
  (r : list point) (n' : nbp) (m stop : bool) : Prop :=
  (∃ out, pts ≡ₚ out ++ r ∧ r `sublist_of` pts ∧ Inv (tried ++ out) n' ∧
     (∀ p, p ∈ out → hits p) ∧ m = (m0 || negb (bool_decide (out = []))) ∧
     (out = [] → stop = false → r = pts ∧ n' = n ∧ ∀ p, p ∈ pts → ¬ hits p)) ∧
  (maxNum = 0 ∨ amount n' ≤ maxNum)%nat ∧
  (stop = false → full n' = false ∧ r ≠ []) ∧
  (stop = true → r = [] ∨ full n' = true).

Lemma NoDup_split tried pts out r :
  NoDup (p_id <$> tried ++ pts) → pts ≡ₚ out ++ r → NoDup (p_id <$> (tried ++ out) ++ r).
Proof. intros ND Hp. rewrite <-app_assoc, <-Hp. done. Qed.
Lemma stations_split pts out r : stations_ok pts → pts ≡ₚ out ++ r → stations_ok r.
Proof. intros Hs Hp a b Ha. apply Hs. rewrite Hp. set_solver. Qed.

(** Sequencing: a step that did not stop followed by another one. *)
Lemma Step_trans (h1 h2 : point → Prop) tried pts n m0 r n1 m1 r2 n2 m2 stop :
  (∃ out, pts ≡ₚ out ++ r ∧ r `sublist_of` pts ∧ Inv (tried ++ out) n1 ∧
     (∀ p, p ∈ out → h1 p) ∧ m1 = (m0 || negb (bool_decide (out = []))) ∧
     (out = [] → r = pts ∧ n1 = n ∧ ∀ p, p ∈ pts → ¬ h1 p) ∧
     Step h2 (tried ++ out) r n1 m1 r2 n2 m2 stop) →
  Step (λ p, h1 p ∨ h2 p) tried pts n m0 r2 n2 m2 stop.
Proof.
  intros (out & Hp & Hsub & I & Hh & Hm & Hno & (out2 & Hp2 & Hsub2 & I2 & Hh2 & Hm2 & Hno2) & Hb & Hg & Hst).
  split; [|done]. exists (out ++ out2). rewrite app_assoc.
  split; [rewrite Hp, Hp2; by rewrite app_assoc|].
  split; [by etrans|]. split; [done|]. split; [|split].
  - intros p Hin. apply elem_of_app in Hin as [?|?]; [left; auto|right; auto].
  - rewrite Hm2, Hm. rewrite <-orb_assoc. f_equal.
    destruct out, out2; reflexivity.
  - intros E Es. apply app_eq_nil in E as [-> ->]. destruct (Hno eq_refl) as (-> & -> & Hn1).
    destruct (Hno2 eq_refl Es) as (-> & -> & Hn2). split; [done|]. split; [done|].
    intros p Hin [?|?]; [by eapply Hn1|by eapply Hn2].
Qed.

Lemma Step_impl (h h' : point → Prop) tried pts n m0 r n' m stop :
  (∀ p, h p ↔ h' p) → Step h tried pts n m0 r n' m stop → Step h' tried pts n m0 r n' m stop.
Proof.
  intros E ((out & H1 & H2 & H3 & H4 & H5 & H6) & H). split; [|done]. exists out.
  split; [done|]. split; [done|]. split; [done|]. split; [intros p Hp; apply E; auto|].
  split; [done|]. intros Ho Hs. destruct (H6 Ho Hs) as (?&?&Hn). split; [done|]. split; [done|].
  intros p Hp Hh. apply (Hn p Hp). by apply E.
Qed.

Lemma quadrants_spec k i qs : ∀ tried pts n m,
  Inv tried n → NoDup (p_id <$> tried ++ pts) → stations_ok pts → full n = false → pts ≠ [] →
  ∃ r n' m' stop, quadrants k i qs pts n m = SDone (r, n', m', stop) ∧
    Step (λ p, ∃ q, q ∈ qs ∧ hit k i q p) tried pts n m r n' m' stop.
Proof.
  induction qs as [|q qs IH]; intros tried pts n m I ND Hst Hf Hne.
  { exists pts, n, m, false. split; [done|]. split.
    - exists []. rewrite (app_nil_r tried). split; [done|]. split; [done|]. split; [done|].
      split; [set_solver|]. split; [by rewrite orb_false_r|]. intros _ _. split; [done|]. split; [done|].
      intros p _ (q & Hq & _). by apply elem_of_nil in Hq.
    - apply full_false in Hf as Hf'. split; [lia|]. split; [done|]. done. }
  cbn [Select_Model.quadrants].
  destruct (scan_spec k i q pts tried n I ND Hst) as (r & n1 & m1 & Hs & out & Hp & Hsub & I1 & Hh & Hm0 & Hm1 & Hle & Hle').
  rewrite Hs. cbn [sbind].
  assert (m || m1 = m || negb (bool_decide (out = []))) as Hm.
  { f_equal. destruct m1.
    - specialize (Hm1 eq_refl). by rewrite bool_decide_false.
    - destruct (Hm0 eq_refl) as (-> & _). done. }
  assert (maxNum = 0 ∨ amount n1 ≤ maxNum)%nat as Hb.
  { apply full_false in Hf. lia. }
  assert (∀ stop', stop' = true → r = [] ∨ full n1 = true →
     Step (λ p, ∃ q0, q0 ∈ q :: qs ∧ hit k i q0 p) tried pts n m r n1 (m || m1) stop') as Hstop.
  { intros stop' -> Hr. split; [|split; [done|split; [done|auto]]]. exists out.
    split; [done|]. split; [done|]. split; [done|]. split; [|split; [done|done]].
    intros p Hin. exists q. split; [by left|]. by apply Hh. }
  destruct (decide (r = [])) as [Er|Er].
  { exists r, n1, (m || m1), true. split; [done|]. apply Hstop; auto. }
  destruct (full n1) eqn:Ef.
  { exists r, n1, (m || m1), true. split; [done|]. apply Hstop; auto. }
  destruct (IH (tried ++ out) r n1 (m || m1)) as (r2 & n2 & m2 & stop & Hq & HS).
  - done.
  - by eapply NoDup_split.
  - by eapply stations_split.
  - done.
  - done.
  - exists r2, n2, m2, stop. split; [done|].
    eapply Step_impl; [|eapply (Step_trans (hit k i q) (λ p, ∃ q0, q0 ∈ qs ∧ hit k i q0 p))].
    + intros p. split.
      * intros [H|(q0 & H1 & H2)]; [exists q; split; [by left|done]|exists q0; split; [by right|done]].
      * intros (q0 & H1 & H2). apply elem_of_cons in H1 as [->|H1]; [by left|right; eauto].
    + exists out. split; [done|]. split; [done|]. split; [done|]. split; [done|]. split; [done|].
      split; [|done]. intros ->.
      destruct m1; [exfalso; by apply Hm1|]. by destruct (Hm0 eq_refl) as (_ & ? & ? & ?).
Qed.

Lemma bad_range_false l h pts : l <= h → bad_range l h pts = false.
Proof.
  intros H. unfold bad_range. apply not_true_is_false. intros E.
  apply existsb_exists in E as (p & _ & E). apply andb_true_iff in E as [E1 E2].
  apply Qltb_lt in E1. apply Qltb_lt in E2. lra.
Qed.

Definition octants : list nat := [1;2;3;4;5;6;7;8]%nat.

Lemma ellipsoids_spec k is : ∀ tried pts n m,
  (∀ i, i ∈ is → lo k i <= hi k i) →
  Inv tried n → NoDup (p_id <$> tried ++ pts) → stations_ok pts → full n = false → pts ≠ [] →
  ∃ r n' m' stop, ellipsoids k is pts n m = SDone (r, n', m', stop) ∧
    Step (λ p, ∃ i q, i ∈ is ∧ q ∈ octants ∧ hit k i q p) tried pts n m r n' m' stop.
Proof.
  induction is as [|i is IH]; intros tried pts n m Hlh I ND Hst Hf Hne.
  { exists pts, n, m, false. split; [done|]. split.
    - exists []. rewrite (app_nil_r tried). split; [done|]. split; [done|]. split; [done|].
      split; [set_solver|]. split; [by rewrite orb_false_r|]. intros _ _. split; [done|]. split; [done|].
      intros p _ (i & q & Hi & _). by apply elem_of_nil in Hi.
    - apply full_false in Hf as Hf'. split; [lia|]. split; [done|]. done. }
  cbn [Select_Model.ellipsoids]. rewrite bad_range_false by (apply Hlh; by left).
  fold octants.
  destruct (quadrants_spec k i octants tried pts n m I ND Hst Hf Hne) as (r & n1 & m1 & stop & Hs & HS).
  rewrite Hs. cbn [sbind]. destruct stop.
  { exists r, n1, m1, true. split; [done|].
    destruct HS as ((out & H1 & H2 & H3 & H4 & H5 & H6) & H). split; [|done]. exists out.
    split; [done|]. split; [done|]. split; [done|].
    split; [|split; [done|done]]. intros p Hp. destruct (H4 p Hp) as (q & ? & ?).
    exists i, q. split; [by left|done]. }
  destruct HS as ((out & Hp & Hsub & I1 & Hh & Hm & Hno) & Hb & Hg & _).
  destruct (Hg eq_refl) as [Hf1 Hr].
  destruct (IH (tried ++ out) r n1 m1) as (r2 & n2 & m2 & stop & Hq & HS).
  - intros j Hj. apply Hlh. by right.
  - done.
  - by eapply NoDup_split.
  - by eapply stations_split.
  - done.
  - done.
  - exists r2, n2, m2, stop. split; [done|].
    eapply Step_impl; [|eapply (Step_trans (λ p, ∃ q, q ∈ octants ∧ hit k i q p)
        (λ p, ∃ i q, i ∈ is ∧ q ∈ octants ∧ hit k i q p))].
    + intros p. split.
      * intros [(q & ? & ?)|(j & q & ? & ? & ?)].
        -- exists i, q. split; [by left|done].
        -- exists j, q. split; [by right|done].
      * intros (j & q & Hj & ? & ?). apply elem_of_cons in Hj as [->|Hj]; [left; eauto|right; eauto].
    + exists out. split; [done|]. split; [done|]. split; [done|]. split; [done|]. split; [done|].
      split; [|done]. auto.
Qed.

Lemma rounds_spec fuel k : ∀ tried pts n,
  (∀ i, i ∈ seq 0 k → lo k i <= hi k i) →
  Inv tried n → NoDup (p_id <$> tried ++ pts) → stations_ok pts → full n = false → pts ≠ [] →
  (length pts < fuel)%nat →
  ∃ r n', rounds_robin fuel k pts n = SDone (r, n') ∧
    ∃ out, pts ≡ₚ out ++ r ∧ Inv (tried ++ out) n' ∧
      (∀ p, p ∈ out → ∃ i q, i ∈ seq 0 k ∧ q ∈ octants ∧ hit k i q p) ∧
      (maxNum = 0 ∨ amount n' ≤ maxNum)%nat ∧
      (full n' = true ∨ ∀ p i q, p ∈ r → i ∈ seq 0 k → q ∈ octants → ¬ hit k i q p).
Proof.
  induction fuel as [|fuel IH]; intros tried pts n Hlh I ND Hst Hf Hne Hfuel; [lia|].
  cbn [Select_Model.rounds_robin].
  destruct (ellipsoids_spec k (seq 0 k) tried pts n false Hlh I ND Hst Hf Hne)
    as (r & n1 & m1 & stop & Hs & (out & Hp & Hsub & I1 & Hh & Hm & Hno) & Hb & Hg & Hstop).
  rewrite Hs. cbn [sbind]. destruct stop.
  { exists r, n1. split; [done|]. exists out. split; [done|]. split; [done|]. split; [done|].
    split; [done|]. destruct (Hstop eq_refl) as [->|?]; [|by left]. right. set_solver. }
  destruct (Hg eq_refl) as [Hf1 Hr].
  destruct (decide (out = [])) as [->|Ho].
  - destruct (Hno eq_refl eq_refl) as (-> & -> & Hn). rewrite bool_decide_true in Hm by done.
    simpl in Hm. subst m1. exists pts, n. split; [done|]. exists []. split; [done|]. split; [done|].
    split; [set_solver|]. split; [done|]. right. intros p i q Hpp Hi Hq Hhit. apply (Hn p Hpp). eauto.
  - rewrite bool_decide_false in Hm by done. simpl in Hm. subst m1.
    destruct (IH (tried ++ out) r n1) as (r2 & n2 & Hq & out2 & Hp2 & I2 & Hh2 & Hb2 & Hend).
    + done.
    + done.
    + by eapply NoDup_split.
    + by eapply stations_split.
    + done.
    + done.
    + rewrite Hp, app_length in Hfuel. destruct out; [done|]. simpl in Hfuel. lia.
    + exists r2, n2. split; [done|]. exists (out ++ out2). rewrite app_assoc.
      split; [rewrite Hp, Hp2; by rewrite app_assoc|]. split; [done|].
      split; [|done]. intros p Hin. apply elem_of_app in Hin as [?|?]; auto.
Qed.

Lemma lo_le_hi k i : 0 <= maxDist → lo k i <= hi k i.
Proof.
  intros H. unfold Select_Model.lo, Select_Model.hi.
  assert (0 <= vert maxDist k i) as Hv.
  { unfold vert. apply Qle_shift_div_l.
    - change 0 with (inject_Z 0). rewrite <-Zlt_Qlt. apply Z.pow_pos_nonneg; lia.
    - lra. }
  destruct (decide (i = 0%nat)); [done|]. apply Qle_shift_div_r; lra.
Qed.
End proofs.
