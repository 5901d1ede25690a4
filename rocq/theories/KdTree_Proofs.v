(** Proofs about the KD-tree. *)
From stdpp Require Import numbers list list_numbers sorting sets.
From Verif Require Import KdTree_Model.

Section build.
Context {D : Type} (le : relation D) `{!RelDecision le}.
Variable coord : nat → nat → D.
Variable nth : nat → list nat → nat → list nat.
(** What the standard guarantees about std::nth_element. *)
Definition nth_spec : Prop := ∀ axis l mid, mid < length l →
  nth axis l mid ≡ₚ l ∧
  ∀ m, nth axis l mid !! mid = Some m →
    (∀ i x, i < mid → nth axis l mid !! i = Some x → le (coord axis x) (coord axis m)) ∧
    (∀ i x, mid < i → nth axis l mid !! i = Some x → le (coord axis m) (coord axis x)).
Hypothesis Hnth : nth_spec.

(** The split invariant at every level. *)
Fixpoint split_ok (depth : nat) (t : tree) : Prop :=
  match t with
  | Leaf => True
  | Node i a l r =>
      a = depth mod 3 ∧
      (∀ x, x ∈ indices l → le (coord a x) (coord a i)) ∧
      (∀ x, x ∈ indices r → le (coord a i) (coord a x)) ∧
      split_ok (S depth) l ∧ split_ok (S depth) r
  end.

Lemma build_spec fuel : ∀ l depth, length l ≤ fuel →
  indices (build nth fuel l depth) ≡ₚ l ∧ split_ok depth (build nth fuel l depth).
Proof using Hnth.
  induction fuel as [|fuel IH]; intros l depth Hl.
  { destruct l; [done|simpl in Hl; lia]. }
  cbn [build]. destruct (decide (length l = 0)) as [E|E]; [destruct l; [done|simpl in E; lia]|].
  set (mid := (length l - 1) / 2). set (l' := nth (depth mod 3) l mid).
  assert (mid < length l) as Hmid.
  { subst mid. pose proof (Nat.div_le_upper_bound (length l - 1) 2 (length l - 1)). lia. }
  destruct (Hnth (depth mod 3) l mid Hmid) as [Hp Hs]. fold l' in Hp, Hs.
  assert (length l' = length l) as Hlen by by rewrite Hp.
  destruct (l' !! mid) as [m|] eqn:Em; [|apply lookup_ge_None in Em; lia].
  destruct (Hs m eq_refl) as [H1 H2].
  destruct (IH (take mid l') (S depth)) as [P1 S1]; [rewrite take_length; lia|].
  destruct (IH (drop (S mid) l') (S depth)) as [P2 S2]; [rewrite drop_length; lia|].
  cbn [indices split_ok]. split.
  - rewrite P1, P2, <- Hp. rewrite <- (take_drop_middle l' mid m Em) at 3. by rewrite Permutation_middle.
  - split; [done|]. split; [|split; [|done]].
    + intros x Hx. rewrite P1 in Hx. apply elem_of_list_lookup in Hx as [i Hi].
      apply lookup_take_Some in Hi as [Hi Hlt]. by eapply H1.
    + intros x Hx. rewrite P2 in Hx. apply elem_of_list_lookup in Hx as [i Hi].
      rewrite lookup_drop in Hi. eapply H2; [|exact Hi]. lia.
Qed.
End build.

Section queries.
Context {D : Type} (le : relation D) `{!RelDecision le, !TotalOrder le}.
Notation lt x y := (¬ le y x).
Variable coord : nat → nat → D.
Variable qc dist : nat → D.
Variable adist : nat → nat → D.

Lemma le_refl x : le x x. Proof. reflexivity. Qed.
Lemma lt_le x y : lt x y → le x y.
Proof. intros H. destruct (total le x y) as [?|?]; [done|]. done. Qed.
Lemma le_trans x y z : le x y → le y z → le x z. Proof. intros. by etrans. Qed.

(** What a tree must satisfy. *)
Fixpoint sep (t : tree) : Prop :=
  match t with
  | Leaf => True
  | Node i a l r =>
      (∀ x, x ∈ indices l → le (coord a x) (coord a i)) ∧
      (∀ x, x ∈ indices r → le (coord a i) (coord a x)) ∧ sep l ∧ sep r
  end.
Lemma split_sep t : ∀ depth, split_ok le coord depth t → sep t.
Proof. induction t as [|i a l IHl r IHr]; intros depth; [done|]. intros (_ & H1 & H2 & H3 & H4). simpl. eauto 8. Qed.

(** The point [x] lies on the other side of the plane through [i]. *)
Definition across (a i x : nat) : Prop :=
  (lt (qc a) (coord a i) ∧ le (coord a i) (coord a x)) ∨ (le (coord a i) (qc a) ∧ le (coord a x) (coord a i)).
Fixpoint axes_lt3 (t : tree) : Prop :=
  match t with Leaf => True | Node _ a l r => a < 3 ∧ axes_lt3 l ∧ axes_lt3 r end.
Lemma split_axes t : ∀ depth, split_ok le coord depth t → axes_lt3 t.
Proof.
  induction t as [|i a l IHl r IHr]; intros depth; [done|]. intros (-> & _ & _ & H3 & H4).
  split; [apply Nat.mod_upper_bound; lia|]. eauto.
Qed.

Lemma far_across i a l r x : sep (Node i a l r) → x ∈ indices (far le coord qc a i l r) → across a i x.
Proof using TotalOrder0.
  intros (H1 & H2 & _ & _) Hx. unfold far in Hx. unfold across.
  destruct (decide _) as [L|L]; [left; split; [done|by apply H2]|right].
  split; [|by apply H1]. destruct (decide (le (coord a i) (qc a))); [done|]. by destruct L.
Qed.

Lemma eqD_true x y : eqD le x y = true ↔ x = y.
Proof using TotalOrder0.
  unfold eqD. rewrite bool_decide_eq_true. split; [|by intros ->].
  intros [? ?]. by apply (anti_symm le).
Qed.

(** ** search *)
Lemma search_sound t i : search le coord qc t = Some i → i ∈ indices t ∧ ∀ a, a < 3 → coord a i = qc a.
Proof using TotalOrder0.
  clear dist adist.
  induction t as [|j a l IHl r IHr]; [done|]. cbn [search indices].
  destruct (eqD le (coord 0 j) (qc 0) && eqD le (coord 1 j) (qc 1) && eqD le (coord 2 j) (qc 2)) eqn:E.
  { intros [= <-]. apply andb_prop in E as [[E1 E2]%andb_prop E3].
    apply eqD_true in E1, E2, E3. split; [by left|]. intros [|[|[|]]] Ha; try done; lia. }
  rewrite elem_of_cons, elem_of_app. intros H.
  assert (search le coord qc l = Some i ∨ search le coord qc r = Some i) as [H'|H'].
  { revert H. destruct (decide (lt (qc a) (coord a j))).
    - destruct (search le coord qc l) eqn:El; [intros; by left|]. destruct (eqD le (qc a) (coord a j)); intros H; [by right|done].
    - destruct (search le coord qc r) eqn:Er; [intros; by right|]. destruct (eqD le (qc a) (coord a j)); intros H; [by left|done]. }
  - apply IHl in H' as [? ?]. tauto.
  - apply IHr in H' as [? ?]. tauto.
Qed.
Lemma search_complete t x : sep t → axes_lt3 t → x ∈ indices t → (∀ a, a < 3 → coord a x = qc a) →
  is_Some (search le coord qc t).
Proof using TotalOrder0.
  clear dist adist.
  induction t as [|j a l IHl r IHr]; intros Hs Ha Hx Hc; [by apply elem_of_nil in Hx|].
  destruct Hs as (S1 & S2 & S3 & S4). destruct Ha as (A1 & A2 & A3). cbn [search].
  destruct (eqD le (coord 0 j) (qc 0) && eqD le (coord 1 j) (qc 1) && eqD le (coord 2 j) (qc 2)) eqn:E; [eauto|].
  cbn [indices] in Hx. rewrite elem_of_cons, elem_of_app in Hx. destruct Hx as [->|Hx].
  { exfalso. rewrite !Hc in E by lia. by rewrite !(proj2 (eqD_true _ _) eq_refl) in E. }
  destruct (decide (lt (qc a) (coord a j))) as [L|L].
  - destruct (search le coord qc l) eqn:El; [eauto|].
    destruct Hx as [Hx|Hx]; [destruct (IHl S3 A2 Hx Hc); congruence|].
    exfalso. apply L. rewrite <- Hc by done. by apply S2.
  - destruct (search le coord qc r) eqn:Er; [eauto|].
    destruct Hx as [Hx|Hx]; [|destruct (IHr S4 A3 Hx Hc); congruence].
    assert (le (coord a j) (qc a)) as L' by (destruct (decide (le (coord a j) (qc a))); [done|by destruct L]).
    assert (qc a = coord a j) as Eq. { apply (anti_symm le); [|done]. rewrite <- Hc by done. by apply S1. }
    rewrite (proj2 (eqD_true _ _) Eq). by apply IHl.
Qed.

(** ** emplace *)
Notation leq := (λ x y : D * nat, le x.1 y.1).
Lemma emplace_perm x q : emplace le x q ≡ₚ x :: q.
Proof.
  induction q as [|y q IH]; [done|]. simpl. destruct (decide _); [done|]. rewrite IH. apply Permutation_swap.
Qed.
Lemma emplace_sorted x q : StronglySorted leq q → StronglySorted leq (emplace le x q).
Proof.
  induction 1 as [|y q H1 IH H2]; [by repeat constructor|]. simpl. destruct (decide _) as [L|L].
  - constructor; [by constructor|]. apply lt_le in L. constructor; [done|].
    eapply Forall_impl; [exact H2|]. intros z Hz. by eapply le_trans.
  - constructor; [done|]. rewrite emplace_perm. constructor; [|done].
    destruct (decide (le y.1 x.1)); [done|]. by destruct L.
Qed.

(** ** radius search *)
Notation pts t := ((λ i, (dist i, i)) <$> indices t).
Definition admissible (t0 : tree) : Prop := ∀ a i x, i ∈ indices t0 → x ∈ indices t0 → a < 3 → across a i x → le (adist a i) (dist x).

Section admissible_sub.
Lemma admissible_sub t0 t : (∀ x, x ∈ indices t → x ∈ indices t0) → admissible t0 → admissible t.
Proof. intros Hs H a i x Hi Hx. apply H; by apply Hs. Qed.
End admissible_sub.

Lemma radius_sorted rad t : ∀ q, StronglySorted leq q → StronglySorted leq (radius le coord qc dist adist rad t q).
Proof.
  induction t as [|i a l IHl r IHr]; intros q H; [done|]. cbn [radius].
  set (q1 := if decide (le (dist i) rad) then _ else _).
  assert (StronglySorted leq q1) as H1 by (subst q1; destruct (decide _); [by apply emplace_sorted|done]).
  destruct (decide (lt (qc a) (coord a i))); (destruct (decide (le (adist a i) rad)); [|by auto]); auto.
Qed.
Definition opt_in (i : nat) (rad : D) : list nat := if decide (le (dist i) rad) then [i] else [].
Lemma opt_in_spec i rad : opt_in i rad ⊆+ [i] ∧ Forall (λ i, le (dist i) rad) (opt_in i rad) ∧
  ∀ q, (if decide (le (dist i) rad) then emplace le (dist i, i) q else q) ≡ₚ ((λ i, (dist i, i)) <$> opt_in i rad) ++ q.
Proof.
  unfold opt_in. destruct (decide _) as [L|L].
  - split; [done|]. split; [by constructor|]. intros q. apply emplace_perm.
  - split; [apply submseteq_nil_l|]. split; [constructor|]. done.
Qed.
Lemma radius_sound rad t : ∀ q, ∃ l : list nat, l ⊆+ indices t ∧ Forall (λ i, le (dist i) rad) l ∧
  radius le coord qc dist adist rad t q ≡ₚ ((λ i, (dist i, i)) <$> l) ++ q.
Proof.
  induction t as [|i a l IHl r IHr]; intros q.
  { exists []. split; [done|]. split; [constructor|]. done. }
  cbn [radius indices]. destruct (opt_in_spec i rad) as (Hs & Hf & Hq). specialize (Hq q).
  set (q1 := if decide (le (dist i) rad) then _ else _) in *. set (h := opt_in i rad) in *.
  assert (∀ hl hr, hl ⊆+ indices l → hr ⊆+ indices r → (h ++ hl ++ hr) ⊆+ (i :: indices l ++ indices r)) as Hsub.
  { intros hl hr Hl' Hr'. change (i :: indices l ++ indices r) with ([i] ++ (indices l ++ indices r)).
    by repeat apply submseteq_app. }
  destruct (decide (lt (qc a) (coord a i))).
  - destruct (IHl q1) as (hl & S1 & F1 & Q1).
    destruct (decide (le (adist a i) rad)).
    + destruct (IHr (radius le coord qc dist adist rad l q1)) as (hr & S2 & F2 & Q2).
      exists (h ++ hl ++ hr). split; [by apply Hsub|]. split; [rewrite !Forall_app; auto|].
      rewrite Q2, Q1, Hq, !fmap_app. solve_Permutation.
    + exists (h ++ hl ++ []). split; [apply Hsub; [done|apply submseteq_nil_l]|]. split; [rewrite !Forall_app; auto|].
      rewrite Q1, Hq, !fmap_app. simpl. solve_Permutation.
  - destruct (IHr q1) as (hr & S1 & F1 & Q1).
    destruct (decide (le (adist a i) rad)).
    + destruct (IHl (radius le coord qc dist adist rad r q1)) as (hl & S2 & F2 & Q2).
      exists (h ++ hl ++ hr). split; [by apply Hsub|]. split; [rewrite !Forall_app; auto|].
      rewrite Q2, Q1, Hq, !fmap_app. solve_Permutation.
    + exists (h ++ [] ++ hr). split; [apply Hsub; [apply submseteq_nil_l|done]|]. split; [rewrite !Forall_app; auto|].
      rewrite Q1, Hq, !fmap_app. simpl. solve_Permutation.
Qed.

Lemma filter_none rad l : (∀ x, x ∈ l → ¬ le (dist x) rad) → filter (λ i, le (dist i) rad) l = [].
Proof.
  induction l as [|x l IH]; intros H; [done|]. rewrite filter_cons, decide_False by (apply H; by left).
  apply IH. intros y Hy. apply H. by right.
Qed.
Lemma radius_complete rad t : ∀ q, sep t → axes_lt3 t → admissible t →
  radius le coord qc dist adist rad t q ≡ₚ ((λ i, (dist i, i)) <$> filter (λ i, le (dist i) rad) (indices t)) ++ q.
Proof.
  induction t as [|i a l IHl r IHr]; intros q Hs Ha Had; [done|].
  pose proof (λ x, far_across i a l r x Hs) as Hfar.
  destruct Hs as (S1 & S2 & S3 & S4). destruct Ha as (A1 & A2 & A3).
  assert (admissible l) as AL by (eapply admissible_sub; [|exact Had]; simpl; set_solver).
  assert (admissible r) as AR by (eapply admissible_sub; [|exact Had]; simpl; set_solver).
  cbn [radius indices]. destruct (opt_in_spec i rad) as (_ & _ & Hq). specialize (Hq q).
  set (q1 := if decide (le (dist i) rad) then _ else _) in *.
  assert (filter (λ i, le (dist i) rad) (i :: indices l ++ indices r) =
    opt_in i rad ++ filter (λ i, le (dist i) rad) (indices l) ++ filter (λ i, le (dist i) rad) (indices r)) as ->.
  { rewrite filter_cons, filter_app. unfold opt_in. by destruct (decide _). }
  assert (¬ le (adist a i) rad → filter (λ i, le (dist i) rad) (indices (far le coord qc a i l r)) = []) as Hnone.
  { intros L. apply filter_none. intros x Hx Hle. apply L. etrans; [|exact Hle].
    apply Had; [by left| |done|by apply Hfar].
    clear -Hx. unfold far in Hx. cbn [indices]. revert Hx. destruct (decide _); rewrite elem_of_cons, elem_of_app; tauto. }
  unfold far in Hnone. rewrite !fmap_app.
  destruct (decide (lt (qc a) (coord a i))).
  - destruct (decide (le (adist a i) rad)) as [L|L].
    + rewrite IHr, IHl, Hq by done. solve_Permutation.
    + rewrite IHl, Hq, Hnone by done. simpl. rewrite app_nil_r. solve_Permutation.
  - destruct (decide (le (adist a i) rad)) as [L|L].
    + rewrite IHl, IHr, Hq by done. solve_Permutation.
    + rewrite IHr, Hq, Hnone by done. simpl. solve_Permutation.
Qed.

(** ** Nearest neighbour *)
Definition better (s s' : option nat * D) : Prop := le s'.2 s.2.
Lemma nn_sound t : ∀ s, let s' := nn le coord qc dist adist t s in
  (s' = s ∨ ∃ i, i ∈ indices t ∧ s' = (Some i, dist i) ∧ lt (dist i) s.2).
Proof.
  induction t as [|i a l IHl r IHr]; intros s; [by left|]. cbn [nn indices].
  set (s1 := if decide (lt (dist i) s.2) then _ else _).
  assert (s1 = s ∨ (s1 = (Some i, dist i) ∧ lt (dist i) s.2)) as H1.
  { subst s1. destruct (decide _); [by right|by left]. }
  assert (∀ (s2 s3 : option nat * D) (ind : list nat), (∀ x, x ∈ ind → x ∈ indices l ++ indices r) →
    (s2 = s ∨ (∃ j, j ∈ i :: indices l ++ indices r ∧ s2 = (Some j, dist j) ∧ lt (dist j) s.2)) →
    (s3 = s2 ∨ ∃ j, j ∈ ind ∧ s3 = (Some j, dist j) ∧ lt (dist j) s2.2) →
    (s3 = s ∨ (∃ j, j ∈ i :: indices l ++ indices r ∧ s3 = (Some j, dist j) ∧ lt (dist j) s.2))) as Hstep.
  { intros s2 s3 ind Hind H2 [->|(j & Hj & -> & Hlt)]; [done|]. right. exists j.
    split; [right; by apply Hind|]. split; [done|]. destruct H2 as [->|(j2 & _ & -> & Hlt2)]; [done|].
    simpl in Hlt. intros Hle. apply Hlt. etrans; [|exact Hle]. by apply lt_le. }
  assert (s1 = s ∨ (∃ j, j ∈ i :: indices l ++ indices r ∧ s1 = (Some j, dist j) ∧ lt (dist j) s.2)) as H1'.
  { destruct H1 as [?|[? ?]]; [by left|right]. exists i. split; [by left|done]. }
  clearbody s1. clear H1.
  destruct (decide (lt (qc a) (coord a i))).
  - assert (nn le coord qc dist adist l s1 = s ∨ (∃ j, j ∈ i :: indices l ++ indices r ∧ nn le coord qc dist adist l s1 = (Some j, dist j) ∧ lt (dist j) s.2)) as H2.
    { eapply (Hstep s1 _ (indices l)); [set_solver|done|]. apply IHl. }
    destruct (decide _); [|done]. eapply (Hstep _ _ (indices r)); [set_solver|exact H2|]. apply IHr.
  - assert (nn le coord qc dist adist r s1 = s ∨ (∃ j, j ∈ i :: indices l ++ indices r ∧ nn le coord qc dist adist r s1 = (Some j, dist j) ∧ lt (dist j) s.2)) as H2.
    { eapply (Hstep s1 _ (indices r)); [set_solver|done|]. apply IHr. }
    destruct (decide _); [|done]. eapply (Hstep _ _ (indices l)); [set_solver|exact H2|]. apply IHl.
Qed.
Lemma nn_le t s : le (nn le coord qc dist adist t s).2 s.2.
Proof.
  destruct (nn_sound t s) as [->|(i & _ & -> & H)]; [done|]. by apply lt_le.
Qed.
Lemma not_lt_le x y : ¬ lt x y → le y x.
Proof. intros H. destruct (decide (le y x)); [done|]. by destruct H. Qed.
Lemma nn_complete t : ∀ s, sep t → axes_lt3 t → admissible t →
  ∀ x, x ∈ indices t → le (nn le coord qc dist adist t s).2 (dist x).
Proof.
  induction t as [|i a l IHl r IHr]; intros s Hs Ha Had x Hx; [by apply elem_of_nil in Hx|].
  pose proof (λ x, far_across i a l r x Hs) as Hfar.
  destruct Hs as (S1 & S2 & S3 & S4). destruct Ha as (A1 & A2 & A3).
  assert (admissible l) as AL by (eapply admissible_sub; [|exact Had]; simpl; set_solver).
  assert (admissible r) as AR by (eapply admissible_sub; [|exact Had]; simpl; set_solver).
  cbn [nn indices] in *.
  set (s1 := if decide (lt (dist i) s.2) then _ else _).
  assert (le s1.2 (dist i)) as H1. { subst s1. destruct (decide _) as [L|L]; [done|by apply not_lt_le]. }
  clearbody s1. unfold far in Hfar.
  destruct (decide (lt (qc a) (coord a i))).
  - set (s2 := nn le coord qc dist adist l s1). pose proof (nn_le l s1) as H2. fold s2 in H2.
    destruct (decide (lt (adist a i) s2.2)) as [L|L].
    + pose proof (nn_le r s2) as H3. apply elem_of_cons in Hx as [->|[Hx|Hx]%elem_of_app].
      * etrans; [exact H3|]. exact (le_trans _ _ _ H2 H1).
      * etrans; [exact H3|]. by apply IHl.
      * by apply IHr.
    + apply not_lt_le in L. apply elem_of_cons in Hx as [->|[Hx|Hx]%elem_of_app].
      * exact (le_trans _ _ _ H2 H1).
      * by apply IHl.
      * etrans; [exact L|]. apply Had; [by left|right; apply elem_of_app; by right|done|by apply Hfar].
  - set (s2 := nn le coord qc dist adist r s1). pose proof (nn_le r s1) as H2. fold s2 in H2.
    destruct (decide (lt (adist a i) s2.2)) as [L|L].
    + pose proof (nn_le l s2) as H3. apply elem_of_cons in Hx as [->|[Hx|Hx]%elem_of_app].
      * etrans; [exact H3|]. exact (le_trans _ _ _ H2 H1).
      * by apply IHl.
      * etrans; [exact H3|]. by apply IHr.
    + apply not_lt_le in L. apply elem_of_cons in Hx as [->|[Hx|Hx]%elem_of_app].
      * exact (le_trans _ _ _ H2 H1).
      * etrans; [exact L|]. apply Had; [by left|right; apply elem_of_app; by left|done|by apply Hfar].
      * by apply IHr.
Qed.

(** ** k nearest neighbours *)
Notation mk := (λ i : nat, (dist i, i)).
Lemma sorted_last (q : list (D * nat)) y x : StronglySorted leq q → last q = Some y → x ∈ q → le x.1 y.1.
Proof.
  intros Hs Hl Hx. apply last_Some in Hl as [q' ->].
  apply elem_of_app in Hx as [Hx|Hx%elem_of_list_singleton]; [|by subst].
  clear -Hs Hx. induction q' as [|z q' IH]; [by apply elem_of_nil in Hx|].
  simpl in Hs. apply StronglySorted_inv in Hs as [Hs Hf]. apply elem_of_cons in Hx as [->|Hx]; [|by apply IH].
  apply Forall_app in Hf as [_ Hf]. by apply Forall_cons in Hf as [Hf _].
Qed.
Lemma sorted_app_l (q q' : list (D * nat)) : StronglySorted leq (q ++ q') → StronglySorted leq q.
Proof.
  induction q as [|x q IH]; intros H; [constructor|]. simpl in H. apply StronglySorted_inv in H as [H1 H2].
  constructor; [by apply IH|]. by apply Forall_app in H2 as [? _].
Qed.
Section kbest.
Variables (A : Prop) (k : nat).
Hypothesis Hk : 0 < k.
(** [q] holds [k] of the entries of [M], or all if there are fewer; under [A] the
    smallest ones. *)
Definition kbest (M q : list (D * nat)) : Prop :=
  StronglySorted leq q ∧ length q ≤ k ∧
  ∃ rest, M ≡ₚ q ++ rest ∧ (rest ≠ [] → length q = k) ∧ (A → ∀ x y, x ∈ q → y ∈ rest → le x.1 y.1).
Lemma kbest_perm M M' q : M ≡ₚ M' → kbest M q → kbest M' q.
Proof. intros HP (H1 & H2 & rest & H3 & H4). split; [done|]. split; [done|]. exists rest. by rewrite <- HP. Qed.
Lemma kbest_insert M q x : kbest M q →
  ∃ q1, (if decide (length q < k) then Some (emplace le x q)
           else y ← last q;
                if decide (lt x.1 y.1) then Some (removelast (emplace le x q)) else Some q) = Some q1 ∧
        kbest (x :: M) q1.
Proof using Hk TotalOrder0.
  intros (Hs & Hl & rest & HM & Hr & Ho). destruct (decide (length q < k)) as [L|L].
  - eexists. split; [done|]. split; [by apply emplace_sorted|]. rewrite emplace_perm. split; [simpl; lia|].
    assert (rest = []) as -> by (destruct rest; [done|]; specialize (Hr ltac:(done)); lia).
    exists []. rewrite emplace_perm, HM. split; [done|]. split; [done|]. intros _ ? ? _ H. by apply elem_of_nil in H.
  - destruct (last q) as [y|] eqn:Ey. 2: { apply last_None in Ey. subst. simpl in L. lia. }
    simpl. destruct (decide (lt x.1 y.1)) as [L2|L2].
    + eexists. split; [done|].
      assert (∃ z, emplace le x q = removelast (emplace le x q) ++ [z]) as [z Hz].
      { assert (emplace le x q ≠ []) as N by (intros E; pose proof (emplace_perm x q) as HP; rewrite E in HP; by apply Permutation_nil_cons in HP).
        exists (List.last (emplace le x q) x). by apply app_removelast_last. }
      set (q1 := removelast (emplace le x q)) in *.
      pose proof (emplace_sorted x q Hs) as Hs'. rewrite Hz in Hs'.
      pose proof (emplace_perm x q) as HP. rewrite Hz in HP.
      assert (length q1 = length q) as Hlen.
      { apply Permutation_length in HP. rewrite app_length in HP. simpl in HP. lia. }
      split; [by eapply sorted_app_l|]. split; [lia|]. exists (z :: rest). split; [|split].
      * rewrite HM. change (x :: q ++ rest) with ((x :: q) ++ rest). rewrite <- HP. by rewrite <- (assoc_L (++)).
      * lia.
      * intros HA u v Hu Hv. apply elem_of_cons in Hv as [->|Hv].
        -- apply (sorted_last _ z u Hs'); [apply last_snoc|]. apply elem_of_app. by left.
        -- assert (u ∈ x :: q) as Hu' by (rewrite <- HP; apply elem_of_app; by left).
           apply elem_of_cons in Hu' as [->|Hu']; [|by apply Ho].
           etrans; [apply lt_le; exact L2|]. apply Ho; [done| |done]. by apply last_Some_elem_of.
    + eexists. split; [done|]. split; [done|]. split; [done|]. exists (x :: rest). split; [|split].
      * rewrite HM. by rewrite Permutation_middle.
      * lia.
      * intros HA u v Hu Hv. apply elem_of_cons in Hv as [->|Hv]; [|by apply Ho].
        etrans; [by eapply sorted_last|]. by apply not_lt_le.
Qed.
Lemma kbest_prune M q l : kbest M q → ¬ length q < k → (A → ∀ y x, last q = Some y → x ∈ l → le y.1 x.1) → kbest (l ++ M) q.
Proof using Hk TotalOrder0.
  intros (Hs & Hl & rest & HM & Hr & Ho) L Hy. split; [done|]. split; [done|]. exists (l ++ rest). split; [|split].
  - rewrite HM. solve_Permutation.
  - lia.
  - intros HA u v Hu Hv. apply elem_of_app in Hv as [Hv|Hv]; [|by apply Ho].
    destruct (last q) as [y|] eqn:Ey. 2: { apply last_None in Ey. subst. by apply elem_of_nil in Hu. }
    etrans; [by eapply sorted_last|]. by apply Hy.
Qed.
Lemma knn_spec t : ∀ M q, sep t → axes_lt3 t → (A → admissible t) → kbest M q →
  ∃ q', knn le coord qc dist adist k t q = Some q' ∧ kbest ((mk <$> indices t) ++ M) q'.
Proof using Hk TotalOrder0.
  induction t as [|i a l IHl r IHr]; intros M q Hs Ha Had HM; [by exists q|].
  pose proof (λ x, far_across i a l r x Hs) as Hfar.
  destruct Hs as (S1 & S2 & S3 & S4). destruct Ha as (A1 & A2 & A3).
  assert (A → admissible l) as AL by (intros HA; eapply admissible_sub; [|by apply Had]; simpl; set_solver).
  assert (A → admissible r) as AR by (intros HA; eapply admissible_sub; [|by apply Had]; simpl; set_solver).
  assert (A → ∀ x, x ∈ mk <$> indices (far le coord qc a i l r) → le (adist a i) x.1) as Hb.
  { intros HA x Hx. apply elem_of_list_fmap in Hx as (j & -> & Hj). simpl. apply Had; [done|by left| |done|by apply Hfar].
    clear -Hj. unfold far in Hj. cbn [indices]. revert Hj. destruct (decide _); rewrite elem_of_cons, elem_of_app; tauto. }
  cbn [knn indices]. destruct (kbest_insert M q (dist i, i) HM) as (q1 & E1 & HM1). simpl in E1. rewrite E1. simpl.
  unfold far in Hb.
  assert (∀ M' q2 (t2 : tree), kbest M' q2 →
     (A → ∀ x, x ∈ mk <$> indices t2 → le (adist a i) x.1) →
     (∀ M q, kbest M q → ∃ q', knn le coord qc dist adist k t2 q = Some q' ∧ kbest ((mk <$> indices t2) ++ M) q') →
     ∃ q3, ((if decide (length q2 < k) then Some true else y ← last q2; Some (bool_decide (lt (adist a i) y.1))) ≫=
        λ again : bool, if again then knn le coord qc dist adist k t2 q2 else Some q2) = Some q3 ∧
       kbest ((mk <$> indices t2) ++ M') q3) as Hsecond.
  { intros M' q2 t2 HM2 Hb2 IH2. destruct (decide (length q2 < k)) as [L|L]; [by apply IH2|].
    destruct (last q2) as [y|] eqn:Ey. 2: { apply last_None in Ey. subst. simpl in L. lia. }
    simpl. case_bool_decide as Hy; [by apply IH2|].
    exists q2. split; [done|]. apply kbest_prune; [done|done|]. intros HA y' x Hy' Hx. assert (y' = y) as -> by congruence.
    etrans; [exact Hy|]. by apply Hb2. }
  destruct (decide (lt (qc a) (coord a i))).
  - destruct (IHl ((dist i, i) :: M) q1) as (q2 & E2 & HM2); [done..|]. rewrite E2. simpl.
    destruct (Hsecond _ q2 r HM2 Hb) as (q3 & E3 & HM3); [intros; by apply IHr|].
    exists q3. split; [exact E3|]. eapply kbest_perm; [|exact HM3]. rewrite fmap_app. solve_Permutation.
  - destruct (IHr ((dist i, i) :: M) q1) as (q2 & E2 & HM2); [done..|]. rewrite E2. simpl.
    destruct (Hsecond _ q2 l HM2 Hb) as (q3 & E3 & HM3); [intros; by apply IHl|].
    exists q3. split; [exact E3|]. eapply kbest_perm; [|exact HM3]. rewrite fmap_app. solve_Permutation.
Qed.
End kbest.

(** ** Best first search *)
Section best_first.
Variable pop : list (@item D) → option (@item D * list (@item D)).
(** What std::priority_queue guarantees. *)
Definition pop_spec : Prop := ∀ q, match pop q with
  | None => q = []
  | Some (x, q') => q ≡ₚ x :: q' ∧ ∀ y, y ∈ q' → le (key x) (key y)
  end.
Hypothesis Hpop : pop_spec.
Variable A : Prop.
Notation mk' := (λ i : nat, (i, dist i)).
Definition item_pts (x : @item D) : list (nat * D) :=
  match x with INode _ t => mk' <$> indices t | IPoint d i => [(i, d)] end.
Definition all_pts (q : list (@item D)) : list (nat * D) := q ≫= item_pts.
Definition item_size (x : @item D) : nat := match x with INode _ t => 2 * length (indices t) | IPoint _ _ => 1 end.
Definition queue_size (q : list (@item D)) : nat := sum_list (item_size <$> q).
Definition item_ok (x : @item D) : Prop :=
  match x with
  | INode d t => t ≠ Leaf ∧ sep t ∧ axes_lt3 t ∧ (A → admissible t ∧ ∀ i, i ∈ indices t → le d (dist i))
  | IPoint d i => d = dist i
  end.
Lemma all_pts_perm q q' : q ≡ₚ q' → all_pts q ≡ₚ all_pts q'.
Proof. intros H. unfold all_pts. by rewrite H. Qed.
Lemma queue_size_perm q q' : q ≡ₚ q' → queue_size q = queue_size q'.
Proof. intros H. unfold queue_size. by rewrite H. Qed.
Lemma queue_size_cons x q : queue_size (x :: q) = item_size x + queue_size q.
Proof. done. Qed.
Lemma push_node_pts d t q : all_pts (push_node d t q) = (mk' <$> indices t) ++ all_pts q.
Proof. destruct t; done. Qed.
Lemma push_node_size d t q : queue_size (push_node d t q) = 2 * length (indices t) + queue_size q.
Proof. destruct t; done. Qed.
Lemma push_node_ok d t q : (t ≠ Leaf → item_ok (INode d t)) → Forall item_ok q → Forall item_ok (push_node d t q).
Proof. intros H1 H2. destruct t; [done|]. constructor; [|done]. by apply H1. Qed.
Lemma item_key_le x p : A → item_ok x → p ∈ item_pts x → le (key x) p.2.
Proof using TotalOrder0.
  intros HA Hx Hp. destruct x as [d t|d i]; simpl in *.
  - apply elem_of_list_fmap in Hp as (i & -> & Hi). by apply Hx.
  - apply elem_of_list_singleton in Hp. by subst.
Qed.

Lemma best_first_spec callback fuel : ∀ q out, Forall item_ok q → queue_size q < fuel →
  ∃ o rest, best_first le coord qc dist adist pop fuel callback q out = (out ++ o, true) ∧
    o ++ rest ≡ₚ all_pts q ∧
    (rest = [] ∨ (o ≠ [] ∧ callback (out ++ o) = true)) ∧
    (∀ n, 0 < n < length o → callback (out ++ take n o) = false) ∧
    (A → StronglySorted (λ x y, le x.2 y.2) o ∧ ∀ x y, x ∈ o → y ∈ rest → le x.2 y.2).
Proof using Hpop TotalOrder0.
  induction fuel as [|fuel IH]; intros q out Hok Hf; [lia|]. cbn [best_first].
  pose proof (Hpop q) as Hp. destruct (pop q) as [[x q']|].
  2: { subst q. exists [], []. rewrite app_nil_r. split; [done|]. split; [done|]. split; [by left|]. split; [simpl; lia|].
       intros _. split; [constructor|]. intros x y Hx. by apply elem_of_nil in Hx. }
  destruct Hp as [HP Hmin]. rewrite HP in Hok. apply Forall_cons in Hok as [Hx Hok].
  rewrite (queue_size_perm _ _ HP) in Hf. rewrite queue_size_cons in Hf.
  destruct x as [d t|d i].
  - destruct t as [|i a l r]; [by destruct Hx|].
    destruct Hx as (_ & Hs & Ha & HA).
    pose proof (λ x, far_across i a l r x Hs) as Hfar.
    cbn [item_size indices length] in Hf. rewrite app_length in Hf.
    set (q2 := push_node _ (far le coord qc a i l r) _).
    assert (all_pts q2 ≡ₚ (mk' <$> (i :: indices l ++ indices r)) ++ all_pts q') as HP2.
    { subst q2. rewrite !push_node_pts. change (all_pts (IPoint (dist i) i :: q')) with ((i, dist i) :: all_pts q').
      cbn [fmap list_fmap app]. rewrite !fmap_app. unfold near, far. destruct (decide _); solve_Permutation. }
    assert (queue_size q2 = 2 * (length (indices l) + length (indices r)) + 1 + queue_size q') as Hsz.
    { subst q2. rewrite !push_node_size. change (queue_size (IPoint (dist i) i :: q')) with (S (queue_size q')).
      unfold near, far. destruct (decide _); lia. }
    destruct (IH q2 out) as (o & rest & E & HP3 & H3 & H4 & H5).
    { subst q2. destruct Hs as (S1 & S2 & S3 & S4). destruct Ha as (A1 & A2 & A3).
      assert (∀ t, t = near le coord qc a i l r ∨ t = far le coord qc a i l r → sep t ∧ axes_lt3 t ∧ ∀ x, x ∈ indices t → x ∈ indices (Node i a l r)) as Hsub.
      { intros t Ht. unfold near, far in Ht. cbn [indices]. destruct (decide _), Ht as [->| ->]; (split; [done|]; split; [done|]);
          intros x Hx'; rewrite elem_of_cons, elem_of_app; tauto. }
      apply push_node_ok; [|apply push_node_ok].
      - intros Hn. destruct (Hsub _ (or_intror eq_refl)) as (T1 & T2 & T3). split; [done|]. split; [done|]. split; [done|].
        intros HA'. destruct (HA HA') as [HA1 HA2]. split; [by eapply admissible_sub|].
        intros j Hj. unfold maxD. destruct (decide _); [|by apply HA2, T3].
        apply HA1; [by left|by apply T3|done|by apply Hfar].
      - intros Hn. destruct (Hsub _ (or_introl eq_refl)) as (T1 & T2 & T3). split; [done|]. split; [done|]. split; [done|].
        intros HA'. destruct (HA HA') as [HA1 HA2]. split; [by eapply admissible_sub|]. intros j Hj. by apply HA2, T3.
      - by constructor. }
    { rewrite Hsz. lia. }
    exists o, rest. split; [done|]. split; [|done]. rewrite HP3, HP2. rewrite (all_pts_perm _ _ HP). done.
  - cbn [item_size] in Hf. simpl in Hx. subst d.
    assert (A → ∀ y, y ∈ all_pts q' → le (dist i) y.2) as Hlow.
    { intros HA y Hy. apply elem_of_list_bind in Hy as (z & Hy & Hz). etrans; [by apply (Hmin z)|].
      apply item_key_le; [done| |done]. rewrite Forall_forall in Hok. by apply Hok. }
    destruct (callback (out ++ [(i, dist i)])) eqn:Ecb.
    + exists [(i, dist i)], (all_pts q'). split; [done|]. split; [by rewrite (all_pts_perm _ _ HP)|]. split; [by right|].
      split; [simpl; lia|]. intros HA. split; [by repeat constructor|].
      intros x y ->%elem_of_list_singleton Hy. by apply Hlow.
    + destruct (IH q' (out ++ [(i, dist i)]) Hok) as (o & rest & E & HP3 & H3 & H4 & H5); [lia|].
      rewrite <- (assoc_L (++)) in E, H3. simpl in E, H3.
      exists ((i, dist i) :: o), rest. split; [done|]. split; [|split; [|split]].
      * simpl. rewrite HP3. by rewrite (all_pts_perm _ _ HP).
      * destruct H3 as [H3|[_ H3]]; [by left|by right].
      * intros [|[|n]] Hn; [lia|by simpl|]. simpl in Hn. simpl. specialize (H4 (S n)). rewrite <- (assoc_L (++)) in H4. apply H4. lia.
      * intros HA. destruct (H5 HA) as [H6 H7].
        assert (∀ y, y ∈ o ++ rest → le (dist i) y.2) as Hy by (intros y Hy; rewrite HP3 in Hy; by apply Hlow).
        split.
        -- constructor; [done|]. apply Forall_forall. intros y Hyo. apply Hy. apply elem_of_app. by left.
        -- intros x y Hx' Hy'. apply elem_of_cons in Hx' as [->|Hx']; [apply Hy; apply elem_of_app; by right|by apply H7].
Qed.
End best_first.
End queries.
