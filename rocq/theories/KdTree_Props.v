(** Theorems about the KD-tree: C25, C26. *)
From stdpp Require Import numbers list sorting sets.
From Verif Require Import KdTree_Model KdTree_Proofs.

Section props.
Context {D : Type} (le : relation D) `{!RelDecision le, !TotalOrder le}.
Notation lt x y := (¬ le y x).
Variable coord : nat → nat → D.
Variable nth : nat → list nat → nat → list nat.
Hypothesis Hnth : nth_spec le coord nth.

(** C25: whatever nth_element does with equal keys, the tree built from [n] points
    contains each of them exactly once, and at every level the points of the first child
    are not above, those of the second child not below the point of the node on the
    axis of this level. *)
Theorem C25_build n :
  indices (make nth n) ≡ₚ seq 0 n ∧ split_ok le coord 0 (make nth n).
Proof using Hnth. apply (build_spec le coord nth Hnth). by rewrite seq_length. Qed.

Variable qc dist : nat → D.
Variable adist : nat → nat → D.
Notation t n := (make nth n).
Notation across := (across le coord qc).

Lemma in_tree n i : i ∈ indices (t n) ↔ i < n.
Proof using Hnth. destruct (C25_build n) as [-> _]. rewrite elem_of_seq. lia. Qed.
Lemma tree_sep n : sep le coord (t n).
Proof using Hnth. destruct (C25_build n) as [_ H]. by eapply split_sep. Qed.
Lemma tree_axes n : axes_lt3 (t n).
Proof using Hnth. destruct (C25_build n) as [_ H]. by eapply split_axes. Qed.

(** C25: search finds a point exactly if there is one with these coordinates. *)
Theorem C25_search n :
  match search le coord qc (t n) with
  | Some i => i < n ∧ ∀ a, a < 3 → coord a i = qc a
  | None => ∀ i, i < n → ∃ a, a < 3 ∧ coord a i ≠ qc a
  end.
Proof using Hnth TotalOrder0.
  destruct (search le coord qc (t n)) as [i|] eqn:E.
  - destruct (search_sound le coord qc _ _ E) as [H1 H2]. by rewrite in_tree in H1.
  - intros i Hi. assert (EqDecision D) as ED.
    { intros x y. destruct (decide (le x y)), (decide (le y x));
        [left; by apply (anti_symm le)|right; intros ->; done..]. }
    destruct (decide (coord 0 i = qc 0)); [|exists 0; split; [lia|done]].
    destruct (decide (coord 1 i = qc 1)); [|exists 1; split; [lia|done]].
    destruct (decide (coord 2 i = qc 2)); [|exists 2; split; [lia|done]].
    exfalso. destruct (search_complete le coord qc (t n) i) as [j Hj]; [apply tree_sep|apply tree_axes|by apply in_tree| |congruence].
    intros [|[|[|a]]] Ha; try done; lia.
Qed.

(** The pruning bound is valid: the distance to the plane never exceeds the distance
    to a point beyond it. *)
Definition bound_valid (n : nat) : Prop :=
  ∀ a i x, i < n → x < n → a < 3 →
    (lt (qc a) (coord a i) ∧ le (coord a i) (coord a x)) ∨ (le (coord a i) (qc a) ∧ le (coord a x) (coord a i)) →
    le (adist a i) (dist x).
Lemma valid_admissible n : bound_valid n → admissible le coord qc dist adist (t n).
Proof using Hnth. intros H a i x Hi Hx. rewrite in_tree in Hi, Hx. by apply H. Qed.

(** C26: radius search returns, sorted by distance, some of the points within the
    radius, each at most once and with its distance; all of them if the bound is valid. *)
Theorem C26_radius_sound n rad :
  let q := radius_search le coord qc dist adist rad (t n) in
  StronglySorted (λ x y, le x.1 y.1) q ∧ NoDup q.*2 ∧
  ∀ d i, (d, i) ∈ q → i < n ∧ d = dist i ∧ le d rad.
Proof using Hnth TotalOrder0.
  intros q. split; [apply radius_sorted; [done|constructor]|].
  destruct (radius_sound le coord qc dist adist rad (t n) []) as (l & H1 & H2 & H3).
  change (radius le coord qc dist adist rad (t n) []) with q in H3. rewrite app_nil_r in H3.
  destruct (C25_build n) as [HP _]. split.
  - rewrite H3, <- list_fmap_compose. unfold compose. simpl. rewrite list_fmap_id.
    apply submseteq_Permutation in H1 as [r Hr]. rewrite HP in Hr. pose proof (NoDup_seq 0 n) as N. rewrite Hr in N.
    by apply NoDup_app in N as [? _].
  - intros d i Hi. rewrite H3 in Hi. apply elem_of_list_fmap in Hi as (j & [= -> ->] & Hj).
    split; [|split; [done|]].
    + apply in_tree. by eapply elem_of_submseteq.
    + rewrite Forall_forall in H2. by apply H2.
Qed.
Theorem C26_radius_complete n rad i :
  bound_valid n → i < n → le (dist i) rad →
  (dist i, i) ∈ radius_search le coord qc dist adist rad (t n).
Proof using Hnth TotalOrder0.
  intros Hv Hi Hr. unfold radius_search.
  rewrite (radius_complete le coord qc dist adist rad (t n) [] (tree_sep n) (tree_axes n) (valid_admissible n Hv)).
  rewrite app_nil_r. apply elem_of_list_fmap. exists i. split; [done|]. apply elem_of_list_filter. split; [done|]. by apply in_tree.
Qed.

(** C26: nearest neighbour. *)
Theorem C26_nn_search n dmax :
  (∀ i, i < n → lt (dist i) dmax) →
  match nn_search le coord qc dist adist dmax (t n) with
  | NNEmpty => n = 0
  | NNUndef => False
  | NNFound i d => i < n ∧ d = dist i ∧ (bound_valid n → ∀ j, j < n → le (dist i) (dist j))
  end.
Proof using Hnth TotalOrder0.
  intros Hd. unfold nn_search. destruct (t n) as [|r a l0 r0] eqn:E.
  { destruct (C25_build n) as [HP _]. rewrite E in HP. simpl in HP. apply Permutation_nil in HP.
    destruct n; [done|]. done. }
  rewrite <- E. pose proof (nn_sound le coord qc dist adist (t n) (None, dmax)) as Hs. simpl in Hs.
  destruct Hs as [Hs|(i & Hi & Hs & Hlt)].
  - (* impossible: the root improves dmax *)
    exfalso. assert (r < n) as Hr by (apply in_tree; rewrite E; by left).
    assert (∀ u s, le (nn le coord qc dist adist u s).2 s.2) as Hle by (intros u s; exact (nn_le le coord qc dist adist u s)).
    assert (le (nn le coord qc dist adist (t n) (None, dmax)).2 (dist r)) as H.
    { rewrite E. cbn [nn]. simpl snd. rewrite (decide_True (P := lt (dist r) dmax)) by by apply Hd.
      destruct (decide (lt (qc a) (coord a r))); (destruct (decide _); [etrans; [apply Hle|apply Hle]|apply Hle]). }
    rewrite Hs in H. simpl in H. by apply (Hd r).
  - rewrite Hs. split; [by apply in_tree|]. split; [done|]. intros Hv j Hj. apply in_tree in Hj.
    pose proof (nn_complete le coord qc dist adist (t n) (None, dmax) (tree_sep n) (tree_axes n) (valid_admissible n Hv) j Hj) as H.
    by rewrite Hs in H.
Qed.

(** C26: k nearest neighbours, for k > 0: as many as there are, at most k, distinct,
    sorted, with their distance; the nearest ones if the bound is valid. *)
Theorem C26_knn_search n k : 0 < k →
  ∃ q, knn_search le coord qc dist adist k (t n) = Some q ∧
    StronglySorted (λ x y, le x.1 y.1) q ∧ length q = k `min` n ∧ NoDup q.*2 ∧
    (∀ d i, (d, i) ∈ q → i < n ∧ d = dist i) ∧
    (bound_valid n → ∀ d i j, (d, i) ∈ q → j < n → j ∉ q.*2 → le (dist i) (dist j)).
Proof using Hnth TotalOrder0.
  intros Hk. destruct (knn_spec le coord qc dist adist (bound_valid n) k Hk (t n) [] []) as (q & E & Hs & Hl & rest & HP & Hr & Ho).
  { apply tree_sep. } { apply tree_axes. } { apply valid_admissible. }
  { split; [constructor|]. split; [simpl; lia|]. exists []. split; [done|]. split; [done|]. intros _ ? ? _ H. by apply elem_of_nil in H. }
  rewrite app_nil_r in HP. destruct (C25_build n) as [HP' _]. rewrite HP' in HP.
  exists q. split; [done|]. split; [done|].
  assert (NoDup (q ++ rest).*2) as Hnd.
  { rewrite <- HP, <- list_fmap_compose. unfold compose. simpl. rewrite list_fmap_id. apply NoDup_seq. }
  assert (length q + length rest = n) as Hlen.
  { apply Permutation_length in HP. rewrite app_length, fmap_length, seq_length in HP. lia. }
  rewrite fmap_app in Hnd. apply NoDup_app in Hnd as (N1 & N2 & N3).
  split; [|split; [done|split]].
  - destruct rest as [|x rest]; simpl in Hlen; [lia|]. specialize (Hr ltac:(done)). lia.
  - intros d i Hi. assert ((d, i) ∈ (λ i, (dist i, i)) <$> seq 0 n) as H by (rewrite HP; apply elem_of_app; by left).
    apply elem_of_list_fmap in H as (j & [= -> ->] & Hj). apply elem_of_seq in Hj. split; [lia|done].
  - intros Hv d i j Hi Hj Hn.
    assert ((dist j, j) ∈ q ++ rest) as H.
    { rewrite <- HP. apply elem_of_list_fmap. exists j. split; [done|]. apply elem_of_seq. lia. }
    apply elem_of_app in H as [H|H]; [exfalso; apply Hn; apply elem_of_list_fmap; by exists (dist j, j)|].
    assert (d = dist i) as <-.
    { assert ((d, i) ∈ (λ i, (dist i, i)) <$> seq 0 n) as H' by (rewrite HP; apply elem_of_app; by left).
      by apply elem_of_list_fmap in H' as (j' & [= -> ->] & _). }
    apply (Ho Hv (d, i) (dist j, j) Hi H).
Qed.
(** For k = 0 a non-empty tree makes the code dereference rbegin() of an empty map. *)
Theorem C26_knn_zero_refuted n : 0 < n → knn_search le coord qc dist adist 0 (t n) = None.
Proof using Hnth TotalOrder0.
  intros Hn. destruct (t n) as [|r a l0 r0] eqn:E.
  - destruct (C25_build n) as [HP _]. rewrite E in HP. simpl in HP. apply Permutation_nil in HP. destruct n; [lia|done].
  - done.
Qed.

(** C26: best first search terminates; it calls the callback once for each point with
    its distance, until the callback returns true; in the order of the distance if the
    bound is valid. *)
Variable pop : list (@item D) → option (@item D * list (@item D)).
Hypothesis Hpop : pop_spec le pop.
Theorem C26_best_first n zero callback :
  (∀ i, i < n → le zero (dist i)) →
  ∃ o rest, best_first_search le coord qc dist adist pop zero callback (t n) = (o, true) ∧
    o ++ rest ≡ₚ (λ i, (i, dist i)) <$> seq 0 n ∧
    (rest = [] ∨ (o ≠ [] ∧ callback o = true)) ∧
    (∀ m, 0 < m < length o → callback (take m o) = false) ∧
    (bound_valid n → StronglySorted (λ x y, le x.2 y.2) o ∧ ∀ x y, x ∈ o → y ∈ rest → le x.2 y.2).
Proof using Hnth Hpop TotalOrder0.
  intros Hz. unfold best_first_search. destruct (C25_build n) as [HP _].
  assert (t n = Leaf ∨ t n ≠ Leaf) as [E|E] by (destruct (t n); [by left|by right]).
  - rewrite E in HP |- *. simpl in HP. apply Permutation_nil in HP. rewrite HP. exists [], []. split; [done|]. split; [done|]. split; [by left|].
    split; [simpl; lia|]. intros _. split; [constructor|]. intros x y Hx. by apply elem_of_nil in Hx.
  - destruct (best_first_spec le coord qc dist adist pop Hpop (bound_valid n) callback
      (S (2 * length (indices (t n)))) [INode zero (t n)] []) as (o & rest & E1 & H2 & H3).
    + constructor; [|constructor]. split; [done|]. split; [apply tree_sep|]. split; [apply tree_axes|].
      intros Hv. split; [by apply valid_admissible|]. intros i Hi. apply Hz. by apply in_tree.
    + unfold queue_size. simpl. lia.
    + exists o, rest. split; [destruct (t n); [done|exact E1]|].
      split; [|exact H3]. rewrite H2. unfold all_pts. simpl. rewrite app_nil_r. by rewrite HP.
Qed.
End props.

Print Assumptions C25_build.
Print Assumptions C25_search.
Print Assumptions C26_radius_sound.
Print Assumptions C26_radius_complete.
Print Assumptions C26_nn_search.
Print Assumptions C26_knn_search.
Print Assumptions C26_knn_zero_refuted.
Print Assumptions C26_best_first.

(** ** The hypotheses are satisfiable: sorting is an admissible nth_element and gives
    an admissible priority queue. *)
Section sorting.
Context {D : Type} (le : relation D) `{!RelDecision le, !TotalOrder le}.
Variable coord : nat → nat → D.
Definition by_coord (a : nat) : relation nat := λ x y, le (coord a x) (coord a y).
Local Instance by_coord_dec a : RelDecision (by_coord a). Proof. intros x y. unfold by_coord. apply _. Defined.
Definition nth_sort (axis : nat) (l : list nat) (mid : nat) : list nat := merge_sort (by_coord axis) l.
Lemma sorted_lookup {A} (R : relation A) (l : list A) : StronglySorted R l →
  ∀ i j x y, i < j → l !! i = Some x → l !! j = Some y → R x y.
Proof.
  induction 1 as [|z l H1 IH H2]; intros i j x y Hij Hi Hj; [done|].
  destruct j as [|j]; [lia|]. simpl in Hj. destruct i as [|i]; simpl in Hi.
  - injection Hi as <-. rewrite Forall_forall in H2. apply H2. by eapply elem_of_list_lookup_2.
  - apply (IH i j); [lia|done|done].
Qed.
Lemma nth_sort_spec : nth_spec le coord nth_sort.
Proof using TotalOrder0.
  intros a l mid Hmid. split; [apply merge_sort_Permutation|]. intros m Hm.
  assert (StronglySorted (by_coord a) (nth_sort a l mid)) as Hs.
  { apply StronglySorted_merge_sort; [intros x y z; unfold by_coord; by etrans|].
    intros x y. unfold by_coord. apply (total le). }
  split; intros i x Hi Hx.
  - by apply (sorted_lookup _ _ Hs i mid).
  - by apply (sorted_lookup _ _ Hs mid i).
Qed.
Definition by_key : relation (@item D) := λ x y, le (key x) (key y).
Local Instance by_key_dec : RelDecision by_key. Proof. intros x y. unfold by_key. apply _. Defined.
Definition pop_sort (q : list (@item D)) : option (@item D * list (@item D)) :=
  match merge_sort by_key q with [] => None | x :: q' => Some (x, q') end.
Lemma pop_sort_spec : pop_spec le pop_sort.
Proof using TotalOrder0.
  intros q. unfold pop_sort. pose proof (merge_sort_Permutation by_key q) as HP.
  assert (StronglySorted by_key (merge_sort by_key q)) as Hs.
  { apply StronglySorted_merge_sort; [intros x y z; unfold by_key; by etrans|].
    intros x y. unfold by_key. apply (total le). }
  destruct (merge_sort by_key q) as [|x q'].
  - by apply Permutation_nil.
  - split; [done|]. apply StronglySorted_inv in Hs as [_ Hs]. rewrite Forall_forall in Hs. done.
Qed.
End sorting.

(** An instance with a valid bound: points on a plane grid, maximum norm. *)
Definition ex_pts : list (Z * Z * Z) := [(1, 5, 0); (4, 4, 1); (1, 1, 0); (9, 2, 0); (1, 5, 0); (6, 6, 2)]%Z.
Definition ex_coord (a i : nat) : Z :=
  match ex_pts !! i with
  | Some (x, y, z) => match a with 0 => x | 1 => y | _ => z end
  | None => 0%Z
  end.
Definition ex_q (a : nat) : Z := match a with 0 => 2%Z | 1 => 4%Z | _ => 0%Z end.
Definition ex_adist (a i : nat) : Z := Z.abs (ex_coord a i - ex_q a).
Definition ex_dist (i : nat) : Z := Z.max (ex_adist 0 i) (Z.max (ex_adist 1 i) (ex_adist 2 i)).
Lemma ex_valid : bound_valid Z.le ex_coord ex_q ex_dist ex_adist 6.
Proof.
  intros a i x Hi Hx Ha H. unfold ex_dist.
  assert (ex_adist a x ≤ Z.max (ex_adist 0 x) (Z.max (ex_adist 1 x) (ex_adist 2 x)))%Z.
  { destruct a as [|[|[|]]]; lia. }
  unfold ex_adist in *. lia.
Qed.
Example ex_radius : radius_search Z.le ex_coord ex_q ex_dist ex_adist 2%Z (make (nth_sort Z.le ex_coord) 6) = [(1%Z, 4); (1%Z, 0); (2%Z, 1)].
Proof. vm_compute. reflexivity. Qed.
Example ex_nn : nn_search Z.le ex_coord ex_q ex_dist ex_adist 1000%Z (make (nth_sort Z.le ex_coord) 6) = NNFound 0 1%Z ∨
                nn_search Z.le ex_coord ex_q ex_dist ex_adist 1000%Z (make (nth_sort Z.le ex_coord) 6) = NNFound 4 1%Z.
Proof. vm_compute. auto. Qed.
Example ex_best_first : (best_first_search Z.le ex_coord ex_q ex_dist ex_adist (pop_sort Z.le) 0%Z (λ _, false) (make (nth_sort Z.le ex_coord) 6)).1.*2
  = [1; 1; 2; 3; 4; 7]%Z.
Proof. vm_compute. reflexivity. Qed.
