(** Order statistics (C20). *)
From stdpp Require Import numbers list list_numbers sorting.
From Verif Require Import OrderStats_Model.

Section props.
Context {D : Type} (le : relation D) `{!RelDecision le, !TotalOrder le}.
Variable zero : D.
Variable avg absdiff : D → D → D.
Variable nthe : list D → nat → list D.
(** What the standard guarantees about std::nth_element. *)
Definition nthe_spec : Prop := ∀ l k, k < length l →
  nthe l k ≡ₚ l ∧
  ∃ a m b, nthe l k = a ++ m :: b ∧ length a = k ∧ Forall (λ x, le x m) a ∧ Forall (λ x, le m x) b.
Hypothesis Hnth : nthe_spec.

(** ** Specification: [s] is the sorted list of the values. *)
Definition sorted_of (l s : list D) : Prop := s ≡ₚ l ∧ StronglySorted le s.

Lemma sorted_exists l : sorted_of l (merge_sort le l).
Proof using RelDecision0 TotalOrder0.
  split; [apply merge_sort_Permutation|]. apply StronglySorted_merge_sort; [apply _|]. intros x y. apply (total le).
Qed.
Lemma le_refl' x : le x x. Proof using RelDecision0 TotalOrder0. reflexivity. Qed.
Lemma not_le x y : ¬ le x y → le y x.
Proof using RelDecision0 TotalOrder0. intros H. destruct (total le x y); [contradiction|done]. Qed.
Lemma sorted_of_unique l s s' : sorted_of l s → sorted_of l s' → s = s'.
Proof using RelDecision0 TotalOrder0.
  intros [P1 S1] [P2 S2]. apply (StronglySorted_unique le); [done|done|by rewrite P1, P2].
Qed.
Lemma sorted_app (a b : list D) (m : D) : StronglySorted le a → StronglySorted le b →
  Forall (λ x, le x m) a → Forall (λ x, le m x) b → StronglySorted le (a ++ m :: b).
Proof using RelDecision0 TotalOrder0.
  intros Sa Sb Ha Hb. induction Sa as [|x a Sa IH Hx]; simpl.
  - constructor; [done|]. exact Hb.
  - inversion Ha as [|? ? Hxm Ha']; subst. constructor; [by apply IH|]. rewrite Forall_app, Forall_cons. split; [done|]. split; [done|].
    eapply Forall_impl; [exact Hb|]. intros y Hy. cbn. by etrans.
Qed.
(** Splitting a list at a pivot splits the sorted list. *)
Lemma pivot l s a m b : sorted_of l s → a ++ m :: b ≡ₚ l → Forall (λ x, le x m) a → Forall (λ x, le m x) b →
  ∃ sa sb, s = sa ++ m :: sb ∧ sorted_of a sa ∧ sorted_of b sb.
Proof using RelDecision0 TotalOrder0.
  intros Hs HP Ha Hb. destruct (sorted_exists a) as [Pa Sa]. destruct (sorted_exists b) as [Pb Sb].
  exists (merge_sort le a), (merge_sort le b). split; [|split; apply sorted_exists].
  apply (sorted_of_unique l); [done|]. split.
  - rewrite Pa, Pb. done.
  - apply sorted_app; [done|done|by rewrite Pa|by rewrite Pb].
Qed.
Lemma max_element_spec x l : max_element le x l ∈ x :: l ∧ Forall (λ y, le y (max_element le x l)) (x :: l).
Proof using RelDecision0 TotalOrder0.
  unfold max_element. revert x. induction l as [|y l IH]; intros x; cbn [fold_left].
  - split; [by left|]. constructor; [reflexivity|constructor].
  - destruct (decide (¬ le y x)) as [H|H].
    + destruct (IH y) as [I1 I2]. split; [by right|]. inversion I2 as [|? ? Hy Hl]; subst. constructor; [|done].
      etrans; [by apply not_le|exact Hy].
    + destruct (IH x) as [I1 I2]. inversion I2 as [|? ? Hx Hl]; subst. split.
      * apply elem_of_cons in I1 as [->|I1]; [by left|]. by right; right.
      * constructor; [done|]. constructor; [|done]. apply dec_stable in H. by etrans.
Qed.
Lemma min_element_spec x l : min_element le x l ∈ x :: l ∧ Forall (λ y, le (min_element le x l) y) (x :: l).
Proof using RelDecision0 TotalOrder0.
  unfold min_element. revert x. induction l as [|y l IH]; intros x; cbn [fold_left].
  - split; [by left|]. constructor; [reflexivity|constructor].
  - destruct (decide (¬ le x y)) as [H|H].
    + destruct (IH y) as [I1 I2]. split; [by right|]. inversion I2 as [|? ? Hy Hl]; subst. constructor; [|done].
      etrans; [exact Hy|by apply not_le].
    + destruct (IH x) as [I1 I2]. inversion I2 as [|? ? Hx Hl]; subst. split.
      * apply elem_of_cons in I1 as [->|I1]; [by left|]. by right; right.
      * constructor; [done|]. constructor; [|done]. apply dec_stable in H. by etrans.
Qed.
Lemma sorted_last_max l s m : sorted_of l s → m ∈ l → Forall (λ y, le y m) l → last s = Some m.
Proof using RelDecision0 TotalOrder0.
  intros [HP HS] Hm Hall. rewrite <- HP in Hm, Hall. clear HP.
  induction HS as [|x s HS IH Hx]; [by apply elem_of_nil in Hm|]. apply Forall_cons in Hall as [Hxm Hall]. destruct s as [|y s].
  - simpl. f_equal. apply elem_of_list_singleton in Hm. done.
  - change (last (x :: y :: s)) with (last (y :: s)). apply IH; [|done]. apply elem_of_cons in Hm as [->|Hm]; [|done].
    apply Forall_cons in Hx as [Hxy _]. apply Forall_cons in Hall as [Hym _]. assert (x = y) as -> by (by apply (anti_symm le)). by left.
Qed.
Lemma sorted_head_min l s m : sorted_of l s → m ∈ l → Forall (λ y, le m y) l → head s = Some m.
Proof using RelDecision0 TotalOrder0.
  intros [HP HS] Hm Hall. rewrite <- HP in Hm, Hall. inversion HS as [|x s' HS' Hx]; subst; [by apply elem_of_nil in Hm|].
  simpl. f_equal. apply Forall_cons in Hall as [Hmx _]. apply elem_of_cons in Hm as [->|Hm]; [done|].
  rewrite Forall_forall in Hx. apply (anti_symm le); [by apply Hx|done].
Qed.

(** C20: the median is the middle value of the sorted list, or the average of the two
    middle values; for every order of the input and every nth_element. *)
Theorem C20_median l s : l ≠ [] → sorted_of l s →
  ∃ v, median le zero avg nthe l = Some v ∧
    let n := length l in
    if decide (n mod 2 = 0) then ∃ x y, s !! (n / 2 - 1) = Some x ∧ s !! (n / 2) = Some y ∧ v = avg x y
    else s !! (n / 2) = Some v.
Proof using Hnth RelDecision0 TotalOrder0.
  intros Hl Hs. unfold median. destruct l as [|x0 l0] eqn:El; [done|]. rewrite <- El in *. clear x0 l0 El.
  assert (0 < length l) as Hlen by (destruct l; [done|simpl; lia]).
  assert (length l / 2 < length l) as Hk by (apply Nat.div_lt; lia).
  destruct (Hnth l (length l / 2) Hk) as (HP & a & m & b & E & La & Ha & Hb).
  assert (nthe l (length l / 2) !! (length l / 2) = Some m) as Em. { rewrite E, <- La. by rewrite list_lookup_middle. }
  rewrite Em. cbn [mbind option_bind]. rewrite E in HP.
  destruct (pivot l s a m b Hs HP Ha Hb) as (sa & sb & Es & Hsa & Hsb).
  assert (length sa = length l / 2) as Lsa by (rewrite <- La; apply Permutation_length, Hsa).
  assert (s !! (length l / 2) = Some m) as Esm. { rewrite Es, <- Lsa. by rewrite list_lookup_middle. }
  destruct (decide (length l mod 2 = 0)) as [Ev|Od].
  - rewrite E, (take_app_alt a (m :: b) _ (eq_sym La)). destruct a as [|x a].
    + exfalso. cbn [length] in La. pose proof (Nat.div_mod (length l) 2). lia.
    + destruct (max_element_spec x a) as [M1 M2]. eexists. split; [reflexivity|]. exists (max_element le x a), m. split; [|done].
      pose proof (sorted_last_max _ _ _ Hsa M1 M2) as HL. rewrite last_lookup in HL. rewrite Es. rewrite lookup_app_l.
      * rewrite <- Lsa. rewrite <- HL. f_equal. lia.
      * rewrite <- Lsa. cbn [length] in La. lia.
  - exists m. done.
Qed.
(** C20: so is the median absolute deviation for the deviations. *)
Theorem C20_median_abs_dev l m s : l ≠ [] → sorted_of ((λ v, absdiff v m) <$> l) s →
  ∃ v, median_abs_dev le zero avg absdiff nthe l m = Some v ∧
    let n := length l in
    if decide (n mod 2 = 0) then ∃ x y, s !! (n / 2 - 1) = Some x ∧ s !! (n / 2) = Some y ∧ v = avg x y
    else s !! (n / 2) = Some v.
Proof using Hnth RelDecision0 TotalOrder0.
  intros Hl Hs. unfold median_abs_dev. destruct (C20_median ((λ v, absdiff v m) <$> l) s) as (v & E & H); [by destruct l|done|].
  exists v. rewrite fmap_length in H. done.
Qed.

Lemma nth_range_spec pre rest k : k < length rest →
  ∃ a m b, nth_range nthe (length pre) (length pre + k) (pre ++ rest) = Some (pre ++ a ++ m :: b) ∧ a ++ m :: b ≡ₚ rest ∧
    length a = k ∧ Forall (λ x, le x m) a ∧ Forall (λ x, le m x) b.
Proof using Hnth.
  intros Hk. unfold nth_range. rewrite decide_True by lia. rewrite take_app, drop_app. replace (length pre + k - length pre) with k by lia.
  destruct (Hnth rest k Hk) as (HP & a & m & b & E & La & Ha & Hb). exists a, m, b. rewrite E in *. split; [done|]. split; [done|]. split; [done|]. split; done.
Qed.
(** C20: from four values on, the summary consists of the smallest and largest value and of
    the values at the positions n/4, n/2 and n/4 + n/2 of the sorted list. *)
Theorem C20_five_number_partial l s : 4 ≤ length l → sorted_of l s →
  ∃ r, five_number le zero nthe l = Some r ∧
    s !! 0 = Some (s_min r) ∧ s !! (length l - 1) = Some (s_max r) ∧
    s !! (length l / 4) = Some (s_q1 r) ∧ s !! (length l / 2) = Some (s_q2 r) ∧ s !! (length l / 4 + length l / 2) = Some (s_q3 r).
Proof using Hnth RelDecision0 TotalOrder0.
  intros Hn Hs. unfold five_number. destruct l as [|x0 l0] eqn:El; [simpl in Hn; lia|]. rewrite <- El in *. clear x0 l0 El.
  set (n := length l) in *. set (Q1 := n / 4). set (Q2 := n / 2).
  assert (Q1 < Q2) as H12. { unfold Q1, Q2. pose proof (Nat.div_mod n 4). pose proof (Nat.div_mod n 2). pose proof (Nat.mod_upper_bound n 4). pose proof (Nat.mod_upper_bound n 2). lia. }
  assert (0 < Q1) as H01. { unfold Q1. pose proof (Nat.div_mod n 4). pose proof (Nat.mod_upper_bound n 4). lia. }
  assert (Q1 + Q2 < n) as H3n. { unfold Q1, Q2. pose proof (Nat.div_mod n 4). pose proof (Nat.div_mod n 2). lia. }
  assert (∃ d1, Q2 = Q1 + 1 + d1) as [d1 E1] by (exists (Q2 - Q1 - 1); lia).
  assert (∃ d2, Q1 + Q2 = Q2 + 1 + d2) as [d2 E2] by (exists (Q1 - 1); lia).
  (* first call *)
  destruct (nth_range_spec [] l Q1) as (a & m1 & r1 & C1 & P1 & La & Fa & Fr1); [fold n; lia|]. cbn [length app Nat.add] in C1. rewrite C1. cbn [mbind option_bind].
  assert (length r1 = n - Q1 - 1) as Lr1. { apply Permutation_length in P1. rewrite app_length in P1. cbn [length] in P1. fold n in P1. lia. }
  destruct (pivot l s a m1 r1 Hs P1 Fa Fr1) as (sa & s1 & Es & Hsa & Hs1).
  (* second call *)
  destruct (nth_range_spec (a ++ [m1]) r1 d1) as (b & m2 & r2 & C2 & P2 & Lb & Fb & Fr2); [lia|].
  rewrite app_length in C2. cbn [length] in C2. rewrite La, <- E1, <- app_assoc in C2. cbn [app] in C2. rewrite C2. cbn [mbind option_bind].
  assert (length r2 = n - Q2 - 1) as Lr2. { apply Permutation_length in P2. rewrite app_length in P2. cbn [length] in P2. lia. }
  destruct (pivot r1 s1 b m2 r2 Hs1 P2 Fb Fr2) as (sb & s2 & Es1 & Hsb & Hs2).
  (* third call *)
  destruct (nth_range_spec ((a ++ [m1]) ++ b ++ [m2]) r2 d2) as (c & m3 & r3 & C3 & P3 & Lc & Fc & Fr3); [lia|].
  assert (length ((a ++ [m1]) ++ b ++ [m2]) = Q2 + 1) as Lpre by (rewrite !app_length; cbn [length]; lia).
  rewrite Lpre, <- E2 in C3. 
  assert (((a ++ [m1]) ++ b ++ [m2]) ++ r2 = (a ++ [m1]) ++ b ++ m2 :: r2) as EQ by (rewrite <- !app_assoc; reflexivity). rewrite EQ in C3. rewrite C3. cbn [mbind option_bind].
  assert (length r3 = n - (Q1 + Q2) - 1) as Lr3. { apply Permutation_length in P3. rewrite app_length in P3. cbn [length] in P3. lia. }
  destruct (pivot r2 s2 c m3 r3 Hs2 P3 Fc Fr3) as (sc & s3 & Es2 & Hsc & Hs3).
  assert (length sa = Q1) as Lsa by (rewrite <- La; apply Permutation_length, Hsa).
  assert (length sb = d1) as Lsb by (rewrite <- Lb; apply Permutation_length, Hsb).
  assert (length sc = d2) as Lsc by (rewrite <- Lc; apply Permutation_length, Hsc).
  assert (length s3 = length r3) as Ls3 by apply Permutation_length, Hs3.
  set (tmp := ((a ++ [m1]) ++ b ++ [m2]) ++ c ++ m3 :: r3).
  assert (tmp = a ++ m1 :: b ++ m2 :: c ++ m3 :: r3) as Et by (unfold tmp; rewrite <- !app_assoc; reflexivity).
  assert (tmp !! Q1 = Some m1) as T1. { rewrite Et, <- La. by rewrite list_lookup_middle. }
  assert (tmp !! Q2 = Some m2) as T2.
  { rewrite Et. replace (a ++ m1 :: b ++ m2 :: c ++ m3 :: r3) with ((a ++ m1 :: b) ++ m2 :: c ++ m3 :: r3) by (rewrite <- app_assoc; reflexivity).
    apply list_lookup_middle. rewrite app_length. cbn [length]. lia. }
  assert (tmp !! (Q1 + Q2) = Some m3) as T3.
  { rewrite Et. replace (a ++ m1 :: b ++ m2 :: c ++ m3 :: r3) with ((a ++ m1 :: b ++ m2 :: c) ++ m3 :: r3) by (rewrite <- app_assoc; cbn [app]; rewrite <- app_assoc; reflexivity).
    apply list_lookup_middle. rewrite app_length. cbn [length]. rewrite app_length. cbn [length]. lia. }
  rewrite T1, T2, T3. cbn [mbind option_bind].
  destruct a as [|x a]; [cbn [length] in La; lia|]. assert (tmp !! 0 = Some x) as T0 by (rewrite Et; done). rewrite T0. cbn [mbind option_bind].
  assert (take Q1 tmp = x :: a) as TK by (rewrite Et, <- La; apply take_app). rewrite TK.
  assert (drop (Q1 + Q2) tmp = m3 :: r3) as DR.
  { rewrite Et. replace ((x :: a) ++ m1 :: b ++ m2 :: c ++ m3 :: r3) with (((x :: a) ++ m1 :: b ++ m2 :: c) ++ m3 :: r3) by (rewrite <- app_assoc; cbn [app]; rewrite <- app_assoc; reflexivity).
    apply drop_app_alt. rewrite app_length. cbn [length]. rewrite app_length. cbn [length]. cbn [length] in La. lia. }
  rewrite DR. cbn [mbind option_bind]. eexists. split; [reflexivity|]. cbn [s_min s_max s_q1 s_q2 s_q3].
  assert (s = sa ++ m1 :: sb ++ m2 :: sc ++ m3 :: s3) as Ess by (rewrite Es, Es1, Es2; reflexivity).
  split; [|split; [|split; [|split]]].
  - (* minimum *)
    destruct (min_element_spec x a) as [M1 M2]. pose proof (sorted_head_min _ _ _ Hsa M1 M2) as HM. rewrite Ess.
    destruct sa as [|y sa]; [discriminate HM|]. cbn in HM |- *. exact HM.
  - (* maximum *)
    destruct (max_element_spec m3 r3) as [M1 M2].
    assert (last s = Some (max_element le m3 r3)) as HL.
    { assert (sorted_of (m3 :: r3) (m3 :: s3)) as H33.
      { split; [by constructor; apply Hs3|]. constructor; [apply Hs3|]. destruct Hs3 as [HP3 _]. by rewrite HP3. }
      pose proof (sorted_last_max _ _ _ H33 M1 M2) as H. rewrite Ess.
      replace (sa ++ m1 :: sb ++ m2 :: sc ++ m3 :: s3) with ((sa ++ m1 :: sb ++ m2 :: sc) ++ m3 :: s3) by (rewrite <- app_assoc; cbn [app]; rewrite <- app_assoc; reflexivity).
      rewrite last_app, H. done. }
    rewrite last_lookup in HL. destruct Hs as [HP _]. apply Permutation_length in HP. rewrite HP in HL. fold n in HL. replace (n - 1) with (pred n) by lia. exact HL.
  - rewrite Ess, <- Lsa. by rewrite list_lookup_middle.
  - rewrite Ess. replace (sa ++ m1 :: sb ++ m2 :: sc ++ m3 :: s3) with ((sa ++ m1 :: sb) ++ m2 :: sc ++ m3 :: s3) by (rewrite <- app_assoc; reflexivity).
    apply list_lookup_middle. rewrite app_length. cbn [length]. lia.
  - rewrite Ess. replace (sa ++ m1 :: sb ++ m2 :: sc ++ m3 :: s3) with ((sa ++ m1 :: sb ++ m2 :: sc) ++ m3 :: s3) by (rewrite <- app_assoc; cbn [app]; rewrite <- app_assoc; reflexivity).
    apply list_lookup_middle. rewrite app_length. cbn [length]. rewrite app_length. cbn [length]. lia.
Qed.
(** With one, two or three values nth_element is called with nth before first. *)
Theorem C20_small_refuted l : 1 ≤ length l ≤ 3 → five_number le zero nthe l = None.
Proof using.
  intros H. destruct l as [|x [|y [|z [|w l]]]]; cbn in H; try lia; reflexivity.
Qed.
(** The result does not depend on the order of the input. *)
Theorem C20_order_independent l l' : l ≡ₚ l' → median le zero avg nthe l = median le zero avg nthe l'.
Proof using Hnth RelDecision0 TotalOrder0.
  intros HP. destruct (decide (l = [])) as [->|N]; [apply Permutation_nil in HP; by subst|].
  assert (l' ≠ []) as N' by (intros ->; symmetry in HP; by apply Permutation_nil in HP).
  destruct (C20_median l (merge_sort le l) N (sorted_exists l)) as (v & E & H).
  assert (sorted_of l' (merge_sort le l)) as Hs' by (destruct (sorted_exists l) as [A B]; split; [by rewrite A|done]).
  destruct (C20_median l' (merge_sort le l) N' Hs') as (v' & E' & H'). rewrite E, E'. f_equal.
  rewrite <- (Permutation_length HP) in H'. cbn zeta in H, H'.
 destruct (decide _).
  - destruct H as (x & y & H1 & H2 & ->). destruct H' as (x' & y' & H1' & H2' & ->). congruence.
  - congruence.
Qed.
End props.

Print Assumptions C20_median.
Print Assumptions C20_median_abs_dev.
Print Assumptions C20_five_number_partial.
Print Assumptions C20_small_refuted.
Print Assumptions C20_order_independent.

(** ** Satisfiability: sorting is an admissible nth_element; a computed instance on Z. *)
Lemma sort_nthe_spec : nthe_spec Z.le (λ l _, merge_sort Z.le l).
Proof.
  intros l k Hk. split; [apply merge_sort_Permutation|].
  assert (StronglySorted Z.le (merge_sort Z.le l)) as HS by (apply StronglySorted_merge_sort; apply _).
  assert (k < length (merge_sort Z.le l)) as Hk' by by rewrite merge_sort_Permutation.
  destruct (lookup_lt_is_Some_2 _ _ Hk') as [m Hm].
  exists (take k (merge_sort Z.le l)), m, (drop (S k) (merge_sort Z.le l)).
  pose proof (take_drop_middle _ _ _ Hm) as E. split; [done|]. split; [rewrite take_length; lia|].
  rewrite <- E in HS. clear -HS. set (a := take k _) in *. set (b := drop (S k) _) in *. clearbody a b.
  induction a as [|x a IH]; simpl in HS.
  - apply StronglySorted_inv in HS as [_ HS]. split; [constructor|done].
  - apply StronglySorted_inv in HS as [HS Hx]. destruct (IH HS) as [I1 I2]. split; [|done]. constructor; [|done].
    rewrite Forall_app, Forall_cons in Hx. tauto.
Qed.
Example median_ex : median Z.le 0%Z (λ x y, (x + y) / 2)%Z (λ l _, merge_sort Z.le l) [7; 1; 5; 3]%Z = Some 4%Z.
Proof. vm_compute. reflexivity. Qed.
Example five_ex : five_number Z.le 0%Z (λ l _, merge_sort Z.le l) [9; 2; 7; 4; 1]%Z = Some (Summary 1 9 2 4 7)%Z.
Proof. vm_compute. reflexivity. Qed.
