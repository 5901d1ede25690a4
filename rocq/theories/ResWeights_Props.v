(** C36: the weights of the residuals. *)
From Coq Require Import Reals Lra Lia.
From stdpp Require Import numbers list list_numbers sets sorting.
From Verif Require Import DDSystem_Model OrderStats_Model OrderStats_Props ResWeights_Model.
Local Open Scope R_scope.

Global Instance Rle_total : TotalOrder Rle.
Proof.
  split; [split; [split|]|].
  - intros x. apply Rle_refl.
  - intros x y z. apply Rle_trans.
  - intros x y. apply Rle_antisym.
  - intros x y. destruct (Rtotal_order x y) as [|[|]]; [left|by right; left|right; right]; split; lra.
Qed.

(** ** Specification *)
(** The median: the middle value, or the mean of the two middle values, of the sorted list *)
Definition is_median (l : list R) (v : R) : Prop :=
  ∀ s, sorted_of Rle l s →
    if decide (length l mod 2 = 0)%nat then ∃ x y, s !! (length l / 2 - 1)%nat = Some x ∧ s !! (length l / 2)%nat = Some y ∧ v = (x + y) / 2
    else s !! (length l / 2)%nat = Some v.

Section props.
Variable nthe : list R → nat → list R.
Hypothesis Hnth : nthe_spec Rle nthe.

Lemma median_ok (l : list R) : l ≠ [] → ∃ v, median Rle 0 r_avg nthe l = Some v ∧ is_median l v.
Proof using Hnth.
  intros Hl. destruct (C20_median Rle 0 r_avg nthe Hnth l (merge_sort Rle l) Hl (sorted_exists Rle l)) as (v & H1 & H2).
  exists v. split; [done|]. intros s Hs. by rewrite (sorted_of_unique Rle l s (merge_sort Rle l) Hs (sorted_exists Rle l)).
Qed.
Lemma median_bounds (l : list R) (v lo hi : R) : l ≠ [] → is_median l v → Forall (λ x, lo <= x <= hi) l → lo <= v <= hi.
Proof using.
  intros Hl Hv HF. specialize (Hv _ (sorted_exists Rle l)).
  assert (HF' : ∀ i x, merge_sort Rle l !! i = Some x → lo <= x <= hi).
  { intros i x Hx. rewrite Forall_forall in HF. apply HF. rewrite <- (merge_sort_Permutation Rle l). by eapply elem_of_list_lookup_2. }
  destruct (decide _) as [_|_]; [|by eapply HF'].
  destruct Hv as (x & y & Hx & Hy & ->). apply HF' in Hx, Hy. lra.
Qed.

Lemma cutoff_pos (alpha mad : R) : 0 < alpha → 0 < mad → 0 < alpha * mad / MAD_gn.
Proof using. intros. unfold MAD_gn. apply Rdiv_lt_0_compat; nra. Qed.
(** The weight as a real function *)
Definition wfun (c res : R) : R := Rmax (1 - (res / c) * (res / c)) 0 * Rmax (1 - (res / c) * (res / c)) 0.
Lemma weight_fin (alpha mad res : R) : 0 < alpha → 0 < mad → weight_of alpha mad res = EFin (wfun (alpha * mad / MAD_gn) res).
Proof using.
  intros Ha Hm. pose proof (cutoff_pos alpha mad Ha Hm) as Hc. unfold weight_of, wfun. set (c := alpha * mad / MAD_gn) in *.
  cbn [e_div]. destruct (Req_EM_T c 0); [lra|]. cbn [e_mul e_sub e_neg e_add]. unfold e_max. cbn [e_ltb].
  replace (1 + - (res / c * (res / c))) with (1 - res / c * (res / c)) by ring.
  destruct (Rlt_dec _ _).
  - cbn [e_mul]. rewrite Rmax_right by lra. done.
  - cbn [e_mul]. rewrite Rmax_left by lra. done.
Qed.
Lemma sq_div (c r : R) : 0 < c → r / c * (r / c) = Rabs r * Rabs r / (c * c).
Proof using. intros. replace (Rabs r * Rabs r) with (r * r) by (rewrite <- Rabs_mult; symmetry; apply Rabs_pos_eq; nra). field. lra. Qed.

Lemma rw_unfold (alpha : R) (l : list R) : l ≠ [] → residual_weights nthe alpha l =
  (med ← median Rle 0 r_avg nthe l; mad ← median_abs_dev Rle 0 r_avg r_absdiff nthe l med; Some (weight_of alpha mad <$> l)).
Proof using. by destruct l. Qed.

(** ** C36 *)

(** Weights are finite and in [0,1] when the residuals are spread, 1 at zero, non-increasing in the absolute residual and 0
    exactly from the cutoff on *)
Theorem C36_weights_partial (alpha : R) (residuals : list R) : 0 < alpha → residuals ≠ [] →
  ∃ med mad out, is_median residuals med ∧ is_median ((λ r, Rabs (r - med)) <$> residuals) mad ∧ 0 <= mad ∧
    residual_weights nthe alpha residuals = Some out ∧
    (0 < mad → ∃ ws : list R, out = EFin <$> ws ∧ length ws = length residuals ∧
      (∀ i r w, residuals !! i = Some r → ws !! i = Some w →
         0 <= w <= 1 ∧ (r = 0 → w = 1) ∧ (w = 0 ↔ alpha * mad / (67449 / 100000) <= Rabs r)) ∧
      (∀ i j r r' w w', residuals !! i = Some r → ws !! i = Some w → residuals !! j = Some r' → ws !! j = Some w' →
         Rabs r <= Rabs r' → w' <= w)).
Proof using Hnth.
  intros Ha Hne. destruct (median_ok residuals Hne) as (med & H1 & H2).
  set (devs := (λ r, Rabs (r - med)) <$> residuals).
  assert (Hdne : devs ≠ []) by (unfold devs; by destruct residuals).
  destruct (median_ok devs Hdne) as (mad & H3 & H4).
  exists med, mad, (weight_of alpha mad <$> residuals).
  assert (Hmad : 0 <= mad).
  { destruct (Rle_dec 0 mad) as [|Hn]; [done|]. exfalso.
    (* all deviations are between 0 and their largest *)
    assert (∃ hi, Forall (λ x, 0 <= x <= hi) devs) as [hi Hhi].
    { unfold devs. clear. induction residuals as [|r l [hi IH]]; [exists 0; constructor|]. exists (Rmax hi (Rabs (r - med))).
      rewrite fmap_cons, Forall_cons. split; [split; [apply Rabs_pos|apply Rmax_r]|].
      eapply Forall_impl; [exact IH|]. intros x [Hx1 Hx2]. split; [done|]. eapply Rle_trans; [exact Hx2|apply Rmax_l]. }
    pose proof (median_bounds devs mad 0 hi Hdne H4 Hhi). lra. }
  split; [done|]. split; [done|]. split; [done|]. split.
  { rewrite rw_unfold by done. rewrite H1. cbn [mbind option_bind].
    unfold median_abs_dev. change ((λ v, r_absdiff v med) <$> residuals) with devs. rewrite H3. done. }
  intros Hm. set (c := alpha * mad / MAD_gn). pose proof (cutoff_pos alpha mad Ha Hm) as Hc. fold c in Hc.
  exists (wfun c <$> residuals). split; [|split; [by rewrite fmap_length|split]].
  - rewrite <- list_fmap_compose. apply list_fmap_ext. intros i r _. cbn. by apply weight_fin.
  - intros i r w Hr Hw. rewrite list_lookup_fmap, Hr in Hw. injection Hw as <-.
    change (alpha * mad / (67449 / 100000)) with c. unfold wfun. rewrite sq_div by done.
    pose proof (Rabs_pos r) as Hr0. set (q := Rabs r) in *.
    assert (Hq : 0 <= q * q / (c * c)) by (apply Rmult_le_pos; [nra|left; apply Rinv_0_lt_compat; nra]).
    split; [|split].
    + pose proof (Rmax_r (1 - q * q / (c * c)) 0). assert (Rmax (1 - q * q / (c * c)) 0 <= 1) by (apply Rmax_lub; lra). nra.
    + intros ->. unfold q. rewrite Rabs_R0. replace (1 - 0 * 0 / (c * c)) with 1 by (field; lra). rewrite Rmax_left by lra. lra.
    + assert (Hiff : 1 - q * q / (c * c) <= 0 ↔ c <= q).
      { replace (1 - q * q / (c * c)) with ((c - q) * ((c + q) / (c * c))) by (field; lra).
        assert (0 < (c + q) / (c * c)) by (apply Rdiv_lt_0_compat; nra). split; intros; nra. }
      rewrite <- Hiff. split.
      * intros H0. destruct (Rle_dec (1 - q * q / (c * c)) 0) as [|Hn]; [done|]. rewrite Rmax_left in H0 by lra. nra.
      * intros H0. rewrite Rmax_right by lra. lra.
  - intros i j r r' w w' Hr Hw Hr' Hw' Hle. rewrite list_lookup_fmap, Hr in Hw. rewrite list_lookup_fmap, Hr' in Hw'. injection Hw as <-. injection Hw' as <-.
    unfold wfun. rewrite !sq_div by done. pose proof (Rabs_pos r). set (q := Rabs r) in *. set (q' := Rabs r') in *.
    assert (q * q / (c * c) <= q' * q' / (c * c)) by (apply Rmult_le_compat_r; [left; apply Rinv_0_lt_compat; nra|nra]).
    assert (Hmm : Rmax (1 - q' * q' / (c * c)) 0 <= Rmax (1 - q * q / (c * c)) 0) by (apply Rle_max_compat_r; lra).
    pose proof (Rmax_r (1 - q' * q' / (c * c)) 0). nra.
Qed.
Print Assumptions C36_weights_partial.

(** With no spread (one observation, or all residuals equal): weight 0, and NaN for a zero residual *)
Theorem C36_no_spread_refuted (alpha r : R) (n : nat) : 0 < alpha → (0 < n)%nat →
  residual_weights nthe alpha (replicate n r) = Some (replicate n (if Req_EM_T r 0 then ENaN else EFin 0)).
Proof using Hnth.
  intros Ha Hn. assert (Hne : replicate n r ≠ []) by (by destruct n; [lia|]).
  destruct (median_ok (replicate n r) Hne) as (med & H1 & H2).
  assert (Hmed : med = r).
  { assert (r <= med <= r) by (eapply median_bounds; [exact Hne|done|]; apply Forall_replicate; lra). lra. }
  subst med.
  assert (Hdev : (λ v, r_absdiff v r) <$> replicate n r = replicate n 0).
  { rewrite fmap_replicate. f_equal. unfold r_absdiff. rewrite Rminus_diag_eq by done. apply Rabs_R0. }
  assert (Hne0 : replicate n 0 ≠ []) by (by destruct n; [lia|]).
  destruct (median_ok (replicate n 0) Hne0) as (mad & H3 & H4).
  assert (Hmad : mad = 0).
  { assert (0 <= mad <= 0) by (eapply median_bounds; [exact Hne0|done|]; apply Forall_replicate; lra). lra. }
  subst mad. rewrite rw_unfold by done. rewrite H1. cbn [mbind option_bind].
  unfold median_abs_dev. rewrite Hdev, H3. cbn [mbind option_bind]. rewrite fmap_replicate. do 2 f_equal.
  unfold weight_of. replace (alpha * 0 / MAD_gn) with 0 by (unfold MAD_gn; field). cbn [e_div]. destruct (Req_EM_T 0 0); [|lra].
  unfold r_inf. destruct (Req_EM_T r 0) as [->|Hr]; [done|].
  assert (Hz : e_mul (e_max (e_sub (EFin 1) EPos) (EFin 0)) (e_max (e_sub (EFin 1) EPos) (EFin 0)) = EFin 0) by (cbn; f_equal; lra).
  destruct (Rlt_dec 0 r); exact Hz.
Qed.
Print Assumptions C36_no_spread_refuted.
End props.

(** ** The hypotheses can be met *)
Lemma sort_nthe_R : nthe_spec Rle (λ l _, merge_sort Rle l).
Proof.
  intros l k Hk. split; [apply merge_sort_Permutation|].
  assert (StronglySorted Rle (merge_sort Rle l)) as HS by (apply StronglySorted_merge_sort; apply _).
  assert (k < length (merge_sort Rle l))%nat as Hk' by by rewrite merge_sort_Permutation.
  destruct (lookup_lt_is_Some_2 _ _ Hk') as [m Hm].
  exists (take k (merge_sort Rle l)), m, (drop (S k) (merge_sort Rle l)).
  pose proof (take_drop_middle _ _ _ Hm) as E. split; [done|]. split; [rewrite take_length; lia|].
  rewrite <- E in HS. clear -HS. set (a := take k _) in *. set (b := drop (S k) _) in *. clearbody a b.
  induction a as [|x a IH]; simpl in HS.
  - apply StronglySorted_inv in HS as [_ HS]. split; [constructor|done].
  - apply StronglySorted_inv in HS as [HS Hx]. destruct (IH HS) as [I1 I2]. split; [|done]. constructor; [|done].
    rewrite Forall_app, Forall_cons in Hx. tauto.
Qed.
(** Residuals -1, 0, 3 with alpha 1: the median is 0, the spread 1 *)
Example weights_ex : ∃ med mad out, is_median [-1; 0; 3] med ∧ is_median ((λ r, Rabs (r - med)) <$> [-1; 0; 3]) mad ∧ 0 < mad ∧
  residual_weights (λ l _, merge_sort Rle l) 1 [-1; 0; 3] = Some out.
Proof.
  destruct (C36_weights_partial _ sort_nthe_R 1 [-1; 0; 3]) as (med & mad & out & H1 & H2 & H3 & H4 & H5); [lra|done|].
  assert (Hs : sorted_of Rle [-1; 0; 3] [-1; 0; 3]) by (split; [done|]; repeat constructor; lra).
  pose proof (H1 _ Hs) as Hm. cbn in Hm. injection Hm as <-.
  assert (Hs2 : sorted_of Rle ((λ r, Rabs (r - 0)) <$> [-1; 0; 3]) [0; 1; 3]).
  { split; [|repeat constructor; lra]. cbn. replace (Rabs (-1 - 0)) with 1 by (rewrite Rabs_left; lra). replace (Rabs (0 - 0)) with 0 by (rewrite Rminus_0_r; by rewrite Rabs_R0).
    replace (Rabs (3 - 0)) with 3 by (rewrite Rabs_right; lra). apply perm_swap. }
  pose proof (H2 _ Hs2) as Hd. cbn in Hd. injection Hd as <-. exists 0, 1, out. split; [done|]. split; [done|]. split; [lra|done].
Qed.
