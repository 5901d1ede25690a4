(** C93: the lag of two traces in double precision. *)
From Coq Require Import ZArith Reals Lra Psatz.
From Flocq Require Import Core BinarySingleNaN Relative.
From stdpp Require Import numbers list.
From Verif Require Import Geo_Model Double_Model Double_Props XCorr_Model XCorr_Props XCorrD_Model XCorrD_Props GridD_Props XcorrLagD_Model.
Local Open Scope R_scope.
Local Coercion Z.of_nat : nat >-> Z.
Local Instance p53 : Prec_gt_0 53 := prec53.
Local Instance flt_valid : Valid_exp (FLT_exp (-1074) 53) := FLT_exp_valid (-1074) 53.
Local Instance flt_mono : Monotone_exp (FLT_exp (-1074) 53) := FLT_exp_monotone (-1074) 53.

(** * Specification *)
(** The samples of a trace are multiples of 2^e, at most A times it *)
Definition grid_trace (e A : Z) (t : dtrace) : Prop := ∀ x, x ∈ dt_samples t → on_grid e A x.
Definition len (t : dtrace) : Z := length (dt_samples t).
Definition sample_at (t : dtrace) (i : Z) : R := B2R (nth (Z.to_nat i) (dt_samples t) zero).
(** the window of [l] as long as [s], [k] samples from its middle *)
Definition window (s l : dtrace) (k : Z) (i : nat) : R := sample_at l (Z.div (len l - len s) 2 + k + i).
Definition whole (s : dtrace) (i : nat) : R := sample_at s i.
Definition usable (s l : dtrace) (m k : Z) : Prop :=
  (- m ≤ k ≤ m)%Z ∧ ¬ constant (whole s) (length (dt_samples s)) ∧ ¬ constant (window s l k) (length (dt_samples s)).
Definition corr (s l : dtrace) (k : Z) : R := pearson (whole s) (window s l k) (length (dt_samples s)).

(** * Proofs *)
(** ** Commutativity *)
Lemma dmul_comm x y : dmul x y = dmul y x.
Proof.
  unfold dmul. destruct x as [s| s| |s m e B], y as [t|t| |t n f C]; cbn; try done; try (by rewrite xorb_comm).
  apply B2SF_inj. rewrite !B2SF_SF2B. rewrite (xorb_comm s t), (Pos.mul_comm m n), (Z.add_comm e f). done.
Qed.
Lemma dsub_zero x : dsub x zero = x.
Proof. unfold dsub. destruct x as [[]| | |s m e B]; done. Qed.
(** ** Traces of the same length *)
Fixpoint dsumf (f : nat → double) (k : nat) : double := match k with O => zero | S k => dadd (dsumf f k) (f k) end.
Lemma dsumf_ext f g k : (∀ i, (i < k)%nat → f i = g i) → dsumf f k = dsumf g k.
Proof. induction k as [|k IH]; intros H; cbn [dsumf]; [done|]. rewrite IH, H by (try lia; intros; apply H; lia). done. Qed.
(** the coefficient of two windows *)
Definition root (n : nat) (x : nat → double) : double :=
  dsqrt (dsub (dmul (of_Z n) (dsumf (λ i, dmul (x i) (x i)) n)) (dmul (dsumf x n) (dsumf x n))).
Definition coeff_of (n : nat) (x y : nat → double) : double :=
  ddiv (dsub (dmul (of_Z n) (dsumf (λ i, dmul (x i) (y i)) n)) (dmul (dsumf x n) (dsumf y n))) (dmul (root n x) (root n y)).
Lemma coeff_sym n x y : coeff_of n x y = coeff_of n y x.
Proof.
  unfold coeff_of. rewrite (dmul_comm (dsumf x n)), (dmul_comm (root n x)).
  rewrite (dsumf_ext (λ i, dmul (x i) (y i)) (λ i, dmul (y i) (x i))) by (intros; apply dmul_comm). done.
Qed.
Lemma cc_once (dS dL : Z → option double) (n : nat) (lag0 : double) (x y : nat → double) : (0 < n)%nat → (∀ i : nat, (i < n)%nat → dS i = Some (x i)) → (∀ i : nat, (i < n)%nat → dL i = Some (y i)) →
  dcross_correlation dS dL n n lag0 = Some (of_Z 0, coeff_of n x y).
Proof.
  intros Hn HS HL. unfold dcross_correlation.
  assert (dprepare dS dL n = Some (DSums (dsumf x n) (dsumf (λ i, dmul (x i) (x i)) n) (dsumf y (n - 1)) (dsumf (λ i, dmul (y i) (y i)) (n - 1)))) as ->.
  { unfold dprepare. assert (∀ k, (k ≤ n)%nat → loop (dprepare_step dS dL n) (seq 0 k) (DSums zero zero zero zero) =
      Some (DSums (dsumf x k) (dsumf (λ i, dmul (x i) (x i)) k) (dsumf y (min k (n - 1))) (dsumf (λ i, dmul (y i) (y i)) (min k (n - 1))))) as K.
    2: { rewrite K by lia. by replace (min n (n - 1)) with (n - 1)%nat by lia. }
    induction k as [|k IH]; intros Hk; [done|]. rewrite loop_S, IH by lia. cbn [mbind option_bind]. unfold dprepare_step. rewrite HS by lia. cbn [mbind option_bind].
    destruct (decide (n - 1 ≤ k)%Z) as [Hd|Hd].
    - replace (min k (n - 1)) with (n - 1)%nat by lia. replace (min (S k) (n - 1)) with (n - 1)%nat by lia. done.
    - rewrite HL by lia. cbn [mbind option_bind]. replace (min k (n - 1)) with k by lia. replace (min (S k) (n - 1)) with (S k) by lia. done. }
  cbn [mbind option_bind]. replace (Z.to_nat (n - n + 1)) with 1%nat by lia. cbn [seq loop]. unfold ddelay_step.
  replace (0%nat + n - 1)%Z with (Z.of_nat (n - 1)) by lia. rewrite (HL (n - 1)%nat) by lia. cbn [mbind option_bind].
  pose proof (HL 0%nat Hn) as H0. change (Z.of_nat 0) with 0%Z in *. rewrite H0.
  cbn [mbind option_bind c_sumL c_sumL2 c_last c_coeff c_delay d_sumS d_sumS2 d_sumL d_sumL2].
  assert (dinner dS dL n 0 = Some (dsumf (λ i, dmul (x i) (y i)) n)) as ->.
  { unfold dinner. set (f := λ (sumSL : double) (i : nat), _).
    assert (∀ k, (k ≤ n)%nat → loop f (seq 0 k) zero = Some (dsumf (λ i, dmul (x i) (y i)) k)) as K; [|apply K; lia].
    induction k as [|k IH]; intros Hk; [done|]. rewrite loop_S, IH by lia. cbn [mbind option_bind]. unfold f. rewrite HS by lia. cbn [mbind option_bind].
    replace (k + 0%nat)%Z with (Z.of_nat k) by lia. rewrite HL by lia. done. }

  cbn [mbind option_bind]. rewrite dsub_zero. change (dmul zero zero) with zero. rewrite dsub_zero.
  change (negb (is_finite B754_nan)) with true. cbn [orb c_delay c_coeff]. f_equal.
  destruct n as [|n]; [lia|]. replace (S n - 1)%nat with n by lia. done.
Qed.
Lemma dread_some l (i : nat) : (i < length l)%nat → dread l i = Some (nth i l zero).
Proof.
  intros H. unfold dread. rewrite decide_True by lia. rewrite Nat2Z.id, nth_lookup. destruct (lookup_lt_is_Some_2 l i H) as [x ->]. done.
Qed.
Lemma to_int32_val x r : val x r → 0 <= r → r < b2 31 → to_int32 x = Some (Zfloor r).
Proof.
  intros [F E] H0 H1. unfold to_int32. rewrite F.
  assert (Btrunc x = Zfloor r) as ->.
  { pose proof (Btrunc_correct 53 1024 emax1024 x) as C. rewrite E in C. rewrite round_FIX_IZR in C. apply eq_IZR in C. rewrite C. by apply Ztrunc_floor. }
  assert (0 ≤ Zfloor r)%Z by (apply Zfloor_lub; exact H0).
  assert (Zfloor r < 2 ^ 31)%Z. { apply lt_IZR. eapply Rle_lt_trans; [apply Zfloor_lb|exact H1]. }
  assert ((- 2 ^ 31 <=? Zfloor r)%Z = true) as -> by (apply Z.leb_le; lia). assert ((Zfloor r <? 2 ^ 31)%Z = true) as -> by (by apply Z.ltb_lt). done.
Qed.
(** the number of samples of the delay *)
Lemma delay_samples d f D F : val d D → val f F → 0 <= D → 0 <= F → D * F < b2 31 - 1 →
  to_int32 (dmul d f) = Some (Zfloor (rnd (D * F))) ∧ (0 ≤ Zfloor (rnd (D * F)))%Z ∧
  IZR (Zfloor (rnd (D * F))) <= D * F + u * (D * F) + b2 (-1075) ∧ D * F - u * (D * F) - b2 (-1075) < IZR (Zfloor (rnd (D * F))) + 1.
Proof.
  intros Vd Vf HD HF H. assert (0 <= D * F) as P by (by apply Rmult_le_pos).
  pose proof (mul_val _ _ _ _ Vd Vf) as V. rewrite Rabs_right in V by lra.
  specialize (V ltac:(apply Rle_trans with (b2 31); [lra|apply bpow_le; lia])).
  pose proof (err (D * F)) as E. rewrite (Rabs_right (D * F)) in E by lra. apply Rabs_le_inv in E. pose proof (rnd_pos _ P) as P1.
  set (r := rnd (D * F)) in *. pose proof u_pos as U. pose proof (Zfloor_lb r). pose proof (Zfloor_ub r).
  assert (b2 (-1075) <= / 4). { apply Rle_trans with (b2 (-2)); [apply bpow_le; lia|simpl; lra]. }
  assert (u * (D * F) <= / 4).
  { apply Rle_trans with (b2 (-53) * b2 31); [rewrite u_b2; apply Rmult_le_compat_l; [apply bpow_ge_0|lra]|]. rewrite <- bpow_plus. apply Rle_trans with (b2 (-2)); [apply bpow_le; lia|simpl; lra]. }
  split; [apply to_int32_val; [done|done|lra]|]. split; [by apply Zfloor_lub|]. lra.
Qed.

(** C93: exchanging two traces of the same frequency gives the same coefficient, to the last bit, and the opposite lag.
    There is no condition on the samples. *)
Theorem C93_swap t v maxDelay lag0 lag c D F : dt_freq t = dt_freq v → val maxDelay D → val (dt_freq t) F → 0 <= D → 0 < F → D * F < b2 31 - 1 →
  dt_samples t ≠ [] → dt_samples v ≠ [] → ddxcorr t v maxDelay lag0 = Some (lag, c) →
  ∃ lag', ddxcorr v t maxDelay lag0 = Some (lag', c) ∧ B2R lag' = - B2R lag ∧ is_finite lag' = is_finite lag.
Proof.
  intros Ef Vd Vf HD HF HDF Ht Hv. destruct (delay_samples _ _ _ _ Vd Vf HD ltac:(lra) HDF) as (Em & M0 & _).
  unfold ddxcorr. rewrite <- Ef, Em. cbn [mbind option_bind].
  destruct (decide (length (dt_samples t) = length (dt_samples v))) as [El|Nl].
  - rewrite !bool_decide_false by lia. rewrite <- El, Z.sub_diag. change (Z.quot 0 2) with 0%Z. set (m := Zfloor _) in *.
    replace (if decide (0 < m)%Z then 0%Z else m) with 0%Z by (case_decide; lia).
    assert (0 < length (dt_samples t))%nat as Hp by (destruct (dt_samples t); [done|cbn; lia]).
    rewrite Z.mul_0_l, Z.add_0_r.
    rewrite (cc_once _ _ _ _ (λ i, nth i (dt_samples t) zero) (λ i, nth i (dt_samples v) zero)); [|done|intros; by apply dread_some|].
    2: { intros i Hi. rewrite Z.sub_0_r, Z.add_0_r. apply dread_some. lia. }
    rewrite (cc_once _ _ _ _ (λ i, nth i (dt_samples v) zero) (λ i, nth i (dt_samples t) zero)); [|done|intros; apply dread_some; lia|].
    2: { intros i Hi. rewrite Z.sub_0_r, Z.add_0_r. apply dread_some. lia. }
    cbn [mbind option_bind fst snd]. rewrite coeff_sym. intros H. apply (inj Some) in H. apply pair_equal_spec in H as [<- <-]. eexists. split; [reflexivity|]. split; [|done].
    assert (B2R (ddiv (dsub (of_Z 0) (of_Z 0)) (dt_freq t)) = 0) as ->; [|by rewrite Ropp_0].
    assert (val (dsub (of_Z 0) (of_Z 0)) 0) as V0 by by split.
    destruct (div_val _ _ 0 F V0 Vf ltac:(lra)) as [_ E].
    + unfold Rdiv. rewrite Rmult_0_l, Rabs_R0. apply bpow_ge_0.
    + rewrite E. unfold Rdiv. by rewrite Rmult_0_l, rnd_0.
  - destruct (decide (length (dt_samples v) < length (dt_samples t))%nat) as [Hl|Hl].
    + rewrite (bool_decide_true (length (dt_samples v) < _)%nat), (bool_decide_false (length (dt_samples t) < _)%nat) by lia.
      destruct (dcross_correlation _ _ _ _ _) as [[dl cc]|]; [|done]. cbn [mbind option_bind fst snd]. intros [= <- <-]. eexists. split; [reflexivity|].
      rewrite B2R_Bopp, is_finite_Bopp. split; [lra|done].
    + rewrite (bool_decide_false (length (dt_samples v) < _)%nat), (bool_decide_true (length (dt_samples t) < _)%nat) by lia.
      destruct (dcross_correlation _ _ _ _ _) as [[dl cc]|]; [|done]. cbn [mbind option_bind fst snd]. intros [= <- <-]. eexists. split; [reflexivity|].
      rewrite B2R_Bopp, is_finite_Bopp. split; [lra|done].
Qed.

(** ** The lag *)
Lemma quot_div a : (0 ≤ a)%Z → Z.quot a 2 = Z.div a 2.
Proof. intros H. apply Z.quot_div_nonneg; lia. Qed.
Lemma int_ratio d m f F : val f F → b2 (-100) <= F <= b2 100 → (0 ≤ d < 2 ^ 32)%Z → (0 ≤ m < 2 ^ 32)%Z →
  val (ddiv (dsub (of_Z d) (of_Z m)) f) (rnd (IZR (d - m) / F)) ∧ Rabs (rnd (IZR (d - m) / F) - IZR (d - m) / F) <= u * Rabs (IZR (d - m) / F).
Proof.
  intros Vf [F1 F2] Hd Hm. pose proof (fx_sub _ _ _ _ 0 (fx_of_Z d ltac:(lia)) (fx_of_Z m ltac:(lia)) ltac:(lia) ltac:(unfold mid; lia)) as V.
  unfold fx in V. change (b2 0) with 1 in V. rewrite Rmult_1_r in V. pose proof (bpow_gt_0 radix2 (-100)) as P.
  assert (/ F <= b2 100 ∧ b2 (-100) <= / F) as [I1 I2].
  { assert (b2 100 = / b2 (-100)) as E1 by (rewrite <- bpow_opp; done). assert (b2 (-100) = / b2 100) as E2 by (rewrite <- bpow_opp; done).
    split; [rewrite E1; apply Rinv_le; lra|rewrite E2; apply Rinv_le; lra]. }
  assert (Rabs (IZR (d - m)) <= b2 32) as Hk. { rewrite <- abs_IZR. change (b2 32) with (IZR (2 ^ 32)). apply IZR_le. lia. }
  assert (Rabs (IZR (d - m) / F) = Rabs (IZR (d - m)) * / F) as Ea. { unfold Rdiv. rewrite Rabs_mult, (Rabs_right (/ F)) by lra. done. }
  split.
  - apply div_val; [done|done|lra|]. rewrite Ea. apply Rle_trans with (b2 32 * b2 100); [|rewrite <- bpow_plus; apply bpow_le; lia].
    apply Rmult_le_compat; [apply Rabs_pos|lra|done|done].
  - apply rel. destruct (decide (d - m = 0)%Z) as [->|N]; [left; unfold Rdiv; ring|]. right. rewrite Ea.
    apply Rle_trans with (1 * b2 (-100)); [rewrite Rmult_1_l; apply bpow_le; lia|]. apply Rmult_le_compat; [lra|lra| |done].
    rewrite <- abs_IZR. apply (IZR_le 1). lia.
Qed.
Definition first_longer (t v : dtrace) : bool := bool_decide (len v < len t)%Z.
Definition short_of (t v : dtrace) : dtrace := if first_longer t v then v else t.
Definition long_of (t v : dtrace) : dtrace := if first_longer t v then t else v.
Definition sign_of (t v : dtrace) : R := if first_longer t v then -1 else 1.

(** C93: for samples that are multiples of a power of two (as in C87_grid) the lag is a whole number of samples within the
    maximum delay, divided by the frequency with one rounding, with the best coefficient of these up to rounding; the
    largest shift is the maximum delay in samples up to one sample and rounding, unless the long trace is too short. *)
Theorem C93_lag t v maxDelay lag0 D F et ev A :
  val maxDelay D → val (dt_freq t) F → 0 <= D → b2 (-100) <= F <= b2 100 → D * F < b2 31 - 1 →
  dt_samples t ≠ [] → dt_samples v ≠ [] → (len t < 2 ^ 31)%Z → (len v < 2 ^ 31)%Z →
  grid_trace et A t → grid_trace ev A v → (-200 ≤ et ≤ 200)%Z → (-200 ≤ ev ≤ 200)%Z → (1 ≤ A)%Z →
  (2 * (len (short_of t v) * A) * (len (short_of t v) * A) < 2 ^ 53)%Z →
  ∃ lag c m, ddxcorr t v maxDelay lag0 = Some (lag, c) ∧
    let s := short_of t v in let l := long_of t v in
    (0 ≤ m ≤ Z.div (len l - len s) 2)%Z ∧ IZR m <= D * F + u * (D * F) + b2 (-1075) ∧
    (m = Z.div (len l - len s) 2 ∨ D * F - u * (D * F) - b2 (-1075) < IZR m + 1) ∧
    ((∃ k, usable s l m k) → ∃ k, usable s l m k ∧ is_finite lag = true ∧
       Rabs (B2R lag - sign_of t v * (IZR k / F)) <= u * Rabs (IZR k / F) ∧
       is_finite c = true ∧ Rabs (B2R c - corr s l k) <= 5 / 2 ^ 53 * Rabs (corr s l k) ∧ Rabs (B2R c) <= 1 + 5 / 2 ^ 53 ∧
       (∀ k', usable s l m k' → Rabs (corr s l k') <= (1 + 11 / 2 ^ 53) * Rabs (corr s l k))) ∧
    (¬ (∃ k, usable s l m k) → c = B754_nan).
Proof.
  intros Vd Vf HD HF HDF Ht Hv Lt Lv Gt Gv Het Hev HA1 HA.
  pose proof (bpow_gt_0 radix2 (-100)) as P100.
  destruct (delay_samples _ _ _ _ Vd Vf HD ltac:(lra) HDF) as (Em & M0 & M1 & M2).
  unfold ddxcorr. rewrite Em. cbn [mbind option_bind].
  assert (bool_decide (length (dt_samples v) < length (dt_samples t))%nat = first_longer t v) as ->.
  { unfold first_longer, len. apply bool_decide_ext. lia. }
  change (if first_longer t v then v else t) with (short_of t v). change (if first_longer t v then t else v) with (long_of t v).
  assert (∃ eS eL, (-200 ≤ eS ≤ 200)%Z ∧ (-200 ≤ eL ≤ 200)%Z ∧ grid_trace eS A (short_of t v) ∧ grid_trace eL A (long_of t v)) as (eS & eL & HeS & HeL & GS & GL).
  { unfold short_of, long_of. destruct (first_longer t v); [by exists ev, et|by exists et, ev]. }
  assert (dt_samples (short_of t v) ≠ [] ∧ (len (short_of t v) ≤ len (long_of t v))%Z ∧ (len (long_of t v) < 2 ^ 31)%Z) as (Hs & Hlen & Hlong).
  { unfold short_of, long_of, first_longer. case_bool_decide; split_and!; try done; lia. }
  unfold sign_of. set (sw := first_longer t v). set (s := short_of t v) in *. set (l := long_of t v) in *. clearbody s l sw. clear Gt Gv Het Hev Lt Lv Ht Hv.
  fold (len s) (len l). rewrite quot_div by lia. set (mid := Z.div (len l - len s) 2).
  set (m0 := Zfloor _) in *. set (m := if decide (mid < m0)%Z then mid else m0).
  assert (0 ≤ mid ∧ 2 * mid ≤ len l - len s)%Z as [Mid0 Mid1]. { unfold mid. split; [apply Z.div_pos; lia|apply Z.mul_div_le; lia]. }
  assert (0 ≤ m ≤ mid)%Z as Hm by (unfold m; case_decide; lia).
  assert (0 < length (dt_samples s))%nat as Hp by (destruct (dt_samples s); [done|cbn; lia]).
  destruct (C87_grid (dread (dt_samples s)) (λ i, dread (dt_samples l) (i + (mid - m))) (length (dt_samples s)) (len s + m * 2) lag0
    (λ i, nth i (dt_samples s) zero) (λ i, nth (i + Z.to_nat (mid - m)) (dt_samples l) zero) eS eL A Hp) as (dl & c & E & H1 & H2).
  { unfold len in *. lia. }
  { intros i Hi. split; [by apply dread_some|]. apply GS. apply elem_of_list_lookup. exists i. rewrite nth_lookup. by destruct (lookup_lt_is_Some_2 _ i Hi) as [x ->]. }
  { intros i Hi. assert (i + Z.to_nat (mid - m) < length (dt_samples l))%nat as Hi' by (unfold len in *; lia). split.
    - replace (i + (mid - m))%Z with (Z.of_nat (i + Z.to_nat (mid - m))) by lia. by apply dread_some.
    - apply GL. apply elem_of_list_lookup. eexists. rewrite nth_lookup. by destruct (lookup_lt_is_Some_2 _ _ Hi') as [x ->]. }
  { done. } { done. } { done. } { done. }
  rewrite E. cbn [mbind option_bind fst snd].
  set (def := defined _ _ _ _) in *. set (rh := rho _ _ _) in *.
  assert (∀ k d, d = Z.to_nat (k + m) → (- m ≤ k)%Z → ∀ i, window s l k i = w_of (λ i, nth (i + Z.to_nat (mid - m)) (dt_samples l) zero) d i) as EW.
  { intros k d -> Hk i. unfold window, w_of, sample_at. do 2 f_equal. fold mid. lia. }
  assert (∀ i, whole s i = x_of (λ i, nth i (dt_samples s) zero) i) as EX.
  { intros i. unfold whole, x_of, sample_at. by rewrite Nat2Z.id. }
  assert (∀ k d, d = Z.to_nat (k + m) → (- m ≤ k)%Z → (usable s l m k ↔ def d) ∧ corr s l k = rh d) as K.
  { intros k d Ed Hk. split.
    - unfold usable, def, defined. rewrite (constant_ext (whole s) _ _ (λ i _, EX i)), (constant_ext (window s l k) _ _ (λ i _, EW k d Ed Hk i)).
      assert ((- m ≤ k ≤ m)%Z ↔ (d ≤ len s + m * 2 - length (dt_samples s))%Z) as -> by (unfold len; lia). done.
    - unfold corr, rh, rho. apply pearson_ext; [intros; apply EX|intros; by apply EW]. }
  exists (if sw then Bopp (ddiv (dsub dl (of_Z m)) (dt_freq t)) else ddiv (dsub dl (of_Z m)) (dt_freq t)), c, m.
  split; [done|]. split; [done|].
  split. { assert (IZR m <= IZR m0); [|lra]. apply IZR_le. unfold m. case_decide; lia. }
  split. { unfold m. case_decide; [by left|by right]. }
  split.
  - intros (k0 & U0). destruct H1 as (d & Dd & -> & Fc & Ec & Bc & Mx & _).
    { exists (Z.to_nat (k0 + m)). apply (K k0); [done|apply U0|done]. }
    assert (d = Z.to_nat (Z.of_nat d - m + m)) as Ed by lia.
    destruct (K (d - m)%Z d Ed ltac:(lia)) as [Ku Kc]. exists (d - m)%Z. split; [by apply Ku|].
    assert (d ≤ len s + m * 2 - length (dt_samples s))%Z as Hd by apply Dd.
    destruct (int_ratio d m _ F Vf HF ltac:(unfold len in *; lia) ltac:(unfold len in *; lia)) as [Vq Eq].
    split. { destruct Vq as [Fq _]. destruct sw; [by rewrite is_finite_Bopp|done]. }
    split.
    { destruct Vq as [_ Bq]. destruct sw.
      - rewrite B2R_Bopp, Bq. rewrite <- Rabs_Ropp. replace (- (- rnd (IZR (d - m) / F) - -1 * (IZR (d - m) / F))) with (rnd (IZR (d - m) / F) - IZR (d - m) / F) by ring. exact Eq.
      - rewrite Bq, Rmult_1_l. exact Eq. }
    split; [done|]. rewrite Kc. split; [done|]. split; [done|].
    intros k' U'. destruct (K k' _ eq_refl ltac:(apply U')) as [Ku' ->]. apply Mx. by apply Ku'.
  - intros N. apply H2. intros (d & Dd). apply N. exists (Z.of_nat d - m)%Z. assert (d = Z.to_nat (Z.of_nat d - m + m)) as Ed by lia. by apply (K _ d Ed ltac:(lia)).
Qed.
(** C93: the lag is within the maximum delay up to rounding. *)
Corollary C93_within t v maxDelay lag0 D F et ev A :
  val maxDelay D → val (dt_freq t) F → 0 <= D → b2 (-100) <= F <= b2 100 → D * F < b2 31 - 1 →
  dt_samples t ≠ [] → dt_samples v ≠ [] → (len t < 2 ^ 31)%Z → (len v < 2 ^ 31)%Z →
  grid_trace et A t → grid_trace ev A v → (-200 ≤ et ≤ 200)%Z → (-200 ≤ ev ≤ 200)%Z → (1 ≤ A)%Z →
  (2 * (len (short_of t v) * A) * (len (short_of t v) * A) < 2 ^ 53)%Z →
  ∃ lag c, ddxcorr t v maxDelay lag0 = Some (lag, c) ∧ (is_finite c = true → is_finite lag = true ∧ Rabs (B2R lag) <= (1 + 3 * u) * D + b2 (-900)).
Proof.
  intros Vd Vf HD HF HDF Ht Hv Lt Lv Gt Gv Het Hev HA1 HA.
  destruct (C93_lag t v maxDelay lag0 D F et ev A Vd Vf HD HF HDF Ht Hv Lt Lv Gt Gv Het Hev HA1 HA) as (lag & c & m & E & Hm & M1 & _ & H1 & H2).
  exists lag, c. split; [done|]. intros Fc. set (s := short_of t v) in *. set (l := long_of t v) in *. cbv zeta in *.
  assert (¬ ¬ ∃ k, usable s l m k) as NN. { intros N. rewrite (H2 N) in Fc. done. }
  destruct (Classical_Prop.classic (∃ k, usable s l m k)) as [U|N]; [|done].
  destruct (H1 U) as (k & Uk & Fl & El & _). split; [done|]. pose proof u_pos as Hu. pose proof (bpow_gt_0 radix2 (-100)) as P.
  assert (Rabs (IZR k / F) <= D * (1 + u) + b2 (-975)) as B.
  { unfold Rdiv. rewrite Rabs_mult, (Rabs_right (/ F)) by (left; apply Rinv_0_lt_compat; lra).
    apply (Rmult_le_reg_r F); [lra|]. rewrite Rmult_assoc, Rinv_l by lra. rewrite Rmult_1_r.
    assert (Rabs (IZR k) <= IZR m) as Hk. { rewrite <- abs_IZR. apply IZR_le. destruct Uk as [? _]. lia. }
    assert (b2 (-1075) <= b2 (-975) * F). { change (-1075)%Z with (-975 + -100)%Z. rewrite bpow_plus. apply Rmult_le_compat_l; [apply bpow_ge_0|lra]. }
    lra. }
  assert (Rabs (sign_of t v * (IZR k / F)) = Rabs (IZR k / F)) as Es.
  { unfold sign_of. rewrite Rabs_mult. destruct (first_longer t v); [rewrite Rabs_left by lra|rewrite Rabs_right by lra]; lra. }
  replace (B2R lag) with ((B2R lag - sign_of t v * (IZR k / F)) + sign_of t v * (IZR k / F)) by ring.
  eapply Rle_trans; [apply Rabs_triang|]. rewrite Es.
  assert (b2 (-975) <= / 1000 * b2 (-900)). { apply Rle_trans with (b2 (-10) * b2 (-900)); [rewrite <- bpow_plus; apply bpow_le; lia|]. apply Rmult_le_compat_r; [apply bpow_ge_0|simpl; lra]. }
  assert (u * Rabs (IZR k / F) <= u * (D * (1 + u) + b2 (-975))) by (apply Rmult_le_compat_l; lra).
  pose proof (bpow_gt_0 radix2 (-900)). assert (0 <= u * D) by nra. assert (u * (u * D) <= / 1000 * (u * D)) by nra.
  assert (u * b2 (-975) <= b2 (-975)) by (pose proof (bpow_gt_0 radix2 (-975)); nra). nra.
Qed.
(** C93: a delay of 2^31 samples or more is not defined. *)
Theorem C93_huge t v maxDelay lag0 D F : val maxDelay D → val (dt_freq t) F → b2 31 <= D * F <= b2 1000 → ddxcorr t v maxDelay lag0 = None.
Proof.
  intros Vd Vf [H1 H2]. pose proof (bpow_gt_0 radix2 31) as P. pose proof (mul_val _ _ _ _ Vd Vf ltac:(rewrite Rabs_right; lra)) as V.
  unfold ddxcorr. assert (to_int32 (dmul maxDelay (dt_freq t)) = None) as ->; [|done].
  assert (b2 31 <= rnd (D * F)) as G.
  { rewrite <- (rnd_format (b2 31)) by (apply generic_format_bpow; unfold FLT_exp; lia). apply round_le; [apply flt_valid|apply valid_rnd_N|done]. }
  destruct V as [Fv Bv]. unfold to_int32. rewrite Fv.
  assert (Btrunc (dmul maxDelay (dt_freq t)) = Zfloor (rnd (D * F))) as ->.
  { pose proof (Btrunc_correct 53 1024 emax1024 (dmul maxDelay (dt_freq t))) as C. rewrite Bv in C. rewrite round_FIX_IZR in C. apply eq_IZR in C. rewrite C. apply Ztrunc_floor. lra. }
  assert (2 ^ 31 ≤ Zfloor (rnd (D * F)))%Z by (apply Zfloor_lub; exact G).
  assert ((Zfloor (rnd (D * F)) <? 2 ^ 31)%Z = false) as -> by (apply Z.ltb_ge; lia). by rewrite andb_false_r.
Qed.
(** C93 (refuted): a maximum delay of n samples, given in seconds, searches n samples. 0.29 s at 100 Hz are 28 samples *)
Theorem C93_samples_refuted : ∃ d f, d = ddiv (of_Z 29) (of_Z 100) ∧ f = of_Z 100 ∧ val f 100 ∧ Rabs (B2R d * 100 - 29) <= / 1000000000000 ∧ to_int32 (dmul d f) = Some 28%Z.
Proof.
  eexists _, _. split; [done|]. split; [done|]. split; [apply (of_Z_val 100); lia|]. split; [|vm_compute; reflexivity].
  pose proof (div_val (of_Z 29) (of_Z 100) 29 100 ltac:(apply (of_Z_val 29); lia) ltac:(apply (of_Z_val 100); lia) ltac:(lra)
    ltac:(rewrite Rabs_right by lra; apply Rle_trans with (b2 0); [simpl; lra|apply bpow_le; lia])) as [_ ->].
  pose proof (err (29 / 100)) as E. rewrite (Rabs_right (29 / 100)) in E by lra. apply Rabs_le_inv in E. pose proof u_pos.
  assert (b2 (-1075) <= / 1000000000000000). { apply Rle_trans with (b2 (-60)); [apply bpow_le; lia|simpl; lra]. }
  apply Rabs_le. lra.
Qed.

(** ** A case: 1 2 1 is one sample after the middle of the long trace; given first, the lag is 0.5 s at 2 Hz *)
Definition ints (l : list Z) : dtrace := DTrace (of_Z <$> l) (of_Z 2).
Lemma ints_grid l A : Forall (λ z, Z.abs z ≤ A ∧ A < 2 ^ 53)%Z l → grid_trace 0 A (ints l).
Proof.
  intros H x Hx. cbn [ints dt_samples] in Hx. apply elem_of_list_fmap in Hx as (z & -> & Hz). rewrite Forall_forall in H. destruct (H z Hz).
  destruct (of_Z_val z ltac:(lia)) as [Fz Ez]. split; [done|]. exists z. split; [done|]. rewrite Ez. simpl. ring.
Qed.
Example lag_case : ∃ lag c, ddxcorr (ints [1; 2; 1]%Z) (ints [0; 0; 0; 1; 2; 1; 0]%Z) (of_Z 1) zero = Some (lag, c) ∧
  (is_finite c = true → is_finite lag = true ∧ Rabs (B2R lag) <= (1 + 3 * u) * 1 + b2 (-900)).
Proof.
  apply (C93_within _ _ _ _ 1 2 0 0 2).
  - apply (of_Z_val 1); lia.
  - apply (of_Z_val 2); lia.
  - lra.
  - split; [apply Rle_trans with (b2 0); [apply bpow_le; lia|simpl; lra]|apply Rle_trans with (b2 1); [simpl; lra|apply bpow_le; lia]].
  - simpl. lra.
  - done.
  - done.
  - reflexivity.
  - reflexivity.
  - apply ints_grid. repeat constructor; lia.
  - apply ints_grid. repeat constructor; lia.
  - lia.
  - lia.
  - lia.
  - reflexivity.
Qed.
Example lag_value : show (ddxcorr (ints [1; 2; 1]%Z) (ints [0; 0; 0; 1; 2; 1; 0]%Z) (of_Z 1) zero) = Some (Some (4503599627370496, -53)%Z, Some (9007199254740990, -53)%Z)
  ∧ show (ddxcorr (ints [0; 0; 0; 1; 2; 1; 0]%Z) (ints [1; 2; 1]%Z) (of_Z 1) zero) = Some (Some (-4503599627370496, -53)%Z, Some (9007199254740990, -53)%Z).
Proof. split; vm_compute; reflexivity. Qed.

Print Assumptions C93_swap.
Print Assumptions C93_lag.
Print Assumptions C93_within.
Print Assumptions C93_huge.
Print Assumptions C93_samples_refuted.
