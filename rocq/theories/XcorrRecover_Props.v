(** The lag found by the cross-correlation corrects the difference of the picks (C73). *)
From Coq Require Import Reals Lra.
From stdpp Require Import numbers list.
From Verif Require Import Geo_Model XCorr_Model XCorr_Props.
Local Open Scope R_scope.
Local Coercion Z.of_nat : nat >-> Z.

(** ** Specification *)
(** [y] is [x] with another gain and offset *)
Definition affine_copy (x y : nat → R) (n : nat) : Prop := ∃ g o, g ≠ 0 ∧ ∀ i, (i < n)%nat → y i = g * x i + o.
(** The window of a trace that starts [k] samples after the middle one, for a short trace of
    [n] samples *)
Definition window_at (l : list R) (n : nat) (k : Z) (i : nat) : R := nth (Z.to_nat ((length l - n) / 2 + k) + i) l 0.

(** ** Coefficients of plus or minus one *)
Lemma mean_affine x n g o : (0 < n)%nat → mean (λ i, g * x i + o) n = g * mean x n + o.
Proof. intros Hn. pose proof (lt_0_INR n Hn). unfold mean. rewrite rsum_plus, rsum_scale, rsum_const. field. lra. Qed.
Lemma dev_affine x n g o i : (0 < n)%nat → dev (λ i, g * x i + o) n i = g * dev x n i.
Proof. intros Hn. unfold dev. rewrite mean_affine by done. ring. Qed.
Lemma mean_ext x y n : (∀ i, (i < n)%nat → x i = y i) → mean x n = mean y n.
Proof. intros H. unfold mean. by rewrite (rsum_ext x y n H). Qed.
Lemma pearson_ext x x' y y' n : (∀ i, (i < n)%nat → x i = x' i) → (∀ i, (i < n)%nat → y i = y' i) → pearson x y n = pearson x' y' n.
Proof.
  intros Hx Hy. pose proof (mean_ext _ _ _ Hx) as Mx. pose proof (mean_ext _ _ _ Hy) as My. unfold pearson, dev. rewrite Mx, My.
  f_equal; [|f_equal; f_equal]; try (apply rsum_ext; intros i Hi; rewrite ?Hx, ?Hy by done; done).
Qed.
Lemma pearson_affine x n g o : (0 < n)%nat → g ≠ 0 → ¬ constant x n → pearson x (λ i, g * x i + o) n = g / Rabs g.
Proof.
  intros Hn Hg Hc. rewrite <- (variance_zero x n Hn) in Hc. pose proof (variance_nonneg x n) as Hv. unfold pearson.
  rewrite (rsum_ext (λ i, dev x n i * dev (λ i, g * x i + o) n i) (λ i, g * square (dev x n i))) by (intros i Hi; rewrite dev_affine by done; unfold square; ring).
  rewrite (rsum_ext (λ i, square (dev (λ i, g * x i + o) n i)) (λ i, (g * g) * square (dev x n i))) by (intros i Hi; rewrite dev_affine by done; unfold square; ring).
  rewrite !rsum_scale. set (S := rsum (λ i, square (dev x n i)) n) in *.
  assert (0 <= g * g) by nra. rewrite sqrt_mult by lra. change (g * g) with (Rsqr g). rewrite sqrt_Rsqr_abs.
  pose proof (sqrt_lt_R0 S ltac:(lra)) as Hs. pose proof (sqrt_sqrt S Hv) as E. pose proof (Rabs_pos_lt g Hg).
  rewrite <- E at 1. field. lra.
Qed.
Lemma pearson_one x y n : (0 < n)%nat → ¬ constant x n → ¬ constant y n → 1 <= Rabs (pearson x y n) → affine_copy x y n.
Proof.
  intros Hn. rewrite <- (variance_zero x n Hn), <- (variance_zero y n Hn). pose proof (variance_nonneg x n) as VX. pose proof (variance_nonneg y n) as VY.
  unfold pearson. set (A := rsum (λ i, square (dev x n i)) n) in *. set (B := rsum (λ i, square (dev y n i)) n) in *. set (T := rsum (λ i, dev x n i * dev y n i) n) in *.
  intros NA NB H. pose proof (sqrt_lt_R0 A ltac:(lra)) as PA. pose proof (sqrt_lt_R0 B ltac:(lra)) as PB.
  pose proof (sqrt_sqrt A VX) as SA. pose proof (sqrt_sqrt B VY) as SB. set (p := R_sqrt.sqrt A) in *. set (q := R_sqrt.sqrt B) in *.
  pose proof (Rmult_lt_0_compat _ _ PA PB) as PAB.
  assert (p * q <= Rabs T) as H1.
  { unfold Rdiv in H. rewrite Rabs_mult, Rabs_inv, (Rabs_pos_eq (p * q)) in H by lra.
    apply (Rmult_le_compat_r (p * q)) in H; [|lra]. rewrite Rmult_assoc, Rinv_l in H by lra. lra. }
  assert (A * B <= T * T) as H2.
  { assert (Rabs T * Rabs T = T * T) as <- by (rewrite <- Rabs_mult; apply Rabs_pos_eq; nra). pose proof (Rmult_le_compat _ _ _ _ (Rlt_le _ _ PAB) (Rlt_le _ _ PAB) H1 H1). nra. }
  assert (T ≠ 0) as NT. { intros Z. rewrite Z, Rabs_R0 in H1. lra. }
  exists (T / A), (mean y n - T / A * mean x n). split.
  { apply Rmult_integral_contrapositive_currified; [done|]. apply Rinv_neq_0_compat. done. }
  assert (rsum (λ i, square (dev y n i - T / A * dev x n i)) n = B - T * T / A) as E.
  { rewrite (rsum_ext _ (λ i, square (dev y n i) + ((-2 * (T / A)) * (dev x n i * dev y n i) + (T / A * (T / A)) * square (dev x n i)))) by (intros; unfold square; ring).
    rewrite !rsum_plus, !rsum_scale. fold A B T. field. done. }
  assert (0 < A) as PosA by lra.
  assert (B - T * T / A <= 0) as L. { apply (Rmult_le_reg_r A); [done|]. replace ((B - T * T / A) * A) with (A * B - T * T) by (field; lra). lra. }
  assert (∀ i, (i < n)%nat → 0 <= square (dev y n i - T / A * dev x n i)) as Pos by (intros; unfold square; apply Rle_0_sqr).
  pose proof (rsum_nonneg _ n Pos) as G. assert (rsum (λ i, square (dev y n i - T / A * dev x n i)) n = 0) as Z by lra.
  intros i Hi. pose proof (rsum_zero _ n Pos Z i Hi) as K. cbn beta in K. unfold square in K. assert (dev y n i - T / A * dev x n i = 0) by (by apply Rsqr_0_uniq). unfold dev in *. lra.
Qed.

Lemma copy_constant x y n : affine_copy x y n → constant y n → constant x n.
Proof.
  intros (g & o & Hg & H) Hc i j Hi Hj. pose proof (Hc i j Hi Hj) as E. rewrite !H in E by done. apply (Rmult_eq_reg_l g); lra.
Qed.

(** C73: if exactly one of the windows that are searched is a copy of the short trace, with any
    gain and offset, the lag is the distance of this window to the middle one, and the
    coefficient is one with the sign of the gain. *)
Theorem C73_copy t u maxDelay k g o :
  0 < freq t → 0 <= maxDelay → samples t ≠ [] → samples u ≠ [] →
  let s := shorter t u in let l := longer t u in let n := length s in
  (- reach t u maxDelay ≤ k ≤ reach t u maxDelay)%Z → g ≠ 0 →
  ¬ constant (λ i, nth i s 0) n →
  (∀ i, (i < n)%nat → window_at l n k i = g * nth i s 0 + o) →
  (∀ k', (- reach t u maxDelay ≤ k' ≤ reach t u maxDelay)%Z → affine_copy (λ i, nth i s 0) (window_at l n k') n → k' = k) →
  dd_xcorr t u maxDelay 0 =
    Some ((if bool_decide (length (samples u) < length (samples t))%nat then -1 else 1) * IZR k / freq t, Fin (g / Rabs g)).
Proof.
  intros Hf Hm Ht Hu s l n Hk Hg Hc Hcopy Hu1.
  destruct (C08_in_bounds t u maxDelay 0 Hf Hm Ht Hu) as (lag & c & E & H). cbn zeta in H. destruct H as (_ & _ & H & _).
  fold s l n in H. change (∀ i, (i < n)%nat → window_at l n k i = g * nth i s 0 + o) in Hcopy.
  assert (0 < n)%nat as Hn. { unfold n, s, shorter. case_bool_decide; [destruct (samples u)|destruct (samples t)]; cbn; try done; lia. }
  assert (affine_copy (λ i, nth i s 0) (window_at l n k) n) as Hac by (exists g, o; done).
  assert (¬ constant (window_at l n k) n) as Hcw by (intros K; apply Hc; by eapply copy_constant).
  destruct H as (k1 & (Hk1 & _ & Hc1) & -> & -> & Hmax); [exists k; done|].
  assert (pearson (λ i, nth i s 0) (window_at l n k) n = g / Rabs g) as P.
  { rewrite (pearson_ext _ (λ i, nth i s 0) _ (λ i, g * nth i s 0 + o) n) by done. by apply (pearson_affine (λ i, nth i s 0)). }
  assert (Rabs (g / Rabs g) = 1) as G1.
  { pose proof (Rabs_pos_lt g Hg). unfold Rdiv. rewrite Rabs_mult, Rabs_inv, Rabs_Rabsolu. field. lra. }
  assert (k1 = k) as ->.
  { apply Hu1; [done|]. apply pearson_one; [done|done|done|]. rewrite <- G1, <- P. apply (Hmax k). done. }
  rewrite E. do 2 f_equal. f_equal. exact P.
Qed.

(** ** Arrival times *)
From Coq Require Import Ascii String QArith Qround Qreals.
From stdpp Require Import gmap strings.
From Verif Require Import TimeWindow_Model Trace_Model XcorrWindow_Model Csv_Model Catalog_Model XCorrCache_Model Solver_Model AddObs_Model XcorrBuild_Model XcorrMeasure_Props.
From Verif Require XcorrWindow_Props Trace_Props WaveCache_Model.
Local Open Scope R_scope.
Section recover.
Context {I : Type}.
Notation wave := (@Trace_Model.trace I R).
Definition seconds (z : Z) : R := IZR z / 1000000.
(** The time of a sample *)
Definition time_of (tr : wave) (i : nat) : R := seconds (t_start tr) + INR i / Q2R (t_freq tr).
(** The trace shows the signal [g] as it arrives at the time [A], with any gain and offset. *)
Definition shows (g : R → R) (A a o : R) (tr : wave) : Prop :=
  ∀ i, (i < length (t_data tr))%nat → nth i (t_data tr) 0 = a * g (time_of tr i - A) + o.
(** Where a trace starts if it is cut in the middle to the length of a shorter one *)
Definition cut_start (tr other : wave) : R :=
  seconds (t_start tr) +
  (if decide (length (t_data other) < length (t_data tr))%nat then IZR ((length (t_data tr) - length (t_data other)) / 2) / Q2R (t_freq tr) else 0).

(** C73: if the traces show the same signal, the difference of the arrival times is the
    difference of the positions of the traces minus the lag. *)
Theorem C73_arrivals (t u : wave) (g : R → R) A1 A2 a1 o1 a2 o2 D k :
  let rt := real_trace t in let ru := real_trace u in
  let swap := bool_decide (length (t_data u) < length (t_data t))%nat in
  let f := Q2R (t_freq t) in
  (t_freq t == t_freq u)%Q → (0 < t_freq t)%Q → 0 <= D → t_data t ≠ [] → t_data u ≠ [] →
  shows g A1 a1 o1 t → shows g A2 a2 o2 u → a1 ≠ 0 → a2 ≠ 0 →
  (- reach rt ru D ≤ k ≤ reach rt ru D)%Z →
  A1 - A2 = (cut_start t u - cut_start u t) - (if swap then -1 else 1) * IZR k / f →
  ¬ constant (λ i, nth i (shorter rt ru) 0) (length (shorter rt ru)) →
  (∀ k', (- reach rt ru D ≤ k' ≤ reach rt ru D)%Z →
     affine_copy (λ i, nth i (shorter rt ru) 0) (window_at (longer rt ru) (length (shorter rt ru)) k') (length (shorter rt ru)) → k' = k) →
  ∃ lag c, dd_xcorr rt ru D 0 = Some (lag, Fin c) ∧ (c = 1 ∨ c = -1) ∧ A1 - A2 = (cut_start t u - cut_start u t) - lag.
Proof.
  intros rt ru swap f Ef Hf HD Ht Hu S1 S2 N1 N2 Hk HA Hc Huniq.
  assert (0 < f) as Hf' by (apply freq_pos; done). assert (Q2R (t_freq u) = f) as Efu by (symmetry; by apply Qeq_eqR).
  assert (∃ gain off, gain ≠ 0 ∧ ∀ i, (i < length (shorter rt ru))%nat →
    window_at (longer rt ru) (length (shorter rt ru)) k i = gain * nth i (shorter rt ru) 0 + off) as (gain & off & Hg & Hcopy).
  { unfold reach in Hk. unfold shorter, longer in *. cbn [rt ru real_trace samples] in *. fold swap in Hk |- *. unfold cut_start in HA.
    destruct swap eqn:Sw; unfold swap in Sw; [apply bool_decide_eq_true in Sw|apply bool_decide_eq_false in Sw]; cbn [samples rt ru real_trace] in *.
    - exists (a1 / a2), (o1 - a1 / a2 * o2). split; [apply Rmult_integral_contrapositive_currified; [done|by apply Rinv_neq_0_compat]|].
      intros i Hi. unfold window_at. set (mid := ((length (t_data t) - length (t_data u)) / 2)%Z) in *.
      assert (0 ≤ mid + k)%Z as Hpos by lia. assert (mid * 2 ≤ length (t_data t) - length (t_data u))%Z as Hm2 by (unfold mid; pose proof (Z.mul_div_le (length (t_data t) - length (t_data u)) 2); lia).
      rewrite S1 by lia. rewrite S2 by done. rewrite decide_True in HA by done. rewrite decide_False in HA by lia.
      assert (time_of t (Z.to_nat (mid + k) + i) - A1 = time_of u i - A2) as ->.
      { unfold time_of. rewrite Efu. fold f. rewrite plus_INR, (INR_IZR_INZ (Z.to_nat (mid + k))), Z2Nat.id, plus_IZR by done. fold f in HA.
        replace (-1 * IZR k / f) with (- (IZR k / f)) in HA by (field; lra). replace ((IZR mid + IZR k + INR i) / f) with (IZR mid / f + IZR k / f + INR i / f) by (field; lra). lra. }
      field. done.
    - exists (a2 / a1), (o2 - a2 / a1 * o1). split; [apply Rmult_integral_contrapositive_currified; [done|by apply Rinv_neq_0_compat]|].
      intros i Hi. unfold window_at. set (mid := ((length (t_data u) - length (t_data t)) / 2)%Z) in *.
      assert (0 ≤ mid + k)%Z as Hpos by lia. assert (mid * 2 ≤ length (t_data u) - length (t_data t))%Z as Hm2 by (unfold mid; pose proof (Z.mul_div_le (length (t_data u) - length (t_data t)) 2); lia).
      rewrite S2 by lia. rewrite S1 by done. rewrite decide_False in HA by lia.
      assert (time_of u (Z.to_nat (mid + k) + i) - A2 = time_of t i - A1) as ->.
      { unfold time_of. rewrite Efu. fold f. rewrite plus_INR, (INR_IZR_INZ (Z.to_nat (mid + k))), Z2Nat.id, plus_IZR by done.
        assert (seconds (t_start u) + (if decide (length (t_data t) < length (t_data u))%nat then IZR mid / Q2R (t_freq u) else 0) = seconds (t_start u) + IZR mid / f) as EQ.
        { rewrite Efu. case_decide as L; [done|]. assert (mid = 0)%Z as -> by (unfold mid; assert (length (t_data u) = length (t_data t)) as -> by lia; by rewrite Z.sub_diag). field. lra. }
        rewrite EQ in HA. replace ((IZR mid + IZR k + INR i) / f) with (IZR mid / f + IZR k / f + INR i / f) by (field; lra).
        replace (1 * IZR k / f) with (IZR k / f) in HA by (field; lra). lra. }
      field. done. }
  pose proof (C73_copy rt ru D k gain off Hf' HD Ht Hu Hk Hg Hc Hcopy Huniq) as E. eexists _, _. split; [exact E|]. split.
  - unfold Rabs. destruct (Rcase_abs gain); [right|left]; field; lra.
  - cbn [rt ru real_trace freq samples]. fold swap f. exact HA.
Qed.

(** The trace starts with the window and ends with it. *)
Definition covers (tr : wave) (w : tw) : Prop :=
  t_start tr = w_start w ∧ t_data tr ≠ [] ∧ (INR (length (t_data tr)) - 1) / Q2R (t_freq tr) = seconds (w_end w - w_start w).
Definition centre (w : tw) : R := (seconds (w_start w) + seconds (w_end w)) / 2.
Lemma cut_centres (t u : wave) w1 w2 : (t_freq t == t_freq u)%Q → (0 < t_freq t)%Q → covers t w1 → covers u w2 →
  ((length (t_data t) - length (t_data u)) mod 2 = 0)%Z → cut_start t u - cut_start u t = centre w1 - centre w2.
Proof.
  intros Ef Hf (E1 & N1 & L1) (E2 & N2 & L2) Hev. assert (0 < Q2R (t_freq t)) as Hf' by (by apply freq_pos).
  apply Qeq_eqR in Ef. rewrite <- Ef in L2. unfold cut_start, centre. rewrite E1, E2, <- Ef. set (f := Q2R (t_freq t)) in *.
  assert (∀ a b : nat, ((a - b) mod 2 = 0)%Z → IZR ((a - b) / 2) = (INR a - INR b) / 2) as Half.
  { intros a b H. pose proof (Z.div_mod (a - b) 2 ltac:(lia)) as M. rewrite H in M. rewrite !INR_IZR_INZ, <- minus_IZR. rewrite M at 2. rewrite plus_IZR, mult_IZR. lra. }
  assert ((length (t_data u) - length (t_data t)) mod 2 = 0)%Z as Hev'.
  { replace (length (t_data u) - length (t_data t))%Z with (- (length (t_data t) - length (t_data u)))%Z by lia. by apply Z_mod_zero_opp_full. }
  unfold seconds in *. rewrite minus_IZR in L1, L2.
  assert (IZR (w_end w1) = IZR (w_start w1) + (INR (length (t_data t)) - 1) / f * 1000000) as -> by (rewrite L1; field).
  assert (IZR (w_end w2) = IZR (w_start w2) + (INR (length (t_data u)) - 1) / f * 1000000) as -> by (rewrite L2; field).
  case_decide as D1; case_decide as D2; try lia; rewrite ?Half by done; try (field; lra).
  assert (length (t_data t) = length (t_data u)) as -> by lia. field. lra.
Qed.
Lemma long_centre cfg et pt w : (0 <= maxDelay cfg)%Q → window_short cfg et pt = Some w → ∃ wl, window_long cfg et pt = Some wl ∧ centre wl = centre w.
Proof.
  intros Hm Hw. destruct (XcorrWindow_Props.C63_long cfg et pt w Hm Hw) as (-> & _). eexists. split; [reflexivity|].
  unfold centre, seconds. cbn [w_start w_end]. rewrite minus_IZR, plus_IZR. lra.
Qed.
(** C73: when the two traces cover their windows, one the long and the other the short one, the
    lag corrects the difference of the centres of the windows. *)
Theorem C73_centres cfg et1 pt1 et2 pt2 w1 w2 wl1 wl2 (t u : wave) lag A1 A2 :
  (0 <= maxDelay cfg)%Q → window_short cfg et1 pt1 = Some w1 → window_short cfg et2 pt2 = Some w2 →
  window_long cfg et1 pt1 = Some wl1 → window_long cfg et2 pt2 = Some wl2 →
  (covers t wl1 ∧ covers u w2 ∨ covers t w1 ∧ covers u wl2) →
  (t_freq t == t_freq u)%Q → (0 < t_freq t)%Q → ((length (t_data t) - length (t_data u)) mod 2 = 0)%Z →
  A1 - A2 = (cut_start t u - cut_start u t) - lag → A1 - A2 = (centre w1 - centre w2) - lag.
Proof.
  intros Hm W1 W2 L1 L2 Hc Ef Hf Hev ->. destruct (long_centre _ _ _ _ Hm W1) as (wl1' & E1 & C1). destruct (long_centre _ _ _ _ Hm W2) as (wl2' & E2 & C2).
  rewrite L1 in E1. rewrite L2 in E2. injection E1 as <-. injection E2 as <-. f_equal.
  destruct Hc as [[Ct Cu]|[Ct Cu]]; rewrite (cut_centres t u _ _ Ef Hf Ct Cu Hev); lra.
Qed.
(** C73: without scaling of the windows the lag corrects the difference of the picks. *)
Theorem C73_unscaled cfg et1 pt1 et2 pt2 w1 w2 :
  (winScaling cfg == 0)%Q → window_short cfg et1 pt1 = Some w1 → window_short cfg et2 pt2 = Some w2 →
  centre w1 - centre w2 = seconds pt1 - seconds pt2.
Proof.
  intros Hs. unfold window_short. case_decide as Hl; [done|]. set (len := secToDur (endOffset cfg - startOffset cfg)) in *.
  assert (∀ x y : Q, (x == y)%Q → qtrunc x = qtrunc y) as Comp.
  { intros x y E. unfold qtrunc. assert (Qle_bool 0 x = Qle_bool 0 y) as ->.
    { destruct (Qle_bool 0 x) eqn:X, (Qle_bool 0 y) eqn:Y; try done.
      - apply Qle_bool_iff in X. rewrite E in X. apply Qle_bool_iff in X. congruence.
      - apply Qle_bool_iff in Y. rewrite <- E in Y. apply Qle_bool_iff in Y. congruence. }
    destruct (Qle_bool 0 y); [by apply Qfloor_comp|by apply Qceiling_comp]. }
  assert (0 < inject_Z len ∨ inject_Z len < 0)%Q as Hne.
  { destruct (Z_lt_le_dec 0 len); [left|right]; [change 0%Q with (inject_Z 0)|change 0%Q with (inject_Z 0)]; rewrite <- Zlt_Qlt; lia. }
  set (so := secToDur (startOffset cfg)).
  assert (∀ tt, qtrunc (inject_Z so * ((inject_Z len + inject_Z tt * winScaling cfg) / inject_Z len)) = so) as T1.
  { intros tt. transitivity (qtrunc (inject_Z so)).
    - apply Comp. rewrite Hs. field. intros K. rewrite K in Hne. destruct Hne as [H|H]; by apply Qlt_irrefl in H.
    - unfold qtrunc. rewrite Qfloor_Z, Qceiling_Z. by destruct (Qle_bool _ _). }
  assert (∀ tt, qtrunc (inject_Z len + inject_Z tt * winScaling cfg) = len) as T2.
  { intros tt. transitivity (qtrunc (inject_Z len)).
    - apply Comp. rewrite Hs. ring.
    - unfold qtrunc. rewrite Qfloor_Z, Qceiling_Z. by destruct (Qle_bool _ _). }
  rewrite !T1, !T2. intros [= <-] [= <-]. unfold mk_tw_len, mk_tw, set_end. cbn [w_start w_end].
  destruct (Z.ltb_spec (pt1 + so + len) (pt1 + so)), (Z.ltb_spec (pt2 + so + len) (pt2 + so)); try lia; cbn [w_start w_end];
    unfold centre, seconds; cbn [w_start w_end]; rewrite ?plus_IZR; lra.
Qed.
Lemma Rabs_le_between x y : Rabs x <= y → - y <= x <= y.
Proof. unfold Rabs. destruct (Rcase_abs x); lra. Qed.
Lemma Q2R_Z z : Q2R (inject_Z z) = IZR z.
Proof. unfold Q2R, inject_Z. cbn [Qnum Qden]. rewrite RMicromega.Rinv_1. done. Qed.
Lemma qtrunc_near x : Rabs (IZR (qtrunc x) - Q2R x) <= 1.
Proof.
  unfold qtrunc. destruct (Qle_bool 0 x).
  - pose proof (Qfloor_le x) as H1%Qle_Rle. pose proof (Qlt_floor x) as H2%Qlt_Rlt. rewrite Q2R_Z in *. rewrite plus_IZR in H2. apply Rabs_le. lra.
  - pose proof (Qle_ceiling x) as H1%Qle_Rle. pose proof (Qceiling_lt x) as H2%Qlt_Rlt. rewrite Q2R_Z in *. rewrite minus_IZR in H2. apply Rabs_le. lra.
Qed.
(** C73: in general the distance of the centres differs from that of the picks by the scaling
    times the difference of the travel times times the offset of the centre, relative to the
    length of the window: only windows that are symmetric about the pick are not biased. *)
Theorem C73_bias cfg et1 pt1 et2 pt2 w1 w2 :
  let so := IZR (secToDur (startOffset cfg)) in
  let len := IZR (secToDur (endOffset cfg - startOffset cfg)) in
  let s := Q2R (winScaling cfg) in
  0 <= len + IZR (pt1 - et1) * s → 0 <= len + IZR (pt2 - et2) * s →
  window_short cfg et1 pt1 = Some w1 → window_short cfg et2 pt2 = Some w2 →
  Rabs ((centre w1 - centre w2) - (seconds pt1 - seconds pt2) - (so + len / 2) / len * s * (seconds (pt1 - et1) - seconds (pt2 - et2))) <= 3 / 1000000.
Proof.
  intros so len s P1 P2.
  assert (∀ et pt w, 0 <= len + IZR (pt - et) * s → window_short cfg et pt = Some w →
    len ≠ 0 ∧ Rabs (centre w * 1000000 - IZR pt - (so + len / 2) / len * (len + IZR (pt - et) * s)) <= 3 / 2) as Main.
  { intros et pt w P. unfold window_short. case_decide as Hl; [done|]. intros [= <-].
    assert (len ≠ 0) as Hlen by (intros K; apply Hl; by apply eq_IZR in K). split; [done|].
    set (x1 := (inject_Z _ * ((_ + _) / _))%Q). set (x2 := (inject_Z _ + inject_Z (pt - et) * _)%Q).
    assert (Q2R x2 = len + IZR (pt - et) * s) as E2 by (unfold x2; rewrite Q2R_plus, Q2R_mult, !Q2R_Z; done).
    assert (Q2R x1 = so * ((len + IZR (pt - et) * s) / len)) as E1.
    { unfold x1. rewrite Q2R_mult, Q2R_Z, Q2R_div, Q2R_plus, Q2R_mult, !Q2R_Z; [done|]. intros K. apply Qeq_eqR in K. rewrite Q2R_Z, RMicromega.Q2R_0 in K. done. }
    pose proof (qtrunc_near x1) as N1. pose proof (qtrunc_near x2) as N2. rewrite E1 in N1. rewrite E2 in N2.
    assert (0 ≤ qtrunc x2)%Z as Hnn.
    { apply XcorrWindow_Props.qtrunc_nonneg. apply Rle_Qle. by rewrite E2, RMicromega.Q2R_0. }
    unfold mk_tw_len, mk_tw, set_end. cbn [w_start w_end]. destruct (Z.ltb_spec (pt + qtrunc x1 + qtrunc x2) (pt + qtrunc x1)); [lia|].
    unfold centre, seconds. cbn [w_start w_end]. rewrite !plus_IZR. set (L := len + IZR (pt - et) * s) in *.
    apply Rabs_le. apply Rabs_le_between in N1. apply Rabs_le_between in N2.
    assert ((so + len / 2) / len * L = so * (L / len) + L / 2) as -> by (field; done). lra. }
  intros W1 W2. destruct (Main _ _ _ P1 W1) as [Hl M1]. destruct (Main _ _ _ P2 W2) as [_ M2]. apply Rabs_le_between in M1. apply Rabs_le_between in M2.
  unfold seconds in *. apply Rabs_le. set (m := (so + len / 2) / len) in *.
  assert (m * s * (IZR (pt1 - et1) / 1000000 - IZR (pt2 - et2) / 1000000) = (m * (len + IZR (pt1 - et1) * s) - m * (len + IZR (pt2 - et2) * s)) / 1000000) as -> by field. lra.
Qed.
End recover.

(** C73: all together. Without scaling of the windows, for traces that cover the windows of
    their picks and show the same signal, the time difference given to the solver is the
    difference of the travel times of the signal, whatever the errors of the picks. *)
Theorem C73_corrected {I} (t u : Trace_Model.trace I R) (g : R → R) A1 A2 a1 o1 a2 o2 k
    wcfg w1 w2 wl1 wl2 (cfg : obs_cfg) xc (ref ev : event R) sta ph (pr pn : phase R) wr wn mincoef :
  let D := Q2R (maxDelay wcfg) in
  let rt := real_trace t in let ru := real_trace u in
  let swap := bool_decide (length (t_data u) < length (t_data t))%nat in
  (winScaling wcfg == 0)%Q → (0 <= maxDelay wcfg)%Q →
  window_short wcfg (e_time ref) (p_time pr) = Some w1 → window_short wcfg (e_time ev) (p_time pn) = Some w2 →
  window_long wcfg (e_time ref) (p_time pr) = Some wl1 → window_long wcfg (e_time ev) (p_time pn) = Some wl2 →
  (covers t wl1 ∧ covers u w2 ∨ covers t w1 ∧ covers u wl2) →
  (t_freq t == t_freq u)%Q → (0 < t_freq t)%Q → ((length (t_data t) - length (t_data u)) mod 2 = 0)%Z →
  shows g A1 a1 o1 t → shows g A2 a2 o2 u → a1 ≠ 0 → a2 ≠ 0 →
  (- reach rt ru D ≤ k ≤ reach rt ru D)%Z →
  A1 - A2 = (seconds (p_time pr) - seconds (p_time pn)) - (if swap then -1 else 1) * IZR k / Q2R (t_freq t) →
  ¬ constant (λ i, nth i (shorter rt ru) 0) (length (shorter rt ru)) →
  (∀ k', (- reach rt ru D ≤ k' ≤ reach rt ru D)%Z →
     affine_copy (λ i, nth i (shorter rt ru) 0) (window_at (longer rt ru) (length (shorter rt ru)) k') (length (shorter rt ru)) → k' = k) →
  mincoef <= 1 →
  ∃ lag c, dd_xcorr rt ru D 0 = Some (lag, Fin c) ∧
    (xc_get Ropp xc (e_id ref) (e_id ev) (string_of_list_ascii sta) (string_of_list_ascii ph) = Some (Entry true c lag) →
     (observation cfg xc ref ev sta ph pr pn wr wn mincoef).1.1.1 = (A1 - seconds (e_time ref)) - (A2 - seconds (e_time ev))).
Proof.
  intros D rt ru swap Hs Hm W1 W2 L1 L2 Hc Ef Hf Hev S1 S2 N1 N2 Hk HA Hcon Hu Hmin.
  assert (t_data t ≠ [] ∧ t_data u ≠ []) as [Nt Nu] by (destruct Hc as [[(_ & ? & _) (_ & ? & _)]|[(_ & ? & _) (_ & ? & _)]]; done).
  assert (0 <= D) as HD by (unfold D; rewrite <- RMicromega.Q2R_0; by apply Qle_Rle).
  pose proof (C73_unscaled wcfg _ _ _ _ w1 w2 Hs W1 W2) as Hcen.
  assert (cut_start t u - cut_start u t = centre w1 - centre w2) as Hcut.
  { destruct (long_centre _ _ _ _ Hm W1) as (wl1' & E1 & C1). destruct (long_centre _ _ _ _ Hm W2) as (wl2' & E2 & C2).
    rewrite L1 in E1. rewrite L2 in E2. injection E1 as <-. injection E2 as <-.
    destruct Hc as [[Ct Cu]|[Ct Cu]]; rewrite (cut_centres t u _ _ Ef Hf Ct Cu Hev); lra. }
  destruct (C73_arrivals t u g A1 A2 a1 o1 a2 o2 D k Ef Hf HD Nt Nu S1 S2 N1 N2 Hk) as (lag & c & E & Hc1 & HA'); [fold swap; rewrite Hcut; lra|done|done|].
  exists lag, c. split; [exact E|]. intros Hx. unfold observation. rewrite Hx. cbn [e_valid e_coeff e_lag].
  assert (Rabs c = 1) as Hab by (destruct Hc1 as [-> | ->]; [apply Rabs_R1|rewrite Rabs_left; lra]).
  destruct (Rle_dec mincoef (Rabs c)) as [_|N]; [|lra]. cbn [fst]. unfold sec, seconds in *. rewrite !minus_IZR. lra.
Qed.
Print Assumptions C73_copy.
Print Assumptions C73_arrivals.
Print Assumptions C73_centres.
Print Assumptions C73_unscaled.
Print Assumptions C73_bias.
Print Assumptions C73_corrected.

(** ** With scaled windows the lag is wrong *)
Module Scaled.
Local Open Scope R_scope.
(** The defaults of the S phases: winStart -0.5, winEnd 1, maxDelay 0.5, winScaling 0.04 *)
Definition wcfg := XcorrCfg (-(1#2)) 1 (1#2) (1#25).
Definition zz : text := ["Z"%char].
Definition opt : xcorr_opt := XcorrOpt true 0 (-1) (-1) (λ _, Some (PhaseOpt wcfg [zz])).
Definition code (s : string) : text := list_ascii_of_string s.
Definition sta : station Z := Sta (code "CH.A.") 0%Z 0%Z 0%Z (code "CH") (code "A") [].
Definition ev (k : N) : event Z := Ev k 0 0%Z 0%Z 0%Z 0%Z None.
Definition pick (k : N) (t : Z) (src : psource) : phase Z :=
  Pha k (code "CH.A.") t 0%Z 0%Z (code "S") (code "CH") (code "A") [] (code "HHZ") (Some (Proc TS 0%Z src)) None.
Definition p1 := pick 1 37500000 SrcAutomatic.
Definition p2 := pick 2 36000000 SrcCatalog.
Definition bg : catalog Z := Cat {[code "CH.A." := sta]} ∅ ∅.
(** Traces of 100 samples per second over the long windows *)
Definition grid (start : Z) (n : nat) : Trace_Model.trace unit nat := MkTrace tt start 100 (seq 0 n).
Definition view {A B} (h : A → B) (t : Trace_Model.trace unit A) : Trace_Model.trace unit B := MkTrace (t_id t) (t_start t) (t_freq t) (h <$> t_data t).
Definition signal (A : R) (start : Z) (i : nat) : R := Geo_Model.square (seconds start + INR i / 100 - A).
Definition tr1 := view (signal 37.5 36000000) (grid 36000000 401).
Definition tr2 := view (signal 36 34520000) (grid 34520000 395).
Definition s2 : Trace_Model.trace unit R := MkTrace tt 35020000 100 (signal 36 34520000 <$> seq 50 295).
Definition ld1 (w : tw) (p : phase Z) (e : event Z) (s : station Z) (t : WaveCache_Model.transform) := Some tr1.
Definition ld2 (w : tw) (p : phase Z) (e : event Z) (s : station Z) (t : WaveCache_Model.transform) := Some tr2.

Lemma slice_view {A B} (h : A → B) (t : Trace_Model.trace unit A) w :
  slice (view h t) w = match slice t w with SlUB => SlUB | SlFalse t' => SlFalse (view h t') | SlTrue t' => SlTrue (view h t') end.
Proof.
  assert (sample_count (view h t) = sample_count t) as Ec by (unfold sample_count; cbn; by rewrite fmap_length).
  assert (time_window (view h t) = time_window t) as Ew by (unfold time_window, end_time; rewrite Ec; cbn [view t_data t_start t_freq]; by rewrite fmap_length).
  unfold slice. rewrite Ew, Ec. destruct (tw_eqb _ _); [done|]. destruct (negb _); [done|].
  change (index (view h t)) with (index t). destruct (_ <? 0)%Z; [done|]. destruct (_ <=? _)%Z; [done|].
  unfold sub_vector. cbn [view t_data]. rewrite fmap_length. case_decide; [|done]. unfold view. cbn [t_id t_start t_freq t_data].
  by rewrite fmap_take, fmap_drop.
Qed.
Lemma windows : window_long wcfg 0 37500000 = Some (Tw 36000000 40000000) ∧ window_short wcfg 0 36000000 = Some (Tw 35020000 37960000) ∧
  window_long wcfg 0 36000000 = Some (Tw 34520000 38460000) ∧ window_short wcfg 0 37500000 = Some (Tw 36500000 39500000).
Proof. repeat split; vm_compute; reflexivity. Qed.
Lemma cut : slice tr2 (Tw 35020000 37960000) = SlTrue s2.
Proof.
  unfold tr2. rewrite slice_view. assert (slice (grid 34520000 395) (Tw 35020000 37960000) = SlTrue (MkTrace tt 35020000 100 (seq 50 295))) as -> by (vm_compute; reflexivity).
  done.
Qed.
Lemma nth_signal A start a n i : (i < n)%nat → nth i (signal A start <$> seq a n) 0 = signal A start (a + i).
Proof. intros H. apply nth_lookup_Some. rewrite list_lookup_fmap, lookup_seq_lt by done. done. Qed.
Lemma Q2R_100 : Q2R 100 = 100. Proof. unfold Q2R. cbn. lra. Qed.
Lemma shows1 : shows Geo_Model.square 37.5 1 0 tr1.
Proof.
  intros i Hi. unfold tr1, view, grid in *. cbn [t_data] in *. rewrite fmap_length, seq_length in Hi. rewrite nth_signal by done. unfold time_of, signal. cbn [t_start t_freq].
  rewrite Q2R_100. cbn [Nat.add]. lra.
Qed.
Lemma shows2 : shows Geo_Model.square 36 1 0 tr2.
Proof.
  intros i Hi. unfold tr2, view, grid in *. cbn [t_data] in *. rewrite fmap_length, seq_length in Hi. rewrite nth_signal by done. unfold time_of, signal. cbn [t_start t_freq].
  rewrite Q2R_100. cbn [Nat.add]. lra.
Qed.
Lemma sq_copy (b d h : R) n : (3 ≤ n)%nat → h ≠ 0 → affine_copy (λ i, Geo_Model.square (b + INR i * h)) (λ i, Geo_Model.square (d + INR i * h)) n → b = d.
Proof.
  intros Hn Hh (g & o & Hg & H). pose proof (H 0%nat ltac:(lia)) as H0. pose proof (H 1%nat ltac:(lia)) as H1. pose proof (H 2%nat ltac:(lia)) as H2. cbn [INR] in *. unfold Geo_Model.square in *.
  assert (0 < h * h) as P by nra.
  assert (g = 1) as ->. { apply (Rmult_eq_reg_r (h * h)); [|lra]. lra. }
  apply (Rmult_eq_reg_r h); [|done]. lra.
Qed.
Lemma data1 i : (i < 401)%nat → nth i (t_data tr1) 0 = Geo_Model.square (- 1.5 + INR i * / 100).
Proof.
  intros H. unfold tr1, view, grid. cbn [t_data]. rewrite nth_signal by done. unfold signal, seconds. cbn [Nat.add]. f_equal. lra.
Qed.
Lemma data2 i : (i < 295)%nat → nth i (t_data s2) 0 = Geo_Model.square (- 0.98 + INR i * / 100).
Proof.
  intros H. unfold s2. cbn [t_data]. rewrite nth_signal by done. unfold signal, seconds. rewrite plus_INR. f_equal. replace (INR 50) with 50 by (cbn; lra). lra.
Qed.
Lemma lag : dd_xcorr (real_trace tr1) (real_trace s2) (Q2R (1#2)) 0 = Some (1 / 100, Fin 1).
Proof.
  assert (length (t_data tr1) = 401%nat) as L1 by (unfold tr1, view; cbn [t_data]; rewrite fmap_length; apply seq_length).
  assert (length (t_data s2) = 295%nat) as L2 by (unfold s2; cbn [t_data]; rewrite fmap_length; apply seq_length).
  assert (Q2R (1#2) = 1 / 2) as EH by (unfold Q2R; cbn; lra).
  assert (shorter (real_trace tr1) (real_trace s2) = t_data s2) as Es by (unfold shorter; cbn [real_trace samples]; rewrite L1, L2; done).
  assert (longer (real_trace tr1) (real_trace s2) = t_data tr1) as El by (unfold longer; cbn [real_trace samples]; rewrite L1, L2; done).
  assert (reach (real_trace tr1) (real_trace s2) (Q2R (1#2)) = 50%Z) as Er.
  { unfold reach. rewrite Es, El, L1, L2, EH. cbn [real_trace freq tr1 view t_freq grid]. rewrite Q2R_100. unfold trunc. destruct (Rle_dec 0 (1 / 2 * 100)) as [_|N]; [|lra].
    replace (1 / 2 * 100) with (INR 50) by (cbn; lra). rewrite Int_part_INR. done. }
  assert (∀ k i, (-50 ≤ k ≤ 50)%Z → (i < 295)%nat → window_at (t_data tr1) 295 k i = Geo_Model.square ((- 0.97 + IZR k * / 100) + INR i * / 100)) as Hw.
  { intros k i Hk Hi. unfold window_at. rewrite L1. change ((401%nat - 295%nat) / 2)%Z with 53%Z. rewrite data1 by lia. f_equal.
    rewrite plus_INR, INR_IZR_INZ, Z2Nat.id, plus_IZR by lia. lra. }
  rewrite (C73_copy (real_trace tr1) (real_trace s2) (Q2R (1#2)) (-1) 1 0); rewrite ?Es, ?El, ?Er, ?EH, ?L2.
  - cbn [real_trace samples freq]. rewrite L1, L2. cbn [tr1 view t_freq grid]. rewrite Q2R_100, Rabs_R1. change (bool_decide (295 < 401)%nat) with true. do 2 f_equal; [|f_equal]; lra.
  - cbn [real_trace freq tr1 view t_freq grid]. rewrite Q2R_100. lra.
  - lra.
  - cbn [real_trace samples]. intros K. rewrite K in L1. done.
  - cbn [real_trace samples]. intros K. rewrite K in L2. done.
  - lia.
  - lra.
  - intros K. pose proof (K 0%nat 1%nat ltac:(lia) ltac:(lia)) as K1. cbn beta in K1. rewrite !data2 in K1 by lia. unfold Geo_Model.square in K1. cbn [INR] in K1. lra.
  - intros i Hi. rewrite Hw, data2 by lia. rewrite Rmult_1_l, Rplus_0_r. f_equal. lra.
  - intros k Hk Hc. assert (- 0.98 = - 0.97 + IZR k * / 100) as E.
    { apply (sq_copy _ _ (/ 100) 295); [lia|lra|]. destruct Hc as (g & o & Hg & H). exists g, o. split; [done|]. intros i Hi.
      rewrite <- Hw, <- data2 by done. by apply H. }
    apply eq_IZR. lra.
Qed.
Lemma cut_start_diff : cut_start tr1 s2 - cut_start s2 tr1 = 1.51.
Proof.
  unfold cut_start. assert (length (t_data tr1) = 401%nat) as -> by (unfold tr1, view; cbn [t_data]; rewrite fmap_length; apply seq_length).
  assert (length (t_data s2) = 295%nat) as -> by (unfold s2; cbn [t_data]; rewrite fmap_length; apply seq_length).
  rewrite decide_True, decide_False by lia. change ((401%nat - 295%nat) / 2)%Z with 53%Z. cbn [tr1 s2 view grid t_start t_freq]. rewrite Q2R_100. unfold seconds. lra.
Qed.
Lemma run : xcorr_phases opt bg ld1 ld2 (ev 1) p1 (ev 2) p2 = Ok (true, Num 1, Num (1 / 100)).
Proof.
  destruct windows as (W1 & S2 & W2 & S1).
  assert (∀ k t src, long_window opt (ev k) (pick k t src) = match window_long wcfg 0 t with Some w => Ok w | None => Bad end) as LW by done.
  assert (∀ k t src, short_window opt (ev k) (pick k t src) = match window_short wcfg 0 t with Some w => Ok w | None => Bad end) as SW by done.
  unfold xcorr_phases. rewrite decide_True by done. rewrite decide_True by done. change (components opt p1) with (Ok [zz]). cbn [rbind try_components].
  assert (one_component opt bg ld1 ld2 (ev 1) p1 (ev 2) p2 zz = Ok (true, Num 1, Num (1 / 100))) as ->; [|done].
  unfold one_component. change (opt_of opt p1) with (Ok (PhaseOpt wcfg [zz])). cbn [rbind].
  unfold p1, p2. rewrite !LW, W1, W2. cbn [rbind]. fold p1 p2.
  assert (∀ w e, get_waveform bg ld1 w e p1 zz = Ok (Some tr1)) as -> by (intros; vm_compute; reflexivity). cbn [rbind].
  assert (∀ w e, get_waveform bg ld2 w e p2 zz = Ok (Some tr2)) as -> by (intros; vm_compute; reflexivity). cbn [rbind].
  change (Qeq_bool (t_freq tr1) (t_freq tr2)) with true. cbn [proc p1 p2 pick p_proc rbind pr_source trusted].
  assert (trusted SrcAutomatic = false) as -> by done. assert (trusted SrcCatalog = true) as -> by done. cbn [Bool.eqb negb andb].
  fold p2. unfold one_direction at 1. unfold p2. rewrite SW, S2. cbn [rbind]. rewrite cut. unfold correlate. cbn [po_win wcfg maxDelay].
  rewrite lag. cbn [rbind one_direction]. reflexivity.
Qed.
End Scaled.
(** C73: with the default options of the S phases, picks without error, and two traces of the
    same signal, the lag is a hundredth of a second instead of zero: it is the difference of
    the centres of the windows, and not that of the picks, that is corrected. *)
Theorem C73_scaled_refuted : ∃ (opt : xcorr_opt) (bg : catalog Z) ld1 ld2 e1 p1 e2 p2 (t1 t2 : Trace_Model.trace unit R),
  (∀ w p e s t, ld1 w p e s t = Some t1) ∧ (∀ w p e s t, ld2 w p e s t = Some t2) ∧
  shows Geo_Model.square (seconds (p_time p1)) 1 0 t1 ∧ shows Geo_Model.square (seconds (p_time p2)) 1 0 t2 ∧
  (∃ w, long_window opt e1 p1 = Ok w ∧ covers t1 w) ∧ (∃ w, long_window opt e2 p2 = Ok w ∧ covers t2 w) ∧
  xcorr_phases opt bg ld1 ld2 e1 p1 e2 p2 = Ok (true, Num 1, Num (1 / 100)).
Proof.
  exists Scaled.opt, Scaled.bg, Scaled.ld1, Scaled.ld2, (Scaled.ev 1), Scaled.p1, (Scaled.ev 2), Scaled.p2, Scaled.tr1, Scaled.tr2.
  destruct Scaled.windows as (W1 & S2 & W2 & S1).
  assert (∀ k t src, long_window Scaled.opt (Scaled.ev k) (Scaled.pick k t src) = match window_long Scaled.wcfg 0 t with Some w => Ok w | None => Bad end) as LW by done.
  split; [done|]. split; [done|]. split; [replace (seconds (p_time Scaled.p1)) with 37.5 by (change (p_time Scaled.p1) with 37500000%Z; unfold seconds; lra); apply Scaled.shows1|].
  split; [replace (seconds (p_time Scaled.p2)) with 36 by (change (p_time Scaled.p2) with 36000000%Z; unfold seconds; lra); apply Scaled.shows2|].
  split. { eexists. unfold Scaled.p1. rewrite LW, W1. split; [reflexivity|]. split; [done|]. split; [done|]. unfold Scaled.tr1, Scaled.view. cbn [t_data t_freq Scaled.grid w_start w_end].
    rewrite fmap_length, seq_length, Scaled.Q2R_100, INR_IZR_INZ. unfold seconds. change (Z.of_nat 401) with 401%Z. change (40000000 - 36000000)%Z with 4000000%Z. lra. }
  split. { eexists. unfold Scaled.p2. rewrite LW, W2. split; [reflexivity|]. split; [done|]. split; [done|]. unfold Scaled.tr2, Scaled.view. cbn [t_data t_freq Scaled.grid w_start w_end].
    rewrite fmap_length, seq_length, Scaled.Q2R_100, INR_IZR_INZ. unfold seconds. change (Z.of_nat 395) with 395%Z. change (38460000 - 34520000)%Z with 3940000%Z. lra. }
  apply Scaled.run.
Qed.
Print Assumptions C73_scaled_refuted.

(** ** Cases *)
(** C72_measurement and C72_exchange on the same traces *)
Lemma scaled_good ld tr : (∀ (w : tw) (p : phase Z) (e : event Z) (s : station Z) (t : WaveCache_Model.transform), ld w p e s t = Some tr) →
  (0 < t_freq tr)%Q → t_data tr ≠ [] → good (I := unit) ld.
Proof. intros H Hf Hd w p e s t tr'. rewrite H. by intros [= <-]. Qed.
Example C72_exchange_case : ∃ (opt : xcorr_opt) (bg : catalog Z) ld1 ld2 e1 p1 e2 p2,
  good (I := unit) ld1 ∧ good ld2 ∧
  xcorr_phases opt bg ld1 ld2 e1 p1 e2 p2 = Ok (true, Num 1, Num (1 / 100)) ∧
  xcorr_phases opt bg ld2 ld1 e2 p2 e1 p1 = Ok (true, Num 1, Num (- (1 / 100))).
Proof.
  exists Scaled.opt, Scaled.bg, Scaled.ld1, Scaled.ld2, (Scaled.ev 1), Scaled.p1, (Scaled.ev 2), Scaled.p2.
  assert (good Scaled.ld1) as G1 by (apply (scaled_good _ Scaled.tr1); [done|done|by vm_compute]).
  assert (good Scaled.ld2) as G2 by (apply (scaled_good _ Scaled.tr2); [done|done|by vm_compute]).
  split; [done|]. split; [done|]. split; [apply Scaled.run|].
  refine (C72_exchange Scaled.opt Scaled.bg Scaled.ld1 Scaled.ld2 (Scaled.ev 1) Scaled.p1 (Scaled.ev 2) Scaled.p2 (PhaseOpt Scaled.wcfg [Scaled.zz]) _ _ _ G1 G2 _ _ _ _ _ _ Scaled.run); try done.
  intros x w1 w2 t1 t2 l1 c1 l2 c2 [_ K]. exfalso. destruct K as (i & E & [H|H]); [eexists; split; [reflexivity|by left]|..]; injection E as <-; done.
Qed.
(** C73_corrected with picks of which one is a tenth of a second early: 10 samples per second,
    windows from half a second before to one second after the pick *)
Module Unscaled.
Local Open Scope R_scope.
Definition wcfg := XcorrCfg (-(1#2)) 1 (1#2) 0.
Definition signal (A t : R) : R := Geo_Model.square (t - A).
Definition t1 : Trace_Model.trace unit R := MkTrace tt 9000000 10 ((λ i, signal 10.1 (9 + INR i / 10)) <$> seq 0 26).
Definition t2 : Trace_Model.trace unit R := MkTrace tt 19500000 10 ((λ i, 3 * signal 20 (19.5 + INR i / 10) + 7) <$> seq 0 16).
Definition ev (k : N) (t : Z) : event R := Ev k t 0 0 0 0 None.
Definition pick (k : N) (t : Z) : phase R := Pha k [] t 0 0 [] [] [] [] [] None None.
Lemma nth_map (h : nat → R) n i : (i < n)%nat → nth i (h <$> seq 0 n) 0 = h i.
Proof. intros H. apply nth_lookup_Some. rewrite list_lookup_fmap, lookup_seq_lt by done. done. Qed.
Lemma len1 : length (t_data t1) = 26%nat. Proof. unfold t1. cbn [t_data]. by rewrite fmap_length, seq_length. Qed.
Lemma len2 : length (t_data t2) = 16%nat. Proof. unfold t2. cbn [t_data]. by rewrite fmap_length, seq_length. Qed.
Lemma Q2R_10 : Q2R 10 = 10. Proof. unfold Q2R. cbn. lra. Qed.
Lemma at1 i : (i < 26)%nat → nth i (t_data t1) 0 = Geo_Model.square (- 1.1 + INR i * / 10).
Proof. intros H. unfold t1. cbn [t_data]. rewrite nth_map by done. unfold signal. f_equal. lra. Qed.
Lemma at2 i : (i < 16)%nat → nth i (t_data t2) 0 = 3 * Geo_Model.square (- 0.5 + INR i * / 10) + 7.
Proof. intros H. unfold t2. cbn [t_data]. rewrite nth_map by done. unfold signal. do 3 f_equal. lra. Qed.
End Unscaled.
Example C73_corrected_case xc :
  let e1 := Unscaled.ev 1 8000000 in let e2 := Unscaled.ev 2 17500000 in let p1 := Unscaled.pick 1 10000000 in let p2 := Unscaled.pick 2 20000000 in
  ∃ lag c, dd_xcorr (real_trace Unscaled.t1) (real_trace Unscaled.t2) (Q2R (1#2)) 0 = Some (lag, Fin c) ∧
  (xc_get Ropp xc 1 2 "" "" = Some (Entry true c lag) →
   (observation (ObsCfg false false 1 (λ _, None)) xc e1 e2 [] [] p1 p2 1 1 0).1.1.1 = (10.1 - seconds 8000000) - (20 - seconds 17500000)).
Proof.
  set (x := C73_corrected Unscaled.t1 Unscaled.t2 Geo_Model.square 10.1 20 1 0 3 7 1 Unscaled.wcfg).
  assert (Q2R (1#2) = 1 / 2) as EH by (unfold Q2R; cbn; lra).
  assert (shorter (real_trace Unscaled.t1) (real_trace Unscaled.t2) = t_data Unscaled.t2) as Es by (unfold shorter; cbn [real_trace samples]; rewrite Unscaled.len1, Unscaled.len2; done).
  assert (longer (real_trace Unscaled.t1) (real_trace Unscaled.t2) = t_data Unscaled.t1) as El by (unfold longer; cbn [real_trace samples]; rewrite Unscaled.len1, Unscaled.len2; done).
  assert (reach (real_trace Unscaled.t1) (real_trace Unscaled.t2) (Q2R (1#2)) = 5%Z) as Er.
  { unfold reach. rewrite Es, El, Unscaled.len1, Unscaled.len2, EH. cbn [real_trace freq Unscaled.t1 t_freq]. rewrite Unscaled.Q2R_10. unfold trunc. destruct (Rle_dec 0 (1 / 2 * 10)) as [_|N]; [|lra].
    replace (1 / 2 * 10) with (INR 5) by (cbn; lra). rewrite Int_part_INR. done. }
  assert (∀ k i, (-5 ≤ k ≤ 5)%Z → (i < 16)%nat → window_at (t_data Unscaled.t1) 16 k i = Geo_Model.square ((- 0.6 + IZR k * / 10) + INR i * / 10)) as Hw.
  { intros k i Hk Hi. unfold window_at. rewrite Unscaled.len1. change ((26%nat - 16%nat) / 2)%Z with 5%Z. rewrite Unscaled.at1 by lia. f_equal.
    rewrite plus_INR, INR_IZR_INZ, Z2Nat.id, plus_IZR by lia. lra. }
  intros e1 e2 p1 p2. refine (x (Tw 9500000 11000000) (Tw 19500000 21000000) (Tw 9000000 11500000) (Tw 19000000 21500000) (ObsCfg false false 1 (λ _, None))
     xc
     (Unscaled.ev 1 8000000) (Unscaled.ev 2 17500000) [] [] (Unscaled.pick 1 10000000) (Unscaled.pick 2 20000000) 1 1 0 _ _ _ _ _ _ _ _ _ _ _ _ _ _ _ _ _ _ _); change (maxDelay Unscaled.wcfg) with (1#2)%Q in *; rewrite ?Es, ?El, ?Er, ?Unscaled.len1, ?Unscaled.len2; try done.
  - left. split; (split; [done|]); (split; [by vm_compute|]); rewrite ?Unscaled.len1, ?Unscaled.len2, INR_IZR_INZ; cbn [t_freq Unscaled.t1 Unscaled.t2 w_start w_end]; rewrite Unscaled.Q2R_10; unfold seconds.
    + change (Z.of_nat 26) with 26%Z. change (11500000 - 9000000)%Z with 2500000%Z. lra.
    + change (Z.of_nat 16) with 16%Z. change (21000000 - 19500000)%Z with 1500000%Z. lra.
  - intros i Hi. rewrite Unscaled.len1 in Hi. rewrite Unscaled.at1 by done. unfold time_of. cbn [Unscaled.t1 t_start t_freq]. rewrite Unscaled.Q2R_10.
    replace (seconds 9000000 + INR i / 10 - 10.1) with (- 1.1 + INR i * / 10) by (unfold seconds; lra). lra.
  - intros i Hi. rewrite Unscaled.len2 in Hi. rewrite Unscaled.at2 by done. unfold time_of. cbn [Unscaled.t2 t_start t_freq]. rewrite Unscaled.Q2R_10.
    replace (seconds 19500000 + INR i / 10 - 20) with (- 0.5 + INR i * / 10) by (unfold seconds; lra). lra.
  - change (bool_decide (16 < 26)%nat) with true. cbn [Unscaled.pick p_time Unscaled.t1 t_freq]. rewrite Unscaled.Q2R_10. unfold seconds. lra.
  - intros K. pose proof (K 0%nat 1%nat ltac:(lia) ltac:(lia)) as K1. cbn beta in K1. rewrite !Unscaled.at2 in K1 by lia. unfold Geo_Model.square in K1. cbn [INR] in K1. lra.
  - intros k Hk (g & o & Hg & Hc). assert (- 0.5 = - 0.6 + IZR k * / 10) as K.
    { apply (Scaled.sq_copy _ _ (/ 10) 16); [lia|lra|]. exists (3 * g), (7 * g + o). split; [lra|]. intros i Hi. rewrite <- (Hw k i Hk Hi), (Hc i Hi), Unscaled.at2 by done. ring. }
    apply eq_IZR. lra.
  - lra.
Qed.
