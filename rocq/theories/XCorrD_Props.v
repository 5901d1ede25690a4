(** Cross-correlation in double precision (C87). *)
From Coq Require Import ZArith Reals Lra Psatz.
From Flocq Require Import Core BinarySingleNaN Relative.
From stdpp Require Import numbers list.
From Verif Require Import Geo_Model Double_Model Double_Props XCorr_Model XCorr_Props XCorrD_Model.
Local Open Scope R_scope.
Local Coercion Z.of_nat : nat >-> Z.
Notation is_finite := BinarySingleNaN.is_finite.
Notation b2 := (bpow radix2).
Local Instance p53 : Prec_gt_0 53 := prec53.
Local Instance flt_valid : Valid_exp (FLT_exp (-1074) 53) := FLT_exp_valid (-1074) 53.
Local Instance flt_mono : Monotone_exp (FLT_exp (-1074) 53) := FLT_exp_monotone (-1074) 53.

(** ** Rounding *)
Lemma rel x : x = 0 ∨ b2 (-1022) <= Rabs x → Rabs (rnd x - x) <= u * Rabs x.
Proof.
  intros [->|H].
  - rewrite round_0 by apply valid_rnd_N. rewrite Rminus_0_r, Rabs_R0. lra.
  - pose proof (relative_error_N_FLT radix2 (-1074) 53 prec53 (λ x, negb (Z.even x)) x H) as E. change (-53 + 1)%Z with (-52)%Z in E. simpl bpow in E. unfold u. eapply Rle_trans; [exact E|].
    change (Z.pow_pos 2 52) with 4503599627370496%Z. apply Req_le. field.
Qed.
Lemma no_overflow v : Rabs v <= b2 1000 → Rlt_bool (Rabs (rnd v)) (b2 1024) = true.
Proof.
  intros H. apply Rlt_bool_true. apply Rle_lt_trans with (b2 1000); [|apply bpow_lt; lia].
  apply abs_round_le_generic; [apply flt_valid|apply valid_rnd_N| |exact H]. apply generic_format_bpow. unfold FLT_exp. lia.
Qed.
Lemma add_val x y a b : val x a → val y b → Rabs (a + b) <= b2 1000 → val (dadd x y) (rnd (a + b)).
Proof.
  intros [Fx <-] [Fy <-] H. pose proof (Bplus_correct 53 1024 prec53 emax1024 mode_NE x y Fx Fy) as C. change (round_mode mode_NE) with ZnearestE in C. rewrite fexp_eq in C. rewrite no_overflow in C by exact H.
  destruct C as (C1 & C2 & _). split; [exact C2|exact C1].
Qed.
Lemma sub_val x y a b : val x a → val y b → Rabs (a - b) <= b2 1000 → val (dsub x y) (rnd (a - b)).
Proof.
  intros [Fx <-] [Fy <-] H. pose proof (Bminus_correct 53 1024 prec53 emax1024 mode_NE x y Fx Fy) as C. change (round_mode mode_NE) with ZnearestE in C. rewrite fexp_eq in C. rewrite no_overflow in C by exact H.
  destruct C as (C1 & C2 & _). split; [exact C2|exact C1].
Qed.
Lemma mul_val x y a b : val x a → val y b → Rabs (a * b) <= b2 1000 → val (dmul x y) (rnd (a * b)).
Proof.
  intros [Fx <-] [Fy <-] H. pose proof (Bmult_correct 53 1024 prec53 emax1024 mode_NE x y) as C. change (round_mode mode_NE) with ZnearestE in C. rewrite fexp_eq in C. rewrite no_overflow in C by exact H.
  destruct C as (C1 & C2 & _). split; [|exact C1]. unfold dmul. rewrite C2, Fx, Fy. reflexivity.
Qed.
Lemma div_val x y a b : val x a → val y b → b ≠ 0 → Rabs (a / b) <= b2 1000 → val (ddiv x y) (rnd (a / b)).
Proof.
  intros [Fx <-] [Fy <-] Hb H. pose proof (Bdiv_correct 53 1024 prec53 emax1024 mode_NE x y Hb) as C. change (round_mode mode_NE) with ZnearestE in C. rewrite fexp_eq in C. rewrite no_overflow in C by exact H.
  destruct C as (C1 & C2 & _). split; [|exact C1]. unfold ddiv. rewrite C2, Fx. reflexivity.
Qed.
Lemma sqrt_val x a : val x a → 0 <= a → val (dsqrt x) (rnd (R_sqrt.sqrt a)).
Proof.
  intros [Fx <-] H. pose proof (Bsqrt_correct 53 1024 prec53 emax1024 mode_NE x) as (C1 & C2 & _). change (round_mode mode_NE) with ZnearestE in C1. rewrite fexp_eq in C1. split; [|exact C1].
  unfold dsqrt. rewrite C2. destruct x as [s| | |s m e B]; try done. destruct s; [|done]. exfalso. simpl in H.
  pose proof (F2R_lt_0 radix2 (Float radix2 (Z.neg m) e) ltac:(done)) as K. exact (Rlt_not_le _ _ K H).
Qed.
Lemma val_zero x : val x 0 → ∃ s, x = B754_zero s.
Proof.
  intros [F E]. destruct x as [s| | |s m e B]; try done; [by exists s|]. exfalso. simpl in E. apply eq_0_F2R in E. by destruct s.
Qed.

(** ** Numbers that are multiples of a power of two *)
Definition fx (x : double) (z e : Z) : Prop := val x (IZR z * b2 e).
Definition mid (e : Z) : Prop := (-1000 ≤ e ≤ 900)%Z.
Lemma fx_format z e : (Z.abs z < 2 ^ 53)%Z → mid e → rnd (IZR z * b2 e) = IZR z * b2 e ∧ Rabs (IZR z * b2 e) <= b2 1000.
Proof.
  intros H [M1 M2]. split.
  - apply round_generic; [apply valid_rnd_N|]. apply generic_format_FLT. exists (Float radix2 z e); [done|exact H|simpl; lia].
  - rewrite Rabs_mult, (Rabs_pos_eq (b2 e)) by apply bpow_ge_0. apply Rle_trans with (b2 53 * b2 e).
    + apply Rmult_le_compat_r; [apply bpow_ge_0|]. rewrite <- abs_IZR. change (b2 53) with (IZR (2 ^ 53)). apply IZR_le. lia.
    + rewrite <- bpow_plus. apply bpow_le. lia.
Qed.
Lemma fx_add x y a b e : fx x a e → fx y b e → (Z.abs (a + b) < 2 ^ 53)%Z → mid e → fx (dadd x y) (a + b) e.
Proof.
  intros Hx Hy H M. destruct (fx_format _ _ H M) as [E B]. unfold fx. rewrite <- E. replace (IZR (a + b) * b2 e) with (IZR a * b2 e + IZR b * b2 e) in * by (rewrite plus_IZR; ring). by apply add_val.
Qed.
Lemma fx_sub x y a b e : fx x a e → fx y b e → (Z.abs (a - b) < 2 ^ 53)%Z → mid e → fx (dsub x y) (a - b) e.
Proof.
  intros Hx Hy H M. destruct (fx_format _ _ H M) as [E B]. unfold fx. rewrite <- E. replace (IZR (a - b) * b2 e) with (IZR a * b2 e - IZR b * b2 e) in * by (rewrite minus_IZR; ring). by apply sub_val.
Qed.
Lemma fx_mul x y a b e f : fx x a e → fx y b f → (Z.abs (a * b) < 2 ^ 53)%Z → mid (e + f) → fx (dmul x y) (a * b) (e + f).
Proof.
  intros Hx Hy H M. destruct (fx_format _ _ H M) as [E B]. unfold fx. rewrite <- E. replace (IZR (a * b) * b2 (e + f)) with (IZR a * b2 e * (IZR b * b2 f)) in * by (rewrite mult_IZR, bpow_plus; ring). by apply mul_val.
Qed.
Lemma fx_zero e : fx zero 0 e.
Proof. split; [done|]. simpl. ring. Qed.
Lemma fx_of_Z z : (Z.abs z < 2 ^ 53)%Z → fx (of_Z z) z 0.
Proof. intros H. unfold fx. simpl. rewrite Rmult_1_r. by apply of_Z_val. Qed.

(** ** Sums of integers *)
Fixpoint zsum (f : nat → Z) (n : nat) : Z := match n with O => 0 | S k => zsum f k + f k end%Z.
Lemma zsum_IZR f n : IZR (zsum f n) = rsum (λ i, IZR (f i)) n.
Proof. induction n as [|n IH]; cbn [zsum rsum]; [done|]. by rewrite plus_IZR, IH. Qed.
Lemma zsum_bound f n B : (∀ i, (i < n)%nat → (Z.abs (f i) ≤ B)%Z) → (Z.abs (zsum f n) ≤ n * B)%Z.
Proof. induction n as [|n IH]; intros H; cbn [zsum]; [lia|]. assert (Z.abs (f n) ≤ B)%Z by (apply H; lia). assert (Z.abs (zsum f n) ≤ n * B)%Z by (apply IH; intros; apply H; lia). lia. Qed.
Lemma zsum_shift f n : zsum f (S n) = (f 0%nat + zsum (λ i, f (S i)) n)%Z.
Proof. induction n as [|n IH]; [cbn; lia|]. cbn [zsum] in *. lia. Qed.
Lemma zsum_ext f g n : (∀ i, (i < n)%nat → f i = g i) → zsum f n = zsum g n.
Proof. induction n as [|n IH]; intros H; cbn [zsum]; [done|]. rewrite IH, H; [done|lia|]. intros i Hi. apply H. lia. Qed.
Lemma fx_acc c x f k e : fx c (zsum f k) e → fx x (f k) e → (Z.abs (zsum f (S k)) < 2 ^ 53)%Z → mid e → fx (dadd c x) (zsum f (S k)) e.
Proof. cbn [zsum]. apply fx_add. Qed.

(** ** The coefficient from the sums *)
(** What is computed from the numerator N and the two radicands V and W *)
Definition computed (eS eL N V W : Z) : R :=
  rnd (IZR N * b2 (eS + eL) / rnd (rnd (R_sqrt.sqrt (IZR V * b2 (eS + eS))) * rnd (R_sqrt.sqrt (IZR W * b2 (eL + eL))))).
Definition scale_ok (e : Z) : Prop := (-200 ≤ e ≤ 200)%Z.
Lemma rel_pos x : b2 (-1022) <= x → (1 - u) * x <= rnd x <= (1 + u) * x.
Proof.
  intros H. pose proof (bpow_gt_0 radix2 (-1022)). pose proof (rel x ltac:(right; rewrite Rabs_pos_eq; lra)) as E. rewrite (Rabs_pos_eq x) in E by lra. apply Rabs_le_inv in E. lra.
Qed.
Lemma sqrt_scaled V e : (0 < V)%Z → R_sqrt.sqrt (IZR V * b2 (e + e)) = R_sqrt.sqrt (IZR V) * b2 e ∧ 1 <= R_sqrt.sqrt (IZR V).
Proof.
  intros HV. assert (1 <= IZR V) as H1 by (apply IZR_le; lia). split.
  - rewrite bpow_plus, sqrt_mult by (try lra; pose proof (bpow_gt_0 radix2 e); nra). by rewrite sqrt_square by apply bpow_ge_0.
  - rewrite <- sqrt_1. apply sqrt_le_1; lra.
Qed.
Lemma b2_range e : scale_ok e → b2 (-200) <= b2 e <= b2 200.
Proof. intros [H1 H2]. split; apply bpow_le; lia. Qed.
Lemma coeff_nan num a b N V W eS eL : fx num N (eS + eL) → fx a V (eS + eS) → fx b W (eL + eL) → (0 ≤ V)%Z → (0 ≤ W)%Z → (N * N ≤ V * W)%Z → (V = 0 ∨ W = 0)%Z →
  ddiv num (dmul (dsqrt a) (dsqrt b)) = B754_nan.
Proof.
  intros HN Ha Hb HV HW CS Z0. assert (N = 0)%Z as -> by nia. unfold fx in HN. rewrite Rmult_0_l in HN. destruct (val_zero _ HN) as [s ->].
  assert (val (dmul (dsqrt a) (dsqrt b)) 0) as D.
  { assert (0 <= IZR V * b2 (eS + eS)) as PV by (apply Rmult_le_pos; [by apply IZR_le|apply bpow_ge_0]). assert (0 <= IZR W * b2 (eL + eL)) as PW by (apply Rmult_le_pos; [by apply IZR_le|apply bpow_ge_0]).
    assert (rnd (R_sqrt.sqrt (IZR V * b2 (eS + eS))) * rnd (R_sqrt.sqrt (IZR W * b2 (eL + eL))) = 0) as E0.
    { destruct Z0 as [-> | ->]; rewrite Rmult_0_l, sqrt_0, round_0 by apply valid_rnd_N; ring. }
    pose proof (mul_val _ _ _ _ (sqrt_val _ _ Ha PV) (sqrt_val _ _ Hb PW)) as D. rewrite E0 in D. rewrite round_0 in D by apply valid_rnd_N. apply D. rewrite Rabs_R0. apply bpow_ge_0. }
  destruct (val_zero _ D) as [s' ->]. reflexivity.
Qed.
Lemma root_range V e : (0 < V < 2 ^ 53)%Z → scale_ok e → 0 < rnd (R_sqrt.sqrt (IZR V * b2 (e + e))) ∧ b2 (-201) <= rnd (R_sqrt.sqrt (IZR V * b2 (e + e))) <= b2 260 ∧
  (1 - u) * (R_sqrt.sqrt (IZR V) * b2 e) <= rnd (R_sqrt.sqrt (IZR V * b2 (e + e))) <= (1 + u) * (R_sqrt.sqrt (IZR V) * b2 e).
Proof.
  intros [HV1 HV2] He. destruct (sqrt_scaled V e HV1) as [-> H1]. destruct (b2_range e He) as [B1 B2].
  pose proof (bpow_gt_0 radix2 (-200)) as P0. assert (R_sqrt.sqrt (IZR V) <= b2 53) as H2.
  { change (b2 53) with (IZR (2 ^ 53)). apply Rle_trans with (IZR V); [|apply IZR_le; lia]. rewrite <- (sqrt_square (IZR V)) at 2 by (apply IZR_le; lia). apply sqrt_le_1_alt. assert (1 <= IZR V) by (apply IZR_le; lia). nra. }
  set (s := R_sqrt.sqrt (IZR V)) in *. assert (b2 (-200) <= s * b2 e) as L by nra.
  assert (s * b2 e <= b2 53 * b2 200) as U by (apply Rmult_le_compat; lra). rewrite <- bpow_plus in U. change (53 + 200)%Z with 253%Z in U.
  assert (b2 (-1022) <= b2 (-200)) as Lm by (apply bpow_le; lia). pose proof (rel_pos (s * b2 e) ltac:(lra)) as R.
  assert (0 < u < / 1000) as Hu by (unfold u; lra).
  assert (b2 (-200) = 2 * b2 (-201)) as D1 by (change (-200)%Z with (1 + -201)%Z; rewrite bpow_plus; reflexivity).
  assert (b2 260 = 128 * b2 253) as D2 by (change 260%Z with (7 + 253)%Z; rewrite bpow_plus; reflexivity). pose proof (bpow_gt_0 radix2 253).
  split; [nra|]. split; [split; nra|exact R].
Qed.
Lemma quotient_close D D' N : 0 < D → (1 - u) * (1 - u) * (1 - u) * D <= D' <= (1 + u) * (1 + u) * (1 + u) * D →
  ∀ q, Rabs (q - N / D') <= u * Rabs (N / D') → Rabs (q - N / D) <= 5 * u * Rabs (N / D).
Proof.
  intros HD [L U] q Hq. assert (0 < u < / 1000000) as Hu by (unfold u; lra).
  assert (0 < D') as HD' by nra. set (p := N / D) in *. assert (N = p * D) as EN by (unfold p; field; lra). set (k := D / D').
  assert (N / D' = p * k) as Eq by (rewrite EN; unfold k; field; lra). rewrite Eq in Hq.
  assert (k * D' = D) as Ek by (unfold k; field; lra). assert (0 < k) as Hk by (unfold k; by apply Rdiv_lt_0_compat).
  assert (k <= 1 + 7 / 2 * u) as K1.
  { apply Rnot_lt_le. intros C. assert (D' * k > (1 - u) * (1 - u) * (1 - u) * D * (1 + 7 / 2 * u)) as X1.
    { apply Rlt_gt. apply Rle_lt_trans with (D' * (1 + 7 / 2 * u)); [apply Rmult_le_compat_r; lra|]. apply Rmult_lt_compat_l; lra. }
    assert (1 <= (1 - u) * (1 - u) * (1 - u) * (1 + 7 / 2 * u)) as X2 by nra. nra. }
  assert (1 - 7 / 2 * u <= k) as K2.
  { apply Rnot_lt_le. intros C. assert (D' * k < (1 + u) * (1 + u) * (1 + u) * D * (1 - 7 / 2 * u)) as X1.
    { apply Rlt_le_trans with (D' * (1 - 7 / 2 * u)); [apply Rmult_lt_compat_l; lra|]. apply Rmult_le_compat_r; lra. }
    assert ((1 + u) * (1 + u) * (1 + u) * (1 - 7 / 2 * u) <= 1) as X2 by nra. nra. }
  rewrite Rabs_mult, (Rabs_pos_eq k) in Hq by lra. replace (q - p) with ((q - p * k) + p * (k - 1)) by ring. eapply Rle_trans; [apply Rabs_triang|]. rewrite Rabs_mult.
  assert (Rabs (k - 1) <= 7 / 2 * u) as K3 by (apply Rabs_le; lra). pose proof (Rabs_pos p) as Pp. pose proof (Rabs_pos (k - 1)).
  assert (Rabs p * Rabs (k - 1) <= Rabs p * (7 / 2 * u)) by (apply Rmult_le_compat_l; lra). assert (u * (Rabs p * k) <= u * (Rabs p * (1 + 7 / 2 * u))) by (apply Rmult_le_compat_l; [lra|]; apply Rmult_le_compat_l; lra).
  assert (0 <= u * Rabs p * (1 / 2 - 7 / 2 * u)) by (apply Rmult_le_pos; [apply Rmult_le_pos|]; lra). lra.
Qed.
Lemma coeff_val num a b N V W eS eL : scale_ok eS → scale_ok eL → fx num N (eS + eL) → fx a V (eS + eS) → fx b W (eL + eL) →
  (0 < V < 2 ^ 53)%Z → (0 < W < 2 ^ 53)%Z → (Z.abs N < 2 ^ 53)%Z →
  val (ddiv num (dmul (dsqrt a) (dsqrt b))) (computed eS eL N V W) ∧
  let p := IZR N / (R_sqrt.sqrt (IZR V) * R_sqrt.sqrt (IZR W)) in Rabs (computed eS eL N V W - p) <= 5 * u * Rabs p.
Proof.
  intros HeS HeL HN Ha Hb HV HW HNb. assert (0 < u < / 1000000) as Hu by (unfold u; lra).
  destruct (root_range V eS HV HeS) as (P1 & [L1 U1] & R1). destruct (root_range W eL HW HeL) as (P2 & [L2 U2] & R2).
  assert (0 <= IZR V * b2 (eS + eS)) as PV by (apply Rmult_le_pos; [apply IZR_le; lia|apply bpow_ge_0]). assert (0 <= IZR W * b2 (eL + eL)) as PW by (apply Rmult_le_pos; [apply IZR_le; lia|apply bpow_ge_0]).
  pose proof (sqrt_val _ _ Ha PV) as VA. pose proof (sqrt_val _ _ Hb PW) as VB. unfold computed.
  set (ra := rnd (R_sqrt.sqrt (IZR V * b2 (eS + eS)))) in *. set (rb := rnd (R_sqrt.sqrt (IZR W * b2 (eL + eL)))) in *.
  assert (b2 (-402) <= ra * rb) as L3. { change (-402)%Z with (-201 + -201)%Z. rewrite bpow_plus. pose proof (bpow_ge_0 radix2 (-201)). apply Rmult_le_compat; lra. }
  assert (ra * rb <= b2 520) as U3. { change 520%Z with (260 + 260)%Z. rewrite bpow_plus. apply Rmult_le_compat; lra. }
  pose proof (bpow_gt_0 radix2 (-402)) as P402. assert (b2 (-1022) <= b2 (-402)) as Lm by (apply bpow_le; lia). assert (b2 520 <= b2 1000) as Um by (apply bpow_le; lia).
  pose proof (mul_val _ _ _ _ VA VB ltac:(rewrite Rabs_pos_eq; lra)) as VD. pose proof (rel_pos (ra * rb) ltac:(lra)) as R3. set (den := rnd (ra * rb)) in *.
  assert (b2 (-403) <= den) as L4. { assert (b2 (-402) = 2 * b2 (-403)) by (change (-402)%Z with (1 + -403)%Z; rewrite bpow_plus; reflexivity). nra. }
  pose proof (bpow_gt_0 radix2 (-403)) as P403. assert (den <= b2 521) as U4. { assert (b2 521 = 2 * b2 520) by (change 521%Z with (1 + 520)%Z; rewrite bpow_plus; reflexivity). nra. }
  set (num' := IZR N * b2 (eS + eL)). assert (Rabs num' <= b2 453) as UN.
  { unfold num'. rewrite Rabs_mult, (Rabs_pos_eq (b2 _)) by apply bpow_ge_0. change 453%Z with (53 + 400)%Z. rewrite (bpow_plus radix2 53 400). apply Rmult_le_compat; [apply Rabs_pos|apply bpow_ge_0| |].
    - rewrite <- abs_IZR. change (b2 53) with (IZR (2 ^ 53)). apply IZR_le. lia.
    - apply bpow_le. unfold scale_ok in *. lia. }
  assert (Rabs (num' / den) <= b2 1000) as UQ.
  { unfold Rdiv. rewrite Rabs_mult, Rabs_inv, (Rabs_pos_eq den) by lra. apply Rle_trans with (b2 453 * b2 403); [|rewrite <- bpow_plus; apply bpow_le; lia].
    apply Rmult_le_compat; [apply Rabs_pos|left; apply Rinv_0_lt_compat; lra|exact UN|]. replace (b2 403) with (/ b2 (-403)) by (rewrite <- bpow_opp; reflexivity). apply Rinv_le_contravar; [lra|exact L4]. }
  split; [apply div_val; [exact HN|exact VD|lra|exact UQ]|].
  assert (Rabs (rnd (num' / den) - num' / den) <= u * Rabs (num' / den)) as R4.
  { apply rel. destruct (Z.eq_dec N 0%Z) as [EN|NN]; [left; unfold num'; rewrite EN, Rmult_0_l; unfold Rdiv; ring|right].
    unfold Rdiv. rewrite Rabs_mult, Rabs_inv, (Rabs_pos_eq den) by lra. apply Rle_trans with (b2 (-400) * b2 (-521)); [rewrite <- bpow_plus; apply bpow_le; lia|].
    apply Rmult_le_compat; [apply bpow_ge_0|apply bpow_ge_0| |].
    - unfold num'. rewrite Rabs_mult, (Rabs_pos_eq (b2 _)) by apply bpow_ge_0. assert (1 <= Rabs (IZR N)) by (rewrite <- abs_IZR; apply IZR_le; lia). assert (b2 (-400) <= b2 (eS + eL)) by (apply bpow_le; unfold scale_ok in *; lia). pose proof (bpow_ge_0 radix2 (eS + eL)). nra.
    - replace (b2 (-521)) with (/ b2 521) by (rewrite <- bpow_opp; reflexivity). apply Rinv_le_contravar; [lra|exact U4]. }
  set (p := IZR N / (R_sqrt.sqrt (IZR V) * R_sqrt.sqrt (IZR W))). destruct (sqrt_scaled V eS ltac:(lia)) as [_ S1]. destruct (sqrt_scaled W eL ltac:(lia)) as [_ S2]. pose proof (bpow_gt_0 radix2 eS) as BS. pose proof (bpow_gt_0 radix2 eL) as BL.
  set (sv := R_sqrt.sqrt (IZR V)) in *. set (sw := R_sqrt.sqrt (IZR W)) in *.
  assert (p = num' / (sv * b2 eS * (sw * b2 eL))) as ->. { unfold p, num'. rewrite bpow_plus. field. lra. }
  assert (0 < sv * b2 eS) as A1 by nra. assert (0 < sw * b2 eL) as A2 by nra. set (x := sv * b2 eS) in *. set (y := sw * b2 eL) in *. clearbody x y ra rb den num'.
  apply quotient_close with (D' := den); [nra| |exact R4].
  assert ((1 - u) * x * ((1 - u) * y) <= ra * rb) by (apply Rmult_le_compat; nra). assert (ra * rb <= (1 + u) * x * ((1 + u) * y)) by (apply Rmult_le_compat; lra). split; nra.
Qed.

(** ** Scaling the samples *)
Lemma pearson_ext x x' y y' n : (∀ i, (i < n)%nat → x i = x' i) → (∀ i, (i < n)%nat → y i = y' i) → pearson x y n = pearson x' y' n.
Proof.
  intros Hx Hy. unfold pearson, dev, mean. rewrite (rsum_ext x x' n Hx), (rsum_ext y y' n Hy). f_equal; [|f_equal; f_equal]; apply rsum_ext; intros i Hi; by rewrite ?Hx, ?Hy.
Qed.
Lemma dev_scale c x n i : dev (λ i, c * x i) n i = c * dev x n i.
Proof. unfold dev, mean, Rdiv. rewrite rsum_scale. ring. Qed.
Lemma pearson_scale c x y n : 0 < c → pearson (λ i, c * x i) y n = pearson x y n.
Proof.
  intros Hc. unfold pearson. rewrite (rsum_ext (λ i, dev (λ i, c * x i) n i * dev y n i) (λ i, c * (dev x n i * dev y n i))) by (intros; rewrite dev_scale; ring).
  rewrite (rsum_ext (λ i, square (dev (λ i, c * x i) n i)) (λ i, (c * c) * square (dev x n i))) by (intros; rewrite dev_scale; unfold square; ring).
  rewrite !rsum_scale, sqrt_mult by (try apply variance_nonneg; nra). rewrite sqrt_square by lra. unfold Rdiv. rewrite !Rinv_mult. set (t := rsum _ _). set (a := / R_sqrt.sqrt _). set (b := / R_sqrt.sqrt _).
  replace (c * t * (/ c * a * b)) with (c * / c * (t * (a * b))) by ring. rewrite Rinv_r by lra. ring.
Qed.
Lemma pearson_scales c d x y n : 0 < c → 0 < d → pearson (λ i, c * x i) (λ i, d * y i) n = pearson x y n.
Proof. intros Hc Hd. rewrite pearson_scale by done. rewrite pearson_sym, pearson_scale by done. apply pearson_sym. Qed.
Lemma constant_scale c x n : 0 < c → constant (λ i, c * x i) n ↔ constant x n.
Proof. intros Hc. split; intros H i j Hi Hj; [|by rewrite (H i j)]. specialize (H i j Hi Hj). cbn beta in H. by apply Rmult_eq_reg_l in H; [|lra]. Qed.
Lemma constant_ext x y n : (∀ i, (i < n)%nat → x i = y i) → constant x n ↔ constant y n.
Proof. intros H. split; intros C i j Hi Hj; [rewrite <- !H by done; by apply C|rewrite !H by done; by apply C]. Qed.

(** ** The loops *)
Section grid.
Context (dataS dataL : Z → option double) (n : nat) (sizeL : Z) (delay0 : double) (X Y : nat → Z) (eS eL A : Z).
Hypothesis Hn : (0 < n)%nat.
Hypothesis Hsize : (n ≤ sizeL)%Z.
Hypothesis HeS : scale_ok eS.
Hypothesis HeL : scale_ok eL.
Hypothesis HS : ∀ i : nat, (i < n)%nat → ∃ s, dataS i = Some s ∧ fx s (X i) eS ∧ (Z.abs (X i) ≤ A)%Z.
Hypothesis HL : ∀ i : nat, (i < sizeL)%Z → ∃ s, dataL i = Some s ∧ fx s (Y i) eL ∧ (Z.abs (Y i) ≤ A)%Z.
Hypothesis HA1 : (1 ≤ A)%Z.
Hypothesis HA : (2 * (n * A) * (n * A) < 2 ^ 53)%Z.
Let win (d i : nat) : Z := Y (d + i)%nat.
Definition vv (x : nat → Z) : Z := (n * zsum (λ i, x i * x i)%Z n - zsum x n * zsum x n)%Z.
Definition nn (x y : nat → Z) : Z := (n * zsum (λ i, x i * y i)%Z n - zsum x n * zsum y n)%Z.

Lemma bounds : (A ≤ n * A ∧ n * A * A ≤ (n * A) * (n * A) ∧ A * A ≤ n * A * A ∧ n * A ≤ (n * A) * (n * A) ∧ n ≤ n * A)%Z.
Proof using Hn HA1 HA. assert (1 ≤ n)%Z by lia. set (N := Z.of_nat n) in *. assert (A ≤ N * A)%Z by nia. split; [done|]. split; [nia|]. split; [nia|]. split; nia. Qed.
Lemma mids : mid eS ∧ mid eL ∧ mid (eS + eS) ∧ mid (eL + eL) ∧ mid (eS + eL) ∧ mid 0.
Proof using HeS HeL. clear - HeS HeL. unfold mid, scale_ok in *. lia. Qed.
Lemma prod_bound a b : (Z.abs a ≤ A)%Z → (Z.abs b ≤ A)%Z → (Z.abs (a * b) ≤ A * A)%Z.
Proof using Type. clear. intros. rewrite Z.abs_mul. apply Z.mul_le_mono_nonneg; lia. Qed.
Lemma psum_bound x k B : (0 ≤ B)%Z → (k ≤ n)%nat → (∀ i, (i < k)%nat → (Z.abs (x i) ≤ B)%Z) → (Z.abs (zsum x k) ≤ n * B)%Z.
Proof using Type. clear. intros HB Hk H. pose proof (zsum_bound x k B H). nia. Qed.

Lemma dprepare_ok : ∃ p, dprepare dataS dataL n = Some p ∧
  fx (d_sumS p) (zsum X n) eS ∧ fx (d_sumS2 p) (zsum (λ i, X i * X i)%Z n) (eS + eS) ∧
  fx (d_sumL p) (zsum Y (n - 1)) eL ∧ fx (d_sumL2 p) (zsum (λ i, Y i * Y i)%Z (n - 1)) (eL + eL).
Proof using Hn Hsize HS HL HeS HeL HA1 HA.
  pose proof bounds as (B1 & B2 & B3 & B4 & B5). destruct mids as (M1 & M2 & M3 & M4 & M5 & M6).
  unfold dprepare. assert (∀ k, (k ≤ n)%nat → ∃ p, loop (dprepare_step dataS dataL n) (seq 0 k) (DSums zero zero zero zero) = Some p ∧
    fx (d_sumS p) (zsum X k) eS ∧ fx (d_sumS2 p) (zsum (λ i, X i * X i)%Z k) (eS + eS) ∧
    fx (d_sumL p) (zsum Y (min k (n - 1))) eL ∧ fx (d_sumL2 p) (zsum (λ i, Y i * Y i)%Z (min k (n - 1))) (eL + eL)) as K.
  2: { destruct (K n) as (p & E & K1 & K2 & K3 & K4); [lia|]. exists p. replace (min n (n - 1)) with (n - 1)%nat in * by lia. done. }
  intros k. induction k as [|k IH]; intros Hk.
  { eexists. split; [done|]. cbn [d_sumS d_sumS2 d_sumL d_sumL2 zsum Nat.min]. split_and!; apply fx_zero. }
  destruct IH as (p & E & K1 & K2 & K3 & K4); [lia|]. rewrite loop_S, E. cbn [mbind option_bind]. unfold dprepare_step.
  destruct (HS k) as (s & Es & Fs & Bs); [lia|]. rewrite Es. cbn [mbind option_bind].
  assert (fx (dadd (d_sumS p) s) (zsum X (S k)) eS) as J1.
  { apply fx_acc; [done|done| |done]. pose proof (psum_bound X (S k) A ltac:(lia) ltac:(lia) ltac:(intros i Hi; destruct (HS i) as (? & _ & _ & ?); [lia|done])). lia. }
  assert (fx (dadd (d_sumS2 p) (dmul s s)) (zsum (λ i, X i * X i)%Z (S k)) (eS + eS)) as J2.
  { apply fx_acc; [done| | |done].
    - apply (fx_mul _ _ _ _ _ _); [done|done| |done]. pose proof (prod_bound _ _ Bs Bs). lia.
    - pose proof (psum_bound (λ i, X i * X i)%Z (S k) (A * A) ltac:(lia) ltac:(lia) ltac:(intros i Hi; destruct (HS i) as (? & _ & _ & ?); [lia|by apply prod_bound])). lia. }
  destruct (decide (n - 1 ≤ k)%Z) as [Hd|Hd].
  - eexists. split; [done|]. cbn [d_sumS d_sumS2 d_sumL d_sumL2]. replace (min k (n - 1)) with (n - 1)%nat in * by lia. replace (min (S k) (n - 1)) with (n - 1)%nat by lia. done.
  - destruct (HL k) as (l & El & Fl & Bl); [lia|]. rewrite El. cbn [mbind option_bind]. eexists. split; [done|]. cbn [d_sumS d_sumS2 d_sumL d_sumL2].
    replace (min k (n - 1)) with k in * by lia. replace (min (S k) (n - 1)) with (S k) by lia. split; [done|]. split; [done|]. split.
    + apply fx_acc; [done|done| |done]. pose proof (psum_bound Y (S k) A ltac:(lia) ltac:(lia) ltac:(intros i Hi; destruct (HL i) as (? & _ & _ & ?); [lia|done])). lia.
    + apply fx_acc; [done| | |done].
      * apply (fx_mul _ _ _ _ _ _); [done|done| |done]. pose proof (prod_bound _ _ Bl Bl). lia.
      * pose proof (psum_bound (λ i, Y i * Y i)%Z (S k) (A * A) ltac:(lia) ltac:(lia) ltac:(intros i Hi; destruct (HL i) as (? & _ & _ & ?); [lia|by apply prod_bound])). lia.
Qed.
Lemma dinner_ok (d : nat) : (d + n ≤ sizeL)%Z → ∃ c, dinner dataS dataL n d = Some c ∧ fx c (zsum (λ i, X i * win d i)%Z n) (eS + eL).
Proof using Hn Hsize HS HL HeS HeL HA1 HA.
  pose proof bounds as (B1 & B2 & B3 & B4 & B5). destruct mids as (M1 & M2 & M3 & M4 & M5 & M6).
  intros Hd. unfold dinner. set (f := λ (sumSL : double) (i : nat), _).
  assert (∀ k, (k ≤ n)%nat → ∃ c, loop f (seq 0 k) zero = Some c ∧ fx c (zsum (λ i, X i * win d i)%Z k) (eS + eL)) as K; [|apply K; lia].
  intros k. induction k as [|k IH]; intros Hk; [eexists; split; [done|apply fx_zero]|]. destruct IH as (c & E & F); [lia|]. rewrite loop_S, E. cbn [mbind option_bind]. unfold f.
  destruct (HS k) as (s & Es & Fs & Bs); [lia|]. rewrite Es. cbn [mbind option_bind]. replace (k + d)%Z with (Z.of_nat (d + k)) by lia. destruct (HL (d + k)) as (l & El & Fl & Bl); [lia|]. rewrite El. cbn [mbind option_bind].
  eexists. split; [done|]. apply fx_acc; [done| | |done].
  - apply (fx_mul _ _ _ _ _ _); [done|done| |done]. pose proof (prod_bound (X k) (win d k) Bs Bl). cbn beta. lia.
  - pose proof (psum_bound (λ i, X i * win d i)%Z (S k) (A * A) ltac:(lia) ltac:(lia) ltac:(intros i Hi; destruct (HS i) as (? & _ & _ & ?); [lia|]; destruct (HL (d + i)) as (? & _ & _ & ?); [lia|by apply prod_bound])). lia.
Qed.

(** What the integers say about the samples *)
Lemma INR_IZR' : INR n = IZR n.
Proof using Type. apply INR_IZR_INZ. Qed.
Let rz (x : nat → Z) (i : nat) : R := IZR (x i).
Lemma vv_IZR x : IZR (vv x) = INR n * rsum (λ i, square (dev (rz x) n i)) n.
Proof using Hn.
  rewrite <- variance_scaled by done. unfold vv. rewrite minus_IZR, !mult_IZR, !zsum_IZR, INR_IZR'. f_equal. f_equal. apply rsum_ext. intros. by rewrite mult_IZR.
Qed.
Lemma nn_IZR x y : IZR (nn x y) = INR n * rsum (λ i, dev (rz x) n i * dev (rz y) n i) n.
Proof using Hn.
  rewrite <- covariance_scaled by done. unfold nn. rewrite minus_IZR, !mult_IZR, !zsum_IZR, INR_IZR'. f_equal. f_equal. apply rsum_ext. intros. by rewrite mult_IZR.
Qed.
Lemma vv_nonneg x : (0 ≤ vv x)%Z.
Proof using Hn. apply le_IZR. rewrite vv_IZR. apply Rmult_le_pos; [apply pos_INR|apply variance_nonneg]. Qed.
Lemma vv_zero x : vv x = 0%Z ↔ constant (rz x) n.
Proof using Hn.
  rewrite <- variance_zero by done. pose proof (INR_pos' n Hn). split.
  - intros E. apply (f_equal IZR) in E. rewrite vv_IZR in E. apply Rmult_integral in E as [E|E]; [lra|done].
  - intros E. apply eq_IZR. rewrite vv_IZR, E. ring.
Qed.
Lemma nn_vv x y : (nn x y * nn x y ≤ vv x * vv y)%Z.
Proof using Hn.
  apply le_IZR. rewrite !mult_IZR, nn_IZR, !vv_IZR. pose proof (cauchy_schwarz (dev (rz x) n) (dev (rz y) n) n) as CS. unfold square in CS at 1. pose proof (INR_pos' n Hn).
  set (t := rsum (λ i, dev (rz x) n i * dev (rz y) n i) n) in *. set (a := rsum (λ i, square (dev (rz x) n i)) n) in *. set (b := rsum (λ i, square (dev (rz y) n i)) n) in *.
  replace (INR n * t * (INR n * t)) with (INR n * INR n * (t * t)) by ring. replace (INR n * a * (INR n * b)) with (INR n * INR n * (a * b)) by ring. apply Rmult_le_compat_l; [nra|exact CS].
Qed.
Lemma nn_pearson x y : ¬ constant (rz x) n → ¬ constant (rz y) n → IZR (nn x y) / (R_sqrt.sqrt (IZR (vv x)) * R_sqrt.sqrt (IZR (vv y))) = pearson (rz x) (rz y) n.
Proof using Hn.
  intros Cx Cy. destruct (C06_coefficient (rz x) (rz y) n Hn) as [C _]. specialize (C Cx Cy). unfold coefficient in C. rewrite covariance_scaled, !variance_scaled, <- nn_IZR, <- !vv_IZR in C by done. unfold quotient in C.
  destruct (Req_EM_T _ 0) as [E|_]; [|by injection C]. destruct (Req_EM_T _ 0); discriminate C.
Qed.
Lemma vv_bound x : (∀ i, (i < n)%nat → (Z.abs (x i) ≤ A)%Z) → (Z.abs (n * zsum (λ i, x i * x i)%Z n) < 2 ^ 53 ∧ Z.abs (zsum x n * zsum x n) < 2 ^ 53 ∧ Z.abs (vv x) < 2 ^ 53)%Z.
Proof using Hn HA1 HA.
  intros H. pose proof bounds as (B1 & B2 & B3 & B4 & B5). pose proof (psum_bound x n A ltac:(lia) ltac:(lia) H) as P1.
  pose proof (psum_bound (λ i, x i * x i)%Z n (A * A) ltac:(lia) ltac:(lia) ltac:(intros i Hi; apply prod_bound; by apply H)) as P2. unfold vv.
  set (a := zsum x n) in *. set (b := zsum (λ i, x i * x i)%Z n) in *. assert (Z.abs (n * b) ≤ n * A * (n * A))%Z as Q1. { rewrite Z.abs_mul, (Z.abs_eq n) by lia. replace (n * A * (n * A))%Z with (n * (n * (A * A)))%Z by ring. apply Z.mul_le_mono_nonneg_l; lia. }
  assert (Z.abs (a * a) ≤ n * A * (n * A))%Z as Q2. { rewrite Z.abs_mul. apply Z.mul_le_mono_nonneg; lia. } lia.
Qed.
Lemma nn_bound x y : (∀ i, (i < n)%nat → (Z.abs (x i) ≤ A)%Z) → (∀ i, (i < n)%nat → (Z.abs (y i) ≤ A)%Z) → (Z.abs (n * zsum (λ i, x i * y i)%Z n) < 2 ^ 53 ∧ Z.abs (zsum x n * zsum y n) < 2 ^ 53 ∧ Z.abs (nn x y) < 2 ^ 53)%Z.
Proof using Hn HA1 HA.
  intros H H'. pose proof bounds as (B1 & B2 & B3 & B4 & B5). pose proof (psum_bound x n A ltac:(lia) ltac:(lia) H) as P1. pose proof (psum_bound y n A ltac:(lia) ltac:(lia) H') as P1'.
  pose proof (psum_bound (λ i, x i * y i)%Z n (A * A) ltac:(lia) ltac:(lia) ltac:(intros i Hi; apply prod_bound; [by apply H|by apply H'])) as P2. unfold nn.
  set (a := zsum x n) in *. set (a' := zsum y n) in *. set (b := zsum (λ i, x i * y i)%Z n) in *. assert (Z.abs (n * b) ≤ n * A * (n * A))%Z as Q1. { rewrite Z.abs_mul, (Z.abs_eq n) by lia. replace (n * A * (n * A))%Z with (n * (n * (A * A)))%Z by ring. apply Z.mul_le_mono_nonneg_l; lia. }
  assert (Z.abs (a * a') ≤ n * A * (n * A))%Z as Q2. { rewrite Z.abs_mul. apply Z.mul_le_mono_nonneg; lia. } lia.
Qed.
(** ** The state after k delays *)
Definition def (d : nat) : Prop := ¬ constant (rz X) n ∧ ¬ constant (rz (win d)) n.
Definition cf (d : nat) : R := computed eS eL (nn X (win d)) (vv X) (vv (win d)).
Definition dbest (k : nat) (c dl : double) : Prop :=
  (c = B754_nan ∧ (∀ e, (e < k)%nat → ¬ def e) ∧ dl = (if decide (k = 0)%nat then delay0 else of_Z (k - 1))) ∨
  ∃ d, (d < k)%nat ∧ def d ∧ dl = of_Z d ∧ val c (cf d) ∧
    (∀ e, (e < k)%nat → def e → Rabs (cf e) <= Rabs (cf d)) ∧ (∀ e, (e < d)%nat → def e → Rabs (cf e) < Rabs (cf d)).
Lemma abs_gt_val x y a b : val x a → val y b → dabs_gt x y = Rlt_bool (Rabs b) (Rabs a).
Proof using Type. clear. intros [Fx <-] [Fy <-]. unfold dabs_gt. rewrite Bltb_correct by (by rewrite is_finite_Babs). by rewrite !B2R_Babs. Qed.
Lemma abs_gt_nan y : dabs_gt B754_nan y = false.
Proof using Type. by destruct y. Qed.
Lemma def_dec d : def d ∨ ¬ def d.
Proof using Hn. unfold def. destruct (constant_dec (rz X) n Hn), (constant_dec (rz (win d)) n Hn); tauto. Qed.
Lemma cf_spec (d : nat) : (d + n ≤ sizeL)%Z → def d → Rabs (cf d - pearson (rz X) (rz (win d)) n) <= 5 * u * Rabs (pearson (rz X) (rz (win d)) n) ∧
  ∀ num a b, fx num (nn X (win d)) (eS + eL) → fx a (vv X) (eS + eS) → fx b (vv (win d)) (eL + eL) → val (ddiv num (dmul (dsqrt a) (dsqrt b))) (cf d).
Proof using Hn HA1 HA HS HL HeS HeL.
  intros Hd [D1 D2]. assert (0 < vv X < 2 ^ 53)%Z as P1.
  { pose proof (vv_nonneg X). destruct (vv_bound X) as (_ & _ & ?); [intros i Hi; by destruct (HS i Hi) as (? & _ & _ & ?)|]. assert (vv X ≠ 0%Z) by (by rewrite vv_zero). lia. }
  assert (0 < vv (win d) < 2 ^ 53)%Z as P2.
  { pose proof (vv_nonneg (win d)). destruct (vv_bound (win d)) as (_ & _ & ?); [intros i Hi; destruct (HL (d + i)) as (? & _ & _ & ?); [lia|done]|]. assert (vv (win d) ≠ 0%Z) by (by rewrite vv_zero). lia. }
  destruct (nn_bound X (win d)) as (_ & _ & P3); [intros i Hi; by destruct (HS i Hi) as (? & _ & _ & ?)|intros i Hi; destruct (HL (d + i)) as (? & _ & _ & ?); [lia|done]|].
  split.
  - rewrite <- (nn_pearson X (win d)) by done.
    assert (∀ z e, (Z.abs z < 2 ^ 53)%Z → mid e → fx (binary_normalize 53 1024 prec53 emax1024 mode_NE z e false) z e) as Mk.
    { intros z e Hz Me. destruct (fx_format z e Hz Me) as [E B]. pose proof (binary_normalize_correct 53 1024 prec53 emax1024 mode_NE z e false) as C. cbv zeta in C. change (round_mode mode_NE) with ZnearestE in C. rewrite fexp_eq in C.
      change (F2R (Float radix2 z e)) with (IZR z * b2 e) in C. rewrite no_overflow in C by exact B. destruct C as (C1 & C2 & _). split; [exact C2|]. by rewrite C1, E. }
    destruct mids as (M1 & M2 & M3 & M4 & M5 & M6).
    destruct (coeff_val _ _ _ _ _ _ eS eL HeS HeL (Mk (nn X (win d)) (eS + eL)%Z P3 M5) (Mk (vv X) (eS + eS)%Z ltac:(lia) M3) (Mk (vv (win d)) (eL + eL)%Z ltac:(lia) M4) P1 P2 P3) as [_ C]. exact C.
  - intros num a b F1 F2 F3. by destruct (coeff_val num a b _ _ _ eS eL HeS HeL F1 F2 F3 P1 P2 P3) as [V _].
Qed.

Lemma ddelays_ok sS a0 b0 sL0 sL20 (k : nat) : fx sS (zsum X n) eS → fx a0 (vv X) (eS + eS) → b0 = dsqrt a0 → fx sL0 (zsum Y (n - 1)) eL → fx sL20 (zsum (λ i, Y i * Y i)%Z (n - 1)) (eL + eL) → (k + n ≤ sizeL + 1)%Z →
  ∃ a sl sl2 ll, loop (ddelay_step dataS dataL n sS b0) (seq 0 k) (DAcc sL0 sL20 zero B754_nan delay0) = Some a ∧
    fx (c_sumL a) sl eL ∧ fx (c_sumL2 a) sl2 (eL + eL) ∧ fx (c_last a) ll eL ∧ (Z.abs ll ≤ A)%Z ∧
    (sl - ll)%Z = zsum (win k) (n - 1) ∧ (sl2 - ll * ll)%Z = zsum (λ i, win k i * win k i)%Z (n - 1) ∧
    dbest k (c_coeff a) (c_delay a).
Proof using Hn Hsize HS HL HeS HeL HA1 HA.
  intros F1 F2 -> F3 F4. pose proof bounds as (B1 & B2 & B3 & B4 & B5). destruct mids as (M1 & M2 & M3 & M4 & M5 & M6).
  induction k as [|k IH]; intros Hk.
  - eexists _, (zsum Y (n - 1)), (zsum (λ i, Y i * Y i)%Z (n - 1)), 0%Z. split; [reflexivity|]. cbn [c_sumL c_last c_sumL2 c_coeff c_delay]. split; [done|]. split; [done|]. split; [apply fx_zero|]. split; [lia|]. split; [rewrite Z.sub_0_r; by apply zsum_ext|]. split; [rewrite Z.sub_0_r; by apply zsum_ext|].
    left. split; [done|]. split; [intros e He; lia|done].
  - destruct IH as (a & sl & sl2 & ll & E & I1 & I2 & I3 & I4 & I5 & I6 & I7); [lia|]. rewrite loop_S, E. cbn [mbind option_bind]. unfold ddelay_step at 1.
    replace (k + n - 1)%Z with (Z.of_nat (k + (n - 1))) by lia. destruct (HL (k + (n - 1))) as (l & El & Fl & Bl); [lia|]. rewrite El. cbn [mbind option_bind].
    destruct (HL k) as (l0 & El0 & Fl0 & Bl0); [lia|]. rewrite El0. cbn [mbind option_bind]. destruct (dinner_ok k) as (c & Ec & Fc); [lia|]. rewrite Ec. cbn [mbind option_bind].
    assert (∀ i, (i < n)%nat → (Z.abs (X i) ≤ A)%Z) as BX by (intros i Hi; by destruct (HS i Hi) as (? & _ & _ & ?)).
    assert (∀ i, (i < n)%nat → (Z.abs (win k i) ≤ A)%Z) as BW by (intros i Hi; destruct (HL (k + i)) as (? & _ & _ & ?); [lia|done]).
    set (y := Y (k + (n - 1))%nat) in *. assert (zsum (win k) n = sl + (y - ll))%Z as S1.
    { destruct n as [|m]; [lia|]. cbn [zsum]. replace (S m - 1)%nat with m in * by lia. rewrite <- I5. unfold win, y. replace (S m - 1)%nat with m by lia. ring. }
    assert (zsum (λ i, win k i * win k i)%Z n = sl2 + (y * y - ll * ll))%Z as S2.
    { destruct n as [|m]; [lia|]. cbn [zsum]. replace (S m - 1)%nat with m in * by lia. rewrite <- I6. unfold win, y. replace (S m - 1)%nat with m by lia. ring. }
    assert (zsum (win k) n - Y k = zsum (win (S k)) (n - 1))%Z as S3.
    { destruct n as [|m]; [lia|]. rewrite zsum_shift. replace (S m - 1)%nat with m by lia. unfold win. rewrite Nat.add_0_r.
      rewrite (zsum_ext (λ i, Y (k + S i)%nat) (λ i, Y (S k + i)%nat)) by (intros; f_equal; lia). ring. }
    assert (zsum (λ i, win k i * win k i)%Z n - Y k * Y k = zsum (λ i, win (S k) i * win (S k) i)%Z (n - 1))%Z as S4.
    { destruct n as [|m]; [lia|]. rewrite zsum_shift. replace (S m - 1)%nat with m by lia. unfold win. rewrite Nat.add_0_r.
      rewrite (zsum_ext (λ i, Y (k + S i)%nat * Y (k + S i)%nat)%Z (λ i, Y (S k + i)%nat * Y (S k + i)%nat)%Z) by (intros; do 2 f_equal; lia). ring. }
    pose proof (psum_bound (win k) n A ltac:(lia) ltac:(lia) BW) as PB1. pose proof (psum_bound (λ i, win k i * win k i)%Z n (A * A) ltac:(lia) ltac:(lia) ltac:(intros i Hi; apply prod_bound; by apply BW)) as PB2.
    pose proof (prod_bound y y Bl Bl) as PBy. pose proof (prod_bound ll ll I4 I4) as PBl. pose proof (Z.square_nonneg y) as Sq1. pose proof (Z.square_nonneg ll) as Sq2.
    assert (fx (dadd (c_sumL a) (dsub l (c_last a))) (zsum (win k) n) eL) as G1. { rewrite S1. apply fx_add; [done| |rewrite <- S1; lia|done]. apply fx_sub; [done|done|lia|done]. }
    assert (fx (dadd (c_sumL2 a) (dsub (dmul l l) (dmul (c_last a) (c_last a)))) (zsum (λ i, win k i * win k i)%Z n) (eL + eL)) as G2.
    { rewrite S2. apply fx_add; [done| |rewrite <- S2; lia|done]. apply fx_sub; [apply fx_mul; [done|done|lia|done]|apply fx_mul; [done|done|lia|done]|lia|done]. }
    set (sL := dadd (c_sumL a) _) in *. set (sL2 := dadd (c_sumL2 a) _) in *. pose proof (fx_of_Z n ltac:(lia)) as Fn.
    destruct (vv_bound (win k) BW) as (V1 & V2 & V3). destruct (nn_bound X (win k) BX BW) as (N1 & N2 & N3).
    assert (fx (dsub (dmul (of_Z n) sL2) (dmul sL sL)) (vv (win k)) (eL + eL)) as G3.
    { apply fx_sub; [|apply fx_mul; done|exact V3|done]. apply (fx_mul (of_Z n) sL2 n _ 0 (eL + eL)); done. }
    assert (fx (dsub (dmul (of_Z n) c) (dmul sS sL)) (nn X (win k)) (eS + eL)) as G4.
    { apply fx_sub; [|apply fx_mul; done|exact N3|done]. apply (fx_mul (of_Z n) c n _ 0 (eS + eL)); done. }
    set (den := dsub (dmul (of_Z n) sL2) (dmul sL sL)) in *. set (num := dsub (dmul (of_Z n) c) (dmul sS sL)) in *.
    set (coeff := ddiv num (dmul (dsqrt a0) (dsqrt den))).
    assert ((def k ∧ val coeff (cf k)) ∨ (¬ def k ∧ coeff = B754_nan)) as CC.
    { destruct (def_dec k) as [D|D]; [left|right]; (split; [done|]).
      - destruct (cf_spec k ltac:(lia) D) as [_ C]. by apply C.
      - apply (coeff_nan num a0 den _ _ _ eS eL G4 F2 G3); [apply vv_nonneg|apply vv_nonneg|apply nn_vv|]. rewrite !vv_zero. unfold def in D. destruct (constant_dec (rz X) n Hn), (constant_dec (rz (win k)) n Hn); tauto. }
    assert (∀ c' dl', dbest (S k) c' dl' → ∃ a1 sl sl2 ll, Some (DAcc sL sL2 l0 c' dl') = Some a1 ∧ fx (c_sumL a1) sl eL ∧ fx (c_sumL2 a1) sl2 (eL + eL) ∧ fx (c_last a1) ll eL ∧ (Z.abs ll ≤ A)%Z ∧
        (sl - ll)%Z = zsum (win (S k)) (n - 1) ∧ (sl2 - ll * ll)%Z = zsum (λ i, win (S k) i * win (S k) i)%Z (n - 1) ∧ dbest (S k) (c_coeff a1) (c_delay a1)) as Fin.
    { intros c' dl' Hb. eexists _, _, _, (Y k). split; [reflexivity|]. cbn [c_sumL c_last c_sumL2 c_coeff c_delay]. split; [exact G1|]. split; [exact G2|]. split; [exact Fl0|]. done. }
    destruct (negb (is_finite (c_coeff a)) || dabs_gt coeff (c_coeff a)) eqn:B; apply Fin.
    + destruct CC as [[D V]|[D Ecn]].
      * right. exists k. split; [lia|]. split; [done|]. split; [done|]. split; [done|].
        assert (∀ e, (e < k)%nat → def e → Rabs (cf e) < Rabs (cf k)) as LT.
        { intros e He De. destruct I7 as [(Ea & Nd & _)|(d & Hd & Dd & Edl & Vd & Mx & _)]; [exfalso; by apply (Nd e)|].
          destruct (Vd) as [Fd _]. rewrite Fd in B. cbn [negb orb] in B. rewrite (abs_gt_val _ _ _ _ V Vd) in B. destruct (Rlt_bool_spec (Rabs (cf d)) (Rabs (cf k))); [|done]. specialize (Mx e He De). lra. }
        split; [|done]. intros e He De. destruct (decide (e = k)) as [->|N]; [lra|]. apply Rlt_le, LT; [lia|done].
      * rewrite Ecn in B |- *. rewrite abs_gt_nan, orb_false_r in B. left. split; [done|]. destruct I7 as [(Ea & Nd & Edl)|(d & Hd & Dd & Edl & Vd & _)].
        -- split; [|rewrite decide_False by lia; f_equal; lia]. intros e He. destruct (decide (e = k)) as [->|N]; [done|]. apply Nd. lia.
        -- destruct Vd as [Fd _]. by rewrite Fd in B.
    + destruct I7 as [(Ea & Nd & _)|(d & Hd & Dd & Edl & Vd & Mx & Fs)]; [by rewrite Ea in B|]. right. exists d. split; [lia|]. split; [done|]. split; [done|]. split; [done|]. split; [|done].
      intros e He De. destruct (decide (e = k)) as [->|N]; [|apply Mx; [lia|done]]. destruct CC as [[_ V]|[D _]]; [|done].
      destruct Vd as [Fd Ed]. rewrite Fd in B. cbn [negb orb] in B. rewrite (abs_gt_val _ _ _ _ V (conj Fd Ed)) in B. destruct (Rlt_bool_spec (Rabs (cf d)) (Rabs (cf k))); [done|lra].
Qed.
Lemma dcross_ok : ∃ dl c, dcross_correlation dataS dataL n sizeL delay0 = Some (dl, c) ∧ dbest (Z.to_nat (sizeL - n + 1)) c dl.
Proof using Hn Hsize HS HL HeS HeL HA1 HA.
  destruct mids as (M1 & M2 & M3 & M4 & M5 & M6). pose proof bounds as (B1 & B2 & B3 & B4 & B5).
  destruct dprepare_ok as (p & E & P1 & P2 & P3 & P4). assert (∀ i, (i < n)%nat → (Z.abs (X i) ≤ A)%Z) as BX by (intros i Hi; by destruct (HS i Hi) as (? & _ & _ & ?)).
  destruct (vv_bound X BX) as (V1 & V2 & V3).
  assert (fx (dsub (dmul (of_Z n) (d_sumS2 p)) (dmul (d_sumS p) (d_sumS p))) (vv X) (eS + eS)) as G.
  { apply fx_sub; [|apply fx_mul; done|exact V3|done]. apply (fx_mul (of_Z n) (d_sumS2 p) n _ 0 (eS + eS)); [apply fx_of_Z; lia|done|done|done]. }
  destruct (ddelays_ok _ _ _ _ _ (Z.to_nat (sizeL - n + 1)) P1 G eq_refl P3 P4 ltac:(lia)) as (a & _ & _ & _ & Ea & _ & _ & _ & _ & _ & _ & H).
  exists (c_delay a), (c_coeff a). split; [|exact H]. unfold dcross_correlation. rewrite E. cbn [mbind option_bind]. rewrite Ea. done.
Qed.
End grid.

(** ** The properties *)
(** A sample that is a multiple of a power of two, by a factor of at most A *)
Definition on_grid (e A : Z) (x : double) : Prop := is_finite x = true ∧ ∃ m, (Z.abs m ≤ A)%Z ∧ B2R x = IZR m * b2 e.
Definition factor (e : Z) (x : double) : Z := Zfloor (B2R x * b2 (- e)).
Lemma factor_ok e A x : on_grid e A x → fx x (factor e x) e ∧ (Z.abs (factor e x) ≤ A)%Z.
Proof.
  intros [F (m & Hm & E)]. assert (factor e x = m) as ->; [|done]. unfold factor. rewrite E, Rmult_assoc, <- bpow_plus. replace (e + - e)%Z with 0%Z by lia. simpl. rewrite Rmult_1_r. apply Zfloor_IZR.
Qed.
Lemma pearson_self x n : (0 < n)%nat → ¬ constant x n → pearson x x n = 1.
Proof.
  intros Hn C. rewrite <- (variance_zero x n Hn) in C. pose proof (variance_nonneg x n) as V. unfold pearson. rewrite sqrt_sqrt by done. change (λ i, square (dev x n i)) with (λ i, dev x n i * dev x n i) in *. field. exact C.
Qed.
Lemma pearson_affine x n a b : (0 < n)%nat → ¬ constant x n → a ≠ 0 → pearson x (λ i, a * x i + b) n = if Rlt_dec 0 a then 1 else -1.
Proof.
  intros Hn C1 Ha. pose proof (pearson_self x n Hn C1) as PS.
    unfold pearson in *. assert (∀ i, dev (λ i, a * x i + b) n i = a * dev x n i) as Dv. { intros i. unfold dev, mean. rewrite rsum_plus, rsum_scale, rsum_const. pose proof (INR_pos' n Hn). field. lra. }
    rewrite (rsum_ext (λ i, dev x n i * dev (λ i, a * x i + b) n i) (λ i, a * (dev x n i * dev x n i))) by (intros; rewrite Dv; ring).
    rewrite (rsum_ext (λ i, square (dev (λ i, a * x i + b) n i)) (λ i, (a * a) * square (dev x n i))) by (intros; rewrite Dv; unfold square; ring).
    rewrite !rsum_scale, sqrt_mult by (try apply variance_nonneg; nra). change (R_sqrt.sqrt (a * a)) with (R_sqrt.sqrt (Rsqr a)). rewrite sqrt_Rsqr_abs.
    set (t := rsum (λ i, dev x n i * dev x n i) n) in *. set (v := R_sqrt.sqrt _) in *. assert (v ≠ 0) as Hv. { intros Z. rewrite Z, Rmult_0_l in PS. unfold Rdiv in PS. rewrite Rinv_0, Rmult_0_r in PS. lra. }
    assert (t = v * v) as Et by (apply (f_equal (λ z, z * (v * v))) in PS; field_simplify in PS; [lra|done]). rewrite Et.
    destruct (Rlt_dec 0 a); [rewrite Rabs_pos_eq by lra|rewrite Rabs_left by lra]; field; lra.
Qed.
Lemma u_eq : u = / 2 ^ 53.
Proof. unfold u. f_equal. rewrite pow_IZR. reflexivity. Qed.

Section props.
Context (dataS dataL : Z → option double) (n : nat) (sizeL : Z) (delay0 : double) (s l : nat → double) (eS eL A : Z).
Hypothesis Hn : (0 < n)%nat.
Hypothesis Hsize : (n ≤ sizeL)%Z.
Hypothesis HS : ∀ i : nat, (i < n)%nat → dataS i = Some (s i) ∧ on_grid eS A (s i).
Hypothesis HL : ∀ i : nat, (i < sizeL)%Z → dataL i = Some (l i) ∧ on_grid eL A (l i).
Hypothesis HeS : (-200 ≤ eS ≤ 200)%Z.
Hypothesis HeL : (-200 ≤ eL ≤ 200)%Z.
Hypothesis HA1 : (1 ≤ A)%Z.
Hypothesis HA : (2 * (n * A) * (n * A) < 2 ^ 53)%Z.
Definition x_of (i : nat) : R := B2R (s i).
Definition w_of (d i : nat) : R := B2R (l (d + i)%nat).
Definition defined (d : nat) : Prop := (Z.of_nat d ≤ sizeL - n)%Z ∧ ¬ constant x_of n ∧ ¬ constant (w_of d) n.
Definition rho (d : nat) : R := pearson x_of (w_of d) n.

(** C87: for samples that are multiples of a power of two, at most A times it, and traces of
    n samples with n A below 2^26, the sums are exact: the coefficient is that of the lag
    returned up to five units of rounding, it is at most 1 up to that, no other lag is better
    by more than eleven, of equal windows the first is returned, and there is no coefficient
    only if the short trace or all of the windows are constant. *)
Theorem C87_grid :
  ∃ dl c, dcross_correlation dataS dataL n sizeL delay0 = Some (dl, c) ∧
  ((∃ d, defined d) → ∃ d, defined d ∧ dl = of_Z d ∧ is_finite c = true ∧ Rabs (B2R c - rho d) <= 5 / 2 ^ 53 * Rabs (rho d) ∧ Rabs (B2R c) <= 1 + 5 / 2 ^ 53 ∧
     (∀ e, defined e → Rabs (rho e) <= (1 + 11 / 2 ^ 53) * Rabs (rho d)) ∧
     (∀ e, (e < d)%nat → defined e → ∃ i, (i < n)%nat ∧ w_of e i ≠ w_of d i)) ∧
  (¬ (∃ d, defined d) → c = B754_nan ∧ dl = of_Z (sizeL - n)).
Proof using Hn Hsize HS HL HeS HeL HA1 HA.
  set (X := λ i, factor eS (s i)). set (Y := λ i, factor eL (l i)).
  assert (∀ i : nat, (i < n)%nat → ∃ z, dataS i = Some z ∧ fx z (X i) eS ∧ (Z.abs (X i) ≤ A)%Z) as HS'.
  { intros i Hi. destruct (HS i Hi) as [E G]. exists (s i). split; [done|]. by apply factor_ok. }
  assert (∀ i : nat, (i < sizeL)%Z → ∃ z, dataL i = Some z ∧ fx z (Y i) eL ∧ (Z.abs (Y i) ≤ A)%Z) as HL'.
  { intros i Hi. destruct (HL i Hi) as [E G]. exists (l i). split; [done|]. by apply factor_ok. }
  assert (∀ i, (i < n)%nat → x_of i = b2 eS * IZR (X i)) as EX. { intros i Hi. destruct (factor_ok eS A (s i)) as [[_ E] _]; [by apply HS|]. unfold x_of. rewrite E. apply Rmult_comm. }
  assert (∀ d i : nat, (Z.of_nat d ≤ sizeL - n)%Z → (i < n)%nat → w_of d i = b2 eL * IZR (Y (d + i)%nat)) as EY. { intros d i Hd Hi. destruct (factor_ok eL A (l (d + i)%nat)) as [[_ E] _]; [apply HL; lia|]. unfold w_of. rewrite E. apply Rmult_comm. }
  pose proof (bpow_gt_0 radix2 eS) as PS. pose proof (bpow_gt_0 radix2 eL) as PL. assert (0 < u < / 1000000) as Hu by (unfold u; lra).
  assert (∀ d : nat, (Z.of_nat d ≤ sizeL - n)%Z → rho d = pearson (λ i, IZR (X i)) (λ i, IZR (Y (d + i)%nat)) n) as ER.
  { intros d Hd. unfold rho. rewrite (pearson_ext x_of (λ i, b2 eS * IZR (X i)) (w_of d) (λ i, b2 eL * IZR (Y (d + i)%nat)) n EX (λ i Hi, EY d i Hd Hi)). by apply pearson_scales. }
  assert (∀ d : nat, (Z.of_nat d ≤ sizeL - n)%Z → defined d ↔ def n X Y d) as ED.
  { intros d Hd. unfold defined, def. rewrite (constant_ext _ _ n EX), (constant_ext _ _ n (λ i Hi, EY d i Hd Hi)), !constant_scale by done. tauto. }
  destruct (dcross_ok dataS dataL n sizeL delay0 X Y eS eL A Hn Hsize HeS HeL HS' HL' HA1 HA) as (dl & c & E & H). exists dl, c. split; [done|].
  assert (∀ d : nat, (Z.of_nat d ≤ sizeL - n)%Z → defined d → Rabs (cf n X Y eS eL d - rho d) <= 5 * u * Rabs (rho d)) as EC.
  { intros d Hd D. rewrite (ER d Hd). apply (cf_spec dataS dataL n sizeL X Y eS eL A Hn HeS HeL HS' HL' HA1 HA d ltac:(lia)). by apply ED. }
  replace (5 / 2 ^ 53) with (5 * u) by (rewrite u_eq; reflexivity). replace (11 / 2 ^ 53) with (11 * u) by (rewrite u_eq; reflexivity). split.
  - intros [d0 D0]. destruct H as [(-> & Nd & _)|(d & Hd & Dd & -> & [Fc Ec] & Mx & Fs)].
    { exfalso. pose proof D0 as [L0 _]. apply (Nd d0); [lia|]. by apply ED. }
    assert (Z.of_nat d ≤ sizeL - n)%Z as Ld by lia. apply ED in Dd; [|done]. exists d. pose proof (EC d Ld Dd) as C. rewrite Ec.
    assert (Rabs (rho d) <= 1) as R1. { apply Rabs_le. destruct Dd as (_ & C1 & C2). by apply pearson_bound. }
    assert (∀ a b, Rabs (a - b) <= 5 * u * Rabs b → (1 - 5 * u) * Rabs b <= Rabs a <= (1 + 5 * u) * Rabs b) as Tri.
    { intros a b Hab. pose proof (Rabs_triang_inv a b). pose proof (Rabs_triang_inv b a) as T2. rewrite (Rabs_minus_sym b a) in T2. lra. }
    split; [done|]. split; [done|]. split; [done|]. split; [exact C|]. split; [pose proof (Tri _ _ C); nra|]. split.
    + intros e De. pose proof De as [Le _]. pose proof (Tri _ _ C) as T1. pose proof (Tri _ _ (EC e Le De)) as T2. assert (Rabs (cf n X Y eS eL e) <= Rabs (cf n X Y eS eL d)) as M by (apply Mx; [lia|by apply ED]).
      pose proof (Rabs_pos (rho d)) as Pd. apply Rnot_lt_le. intros K. assert ((1 - 5 * u) * ((1 + 11 * u) * Rabs (rho d)) < (1 - 5 * u) * Rabs (rho e)) as K' by (apply Rmult_lt_compat_l; lra).
      assert (0 <= Rabs (rho d) * (u * (1 - 55 * u))) by (apply Rmult_le_pos; [lra|]; apply Rmult_le_pos; lra). nra.
    + intros e He De. pose proof De as [Le _]. destruct (Classical_Prop.classic (∃ i, (i < n)%nat ∧ w_of e i ≠ w_of d i)) as [K|K]; [done|exfalso].
      assert (∀ i, (i < n)%nat → Y (e + i)%nat = Y (d + i)%nat) as Q.
      { intros i Hi. apply eq_IZR. assert (w_of e i = w_of d i) as W by (destruct (Req_dec (w_of e i) (w_of d i)) as [|N]; [done|exfalso; apply K; by exists i]). rewrite !EY in W by done. apply Rmult_eq_reg_l in W; [done|lra]. }
      assert (cf n X Y eS eL e = cf n X Y eS eL d) as Q2.
      { unfold cf. assert (nn n X (λ i, Y (e + i)%nat) = nn n X (λ i, Y (d + i)%nat)) as -> by (unfold nn; rewrite (zsum_ext _ _ n Q), (zsum_ext (λ i, X i * Y (e + i)%nat)%Z (λ i, X i * Y (d + i)%nat)%Z) by (intros; by rewrite Q); done).
        assert (vv n (λ i, Y (e + i)%nat) = vv n (λ i, Y (d + i)%nat)) as -> by (unfold vv; rewrite (zsum_ext _ _ n Q), (zsum_ext (λ i, Y (e + i)%nat * Y (e + i)%nat)%Z (λ i, Y (d + i)%nat * Y (d + i)%nat)%Z) by (intros; by rewrite !Q); done). done. }
      assert (Rabs (cf n X Y eS eL e) < Rabs (cf n X Y eS eL d)) as M by (apply Fs; [done|by apply ED]). rewrite Q2 in M. lra.
  - intros N. destruct H as [(-> & _ & ->)|(d & Hd & Dd & _)]; [|exfalso; apply N; exists d; apply ED; [lia|done]]. split; [done|]. rewrite decide_False by lia. f_equal. lia.
Qed.
(** C87: a lag that is better than all others by more than eleven units of rounding is found. *)
Theorem C87_found d : defined d → (∀ e, defined e → e ≠ d → (1 + 11 / 2 ^ 53) * Rabs (rho e) < Rabs (rho d)) →
  ∃ c, dcross_correlation dataS dataL n sizeL delay0 = Some (of_Z d, c) ∧ is_finite c = true ∧ Rabs (B2R c - rho d) <= 5 / 2 ^ 53 * Rabs (rho d).
Proof using Hn Hsize HS HL HeS HeL HA1 HA.
  intros D H. destruct C87_grid as (dl & c & E & H1 & _). destruct H1 as (d' & D' & -> & F & C & _ & M & _); [by exists d|]. destruct (decide (d' = d)) as [->|N]; [by exists c|].
  specialize (M d D). specialize (H d' D' N). pose proof (Rabs_pos (rho d')). lra.
Qed.
(** C87: a window equal to the short trace up to a gain and an offset is found, if no other is close to this. *)
Theorem C87_match d a b : defined d → a ≠ 0 → (∀ i, (i < n)%nat → w_of d i = a * x_of i + b) → (∀ e, defined e → e ≠ d → Rabs (rho e) <= 1 - 11 / 2 ^ 53) →
  ∃ c, dcross_correlation dataS dataL n sizeL delay0 = Some (of_Z d, c) ∧ is_finite c = true ∧ 1 - 5 / 2 ^ 53 <= Rabs (B2R c) <= 1 + 5 / 2 ^ 53.
Proof using Hn Hsize HS HL HeS HeL HA1 HA.
  intros D Ha Hw H. assert (rho d = if Rlt_dec 0 a then 1 else -1) as R.
  { destruct D as (_ & C1 & C2). unfold rho. rewrite (pearson_ext x_of x_of (w_of d) (λ i, a * x_of i + b) n) by done.
    by apply pearson_affine. }
  assert (Rabs (rho d) = 1) as R1. { rewrite R. destruct (Rlt_dec 0 a); [apply Rabs_R1|rewrite Rabs_left; lra]. }
  replace (5 / 2 ^ 53) with (5 * u) in * by (rewrite u_eq; reflexivity). replace (11 / 2 ^ 53) with (11 * u) in * by (rewrite u_eq; reflexivity). assert (0 < u < / 1000000) as Hu by (unfold u; lra).
  destruct (C87_found d D) as (c & E & F & C).
  { replace (11 / 2 ^ 53) with (11 * u) by (rewrite u_eq; reflexivity). intros e De Ne. specialize (H e De Ne). rewrite R1. pose proof (Rabs_pos (rho e)). nra. }
  replace (5 / 2 ^ 53) with (5 * u) in C by (rewrite u_eq; reflexivity). exists c. split; [done|]. split; [done|]. rewrite R1, Rmult_1_r in C. pose proof (Rabs_triang_inv (B2R c) (rho d)). pose proof (Rabs_triang_inv (rho d) (B2R c)) as T2. rewrite (Rabs_minus_sym (rho d)) in T2. lra.
Qed.
End props.

(** ** Outside of the bound *)
Definition readd (t : list Z) (i : Z) : option double := if (0 <=? i)%Z then of_Z <$> t !! Z.to_nat i else None.
Definition run (S L : list Z) : option (double * double) := dcross_correlation (readd S) (readd L) (length S) (length L) zero.
(** Sign, mantissa and exponent, to compare results *)
Definition parts (x : double) : option (Z * Z) :=
  match x with B754_finite s m e _ => Some (if s then Z.neg m else Z.pos m, e) | B754_zero _ => Some (0, 0)%Z | _ => None end.
Definition show (r : option (double * double)) : option (option (Z * Z) * option (Z * Z)) := (λ q, (parts q.1, parts q.2)) <$> r.
Definition sample (t : list Z) (i : nat) : R := IZR (nth i t 0%Z).
Lemma parts_B2R x m e : parts x = Some (m, e) → B2R x = IZR m * b2 e.
Proof. destruct x as [s| | |s k f B]; cbn; [intros [= <- <-]; simpl; ring|done|done|]. intros [= <- <-]. by destruct s. Qed.
Lemma parts_none x : parts x = None → is_finite x = false.
Proof. by destruct x. Qed.

(** C87: a large offset makes the coefficient of two samples -2. *)
Theorem C87_above_one_refuted : ∃ S L dl c, Forall (λ z, (0 ≤ z < 2 ^ 28)%Z) (S ++ L) ∧ run S L = Some (dl, c) ∧ is_finite c = true ∧ B2R c = -2.
Proof.
  assert (show (run [134217733; 134217728]%Z [134217729; 134217733]%Z) = Some (Some (0, 0)%Z, Some (-4503599627370496, -51)%Z)) as E by (vm_compute; reflexivity).
  unfold show in E. destruct (run _ _) as [[dl c]|] eqn:Er; [|done]. cbn in E. injection E as E1 E2. eexists _, _, dl, c. split; [|split; [exact Er|split]].
  - cbn [app]. repeat constructor; lia.
  - by destruct c.
  - rewrite (parts_B2R _ _ _ E2). change (b2 (-51)) with (/ 2251799813685248). lra.
Qed.
(** C87: with n A = 2^27 + 2 a trace has no coefficient with itself, although it is not
    constant: the bound of C87_grid is not far from the best possible. *)
Theorem C87_self_refuted : ∃ S dl c, Forall (λ z, (0 ≤ z ≤ 2 ^ 26 + 1)%Z) S ∧ length S = 2%nat ∧ pearson (sample S) (sample S) 2 = 1 ∧ run S S = Some (dl, c) ∧ is_finite c = false.
Proof.
  assert (show (run [67108864; 67108865]%Z [67108864; 67108865]%Z) = Some (Some (0, 0)%Z, None)) as E by (vm_compute; reflexivity).
  unfold show in E. destruct (run _ _) as [[dl c]|] eqn:Er; [|done]. cbn in E. injection E as E1 E2. exists [67108864; 67108865]%Z, dl, c. split; [|split; [done|split; [|split; [exact Er|by apply parts_none]]]].
  - repeat constructor; lia.
  - apply pearson_self; [lia|]. intros C. specialize (C 0%nat 1%nat ltac:(lia) ltac:(lia)). unfold sample in C. cbn in C. lra.
Qed.
(** C87: one large sample spoils the sums of all windows after it: the fourth window is the
    short trace, but the second lag is returned, with a coefficient of -0.7. *)
Theorem C87_spike_refuted : ∃ S L dl c, length S = 3%nat ∧ (∀ i, (i < 3)%nat → sample L (3 + i) = sample S i) ∧ pearson (sample S) (λ i, sample L (3 + i)) 3 = 1 ∧
  (∀ i, (1 ≤ i)%nat → Rabs (sample L i) <= 5) ∧ run S L = Some (dl, c) ∧ is_finite c = true ∧ B2R dl = 1 ∧ -71 / 100 < B2R c < -70 / 100.
Proof.
  assert (show (run [1; 2; 1]%Z [134217729; 5; 0; 1; 2; 1; 0]%Z) = Some (Some (4503599627370496, -52)%Z, Some (-6369051672525772, -53)%Z)) as E by (vm_compute; reflexivity).
  unfold show in E. destruct (run _ _) as [[dl c]|] eqn:Er; [|done]. cbn in E. injection E as E1 E2. exists [1; 2; 1]%Z, [134217729; 5; 0; 1; 2; 1; 0]%Z, dl, c.
  assert (∀ i, (i < 3)%nat → sample [134217729; 5; 0; 1; 2; 1; 0]%Z (3 + i) = sample [1; 2; 1]%Z i) as M by (intros [|[|[|i]]] Hi; [done|done|done|lia]).
  split; [done|]. split; [exact M|]. split; [|split; [|split; [exact Er|split; [by destruct c|split]]]].
  - rewrite (pearson_ext _ (sample [1; 2; 1]%Z) _ (sample [1; 2; 1]%Z)) by (done || exact M). apply pearson_self; [lia|]. intros C. specialize (C 0%nat 1%nat ltac:(lia) ltac:(lia)). unfold sample in C. cbn in C. lra.
  - intros i Hi. unfold sample. do 7 (destruct i as [|i]; [try lia; cbn; apply Rabs_le; lra|]). cbn. destruct i; apply Rabs_le; lra.
  - rewrite (parts_B2R _ _ _ E1). change (b2 (-52)) with (/ 4503599627370496). lra.
  - rewrite (parts_B2R _ _ _ E2). change (b2 (-53)) with (/ 9007199254740992). lra.
Qed.

(** ** The hypotheses are met *)
(** The first window of 0, 1, 0, 0 is 1, 4, 1 up to a gain and an offset, the correlation of the
    second one is -1/2: the hypotheses of C87_match, and so of the other two, hold. *)
Example C87_example : ∃ c, run [1; 4; 1]%Z [0; 1; 0; 0]%Z = Some (of_Z 0, c) ∧ is_finite c = true ∧ 1 - 5 / 2 ^ 53 <= Rabs (B2R c) <= 1 + 5 / 2 ^ 53.
Proof.
  set (S := [1; 4; 1]%Z). set (L := [0; 1; 0; 0]%Z). set (s := λ i : nat, of_Z (nth i S 0%Z)). set (l := λ i : nat, of_Z (nth i L 0%Z)).
  assert (∀ z, (Z.abs z ≤ 4)%Z → on_grid 0 4 (of_Z z)) as G. { intros z Hz. destruct (of_Z_val z ltac:(lia)) as [F E]. split; [done|]. exists z. split; [done|]. rewrite E. simpl. ring. }
  assert (∀ z, (Z.abs z ≤ 4)%Z → B2R (of_Z z) = IZR z) as V by (intros z Hz; destruct (of_Z_val z ltac:(lia)) as [_ E]; exact E).
  assert (∀ i, x_of s i = IZR (nth i S 0%Z)) as Ex. { intros i. apply V. do 3 (destruct i as [|i]; [cbn; lia|]). destruct i; cbn; lia. }
  assert (∀ d i, w_of l d i = IZR (nth (d + i) L 0%Z)) as Ew. { intros d i. apply V. generalize (d + i)%nat. intros j. do 4 (destruct j as [|j]; [cbn; lia|]). destruct j; cbn; lia. }
  apply (C87_match (readd S) (readd L) 3 4 zero s l 0 0 4 ltac:(lia) ltac:(lia)) with (d := 0%nat) (a := / 3) (b := - / 3); [| |lia|lia|lia|lia| |lra| |].
  - intros i Hi. destruct i as [|[|[|i]]]; [| | |lia]; (split; [done|apply G; cbn; lia]).
  - intros i Hi. do 4 (destruct i as [|i]; [split; [done|apply G; cbn; lia]|]). lia.
  - split; [lia|]. split; intros C; specialize (C 0%nat 1%nat ltac:(lia) ltac:(lia)); rewrite ?Ex, ?Ew in C; cbn in C; lra.
  - intros i Hi. rewrite Ex, Ew. destruct i as [|[|[|i]]]; [cbn; lra|cbn; lra|cbn; lra|lia].
  - intros e [Le _] Ne. assert (e = 1%nat) as -> by lia. unfold rho. rewrite (pearson_ext _ (λ i, IZR (nth i S 0%Z)) _ (λ i, IZR (nth (1 + i) L 0%Z))) by (intros; auto).
    unfold pearson, dev, mean, square. cbn [rsum nth S L plus]. replace (INR 3) with 3 by (cbn; lra).
    set (p := R_sqrt.sqrt _). set (q := R_sqrt.sqrt _). assert (p * p = 6) as Hp by (unfold p; rewrite sqrt_sqrt; lra). assert (q * q = 2 / 3) as Hq by (unfold q; rewrite sqrt_sqrt; lra).
    assert (0 <= p) by apply sqrt_pos. assert (0 <= q) by apply sqrt_pos. assert (p * q = 2) as Hpq. { assert ((p * q) * (p * q) = 4) by nra. assert (0 <= p * q) by (by apply Rmult_le_pos). nra. }
    rewrite Hpq. replace (11 / 2 ^ 53) with (11 * u) by (rewrite u_eq; reflexivity). unfold u. apply Rabs_le. lra.
Qed.
Print Assumptions C87_grid.
Print Assumptions C87_found.
Print Assumptions C87_match.
Print Assumptions C87_above_one_refuted.
Print Assumptions C87_self_refuted.
Print Assumptions C87_spike_refuted.
