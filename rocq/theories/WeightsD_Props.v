(** The weights of the residuals in double precision (C100). *)
From Coq Require Import ZArith Reals Lra Psatz.
From Flocq Require Import Core BinarySingleNaN Relative Plus_error.
From stdpp Require Import numbers list sorting.
From Verif Require Import Double_Model Double_Props XCorrD_Model XCorrD_Props OrderStats_Model OrderStats_Props ResWeights_Model ResWeights_Props WeightsD_Model.
Local Open Scope R_scope.
Local Instance p53 : Prec_gt_0 53 := prec53.
Local Instance flt_valid : Valid_exp (FLT_exp (-1074) 53) := FLT_exp_valid (-1074) 53.
Local Instance flt_mono : Monotone_exp (FLT_exp (-1074) 53) := FLT_exp_monotone (-1074) 53.
Notation Bsign := BinarySingleNaN.Bsign.
Notation is_nan := BinarySingleNaN.is_nan.

(** ** Operations that may overflow *)
Lemma inf_of (z : double) s : B2SF z = SpecFloat.S754_infinity s → z = B754_infinity s.
Proof. destruct z; simpl; intros H; inversion H; done. Qed.
Definition over (r : R) : Prop := b2 1024 <= Rabs (rnd r).
Lemma mul_cases x y : is_finite x = true → is_finite y = true →
  val (dmul x y) (rnd (B2R x * B2R y)) ∨ over (B2R x * B2R y) ∧ dmul x y = B754_infinity (xorb (Bsign x) (Bsign y)).
Proof.
  intros Fx Fy. pose proof (Bmult_correct 53 1024 prec53 emax1024 mode_NE x y) as C. change (round_mode mode_NE) with ZnearestE in C. rewrite fexp_eq in C.
  destruct (Rlt_bool_spec (Rabs (rnd (B2R x * B2R y))) (b2 1024)) as [H|H].
  - destruct C as (C1 & C2 & _). left. split; [unfold dmul; by rewrite C2, Fx, Fy|exact C1].
  - right. split; [exact H|]. by apply inf_of.
Qed.
Lemma div_cases x y : is_finite x = true → B2R y ≠ 0 →
  val (ddiv x y) (rnd (B2R x / B2R y)) ∨ over (B2R x / B2R y) ∧ ddiv x y = B754_infinity (xorb (Bsign x) (Bsign y)).
Proof.
  intros Fx Hy. pose proof (Bdiv_correct 53 1024 prec53 emax1024 mode_NE x y Hy) as C. change (round_mode mode_NE) with ZnearestE in C. rewrite fexp_eq in C.
  destruct (Rlt_bool_spec (Rabs (rnd (B2R x / B2R y))) (b2 1024)) as [H|H].
  - destruct C as (C1 & C2 & _). left. split; [unfold ddiv; by rewrite C2, Fx|exact C1].
  - right. split; [exact H|]. by apply inf_of.
Qed.
Lemma rnd_fmt x : rnd (B2R (x : double)) = B2R x.
Proof. apply round_generic; [apply valid_rnd_N|]. rewrite <- fexp_eq. apply generic_format_B2R. Qed.
Lemma rnd_le a b : a <= b → rnd a <= rnd b.
Proof. apply round_le; [apply flt_valid|apply valid_rnd_N]. Qed.
Lemma rnd_fix (z e : Z) : (Z.abs z < 2 ^ 53)%Z → (-1074 ≤ e)%Z → rnd (IZR z * b2 e) = IZR z * b2 e.
Proof. intros H He. apply round_generic; [apply valid_rnd_N|]. apply generic_format_FLT. by exists (Float radix2 z e). Qed.
Lemma rnd_1 : rnd 1 = 1.
Proof. pose proof (rnd_fix 1 0 ltac:(lia) ltac:(lia)) as H. simpl in H. by rewrite Rmult_1_r in H. Qed.
Lemma rnd_0 : rnd 0 = 0.
Proof. apply round_0, valid_rnd_N. Qed.
Lemma rnd_abs_eq x : Rabs (rnd x) = rnd (Rabs x).
Proof. symmetry. apply round_NE_abs, flt_valid. Qed.

(** ** The weight as a function of real numbers, each operation rounded *)
Definition rw (c r : R) : R :=
  let q := rnd (r / c) in let p := rnd (q * q) in let w := Rmax (rnd (1 - p)) 0 in rnd (w * w).
Lemma p_nonneg q : 0 <= rnd (q * q).
Proof. rewrite <- rnd_0. apply rnd_le. nra. Qed.
Lemma p_mono a b : Rabs a <= Rabs b → rnd (a * a) <= rnd (b * b).
Proof. intros H. apply rnd_le. rewrite <- (Rabs_pos_eq (a * a)), <- (Rabs_pos_eq (b * b)) by nra. rewrite !Rabs_mult. pose proof (Rabs_pos a). nra. Qed.
Lemma w_zero p : 1 <= p → Rmax (rnd (1 - p)) 0 = 0.
Proof. intros H. apply Rmax_right. rewrite <- rnd_0. apply rnd_le. lra. Qed.
Lemma w_range p : 0 <= p → 0 <= Rmax (rnd (1 - p)) 0 <= 1.
Proof. intros H. split; [apply Rmax_r|]. apply Rmax_lub; [|lra]. rewrite <- rnd_1 at 2. apply rnd_le. lra. Qed.
Lemma big_sq q : 1 <= Rabs q → 1 <= rnd (q * q).
Proof. intros H. rewrite <- rnd_1 at 1. apply rnd_le. rewrite <- (Rabs_pos_eq (q * q)) by nra. rewrite Rabs_mult. nra. Qed.
Lemma b2_1024 : 1 <= b2 1024.
Proof. change 1 with (b2 0). apply bpow_le. lia. Qed.

(** From the squared quotient to the weight *)
Lemma tail_inf : dsquare (dmax (dsub (of_Z 1) (B754_infinity false)) zero) = zero.
Proof. vm_compute. reflexivity. Qed.
Lemma tail_fin (x : double) (p : R) : val x p → 0 <= p → val (dsquare (dmax (dsub (of_Z 1) x) zero)) (rnd (Rmax (rnd (1 - p)) 0 * Rmax (rnd (1 - p)) 0)).
Proof.
  intros [Fx Ex] Hp. set (w := Rmax (rnd (1 - p)) 0). destruct (w_range p Hp) as [W0 W1]. fold w in W0, W1.
  assert (val (dmax (dsub (of_Z 1) x) zero) w) as V.
  { destruct (of_Z_val 1 ltac:(lia)) as [F1 E1].
    pose proof (Bminus_correct 53 1024 prec53 emax1024 mode_NE (of_Z 1) x F1 Fx) as C. change (round_mode mode_NE) with ZnearestE in C. rewrite fexp_eq, E1, Ex in C.
    assert (Rabs (rnd (1 - p)) < b2 1024) as B.
    { apply Rle_lt_trans with (Rmax 1 p).
      - rewrite rnd_abs_eq. replace (Rmax 1 p) with (rnd (Rmax 1 p)).
        + apply rnd_le. unfold Rmax. destruct (Rle_dec 1 p); apply Rabs_le; lra.
        + unfold Rmax. destruct (Rle_dec 1 p); [rewrite <- Ex; apply rnd_fmt|apply rnd_1].
      - unfold Rmax. destruct (Rle_dec 1 p).
        + rewrite <- Ex. eapply Rle_lt_trans; [apply Rle_abs|]. by apply abs_B2R_lt_emax.
        + change 1 with (b2 0). apply bpow_lt. lia. }
    rewrite (Rlt_bool_true _ _ B) in C. destruct C as (C1 & C2 & _). change (Bminus mode_NE (of_Z 1) x) with (dsub (of_Z 1) x) in C1, C2.
    unfold dmax. rewrite Bltb_correct by done. rewrite C1. change (B2R zero) with 0. unfold w.
    destruct (Rlt_bool_spec (rnd (1 - p)) 0) as [L|L].
    - rewrite Rmax_right by lra. by split.
    - rewrite Rmax_left by lra. by split. }
  destruct V as [FV EV]. unfold dsquare. destruct (mul_cases _ _ FV FV) as [H|[H _]]; [by rewrite EV in H|]. exfalso. unfold over in H. rewrite EV in H.
  assert (Rabs (rnd (w * w)) <= 1) as K.
  { rewrite rnd_abs_eq. rewrite <- rnd_1. apply rnd_le. rewrite Rabs_pos_eq; nra. }
  assert (b2 0 < b2 1024) as L by (apply bpow_lt; lia). change (b2 0) with 1 in L. lra.
Qed.
Lemma weight_val (c r : double) : is_finite r = true → 0 < B2R c → val (dweight c r) (rw (B2R c) (B2R r)).
Proof.
  intros Fr Hc. unfold dweight, rw. pose proof b2_1024 as B1.
  destruct (div_cases r c Fr) as [V|[O E]]; [lra| |].
  - destruct V as [FV EV]. set (q := rnd (B2R r / B2R c)) in *. destruct (mul_cases _ _ FV FV) as [H|[O E]].
    + unfold dsquare at 2. rewrite EV in H. apply tail_fin; [exact H|apply p_nonneg].
    + unfold dsquare at 2. rewrite E, xorb_nilpotent, tail_inf. rewrite EV in O. unfold over in O. rewrite Rabs_pos_eq in O by apply p_nonneg.
      rewrite w_zero by lra. rewrite Rmult_0_l, rnd_0. by split.
  - rewrite E. replace (dsquare (B754_infinity _)) with (B754_infinity false : double) by (unfold dsquare, dmul; simpl; by rewrite xorb_nilpotent).
    rewrite tail_inf. unfold over in O. rewrite w_zero by (apply big_sq; lra). rewrite Rmult_0_l, rnd_0. by split.
Qed.

(** ** Properties of the rounded function *)
Lemma rw_range c r : 0 <= rw c r <= 1.
Proof.
  unfold rw. destruct (w_range _ (p_nonneg (rnd (r / c)))) as [H0 H1]. set (w := Rmax _ _) in *. split.
  - rewrite <- rnd_0. apply rnd_le. nra.
  - rewrite <- rnd_1. apply rnd_le. nra.
Qed.
Lemma rw_zero_res c : 0 < c → rw c 0 = 1.
Proof.
  intros Hc. unfold rw. replace (0 / c) with 0 by (unfold Rdiv; ring). rewrite rnd_0, Rmult_0_l, rnd_0, Rminus_0_r, rnd_1. rewrite Rmax_left by lra. by rewrite Rmult_1_l, rnd_1.
Qed.
Lemma rw_mono c r r' : 0 < c → Rabs r <= Rabs r' → rw c r' <= rw c r.
Proof.
  intros Hc H. unfold rw.
  assert (rnd (rnd (r / c) * rnd (r / c)) <= rnd (rnd (r' / c) * rnd (r' / c))) as P.
  { apply p_mono. rewrite !rnd_abs_eq. apply rnd_le. unfold Rdiv. rewrite !Rabs_mult. apply Rmult_le_compat_r; [apply Rabs_pos|done]. }
  set (p := rnd (rnd (r / c) * rnd (r / c))) in *. set (p' := rnd (rnd (r' / c) * rnd (r' / c))) in *.
  assert (Rmax (rnd (1 - p')) 0 <= Rmax (rnd (1 - p)) 0) as W by (apply Rle_max_compat_r, rnd_le; lra).
  apply rnd_le. pose proof (Rmax_r (rnd (1 - p')) 0). nra.
Qed.
Lemma u_pos : 0 < u.
Proof. unfold u. lra. Qed.
(** The largest number below one *)
Definition below1 : R := 1 - u.
Lemma rnd_below1 x : x <= below1 → rnd x <= below1.
Proof.
  intros H. assert (rnd below1 = below1) as E.
  { pose proof (rnd_fix 9007199254740991 (-53) ltac:(lia) ltac:(lia)) as K. replace (IZR 9007199254740991 * b2 (-53)) with below1 in K; [done|]. unfold below1, u. simpl. lra. }
  rewrite <- E. by apply rnd_le.
Qed.
Lemma quot_below1 (c r : double) : 0 < B2R c → Rabs (B2R r) < B2R c → Rabs (B2R r) / B2R c <= below1.
Proof.
  intros Hc H. set (C := B2R c) in *. apply (Rmult_le_reg_r C); [done|]. unfold Rdiv. rewrite Rmult_assoc, Rinv_l, Rmult_1_r by lra.
  assert (generic_format radix2 (FLT_exp (-1074) 53) C) as GC by (rewrite <- fexp_eq; apply generic_format_B2R).
  assert (generic_format radix2 (FLT_exp (-1074) 53) (Rabs (B2R r))) as GR by (apply generic_format_abs; rewrite <- fexp_eq; apply generic_format_B2R).
  pose proof (pred_ge_gt radix2 (FLT_exp (-1074) 53) _ _ GR GC H) as P.
  eapply Rle_trans; [exact P|]. unfold below1.
  assert (u * C <= ulp radix2 (FLT_exp (-1074) 53) (Ulp.pred radix2 (FLT_exp (-1074) 53) C)) as U.
  { pose proof (ulp_FLT_gt radix2 (-1074) 53 C) as G. rewrite Rabs_pos_eq in G by lra. assert (b2 (- (53)) = u) as EU by reflexivity. rewrite EU in G.
    destruct (ulp_FLT_pred_pos radix2 (-1074) 53 C GC (Rlt_le _ _ Hc)) as [E|[E1 E2]].
    - rewrite E. lra.
    - rewrite E2. change (IZR radix2) with 2. rewrite ulp_neq_0 by lra.
      assert (b2 (mag radix2 C - 53) <= b2 (cexp radix2 (FLT_exp (-1074) 53) C)) as L by (apply bpow_le; unfold cexp, FLT_exp; lia).
      assert (b2 (mag radix2 C - 53) = 2 * (u * C)) as K; [|lra].
      transitivity (2 * (u * b2 (mag radix2 C - 1))); [|by rewrite <- E1]. rewrite <- EU. change 2 with (b2 1). rewrite <- !bpow_plus. f_equal. lia. }
  pose proof (pred_plus_ulp radix2 (FLT_exp (-1074) 53) C Hc GC) as PU. lra.
Qed.
(** The weight is zero exactly from the cutoff on *)
Lemma rw_zero_iff (c r : double) : 0 < B2R c → rw (B2R c) (B2R r) = 0 ↔ B2R c <= Rabs (B2R r).
Proof.
  intros Hc. assert (Rabs (B2R r / B2R c) = Rabs (B2R r) / B2R c) as EA by (unfold Rdiv; rewrite Rabs_mult, (Rabs_pos_eq (/ B2R c)); [done|]; apply Rlt_le, Rinv_0_lt_compat; done).
  split.
  - intros H. destruct (Rle_or_lt (B2R c) (Rabs (B2R r))) as [L|L]; [done|exfalso]. revert H. pose proof (quot_below1 c r Hc L) as Q. rewrite <- EA in Q.
    pose proof (rnd_below1 _ Q) as Q1. rewrite <- rnd_abs_eq in Q1. unfold rw. set (q := rnd (B2R r / B2R c)) in *. unfold below1 in *. pose proof u_pos as U0.
    assert (u < 1) as U1 by (unfold u; lra). pose proof (Rabs_pos q) as Q0.
    assert (q * q <= below1) as P. { unfold below1. rewrite <- (Rabs_pos_eq (q * q)) by nra. rewrite Rabs_mult. nra. }
    apply rnd_below1 in P. unfold below1 in P. set (p := rnd (q * q)) in *.
    assert (rnd u = u) as EU. { pose proof (rnd_fix 1 (-53) ltac:(lia) ltac:(lia)) as K. rewrite Rmult_1_l in K. exact K. }
    assert (u <= rnd (1 - p)) as W by (rewrite <- EU at 1; apply rnd_le; lra).
    rewrite Rmax_left by lra. set (w := rnd (1 - p)) in *.
    assert (u * u <= rnd (w * w)) as WW.
    { assert (rnd (u * u) = u * u) as E2. { pose proof (rnd_fix 1 (-106) ltac:(lia) ltac:(lia)) as K. rewrite Rmult_1_l in K. change (-106)%Z with (-53 + -53)%Z in K. rewrite bpow_plus in K. exact K. }
      rewrite <- E2 at 1. apply rnd_le. nra. }
    nra.
  - intros H. unfold rw. rewrite w_zero; [by rewrite Rmult_0_l, rnd_0|]. apply big_sq. rewrite rnd_abs_eq, EA. rewrite <- rnd_1 at 1. apply rnd_le.
    apply (Rmult_le_reg_r (B2R c)); [done|]. unfold Rdiv. rewrite Rmult_assoc, Rinv_l by lra. lra.
Qed.
(** Distance to the function of the real numbers (C36) *)
Lemma rnd_abs1 x : Rabs x <= 1 → Rabs (rnd x - x) <= u.
Proof.
  intros H. pose proof (rnd_abs x 1 ltac:(lia) ltac:(simpl; lra)) as K. eapply Rle_trans; [exact K|]. change (1 - 54)%Z with (-53)%Z. apply Rle_refl.
Qed.
Lemma rw_accuracy (c r : double) : 0 < B2R c → Rabs (rw (B2R c) (B2R r) - wfun (B2R c) (B2R r)) <= 9 * u.
Proof.
  intros Hc. assert (Rabs (B2R r / B2R c) = Rabs (B2R r) / B2R c) as EA by (unfold Rdiv; rewrite Rabs_mult, (Rabs_pos_eq (/ B2R c)); [done|]; apply Rlt_le, Rinv_0_lt_compat; done).
  pose proof u_pos as U0. assert (u < / 1000) as U1 by (unfold u; lra).
  destruct (Rle_or_lt (B2R c) (Rabs (B2R r))) as [L|L].
  - rewrite (proj2 (rw_zero_iff c r Hc) L). unfold wfun. rewrite Rmax_right, Rmult_0_l, Rminus_0_r, Rabs_R0; [lra|].
    assert (1 <= Rabs (B2R r / B2R c)) as K. { rewrite EA. apply (Rmult_le_reg_r (B2R c)); [done|]. unfold Rdiv. rewrite Rmult_assoc, Rinv_l by lra. lra. }
    assert (B2R r / B2R c * (B2R r / B2R c) = Rabs (B2R r / B2R c) * Rabs (B2R r / B2R c)) as -> by (rewrite <- Rabs_mult; symmetry; apply Rabs_pos_eq; nra). nra.
  - pose proof (quot_below1 c r Hc L) as Q. rewrite <- EA in Q. pose proof (rnd_below1 _ Q) as Q1. rewrite <- rnd_abs_eq in Q1.
    unfold rw, wfun. set (x := B2R r / B2R c) in *. set (q := rnd x) in *. unfold below1 in Q, Q1.
    pose proof (rnd_abs1 x ltac:(lra)) as E1. fold q in E1. apply Rabs_le_inv in E1, Q, Q1.
    assert (0 <= q * q <= 1) as QQ by nra. assert (0 <= x * x <= 1) as XX by nra.
    pose proof (rnd_abs1 (q * q) ltac:(apply Rabs_le; lra)) as E2. set (p := rnd (q * q)) in *. apply Rabs_le_inv in E2.
    assert (0 <= p <= 1) as PP. { split; [apply p_nonneg|]. unfold p. rewrite <- rnd_1. apply rnd_le. lra. }
    pose proof (rnd_abs1 (1 - p) ltac:(apply Rabs_le; lra)) as E3. apply Rabs_le_inv in E3.
    assert (0 <= rnd (1 - p) <= 1) as W. { split; [rewrite <- rnd_0|rewrite <- rnd_1 at 2]; apply rnd_le; lra. }
    rewrite !Rmax_left by lra. set (w := rnd (1 - p)) in *.
    pose proof (rnd_abs1 (w * w) ltac:(apply Rabs_le; nra)) as E4. apply Rabs_le_inv in E4.
    assert (- (2 * u) <= q * q - x * x <= 2 * u) as D1 by nra.
    assert (- (4 * u) <= w - (1 - x * x) <= 4 * u) as D2 by lra.
    assert (- (8 * u) <= w * w - (1 - x * x) * (1 - x * x) <= 8 * u) as D3.
    { replace (w * w - (1 - x * x) * (1 - x * x)) with ((w - (1 - x * x)) * (w + (1 - x * x))) by ring. set (d := w - (1 - x * x)) in *. set (t := w + (1 - x * x)).
      assert (0 <= t <= 2) by (unfold t; lra). clearbody d t. nra. }
    apply Rabs_le. lra.
Qed.

(** ** The median *)
(** std::nth_element needs values that are not NaN *)
Definition dnthe_spec (nthe : list double → nat → list double) : Prop := ∀ l k, (k < length l)%nat → Forall (λ x, is_nan x = false) l →
  nthe l k ≡ₚ l ∧ ∃ a m b, nthe l k = a ++ m :: b ∧ length a = k ∧ Forall (λ x, dle x m) a ∧ Forall (λ x, dle m x) b.

Lemma half_rnd s : b2 (-1021) <= Rabs s → rnd s / 2 = rnd (s / 2).
Proof.
  intros H. assert (s ≠ 0) as S0 by (intros ->; rewrite Rabs_R0 in H; pose proof (bpow_gt_0 radix2 (-1021)); lra).
  assert (-1021 < mag radix2 s)%Z as M by (apply mag_gt_bpow; exact H).
  assert (s / 2 = s * b2 (-1)) as E by (simpl; lra).
  assert (mag radix2 (s / 2) = (mag radix2 s + -1) :> Z)%Z as ME by (rewrite E; by apply mag_mult_bpow).
  unfold round, F2R, scaled_mantissa, cexp. rewrite ME. cbn [Fnum Fexp].
  replace (FLT_exp (-1074) 53 (mag radix2 s + -1)) with (FLT_exp (-1074) 53 (mag radix2 s) + -1)%Z by (unfold FLT_exp; lia).
  set (e := FLT_exp (-1074) 53 (mag radix2 s)).
  replace (s / 2 * b2 (- (e + -1))) with (s * b2 (- e)).
  2: { rewrite E. replace (- (e + -1))%Z with (- e + 1)%Z by lia. rewrite bpow_plus. change (b2 1) with 2. change (b2 (-1)) with (/ 2). field. }
  rewrite bpow_plus. change (b2 (-1)) with (/ 2). unfold Rdiv. ring.
Qed.
Lemma avg_val (x y : double) : is_finite x = true → is_finite y = true → Rabs (B2R x) <= b2 999 → Rabs (B2R y) <= b2 999 → val (d_avg x y) (rnd ((B2R x + B2R y) / 2)).
Proof.
  intros Fx Fy Bx By. assert (Rabs (B2R x + B2R y) <= b2 1000) as BS.
  { eapply Rle_trans; [apply Rabs_triang|]. change 1000%Z with (1 + 999)%Z. rewrite bpow_plus. change (b2 1) with 2. lra. }
  assert (rnd (B2R x + B2R y) / 2 = rnd ((B2R x + B2R y) / 2) ∨ rnd (B2R x + B2R y) = B2R x + B2R y) as HH.
  { destruct (Rle_or_lt (b2 (-1021)) (Rabs (B2R x + B2R y))) as [L|L]; [left; by apply half_rnd|right].
    apply round_generic; [apply valid_rnd_N|]. apply FLT_format_plus_small; [apply prec53|rewrite <- fexp_eq; apply generic_format_B2R|rewrite <- fexp_eq; apply generic_format_B2R|]. apply Rlt_le. exact L. }
  pose proof (add_val x y _ _ (conj Fx eq_refl) (conj Fy eq_refl) BS) as V.
  assert (Rabs (rnd (B2R x + B2R y) / 2) <= b2 1000) as BH.
  { assert (Rabs (rnd (B2R x + B2R y)) <= b2 1000). { apply abs_round_le_generic; [apply flt_valid|apply valid_rnd_N| |exact BS]. apply generic_format_bpow. unfold FLT_exp. lia. }
    unfold Rdiv. rewrite Rabs_mult, (Rabs_pos_eq (/ 2)) by lra. pose proof (Rabs_pos (rnd (B2R x + B2R y))). lra. }
  pose proof (div_val _ _ _ _ V (of_Z_val 2 ltac:(lia)) ltac:(lra) BH) as [F E]. split; [exact F|]. unfold d_avg. rewrite E.
  destruct HH as [HH|HH]; [|by rewrite HH]. rewrite HH. apply round_generic; [apply valid_rnd_N|]. apply generic_format_round; [apply flt_valid|apply valid_rnd_N].
Qed.

Lemma max_in (x : double) l : max_element dle x l ∈ x :: l.
Proof.
  unfold max_element. revert x. induction l as [|y l IH]; intros x; [by left|]. cbn [fold_left].
  case_decide; [right; apply IH|]. specialize (IH x). apply elem_of_cons in IH as [->|H']; [by left|by right; right].
Qed.
Lemma max_B2R (x : double) l : Forall (λ x, is_finite x = true) (x :: l) → max_element Rle (B2R x) (B2R <$> l) = B2R (max_element dle x l).
Proof.
  unfold max_element. revert x. induction l as [|y l IH]; intros x HF; [done|]. apply Forall_cons in HF as [Fx HF]. pose proof HF as HF'. apply Forall_cons in HF' as [Fy HF'].
  assert (dle y x ↔ B2R y <= B2R x) as HD by (unfold dle; rewrite Bleb_correct by done; by destruct (Rle_bool_spec (B2R y) (B2R x)); split; try done; lra).
  cbn [fold_left fmap list_fmap]. destruct (Rle_or_lt (B2R y) (B2R x)) as [L|L].
  - rewrite decide_False by (intros K; by apply K). rewrite decide_False by (intros K; by apply K, HD). apply IH. by constructor.
  - rewrite decide_True by lra. rewrite decide_True by (rewrite HD; lra). by apply IH.
Qed.
Lemma median_ne {D} (le : relation D) `{!RelDecision le} z avg nt (l : list D) : l ≠ [] → median le z avg nt l =
  (m ← nt l (length l / 2)%nat !! (length l / 2)%nat;
   if decide (length l mod 2 = 0)%nat
   then match take (length l / 2) (nt l (length l / 2)%nat) with [] => None | x :: a => Some (avg (max_element le x a) m) end
   else Some m).
Proof. by destruct l. Qed.
Section median.
Variable nthe : list double → nat → list double.
Hypothesis Hnth : dnthe_spec nthe.
(** what the median is *)
Lemma median_cases l : l ≠ [] → Forall (λ x, is_nan x = false) l →
  ∃ v, median dle zero d_avg nthe l = Some v ∧ (v ∈ l ∨ ∃ x y, x ∈ l ∧ y ∈ l ∧ v = d_avg x y).
Proof using Hnth.
  intros Hl HF. assert (length l / 2 < length l)%nat as HK by (apply Nat.div_lt; [destruct l; [done|cbn; lia]|lia]).
  destruct (Hnth l (length l / 2)%nat HK HF) as (HP & a & m & b & E & La & _). unfold median. destruct l as [|l0 l1] eqn:El; [done|]. rewrite <- El in *. clear El l0 l1.
  cbv zeta. rewrite E. rewrite list_lookup_middle by done. cbn [mbind option_bind].
  assert (m ∈ l) as Hm by (rewrite <- HP, E; apply elem_of_app; right; by left).
  case_decide as D; [|by eauto]. rewrite take_app_alt by done. destruct a as [|x a].
  { exfalso. destruct l as [|z1 [|z2 l']]; [done|done|]. pose proof (Nat.div_str_pos (length (z1 :: z2 :: l')) 2 ltac:(cbn [length]; lia)) as K.
    rewrite <- La in K. cbn in K. lia. }
  eexists. split; [done|]. right. eexists _, _. split; [|split; [exact Hm|done]]. rewrite <- HP, E. apply elem_of_app. left. apply max_in.
Qed.
(** The median is the exact median of the values, rounded *)
Theorem C100_median l : l ≠ [] → Forall (λ x, is_finite x = true ∧ Rabs (B2R x) <= b2 999) l →
  ∃ v m, median dle zero d_avg nthe l = Some v ∧ is_median (B2R <$> l) m ∧ is_finite v = true ∧ B2R v = rnd m.
Proof using Hnth.
  intros Hl HB. assert (Forall (λ x, is_nan x = false) l) as HN by (eapply Forall_impl; [exact HB|]; intros x [F _]; by destruct x).
  assert (length l / 2 < length l)%nat as HK by (apply Nat.div_lt; [destruct l; [done|cbn; lia]|lia]).
  destruct (Hnth l (length l / 2)%nat HK HN) as (HP & a & m & b & E & La & HA & HBb).
  assert (Forall (λ x, is_finite x = true ∧ Rabs (B2R x) <= b2 999) (a ++ m :: b)) as HB' by (rewrite <- E, HP; exact HB).
  apply Forall_app in HB' as [FA FM]. apply Forall_cons in FM as [FM FB].
  pose (nthR := λ (l' : list R) (k : nat), if List.list_eq_dec Req_EM_T l' (B2R <$> l) then if decide (k = length l / 2)%nat then B2R <$> nthe l k else merge_sort Rle l' else merge_sort Rle l').
  assert (nthe_spec Rle nthR) as HR.
  { intros l' k Hk. unfold nthR. destruct (List.list_eq_dec _ _ _) as [->|_]; [|by apply sort_nthe_R]. destruct (decide _) as [->|_]; [|by apply sort_nthe_R].
    rewrite HP. split; [done|]. exists (B2R <$> a), (B2R m), (B2R <$> b). rewrite E, fmap_app, fmap_cons, fmap_length. split; [done|]. split; [done|].
    split; apply Forall_fmap, Forall_forall; intros x Hx; cbn.
    - rewrite Forall_forall in HA, FA. specialize (HA x Hx). unfold dle in HA. rewrite Bleb_correct in HA; [|by apply FA|apply FM]. by destruct (Rle_bool_spec (B2R x) (B2R m)).
    - rewrite Forall_forall in HBb, FB. specialize (HBb x Hx). unfold dle in HBb. rewrite Bleb_correct in HBb; [|apply FM|by apply FB]. by destruct (Rle_bool_spec (B2R m) (B2R x)). }
  destruct (median_ok nthR HR (B2R <$> l)) as (mr & EM & HM). { intros K. apply fmap_nil_inv in K. done. }
  rewrite median_ne in EM by (intros K; apply fmap_nil_inv in K; done). rewrite median_ne by done. rewrite fmap_length in EM.
  assert (nthR (B2R <$> l) (length l / 2)%nat = (B2R <$> a) ++ B2R m :: (B2R <$> b)) as EN.
  { unfold nthR. destruct (List.list_eq_dec _ _ _) as [_|N]; [|done]. rewrite decide_True by done. by rewrite E, fmap_app, fmap_cons. }
  rewrite EN in EM. rewrite E. clear EN HR nthR. cbv zeta in *.
  rewrite list_lookup_middle in EM by (by rewrite fmap_length). rewrite list_lookup_middle by done. cbn [mbind option_bind] in *.
  case_decide as D.
  - rewrite take_app_alt in EM by (by rewrite fmap_length). rewrite take_app_alt by done.
    destruct a as [|x a]; [done|]. cbn [fmap list_fmap] in EM. injection EM as EM. eexists _, mr. split; [done|]. split; [done|].
    assert (Forall (λ x, is_finite x = true) (x :: a)) as FF by (eapply Forall_impl; [exact FA|]; by intros ? []).
    rewrite max_B2R in EM by exact FF. rewrite Forall_forall in FA. destruct (FA _ (max_in x a)) as [F1 B1]. destruct FM as [F2 B2].
    rewrite <- EM. unfold r_avg. by apply avg_val.
  - injection EM as EM. exists m, mr. split; [done|]. split; [done|]. split; [apply FM|]. by rewrite <- EM, rnd_fmt.
Qed.
End median.

(** ** Signs *)
Definition nn (x : double) : Prop := is_nan x = false ∧ Bsign x = false.
Lemma nn_pos (x : double) : is_finite x = true → 0 < B2R x → nn x.
Proof.
  intros F H. destruct x as [s|s| |s m e B]; try done; [simpl in H; lra|]. destruct s; [|done]. exfalso. simpl in H.
  apply (Rlt_not_le _ _ H). by apply F2R_le_0.
Qed.
Lemma nn_ge (x : double) : nn x → 0 <= B2R x.
Proof. intros [N S]. destruct x as [s|s| |s m e B]; simpl in *; try lra. subst s. by apply F2R_ge_0. Qed.
Lemma mul_nn a y : is_finite a = true → 0 < B2R a → nn y → nn (dmul a y).
Proof.
  intros Fa Ha [Ny Sy]. destruct (nn_pos a Fa Ha) as [Na Sa]. destruct (is_finite y) eqn:Fy.
  - pose proof (Bmult_correct 53 1024 prec53 emax1024 mode_NE a y) as C. change (round_mode mode_NE) with ZnearestE in C. rewrite fexp_eq in C.
    destruct (Rlt_bool _ _).
    + destruct C as (_ & C2 & C3). rewrite Fa, Fy in C2. assert (is_nan (dmul a y) = false) as N by (unfold dmul; by destruct (Bmult mode_NE a y)).
      split; [done|]. unfold dmul. rewrite C3 by exact N. by rewrite Sa, Sy.
    + apply inf_of in C. unfold dmul. rewrite C, Sa, Sy. done.
  - destruct y as [?|s| |]; try done. destruct a as [?|?| |sa m e B]; try done; [simpl in Ha; lra|]. unfold dmul. simpl in *. by subst.
Qed.
Lemma div_nn x g : is_finite g = true → 0 < B2R g → nn x → nn (ddiv x g).
Proof.
  intros Fg Hg [Nx Sx]. destruct (nn_pos g Fg Hg) as [Ng Sg]. destruct (is_finite x) eqn:Fx.
  - pose proof (Bdiv_correct 53 1024 prec53 emax1024 mode_NE x g ltac:(lra)) as C. change (round_mode mode_NE) with ZnearestE in C. rewrite fexp_eq in C.
    destruct (Rlt_bool _ _).
    + destruct C as (_ & C2 & C3). rewrite Fx in C2. assert (is_nan (ddiv x g) = false) as N by (unfold ddiv; by destruct (Bdiv mode_NE x g)).
      split; [done|]. unfold ddiv. rewrite C3 by exact N. by rewrite Sx, Sg.
    + apply inf_of in C. unfold ddiv. rewrite C, Sx, Sg. done.
  - destruct x as [?|s| |]; try done. destruct g as [?|?| |sg m e B]; try done; [simpl in Hg; lra|]. unfold ddiv. simpl in *. by subst.
Qed.
Lemma add_nn x y : nn x → nn y → nn (dadd x y).
Proof.
  intros Hx Hy. pose proof (nn_ge _ Hx) as Gx. pose proof (nn_ge _ Hy) as Gy. destruct Hx as [Nx Sx], Hy as [Ny Sy].
  destruct (is_finite x) eqn:Fx; [destruct (is_finite y) eqn:Fy|].
  - pose proof (Bplus_correct 53 1024 prec53 emax1024 mode_NE x y Fx Fy) as C. change (round_mode mode_NE) with ZnearestE in C. rewrite fexp_eq in C.
    destruct (Rlt_bool _ _).
    + destruct C as (_ & C2 & C3). unfold dadd. split; [by destruct (Bplus mode_NE x y)|]. rewrite C3, Sx, Sy. by destruct (Rcompare_spec (B2R x + B2R y) 0); [lra| |].
    + destruct C as [C _]. apply inf_of in C. unfold dadd. by rewrite C, Sx.
  - destruct y as [?|s| |]; try done. destruct x as [?|?| |]; try done; unfold dadd; simpl in *; by subst.
  - destruct x as [?|s| |]; try done. simpl in Sx. subst s. destruct y as [?|s| |]; try done. simpl in Sy. by subst.
Qed.
Lemma two_pos : is_finite (of_Z 2) = true ∧ 0 < B2R (of_Z 2).
Proof. destruct (of_Z_val 2 ltac:(lia)) as [F E]. split; [done|]. rewrite E. lra. Qed.
Lemma avg_not_nan x y : is_finite x = true → is_finite y = true → is_nan (d_avg x y) = false.
Proof.
  intros Fx Fy. destruct two_pos as [F2 P2]. unfold d_avg. assert (∀ z, is_nan z = false → is_nan (ddiv z (of_Z 2)) = false) as G.
  { intros z Nz. destruct (is_finite z) eqn:Fz.
    - destruct (div_cases z (of_Z 2) Fz ltac:(lra)) as [[F _]|[_ ->]]; [|done]. by destruct (ddiv z (of_Z 2)).
    - destruct z as [?|s| |]; try done. }
  apply G. pose proof (Bplus_correct 53 1024 prec53 emax1024 mode_NE x y Fx Fy) as C. change (round_mode mode_NE) with ZnearestE in C. rewrite fexp_eq in C. unfold dadd.
  destruct (Rlt_bool _ _); [destruct C as (_ & C & _); by destruct (Bplus mode_NE x y)|]. destruct C as [C _]. by rewrite (inf_of _ _ C).
Qed.
Lemma sub_not_nan x y : is_finite x = true → is_nan y = false → is_nan (dsub x y) = false.
Proof.
  intros Fx Ny. destruct (is_finite y) eqn:Fy.
  - pose proof (Bminus_correct 53 1024 prec53 emax1024 mode_NE x y Fx Fy) as C. change (round_mode mode_NE) with ZnearestE in C. rewrite fexp_eq in C. unfold dsub.
    destruct (Rlt_bool _ _); [destruct C as (_ & C & _); by destruct (Bminus mode_NE x y)|]. destruct C as [C _]. by rewrite (inf_of _ _ C).
  - destruct y as [?|s| |]; try done. by destruct x.
Qed.
Lemma gn_val : val MAD_gn (rnd (67449 / 100000)).
Proof.
  pose proof (div_val _ _ _ _ (of_Z_val 67449 ltac:(lia)) (of_Z_val 100000 ltac:(lia)) ltac:(lra)) as H. apply H.
  apply Rle_trans with 1; [apply Rabs_le; lra|]. change 1 with (b2 0). apply bpow_le. lia.
Qed.
Lemma gn_near : Rabs (B2R MAD_gn - 67449 / 100000) <= u.
Proof. destruct gn_val as [_ ->]. apply rnd_abs1. apply Rabs_le. lra. Qed.
Lemma gn_pos : is_finite MAD_gn = true ∧ 0 < B2R MAD_gn.
Proof. split; [apply gn_val|]. pose proof gn_near as H. apply Rabs_le_inv in H. unfold u in H. lra. Qed.
Lemma weight_inf r : is_finite r = true → val (dweight (B754_infinity false) r) 1.
Proof.
  intros F. unfold dweight. assert (∃ s, ddiv r (B754_infinity false) = B754_zero s) as [s ->] by (destruct r as [?|?| |]; try done; by eexists).
  assert (val (dsquare (B754_zero s)) 0) as V by (by destruct s). pose proof (tail_fin _ _ V (Rle_refl 0)) as H.
  rewrite Rminus_0_r, rnd_1, Rmax_left, Rmult_1_l, rnd_1 in H by lra. exact H.
Qed.
Lemma weight_0 r s : is_finite r = true → dweight (B754_zero s) r = if Req_EM_T (B2R r) 0 then B754_nan else zero.
Proof.
  intros F. destruct r as [s'|?| |s' m e B]; try done.
  - simpl. destruct (Req_EM_T 0 0); [|done]. destruct s, s'; vm_compute; reflexivity.
  - destruct (Req_EM_T _ _) as [E|_].
    + exfalso. simpl in E. apply eq_0_F2R in E. by destruct s'.
    + unfold dweight. change (ddiv (B754_finite s' m e B) (B754_zero s)) with (B754_infinity (xorb s' s) : double). destruct (xorb s' s); vm_compute; reflexivity.
Qed.

Section weights.
Variable nthe : list double → nat → list double.
Hypothesis Hnth : dnthe_spec nthe.
(** ** C100: the weights. The divisor [c] is positive, infinite or zero *)
Theorem C100_weights alpha residuals :
  is_finite alpha = true → 0 < B2R alpha → residuals ≠ [] → Forall (λ r, is_finite r = true) residuals →
  ∃ med mad c out,
    median dle zero d_avg nthe residuals = Some med ∧
    median_abs_dev dle zero d_avg d_absdiff nthe residuals med = Some mad ∧
    c = ddiv (dmul alpha mad) MAD_gn ∧
    dresidual_weights nthe alpha residuals = Some out ∧ length out = length residuals ∧
    (is_finite c = true ∧ 0 < B2R c ∨ c = B754_infinity false ∨ c = B754_zero false) ∧
    (∀ i r w, residuals !! i = Some r → out !! i = Some w →
       (is_finite c = true ∧ 0 < B2R c →
          is_finite w = true ∧ 0 <= B2R w <= 1 ∧ (B2R r = 0 → B2R w = 1) ∧ (B2R w = 0 ↔ B2R c <= Rabs (B2R r)) ∧
          Rabs (B2R w - wfun (B2R c) (B2R r)) <= 9 * b2 (-53)) ∧
       (c = B754_infinity false → is_finite w = true ∧ B2R w = 1) ∧
       (c = B754_zero false → if Req_EM_T (B2R r) 0 then w = B754_nan else w = zero)) ∧
    (∀ i j r r' w w', residuals !! i = Some r → out !! i = Some w → residuals !! j = Some r' → out !! j = Some w' →
       0 < B2R c → Rabs (B2R r) <= Rabs (B2R r') → B2R w' <= B2R w).
Proof using Hnth.
  intros Fa Ha Hne HF.
  assert (Forall (λ x, is_nan x = false) residuals) as HN by (eapply Forall_impl; [exact HF|]; intros [] ?; done).
  destruct (median_cases nthe Hnth residuals Hne HN) as (med & Emed & Hmed).
  assert (is_nan med = false) as Nmed.
  { rewrite Forall_forall in HF, HN. destruct Hmed as [Hm|(x & y & Hx & Hy & ->)]; [by apply HN|]. apply avg_not_nan; by apply HF. }
  set (devs := (λ v, d_absdiff v med) <$> residuals).
  assert (Forall nn devs) as HD.
  { apply Forall_fmap, Forall_forall. intros x Hx. rewrite Forall_forall in HF. pose proof (sub_not_nan x med (HF x Hx) Nmed) as N. cbn. unfold d_absdiff. by destruct (dsub x med). }
  destruct (median_cases nthe Hnth devs) as (mad & Emad & Hmad).
  { intros K. by apply fmap_nil_inv in K. } { eapply Forall_impl; [exact HD|]. by intros ? []. }
  assert (nn mad) as Nmad.
  { rewrite Forall_forall in HD. destruct Hmad as [Hm|(x & y & Hx & Hy & ->)]; [by apply HD|]. unfold d_avg. apply div_nn; [apply two_pos|apply two_pos|]. apply add_nn; by apply HD. }
  exists med, mad, (cutoff alpha mad), (dweight (cutoff alpha mad) <$> residuals).
  assert (nn (cutoff alpha mad)) as Nc by (apply div_nn; [apply gn_pos|apply gn_pos|by apply mul_nn]).
  split; [done|]. split; [done|]. split; [done|]. split.
  { unfold dresidual_weights. destruct residuals as [|r0 rs]; [done|]. rewrite Emed. cbn [mbind option_bind]. unfold median_abs_dev. fold devs. by rewrite Emad. }
  split; [apply fmap_length|]. set (c := cutoff alpha mad) in *. rewrite Forall_forall in HF. split; [|split].
  - destruct Nc as [N S]. destruct c as [s|s| |s m e B]; try done; simpl in S; subst s; [by right; right|by right; left|left]. split; [done|]. simpl. by apply F2R_gt_0.
  - intros i r w Hr Hw. rewrite list_lookup_fmap, Hr in Hw. cbn in Hw. injection Hw as <-.
    assert (is_finite r = true) as Fr by (apply HF; by eapply elem_of_list_lookup_2). split; [|split].
    + intros [Fc Pc]. destruct (weight_val c r Fr Pc) as [F E]. rewrite E. split; [done|]. split; [apply rw_range|]. split; [intros ->; by apply rw_zero_res|].
      split; [by apply rw_zero_iff|by apply rw_accuracy].
    + intros ->. by apply weight_inf.
    + intros ->. rewrite weight_0 by done. by destruct (Req_EM_T (B2R r) 0).
  - intros i j r r' w w' Hr Hw Hr' Hw' Pc Hle. rewrite list_lookup_fmap, Hr in Hw. rewrite list_lookup_fmap, Hr' in Hw'. cbn in Hw, Hw'. injection Hw as <-. injection Hw' as <-.
    assert (is_finite r = true) as Fr by (apply HF; by eapply elem_of_list_lookup_2). assert (is_finite r' = true) as Fr' by (apply HF; by eapply elem_of_list_lookup_2).
    destruct (weight_val c r Fr Pc) as [_ ->]. destruct (weight_val c r' Fr' Pc) as [_ ->]. by apply rw_mono.
Qed.
End weights.

(** ** The divisor is close to the exact one, if the deviation is not tiny *)
Theorem C100_cutoff alpha mad :
  is_finite alpha = true → is_finite mad = true → b2 (-100) <= B2R alpha <= b2 100 → b2 (-800) <= B2R mad <= b2 800 →
  is_finite (cutoff alpha mad) = true ∧ 0 < B2R (cutoff alpha mad) ∧
  Rabs (B2R (cutoff alpha mad) - B2R alpha * B2R mad / (67449 / 100000)) <= 5 * b2 (-53) * (B2R alpha * B2R mad / (67449 / 100000)).
Proof.
  intros Fa Fm Ha Hm. set (a := B2R alpha) in *. set (m := B2R mad) in *. change (b2 (-53)) with u.
  pose proof (bpow_gt_0 radix2 (-100)) as P1. pose proof (bpow_gt_0 radix2 (-800)) as P2. pose proof u_pos as U0. assert (u < / 1000000) as U1 by (unfold u; lra).
  assert (b2 (-900) <= a * m) as L. { change (-900)%Z with (-100 + -800)%Z. rewrite bpow_plus. apply Rmult_le_compat; lra. }
  assert (a * m <= b2 900) as H. { change 900%Z with (100 + 800)%Z. rewrite bpow_plus. apply Rmult_le_compat; lra. }
  pose proof (bpow_gt_0 radix2 (-900)) as P3. assert (Rabs (a * m) = a * m) as EA by (apply Rabs_pos_eq; lra).
  destruct (mul_val alpha mad a m (conj Fa eq_refl) (conj Fm eq_refl)) as [F1 E1].
  { rewrite EA. eapply Rle_trans; [exact H|apply bpow_le; lia]. }
  pose proof (rel (a * m)) as R1. rewrite EA in R1. specialize (R1 ltac:(right; eapply Rle_trans; [apply (bpow_le radix2 _ (-900)); lia|exact L])).
  set (p := rnd (a * m)) in *. apply Rabs_le_inv in R1. assert (0 < a * m) as AM by lra. set (t := a * m) in *.
  assert (t * (999 / 1000) <= p <= t * (1001 / 1000)) as BP by nra.
  pose proof gn_near as G. apply Rabs_le_inv in G. destruct gn_pos as [FG PG]. set (g := B2R MAD_gn) in *.
  assert (p / g * g = p) as EQ by (field; lra). set (q := p / g) in *.
  assert (p <= q <= 2 * p) as BQ by nra.
  destruct (div_val (dmul alpha mad) MAD_gn p g (conj F1 E1) (conj FG eq_refl)) as [F2 E2]; [lra| |].
  { fold q. rewrite Rabs_pos_eq by lra. apply Rle_trans with (b2 10 * b2 900); [change (b2 10) with 1024; lra|rewrite <- bpow_plus; apply bpow_le; lia]. }
  fold q in E2. fold (cutoff alpha mad) in F2, E2. rewrite E2.
  assert (b2 (-1022) <= q) as LQ. { apply Rle_trans with (b2 (-10) * b2 (-900)); [rewrite <- bpow_plus; apply bpow_le; lia|]. change (b2 (-10)) with (/ 1024). lra. }
  pose proof (rel q ltac:(right; rewrite Rabs_pos_eq; lra)) as R2. rewrite (Rabs_pos_eq q) in R2 by lra. apply Rabs_le_inv in R2.
  split; [done|]. split; [nra|].
  set (x := t / (67449 / 100000)). assert (x * (67449 / 100000) = t) as EX by (unfold x; field). assert (0 < x) as PX by (unfold x; apply Rdiv_lt_0_compat; lra).
  (* q g = p, close to x times the constant *)
  assert (- (37 / 10 * u * x) <= q - x <= 37 / 10 * u * x) as D.
  { assert ((q - x) * g = (p - t) + x * (67449 / 100000 - g)) as K by (rewrite <- EX; rewrite <- EQ; ring).
    assert (- (u * x * (168 / 100)) <= (q - x) * g <= u * x * (168 / 100)) as K2.
    { rewrite K. assert (- (u * x) <= x * (67449 / 100000 - g) <= u * x) by nra. assert (t <= x * (675 / 1000)) by lra. assert (u * t <= u * (x * (675 / 1000))) by nra. nra. }
    assert (67 / 100 <= g) as G1 by lra. assert (0 < u * x) by nra. split; nra. }
  apply Rabs_le. assert (0 < u * x) by nra. assert (q <= x * (1001 / 1000)) by nra. assert (u * q <= u * (x * (1001 / 1000))) by nra. nra.
Qed.

(** ** Equal residuals: the deviation is zero, and weights are zero or NaN *)
Section spread.
Variable nthe : list double → nat → list double.
Hypothesis Hnth : dnthe_spec nthe.
Theorem C100_no_spread_refuted alpha r n :
  is_finite alpha = true → 0 < B2R alpha → is_finite r = true → Rabs (B2R r) <= b2 997 → (0 < n)%nat →
  dresidual_weights nthe alpha (replicate n r) = Some (replicate n (if Req_EM_T (B2R r) 0 then B754_nan else zero)).
Proof using Hnth.
  intros Fa Ha Fr Br Hn. assert (replicate n r ≠ []) as Hne by (by destruct n; [lia|]).
  destruct (C100_weights nthe Hnth alpha (replicate n r) Fa Ha Hne) as (med & mad & c & out & Emed & Emad & Ec & Eo & Lo & _ & HW & _).
  { by apply Forall_replicate. }
  assert (b2 997 <= b2 999) as B9 by (apply bpow_le; lia).
  destruct (C100_median nthe Hnth (replicate n r) Hne) as (v & m & Ev & Hm & Fv & Bv).
  { apply Forall_replicate. split; [done|lra]. }
  rewrite Emed in Ev. injection Ev as <-. assert (m = B2R r) as ->.
  { assert (B2R r <= m <= B2R r) as K; [|lra]. eapply (median_bounds (B2R <$> replicate n r)); [intros K; by apply fmap_nil_inv in K|done|].
    rewrite fmap_replicate. apply Forall_replicate. lra. }
  rewrite rnd_fmt in Bv. assert (val (dsub r med) 0) as V.
  { destruct (sub_val r med _ _ (conj Fr eq_refl) (conj Fv Bv)) as [F E]; [rewrite Rminus_diag_eq by done; rewrite Rabs_R0; apply bpow_ge_0|].
    split; [done|]. by rewrite E, Rminus_diag_eq, rnd_0. }
  destruct (val_zero _ V) as [s Es]. unfold median_abs_dev in Emad. rewrite fmap_replicate in Emad. unfold d_absdiff in Emad at 1. rewrite Es in Emad. change (Babs (B754_zero s)) with zero in Emad.
  assert (replicate n zero ≠ []) as Hn0 by (by destruct n; [lia|]).
  destruct (median_cases nthe Hnth (replicate n zero) Hn0) as (v & Ev & Hv); [by apply Forall_replicate|].
  assert (v = zero) as ->.
  { destruct Hv as [H|(x & y & Hx & Hy & ->)]; [by apply elem_of_replicate in H as [-> _]|]. apply elem_of_replicate in Hx as [-> _]. apply elem_of_replicate in Hy as [-> _]. vm_compute. reflexivity. }
  rewrite Ev in Emad. injection Emad as <-.
  assert (c = B754_zero false) as Ec0.
  { rewrite Ec. destruct (nn_pos alpha Fa Ha) as [_ Sa]. assert (dmul alpha zero = zero) as -> by (destruct alpha as [?|?| |]; try done; simpl in Sa; by subst). vm_compute. reflexivity. }
  rewrite Eo. f_equal. apply list_eq_same_length with n; [by rewrite replicate_length|by rewrite Lo, replicate_length|].
  intros i x y Hi Hx Hy. apply lookup_replicate in Hy as [-> Hi']. destruct (HW i r x) as (_ & _ & K); [by apply lookup_replicate|done|].
  specialize (K Ec0). by destruct (Req_EM_T (B2R r) 0).
Qed.
End spread.

(** ** The hypotheses can be met *)
Definition key (x : double) : R :=
  match x with B754_infinity true => - b2 1024 | B754_infinity false => b2 1024 | B754_nan => 0 | _ => B2R x end.
Definition kle (x y : double) : Prop := key x <= key y.
Global Instance kle_dec : RelDecision kle := λ x y, decide (key x <= key y).
Lemma key_le x y : is_nan x = false → is_nan y = false → key x <= key y → dle x y.
Proof.
  intros Nx Ny H. unfold dle. pose proof (bpow_gt_0 radix2 1024) as P. destruct (is_finite x) eqn:Fx, (is_finite y) eqn:Fy.
  - rewrite Bleb_correct by done. apply Rle_bool_true. by destruct x, y.
  - destruct y as [?|[]| |]; try done; [|by destruct x]. exfalso. pose proof (abs_B2R_lt_emax 53 1024 x) as B. apply Rabs_lt_inv in B. destruct x; simpl in *; try done; lra.
  - destruct x as [?|[]| |]; try done; [by destruct y|]. exfalso. pose proof (abs_B2R_lt_emax 53 1024 y) as B. apply Rabs_lt_inv in B. destruct y; simpl in *; try done; lra.
  - destruct x as [?|[]| |], y as [?|[]| |]; try done. simpl in H. lra.
Qed.
Lemma sort_dnthe : dnthe_spec (λ l _, merge_sort kle l).
Proof.
  intros l k Hk HN. split; [apply merge_sort_Permutation|].
  assert (StronglySorted kle (merge_sort kle l)) as HS.
  { apply StronglySorted_merge_sort; [intros x y z; unfold kle; lra|]. intros x y. unfold kle. lra. }
  assert (k < length (merge_sort kle l))%nat as Hk' by by rewrite merge_sort_Permutation.
  destruct (lookup_lt_is_Some_2 _ _ Hk') as [m Hm]. pose proof (take_drop_middle _ _ _ Hm) as E.
  assert (Forall (λ x, is_nan x = false) (merge_sort kle l)) as HN' by (by rewrite merge_sort_Permutation).
  exists (take k (merge_sort kle l)), m, (drop (S k) (merge_sort kle l)). split; [done|]. split; [rewrite take_length; lia|].
  rewrite <- E in HS, HN'. clear -HS HN'. set (a := take k _) in *. set (b := drop (S k) _) in *. clearbody a b.
  assert (is_nan m = false) as Nm by (rewrite Forall_app, Forall_cons in HN'; tauto).
  induction a as [|x a IH]; simpl in HS, HN'.
  - apply StronglySorted_inv in HS as [_ HS]. split; [constructor|]. apply Forall_cons in HN' as [_ HN']. rewrite Forall_forall in *. intros y Hy. apply key_le; [done|by apply HN'|by apply HS].
  - apply StronglySorted_inv in HS as [HS Hx]. apply Forall_cons in HN' as [Nx HN']. destruct (IH HS HN') as [I1 I2]. split; [|done]. constructor; [|done].
    apply key_le; [done|done|]. rewrite Forall_app, Forall_cons in Hx. apply Hx.
Qed.
(** Residuals -1, 0, 3 and alpha 2: weights between 0 and 1, 1, 0 *)
Example ex_weights : ∃ out, dresidual_weights (λ l _, merge_sort dle l) (of_Z 2) [of_Z (-1); of_Z 0; of_Z 3] = Some out ∧
  (λ w, (Bltb zero w, Bltb w (of_Z 1), Beqb w zero, Beqb w (of_Z 1))) <$> out = [(true, true, false, false); (true, false, false, true); (false, true, true, false)].
Proof. eexists. split; [reflexivity|]. vm_compute. reflexivity. Qed.
Example ex_hyp : dnthe_spec (λ l _, merge_sort kle l) ∧ is_finite (of_Z 2) = true ∧ 0 < B2R (of_Z 2) ∧ Forall (λ r, is_finite r = true) [of_Z (-1); of_Z 0; of_Z 3].
Proof. split; [apply sort_dnthe|]. split; [apply two_pos|]. split; [apply two_pos|]. repeat constructor; apply of_Z_val; lia. Qed.
Print Assumptions C100_median. Print Assumptions C100_weights. Print Assumptions C100_cutoff. Print Assumptions C100_no_spread_refuted.
