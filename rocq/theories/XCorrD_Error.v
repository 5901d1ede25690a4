(** Cross-correlation in double precision: samples that are not on a grid (C87). *)
From Coq Require Import ZArith Reals Lra Psatz.
From Flocq Require Import Core BinarySingleNaN Relative.
From stdpp Require Import numbers list.
From Verif Require Import Geo_Model Double_Model Double_Props XCorr_Model XCorr_Props XCorrD_Model XCorrD_Props.
Local Open Scope R_scope.
Local Coercion Z.of_nat : nat >-> Z.
Local Instance p53 : Prec_gt_0 53 := prec53.
Local Instance flt_valid : Valid_exp (FLT_exp (-1074) 53) := FLT_exp_valid (-1074) 53.
Local Instance flt_mono : Monotone_exp (FLT_exp (-1074) 53) := FLT_exp_monotone (-1074) 53.

(** ** Operations on approximate numbers *)
Definition apx (x : double) (r E : R) : Prop := is_finite x = true ∧ Rabs (B2R x - r) <= E.
Definition range (B : R) : Prop := b2 (-960) <= B <= b2 1000.
Lemma rnd_err z B : Rabs z <= B → b2 (-960) <= B → Rabs (rnd z - z) <= u * B.
Proof.
  intros H HB. destruct (Rle_lt_dec (b2 (-1022)) (Rabs z)) as [L|L].
  - eapply Rle_trans; [apply rel; by right|]. apply Rmult_le_compat_l; [unfold u; lra|done].
  - pose proof (error_le_half_ulp radix2 (FLT_exp (-1074) 53) (λ x, negb (Z.even x)) z) as E. eapply Rle_trans; [exact E|].
    rewrite ulp_FLT_small; [|exact p53|eapply Rlt_le_trans; [exact L|apply bpow_le; lia]].
    assert (u = b2 (-53)) as -> by reflexivity. apply Rle_trans with (b2 (-53) * b2 (-960)); [|apply Rmult_le_compat_l; [apply bpow_ge_0|done]]. rewrite <- bpow_plus.
    change (/ 2) with (b2 (-1)). rewrite <- bpow_plus. apply bpow_le. lia.
Qed.
Lemma apx_add x y a b E F B : apx x a E → apx y b F → Rabs a + E + (Rabs b + F) <= B → range B → apx (dadd x y) (a + b) (E + F + u * B).
Proof.
  intros [Fx Hx] [Fy Hy] HB [R1 R2]. assert (Rabs (B2R x + B2R y) <= B) as K.
  { eapply Rle_trans; [|exact HB]. replace (B2R x + B2R y) with ((B2R x - a) + a + ((B2R y - b) + b)) by ring. pose proof (Rabs_triang ((B2R x - a) + a) ((B2R y - b) + b)). pose proof (Rabs_triang (B2R x - a) a). pose proof (Rabs_triang (B2R y - b) b). lra. }
  destruct (add_val x y _ _ (conj Fx eq_refl) (conj Fy eq_refl) ltac:(lra)) as [Fz Ez]. split; [done|]. rewrite Ez. pose proof (rnd_err _ B K R1) as RE.
  replace (rnd (B2R x + B2R y) - (a + b)) with ((rnd (B2R x + B2R y) - (B2R x + B2R y)) + ((B2R x - a) + (B2R y - b))) by ring.
  eapply Rle_trans; [apply Rabs_triang|]. pose proof (Rabs_triang (B2R x - a) (B2R y - b)). lra.
Qed.
Lemma apx_sub x y a b E F B : apx x a E → apx y b F → Rabs a + E + (Rabs b + F) <= B → range B → apx (dsub x y) (a - b) (E + F + u * B).
Proof.
  intros [Fx Hx] [Fy Hy] HB [R1 R2]. assert (Rabs (B2R x - B2R y) <= B) as K.
  { eapply Rle_trans; [|exact HB]. replace (B2R x - B2R y) with ((B2R x - a) + a - ((B2R y - b) + b)) by ring. pose proof (Rabs_triang ((B2R x - a) + a) (- ((B2R y - b) + b))) as T. rewrite Rabs_Ropp in T. pose proof (Rabs_triang (B2R x - a) a). pose proof (Rabs_triang (B2R y - b) b). unfold Rminus at 1. lra. }
  destruct (sub_val x y _ _ (conj Fx eq_refl) (conj Fy eq_refl) ltac:(lra)) as [Fz Ez]. split; [done|]. rewrite Ez. pose proof (rnd_err _ B K R1) as RE.
  replace (rnd (B2R x - B2R y) - (a - b)) with ((rnd (B2R x - B2R y) - (B2R x - B2R y)) + ((B2R x - a) + - (B2R y - b))) by ring.
  eapply Rle_trans; [apply Rabs_triang|]. pose proof (Rabs_triang (B2R x - a) (- (B2R y - b))) as T. rewrite Rabs_Ropp in T. lra.
Qed.
Lemma apx_mul x y a b E F P Q B : apx x a E → apx y b F → Rabs a <= P → Rabs b <= Q → (P + E) * (Q + F) <= B → range B → apx (dmul x y) (a * b) (E * Q + (P + E) * F + u * B).
Proof.
  intros [Fx Hx] [Fy Hy] HP HQ HB [R1 R2]. pose proof (Rabs_pos a). pose proof (Rabs_pos b). pose proof (Rabs_pos (B2R x - a)). pose proof (Rabs_pos (B2R y - b)).
  assert (Rabs (B2R x) <= P + E) as Kx. { replace (B2R x) with ((B2R x - a) + a) by ring. pose proof (Rabs_triang (B2R x - a) a). lra. }
  assert (Rabs (B2R y) <= Q + F) as Ky. { replace (B2R y) with ((B2R y - b) + b) by ring. pose proof (Rabs_triang (B2R y - b) b). lra. }
  assert (Rabs (B2R x * B2R y) <= B) as K. { rewrite Rabs_mult. eapply Rle_trans; [|exact HB]. apply Rmult_le_compat; (done || apply Rabs_pos). }
  destruct (mul_val x y _ _ (conj Fx eq_refl) (conj Fy eq_refl) ltac:(lra)) as [Fz Ez]. split; [done|]. rewrite Ez. pose proof (rnd_err _ B K R1) as RE.
  replace (rnd (B2R x * B2R y) - a * b) with ((rnd (B2R x * B2R y) - B2R x * B2R y) + ((B2R x - a) * b + B2R x * (B2R y - b))) by ring.
  eapply Rle_trans; [apply Rabs_triang|]. pose proof (Rabs_triang ((B2R x - a) * b) (B2R x * (B2R y - b))) as T. rewrite !Rabs_mult in T.
  assert (Rabs (B2R x - a) * Rabs b <= E * Q) by (apply Rmult_le_compat; lra). assert (Rabs (B2R x) * Rabs (B2R y - b) <= (P + E) * F) by (apply Rmult_le_compat; (lra || apply Rabs_pos)). lra.
Qed.
Lemma apx_weak x a E F : apx x a E → E <= F → apx x a F.
Proof. intros [H1 H2] H. split; [done|lra]. Qed.
Lemma apx_val x r : val x r → apx x r 0.
Proof. intros [F <-]. split; [done|]. rewrite Rminus_eq_0, Rabs_R0. lra. Qed.
Lemma rsum_last f n : (0 < n)%nat → rsum f n = rsum f (n - 1) + f (n - 1)%nat.
Proof. destruct n as [|n]; [lia|]. intros _. cbn [rsum]. by replace (S n - 1)%nat with n by lia. Qed.
Lemma rsum_first f n : (0 < n)%nat → rsum f n = f 0%nat + rsum (λ i, f (S i)) (n - 1).
Proof. destruct n as [|n]; [lia|]. intros _. rewrite rsum_shift. by replace (S n - 1)%nat with n by lia. Qed.
Lemma rsum_abs f n B : (∀ i, (i < n)%nat → Rabs (f i) <= B) → Rabs (rsum f n) <= INR n * B.
Proof.
  induction n as [|n IH]; intros H; cbn [rsum]; [cbn; rewrite Rabs_R0; lra|]. rewrite S_INR. pose proof (Rabs_triang (rsum f n) (f n)). assert (Rabs (f n) <= B) by (apply H; lia). assert (Rabs (rsum f n) <= INR n * B) by (apply IH; intros; apply H; lia). lra.
Qed.

(** ** The coefficient *)
Lemma sqrt_near V V' e : 0 <= e <= / 2 → 0 <= V → (1 - e) * V <= V' <= (1 + e) * V → (1 - e) * R_sqrt.sqrt V <= R_sqrt.sqrt V' <= (1 + e) * R_sqrt.sqrt V.
Proof.
  intros He HV [L U]. pose proof (sqrt_pos V) as SP. pose proof (sqrt_sqrt V HV) as SS. split.
  - rewrite <- (sqrt_square ((1 - e) * R_sqrt.sqrt V)) by (apply Rmult_le_pos; lra). apply sqrt_le_1_alt. replace ((1 - e) * R_sqrt.sqrt V * ((1 - e) * R_sqrt.sqrt V)) with ((1 - e) * (1 - e) * V) by (rewrite <- SS at 1; ring). nra.
  - rewrite <- (sqrt_square ((1 + e) * R_sqrt.sqrt V)) by (apply Rmult_le_pos; lra). apply sqrt_le_1_alt. replace ((1 + e) * R_sqrt.sqrt V * ((1 + e) * R_sqrt.sqrt V)) with ((1 + e) * (1 + e) * V) by (rewrite <- SS at 1; ring). nra.
Qed.
Lemma quotient_near N D N' D' e : 0 < D → 0 <= e <= / 100 → Rabs N <= D → Rabs (N' - N) <= e * D → (1 - 22 / 10 * e) * D <= D' <= (1 + 22 / 10 * e) * D → Rabs (N' / D' - N / D) <= 34 / 10 * e.
Proof.
  intros HD He HN HN' [L U]. assert (0 < D') as HD' by nra. set (p := N / D). assert (N = p * D) as EN by (unfold p; field; lra).
  assert (Rabs p <= 1) as Hp. { unfold p, Rdiv. rewrite Rabs_mult, Rabs_inv, (Rabs_pos_eq D) by lra. apply Rmult_le_reg_r with D; [done|]. rewrite Rmult_assoc, Rinv_l by lra. lra. }
  replace (N' / D' - p) with ((N' - p * D') / D') by (field; lra). unfold Rdiv. rewrite Rabs_mult, Rabs_inv, (Rabs_pos_eq D') by lra.
  apply Rmult_le_reg_r with D'; [done|]. rewrite Rmult_assoc, Rinv_l, Rmult_1_r by lra.
  replace (N' - p * D') with ((N' - N) + p * (D - D')) by (rewrite EN; ring). eapply Rle_trans; [apply Rabs_triang|]. rewrite Rabs_mult.
  assert (Rabs (D - D') <= 22 / 10 * e * D) as K by (apply Rabs_le; lra). pose proof (Rabs_pos (D - D')). pose proof (Rabs_pos p).
  assert (Rabs p * Rabs (D - D') <= 1 * (22 / 10 * e * D)) as K2 by (apply Rmult_le_compat; lra).
  assert (34 / 10 * e * ((1 - 22 / 10 * e) * D) <= 34 / 10 * e * D') as K3 by (apply Rmult_le_compat_l; lra).
  assert (0 <= e * D * (/ 10 - 74 / 10 * e)) as K4 by (apply Rmult_le_pos; [apply Rmult_le_pos|]; lra). nra.
Qed.
Lemma poly_lo v e : 0 < v → 30 * v <= e → e <= / 100 → 1 - 22 / 10 * e <= (1 - v) * (1 - v) * (1 - v) * ((1 - e) * (1 - e)).
Proof.
  intros Hv H1 H2. assert (1 - e / 10 <= (1 - v) * (1 - v) * (1 - v)) as X.
  { replace ((1 - v) * (1 - v) * (1 - v)) with (1 - 3 * v + v * v * (3 - v)) by ring. assert (0 <= v * v * (3 - v)) by (apply Rmult_le_pos; [apply Rmult_le_pos|]; lra). lra. }
  assert (1 - 2 * e <= (1 - e) * (1 - e)) as Y. { replace ((1 - e) * (1 - e)) with (1 - 2 * e + e * e) by ring. assert (0 <= e * e) by (apply Rmult_le_pos; lra). lra. }
  apply Rle_trans with ((1 - e / 10) * (1 - 2 * e)); [|apply Rmult_le_compat; lra]. assert (0 <= e * e) by (apply Rmult_le_pos; lra). lra.
Qed.
Lemma poly_hi v e : 0 < v → 30 * v <= e → e <= / 100 → (1 + v) * (1 + v) * (1 + v) * ((1 + e) * (1 + e)) <= 1 + 22 / 10 * e.
Proof.
  intros Hv H1 H2. assert ((1 + v) * (1 + v) * (1 + v) <= 1 + 11 / 100 * e) as X.
  { replace ((1 + v) * (1 + v) * (1 + v)) with (1 + v * (3 + v * (3 + v))) by ring. assert (v * (3 + v) <= / 100 * 4) by (apply Rmult_le_compat; lra). assert (v * (3 + v * (3 + v)) <= v * (33 / 10)) by (apply Rmult_le_compat_l; lra). lra. }
  assert ((1 + e) * (1 + e) <= 1 + 201 / 100 * e) as Y. { assert (e * e <= / 100 * e) by (apply Rmult_le_compat_r; lra). lra. }
  apply Rle_trans with ((1 + 11 / 100 * e) * (1 + 201 / 100 * e)).
  - apply Rmult_le_compat; [|apply Rmult_le_pos; lra|done|done]. apply Rmult_le_pos; [apply Rmult_le_pos|]; lra.
  - assert (e * e <= / 100 * e) by (apply Rmult_le_compat_r; lra). lra.
Qed.
(** Two rounded roots and their product *)
Lemma den_near v e sv sw sa sb ra rb den : 0 < v → 30 * v <= e → e <= / 100 → 0 < sv → 0 < sw → (1 - e) * sv <= sa <= (1 + e) * sv → (1 - e) * sw <= sb <= (1 + e) * sw →
  (1 - v) * sa <= ra <= (1 + v) * sa → (1 - v) * sb <= rb <= (1 + v) * sb → (1 - v) * (ra * rb) <= den <= (1 + v) * (ra * rb) → (1 - 22 / 10 * e) * (sv * sw) <= den <= (1 + 22 / 10 * e) * (sv * sw).
Proof.
  intros Hv H1 H2 Psv Psw [QA1 QA2] [QB1 QB2] [RA1 RA2] [RB1 RB2] [RD1 RD2].
  assert ((1 - v) * ((1 - e) * sv) <= ra) as X1 by (eapply Rle_trans; [|exact RA1]; apply Rmult_le_compat_l; lra). assert ((1 - v) * ((1 - e) * sw) <= rb) as X2 by (eapply Rle_trans; [|exact RB1]; apply Rmult_le_compat_l; lra).
  assert (ra <= (1 + v) * ((1 + e) * sv)) as X3 by (eapply Rle_trans; [exact RA2|]; apply Rmult_le_compat_l; lra). assert (rb <= (1 + v) * ((1 + e) * sw)) as X4 by (eapply Rle_trans; [exact RB2|]; apply Rmult_le_compat_l; lra).
  assert (0 <= (1 - v) * ((1 - e) * sv)) as P1 by (apply Rmult_le_pos; [lra|]; apply Rmult_le_pos; lra). assert (0 <= (1 - v) * ((1 - e) * sw)) as P2 by (apply Rmult_le_pos; [lra|]; apply Rmult_le_pos; lra).
  assert (0 < sv * sw) as PD by (by apply Rmult_lt_0_compat). pose proof (poly_lo v e Hv H1 H2) as Y1. pose proof (poly_hi v e Hv H1 H2) as Y2. split.
  - eapply Rle_trans; [|exact RD1]. apply Rle_trans with ((1 - v) * ((1 - v) * ((1 - e) * sv) * ((1 - v) * ((1 - e) * sw)))); [|apply Rmult_le_compat_l; [lra|apply Rmult_le_compat; lra]].
    replace ((1 - v) * ((1 - v) * ((1 - e) * sv) * ((1 - v) * ((1 - e) * sw)))) with ((1 - v) * (1 - v) * (1 - v) * ((1 - e) * (1 - e)) * (sv * sw)) by ring. apply Rmult_le_compat_r; lra.
  - eapply Rle_trans; [exact RD2|]. apply Rle_trans with ((1 + v) * ((1 + v) * ((1 + e) * sv) * ((1 + v) * ((1 + e) * sw)))); [apply Rmult_le_compat_l; [lra|apply Rmult_le_compat; lra]|].
    replace ((1 + v) * ((1 + v) * ((1 + e) * sv) * ((1 + v) * ((1 + e) * sw)))) with ((1 + v) * (1 + v) * (1 + v) * ((1 + e) * (1 + e)) * (sv * sw)) by ring. apply Rmult_le_compat_r; lra.
Qed.
Lemma near_rel a V q e : 0 <= e → Rabs (a - V) <= e * q → q <= V → (1 - e) * V <= a <= (1 + e) * V.
Proof. intros He H Hq. assert (e * q <= e * V) by (by apply Rmult_le_compat_l). apply Rabs_le_inv in H. lra. Qed.
(** A factor close to one at most doubles or halves *)
Lemma halve f x y c : / 2 <= f → c <= x → 0 <= c → f * x <= y → c / 2 <= y.
Proof. intros H1 H2 H3 H4. assert (/ 2 * c <= f * x) by (apply Rmult_le_compat; lra). lra. Qed.
Lemma double_ f x y c : 0 <= f → f <= 2 → 0 <= x → x <= c → y <= f * x → y <= 2 * c.
Proof. intros H0 H1 H2 H3 H4. assert (f * x <= 2 * c) by (apply Rmult_le_compat; lra). lra. Qed.
Lemma coeff_near num a b N V W e A0 B0 : 0 < A0 → 0 < B0 → 30 * u <= e <= / 100 → apx num N (e * (A0 * B0)) → apx a V (e * (A0 * A0)) → apx b W (e * (B0 * B0)) →
  A0 * A0 <= V → B0 * B0 <= W → Rabs N <= R_sqrt.sqrt V * R_sqrt.sqrt W →
  b2 (-460) <= A0 → b2 (-460) <= B0 → R_sqrt.sqrt V <= b2 490 → R_sqrt.sqrt W <= b2 490 →
  let p := N / (R_sqrt.sqrt V * R_sqrt.sqrt W) in
  apx (ddiv num (dmul (dsqrt a) (dsqrt b))) p (4 * e).
Proof.
  intros HA HB He [FN EN] [Fa Ea] [Fb Eb] HV HW HN LA LB UV UW p. assert (0 < u < / 1000000) as Hu by (unfold u; lra).
  assert (0 < A0 * A0) as PA0 by (by apply Rmult_lt_0_compat). assert (0 < B0 * B0) as PB0 by (by apply Rmult_lt_0_compat). assert (0 < V) as PV by lra. assert (0 < W) as PW by lra.
  assert (A0 <= R_sqrt.sqrt V) as SA. { rewrite <- (sqrt_square A0) by lra. by apply sqrt_le_1_alt. }
  assert (B0 <= R_sqrt.sqrt W) as SB. { rewrite <- (sqrt_square B0) by lra. by apply sqrt_le_1_alt. }
  assert ((1 - e) * V <= B2R a <= (1 + e) * V) as NA by (apply (near_rel _ _ (A0 * A0) e); (done || lra)). assert ((1 - e) * W <= B2R b <= (1 + e) * W) as NB by (apply (near_rel _ _ (B0 * B0) e); (done || lra)).
  pose proof (sqrt_near V (B2R a) e ltac:(lra) ltac:(lra) NA) as QA. pose proof (sqrt_near W (B2R b) e ltac:(lra) ltac:(lra) NB) as QB.
  assert (0 <= B2R a) as Pa by (assert (0 <= (1 - e) * V) by (apply Rmult_le_pos; lra); lra). assert (0 <= B2R b) as Pb by (assert (0 <= (1 - e) * W) by (apply Rmult_le_pos; lra); lra). pose proof (sqrt_val a _ (conj Fa eq_refl) Pa) as VA. pose proof (sqrt_val b _ (conj Fb eq_refl) Pb) as VB.
  set (sv := R_sqrt.sqrt V) in *. set (sw := R_sqrt.sqrt W) in *. set (sa := R_sqrt.sqrt (B2R a)) in *. set (sb := R_sqrt.sqrt (B2R b)) in *.
  pose proof (bpow_gt_0 radix2 (-460)) as P460. assert (b2 (-460) = 2 * b2 (-461)) as D1 by (change (-460)%Z with (1 + -461)%Z; rewrite bpow_plus; reflexivity).
  assert (b2 (-1022) <= b2 (-461)) as M1 by (apply bpow_le; lia). assert (b2 (-461) <= sa) as La by (pose proof (halve (1 - e) sv sa (b2 (-460)) ltac:(lra) ltac:(lra) ltac:(lra) ltac:(lra)); lra). assert (b2 (-461) <= sb) as Lb by (pose proof (halve (1 - e) sw sb (b2 (-460)) ltac:(lra) ltac:(lra) ltac:(lra) ltac:(lra)); lra).
  pose proof (rel_pos sa ltac:(lra)) as RA. pose proof (rel_pos sb ltac:(lra)) as RB. set (ra := rnd sa) in *. set (rb := rnd sb) in *.
  assert (b2 (-461) = 2 * b2 (-462)) as D2 by (change (-461)%Z with (1 + -462)%Z; rewrite bpow_plus; reflexivity). pose proof (bpow_gt_0 radix2 (-462)) as P462.
  assert (b2 (-462) <= ra) as Lra by (pose proof (halve (1 - u) sa ra (b2 (-461)) ltac:(lra) ltac:(lra) ltac:(lra) ltac:(lra)); lra). assert (b2 (-462) <= rb) as Lrb by (pose proof (halve (1 - u) sb rb (b2 (-461)) ltac:(lra) ltac:(lra) ltac:(lra) ltac:(lra)); lra).
  assert (b2 492 = 2 * (2 * b2 490)) as D3 by (change 492%Z with (1 + (1 + 490))%Z; rewrite !bpow_plus; reflexivity). pose proof (bpow_gt_0 radix2 490) as P490.
  assert (sa <= 2 * b2 490) as Usa by (apply (double_ (1 + e) sv); lra). assert (sb <= 2 * b2 490) as Usb by (apply (double_ (1 + e) sw); lra).
  assert (ra <= b2 492) as Ura by (rewrite D3; apply (double_ (1 + u) sa); lra). assert (rb <= b2 492) as Urb by (rewrite D3; apply (double_ (1 + u) sb); lra).
  assert (ra * rb <= b2 984) as U3. { change 984%Z with (492 + 492)%Z. rewrite bpow_plus. apply Rmult_le_compat; lra. }
  assert (b2 (-924) <= ra * rb) as L3. { change (-924)%Z with (-462 + -462)%Z. rewrite bpow_plus. apply Rmult_le_compat; lra. }
  pose proof (bpow_gt_0 radix2 (-924)) as P924. assert (b2 (-1022) <= b2 (-924)) as M2 by (apply bpow_le; lia). assert (b2 984 <= b2 1000) as M3 by (apply bpow_le; lia).
  pose proof (mul_val _ _ _ _ VA VB ltac:(rewrite Rabs_pos_eq; lra)) as VD. pose proof (rel_pos (ra * rb) ltac:(lra)) as RD. set (den := rnd (ra * rb)) in *.
  assert (0 < sv) as Psv by lra. assert (0 < sw) as Psw by lra. assert (0 < sv * sw) as PD by (by apply Rmult_lt_0_compat).
  assert ((1 - 22 / 10 * e) * (sv * sw) <= den <= (1 + 22 / 10 * e) * (sv * sw)) as ND.
  { apply (den_near u e sv sw sa sb ra rb den); (done || lra). }
  assert (Rabs (B2R num - N) <= e * (sv * sw)) as NN. { eapply Rle_trans; [exact EN|]. apply Rmult_le_compat_l; [lra|]. apply Rmult_le_compat; lra. }
  pose proof (quotient_near N (sv * sw) (B2R num) den e PD ltac:(lra) HN NN ND) as Q. fold p in Q.
  assert (Rabs p <= 1) as Hp. { unfold p, Rdiv. rewrite Rabs_mult, Rabs_inv, (Rabs_pos_eq (sv * sw)) by lra. apply Rmult_le_reg_r with (sv * sw); [done|]. rewrite Rmult_assoc, Rinv_l by lra. lra. }
  assert (Rabs (B2R num / den) <= 2) as Q2. { replace (B2R num / den) with ((B2R num / den - p) + p) by ring. pose proof (Rabs_triang (B2R num / den - p) p). lra. }
  assert (0 < den) as Pden by (assert (0 < (1 - 22 / 10 * e) * (sv * sw)) by (apply Rmult_lt_0_compat; lra); lra). assert (2 <= b2 1000) as M4 by (change 2 with (b2 1); apply bpow_le; lia). assert (b2 (-960) <= 2) as M5 by (change 2 with (b2 1); apply bpow_le; lia).
  destruct (div_val num _ _ _ (conj FN eq_refl) VD ltac:(lra) ltac:(lra)) as [FQ EQ]. split; [done|]. rewrite EQ. pose proof (rnd_err _ 2 Q2 M5) as RE.
  replace (rnd (B2R num / den) - p) with ((rnd (B2R num / den) - B2R num / den) + (B2R num / den - p)) by ring. pose proof (Rabs_triang (rnd (B2R num / den) - B2R num / den) (B2R num / den - p)). lra.
Qed.

(** ** The sums *)
Definition fine (K : R) : Prop := b2 (-800) <= K <= b2 800.
Lemma range_ok c K : 1 <= c <= b2 110 → fine K → range (c * K).
Proof.
  intros [H1 H2] [K1 K2]. pose proof (bpow_gt_0 radix2 (-800)) as P. assert (b2 (-960) <= b2 (-800)) by (apply bpow_le; lia). split.
  - assert (1 * K <= c * K) by (apply Rmult_le_compat_r; lra). lra.
  - apply Rle_trans with (b2 110 * b2 800); [apply Rmult_le_compat; lra|]. rewrite <- bpow_plus. apply bpow_le. lia.
Qed.
Section general.
Context (dataS dataL : Z → option double) (n : nat) (sizeL : Z) (delay0 : double) (s l : nat → double) (MS ML tau : R).
Hypothesis Hn : (0 < n)%nat.
Hypothesis Hsize : (n ≤ sizeL)%Z.
Hypothesis HMS : b2 (-400) <= MS <= b2 400.
Hypothesis HML : b2 (-400) <= ML <= b2 400.
Hypothesis HS : ∀ i : nat, (i < n)%nat → dataS i = Some (s i) ∧ is_finite (s i) = true ∧ Rabs (B2R (s i)) <= MS.
Hypothesis HL : ∀ i : nat, (i < sizeL)%Z → dataL i = Some (l i) ∧ is_finite (l i) = true ∧ Rabs (B2R (l i)) <= ML.
Let v : R := IZR (sizeL + 1) / 2 ^ 53.
Hypothesis Htau : 4000 * v <= tau.
Hypothesis Htau1 : tau <= 1.
Let nr : R := INR n.
Let X (i : nat) : R := B2R (s i).
Let Y (i : nat) : R := B2R (l i).
Let win (d i : nat) : R := Y (d + i)%nat.

Lemma v_eq : v = IZR (sizeL + 1) * u.
Proof using Type. unfold v. rewrite u_eq. done. Qed.
Lemma scale : 1 <= nr ∧ nr * u <= v ∧ 0 < u <= v ∧ v <= / 4000 ∧ nr <= b2 53 ∧ u <= / 1000000.
Proof using Hn Hsize Htau Htau1.
  assert (1 <= nr) as H1 by (unfold nr; change 1 with (INR 1); apply le_INR; lia). assert (nr + 1 <= IZR (sizeL + 1)) as H2. { unfold nr. rewrite INR_IZR_INZ, <- plus_IZR. apply IZR_le. lia. }
  assert (0 < u <= / 1000000) as Hu by (unfold u; lra). rewrite v_eq in *. assert (nr * u <= IZR (sizeL + 1) * u) by (apply Rmult_le_compat_r; lra). assert (1 * u <= IZR (sizeL + 1) * u) by (apply Rmult_le_compat_r; lra).
  split; [done|]. split; [done|]. split; [lra|]. split; [lra|]. split; [|lra]. apply Rmult_le_reg_r with u; [lra|]. change (b2 53) with 9007199254740992. unfold u at 2. lra.
Qed.
Lemma fines : fine MS ∧ fine ML ∧ fine (MS * MS) ∧ fine (ML * ML) ∧ fine (MS * ML) ∧ 0 < MS ∧ 0 < ML.
Proof using HMS HML.
  clear - HMS HML. pose proof (bpow_gt_0 radix2 (-400)) as P. destruct HMS as [S1 S2], HML as [L1 L2]. assert (b2 (-800) <= b2 (-400)) by (apply bpow_le; lia). assert (b2 400 <= b2 800) by (apply bpow_le; lia).
  assert (∀ a b, b2 (-400) <= a <= b2 400 → b2 (-400) <= b <= b2 400 → fine (a * b)) as K.
  { intros a b [A1 A2] [B1 B2]. unfold fine. change (-800)%Z with (-400 + -400)%Z. change 800%Z with (400 + 400)%Z. rewrite !bpow_plus. split; apply Rmult_le_compat; lra. }
  unfold fine at 1 2. split_and!; try lra; by apply K.
Qed.
Lemma sizes : 1 <= 2 * nr <= b2 110 ∧ 1 <= 5 * nr <= b2 110 ∧ 1 <= 2 * nr * nr <= b2 110 ∧ 1 <= 4 * nr * nr <= b2 110 ∧ 1 <= 3 <= b2 110.
Proof using Hn Hsize Htau Htau1.
  destruct scale as (N1 & _ & _ & _ & N2 & _). assert (nr * nr <= b2 53 * b2 53) as K by (apply Rmult_le_compat; lra). rewrite <- bpow_plus in K. change (53 + 53)%Z with 106%Z in K.
  assert (b2 110 = 16 * b2 106) as E by (change 110%Z with (4 + 106)%Z; rewrite bpow_plus; reflexivity). assert (1 * nr <= nr * nr) by (apply Rmult_le_compat_r; lra). lra.
Qed.
(** One more term of a sum *)
Lemma apx_acc c x f k T E F : apx c (rsum f k) E → apx x (f k) F → (∀ i, (i < S k)%nat → Rabs (f i) <= T) → (k < n)%nat → E <= nr * T / 2 → F <= T / 2 → fine T → apx (dadd c x) (rsum f (S k)) (E + F + u * (2 * nr * T)).
Proof using Hn Hsize Htau Htau1.
  intros Hc Hx HT Hk HE HF Hf. destruct scale as (N1 & _). destruct sizes as (Z1 & _). pose proof (bpow_gt_0 radix2 (-800)). assert (0 < T) as PT by (destruct Hf; lra).
  cbn [rsum]. apply apx_add; [done|done| |by apply range_ok]. assert (Rabs (rsum f k) <= INR k * T) as B1 by (apply rsum_abs; intros; apply HT; lia). assert (Rabs (f k) <= T) as B2 by (apply HT; lia).
  assert (INR k + 1 <= nr) as Ik by (unfold nr; rewrite <- S_INR; apply le_INR; lia). assert ((INR k + 1) * T <= nr * T) by (apply Rmult_le_compat_r; lra). assert (1 * T <= nr * T) by (apply Rmult_le_compat_r; lra). lra.
Qed.
Lemma Xb i : (i < n)%nat → Rabs (X i) <= MS.
Proof using HS. intros Hi. by destruct (HS i Hi) as (_ & _ & ?). Qed.
Lemma Yb i : (Z.of_nat i < sizeL)%Z → Rabs (Y i) <= ML.
Proof using HL. intros Hi. by destruct (HL i Hi) as (_ & _ & ?). Qed.
Lemma prod_le a b P Q : Rabs a <= P → Rabs b <= Q → Rabs (a * b) <= P * Q.
Proof using Type. clear. intros H1 H2. rewrite Rabs_mult. apply Rmult_le_compat; (done || apply Rabs_pos). Qed.
Lemma exact_apx x : is_finite x = true → apx x (B2R x) 0.
Proof using Type. intros F. by apply apx_val. Qed.
Lemma apx_prod x y P Q : is_finite x = true → is_finite y = true → Rabs (B2R x) <= P → Rabs (B2R y) <= Q → fine (P * Q) → apx (dmul x y) (B2R x * B2R y) (u * (P * Q)).
Proof using Type.
  clear. intros Fx Fy Hx Hy Hf. eapply apx_weak; [eapply apx_mul; [by apply exact_apx|by apply exact_apx|exact Hx|exact Hy| |]|].
  - instantiate (1 := 1 * (P * Q)). lra.
  - apply range_ok; [|done]. split; [lra|]. change 1 with (b2 0). apply bpow_le. lia.
  - lra.
Qed.
(** The error of a sum of k terms, in units of the bound T of the terms *)
Definition acc_err (k : nat) (T : R) : R := 3 * u * nr * T * INR k.
Lemma acc_err_small k T : (k ≤ n)%nat → 0 < T → 0 <= acc_err k T <= 3 * v * (nr * T) ∧ acc_err k T <= nr * T / 2.
Proof using Hn Hsize Htau Htau1.
  intros Hk HT. destruct scale as (N1 & N2 & N3 & N4 & _). unfold acc_err. pose proof (pos_INR k) as Pk. assert (INR k <= nr) as Ik by (unfold nr; apply le_INR; lia).
  assert (0 < nr * T) as PT by (apply Rmult_lt_0_compat; lra). assert (INR k * u <= nr * u) as K1 by (apply Rmult_le_compat_r; lra).
  assert (0 <= INR k * u) as K0 by (apply Rmult_le_pos; lra).
  replace (3 * u * nr * T * INR k) with (3 * (INR k * u) * (nr * T)) by ring. assert (3 * (INR k * u) * (nr * T) <= 3 * v * (nr * T)) as K2 by (apply Rmult_le_compat_r; lra).
  assert (0 <= 3 * (INR k * u) * (nr * T)) as K3 by (apply Rmult_le_pos; lra). assert (3 * v * (nr * T) <= 3 / 4000 * (nr * T)) by (apply Rmult_le_compat_r; lra). lra.
Qed.
Lemma acc_err_S c x f k T F : apx c (rsum f k) (acc_err k T) → apx x (f k) F → (∀ i, (i < S k)%nat → Rabs (f i) <= T) → (k < n)%nat → F <= u * T → fine T → apx (dadd c x) (rsum f (S k)) (acc_err (S k) T).
Proof using Hn Hsize Htau Htau1.
  intros Hc Hx HT Hk HF Hf. destruct scale as (N1 & N2 & N3 & N4 & N5 & N6). pose proof (bpow_gt_0 radix2 (-800)). assert (0 < T) as PT by (destruct Hf; lra).
  assert (u * T <= T / 2) as HF2. { assert (u * T <= / 2 * T) by (apply Rmult_le_compat_r; lra). lra. }
  destruct (acc_err_small k T ltac:(lia) PT) as [_ A2].
  eapply apx_weak; [by apply (apx_acc c x f k T (acc_err k T) F); [..|lra|]|]. unfold acc_err. rewrite S_INR.
  assert (u * T <= u * T * nr). { assert (0 <= u * T) by (apply Rmult_le_pos; lra). assert (u * T * 1 <= u * T * nr) by (apply Rmult_le_compat_l; lra). lra. } lra.
Qed.
Lemma gprepare_ok : ∃ p, dprepare dataS dataL n = Some p ∧
  apx (d_sumS p) (rsum X n) (acc_err n MS) ∧ apx (d_sumS2 p) (rsum (λ i, X i * X i) n) (acc_err n (MS * MS)) ∧
  apx (d_sumL p) (rsum Y (n - 1)) (acc_err n ML) ∧ apx (d_sumL2 p) (rsum (λ i, Y i * Y i) (n - 1)) (acc_err n (ML * ML)).
Proof using Hn Hsize HMS HML HS HL Htau Htau1.
  destruct fines as (F1 & F2 & F3 & F4 & F5 & P1 & P2). destruct scale as (N1 & N2 & N3 & N4 & N5 & N6).
  assert (∀ k k' T, (k ≤ k')%nat → 0 < T → acc_err k T <= acc_err k' T) as Mono. { intros k k' T Hk HT. unfold acc_err. apply Rmult_le_compat_l; [|by apply le_INR]. apply Rmult_le_pos; [apply Rmult_le_pos|]; lra. }
  assert (apx zero 0 0) as Az by (apply apx_val; done).
  unfold dprepare. assert (∀ k, (k ≤ n)%nat → ∃ p, loop (dprepare_step dataS dataL n) (seq 0 k) (DSums zero zero zero zero) = Some p ∧
    apx (d_sumS p) (rsum X k) (acc_err k MS) ∧ apx (d_sumS2 p) (rsum (λ i, X i * X i) k) (acc_err k (MS * MS)) ∧
    apx (d_sumL p) (rsum Y (min k (n - 1))) (acc_err (min k (n - 1)) ML) ∧ apx (d_sumL2 p) (rsum (λ i, Y i * Y i) (min k (n - 1))) (acc_err (min k (n - 1)) (ML * ML))) as K.
  2: { destruct (K n) as (p & E & K1 & K2 & K3 & K4); [lia|]. exists p. replace (min n (n - 1)) with (n - 1)%nat in * by lia. split; [done|]. split; [done|]. split; [done|].
       split; eapply apx_weak; try eassumption; apply Mono; (lia || nra). }
  intros k. induction k as [|k IH]; intros Hk.
  { eexists. split; [done|]. cbn [d_sumS d_sumS2 d_sumL d_sumL2 rsum Nat.min]. unfold acc_err. cbn [INR]. rewrite !Rmult_0_r. done. }
  destruct IH as (p & E & K1 & K2 & K3 & K4); [lia|]. rewrite loop_S, E. cbn [mbind option_bind]. unfold dprepare_step.
  destruct (HS k) as (Es & Fs & Bs); [lia|]. rewrite Es. cbn [mbind option_bind].
  assert (apx (dadd (d_sumS p) (s k)) (rsum X (S k)) (acc_err (S k) MS)) as J1.
  { apply (acc_err_S _ _ X k MS 0); [done|by apply exact_apx|intros; apply Xb; lia|lia|nra|done]. }
  assert (apx (dadd (d_sumS2 p) (dmul (s k) (s k))) (rsum (λ i, X i * X i) (S k)) (acc_err (S k) (MS * MS))) as J2.
  { apply (acc_err_S _ _ (λ i, X i * X i) k (MS * MS) (u * (MS * MS))); [done|by apply apx_prod|intros; apply prod_le; apply Xb; lia|lia|lra|done]. }
  destruct (decide (n - 1 ≤ k)%Z) as [Hd|Hd].
  - eexists. split; [done|]. cbn [d_sumS d_sumS2 d_sumL d_sumL2]. replace (min k (n - 1)) with (n - 1)%nat in * by lia. replace (min (S k) (n - 1)) with (n - 1)%nat by lia. done.
  - destruct (HL k) as (El & Fl & Bl); [lia|]. rewrite El. cbn [mbind option_bind]. eexists. split; [done|]. cbn [d_sumS d_sumS2 d_sumL d_sumL2].
    replace (min k (n - 1)) with k in * by lia. replace (min (S k) (n - 1)) with (S k) by lia. split; [done|]. split; [done|]. split.
    + apply (acc_err_S _ _ Y k ML 0); [done|by apply exact_apx|intros; apply Yb; lia|lia|nra|done].
    + apply (acc_err_S _ _ (λ i, Y i * Y i) k (ML * ML) (u * (ML * ML))); [done|by apply apx_prod|intros; apply prod_le; apply Yb; lia|lia|lra|done].
Qed.
Lemma ginner_ok (d : nat) : (d + n ≤ sizeL)%Z → ∃ c, dinner dataS dataL n d = Some c ∧ apx c (rsum (λ i, X i * win d i) n) (acc_err n (MS * ML)).
Proof using Hn Hsize HMS HML HS HL Htau Htau1.
  destruct fines as (F1 & F2 & F3 & F4 & F5 & P1 & P2).
  intros Hd. unfold dinner. set (f := λ (sumSL : double) (i : nat), _).
  assert (∀ k, (k ≤ n)%nat → ∃ c, loop f (seq 0 k) zero = Some c ∧ apx c (rsum (λ i, X i * win d i) k) (acc_err k (MS * ML))) as K; [|apply K; lia].
  intros k. induction k as [|k IH]; intros Hk; [eexists; split; [done|]; unfold acc_err; cbn [INR rsum]; rewrite Rmult_0_r; by apply apx_val|]. destruct IH as (c & E & F); [lia|]. rewrite loop_S, E. cbn [mbind option_bind]. unfold f.
  destruct (HS k) as (Es & Fs & Bs); [lia|]. rewrite Es. cbn [mbind option_bind]. replace (k + d)%Z with (Z.of_nat (d + k)) by lia. destruct (HL (d + k)) as (El & Fl & Bl); [lia|]. rewrite El. cbn [mbind option_bind].
  eexists. split; [done|]. apply (acc_err_S _ _ (λ i, X i * win d i) k (MS * ML) (u * (MS * ML))); [done|by apply apx_prod| |lia|lra|done].
  intros i Hi. apply prod_le; [apply Xb; lia|apply Yb; lia].
Qed.

(** ** The numerator and the radicands *)
Lemma moment c a b p s1 s2 M1 M2 : apx c p (10 * v * (nr * (M1 * M2))) → apx a s1 (10 * v * (nr * M1)) → apx b s2 (10 * v * (nr * M2)) →
  Rabs p <= nr * (M1 * M2) → Rabs s1 <= nr * M1 → Rabs s2 <= nr * M2 → 0 < M1 → 0 < M2 → fine (M1 * M2) →
  apx (dsub (dmul (of_Z n) c) (dmul a b)) (nr * p - s1 * s2) (40 * v * (nr * nr * (M1 * M2))).
Proof using Hn Hsize Htau Htau1.
  intros Hc Ha Hb Bp B1 B2 P1 P2 Hf. destruct scale as (N1 & N2 & N3 & N4 & N5 & N6). destruct sizes as (Z1 & Z2 & Z3 & Z4 & _).
  set (T := M1 * M2) in *. assert (0 < T) as PT by (by apply Rmult_lt_0_compat). set (K := nr * nr * T). assert (0 < K) as PK by (apply Rmult_lt_0_compat; [apply Rmult_lt_0_compat|]; lra).
  assert (u * K <= v * K) as UK by (apply Rmult_le_compat_r; lra). assert (v * K <= / 4000 * K) as VK by (apply Rmult_le_compat_r; lra). assert (0 <= v * K) as VK0 by (apply Rmult_le_pos; lra).
  assert (apx (of_Z n) nr 0) as An. { apply apx_val. unfold nr. rewrite INR_IZR_INZ. apply of_Z_val. apply lt_IZR. rewrite abs_IZR, Rabs_pos_eq by (apply IZR_le; lia). rewrite <- INR_IZR_INZ. fold nr.
    change (IZR (2 ^ 53)) with 9007199254740992. apply Rmult_lt_reg_r with u; [lra|]. unfold u at 2. lra. }
  assert (apx (dmul (of_Z n) c) (nr * p) (12 * (v * K))) as A1.
  { eapply apx_weak; [apply (apx_mul _ _ nr p 0 _ nr (nr * T) (2 * nr * nr * T) An Hc); [rewrite Rabs_pos_eq; lra|done| |by apply range_ok]|].
    - replace ((nr + 0) * (nr * T + 10 * v * (nr * T))) with (K + 10 * (v * K)) by (unfold K; ring). replace (2 * nr * nr * T) with (2 * K) by (unfold K; ring). lra.
    - replace (0 * (nr * T) + (nr + 0) * (10 * v * (nr * T)) + u * (2 * nr * nr * T)) with (10 * (v * K) + 2 * (u * K)) by (unfold K; ring). lra. }
  assert (v * (v * K) <= / 4000 * (v * K)) as VVK by (apply Rmult_le_compat_r; lra).
  assert (apx (dmul a b) (s1 * s2) (23 * (v * K))) as A2.
  { eapply apx_weak; [apply (apx_mul _ _ s1 s2 _ _ (nr * M1) (nr * M2) (2 * nr * nr * T) Ha Hb); [done|done| |by apply range_ok]|].
    - replace ((nr * M1 + 10 * v * (nr * M1)) * (nr * M2 + 10 * v * (nr * M2))) with (K + 20 * (v * K) + 100 * (v * (v * K))) by (unfold K, T; ring). replace (2 * nr * nr * T) with (2 * K) by (unfold K; ring). lra.
    - replace (10 * v * (nr * M1) * (nr * M2) + (nr * M1 + 10 * v * (nr * M1)) * (10 * v * (nr * M2)) + u * (2 * nr * nr * T)) with (20 * (v * K) + 100 * (v * (v * K)) + 2 * (u * K)) by (unfold K, T; ring). lra. }
  eapply apx_weak; [apply (apx_sub _ _ _ _ _ _ (4 * nr * nr * T) A1 A2); [|by apply range_ok]|].
  - assert (Rabs (nr * p) <= K) as Q1. { replace K with (nr * (nr * T)) by (unfold K; ring). apply prod_le; [rewrite Rabs_pos_eq; lra|done]. }
    assert (Rabs (s1 * s2) <= K) as Q2. { replace K with (nr * M1 * (nr * M2)) by (unfold K, T; ring). by apply prod_le. }
    replace (4 * nr * nr * T) with (4 * K) by (unfold K; ring). lra.
  - replace (u * (4 * nr * nr * T)) with (4 * (u * K)) by (unfold K; ring). replace (40 * v * K) with (40 * (v * K)) by ring. lra.
Qed.
(** The error of the rolling sums after k delays *)
Definition roll (k : nat) (T : R) : R := 10 * u * nr * T * (nr + INR k).
Lemma roll_small (k : nat) T : (k + n ≤ sizeL + 1)%Z → 0 < T → roll k T <= 10 * v * (nr * T).
Proof using Hn Hsize Htau Htau1.
  intros Hk HT. destruct scale as (N1 & N2 & N3 & _). unfold roll. assert (nr + INR k <= IZR (sizeL + 1)) as K. { unfold nr. rewrite !INR_IZR_INZ, <- plus_IZR. apply IZR_le. lia. }
  rewrite v_eq. replace (10 * u * nr * T * (nr + INR k)) with (10 * u * (nr * T) * (nr + INR k)) by ring. replace (10 * (IZR (sizeL + 1) * u) * (nr * T)) with (10 * u * (nr * T) * IZR (sizeL + 1)) by ring.
  apply Rmult_le_compat_l; [|done]. assert (0 < nr * T) by (apply Rmult_lt_0_compat; lra). apply Rmult_le_pos; lra.
Qed.
Lemma roll_S c x sl dff (k : nat) T F : apx c sl (roll k T) → apx x dff F → Rabs sl <= nr * T → Rabs dff <= 2 * T → F <= 5 * u * T → (k + n ≤ sizeL + 1)%Z → fine T → apx (dadd c x) (sl + dff) (roll (S k) T).
Proof using Hn Hsize Htau Htau1.
  intros Hc Hx B1 B2 HF Hk Hf. destruct scale as (N1 & N2 & N3 & N4 & N5 & N6). destruct sizes as (_ & Z2 & _). pose proof (bpow_gt_0 radix2 (-800)). assert (0 < T) as PT by (destruct Hf; lra).
  pose proof (roll_small k T Hk PT) as RS. assert (0 < nr * T) as PNT by (apply Rmult_lt_0_compat; lra). assert (v * (nr * T) <= / 4000 * (nr * T)) as VT by (apply Rmult_le_compat_r; lra).
  assert (1 * T <= nr * T) as TT by (apply Rmult_le_compat_r; lra). assert (u * T <= / 1000000 * T) as UT by (apply Rmult_le_compat_r; lra).
  eapply apx_weak; [apply (apx_add _ _ _ _ _ _ (5 * nr * T) Hc Hx); [|by apply range_ok]|]; [lra|]. unfold roll. rewrite S_INR.
  assert (u * T <= u * (nr * T)) by (apply Rmult_le_compat_l; lra). lra.
Qed.

(** ** The coefficients *)
Definition vr (x : nat → R) : R := nr * rsum (λ i, x i * x i) n - rsum x n * rsum x n.
Definition cr (x y : nat → R) : R := nr * rsum (λ i, x i * y i) n - rsum x n * rsum y n.
Definition strong (x : nat → R) (M : R) : Prop := tau * nr * (M * M) <= rsum (λ i, square (dev x n i)) n.
Lemma vr_strong x M : strong x M → (R_sqrt.sqrt tau * nr * M) * (R_sqrt.sqrt tau * nr * M) <= vr x.
Proof using Hn Hsize Htau Htau1.
  intros H. destruct scale as (N1 & N2 & N3 & _). unfold vr. unfold nr at 3. rewrite variance_scaled by done. fold nr. assert (0 <= tau) as Pt by lra. pose proof (sqrt_sqrt tau Pt) as ST.
  replace (R_sqrt.sqrt tau * nr * M * (R_sqrt.sqrt tau * nr * M)) with (nr * (tau * nr * (M * M))) by (rewrite <- ST at 1; ring). apply Rmult_le_compat_l; [lra|exact H].
Qed.
Lemma vr_upper x M : 0 < M → (∀ i, (i < n)%nat → Rabs (x i) <= M) → R_sqrt.sqrt (vr x) <= nr * M.
Proof using Hn Hsize Htau Htau1.
  intros HM H. destruct scale as (N1 & _). rewrite <- (sqrt_square (nr * M)) by (apply Rmult_le_pos; lra). apply sqrt_le_1_alt. unfold vr.
  assert (Rabs (rsum (λ i, x i * x i) n) <= nr * (M * M)) as B by (apply rsum_abs; intros; apply prod_le; by apply H). apply Rabs_le_inv in B.
  assert (nr * rsum (λ i, x i * x i) n <= nr * (nr * (M * M))) by (apply Rmult_le_compat_l; lra). pose proof (Rle_0_sqr (rsum x n)) as Sq. unfold Rsqr in Sq. lra.
Qed.
Lemma strong_not_constant x M : 0 < M → strong x M → ¬ constant x n.
Proof using Hn Hsize Htau Htau1.
  intros HM H C. destruct scale as (N1 & N2 & N3 & _). apply variance_zero in C; [|done]. unfold strong in H. rewrite C in H. assert (0 < tau * nr * (M * M)); [|lra]. apply Rmult_lt_0_compat; [apply Rmult_lt_0_compat; lra|by apply Rmult_lt_0_compat].
Qed.
Lemma cr_pearson x y : ¬ constant x n → ¬ constant y n → cr x y / (R_sqrt.sqrt (vr x) * R_sqrt.sqrt (vr y)) = pearson x y n.
Proof using Hn.
  intros Cx Cy. destruct (C06_coefficient x y n Hn) as [C _]. specialize (C Cx Cy). unfold coefficient in C. fold nr in C. fold (cr x y) (vr x) (vr y) in C. unfold quotient in C.
  destruct (Req_EM_T _ 0) as [E|_]; [|by injection C]. destruct (Req_EM_T _ 0); discriminate C.
Qed.
Lemma cr_bound x y : Rabs (cr x y) <= R_sqrt.sqrt (vr x) * R_sqrt.sqrt (vr y).
Proof using Hn.
  pose proof (INR_pos' n Hn) as HI. unfold cr, vr, nr. rewrite covariance_scaled, !variance_scaled by done. pose proof (cauchy_schwarz (dev x n) (dev y n) n) as CS. unfold square in CS at 1.
  pose proof (variance_nonneg x n) as VX. pose proof (variance_nonneg y n) as VY. set (t := rsum (λ i, dev x n i * dev y n i) n) in *. set (a := rsum (λ i, square (dev x n i)) n) in *. set (b := rsum (λ i, square (dev y n i)) n) in *.
  rewrite <- sqrt_mult by (apply Rmult_le_pos; lra). replace (INR n * a * (INR n * b)) with (INR n * INR n * (a * b)) by ring. rewrite sqrt_mult by (apply Rmult_le_pos; lra). rewrite sqrt_square by lra. rewrite Rabs_mult, (Rabs_pos_eq (INR n)) by lra.
  apply Rmult_le_compat_l; [lra|]. rewrite <- sqrt_Rsqr_abs. by apply sqrt_le_1_alt.
Qed.
Definition delta : R := 160 * v / tau.
Lemma coefficient_near (d : nat) num a b : (d + n ≤ sizeL)%Z → strong X MS → strong (win d) ML →
  apx num (cr X (win d)) (40 * v * (nr * nr * (MS * ML))) → apx a (vr X) (40 * v * (nr * nr * (MS * MS))) → apx b (vr (win d)) (40 * v * (nr * nr * (ML * ML))) →
  apx (ddiv num (dmul (dsqrt a) (dsqrt b))) (pearson X (win d) n) delta.
Proof using Hn Hsize HMS HML HS HL Htau Htau1.
  intros Hd SX SW AN AA AB. destruct scale as (N1 & N2 & N3 & N4 & N5 & N6). destruct fines as (F1 & F2 & F3 & F4 & F5 & P1 & P2).
  assert (0 < tau) as Pt by lra. pose proof (sqrt_lt_R0 tau Pt) as Ps. pose proof (sqrt_sqrt tau ltac:(lra)) as ST. set (q := R_sqrt.sqrt tau) in *.
  assert (b2 (-27) <= q) as Lq. { unfold q. rewrite <- (sqrt_square (b2 (-27))) by apply bpow_ge_0. apply sqrt_le_1_alt. rewrite <- bpow_plus. change (b2 (-27 + -27)) with (/ 18014398509481984). unfold u in N3. lra. }
  set (e := 40 * v / tau). assert (e * tau = 40 * v) as Ee by (unfold e; field; lra). assert (30 * u <= e <= / 100) as He.
  { assert (40 * v * tau <= 40 * v * 1) by (apply Rmult_le_compat_l; lra). split; apply Rmult_le_reg_r with tau; [lra| |lra|]; rewrite Ee; [|lra]. assert (30 * u * tau <= 30 * u * 1) by (apply Rmult_le_compat_l; lra). lra. }
  assert (delta = 4 * e) as -> by (unfold delta, e; field; lra). rewrite <- (cr_pearson X (win d) (strong_not_constant X MS P1 SX) (strong_not_constant (win d) ML P2 SW)).
  assert (∀ M M', e * (q * nr * M * (q * nr * M')) = 40 * v * (nr * nr * (M * M'))) as Sc. { intros M M'. rewrite <- Ee, <- ST. ring. }
  assert (∀ M, b2 (-400) <= M → 0 < q * nr * M ∧ b2 (-460) <= q * nr * M) as Lo.
  { intros M HM. pose proof (bpow_gt_0 radix2 (-400)). pose proof (bpow_gt_0 radix2 (-27)). split; [apply Rmult_lt_0_compat; [apply Rmult_lt_0_compat|]; lra|].
    apply Rle_trans with (b2 (-27) * 1 * b2 (-400)); [rewrite Rmult_1_r, <- bpow_plus; apply bpow_le; lia|]. apply Rmult_le_compat; [lra|lra| |done]. apply Rmult_le_compat; lra. }
  assert (∀ M, 0 < M → M <= b2 400 → nr * M <= b2 490) as Up.
  { intros M HM0 HM. apply Rle_trans with (b2 53 * b2 400); [apply Rmult_le_compat; lra|]. rewrite <- bpow_plus. apply bpow_le. lia. }
  destruct (Lo MS) as [L1 L2]; [lra|]. destruct (Lo ML) as [L3 L4]; [lra|].
  apply (coeff_near num a b _ _ _ e (q * nr * MS) (q * nr * ML)); [done|done|done|by rewrite Sc|by rewrite Sc|by rewrite Sc|by apply vr_strong|by apply vr_strong|apply cr_bound|done|done| |].
  - eapply Rle_trans; [apply (vr_upper X MS); [done|]|apply Up; lra]. intros i Hi. by apply Xb.
  - eapply Rle_trans; [apply (vr_upper (win d) ML); [done|]|apply Up; lra]. intros i Hi. apply Yb. lia.
Qed.

(** ** The loop over the delays *)
Hypothesis Hstrong : strong X MS.
Hypothesis Hwin : ∀ d : nat, (d + n ≤ sizeL)%Z → strong (win d) ML.
Definition near (d : nat) (r : R) : Prop := Rabs (r - pearson X (win d) n) <= delta.
Definition gbest (k : nat) (c dl : double) : Prop :=
  (k = 0%nat ∧ c = B754_nan) ∨
  ∃ d r, (d < k)%nat ∧ dl = of_Z d ∧ val c r ∧ near d r ∧ ∀ e, (e < k)%nat → ∃ q, near e q ∧ Rabs q <= Rabs r.
Lemma acc_rest T : 0 < T → acc_err n T <= 10 * v * (nr * T) ∧ acc_err n T <= roll 0 T.
Proof using Hn Hsize Htau Htau1.
  intros HT. destruct scale as (N1 & N2 & N3 & N4 & N5 & N6). assert (0 < nr * T) as P by (apply Rmult_lt_0_compat; lra). unfold acc_err, roll. fold nr. cbn [INR].
  assert (nr * u * (nr * T) <= v * (nr * T)) as K by (apply Rmult_le_compat_r; lra). assert (0 <= nr * u * (nr * T)) as K0 by (apply Rmult_le_pos; [apply Rmult_le_pos; lra|lra]). split; lra.
Qed.
Lemma gdelays_ok sS a0 b0 sL0 sL20 (k : nat) : apx sS (rsum X n) (acc_err n MS) → apx a0 (vr X) (40 * v * (nr * nr * (MS * MS))) → b0 = dsqrt a0 →
  apx sL0 (rsum Y (n - 1)) (acc_err n ML) → apx sL20 (rsum (λ i, Y i * Y i) (n - 1)) (acc_err n (ML * ML)) → (k + n ≤ sizeL + 1)%Z →
  ∃ a sl sl2 ll, loop (ddelay_step dataS dataL n sS b0) (seq 0 k) (DAcc sL0 sL20 zero B754_nan delay0) = Some a ∧
    apx (c_sumL a) sl (roll k ML) ∧ apx (c_sumL2 a) sl2 (roll k (ML * ML)) ∧ is_finite (c_last a) = true ∧ B2R (c_last a) = ll ∧ Rabs ll <= ML ∧
    sl - ll = rsum (win k) (n - 1) ∧ sl2 - ll * ll = rsum (λ i, win k i * win k i) (n - 1) ∧
    gbest k (c_coeff a) (c_delay a).
Proof using Hn Hsize HMS HML HS HL Htau Htau1 Hstrong Hwin.
  intros F1 F2 -> F3 F4. destruct scale as (N1 & N2 & N3 & N4 & N5 & N6). destruct fines as (G1 & G2 & G3 & G4 & G5 & P1 & P2). destruct sizes as (Z1 & Z2 & Z3 & Z4 & Z5).
  assert (0 < ML * ML) as PMM by (by apply Rmult_lt_0_compat). assert (0 < MS * ML) as PSL by (by apply Rmult_lt_0_compat).
  destruct (acc_rest ML P2) as [_ A1]. destruct (acc_rest (ML * ML) PMM) as [_ A2]. destruct (acc_rest (MS * ML) PSL) as [A3 _]. destruct (acc_rest MS P1) as [A4 _].
  induction k as [|k IH]; intros Hk.
  - eexists _, (rsum Y (n - 1)), (rsum (λ i, Y i * Y i) (n - 1)), 0. split; [reflexivity|]. cbn [c_sumL c_last c_sumL2 c_coeff c_delay]. split; [by eapply apx_weak|]. split; [by eapply apx_weak|]. split; [done|]. split; [done|]. split; [rewrite Rabs_R0; lra|].
    split; [rewrite Rminus_0_r; by apply rsum_ext|]. split; [rewrite Rmult_0_l, Rminus_0_r; by apply rsum_ext|]. by left.
  - destruct IH as (a & sl & sl2 & ll & E & I1 & I2 & I3 & I3' & I4 & I5 & I6 & I7); [lia|]. rewrite loop_S, E. cbn [mbind option_bind]. unfold ddelay_step at 1.
    replace (k + n - 1)%Z with (Z.of_nat (k + (n - 1))) by lia. destruct (HL (k + (n - 1))) as (El & Fl & Bl); [lia|]. rewrite El. cbn [mbind option_bind].
    destruct (HL k) as (El0 & Fl0 & Bl0); [lia|]. rewrite El0. cbn [mbind option_bind]. destruct (ginner_ok k) as (c & Ec & Fc); [lia|]. rewrite Ec. cbn [mbind option_bind].
    assert (∀ i, (i < n)%nat → Rabs (win k i) <= ML) as BW by (intros i Hi; apply Yb; lia).
    set (y := Y (k + (n - 1))%nat). assert (rsum (win k) n = sl + (y - ll)) as S1.
    { rewrite (rsum_last _ n Hn), <- I5. unfold win, y. ring. }
    assert (rsum (λ i, win k i * win k i) n = sl2 + (y * y - ll * ll)) as S2.
    { rewrite (rsum_last _ n Hn), <- I6. unfold win, y. ring. }
    assert (rsum (win k) n - Y k = rsum (win (S k)) (n - 1)) as S3.
    { rewrite (rsum_first _ n Hn). unfold win. rewrite Nat.add_0_r.
      rewrite (rsum_ext (λ i, Y (k + S i)%nat) (λ i, Y (S k + i)%nat)) by (intros; f_equal; lia). ring. }
    assert (rsum (λ i, win k i * win k i) n - Y k * Y k = rsum (λ i, win (S k) i * win (S k) i) (n - 1)) as S4.
    { rewrite (rsum_first _ n Hn). unfold win. rewrite Nat.add_0_r.
      rewrite (rsum_ext (λ i, Y (k + S i)%nat * Y (k + S i)%nat) (λ i, Y (S k + i)%nat * Y (S k + i)%nat)) by (intros; do 2 f_equal; lia). ring. }
    assert (INR (n - 1) + 1 = nr) as En by (unfold nr; rewrite minus_INR by lia; cbn [INR]; lra).
    assert (Rabs sl <= nr * ML) as Bsl.
    { replace sl with (rsum (win k) (n - 1) + ll) by lra. eapply Rle_trans; [apply Rabs_triang|]. assert (Rabs (rsum (win k) (n - 1)) <= INR (n - 1) * ML) by (apply rsum_abs; intros; apply BW; lia). rewrite <- En. lra. }
    assert (Rabs sl2 <= nr * (ML * ML)) as Bsl2.
    { replace sl2 with (rsum (λ i, win k i * win k i) (n - 1) + ll * ll) by lra. eapply Rle_trans; [apply Rabs_triang|]. assert (Rabs (rsum (λ i, win k i * win k i) (n - 1)) <= INR (n - 1) * (ML * ML)) by (apply rsum_abs; intros; apply prod_le; apply BW; lia).
      pose proof (prod_le ll ll ML ML I4 I4). rewrite <- En. lra. }
    pose proof (prod_le y y ML ML Bl Bl) as PBy. pose proof (prod_le ll ll ML ML I4 I4) as PBl. fold y in PBy.
    assert (∀ x z, Rabs (x - z) <= Rabs x + Rabs z) as Tri by (intros x z; unfold Rminus; eapply Rle_trans; [apply Rabs_triang|]; rewrite Rabs_Ropp; lra).
    assert (∀ T, 0 < T → u * T <= / 1000000 * T) as UT by (intros T HT; apply Rmult_le_compat_r; lra).
    assert (apx (dadd (c_sumL a) (dsub (l (k + (n - 1))%nat) (c_last a))) (rsum (win k) n) (roll (S k) ML)) as H1.
    { rewrite S1. pose proof (exact_apx _ Fl) as Q1. pose proof (exact_apx _ I3) as Q2. rewrite I3' in Q2. fold (Y (k + (n - 1))%nat) in Q1. fold y in Q1.
      eapply roll_S; [exact I1|eapply apx_sub; [exact Q1|exact Q2| |apply (range_ok 3 ML Z5 G2)]|done| | |lia|done].
      - change (Rabs (B2R (l (k + (n - 1))%nat))) with (Rabs y) in Bl. lra.
      - eapply Rle_trans; [apply Tri|]. change (Rabs (B2R (l (k + (n - 1))%nat))) with (Rabs y) in Bl. lra.
      - assert (0 <= u * ML) by (apply Rmult_le_pos; lra). lra. }
    assert (apx (dadd (c_sumL2 a) (dsub (dmul (l (k + (n - 1))%nat) (l (k + (n - 1))%nat)) (dmul (c_last a) (c_last a)))) (rsum (λ i, win k i * win k i) n) (roll (S k) (ML * ML))) as H2.
    { rewrite S2. pose proof (apx_prod _ _ ML ML Fl Fl Bl Bl G4) as Q1. assert (apx (dmul (c_last a) (c_last a)) (ll * ll) (u * (ML * ML))) as Q2 by (rewrite <- I3'; apply apx_prod; rewrite ?I3'; done).
      fold (Y (k + (n - 1))%nat) in Q1. fold y in Q1. specialize (UT _ PMM).
      eapply roll_S; [exact I2|eapply apx_sub; [exact Q1|exact Q2| |apply (range_ok 3 (ML * ML) Z5 G4)]|done| | |lia|done].
      - lra.
      - eapply Rle_trans; [apply Tri|]. lra.
      - lra. }
    set (sL := dadd (c_sumL a) _) in *. set (sL2 := dadd (c_sumL2 a) _) in *.
    pose proof (roll_small (S k) ML ltac:(lia) P2) as R1. pose proof (roll_small (S k) (ML * ML) ltac:(lia) PMM) as R2.
    assert (Rabs (rsum (win k) n) <= nr * ML) as B1 by (by apply rsum_abs). assert (Rabs (rsum X n) <= nr * MS) as B2 by (apply rsum_abs; intros; by apply Xb).
    assert (apx (dsub (dmul (of_Z n) sL2) (dmul sL sL)) (vr (win k)) (40 * v * (nr * nr * (ML * ML)))) as H3.
    { apply moment; [by eapply apx_weak|by eapply apx_weak|by eapply apx_weak|apply rsum_abs; intros; apply prod_le; by apply BW|done|done|done|done|done]. }
    assert (apx (dsub (dmul (of_Z n) c) (dmul sS sL)) (cr X (win k)) (40 * v * (nr * nr * (MS * ML)))) as H4.
    { apply moment; [by eapply apx_weak|by eapply apx_weak|by eapply apx_weak|apply rsum_abs; intros; apply prod_le; [by apply Xb|by apply BW]|done|done|done|done|done]. }
    destruct (coefficient_near k _ _ _ ltac:(lia) Hstrong (Hwin k ltac:(lia)) H4 F2 H3) as [Fco Nco].
    set (coeff := ddiv _ _) in *. assert (val coeff (B2R coeff)) as Vco by done. assert (near k (B2R coeff)) as Nk by exact Nco.
    assert (∀ c' dl', gbest (S k) c' dl' → ∃ a1 sl sl2 ll, Some (DAcc sL sL2 (l k) c' dl') = Some a1 ∧ apx (c_sumL a1) sl (roll (S k) ML) ∧ apx (c_sumL2 a1) sl2 (roll (S k) (ML * ML)) ∧ is_finite (c_last a1) = true ∧ B2R (c_last a1) = ll ∧ Rabs ll <= ML ∧
        sl - ll = rsum (win (S k)) (n - 1) ∧ sl2 - ll * ll = rsum (λ i, win (S k) i * win (S k) i) (n - 1) ∧ gbest (S k) (c_coeff a1) (c_delay a1)) as Fin.
    { intros c' dl' Hb. eexists _, _, _, (Y k). split; [reflexivity|]. cbn [c_sumL c_last c_sumL2 c_coeff c_delay]. split; [exact H1|]. split; [exact H2|]. split; [exact Fl0|]. done. }
    destruct (negb (is_finite (c_coeff a)) || dabs_gt coeff (c_coeff a)) eqn:B; apply Fin; right.
    + exists k, (B2R coeff). split; [lia|]. split; [done|]. split; [done|]. split; [done|]. intros e He. destruct (decide (e = k)) as [->|Ne]; [exists (B2R coeff); split; [done|lra]|].
      destruct I7 as [[-> _]|(d & r & Hd & Edl & [Fr Er] & Nr & Mx)]; [lia|]. destruct (Mx e) as (q & Nq & Lq); [lia|]. exists q. split; [done|].
      rewrite Fr in B. cbn [negb orb] in B. rewrite (abs_gt_val _ _ _ _ Vco (conj Fr Er)) in B. destruct (Rlt_bool_spec (Rabs r) (Rabs (B2R coeff))); [lra|done].
    + destruct I7 as [[_ Ea]|(d & r & Hd & Edl & [Fr Er] & Nr & Mx)]; [by rewrite Ea in B|]. exists d, r. split; [lia|]. split; [done|]. split; [done|]. split; [done|]. intros e He.
      destruct (decide (e = k)) as [->|Ne]; [|apply Mx; lia]. exists (B2R coeff). split; [done|]. rewrite Fr in B. cbn [negb orb] in B. rewrite (abs_gt_val _ _ _ _ Vco (conj Fr Er)) in B. destruct (Rlt_bool_spec (Rabs r) (Rabs (B2R coeff))); [done|lra].
Qed.
Lemma gcross_ok : ∃ dl c, dcross_correlation dataS dataL n sizeL delay0 = Some (dl, c) ∧ gbest (Z.to_nat (sizeL - n + 1)) c dl.
Proof using Hn Hsize HMS HML HS HL Htau Htau1 Hstrong Hwin.
  destruct fines as (G1 & G2 & G3 & G4 & G5 & P1 & P2). destruct gprepare_ok as (p & E & Q1 & Q2 & Q3 & Q4). assert (0 < MS * MS) as PMM by (by apply Rmult_lt_0_compat).
  destruct (acc_rest (MS * MS) PMM) as [A1 _]. destruct (acc_rest MS P1) as [A2 _].
  assert (apx (dsub (dmul (of_Z n) (d_sumS2 p)) (dmul (d_sumS p) (d_sumS p))) (vr X) (40 * v * (nr * nr * (MS * MS)))) as G.
  { apply moment; [by eapply apx_weak|by eapply apx_weak|by eapply apx_weak|apply rsum_abs; intros; apply prod_le; by apply Xb|apply rsum_abs; intros; by apply Xb|apply rsum_abs; intros; by apply Xb|done|done|done]. }
  destruct (gdelays_ok _ _ _ _ _ (Z.to_nat (sizeL - n + 1)) Q1 G eq_refl Q3 Q4 ltac:(lia)) as (a & _ & _ & _ & Ea & _ & _ & _ & _ & _ & _ & _ & H).
  exists (c_delay a), (c_coeff a). split; [|exact H]. unfold dcross_correlation. rewrite E. cbn [mbind option_bind]. rewrite Ea. done.
Qed.
End general.

(** ** The properties *)
(** The variance of x is at least tau times the square of M. *)
Definition lively (tau M : R) (x : nat → R) (n : nat) : Prop := tau * (M * M) <= rsum (λ i, square (dev x n i)) n / INR n.
Section props.
Context (dataS dataL : Z → option double) (n : nat) (sizeL : Z) (delay0 : double) (s l : nat → double) (MS ML tau : R).
Hypothesis Hn : (0 < n)%nat.
Hypothesis Hsize : (n ≤ sizeL)%Z.
Hypothesis HMS : b2 (-400) <= MS <= b2 400.
Hypothesis HML : b2 (-400) <= ML <= b2 400.
Hypothesis HS : ∀ i : nat, (i < n)%nat → dataS i = Some (s i) ∧ is_finite (s i) = true ∧ Rabs (x_of s i) <= MS.
Hypothesis HL : ∀ i : nat, (i < sizeL)%Z → dataL i = Some (l i) ∧ is_finite (l i) = true ∧ Rabs (B2R (l i)) <= ML.
Hypothesis Htau : 4000 * (IZR (sizeL + 1) / 2 ^ 53) <= tau.
Hypothesis HlS : lively tau MS (x_of s) n.
Hypothesis HlL : ∀ d : nat, (Z.of_nat d ≤ sizeL - n)%Z → lively tau ML (w_of l d) n.
Definition accuracy : R := 160 * (IZR (sizeL + 1) / 2 ^ 53) / tau.

(** C87: for any finite samples, of which those of the short trace and of each window have a
    variance of at least tau times the square of the bound on the samples: the coefficient is
    finite and that of the lag returned up to [accuracy], which grows with the length of the
    long trace only, and no lag is better by more than twice this. *)
Theorem C87_general :
  ∃ d c, dcross_correlation dataS dataL n sizeL delay0 = Some (of_Z d, c) ∧ (0 ≤ d ≤ sizeL - n)%Z ∧
    is_finite c = true ∧ Rabs (B2R c - rho n s l (Z.to_nat d)) <= accuracy ∧ Rabs (B2R c) <= 1 + accuracy ∧
    ∀ e : nat, (e ≤ sizeL - n)%Z → Rabs (rho n s l e) <= Rabs (rho n s l (Z.to_nat d)) + 2 * accuracy.
Proof using Hn Hsize HMS HML HS HL Htau HlS HlL.
  pose proof (INR_pos' n Hn) as PN. pose proof (bpow_gt_0 radix2 (-400)) as Pb. assert (0 < IZR (sizeL + 1) / 2 ^ 53) as Pv by (apply Rdiv_lt_0_compat; [apply IZR_lt; lia|lra]).
  assert (∀ M x, lively tau M x n → strong n tau x M) as LS.
  { intros M x H. unfold lively in H. unfold strong. replace (tau * INR n * (M * M)) with (tau * (M * M) * INR n) by ring. apply (Rmult_le_compat_r (INR n)) in H; [|lra]. eapply Rle_trans; [exact H|]. apply Req_le. field. lra. }
  assert (tau <= 1) as Htau1.
  { pose proof (LS _ _ HlS) as H. unfold strong in H. assert (rsum (λ i, square (dev (x_of s) n i)) n <= INR n * (MS * MS)) as U.
    { pose proof (variance_scaled (x_of s) n Hn) as V. assert (Rabs (rsum (λ i, x_of s i * x_of s i) n) <= INR n * (MS * MS)) as B by (apply rsum_abs; intros i Hi; rewrite Rabs_mult; apply Rmult_le_compat; (apply Rabs_pos || by apply HS)).
      apply Rabs_le_inv in B. pose proof (Rle_0_sqr (rsum (x_of s) n)) as Sq. unfold Rsqr in Sq. apply Rmult_le_reg_l with (INR n); [done|]. rewrite <- V.
      assert (INR n * rsum (λ i, x_of s i * x_of s i) n <= INR n * (INR n * (MS * MS))) by (apply Rmult_le_compat_l; lra). lra. }
    assert (0 < INR n * (MS * MS)) as P by (apply Rmult_lt_0_compat; [done|apply Rmult_lt_0_compat; lra]). apply Rmult_le_reg_r with (INR n * (MS * MS)); [done|]. lra. }
  destruct (gcross_ok dataS dataL n sizeL delay0 s l MS ML tau Hn Hsize HMS HML HS HL Htau Htau1 (LS _ _ HlS)) as (dl & c & E & H).
  { intros d Hd. apply LS. apply HlL. lia. }
  destruct H as [[Z _]|(d & r & Hd & -> & [Fc Ec] & Nd & Mx)]; [lia|]. exists (Z.of_nat d), c. rewrite Nat2Z.id. split; [done|]. split; [lia|]. split; [done|]. subst r. unfold near, delta in *. fold accuracy in *.
  change (pearson (λ i, B2R (s i)) (λ i, B2R (l (d + i)%nat)) n) with (rho n s l d) in *. assert (0 < accuracy) as Pa by (apply Rdiv_lt_0_compat; lra).
  assert (∀ a b, Rabs (a - b) <= accuracy → Rabs a <= Rabs b + accuracy ∧ Rabs b <= Rabs a + accuracy) as Tri.
  { intros a b Hab. pose proof (Rabs_triang_inv a b). pose proof (Rabs_triang_inv b a) as T2. rewrite (Rabs_minus_sym b a) in T2. lra. }
  assert (Rabs (rho n s l d) <= 1) as R1.
  { apply Rabs_le. apply pearson_bound; [done| |]; intros C; apply variance_zero in C; try done.
    - pose proof (LS _ _ HlS) as K. unfold strong in K. rewrite C in K. assert (0 < tau * INR n * (MS * MS)); [|lra]. apply Rmult_lt_0_compat; [apply Rmult_lt_0_compat; lra|apply Rmult_lt_0_compat; lra].
    - pose proof (LS _ _ (HlL d ltac:(lia))) as K. unfold strong in K. rewrite C in K. assert (0 < tau * INR n * (ML * ML)); [|lra]. apply Rmult_lt_0_compat; [apply Rmult_lt_0_compat; lra|apply Rmult_lt_0_compat; lra]. }
  split; [exact Nd|]. destruct (Tri _ _ Nd) as [T1 T2]. split; [lra|]. intros e He. destruct (Mx e) as (q & Nq & Lq); [lia|]. destruct (Tri _ _ Nq) as [_ T3]. change (pearson (λ i, B2R (s i)) (λ i, B2R (l (e + i)%nat)) n) with (rho n s l e) in *. lra.
Qed.
(** C87: a lag that is better than all others by more than twice the accuracy is found. *)
Theorem C87_general_found (d : nat) : (d ≤ sizeL - n)%Z → (∀ e : nat, (e ≤ sizeL - n)%Z → e ≠ d → Rabs (rho n s l e) + 2 * accuracy < Rabs (rho n s l d)) →
  ∃ c, dcross_correlation dataS dataL n sizeL delay0 = Some (of_Z d, c) ∧ is_finite c = true ∧ Rabs (B2R c - rho n s l d) <= accuracy.
Proof using Hn Hsize HMS HML HS HL Htau HlS HlL.
  intros Hd H. destruct C87_general as (d' & c & E & Ld & F & C & _ & M). destruct (decide (Z.to_nat d' = d)) as [Q|N]; [exists c; subst d; by rewrite Z2Nat.id by lia|].
  specialize (M d Hd). specialize (H (Z.to_nat d') ltac:(lia) N). lra.
Qed.
(** C87: a window equal to the short trace up to a gain and an offset is found, if no other is close to this. *)
Theorem C87_general_match (d : nat) a b : (d ≤ sizeL - n)%Z → a ≠ 0 → (∀ i, (i < n)%nat → w_of l d i = a * x_of s i + b) →
  (∀ e : nat, (e ≤ sizeL - n)%Z → e ≠ d → Rabs (rho n s l e) < 1 - 2 * accuracy) →
  ∃ c, dcross_correlation dataS dataL n sizeL delay0 = Some (of_Z d, c) ∧ is_finite c = true ∧ Rabs (B2R c - (if Rlt_dec 0 a then 1 else -1)) <= accuracy.
Proof using Hn Hsize HMS HML HS HL Htau HlS HlL.
  intros Hd Ha Hw H. pose proof (INR_pos' n Hn) as PN. pose proof (bpow_gt_0 radix2 (-400)) as Pb. assert (0 < IZR (sizeL + 1) / 2 ^ 53) as Pv by (apply Rdiv_lt_0_compat; [apply IZR_lt; lia|lra]).
  assert (¬ constant (x_of s) n) as C1. { intros C. apply variance_zero in C; [|done]. pose proof HlS as K. unfold lively in K. rewrite C in K. unfold Rdiv in K. rewrite Rmult_0_l in K. assert (0 < tau * (MS * MS)); [|lra]. apply Rmult_lt_0_compat; [lra|apply Rmult_lt_0_compat; lra]. }
  assert (rho n s l d = if Rlt_dec 0 a then 1 else -1) as R. { unfold rho. rewrite (pearson_ext (x_of s) (x_of s) (w_of l d) (λ i, a * x_of s i + b) n) by done. by apply pearson_affine. }
  rewrite <- R. apply C87_general_found; [done|]. assert (Rabs (rho n s l d) = 1) as R1. { rewrite R. destruct (Rlt_dec 0 a); [apply Rabs_R1|rewrite Rabs_left; lra]. }
  intros e He Ne. rewrite R1. specialize (H e He Ne). lra.
Qed.
End props.

(** ** The hypotheses are met *)
(** Samples for which the products and sums are not exact *)
Example C87_general_example : ∃ c, run [1; 10 ^ 9; 0]%Z [1; 10 ^ 9; 0; 1]%Z = Some (of_Z 0, c) ∧ is_finite c = true ∧ Rabs (B2R c - 1) <= / 10 ^ 11.
Proof.
  set (S := [1; 10 ^ 9; 0]%Z). set (L := [1; 10 ^ 9; 0; 1]%Z). set (s := λ i : nat, of_Z (nth i S 0%Z)). set (l := λ i : nat, of_Z (nth i L 0%Z)).
  assert (∀ z, (0 ≤ z ≤ 10 ^ 9)%Z → is_finite (of_Z z) = true ∧ B2R (of_Z z) = IZR z ∧ Rabs (B2R (of_Z z)) <= 1000000000) as G.
  { intros z Hz. destruct (of_Z_val z ltac:(lia)) as [F E]. split; [done|]. split; [done|]. rewrite E, Rabs_pos_eq by (apply IZR_le; lia). apply IZR_le. lia. }
  assert (∀ i, (0 ≤ nth i S 0 ≤ 10 ^ 9)%Z) as BS by (intros i; do 3 (destruct i as [|i]; [cbn; lia|]); destruct i; cbn; lia).
  assert (∀ i, (0 ≤ nth i L 0 ≤ 10 ^ 9)%Z) as BL by (intros i; do 4 (destruct i as [|i]; [cbn; lia|]); destruct i; cbn; lia).
  assert (∀ i, x_of s i = IZR (nth i S 0%Z)) as Ex by (intros i; apply G, BS). assert (∀ d i, w_of l d i = IZR (nth (d + i) L 0%Z)) as Ew by (intros d i; apply G, BL).
  assert (2 ^ 53 = 9007199254740992) as P53 by (rewrite pow_IZR; reflexivity).
  assert (b2 (-400) <= 1000000000 <= b2 400) as HM. { split; [apply Rle_trans with (b2 0); [apply bpow_le; lia|change (b2 0) with 1; lra]|apply Rle_trans with (b2 30); [change (b2 30) with 1073741824; lra|apply bpow_le; lia]]. }
  assert (accuracy 4 (/ 8) <= / 10 ^ 11) as Acc. { unfold accuracy. rewrite P53. replace (IZR (4 + 1)) with 5 by (f_equal; lia). lra. }
  destruct (C87_general_match (readd S) (readd L) 3 4 zero s l 1000000000 1000000000 (/ 8) ltac:(lia) ltac:(lia) HM HM) with (d := 0%nat) (a := 1) (b := 0) as (c & E & F & C).
  - intros i Hi. destruct i as [|[|[|i]]]; [| | |lia]; (split; [done|]); split; apply G; cbn; lia.
  - intros i Hi. do 4 (destruct i as [|i]; [split; [done|]; split; apply G; cbn; lia|]). lia.
  - rewrite P53. replace (IZR (4 + 1)) with 5 by (f_equal; lia). lra.
  - unfold lively, dev, mean, square. cbn [rsum]. rewrite !Ex. cbn [nth S]. replace (INR 3) with 3 by (cbn; lra). lra.
  - intros d Hd. unfold lively, dev, mean, square. cbn [rsum]. rewrite !Ew. replace (INR 3) with 3 by (cbn; lra). destruct d as [|[|d]]; [cbn [nth L plus]; lra|cbn [nth L plus]; lra|lia].
  - lia.
  - lra.
  - intros i Hi. rewrite Ex, Ew. destruct i as [|[|[|i]]]; [cbn [nth S L plus]; lra|cbn [nth S L plus]; lra|cbn [nth S L plus]; lra|lia].
  - intros e Le Ne. assert (e = 1%nat) as -> by lia. unfold rho. rewrite (pearson_ext _ (λ i, IZR (nth i S 0%Z)) _ (λ i, IZR (nth (1 + i) L 0%Z))) by (intros; auto).
    unfold pearson, dev, mean, square. cbn [rsum nth S L plus]. replace (INR 3) with 3 by (cbn; lra).
    match goal with |- Rabs (_ / (R_sqrt.sqrt ?p * R_sqrt.sqrt ?q)) < _ => replace q with p by lra; rewrite (sqrt_sqrt p) by lra end. apply Rabs_lt. split; [apply Rmult_lt_reg_r with 1|]; lra.
  - destruct (Rlt_dec 0 1) as [_|N]; [|lra]. exists c. split; [exact E|]. split; [exact F|]. lra.
Qed.
Print Assumptions C87_general.
Print Assumptions C87_general_found.
Print Assumptions C87_general_match.
