(** Cross-correlation (C06, C07, C08). *)
From Coq Require Import Reals Lra.
From stdpp Require Import numbers list.
From Verif Require Import Geo_Model XCorr_Model.
Local Open Scope R_scope.
Local Coercion Z.of_nat : nat >-> Z.

(** ** Specification: the correlation coefficient of two samples of length n *)
Fixpoint rsum (f : nat → R) (n : nat) : R := match n with O => 0 | S k => rsum f k + f k end.
Definition mean (x : nat → R) (n : nat) : R := rsum x n / INR n.
Definition dev (x : nat → R) (n i : nat) : R := x i - mean x n.
Definition pearson (x y : nat → R) (n : nat) : R :=
  rsum (λ i, dev x n i * dev y n i) n /
  (R_sqrt.sqrt (rsum (λ i, square (dev x n i)) n) * R_sqrt.sqrt (rsum (λ i, square (dev y n i)) n)).
Definition constant (x : nat → R) (n : nat) : Prop := ∀ i j, (i < n)%nat → (j < n)%nat → x i = x j.

(** ** Sums *)
Lemma rsum_ext f g n : (∀ i, (i < n)%nat → f i = g i) → rsum f n = rsum g n.
Proof. induction n as [|n IH]; intros H; cbn [rsum]; [done|]. rewrite IH, H; [done|lia|]. intros i Hi. apply H. lia. Qed.
Lemma rsum_plus f g n : rsum (λ i, f i + g i) n = rsum f n + rsum g n.
Proof. induction n as [|n IH]; cbn [rsum]; [lra|]. rewrite IH. lra. Qed.
Lemma rsum_scale c f n : rsum (λ i, c * f i) n = c * rsum f n.
Proof. induction n as [|n IH]; cbn [rsum]; [lra|]. rewrite IH. lra. Qed.
Lemma rsum_const c n : rsum (λ _, c) n = INR n * c.
Proof. induction n as [|n IH]; cbn [rsum]; [cbn; lra|]. rewrite IH, S_INR. lra. Qed.
Lemma rsum_nonneg f n : (∀ i, (i < n)%nat → 0 <= f i) → 0 <= rsum f n.
Proof. induction n as [|n IH]; intros H; cbn [rsum]; [lra|]. assert (0 <= rsum f n) by (apply IH; intros i Hi; apply H; lia). assert (0 <= f n) by (apply H; lia). lra. Qed.
Lemma rsum_zero f n : (∀ i, (i < n)%nat → 0 <= f i) → rsum f n = 0 → ∀ i, (i < n)%nat → f i = 0.
Proof.
  induction n as [|n IH]; intros H E i Hi; [lia|]. cbn [rsum] in E. assert (0 <= rsum f n) as H1 by (apply rsum_nonneg; intros j Hj; apply H; lia).
  assert (0 <= f n) as H2 by (apply H; lia). destruct (decide (i = n)) as [->|N]; [lra|]. apply IH; [intros j Hj; apply H; lia|lra|lia].
Qed.
Lemma rsum_shift f n : rsum f (S n) = f 0%nat + rsum (λ i, f (S i)) n.
Proof. induction n as [|n IH]; [cbn; lra|]. cbn [rsum] in *. lra. Qed.

Lemma cauchy_schwarz f g n : square (rsum (λ i, f i * g i) n) <= rsum (λ i, square (f i)) n * rsum (λ i, square (g i)) n.
Proof.
  induction n as [|n IH]; cbn [rsum]; [unfold square; lra|].
  assert (0 <= rsum (λ i, square (f i)) n) as HA by (apply rsum_nonneg; intros; unfold square; nra).
  assert (0 <= rsum (λ i, square (g i)) n) as HB by (apply rsum_nonneg; intros; unfold square; nra).
  set (A := rsum (λ i, square (f i)) n) in *. set (B := rsum (λ i, square (g i)) n) in *. set (T := rsum (λ i, f i * g i) n) in *.
  set (a := f n). set (b := g n). unfold square in *.
  assert (2 * (a * b * T) <= a * a * B + b * b * A) as K.
  2: { replace ((T + a * b) * (T + a * b)) with (T * T + 2 * (a * b * T) + a * a * (b * b)) by ring.
       replace ((A + a * a) * (B + b * b)) with (A * B + (a * a * B + b * b * A) + a * a * (b * b)) by ring. lra. }
  assert (0 <= a * a * B) as P1 by (apply Rmult_le_pos; [nra|done]). assert (0 <= b * b * A) as P2 by (apply Rmult_le_pos; [nra|done]).
  destruct (Rle_dec (2 * (a * b * T)) 0) as [|N]; [lra|]. apply Rsqr_incr_0_var; [|lra]. unfold Rsqr.
  assert ((a * a) * (b * b) * (T * T) <= (a * a) * (b * b) * (A * B)) as M by (apply Rmult_le_compat_l; [nra|done]).
  assert (0 <= (a * a * B - b * b * A) * (a * a * B - b * b * A)) as Q by (apply Rle_0_sqr).
  replace (2 * (a * b * T) * (2 * (a * b * T))) with (4 * ((a * a) * (b * b) * (T * T))) by ring.
  replace ((a * a * B + b * b * A) * (a * a * B + b * b * A)) with ((a * a * B - b * b * A) * (a * a * B - b * b * A) + 4 * ((a * a) * (b * b) * (A * B))) by ring. lra.
Qed.

Section moments.
Context (x y : nat → R) (n : nat).
Hypothesis Hn : (0 < n)%nat.
Lemma INR_pos' : 0 < INR n. Proof using Hn. by apply lt_0_INR. Qed.
Lemma mean_sum : INR n * mean x n = rsum x n.
Proof using Hn. unfold mean. pose proof INR_pos'. field. lra. Qed.
Lemma covariance_sum : rsum (λ i, dev x n i * dev y n i) n = rsum (λ i, x i * y i) n - INR n * mean x n * mean y n.
Proof using Hn.
  unfold dev. rewrite (rsum_ext _ (λ i, (x i * y i + (- mean y n) * x i) + ((- mean x n) * y i + mean x n * mean y n))) by (intros; ring).
  rewrite !rsum_plus, !rsum_scale, rsum_const. pose proof INR_pos' as H.
  assert (rsum y n = INR n * mean y n) as -> by (unfold mean; field; lra). assert (rsum x n = INR n * mean x n) as -> by (unfold mean; field; lra). ring.
Qed.
Lemma covariance_scaled : INR n * rsum (λ i, x i * y i) n - rsum x n * rsum y n = INR n * rsum (λ i, dev x n i * dev y n i) n.
Proof using Hn.
  rewrite covariance_sum. pose proof INR_pos' as H. assert (rsum y n = INR n * mean y n) as -> by (unfold mean; field; lra). assert (rsum x n = INR n * mean x n) as -> by (unfold mean; field; lra). ring.
Qed.
End moments.
Lemma variance_scaled x n : (0 < n)%nat → INR n * rsum (λ i, x i * x i) n - rsum x n * rsum x n = INR n * rsum (λ i, square (dev x n i)) n.
Proof. intros Hn. rewrite (covariance_scaled x x n Hn). done. Qed.
Lemma variance_nonneg x n : 0 <= rsum (λ i, square (dev x n i)) n.
Proof. apply rsum_nonneg. intros. unfold square. nra. Qed.
Lemma variance_zero x n : (0 < n)%nat → rsum (λ i, square (dev x n i)) n = 0 ↔ constant x n.
Proof.
  intros Hn. pose proof (INR_pos' n Hn) as HI. split.
  - intros E i j Hi Hj. assert (∀ k, (k < n)%nat → dev x n k = 0) as K.
    { intros k Hk. assert (square (dev x n k) = 0) as Z by (apply (rsum_zero (λ i, square (dev x n i)) n); [intros; unfold square; nra|done|done]). unfold square in Z. nra. }
    pose proof (K i Hi) as Ki. pose proof (K j Hj) as Kj. unfold dev in *. lra.
  - intros C. assert (mean x n = x 0%nat) as M.
    { unfold mean. rewrite (rsum_ext x (λ _, x 0%nat)) by (intros i Hi; apply C; lia). rewrite rsum_const. field. lra. }
    rewrite (rsum_ext _ (λ _, 0)); [rewrite rsum_const; ring|]. intros i Hi. unfold dev, square. rewrite M, (C i 0%nat) by lia. ring.
Qed.
Lemma constant_dec x n : (0 < n)%nat → constant x n ∨ ¬ constant x n.
Proof. intros Hn. rewrite <- (variance_zero x n Hn). destruct (Req_EM_T (rsum (λ i, square (dev x n i)) n) 0); [by left|by right]. Qed.

(** The coefficient computed from the sums. *)
Definition coefficient (x y : nat → R) (n : nat) : coef :=
  quotient (INR n * rsum (λ i, x i * y i) n - rsum x n * rsum y n)
    (R_sqrt.sqrt (INR n * rsum (λ i, x i * x i) n - rsum x n * rsum x n) * R_sqrt.sqrt (INR n * rsum (λ i, y i * y i) n - rsum y n * rsum y n)).
Theorem C06_coefficient x y n : (0 < n)%nat →
  (¬ constant x n → ¬ constant y n → coefficient x y n = Fin (pearson x y n)) ∧
  (constant x n ∨ constant y n → coefficient x y n = NotANumber).
Proof.
  intros Hn. unfold coefficient. rewrite (covariance_scaled x y n Hn), (variance_scaled x n Hn), (variance_scaled y n Hn).
  rewrite <- (variance_zero x n Hn), <- (variance_zero y n Hn). pose proof (INR_pos' n Hn) as HI.
  pose proof (variance_nonneg x n) as VX. pose proof (variance_nonneg y n) as VY. pose proof (cauchy_schwarz (dev x n) (dev y n) n) as CS.
  unfold pearson. set (A := rsum (λ i, square (dev x n i)) n) in *. set (B := rsum (λ i, square (dev y n i)) n) in *. set (T := rsum (λ i, dev x n i * dev y n i) n) in *.
  rewrite !sqrt_mult by lra. pose proof (sqrt_sqrt (INR n) ltac:(lra)) as SN. pose proof (sqrt_lt_R0 _ HI) as SP.
  assert (R_sqrt.sqrt (INR n) * R_sqrt.sqrt A * (R_sqrt.sqrt (INR n) * R_sqrt.sqrt B) = INR n * (R_sqrt.sqrt A * R_sqrt.sqrt B)) as ->.
  { rewrite <- SN at 3. ring. }
  unfold quotient. split.
  - intros NA NB. pose proof (sqrt_lt_R0 A ltac:(lra)) as PA. pose proof (sqrt_lt_R0 B ltac:(lra)) as PB.
    pose proof (Rmult_lt_0_compat _ _ PA PB) as PAB. pose proof (Rmult_lt_0_compat _ _ HI PAB) as PN.
    destruct (Req_EM_T (INR n * (R_sqrt.sqrt A * R_sqrt.sqrt B)) 0) as [E|_]; [lra|]. f_equal. field. split; [lra|]. split; lra.
  - intros HZ. assert (R_sqrt.sqrt A * R_sqrt.sqrt B = 0) as ->. { destruct HZ as [-> | ->]; rewrite sqrt_0; ring. }
    rewrite Rmult_0_r. destruct (Req_EM_T 0 0) as [_|N]; [|done]. assert (T = 0) as ->. { unfold square in CS. assert (A * B = 0) by (destruct HZ as [-> | ->]; ring). nra. }
    rewrite Rmult_0_r. destruct (Req_EM_T 0 0) as [_|N]; [done|done].
Qed.
Lemma pearson_bound x y n : (0 < n)%nat → ¬ constant x n → ¬ constant y n → -1 <= pearson x y n <= 1.
Proof.
  intros Hn. rewrite <- (variance_zero x n Hn), <- (variance_zero y n Hn). pose proof (variance_nonneg x n) as VX. pose proof (variance_nonneg y n) as VY.
  pose proof (cauchy_schwarz (dev x n) (dev y n) n) as CS. unfold pearson.
  set (A := rsum (λ i, square (dev x n i)) n) in *. set (B := rsum (λ i, square (dev y n i)) n) in *. set (T := rsum (λ i, dev x n i * dev y n i) n) in *.
  intros NA NB. pose proof (sqrt_lt_R0 A ltac:(lra)) as PA. pose proof (sqrt_lt_R0 B ltac:(lra)) as PB. pose proof (Rmult_lt_0_compat _ _ PA PB) as PAB.
  pose proof (sqrt_sqrt A VX) as SA. pose proof (sqrt_sqrt B VY) as SB. set (p := R_sqrt.sqrt A) in *. set (q := R_sqrt.sqrt B) in *.
  assert (T * T <= (p * q) * (p * q)) as M by (unfold square in CS; nra).
  split; [apply (Rmult_le_reg_r (p * q)); [done|]|apply (Rmult_le_reg_r (p * q)); [done|]];
    unfold Rdiv; rewrite Rmult_assoc, Rinv_l by lra; nra.
Qed.
Lemma pearson_sym x y n : pearson x y n = pearson y x n.
Proof. unfold pearson. f_equal; [apply rsum_ext; intros; ring|]. apply Rmult_comm. Qed.
Lemma coefficient_sym x y n : coefficient x y n = coefficient y x n.
Proof.
  unfold coefficient. rewrite (rsum_ext (λ i, x i * y i) (λ i, y i * x i)) by (intros; ring).
  f_equal; ring.
Qed.

(** ** The loops *)
Lemma loop_app {A} (f : A → nat → option A) l1 l2 a : loop f (l1 ++ l2) a = b ← loop f l1 a; loop f l2 b.
Proof. revert a. induction l1 as [|i l1 IH]; intros a; cbn [loop app]; [done|]. destruct (f a i) as [b|]; cbn [mbind option_bind]; [apply IH|done]. Qed.
Lemma loop_S {A} (f : A → nat → option A) n a : loop f (seq 0 (S n)) a = b ← loop f (seq 0 n) a; f b n.
Proof. rewrite seq_S, loop_app. destruct (loop f (seq 0 n) a) as [b|]; cbn; [|done]. by destruct (f b n). Qed.

Section correct.
Context (dataS dataL : Z → option R) (n : nat) (sizeL : Z) (delay0 : R) (X Y : nat → R).
Hypothesis Hn : (0 < n)%nat.
Hypothesis Hsize : (n ≤ sizeL)%Z.
Hypothesis HS : ∀ i : nat, (i < n)%nat → dataS i = Some (X i).
Hypothesis HL : ∀ i : nat, (i < sizeL)%Z → dataL i = Some (Y i).
Let win (d i : nat) : R := Y (d + i)%nat.

Lemma prepare_ok : prepare dataS dataL n =
  Some (Sums (rsum X n) (rsum (λ i, X i * X i) n) (rsum Y (n - 1)) (rsum (λ i, Y i * Y i) (n - 1))).
Proof using Hn Hsize HS HL.
  unfold prepare. assert (∀ k, (k ≤ n)%nat → loop (prepare_step dataS dataL n) (seq 0 k) (Sums 0 0 0 0) =
    Some (Sums (rsum X k) (rsum (λ i, X i * X i) k) (rsum Y (min k (n - 1))) (rsum (λ i, Y i * Y i) (min k (n - 1))))) as K.
  { intros k. induction k as [|k IH]; intros Hk; [done|]. rewrite loop_S, IH by lia. cbn [mbind option_bind]. unfold prepare_step. rewrite HS by lia. cbn [mbind option_bind XCorr_Model.sumS XCorr_Model.sumS2 XCorr_Model.sumL XCorr_Model.sumL2].
    destruct (decide (n - 1 ≤ k)%Z) as [Hd|Hd].
    - replace (min k (n - 1)) with (n - 1)%nat by lia. replace (min (S k) (n - 1)) with (n - 1)%nat by lia. done.
    - rewrite HL by lia. cbn [mbind option_bind]. replace (min k (n - 1)) with k by lia. replace (min (S k) (n - 1)) with (S k) by lia. done. }
  rewrite K by lia. replace (min n (n - 1)) with (n - 1)%nat by lia. done.
Qed.
Lemma inner_ok (d : nat) : (d + n ≤ sizeL)%Z → inner dataS dataL n d = Some (rsum (λ i, X i * win d i) n).
Proof using Hn Hsize HS HL.
  intros Hd. unfold inner. set (f := λ (sumSL : R) (i : nat), _).
  assert (∀ k, (k ≤ n)%nat → loop f (seq 0 k) 0 = Some (rsum (λ i, X i * win d i) k)) as K; [|apply K; lia].
  intros k. induction k as [|k IH]; intros Hk; [done|]. rewrite loop_S, IH by lia. cbn [mbind option_bind]. unfold f. rewrite HS by lia. cbn [mbind option_bind].
  replace (k + d)%Z with (Z.of_nat (d + k)) by lia. rewrite HL by lia. cbn [mbind option_bind rsum]. done.
Qed.
(** The state after k delays *)
Definition best (k : nat) (c : coef) (dl : R) : Prop :=
  match c with
  | Fin r => ∃ d, (d < k)%nat ∧ dl = INR d ∧ coefficient X (win d) n = Fin r ∧
      (∀ e r', (e < k)%nat → coefficient X (win e) n = Fin r' → Rabs r' <= Rabs r) ∧
      (∀ e r', (e < d)%nat → coefficient X (win e) n = Fin r' → Rabs r' < Rabs r)
  | NotANumber => (∀ e, (e < k)%nat → coefficient X (win e) n = NotANumber) ∧ dl = (if decide (k = 0)%nat then delay0 else INR (k - 1))
  | Infinite => False
  end.
Lemma delays_ok (k : nat) : (k + n ≤ sizeL + 1)%Z →
  ∃ a, loop (delay_step dataS dataL n (rsum X n) (R_sqrt.sqrt (INR n * rsum (λ i, X i * X i) n - rsum X n * rsum X n)))
     (seq 0 k) (Acc (rsum Y (n - 1)) (rsum (λ i, Y i * Y i) (n - 1)) 0 NotANumber delay0) = Some a ∧
    a_sumL a - a_last a = rsum (win k) (n - 1) ∧ a_sumL2 a - a_last a * a_last a = rsum (λ i, win k i * win k i) (n - 1) ∧
    best k (a_coeff a) (a_delay a).
Proof using Hn Hsize HS HL.
  induction k as [|k IH]; intros Hk.
  - eexists. split; [reflexivity|]. cbn [a_sumL a_last a_sumL2 a_coeff a_delay]. split; [|split].
    + rewrite Rminus_0_r. done.
    + rewrite Rmult_0_r, Rminus_0_r. done.
    + cbn. split; [intros e He; lia|done].
  - destruct IH as (a & E & I1 & I2 & I3); [lia|]. rewrite loop_S, E. cbn [mbind option_bind]. unfold delay_step at 1.
    replace (k + n - 1)%Z with (Z.of_nat (k + (n - 1))) by lia. rewrite HL by lia. cbn [mbind option_bind]. rewrite HL by lia. cbn [mbind option_bind].
    rewrite inner_ok by lia. cbn [mbind option_bind].
    assert (rsum (win k) n = a_sumL a + (Y (k + (n - 1))%nat - a_last a)) as S1.
    { destruct n as [|m]; [lia|]. cbn [rsum]. replace (S m - 1)%nat with m in * by lia. rewrite <- I1. unfold win. ring. }
    assert (rsum (λ i, win k i * win k i) n = a_sumL2 a + (Y (k + (n - 1))%nat * Y (k + (n - 1))%nat - a_last a * a_last a)) as S2.
    { destruct n as [|m]; [lia|]. cbn [rsum]. replace (S m - 1)%nat with m in * by lia. rewrite <- I2. unfold win. ring. }
    rewrite <- S1, <- S2. fold (coefficient X (win k) n).
    assert (rsum (win k) n - Y k = rsum (win (S k)) (n - 1)) as S3.
    { destruct n as [|m]; [lia|]. rewrite rsum_shift. replace (S m - 1)%nat with m by lia. unfold win. rewrite Nat.add_0_r.
      rewrite (rsum_ext (λ i, Y (k + S i)%nat) (λ i, Y (S k + i)%nat)) by (intros; f_equal; lia). ring. }
    assert (rsum (λ i, win k i * win k i) n - Y k * Y k = rsum (λ i, win (S k) i * win (S k) i) (n - 1)) as S4.
    { destruct n as [|m]; [lia|]. rewrite rsum_shift. replace (S m - 1)%nat with m by lia. unfold win. rewrite Nat.add_0_r.
      rewrite (rsum_ext (λ i, Y (k + S i)%nat * Y (k + S i)%nat) (λ i, Y (S k + i)%nat * Y (S k + i)%nat)) by (intros; do 2 f_equal; lia). ring. }
    assert (coefficient X (win k) n ≠ Infinite) as NI.
    { destruct (C06_coefficient X (win k) n Hn) as [C1 C2]. destruct (constant_dec X n Hn) as [CX|CX]; [rewrite C2; [done|by left]|].
      destruct (constant_dec (win k) n Hn) as [CY|CY]; [rewrite C2; [done|by right]|]. rewrite C1; done. }
    destruct (negb (is_finite (a_coeff a)) || abs_gt (coefficient X (win k) n) (a_coeff a)) eqn:B.
    + eexists. split; [reflexivity|]. cbn [a_sumL a_last a_sumL2 a_coeff a_delay]. split; [done|]. split; [done|].
      destruct (coefficient X (win k) n) as [r| |] eqn:EC; [| |done]; cbn [best].
      * exists k. split; [lia|]. split; [done|]. split; [done|].
        assert (∀ e r', (e < k)%nat → coefficient X (win e) n = Fin r' → Rabs r' < Rabs r) as LT.
        { intros e r' He Ee. destruct (a_coeff a) as [r0| |]; [|destruct I3 as [I3 _]; specialize (I3 e He); congruence|done].
          cbn in B. destruct (Rlt_dec (Rabs r0) (Rabs r)); [|done]. destruct I3 as (d & _ & _ & _ & I3 & _). specialize (I3 e r' He Ee). lra. }
        split; [|done]. intros e r' He Ee. destruct (decide (e = k)) as [->|N]; [assert (r' = r) as -> by congruence; lra|]. apply Rlt_le, (LT e); [lia|done].
      * destruct (a_coeff a) as [r0| |]; [discriminate B| |done]. destruct I3 as [I3 I3']. split.
        -- intros e He. destruct (decide (e = k)) as [->|N]; [done|]. apply I3. lia.
        -- rewrite decide_False by lia. f_equal. lia.
    + eexists. split; [reflexivity|]. cbn [a_sumL a_last a_sumL2 a_coeff a_delay]. split; [done|]. split; [done|].
      destruct (a_coeff a) as [r0| |]; [|discriminate B|done]. cbn in B. destruct I3 as (d & Hd & Ed & Er & Mx & Fs). exists d. split; [lia|]. split; [done|]. split; [done|]. split; [|done].
      intros e r' He Ee. destruct (decide (e = k)) as [->|N]; [|apply (Mx e); [lia|done]]. rewrite Ee in B. cbn in B.
      destruct (Rlt_dec (Rabs r0) (Rabs r')); [discriminate B|lra].
Qed.

(** C06, C07: in bounds, nothing else is read; the result is the first lag of largest
    absolute correlation coefficient, among the windows which are not constant. *)
Theorem C07_first_maximum :
  ∃ delay c, cross_correlation dataS dataL n sizeL delay0 = Some (delay, c) ∧
  let lags d := (Z.of_nat d ≤ sizeL - n)%Z in
  let rho d := pearson X (win d) n in
  let defined d := lags d ∧ ¬ constant X n ∧ ¬ constant (win d) n in
  ((∃ d, defined d) →
     ∃ d, defined d ∧ delay = INR d ∧ c = Fin (rho d) ∧
       (∀ e, defined e → Rabs (rho e) <= Rabs (rho d)) ∧ (∀ e, (e < d)%nat → defined e → Rabs (rho e) < Rabs (rho d))) ∧
  (¬ (∃ d, defined d) → c = NotANumber).
Proof using Hn Hsize HS HL.
  destruct (delays_ok (Z.to_nat (sizeL - n + 1))) as (a & E & _ & _ & B); [lia|].
  exists (a_delay a), (a_coeff a). split.
  { unfold cross_correlation. rewrite prepare_ok. cbn [mbind option_bind XCorr_Model.sumS XCorr_Model.sumS2 XCorr_Model.sumL XCorr_Model.sumL2].
    rewrite E. done. }
  intros lags rho defined.
  assert (∀ d, defined d → (d < Z.to_nat (sizeL - n + 1))%nat ∧ coefficient X (win d) n = Fin (rho d)) as D1.
  { intros d (L & N1 & N2). split; [unfold lags in L; lia|]. by apply C06_coefficient. }
  assert (∀ d r, (d < Z.to_nat (sizeL - n + 1))%nat → coefficient X (win d) n = Fin r → defined d ∧ r = rho d) as D2.
  { intros d r L Ed. destruct (C06_coefficient X (win d) n Hn) as [C1 C2].
    destruct (constant_dec X n Hn) as [CX|CX]; [rewrite C2 in Ed; [done|by left]|]. destruct (constant_dec (win d) n Hn) as [CY|CY]; [rewrite C2 in Ed; [done|by right]|].
    split; [split; [unfold lags; lia|done]|]. rewrite C1 in Ed by done. by injection Ed. }
  split.
  - intros [d0 H0]. destruct (a_coeff a) as [r| |]; [| |done].
    + destruct B as (d & Hd & Ed & Er & Mx & Fs). destruct (D2 d r Hd Er) as [Dd ->]. exists d. split; [done|]. split; [done|]. split; [done|]. split.
      * intros e He. destruct (D1 e He) as [L Ee]. by apply (Mx e).
      * intros e Hed He. destruct (D1 e He) as [L Ee]. by apply (Fs e).
    + destruct B as [B _]. destruct (D1 d0 H0) as [L Ed]. specialize (B d0 L). congruence.
  - intros N. destruct (a_coeff a) as [r| |]; [|done|done]. destruct B as (d & Hd & Ed & Er & _). exfalso. apply N. exists d. by eapply D2.
Qed.
Theorem C06_bounded : ∀ delay r, cross_correlation dataS dataL n sizeL delay0 = Some (delay, Fin r) → -1 <= r <= 1.
Proof using Hn Hsize HS HL.
  intros delay r E. destruct C07_first_maximum as (delay' & c & E' & H). rewrite E in E'. injection E' as <- <-. cbn zeta in H. destruct H as [H1 H2].
  destruct (constant_dec X n Hn) as [CX|CX]; [assert (Fin r = NotANumber) as K0 by (apply H2; intros (d & _ & K & _); done); discriminate K0|].
  assert ((∃ d, (Z.of_nat d ≤ sizeL - n)%Z ∧ ¬ constant X n ∧ ¬ constant (win d) n) ∨ ¬ (∃ d, (Z.of_nat d ≤ sizeL - n)%Z ∧ ¬ constant X n ∧ ¬ constant (win d) n)) as [P|P] by (apply Classical_Prop.classic); [|by specialize (H2 P)].
  destruct (H1 P) as (d & (_ & _ & CY) & _ & [= ->] & _). by apply pearson_bound.
Qed.
(** C06: at every lag the value compared is the correlation coefficient of the short trace
    with the window, from the sums carried along by the loop. *)
Theorem C06_rolling (d : nat) : (d + n ≤ sizeL)%Z →
  ∃ a, loop (delay_step dataS dataL n (rsum X n) (R_sqrt.sqrt (INR n * rsum (λ i, X i * X i) n - rsum X n * rsum X n)))
     (seq 0 (S d)) (Acc (rsum Y (n - 1)) (rsum (λ i, Y i * Y i) (n - 1)) 0 NotANumber delay0) = Some a ∧
    a_sumL a = rsum (win d) n ∧ a_sumL2 a = rsum (λ i, square (win d i)) n.
Proof using Hn Hsize HS HL.
  intros Hd. destruct (delays_ok d) as (a & E & I1 & I2 & _); [lia|].
  destruct (delays_ok (S d)) as (b & Eb & J1 & J2 & _); [lia|]. exists b. split; [done|].
  assert (a_last b = Y d) as El.
  { rewrite loop_S, E in Eb. cbn [mbind option_bind] in Eb. unfold delay_step in Eb. replace (d + n - 1)%Z with (Z.of_nat (d + (n - 1))) in Eb by lia.
    rewrite HL in Eb by lia. cbn [mbind option_bind] in Eb. rewrite HL in Eb by lia. cbn [mbind option_bind] in Eb. rewrite inner_ok in Eb by lia. cbn [mbind option_bind] in Eb.
    destruct (_ || _) in Eb; injection Eb as <-; done. }
  rewrite El in J1, J2. destruct n as [|m]; [lia|]. replace (S m - 1)%nat with m in * by lia. rewrite !rsum_shift. unfold win in *. rewrite Nat.add_0_r.
  rewrite (rsum_ext (λ i, Y (d + S i)%nat) (λ i, Y (S d + i)%nat)) by (intros; f_equal; lia).
  rewrite (rsum_ext (λ i, square (Y (d + S i)%nat)) (λ i, Y (S d + i)%nat * Y (S d + i)%nat)) by (intros; unfold square; do 2 f_equal; lia).
  unfold square. split; lra.
Qed.
End correct.
Print Assumptions C06_coefficient.
Print Assumptions C07_first_maximum.
Print Assumptions C06_bounded.
Print Assumptions C06_rolling.

(** ** DD::xcorr *)
Lemma read_some l (i : nat) : (i < length l)%nat → read l i = Some (nth i l 0).
Proof.
  intros H. unfold read. rewrite decide_True by lia. rewrite Nat2Z.id. rewrite nth_lookup. destruct (lookup_lt_is_Some_2 l i H) as [x ->]. done.
Qed.
Lemma trunc_nonneg x : 0 <= x → (0 ≤ trunc x)%Z ∧ IZR (trunc x) <= x.
Proof.
  intros H. unfold trunc. destruct (Rle_dec 0 x); [|done]. destruct (base_Int_part x) as [B1 B2]. split; [|done].
  apply le_IZR. destruct (Rle_dec 0 (IZR (Int_part x))) as [|N]; [done|]. exfalso.
  assert (IZR (Int_part x) <= -1) as K; [|lra]. change (-1) with (IZR (-1)). apply IZR_le. assert (Int_part x < 0)%Z by (apply lt_IZR; lra). lia.
Qed.

(** The short and the long of two traces, and the number of samples searched on each side of
    the middle. *)
Definition shorter (t u : trace) : list R := samples (if bool_decide (length (samples u) < length (samples t))%nat then u else t).
Definition longer (t u : trace) : list R := samples (if bool_decide (length (samples u) < length (samples t))%nat then t else u).
Definition reach (t u : trace) (maxDelay : R) : Z :=
  Z.min ((length (longer t u) - length (shorter t u)) / 2) (trunc (maxDelay * freq t)).

(** C08: for a non-negative maximum delay and non-empty traces nothing is read outside the
    traces, the lag is at most the maximum delay, and the coefficient is the largest
    correlation in absolute value of the short trace with the windows of the long one that
    are at most [reach] samples off the middle. *)
Theorem C08_in_bounds t u maxDelay lag0 :
  0 < freq t → 0 <= maxDelay → samples t ≠ [] → samples u ≠ [] →
  ∃ lag c, dd_xcorr t u maxDelay lag0 = Some (lag, c) ∧
    let s := shorter t u in let l := longer t u in
    let m := reach t u maxDelay in let mid := ((length l - length s) / 2)%Z in
    (0 ≤ m ≤ mid)%Z ∧ Rabs lag <= maxDelay ∧
    let w k i := nth (Z.to_nat (mid + k) + i) l 0 in
    let x i := nth i s 0 in
    let defined k := (- m ≤ k ≤ m)%Z ∧ ¬ constant x (length s) ∧ ¬ constant (w k) (length s) in
    ((∃ k, defined k) → ∃ k, defined k ∧ c = Fin (pearson x (w k) (length s)) ∧
       lag = (if bool_decide (length (samples u) < length (samples t))%nat then -1 else 1) * IZR k / freq t ∧
       (∀ k', defined k' → Rabs (pearson x (w k') (length s)) <= Rabs (pearson x (w k) (length s)))) ∧
    (¬ (∃ k, defined k) → c = NotANumber).
Proof.
  intros Hf Hm Ht Hu. unfold dd_xcorr. set (swap := bool_decide _).
  assert (samples (if swap then u else t) = shorter t u) as -> by done. assert (samples (if swap then t else u) = longer t u) as -> by done.
  assert (0 < length (shorter t u) ≤ length (longer t u))%nat as Hlen.
  { unfold shorter, longer. case_bool_decide; destruct (samples t), (samples u); cbn in *; try done; lia. }
  set (s := shorter t u) in *. set (l := longer t u) in *. rewrite Z.quot_div_nonneg by lia.
  set (mid := ((length l - length s) / 2)%Z). destruct (trunc_nonneg (maxDelay * freq t)) as [T0 T1]; [nra|].
  assert ((if decide (mid < trunc (maxDelay * freq t))%Z then mid else trunc (maxDelay * freq t)) = reach t u maxDelay) as ->.
  { unfold reach. fold s l mid. case_decide; lia. }
  set (m := reach t u maxDelay). assert (0 ≤ mid)%Z as Hmid by (apply Z.div_pos; lia). assert (m = Z.min mid (trunc (maxDelay * freq t))) as Em by done.
  assert (mid * 2 ≤ length l - length s)%Z as Hmid2. { unfold mid. pose proof (Z.mul_div_le (length l - length s) 2). lia. }
  set (Y := λ i : nat, nth (Z.to_nat (mid - m) + i) l 0).
  destruct (C07_first_maximum (read s) (λ i, read l (i + (mid - m))) (length s) (length s + m * 2) lag0 (λ i, nth i s 0) Y) as (delay & c & E & H);
    [lia|lia|intros i Hi; by apply read_some| |].
  { intros i Hi. replace (i + (mid - m))%Z with (Z.of_nat (Z.to_nat (mid - m) + i)) by lia. apply read_some. lia. }
  rewrite E. cbn [mbind option_bind fst snd]. eexists _, c. split; [reflexivity|]. cbn zeta in H. cbn zeta.
  set (w := λ (k : Z) (i : nat), nth (Z.to_nat (mid + k) + i) l 0).
  assert (∀ d : nat, (d ≤ 2 * m)%Z → (λ i, Y (d + i)%nat) = w (d - m)%Z) as HW.
  { intros d Hd. unfold Y, w. apply FunctionalExtensionality.functional_extensionality. intros i. f_equal. lia. }
  assert (∀ k : Z, (- m ≤ k ≤ m)%Z → w k = (λ i, Y (Z.to_nat (k + m) + i)%nat)) as HW'.
  { intros k Hk. rewrite HW by lia. f_equal. lia. }
  assert (∃ d : nat, (d ≤ 2 * m)%Z ∧ delay = INR d) as (d0 & Hd0 & Ed0).
  { unfold cross_correlation in E. destruct (prepare_ok (read s) (λ i, read l (i + (mid - m))) (length s) (length s + m * 2) (λ i, nth i s 0) Y) ;
      [lia|lia|intros i Hi; by apply read_some| |].
    { intros i Hi. replace (i + (mid - m))%Z with (Z.of_nat (Z.to_nat (mid - m) + i)) by lia. apply read_some. lia. }
    destruct (delays_ok (read s) (λ i, read l (i + (mid - m))) (length s) (length s + m * 2) lag0 (λ i, nth i s 0) Y ltac:(lia) ltac:(lia) ltac:(intros i Hi; by apply read_some)) with (k := Z.to_nat (length s + m * 2 - length s + 1)) as (a & Ea & _ & _ & B); [|lia|].
    { intros i Hi. replace (i + (mid - m))%Z with (Z.of_nat (Z.to_nat (mid - m) + i)) by lia. apply read_some. lia. }
    rewrite prepare_ok with (sizeL := (length s + m * 2)%Z) (X := λ i, nth i s 0) (Y := Y) in E; [|lia|lia|intros i Hi; by apply read_some|].
    2: { intros i Hi. replace (i + (mid - m))%Z with (Z.of_nat (Z.to_nat (mid - m) + i)) by lia. apply read_some. lia. }
    cbn [mbind option_bind XCorr_Model.sumS XCorr_Model.sumS2 XCorr_Model.sumL XCorr_Model.sumL2] in E. rewrite Ea in E. cbn [mbind option_bind] in E. injection E as <- <-.
    destruct (a_coeff a) as [r| |]; [| |done].
    - destruct B as (d & Hd & -> & _). exists d. split; [lia|done].
    - destruct B as (_ & ->). rewrite decide_False by lia. eexists. split; [|reflexivity]. lia. }
  assert ((delay - IZR m) / freq t = IZR (d0 - m) / freq t) as Elag. { rewrite Ed0, minus_IZR, INR_IZR_INZ. done. }
  split; [lia|]. split; [|destruct H as [H1 H2]; split].
  - assert (Rabs (if swap then - ((delay - IZR m) / freq t) else (delay - IZR m) / freq t) = Rabs (IZR (d0 - m) / freq t)) as ->.
    { rewrite Elag. destruct swap; [by rewrite Rabs_Ropp|done]. }
    assert (Rabs (IZR (d0 - m)) <= IZR m) as K. { rewrite <- abs_IZR. apply IZR_le. lia. }
    assert (IZR m <= maxDelay * freq t) as K2. { apply (Rle_trans _ (IZR (trunc (maxDelay * freq t)))); [apply IZR_le; lia|done]. }
    unfold Rdiv. rewrite Rabs_mult, Rabs_inv, (Rabs_right (freq t)) by lra.
    apply (Rmult_le_reg_r (freq t)); [done|]. rewrite Rmult_assoc, Rinv_l by lra. lra.
  - intros (k & Hk & N1 & N2). destruct H1 as (d & (Ld & Nd1 & Nd2) & Ed & Ec & Mx & _).
    { exists (Z.to_nat (k + m)). split; [lia|]. split; [done|]. rewrite <- HW' by lia. done. }
    rewrite HW in Nd2, Ec by lia. exists (d - m)%Z. split; [split; [lia|done]|]. split; [done|]. split.
    + assert ((delay - IZR m) / freq t = IZR (d - m) / freq t) as -> by (rewrite Ed, minus_IZR, INR_IZR_INZ; done). destruct swap; unfold Rdiv; ring.
    + intros k' (Hk' & N1' & N2'). rewrite HW in Mx by lia. specialize (Mx (Z.to_nat (k' + m))). rewrite <- HW' in Mx by lia. apply Mx. split; [lia|done].
  - intros N. apply H2. intros (d & Ld & N1 & N2). apply N. exists (d - m)%Z. split; [lia|]. split; [done|]. change (¬ constant (w (d - m)%Z) (length s)). rewrite <- HW by lia. done.
Qed.

(** C08: exchanging the two traces gives the same coefficient and the opposite lag. *)
Theorem C08_swap t u maxDelay lag0 lag c :
  freq t = freq u → 0 <= maxDelay → 0 < freq t → samples t ≠ [] → samples u ≠ [] →
  dd_xcorr t u maxDelay lag0 = Some (lag, c) → dd_xcorr u t maxDelay lag0 = Some (- lag, c).
Proof.
  intros Ef Hm Hf Ht Hu. destruct (decide (length (samples t) = length (samples u))) as [El|Nl].
  - unfold dd_xcorr. rewrite !bool_decide_false by lia. rewrite El, <- Ef.
    replace (Z.quot (length (samples u) - length (samples u)) 2) with 0%Z by (rewrite Z.sub_diag; done).
    destruct (trunc_nonneg (maxDelay * freq t)) as [T0 T1]; [nra|].
    replace (if decide (0 < trunc (maxDelay * freq t))%Z then 0%Z else trunc (maxDelay * freq t)) with 0%Z by (case_decide; lia).
    assert (0 < length (samples u))%nat as Hpos by (destruct (samples u); [done|cbn; lia]).
    assert (∀ a b : list R, length a = length b → (0 < length b)%nat →
       cross_correlation (read a) (λ i, read b (i + (0 - 0))) (length b) (length b + 0 * 2) lag0 =
       Some (0, coefficient (λ i, nth i a 0) (λ i, nth i b 0) (length b))) as K.
    { intros a b Eab Hb. unfold cross_correlation.
      assert (∀ i : nat, (i < length b)%nat → read a i = Some (nth i a 0)) as Ra by (intros i Hi; apply read_some; lia).
      assert (∀ i : nat, (i < length b + 0 * 2)%Z → read b (i + (0 - 0)) = Some (nth i b 0)) as Rb.
      { intros i Hi. replace (i + (0 - 0))%Z with (Z.of_nat i) by lia. apply read_some. lia. }
      rewrite (prepare_ok (read a) (λ i, read b (i + (0 - 0))) (length b) (length b + 0 * 2) (λ i, nth i a 0) (λ i, nth i b 0) Hb ltac:(lia) Ra Rb).
      cbn [mbind option_bind XCorr_Model.sumS XCorr_Model.sumS2 XCorr_Model.sumL XCorr_Model.sumL2].
      replace (Z.to_nat (length b + 0 * 2 - length b + 1)) with 1%nat by lia.
      destruct (delays_ok (read a) (λ i, read b (i + (0 - 0))) (length b) (length b + 0 * 2) lag0 (λ i, nth i a 0) (λ i, nth i b 0) Hb ltac:(lia) Ra Rb 1) as (s & Es & _ & _ & B); [lia|].
      rewrite Es. cbn [mbind option_bind]. destruct (a_coeff s) as [r| |]; [| |done].
      - destruct B as (d & Hd & -> & Ec & _). replace d with 0%nat in * by lia. cbn [INR] in *. rewrite <- Ec. done.
      - destruct B as (Ec & ->). specialize (Ec 0%nat ltac:(lia)). cbn [Nat.add] in Ec. rewrite <- Ec. done. }
    rewrite (K (samples t) (samples u) El Hpos). rewrite <- El at 1 2 3. rewrite (K (samples u) (samples t)) by lia. cbn [mbind option_bind fst snd].
    intros [= <- <-]. rewrite El, coefficient_sym. do 2 f_equal. unfold Rdiv. ring.
  - assert (∃ b, bool_decide (length (samples u) < length (samples t))%nat = b ∧ bool_decide (length (samples t) < length (samples u))%nat = negb b) as (b & B1 & B2).
    { destruct (decide (length (samples u) < length (samples t))%nat).
      - exists true. rewrite bool_decide_true, bool_decide_false by lia. done.
      - exists false. rewrite bool_decide_false, bool_decide_true by lia. done. }
    unfold dd_xcorr. rewrite B1, B2, <- Ef.
    assert (samples (if negb b then t else u) = samples (if b then u else t)) as -> by by destruct b.
    assert (samples (if negb b then u else t) = samples (if b then t else u)) as -> by by destruct b.
    destruct (cross_correlation _ _ _ _ lag0) as [[d c']|]; cbn [mbind option_bind fst snd]; [|done].
    intros [= <- <-]. do 2 f_equal. destruct b; cbn [negb]; ring.
Qed.

(** An empty short trace: the sample before the window is read. *)
Theorem C07_empty_refuted : ∃ t u maxDelay lag0, 0 < freq t ∧ 0 <= maxDelay ∧ dd_xcorr t u maxDelay lag0 = None.
Proof.
  exists (Trace [] 100), (Trace [1; 2; 3] 100), 1, 0. cbn [freq]. split; [lra|]. split; [lra|].
  unfold dd_xcorr. cbn [samples length bool_decide].
  replace (bool_decide (3 < 0)%nat) with false by done. cbn [samples length freq].
  assert (trunc (1 * 100) = 100%Z) as ->.
  { unfold trunc. destruct (Rle_dec 0 (1 * 100)); [|lra]. unfold Int_part. rewrite <- (tech_up (1 * 100) 101); [done|lra|lra]. }
  reflexivity.
Qed.
(** A negative maximum delay: the preparation already reads past the end of the long trace. *)
Theorem C08_negative_refuted : ∃ t u maxDelay lag0, 0 < freq t ∧ samples t ≠ [] ∧ samples u ≠ [] ∧ dd_xcorr t u maxDelay lag0 = None.
Proof.
  exists (Trace [1; 2] 1), (Trace [1; 2] 1), (-2), 0. cbn [freq samples]. split; [lra|]. split; [done|]. split; [done|].
  unfold dd_xcorr. cbn [samples length freq].
  assert (trunc (-2 * 1) = (-2)%Z) as ->.
  { unfold trunc. destruct (Rle_dec 0 (-2 * 1)); [lra|]. replace (- (-2 * 1)) with 2 by lra. unfold Int_part. rewrite <- (tech_up 2 3); [done|lra|lra]. }
  reflexivity.
Qed.
Print Assumptions C08_in_bounds.
Print Assumptions C08_swap.
Print Assumptions C07_empty_refuted.
Print Assumptions C08_negative_refuted.

(** The hypotheses and the defined case hold for a short signal that is found with opposite
    sign two samples into the long one. *)
Example defined_ex : ¬ constant (λ i, nth i [0; 1] 0) 2 ∧ ¬ constant (λ i, nth (2 + i) [5; 5; 1; 0] 0) 2 ∧ 
  pearson (λ i, nth i [0; 1] 0) (λ i, nth (2 + i) [5; 5; 1; 0] 0) 2 = -1.
Proof.
  split; [|split].
  - intros C. specialize (C 0%nat 1%nat ltac:(lia) ltac:(lia)). cbn in C. lra.
  - intros C. specialize (C 0%nat 1%nat ltac:(lia) ltac:(lia)). cbn in C. lra.
  - unfold pearson, dev, mean, square. cbn. replace (_ + _ + (1 - _) * (0 - _)) with (- (1 / 2)) by field.
    replace (R_sqrt.sqrt _ * R_sqrt.sqrt _) with (1 / 2); [field|]. 
    match goal with |- _ = R_sqrt.sqrt ?a * R_sqrt.sqrt ?b => replace b with a by field; rewrite sqrt_sqrt; [field|] end.
    nra.
Qed.
