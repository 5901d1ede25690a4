(** C99: the removal of the mean in double precision. *)
From Coq Require Import ZArith Reals Lra Psatz.
From Flocq Require Import Core BinarySingleNaN Relative Plus_error.
From stdpp Require Import numbers list.
From Verif Require Import Double_Model Double_Props XCorrD_Model XCorrD_Props DemeanD_Model.
From Verif Require WaveProc_Model.
Local Open Scope R_scope.
Local Coercion Z.of_nat : nat >-> Z.
Local Instance p53 : Prec_gt_0 53 := prec53.
Local Instance flt_valid : Valid_exp (FLT_exp (-1074) 53) := FLT_exp_valid (-1074) 53.
Local Instance flt_mono : Monotone_exp (FLT_exp (-1074) 53) := FLT_exp_monotone (-1074) 53.

(** * Specification: the exact mean *)
Definition total (l : list R) : R := foldr Rplus 0 l.
Definition exact_mean (l : list double) : R := total (B2R <$> l) / INR (length l).
Definition bounded (M : R) (l : list double) : Prop := ∀ x, x ∈ l → is_finite x = true ∧ Rabs (B2R x) <= M.

(** * Rounded sums *)
Lemma fmt (x : double) : generic_format radix2 (FLT_exp (-1074) 53) (B2R x).
Proof. rewrite <- fexp_eq. apply generic_format_B2R. Qed.
(** There is no underflow in a sum *)
Lemma sum_rel a b : generic_format radix2 (FLT_exp (-1074) 53) a → generic_format radix2 (FLT_exp (-1074) 53) b → Rabs (rnd (a + b) - (a + b)) <= u * Rabs (a + b).
Proof.
  intros Fa Fb. destruct (Rle_or_lt (b2 (-1022)) (Rabs (a + b))) as [H|H]; [apply rel; by right|].
  rewrite round_generic; [|apply valid_rnd_N|].
  - rewrite Rminus_diag_eq by done. rewrite Rabs_R0. assert (0 < u) by (unfold u; lra). pose proof (Rabs_pos (a + b)). nra.
  - apply (FLT_format_plus_small radix2 (-1074) 53); [done|done|]. apply Rlt_le. eapply Rlt_trans; [exact H|]. apply bpow_lt. lia.
Qed.
Lemma add_err x y : is_finite x = true → is_finite y = true → Rabs (B2R x + B2R y) <= b2 1000 →
  is_finite (dadd x y) = true ∧ Rabs (B2R (dadd x y) - (B2R x + B2R y)) <= u * Rabs (B2R x + B2R y).
Proof.
  intros Fx Fy H. destruct (add_val x y _ _ (conj Fx eq_refl) (conj Fy eq_refl) H) as [F E]. split; [done|]. rewrite E. apply sum_rel; apply fmt.
Qed.
Lemma sub_err x y : is_finite x = true → is_finite y = true → Rabs (B2R x - B2R y) <= b2 1000 →
  is_finite (dsub x y) = true ∧ Rabs (B2R (dsub x y) - (B2R x - B2R y)) <= u * Rabs (B2R x - B2R y).
Proof.
  intros Fx Fy H. destruct (sub_val x y _ _ (conj Fx eq_refl) (conj Fy eq_refl) H) as [F E]. split; [done|]. rewrite E.
  unfold Rminus at 2 3. apply sum_rel; [apply fmt|]. apply generic_format_opp, fmt.
Qed.
Lemma u_pos : 0 < u < / 1000000000000000. Proof. unfold u. lra. Qed.

Definition err (M k : R) : R := u * M * (1001 / 2000) * k * (k + 1).
Lemma acc_spec M l : 0 <= M <= b2 900 → bounded M l → ∀ (k : nat) s E,
  INR k + INR (length l) <= 1099511627776 → is_finite s = true → Rabs E <= INR k * M → Rabs (B2R s - E) <= err M (INR k) →
  let r := fold_left dadd l s in
  is_finite r = true ∧ Rabs (E + total (B2R <$> l)) <= (INR k + INR (length l)) * M ∧ Rabs (B2R r - (E + total (B2R <$> l))) <= err M (INR k + INR (length l)).
Proof.
  intros HM. induction l as [|x l IH]; intros B k s E Hk Fs HE Hs.
  { cbn [fold_left fmap list_fmap total foldr length INR]. rewrite !Rplus_0_r. done. }
  destruct (B x ltac:(by left)) as [Fx Hx]. cbn [length] in Hk. rewrite S_INR in Hk.
  pose proof (pos_INR k) as K0. pose proof (pos_INR (length l)) as L0. pose proof u_pos as U.
  assert (err M (INR k) <= (INR k + 1) * M * / 2000) as SM.
  { unfold err. assert (u * INR k <= / 1500). { unfold u. assert (INR k <= 1099511627776) by lra. nra. }
    assert (0 <= u * INR k) by nra. assert (0 <= (INR k + 1) * M) by nra.
    replace (u * M * (1001 / 2000) * INR k * (INR k + 1)) with ((u * INR k) * (1001 / 2000) * ((INR k + 1) * M)) by ring. nra. }
  assert (Rabs (B2R s + B2R x) <= (INR k + 1) * M * (2001 / 2000)) as SX.
  { replace (B2R s + B2R x) with ((B2R s - E) + (E + B2R x)) by ring. eapply Rle_trans; [apply Rabs_triang|].
    pose proof (Rabs_triang E (B2R x)). lra. }
  assert (Rabs (B2R s + B2R x) <= b2 1000) as SB.
  { eapply Rle_trans; [exact SX|]. apply Rle_trans with (b2 50 * b2 900); [|rewrite <- bpow_plus; apply bpow_le; lia].
    assert (b2 50 = 1125899906842624) as B50 by reflexivity. rewrite B50. pose proof (bpow_ge_0 radix2 900). assert (0 <= INR k + 1 <= 1099511627777) by lra. nra. }
  destruct (add_err s x Fs Fx SB) as [F A].
  assert (Rabs (E + B2R x) <= INR (S k) * M) as HE'. { rewrite S_INR. pose proof (Rabs_triang E (B2R x)). lra. }
  assert (Rabs (B2R (dadd s x) - (E + B2R x)) <= err M (INR (S k))) as HS'.
  { replace (B2R (dadd s x) - (E + B2R x)) with ((B2R (dadd s x) - (B2R s + B2R x)) + (B2R s - E)) by ring. eapply Rle_trans; [apply Rabs_triang|].
    rewrite S_INR. assert (u * Rabs (B2R s + B2R x) <= u * ((INR k + 1) * M * (2001 / 2000))) by (apply Rmult_le_compat_l; lra).
    unfold err in *. assert (0 <= u * ((INR k + 1) * M)) by (apply Rmult_le_pos; [lra|nra]). lra. }
  destruct (IH ltac:(intros y Hy; apply B; by right) (S k) (dadd s x) (E + B2R x)) as (R1 & R2 & R3); [rewrite S_INR; lra|done|done|done|].
  cbn [fold_left fmap list_fmap total foldr length] in *. rewrite S_INR in *.
  replace (E + (B2R x + foldr Rplus 0 (B2R <$> l))) with (E + B2R x + foldr Rplus 0 (B2R <$> l)) by ring.
  replace (INR k + (INR (length l) + 1)) with (INR k + 1 + INR (length l)) by ring. done.
Qed.

(** * Theorems *)
Lemma len_val (n : nat) : (n < 2 ^ 53)%Z → val (of_Z n) (INR n).
Proof. intros H. rewrite INR_IZR_INZ. apply of_Z_val. lia. Qed.
(** Samples up to [M]: the error is a multiple of the unit of [M] *)
Theorem C99_error M l :
  (length l <= 2 ^ 40)%Z → 0 <= M <= b2 900 → bounded M l →
  Forall2 (λ y x, is_finite y = true ∧ Rabs (B2R y - (B2R x - exact_mean l)) <= (INR (length l) + 4) * M * b2 (-53) + b2 (-1074)) (demean l) l.
Proof.
  intros HL HM B. unfold demean. apply Forall2_fmap_l. apply Forall_Forall2_diag. apply Forall_forall. intros x Hx.
  assert (length l ≠ 0)%nat as N0 by (destruct l; [by apply elem_of_nil in Hx|done]).
  assert (INR (length l) <= 1099511627776) as HLR by (rewrite INR_IZR_INZ; apply (IZR_le _ _ HL)).
  assert (1 <= INR (length l)) as HL1 by (apply (le_INR 1); lia).
  destruct (acc_spec M l HM B 0 zero 0) as (R1 & R2 & R3).
  { cbn [INR]. lra. } { done. } { cbn [INR]. rewrite Rabs_R0. lra. }
  { cbn [INR B2R zero]. unfold err. rewrite Rminus_0_r, Rabs_R0. lra. }
  cbn [INR] in R2, R3. rewrite !Rplus_0_l in R2, R3. fold (accumulate l) in R1, R3. set (n := INR (length l)) in *. pose proof u_pos as U.
  assert (b2 (-53) = u) as EU by reflexivity. rewrite EU.
  (* the quotient before rounding *)
  set (m := exact_mean l). assert (Rabs m <= M) as Hm.
  { unfold m, exact_mean. fold n. unfold Rdiv. rewrite Rabs_mult, Rabs_inv, (Rabs_pos_eq n) by lra. apply (Rmult_le_reg_r n); [lra|]. field_simplify; [|lra]. lra. }
  set (q := B2R (accumulate l) / n). assert (Rabs (q - m) <= u * M * (1001 / 2000) * (n + 1)) as Hq.
  { unfold q, m, exact_mean. fold n. replace (B2R (accumulate l) / n - total (B2R <$> l) / n) with ((B2R (accumulate l) - total (B2R <$> l)) * / n) by (field; lra).
    rewrite Rabs_mult, Rabs_inv, (Rabs_pos_eq n) by lra. unfold err in R3. apply (Rmult_le_reg_r n); [lra|].
    rewrite Rmult_assoc, Rinv_l, Rmult_1_r by lra. lra. }
  assert (u * M * (1001 / 2000) * (n + 1) <= M / 1000) as Hq'.
  { assert (u * (n + 1) <= / 1000) by (unfold u; lra). assert (0 <= u * (n + 1)) by nra. replace (u * M * (1001 / 2000) * (n + 1)) with (u * (n + 1) * (M * (1001 / 2000))) by ring. nra. }
  assert (Rabs q <= M * (1001 / 1000)) as Hq2. { replace q with (q - m + m) by ring. pose proof (Rabs_triang (q - m) m). lra. }
  assert (Rabs q <= b2 901) as Hq3. { change 901%Z with (1 + 900)%Z. rewrite bpow_plus. change (b2 1) with 2. lra. }
  destruct (div_val (accumulate l) (of_Z (length l)) (B2R (accumulate l)) n) as [F E].
  { done. } { apply len_val. lia. } { lra. } { eapply Rle_trans; [exact Hq3|apply bpow_le; lia]. }
  fold q in E. fold (mean l) in F, E.
  assert (Rabs (B2R (mean l) - q) <= u * Rabs q + b2 (-1075)) as Em.
  { rewrite E. destruct (Rle_or_lt (b2 (-1022)) (Rabs q)) as [H|H].
    - pose proof (rel q (or_intror H)). pose proof (bpow_ge_0 radix2 (-1075)). lra.
    - pose proof (error_le_half_ulp radix2 (FLT_exp (-1074) 53) (λ x, negb (Z.even x)) q) as HH.
      assert (ulp radix2 (FLT_exp (-1074) 53) q = b2 (-1074)) as EUlp by (apply ulp_FLT_small; [done|eapply Rlt_trans; [exact H|apply bpow_lt; lia]]).
      rewrite EUlp in HH. change (b2 (-1075)) with (b2 (-1 + -1074)). rewrite bpow_plus. change (b2 (-1)) with (/ 2). pose proof (Rabs_pos q). nra. }
  pose proof (bpow_gt_0 radix2 (-1075)) as T0. assert (b2 (-1074) = 2 * b2 (-1075)) as T by (change (-1074)%Z with (1 + -1075)%Z; by rewrite bpow_plus).
  assert (b2 (-1075) <= b2 900) as T1 by (apply bpow_le; lia).
  destruct (B x Hx) as [Fx Bx].
  assert (Rabs (B2R x - B2R (mean l)) <= M * (2003 / 1000) + 2 * b2 (-1075)) as D.
  { replace (B2R x - B2R (mean l)) with (B2R x + (- (B2R (mean l) - q) + - q)) by ring. eapply Rle_trans; [apply Rabs_triang|].
    pose proof (Rabs_triang (- (B2R (mean l) - q)) (- q)) as TR. rewrite !Rabs_Ropp in TR. assert (u * Rabs q <= M * / 1000) by (pose proof (Rabs_pos q); nra). lra. }
  destruct (sub_err x (mean l) Fx F) as [FS ES].
  { eapply Rle_trans; [exact D|]. apply Rle_trans with (b2 10 * b2 900); [|rewrite <- bpow_plus; apply bpow_le; lia]. change (b2 10) with 1024. lra. }
  split; [done|].
  replace (B2R (dsub x (mean l)) - (B2R x - m)) with ((B2R (dsub x (mean l)) - (B2R x - B2R (mean l))) + (- (B2R (mean l) - q) + - (q - m))) by ring.
  eapply Rle_trans; [apply Rabs_triang|]. pose proof (Rabs_triang (- (B2R (mean l) - q)) (- (q - m))) as TR. rewrite !Rabs_Ropp in TR.
  assert (u * Rabs (B2R x - B2R (mean l)) <= u * (M * (2003 / 1000) + 2 * b2 (-1075))) by (apply Rmult_le_compat_l; lra).
  assert (u * Rabs q <= u * (M * (1001 / 1000))) by (apply Rmult_le_compat_l; lra).
  assert (0 <= u * M) by nra. assert (0 <= u * M * n) by nra. rewrite T. assert (u * b2 (-1075) <= b2 (-1075) / 1000) by nra. lra.
Qed.
(** The real numbers of WaveProc_Model (C75) are approximated *)
Theorem C99_refines M l :
  (length l <= 2 ^ 40)%Z → 0 <= M <= b2 900 → bounded M l →
  Forall2 (λ y r, is_finite y = true ∧ Rabs (B2R y - r) <= (INR (length l) + 4) * M * b2 (-53) + b2 (-1074)) (demean l) (WaveProc_Model.demean (B2R <$> l)).
Proof.
  intros HL HM B. unfold WaveProc_Model.demean. rewrite fmap_length, <- list_fmap_compose. apply Forall2_fmap_r. exact (C99_error M l HL HM B).
Qed.

(** Samples that are integers: the sum is exact and the error does not grow with the number *)
Lemma counts_sum (c : list Z) A : (∀ z, z ∈ c → (Z.abs z ≤ A)%Z) → (length c * A < 2 ^ 53)%Z →
  val (accumulate (of_Z <$> c)) (IZR (foldr Z.add 0%Z c)) ∧ (Z.abs (foldr Z.add 0%Z c) ≤ length c * A)%Z.
Proof.
  intros HA HN. destruct c as [|z0 c0] eqn:Ec; [split; [split; done|cbn; lia]|]. rewrite <- Ec in *. assert (0 ≤ A)%Z as A0 by (specialize (HA z0 ltac:(rewrite Ec; by left)); lia).
  assert (∀ (k : nat) s E, val s (IZR E) → (Z.abs E ≤ k * A)%Z → ((k + length c) * A < 2 ^ 53)%Z →
    val (fold_left dadd (of_Z <$> c) s) (IZR (E + foldr Z.add 0%Z c)) ∧ (Z.abs (E + foldr Z.add 0%Z c) ≤ (k + length c) * A)%Z) as G.
  { clear Ec HN. induction c as [|z c IH]; intros k s E Vs HE HN.
    { cbn. rewrite Z.add_0_r. split; [done|lia]. }
    cbn [fmap list_fmap fold_left foldr length] in *. specialize (HA z ltac:(by left)) as Hz. rewrite Nat2Z.inj_succ in HN.
    destruct (IH ltac:(intros y Hy; apply HA; by right) (S k) (dadd s (of_Z z)) (E + z)%Z) as [I1 I2].
    - assert (fx (dadd s (of_Z z)) (E + z) 0) as V.
      { apply fx_add; [unfold fx; simpl; by rewrite Rmult_1_r|apply fx_of_Z; nia|nia|unfold mid; lia]. }
      unfold fx in V. simpl in V. by rewrite Rmult_1_r in V.
    - nia.
    - nia.
    - rewrite Z.add_assoc. split; [done|]. nia. }
  destruct (G 0%nat zero 0%Z) as [G1 G2]; [done|done|lia|]. rewrite Z.add_0_l in *. split; [done|nia].
Qed.
Theorem C99_counts (c : list Z) A :
  (1 ≤ A)%Z → (∀ z, z ∈ c → (Z.abs z ≤ A)%Z) → (length c * A < 2 ^ 53)%Z →
  Forall2 (λ y z, is_finite y = true ∧ Rabs (B2R y - (IZR z - IZR (foldr Z.add 0%Z c) / INR (length c))) <= 3 * IZR A * b2 (-53)) (demean (of_Z <$> c)) c.
Proof.
  intros A1 HA HN. unfold demean. rewrite <- list_fmap_compose. apply Forall2_fmap_l. apply Forall_Forall2_diag. apply Forall_forall. intros z Hz.
  destruct (counts_sum c A HA HN) as [VS BS]. unfold mean. rewrite fmap_length. set (n := length c) in *. set (S := foldr Z.add 0%Z c) in *.
  assert (1 ≤ n)%Z as N1 by (subst n; destruct c; [by apply elem_of_nil in Hz|cbn; lia]).
  specialize (HA z Hz) as Az. assert (b2 (-53) = u) as EU by reflexivity. rewrite EU. pose proof u_pos as U. cbn [compose].
  assert (n < 2 ^ 53)%Z as N2 by nia. assert (A < 2 ^ 53)%Z as A2 by nia.
  assert (1 <= INR n) as N1R by (rewrite INR_IZR_INZ; apply IZR_le; lia).
  assert (INR n <= 9007199254740992) as N2R by (rewrite INR_IZR_INZ; apply (IZR_le _ (2 ^ 53)); lia).
  set (q := IZR S / INR n).
  assert (Rabs q <= IZR A) as Hq.
  { unfold q, Rdiv. rewrite Rabs_mult, Rabs_inv, (Rabs_pos_eq (INR n)) by lra. rewrite <- abs_IZR. apply (Rmult_le_reg_r (INR n)); [lra|].
    rewrite Rmult_assoc, Rinv_l, Rmult_1_r by lra. rewrite INR_IZR_INZ, <- mult_IZR. apply IZR_le. lia. }
  assert (IZR A <= b2 53) as HA53 by (apply (IZR_le _ (2 ^ 53)); lia).
  assert (b2 53 = 9007199254740992) as E53 by reflexivity.
  destruct (div_val _ _ _ _ VS (len_val n N2)) as [F E]; [lra|fold q; eapply Rle_trans; [exact Hq|]; eapply Rle_trans; [exact HA53|apply bpow_le; lia]|].
  fold q in E. set (m := ddiv (accumulate (of_Z <$> c)) (of_Z n)) in *.
  assert (Rabs (B2R m - q) <= u * IZR A) as Em.
  { rewrite E. apply Rle_trans with (u * Rabs q); [|apply Rmult_le_compat_l; lra]. apply rel.
    destruct (decide (S = 0)%Z) as [->|S0]; [left; unfold q; lra|right].
    unfold q, Rdiv. rewrite Rabs_mult, Rabs_inv, (Rabs_pos_eq (INR n)) by lra. rewrite <- abs_IZR.
    assert (1 <= IZR (Z.abs S)) by (apply IZR_le; lia). eapply Rle_trans; [apply (bpow_le radix2 (-1022) (-53)); lia|].
    rewrite EU. unfold u. assert (/ 9007199254740992 <= / INR n) by (apply Rinv_le; lra). assert (0 < / INR n) by (apply Rinv_0_lt_compat; lra). nra. }
  assert (Rabs (B2R m) <= IZR A) as Bm.
  { rewrite E. apply abs_round_le_generic; [apply flt_valid|apply valid_rnd_N| |exact Hq].
    apply generic_format_FLT. exists (Float radix2 A 0); [unfold F2R; simpl; ring|simpl; lia|simpl; lia]. }
  assert (Rabs (IZR z) <= IZR A) as Bz by (rewrite <- abs_IZR; by apply IZR_le).
  destruct (of_Z_val z ltac:(lia)) as [Fz Ez].
  assert (Rabs (B2R (of_Z z) - B2R m) <= 2 * IZR A) as D.
  { rewrite Ez. unfold Rminus. eapply Rle_trans; [apply Rabs_triang|]. rewrite Rabs_Ropp. lra. }
  destruct (sub_err (of_Z z) m Fz F) as [FS ES].
  { eapply Rle_trans; [exact D|]. apply Rle_trans with (b2 54); [change 54%Z with (1 + 53)%Z; rewrite bpow_plus; change (b2 1) with 2; lra|apply bpow_le; lia]. }
  split; [done|]. rewrite Ez in ES, D.
  replace (B2R (dsub (of_Z z) m) - (IZR z - q)) with ((B2R (dsub (of_Z z) m) - (IZR z - B2R m)) + - (B2R m - q)) by ring.
  eapply Rle_trans; [apply Rabs_triang|]. rewrite Rabs_Ropp.
  assert (u * Rabs (IZR z - B2R m) <= u * (2 * IZR A)) by (apply Rmult_le_compat_l; lra). lra.
Qed.

(** A constant trace gives zeros, if its value has few enough digits *)
Theorem C99_constant x z e n :
  fx x z e → mid e → (0 < n)%nat → (n * Z.abs z < 2 ^ 53)%Z → (n < 2 ^ 53)%Z → ∃ s, demean (replicate n x) = replicate n (B754_zero s).
Proof.
  intros Hx He N0 HN N53.
  assert (∀ (k j : nat) s, fx s (Z.of_nat j * z) e → ((j + k) * Z.abs z < 2 ^ 53)%Z → fx (fold_left dadd (replicate k x) s) (Z.of_nat (j + k) * z) e) as G.
  { induction k as [|k IH]; intros j s Hs HB; [by rewrite Nat.add_0_r|]. cbn [replicate fold_left].
    rewrite <- Nat.add_succ_comm. apply IH; [|nia]. replace (Z.of_nat (S j) * z)%Z with (j * z + z)%Z by nia. apply fx_add; [done|done|nia|done]. }
  assert (fx (accumulate (replicate n x)) (n * z) e) as HS.
  { apply (G n 0%nat zero); [rewrite Z.mul_0_l; apply fx_zero|nia]. }
  destruct (fx_format z e ltac:(nia) He) as [FZ BZ].
  assert (1 <= INR n) as N1R by (apply (le_INR 1); lia).
  assert (IZR (n * z) * b2 e / INR n = IZR z * b2 e) as EQ. { rewrite mult_IZR, <- INR_IZR_INZ. field. lra. }
  destruct (div_val _ _ _ _ HS (len_val n N53)) as [F E]; [lra|by rewrite EQ|]. rewrite EQ, FZ in E.
  unfold demean, mean. rewrite replicate_length. set (m := ddiv _ _) in *. destruct Hx as [Fx Ex].
  assert (val (dsub x m) 0) as D.
  { destruct (sub_val x m _ _ (conj Fx Ex) (conj F E)) as [FD ED].
    - rewrite Rminus_diag_eq by done. rewrite Rabs_R0. apply bpow_ge_0.
    - split; [done|]. rewrite ED, Rminus_diag_eq by done. apply round_0, valid_rnd_N. }
  destruct (val_zero _ D) as [sg Es]. exists sg. rewrite fmap_replicate. by rewrite Es.
Qed.
(** One sample that is not a number or infinite spoils all of them *)
Lemma add_bad x y : is_finite x = false ∨ is_finite y = false → is_finite (dadd x y) = false.
Proof. unfold dadd. intros [H|H]; destruct x as [?|?|?|????], y as [?|?|?|????]; try done; cbn in *; by destruct (Bool.eqb _ _). Qed.
Lemma sub_bad x y : is_finite y = false → is_finite (dsub x y) = false.
Proof. unfold dsub. intros H. destruct x as [?|?|?|????], y as [?|?|?|????]; try done; cbn in *; by destruct (Bool.eqb _ _). Qed.
Lemma div_bad x y : is_finite x = false → is_finite y = true → is_finite (ddiv x y) = false.
Proof. unfold ddiv. intros H1 H2. by destruct x as [?|?|?|????], y as [?|?|?|????]. Qed.
Theorem C99_bad_sample l x : (length l < 2 ^ 53)%Z → x ∈ l → is_finite x = false → Forall (λ y, is_finite y = false) (demean l).
Proof.
  intros HL Hx Bx. assert (∀ l' s, is_finite s = false → is_finite (fold_left dadd l' s) = false) as G.
  { induction l' as [|y l' IH]; intros s Hs; [done|]. apply IH. apply add_bad. by left. }
  assert (∀ s, is_finite (fold_left dadd l s) = false) as H.
  { clear HL. induction l as [|y l IH]; intros s; [by apply elem_of_nil in Hx|]. apply elem_of_cons in Hx as [<-|Hx]; cbn [fold_left]; [|by apply IH].
    apply G. apply add_bad. by right. }
  unfold demean. apply Forall_fmap, Forall_forall. intros y _. apply sub_bad. apply div_bad; [apply H|]. by destruct (len_val (length l) HL).
Qed.
(** Other constants do not give zeros: ten times one tenth *)
Theorem C99_constant_refuted : ∃ x, is_finite x = true ∧ Forall (λ y, B2R y > 0) (demean (replicate 10 x)).
Proof.
  exists (ddiv (of_Z 1) (of_Z 10)). split; [vm_compute; reflexivity|].
  apply Forall_forall. intros y Hy. unfold demean in Hy. rewrite fmap_replicate in Hy. apply elem_of_replicate in Hy as [-> _].
  assert (Bltb zero (dsub (ddiv (of_Z 1) (of_Z 10)) (mean (replicate 10 (ddiv (of_Z 1) (of_Z 10))))) = true) as H by (vm_compute; reflexivity).
  rewrite Bltb_correct in H by (vm_compute; reflexivity). destruct (Rlt_bool_spec (B2R zero) (B2R (dsub (ddiv (of_Z 1) (of_Z 10)) (mean (replicate 10 (ddiv (of_Z 1) (of_Z 10))))))) as [K|K]; [|discriminate H].
  exact K.
Qed.
(** Finite samples whose sum is not *)
Theorem C99_overflow_refuted : ∃ l, Forall (λ x, is_finite x = true) l ∧ Forall (λ y, is_finite y = false) (demean l) ∧ l ≠ [].
Proof.
  pose (x := @B754_finite 53 1024 false 4503599627370496 971 eq_refl : double).
  exists [x; x]. split; [|split; [|discriminate]]; repeat constructor; vm_compute; reflexivity.
Qed.

(** * Examples *)
Example ex_counts : (∀ z, z ∈ [3; -7; 12; 5]%Z → (Z.abs z ≤ 12)%Z) ∧ (length [3; -7; 12; 5]%Z * 12 < 2 ^ 53)%Z ∧
  zip_with Beqb (demean (of_Z <$> [3; -7; 12; 5]%Z)) ((λ z, ddiv (of_Z z) (of_Z 4)) <$> [-1; -41; 35; 7]%Z) = [true; true; true; true].
Proof.
  split; [intros z; rewrite !elem_of_cons, elem_of_nil; intros [->|[->|[->|[->|[]]]]]; cbn; lia|]. split; [cbn; lia|]. vm_compute. reflexivity.
Qed.
Example ex_constant : fx (of_Z 5) 5 0 ∧ mid 0 ∧ (7 * Z.abs 5 < 2 ^ 53)%Z ∧ demean (replicate 7 (of_Z 5)) = replicate 7 zero.
Proof. split; [by apply fx_of_Z|]. split; [unfold mid; lia|]. split; [lia|]. vm_compute. reflexivity. Qed.
Example ex_bounded : bounded 12 (of_Z <$> [3; -7; 12; 5]%Z) ∧ 0 <= 12 <= b2 900.
Proof.
  split.
  - intros x (z & -> & Hz)%elem_of_list_fmap. assert (Z.abs z ≤ 12)%Z as B by (revert Hz; rewrite !elem_of_cons, elem_of_nil; intros [->|[->|[->|[->|[]]]]]; cbn; lia).
    destruct (of_Z_val z ltac:(lia)) as [F ->]. split; [done|]. rewrite <- abs_IZR. by apply IZR_le.
  - split; [lra|]. apply Rle_trans with (b2 4); [simpl; lra|apply bpow_le; lia].
Qed.
Example ex_bad : B754_nan ∈ [of_Z 1; B754_nan; of_Z 2] ∧ demean [of_Z 1; B754_nan; of_Z 2] = [B754_nan; B754_nan; B754_nan].
Proof. split; [right; by left|]. vm_compute. reflexivity. Qed.
Print Assumptions C99_error. Print Assumptions C99_refines. Print Assumptions C99_counts. Print Assumptions C99_constant.
Print Assumptions C99_bad_sample. Print Assumptions C99_constant_refuted. Print Assumptions C99_overflow_refuted.
