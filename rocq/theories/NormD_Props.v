(** Longitudes and azimuths brought to their range, in double precision (C101). *)
From Coq Require Import ZArith Reals Lra Psatz.
From Flocq Require Import Core BinarySingleNaN.
From stdpp Require Import numbers list.
From Verif Require Import Double_Model Double_Props XCorrD_Model XCorrD_Props NormD_Model.
Local Open Scope R_scope.
Local Instance p53 : Prec_gt_0 53 := prec53.
Local Instance flt_valid : Valid_exp (FLT_exp (-1074) 53) := FLT_exp_valid (-1074) 53.

(** ** The remainder *)
Lemma bounded_range m e : SpecFloat.bounded 53 1024 m e = true → (Z.pos m < 2 ^ 53)%Z ∧ (-1074 ≤ e)%Z.
Proof.
  unfold SpecFloat.bounded, SpecFloat.canonical_mantissa. intros [H _]%andb_true_iff. apply Zeq_bool_eq in H.
  rewrite Zpos_digits2_pos in H. rewrite fexp_eq in H. unfold FLT_exp in H. split; [|lia].
  apply (Zpower_gt_Zdigits radix2 53 (Z.pos m)). lia.
Qed.
Lemma fmod_val x y : is_finite x = true → is_finite y = true → 0 < B2R y →
  ∃ k : Z, val (fmod x y) (B2R x - IZR k * B2R y) ∧ Rabs (B2R x - IZR k * B2R y) < B2R y ∧
    (0 <= B2R x → 0 <= B2R x - IZR k * B2R y) ∧ (B2R x <= 0 → B2R x - IZR k * B2R y <= 0).
Proof.
  intros Fx Fy Hy. destruct y as [?|?| |s' m' e' B']; try done; [simpl in Hy; lra|].
  assert (s' = false) as -> by (destruct s'; [exfalso; apply (Rlt_not_le _ _ Hy); by apply F2R_le_0|done]).
  destruct x as [s|?| |s m e B]; try done.
  { exists 0%Z. rewrite Rmult_0_l, Rminus_0_r. split; [done|]. change (B2R (B754_zero s)) with 0. rewrite Rabs_R0. split; [done|]. split; lra. }
  set (c := Z.min e e'). set (a := (Z.pos m * 2 ^ (e - c))%Z). set (b := (Z.pos m' * 2 ^ (e' - c))%Z).
  assert (∀ (n f : Z), (c ≤ f)%Z → IZR n * b2 f = IZR (n * 2 ^ (f - c)) * b2 c) as SC.
  { intros n f Hf. rewrite mult_IZR. rewrite (IZR_Zpower radix2) by lia. rewrite Rmult_assoc, <- bpow_plus. f_equal. f_equal. lia. }
  assert (0 < b)%Z as B0 by (subst b; apply Z.mul_pos_pos; [lia|apply Z.pow_pos_nonneg; subst c; lia]).
  assert (0 < a)%Z as A0 by (subst a; apply Z.mul_pos_pos; [lia|apply Z.pow_pos_nonneg; subst c; lia]).
  pose proof (Z.mod_pos_bound a b B0) as [R0 R1]. pose proof (Z.div_mod a b ltac:(lia)) as DM. set (r := (a mod b)%Z) in *. set (q := (a / b)%Z) in *.
  assert (r ≤ a)%Z as RA by (apply Z.mod_le; lia).
  destruct (bounded_range _ _ B) as [M1 M2]. destruct (bounded_range _ _ B') as [M1' M2'].
  assert (r < 2 ^ 53)%Z as R53.
  { destruct (Z.le_ge_cases e e') as [L|L].
    - assert (a = Z.pos m) as EA; [|lia]. subst a. replace (e - c)%Z with 0%Z by (subst c; lia). by rewrite Z.mul_1_r.
    - assert (b = Z.pos m') as EB; [|lia]. subst b. replace (e' - c)%Z with 0%Z by (subst c; lia). by rewrite Z.mul_1_r. }
  assert (B2R (B754_finite false m' e' B' : double) = IZR b * b2 c) as EY by (simpl; unfold F2R; simpl; apply SC; subst c; lia).
  assert (B2R (B754_finite s m e B : double) = IZR (cond_Zopp s a) * b2 c) as EX.
  { simpl. unfold F2R. cbn [Fnum Fexp]. rewrite SC by (subst c; lia). f_equal. f_equal. destruct s; simpl cond_Zopp; subst a; [|done]; change (Z.neg m) with (- Z.pos m)%Z; ring. }
  exists (cond_Zopp s q). rewrite EX, EY. pose proof (bpow_gt_0 radix2 c) as C0.
  assert (IZR (cond_Zopp s a) * b2 c - IZR (cond_Zopp s q) * (IZR b * b2 c) = IZR (cond_Zopp s r) * b2 c) as ER.
  { rewrite DM. rewrite <- Rmult_assoc, <- mult_IZR, <- Rmult_minus_distr_r, <- minus_IZR. f_equal. f_equal. destruct s; simpl cond_Zopp; ring. }
  rewrite ER. split; [|split; [|split]].
  - pose proof (binary_normalize_correct 53 1024 prec53 emax1024 mode_NE (cond_Zopp s r) c s) as K. cbv zeta in K. change (round_mode mode_NE) with ZnearestE in K. rewrite fexp_eq in K.
    assert (F2R (Float radix2 (cond_Zopp s r) c) = IZR (cond_Zopp s r) * b2 c) as EF by done. rewrite EF in K.
    assert (rnd (IZR (cond_Zopp s r) * b2 c) = IZR (cond_Zopp s r) * b2 c) as EN.
    { apply round_generic; [apply valid_rnd_N|]. apply generic_format_FLT. exists (Float radix2 (cond_Zopp s r) c); [done|simpl; rewrite abs_cond_Zopp; lia|simpl; subst c; lia]. }
    rewrite EN in K. rewrite Rlt_bool_true in K; [destruct K as (K1 & K2 & _); by split|].
    rewrite Rabs_mult, (Rabs_pos_eq (b2 c)) by lra. rewrite <- abs_IZR, abs_cond_Zopp.
    apply Rle_lt_trans with (Rabs (B2R (B754_finite s m e B : double))); [|apply abs_B2R_lt_emax].
    rewrite EX, Rabs_mult, (Rabs_pos_eq (b2 c)), <- abs_IZR, abs_cond_Zopp by lra. apply Rmult_le_compat_r; [lra|]. apply IZR_le. lia.
  - rewrite Rabs_mult, (Rabs_pos_eq (b2 c)) by lra. rewrite <- abs_IZR, abs_cond_Zopp. apply Rmult_lt_compat_r; [lra|]. apply IZR_lt. lia.
  - intros H. destruct s; simpl cond_Zopp in *; [|apply Rmult_le_pos; [by apply IZR_le|lra]]. exfalso. assert (IZR (- a) < 0) by (apply IZR_lt; lia). nra.
  - intros H. destruct s; simpl cond_Zopp in *; [assert (IZR (- r) <= 0) by (apply IZR_le; lia); nra|]. exfalso. assert (0 < IZR a) by (by apply IZR_lt). nra.
Qed.
Lemma rnd_le a b : a <= b → rnd a <= rnd b.
Proof. apply round_le; [apply flt_valid|apply valid_rnd_N]. Qed.
Lemma rnd_int (z e : Z) : (Z.abs z < 2 ^ 53)%Z → (-1074 ≤ e)%Z → rnd (IZR z * b2 e) = IZR z * b2 e.
Proof. intros H He. apply round_generic; [apply valid_rnd_N|]. apply generic_format_FLT. by exists (Float radix2 z e). Qed.
Lemma rnd_Z z : (Z.abs z < 2 ^ 53)%Z → rnd (IZR z) = IZR z.
Proof. intros H. pose proof (rnd_int z 0 H ltac:(lia)) as K. simpl in K. by rewrite Rmult_1_r in K. Qed.
Lemma v360 : val (of_Z 360) 360. Proof. by apply of_Z_val. Qed.
Lemma v180 : val (of_Z 180) 180. Proof. by apply of_Z_val. Qed.
Lemma small_b x : Rabs x <= 1000 → Rabs x <= b2 1000.
Proof. intros H. apply Rle_trans with (b2 10); [simpl; lra|apply bpow_le; lia]. Qed.
Lemma err_10 x : Rabs x < 1024 → Rabs (rnd x - x) <= b2 (-44).
Proof. intros H. by apply (rnd_abs x 10). Qed.

(** The part common to both: [fmod(fmod(x, 360) + 360, 360)] *)
Lemma wrap x : is_finite x = true →
  ∃ (k : Z) f, val (fmod (dadd (fmod x (of_Z 360)) (of_Z 360)) (of_Z 360)) f ∧ 0 <= f < 360 ∧ Rabs (f - (B2R x + IZR k * 360)) <= b2 (-44).
Proof.
  intros Fx. destruct v360 as [F3 E3]. destruct (fmod_val x (of_Z 360) Fx F3 ltac:(rewrite E3; lra)) as (k1 & V1 & B1 & _ & _). rewrite E3 in *.
  set (g := B2R x - IZR k1 * 360) in *. apply Rabs_lt_inv in B1.
  destruct (add_val _ _ _ _ V1 v360) as [F2 E2]; [apply small_b, Rabs_le; lra|].
  pose proof (err_10 (g + 360) ltac:(apply Rabs_lt; lra)) as R2. set (h := rnd (g + 360)) in *.
  assert (0 <= h) as H0 by (rewrite <- (rnd_Z 0) by lia; apply rnd_le; simpl; lra).
  destruct (fmod_val _ (of_Z 360) F2 F3 ltac:(rewrite E3; lra)) as (k2 & V2 & B2 & P2 & _). rewrite E3, E2 in *. specialize (P2 H0). apply Rabs_lt_inv in B2.
  exists (1 - k1 - k2)%Z, (h - IZR k2 * 360). split; [exact V2|]. split; [lra|].
  replace (h - IZR k2 * 360 - (B2R x + IZR (1 - k1 - k2) * 360)) with (h - (g + 360)); [exact R2|]. unfold g. rewrite !minus_IZR. ring.
Qed.
(** ** C101 *)
Theorem C101_azimuth az : is_finite az = true →
  is_finite (dnormalizeAzimuth az) = true ∧ 0 <= B2R (dnormalizeAzimuth az) < 360 ∧
  ∃ k : Z, Rabs (B2R (dnormalizeAzimuth az) - (B2R az + IZR k * 360)) <= b2 (-44).
Proof. intros F. destruct (wrap az F) as (k & f & [Fv Ev] & R & K). unfold dnormalizeAzimuth. rewrite Ev. split; [done|]. split; [done|]. by exists k. Qed.
Lemma below_360 (f : double) : B2R f < 360 → B2R f <= 360 - b2 (-44).
Proof.
  intros H. assert (generic_format radix2 (FLT_exp (-1074) 53) (B2R f)) as G by (rewrite <- fexp_eq; apply generic_format_B2R).
  destruct (Rle_or_lt (B2R f) 256) as [L|L]; [simpl; lra|].
  assert (mag radix2 (B2R f) = 9%Z :> Z) as M by (apply mag_unique; rewrite Rabs_pos_eq by lra; simpl; lra).
  rewrite G in H |- *. unfold F2R, cexp in *. rewrite M in *. cbn [Fnum Fexp] in *. change (FLT_exp (-1074) 53 9) with (-44)%Z in *. set (z := Ztrunc _) in *.
  assert (360 = IZR (360 * 2 ^ 44) * b2 (-44)) as E by (rewrite mult_IZR, Rmult_assoc; change (IZR (2 ^ 44)) with (b2 44); rewrite <- bpow_plus; simpl; ring). rewrite E in H |- *. apply Rmult_lt_reg_r in H; [|apply bpow_gt_0]. apply lt_IZR in H.
  assert (IZR z <= IZR (360 * 2 ^ 44 - 1)) as K by (apply IZR_le; lia). rewrite minus_IZR in K. pose proof (bpow_gt_0 radix2 (-44)). nra.
Qed.
Theorem C101_longitude lon : is_finite lon = true → Rabs (B2R lon) <= 800 →
  is_finite (dnormalizeLon lon) = true ∧ -180 <= B2R (dnormalizeLon lon) < 180 ∧
  ∃ k : Z, Rabs (B2R (dnormalizeLon lon) - (B2R lon + IZR k * 360)) <= 3 * b2 (-44).
Proof.
  intros F B. pose proof B as B'. apply Rabs_le_inv in B'. destruct (add_val _ _ _ _ (conj F eq_refl) v180) as [F1 E1]; [apply small_b, Rabs_le; lra|].
  pose proof (err_10 (B2R lon + 180) ltac:(apply Rabs_lt; lra)) as R1. destruct (wrap _ F1) as (k & f & V & R & K). rewrite E1 in K. set (h := rnd (B2R lon + 180)) in *.
  destruct (sub_val _ _ _ _ V v180) as [F2 E2]; [apply small_b, Rabs_le; lra|]. unfold dnormalizeLon. rewrite E2. split; [done|].
  assert (f <= 360 - b2 (-44)) as L by (destruct V as [_ <-]; apply below_360; lra).
  assert (rnd (180 - b2 (-44)) = 180 - b2 (-44)) as E4. { replace (180 - b2 (-44)) with (IZR (180 * 2 ^ 44 - 1) * b2 (-44)) by (rewrite minus_IZR, mult_IZR, Rmult_minus_distr_r, Rmult_assoc; change (IZR (2 ^ 44)) with (b2 44); rewrite <- bpow_plus; change (b2 (44 + -44)) with 1; ring). apply rnd_int; lia. }
  pose proof (bpow_gt_0 radix2 (-44)) as P. split; [split|].
  - rewrite <- (rnd_Z (-180)) by lia. apply rnd_le. lra.
  - apply Rle_lt_trans with (rnd (180 - b2 (-44))); [apply rnd_le; lra|lra].
  - exists k. pose proof (err_10 (f - 180) ltac:(apply Rabs_lt; lra)) as R3. apply Rabs_le_inv in R1, K, R3. apply Rabs_le. lra.
Qed.
(** The range does not depend on the size *)
Theorem C101_longitude_range lon : is_finite lon = true → Rabs (B2R lon) <= b2 999 →
  is_finite (dnormalizeLon lon) = true ∧ -180 <= B2R (dnormalizeLon lon) < 180.
Proof.
  intros F B. destruct (add_val _ _ _ _ (conj F eq_refl) v180) as [F1 E1].
  { eapply Rle_trans; [apply Rabs_triang|]. rewrite (Rabs_pos_eq 180) by lra. change 1000%Z with (1 + 999)%Z. rewrite bpow_plus. change (b2 1) with 2.
    assert (b2 10 <= b2 999) as H by (apply bpow_le; lia). change (b2 10) with 1024 in H. lra. }
  destruct (wrap _ F1) as (k & f & V & R & _).
  destruct (sub_val _ _ _ _ V v180) as [F2 E2]; [apply small_b, Rabs_le; lra|]. unfold dnormalizeLon. rewrite E2. split; [done|].
  assert (f <= 360 - b2 (-44)) as L by (destruct V as [_ <-]; apply below_360; lra).
  assert (rnd (180 - b2 (-44)) = 180 - b2 (-44)) as E4. { replace (180 - b2 (-44)) with (IZR (180 * 2 ^ 44 - 1) * b2 (-44)) by (rewrite minus_IZR, mult_IZR, Rmult_minus_distr_r, Rmult_assoc; change (IZR (2 ^ 44)) with (b2 44); rewrite <- bpow_plus; change (b2 (44 + -44)) with 1; ring). apply rnd_int; lia. }
  pose proof (bpow_gt_0 radix2 (-44)) as P. split.
  - rewrite <- (rnd_Z (-180)) by lia. apply rnd_le. lra.
  - apply Rle_lt_trans with (rnd (180 - b2 (-44))); [apply rnd_le; lra|lra].
Qed.
(** Longitudes within the range that are multiples of 2^-43 are kept *)
Theorem C101_longitude_exact lon z : is_finite lon = true → B2R lon = IZR z * b2 (-43) → -180 <= B2R lon < 180 → B2R (dnormalizeLon lon) = B2R lon.
Proof.
  intros F E [R1 R2]. assert (∀ n : Z, IZR n = IZR (n * 2 ^ 43) * b2 (-43)) as SC.
  { intros n. rewrite mult_IZR, Rmult_assoc. change (IZR (2 ^ 43)) with (b2 43). rewrite <- bpow_plus. change (b2 (43 + -43)) with 1. ring. }
  assert (∀ (n : Z) (r : R), r = IZR n * b2 (-43) → Rabs r < 1000 → rnd r = r) as EX.
  { intros n r -> H. apply rnd_int; [|lia]. assert (Rabs (IZR n * b2 (-43)) < IZR (1000 * 2 ^ 43) * b2 (-43)) as K by (by rewrite <- SC).
    rewrite Rabs_mult, (Rabs_pos_eq (b2 (-43))) in K by apply bpow_ge_0. apply Rmult_lt_reg_r in K; [|apply bpow_gt_0]. rewrite <- abs_IZR in K. apply lt_IZR in K. lia. }
  assert (∀ k : Z, -1 < IZR k < 1 → k = 0%Z) as K0. { intros k [H1 H2]. apply (lt_IZR (-1)) in H1. apply (lt_IZR _ 1) in H2. lia. }
  destruct v360 as [F3 E3].
  destruct (add_val _ _ _ _ (conj F eq_refl) v180) as [F1 E1]; [apply small_b, Rabs_le; lra|].
  rewrite (EX (z + 180 * 2 ^ 43)%Z) in E1; [|rewrite plus_IZR, Rmult_plus_distr_r, <- SC, <- E; done|apply Rabs_lt; lra].
  destruct (fmod_val _ _ F1 F3 ltac:(rewrite E3; lra)) as (k1 & V1 & B1 & P1 & _). rewrite E1, E3 in *. specialize (P1 ltac:(lra)). apply Rabs_lt_inv in B1.
  assert (k1 = 0)%Z as -> by (apply K0; lra). rewrite Rmult_0_l, Rminus_0_r in V1.
  destruct (add_val _ _ _ _ V1 v360) as [F2 E2]; [apply small_b, Rabs_le; lra|].
  rewrite (EX (z + 180 * 2 ^ 43 + 360 * 2 ^ 43)%Z) in E2; [|rewrite !plus_IZR, !Rmult_plus_distr_r, <- !SC, <- E; done|apply Rabs_lt; lra].
  destruct (fmod_val _ _ F2 F3 ltac:(rewrite E3; lra)) as (k2 & V2 & B2 & P2 & _). rewrite E2, E3 in *. specialize (P2 ltac:(lra)). apply Rabs_lt_inv in B2.
  assert (k2 - 1 = 0)%Z as H2 by (apply K0; rewrite minus_IZR; lra). assert (k2 = 1)%Z as -> by lia.
  destruct (sub_val _ _ _ _ V2 v180) as [F4 E4]; [apply small_b, Rabs_le; lra|]. unfold dnormalizeLon. rewrite E4.
  replace (B2R lon + 180 + 360 - 1 * 360 - 180) with (B2R lon) by ring. apply (EX z); [done|apply Rabs_lt; lra].
Qed.
(** Infinities and NaN give NaN *)
Theorem C101_bad x : is_finite x = false → dnormalizeAzimuth x = B754_nan ∧ dnormalizeLon x = B754_nan.
Proof. intros H. destruct x as [?|[]| |]; try done; split; vm_compute; reflexivity. Qed.
(** Longitudes within the range already are changed: a tiny one becomes zero, and the function is not the identity on its range *)
Theorem C101_identity_refuted : ∃ lon : double, is_finite lon = true ∧ 0 < B2R lon < 180 ∧ B2R (dnormalizeLon lon) = 0.
Proof.
  exists (ddiv (of_Z 1) (of_Z (2 ^ 50))). destruct (div_val _ _ _ _ (of_Z_val 1 ltac:(lia)) (of_Z_val (2 ^ 50) ltac:(lia))) as [F E]; [simpl; lra|apply small_b, Rabs_le; simpl; lra|].
  split; [exact F|]. split.
  - rewrite E. replace (1 / IZR (2 ^ 50)) with (IZR 1 * b2 (-50)) by (simpl; lra). rewrite rnd_int by lia. simpl. lra.
  - assert (dnormalizeLon (ddiv (of_Z 1) (of_Z (2 ^ 50))) = zero) as -> by (vm_compute; reflexivity). done.
Qed.
(** ** Examples *)
Example ex_lon : is_finite (of_Z 190) = true ∧ Rabs (B2R (of_Z 190)) <= 800 ∧ Beqb (dnormalizeLon (of_Z 190)) (of_Z (-170)) = true.
Proof. destruct (of_Z_val 190 ltac:(lia)) as [F E]. split; [done|]. rewrite E. split; [apply Rabs_le; lra|]. vm_compute. reflexivity. Qed.
Example ex_exact : is_finite (of_Z (-120)) = true ∧ B2R (of_Z (-120)) = IZR (-120 * 2 ^ 43) * b2 (-43) ∧ -180 <= B2R (of_Z (-120)) < 180.
Proof.
  destruct (of_Z_val (-120) ltac:(lia)) as [F E]. split; [done|]. rewrite E. split; [|lra].
  rewrite mult_IZR, Rmult_assoc. change (IZR (2 ^ 43)) with (b2 43). rewrite <- bpow_plus. change (b2 (43 + -43)) with 1. ring.
Qed.
Example ex_az : is_finite (of_Z (-90)) = true ∧ Beqb (dnormalizeAzimuth (of_Z (-90))) (of_Z 270) = true.
Proof. split; vm_compute; reflexivity. Qed.
Print Assumptions C101_azimuth. Print Assumptions C101_longitude. Print Assumptions C101_longitude_range. Print Assumptions C101_longitude_exact. Print Assumptions C101_bad. Print Assumptions C101_identity_refuted.
