(** The norms of the least squares solvers in exact arithmetic, and lists as vectors *)
From Coq Require Import Reals Lra Lia.
From stdpp Require Import numbers list.
From Verif Require Import DDSystem_Model Lsq_Model LinAlg.
Local Open Scope R_scope.

Lemma r_is0_true x : r_is0 x = true ↔ x = 0.
Proof. unfold r_is0. destruct (Req_EM_T x 0); split; done. Qed.
Lemma r_is0_false x : r_is0 x = false ↔ x ≠ 0.
Proof. unfold r_is0. destruct (Req_EM_T x 0); split; done. Qed.
Lemma r_ltb_true a b : r_ltb a b = true ↔ a < b.
Proof. unfold r_ltb. destruct (Rlt_dec a b); split; done. Qed.
Lemma r_ltb_false a b : r_ltb a b = false ↔ b <= a.
Proof. unfold r_ltb. destruct (Rlt_dec a b) as [H|H]; split; intros H'; try done; lra. Qed.
Lemma r_leb_true a b : r_leb a b = true ↔ a <= b.
Proof. unfold r_leb. destruct (Rle_dec a b); split; done. Qed.
Lemma r_leb_false a b : r_leb a b = false ↔ b < a.
Proof. unfold r_leb. destruct (Rle_dec a b) as [H|H]; split; intros H'; try done; lra. Qed.
Lemma r_div_ok j a b : b ≠ 0 → r_div j a b = a / b.
Proof. intros H. unfold r_div. by rewrite (proj2 (r_is0_false b) H). Qed.
Lemma r_sqrt_ok j x : 0 <= x → r_sqrt j x = R_sqrt.sqrt x.
Proof. intros H. unfold r_sqrt. destruct (Rlt_dec x 0); [lra|done]. Qed.

Section norms.
Variable (jdiv : R → R → R) (jsqrt : R → R).
Notation D2 := (R_d2norm jdiv jsqrt).
Notation NRM := (R_dnrm2 jdiv jsqrt).

Lemma d2norm_ok a b : D2 a b = R_sqrt.sqrt (a * a + b * b).
Proof.
  unfold R_d2norm, d2norm. pose proof (Rabs_pos a) as Ha. pose proof (Rabs_pos b) as Hb. destruct (r_is0 (Rabs a + Rabs b)) eqn:E.
  - apply r_is0_true in E. assert (Rabs a = 0) as Ha' by lra. assert (Rabs b = 0) as Hb' by lra.
    assert (a = 0) as -> by (destruct (Req_dec a 0) as [|Hn]; [done|]; by apply Rabs_no_R0 in Hn).
    assert (b = 0) as -> by (destruct (Req_dec b 0) as [|Hn]; [done|]; by apply Rabs_no_R0 in Hn).
    replace (0 * 0 + 0 * 0) with 0 by ring. by rewrite sqrt_0.
  - apply r_is0_false in E. set (k := Rabs a + Rabs b) in *. assert (0 < k) as Hk by (unfold k in *; lra).
    rewrite !r_div_ok by done.
    assert (0 <= a / k * (a / k) + b / k * (b / k)) as Hp.
    { pose proof (Rle_0_sqr (a / k)). pose proof (Rle_0_sqr (b / k)). unfold Rsqr in *. lra. }
    rewrite r_sqrt_ok by done. rewrite <- (sqrt_square k) at 1 by lra. rewrite <- sqrt_mult; [|apply Rle_0_sqr|done].
    f_equal. field. done.
Qed.
Lemma d2norm_nonneg a b : 0 <= D2 a b.
Proof. rewrite d2norm_ok. apply sqrt_pos. Qed.
Lemma d2norm_sq a b : D2 a b * D2 a b = a * a + b * b.
Proof. rewrite d2norm_ok. apply sqrt_sqrt. pose proof (Rle_0_sqr a). pose proof (Rle_0_sqr b). unfold Rsqr in *. lra. Qed.
Lemma d2norm_pos a b : a ≠ 0 ∨ b ≠ 0 → 0 < D2 a b.
Proof.
  intros H. rewrite d2norm_ok. apply sqrt_lt_R0. pose proof (Rle_0_sqr a). pose proof (Rle_0_sqr b). unfold Rsqr in *.
  destruct H as [H|H]; apply Rsqr_pos_lt in H; unfold Rsqr in H; lra.
Qed.
Lemma d2norm_zero_r a : D2 a 0 = Rabs a.
Proof. rewrite d2norm_ok. replace (a * a + 0 * 0) with (Rsqr a) by (unfold Rsqr; ring). apply sqrt_Rsqr_abs. Qed.

Lemma rsum_shift n f : rsum (S n) f = f 0%nat + rsum n (λ i, f (S i)).
Proof. induction n as [|n IH]; [cbn; lra|]. cbn [rsum] in *. rewrite IH. lra. Qed.
Lemma dot_cons a l b l' n : dot (S n) (vec (a :: l)) (vec (b :: l')) = a * b + dot n (vec l) (vec l').
Proof. unfold dot. rewrite rsum_shift. done. Qed.
Lemma nrm2_fold x mag sum : 0 <= mag → 0 <= sum →
  let '(mag', sum') := fold_left (nrm2_step 1 Rplus Rmult (r_div jdiv) Rabs r_ltb r_is0) x (mag, sum) in
  0 <= mag' ∧ 0 <= sum' ∧ mag' * mag' * sum' = mag * mag * sum + dot (length x) (vec x) (vec x).
Proof.
  revert mag sum. induction x as [|a x IH]; intros mag sum Hm Hs.
  - cbn. unfold dot. cbn. lra.
  - cbn [fold_left length]. rewrite dot_cons. unfold nrm2_step at 2. destruct (r_is0 a) eqn:Ea.
    + apply r_is0_true in Ea as ->. specialize (IH mag sum Hm Hs). destruct (fold_left _ x _) as [mag' sum']. lra.
    + apply r_is0_false in Ea. pose proof (Rabs_pos_lt a Ea) as Hp.
      assert (Rabs a * Rabs a = a * a) as Hsq by (rewrite <- Rabs_mult; apply Rabs_right; pose proof (Rle_0_sqr a) as H; unfold Rsqr in H; lra).
      destruct (r_ltb mag (Rabs a)) eqn:El.
      * rewrite r_div_ok by lra. apply r_ltb_true in El.
        specialize (IH (Rabs a) (sum * (mag / Rabs a * (mag / Rabs a)) + 1)).
        destruct (fold_left _ x _) as [mag' sum'].
        assert (0 <= mag / Rabs a * (mag / Rabs a)) as H0 by apply Rle_0_sqr.
        assert (0 <= sum * (mag / Rabs a * (mag / Rabs a))) by (by apply Rmult_le_pos).
        destruct IH as (H1 & H2 & H3); [lra|lra|]. split; [done|]. split; [done|]. rewrite H3.
        replace (Rabs a * Rabs a * (sum * (mag / Rabs a * (mag / Rabs a)) + 1)) with (mag * mag * sum + Rabs a * Rabs a) by (field; lra). lra.
      * apply r_ltb_false in El. assert (0 < mag) as Hmag by lra. rewrite r_div_ok by lra.
        specialize (IH mag (sum + Rabs a / mag * (Rabs a / mag))).
        destruct (fold_left _ x _) as [mag' sum'].
        assert (0 <= Rabs a / mag * (Rabs a / mag)) as H0 by apply Rle_0_sqr.
        destruct IH as (H1 & H2 & H3); [lra|lra|]. split; [done|]. split; [done|]. rewrite H3.
        replace (mag * mag * (sum + Rabs a / mag * (Rabs a / mag))) with (mag * mag * sum + Rabs a * Rabs a) by (field; lra). lra.
Qed.
Lemma dnrm2_ok x : NRM x = norm (length x) (vec x).
Proof.
  apply norm_unique; unfold R_dnrm2, dnrm2; pose proof (nrm2_fold x 0 1) as H; destruct (fold_left _ x _) as [mag sum]; destruct H as (H1 & H2 & H3); try lra.
  - rewrite r_sqrt_ok by done. apply Rmult_le_pos; [done|apply sqrt_pos].
  - rewrite r_sqrt_ok by done. replace (mag * R_sqrt.sqrt sum * (mag * R_sqrt.sqrt sum)) with (mag * mag * (R_sqrt.sqrt sum * R_sqrt.sqrt sum)) by ring.
    rewrite sqrt_sqrt by done. lra.
Qed.
End norms.

(** ** Lists as vectors *)
Lemma vec_scale c l i : vec (scale Rmult c l) i = vec l i * c.
Proof.
  unfold vec, scale. revert i. induction l as [|a l IH]; intros [|i]; cbn; try lra; done.
Qed.
Lemma length_scale c (l : list R) : length (scale Rmult c l) = length l.
Proof. unfold scale. apply fmap_length. Qed.
Lemma vec_zip f (l l' : list R) i : f 0 0 = 0 → length l = length l' → vec (zip_with f l l') i = f (vec l i) (vec l' i).
Proof.
  unfold vec. intros Hf. revert l' i. induction l as [|a l IH]; intros [|b l'] [|i] Hl; cbn in *; try done; try lia. apply IH. lia.
Qed.
Lemma vec_zeros n i : vec (replicate n 0) i = 0.
Proof. unfold vec. revert i. induction n as [|n IH]; intros [|i]; cbn; try done. Qed.
Lemma vec_over (l : list R) i : (length l <= i)%nat → vec l i = 0.
Proof. intros H. unfold vec. by apply nth_overflow. Qed.
