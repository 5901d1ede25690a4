(** Finite sums, vectors as functions from indexes, matrices, orthogonality: the mathematics
    that the least squares solvers are stated in. *)
From Coq Require Import Reals Lra Lia.
From stdpp Require Import numbers list.
Local Open Scope R_scope.

Fixpoint rsum (n : nat) (f : nat → R) : R := match n with O => 0 | S k => rsum k f + f k end.
Definition dot (n : nat) (f g : nat → R) : R := rsum n (λ i, f i * g i).
(** The Euclidean norm *)
Definition norm (n : nat) (f : nat → R) : R := R_sqrt.sqrt (dot n f f).
(** A list as a vector *)
Definition vec (l : list R) (i : nat) : R := nth i l 0.
(** A x and A' y for a matrix of m rows and n columns *)
Definition mv (A : nat → nat → R) (m n : nat) (x : nat → R) (i : nat) : R := if decide (i < m)%nat then dot n (A i) x else 0.
Definition tmv (A : nat → nat → R) (m n : nat) (y : nat → R) (j : nat) : R := if decide (j < n)%nat then dot m (λ i, A i j) y else 0.

Lemma rsum_ext n f g : (∀ i, (i < n)%nat → f i = g i) → rsum n f = rsum n g.
Proof. induction n as [|n IH]; intros H; [done|]. cbn. rewrite IH; [rewrite H; [done|lia]|]. intros i Hi. apply H. lia. Qed.
Lemma rsum_plus n f g : rsum n (λ i, f i + g i) = rsum n f + rsum n g.
Proof. induction n as [|n IH]; cbn; [lra|]. rewrite IH. lra. Qed.
Lemma rsum_scal n c f : rsum n (λ i, c * f i) = c * rsum n f.
Proof. induction n as [|n IH]; cbn; [lra|]. rewrite IH. lra. Qed.
Lemma rsum_zero n f : (∀ i, (i < n)%nat → f i = 0) → rsum n f = 0.
Proof. intros H. induction n as [|n IH]; [done|]. cbn. rewrite IH, H; [lra|lia|]. intros i Hi. apply H. lia. Qed.
Lemma rsum_swap n m (f : nat → nat → R) : rsum n (λ i, rsum m (λ j, f i j)) = rsum m (λ j, rsum n (λ i, f i j)).
Proof.
  induction n as [|n IH]; cbn.
  - symmetry. by apply rsum_zero.
  - rewrite IH, <- rsum_plus. done.
Qed.
Lemma rsum_nonneg n f : (∀ i, (i < n)%nat → 0 <= f i) → 0 <= rsum n f.
Proof.
  intros H. induction n as [|n IH]; cbn; [lra|].
  assert (0 <= rsum n f) by (apply IH; intros i Hi; apply H; lia). assert (0 <= f n) by (apply H; lia). lra.
Qed.
Lemma rsum_le n f g : (∀ i, (i < n)%nat → f i <= g i) → rsum n f <= rsum n g.
Proof.
  intros H. induction n as [|n IH]; cbn; [lra|].
  assert (rsum n f <= rsum n g) by (apply IH; intros i Hi; apply H; lia). assert (f n <= g n) by (apply H; lia). lra.
Qed.
Lemma rsum_const n c : rsum n (λ _, c) = INR n * c.
Proof. induction n as [|n IH]; [cbn; lra|]. rewrite S_INR. cbn [rsum]. rewrite IH. lra. Qed.

Lemma dot_comm n f g : dot n f g = dot n g f.
Proof. apply rsum_ext. intros i _. lra. Qed.
Lemma dot_ext n f f' g g' : (∀ i, (i < n)%nat → f i = f' i) → (∀ i, (i < n)%nat → g i = g' i) → dot n f g = dot n f' g'.
Proof. intros H1 H2. apply rsum_ext. intros i Hi. by rewrite H1, H2. Qed.
Lemma dot_lin n a b x y z w : (∀ i, (i < n)%nat → z i = a * x i + b * y i) → dot n z w = a * dot n x w + b * dot n y w.
Proof.
  intros H. unfold dot. rewrite <- !rsum_scal, <- rsum_plus. apply rsum_ext. intros i Hi. rewrite H by done. lra.
Qed.
Lemma dot_lin_r n a b x y z w : (∀ i, (i < n)%nat → z i = a * x i + b * y i) → dot n w z = a * dot n w x + b * dot n w y.
Proof. intros H. rewrite !(dot_comm n w). by apply dot_lin. Qed.
Lemma dot_scal n a x z w : (∀ i, (i < n)%nat → z i = a * x i) → dot n z w = a * dot n x w.
Proof. intros H. rewrite (dot_lin n a 0 x x z); [lra|]. intros i Hi. rewrite H by done. lra. Qed.
Lemma dot_scal_r n a x z w : (∀ i, (i < n)%nat → z i = a * x i) → dot n w z = a * dot n w x.
Proof. intros H. rewrite !(dot_comm n w). by apply dot_scal. Qed.
Lemma dot_zero_l n z w : (∀ i, (i < n)%nat → z i = 0) → dot n z w = 0.
Proof. intros H. apply rsum_zero. intros i Hi. rewrite H by done. lra. Qed.
Lemma dot_zero_r n z w : (∀ i, (i < n)%nat → z i = 0) → dot n w z = 0.
Proof. intros H. rewrite dot_comm. by apply dot_zero_l. Qed.
(** The square of a combination *)
Lemma dot_sq n a b x y z : (∀ i, (i < n)%nat → z i = a * x i + b * y i) → dot n z z = a * a * dot n x x + 2 * a * b * dot n x y + b * b * dot n y y.
Proof. intros H. rewrite (dot_lin n a b x y z z H), !(dot_lin_r n a b x y z _ H), (dot_comm n y x). lra. Qed.
Lemma dot_nonneg n f : 0 <= dot n f f.
Proof. apply rsum_nonneg. intros i _. apply Rle_0_sqr. Qed.
Lemma dot_definite n f : dot n f f = 0 → ∀ i, (i < n)%nat → f i = 0.
Proof.
  induction n as [|n IH]; intros H i Hi; [lia|].
  change (dot n f f + f n * f n = 0) in H. pose proof (dot_nonneg n f). pose proof (Rle_0_sqr (f n)) as Hs. unfold Rsqr in Hs.
  destruct (decide (i = n)) as [->|Hn]; [|apply IH; [lra|lia]].
  apply Rsqr_0_uniq. unfold Rsqr. lra.
Qed.
Lemma norm_sq n f : norm n f * norm n f = dot n f f.
Proof. apply sqrt_sqrt, dot_nonneg. Qed.
Lemma norm_nonneg n f : 0 <= norm n f.
Proof. apply sqrt_pos. Qed.
Lemma norm_unique n f r : 0 <= r → r * r = dot n f f → r = norm n f.
Proof. intros Hr H. unfold norm. rewrite <- H. symmetry. by apply sqrt_square. Qed.
Lemma norm_zero n f : norm n f = 0 ↔ ∀ i, (i < n)%nat → f i = 0.
Proof.
  split.
  - intros H. apply dot_definite. rewrite <- norm_sq, H. lra.
  - intros H. symmetry. apply norm_unique; [lra|]. rewrite dot_zero_l by done. lra.
Qed.

Section matrix.
Variable (A : nat → nat → R) (m n : nat).
Lemma mv_lin a b x y z : (∀ i, (i < n)%nat → z i = a * x i + b * y i) → ∀ i, mv A m n z i = a * mv A m n x i + b * mv A m n y i.
Proof. intros H i. unfold mv. case_decide; [|lra]. by apply dot_lin_r. Qed.
Lemma tmv_lin a b x y z : (∀ i, (i < m)%nat → z i = a * x i + b * y i) → ∀ i, tmv A m n z i = a * tmv A m n x i + b * tmv A m n y i.
Proof. intros H i. unfold tmv. case_decide; [|lra]. by apply dot_lin_r. Qed.
Lemma mv_zero z : (∀ i, (i < n)%nat → z i = 0) → ∀ i, mv A m n z i = 0.
Proof. intros H i. unfold mv. case_decide; [|done]. by apply dot_zero_r. Qed.
Lemma tmv_zero z : (∀ i, (i < m)%nat → z i = 0) → ∀ i, tmv A m n z i = 0.
Proof. intros H i. unfold tmv. case_decide; [|done]. by apply dot_zero_r. Qed.
Lemma adjoint x y : dot m (mv A m n x) y = dot n x (tmv A m n y).
Proof.
  unfold dot at 1. rewrite (rsum_ext m _ (λ i, rsum n (λ j, A i j * x j * y i))).
  - rewrite rsum_swap. unfold dot. apply rsum_ext. intros j Hj. unfold tmv. rewrite decide_True by done.
    unfold dot. rewrite <- rsum_scal. apply rsum_ext. intros i _. lra.
  - intros i Hi. unfold mv. rewrite decide_True by done. unfold dot. rewrite Rmult_comm, <- rsum_scal. apply rsum_ext. intros j _. lra.
Qed.
End matrix.

(** ** Orthonormal families *)
Definition perp (n : nat) (z : nat → R) (l : list (nat → R)) : Prop := ∀ q, q ∈ l → dot n z q = 0.
Fixpoint ortho (n : nat) (l : list (nat → R)) : Prop :=
  match l with [] => True | q :: r => dot n q q = 1 ∧ perp n q r ∧ ortho n r end.
Lemma perp_nil n z : perp n z [].
Proof. intros q Hq. by apply elem_of_nil in Hq. Qed.
Lemma perp_cons n z q l : perp n z (q :: l) ↔ dot n z q = 0 ∧ perp n z l.
Proof.
  split.
  - intros H. split; [apply H; left|]. intros p Hp. apply H. by right.
  - intros [H1 H2] p [-> | Hp]%elem_of_cons; [done|by apply H2].
Qed.

(** Bessel's inequality: the projections on an orthonormal family *)
Definition lsum (g : (nat → R) → R) (l : list (nat → R)) : R := foldr (λ q s, g q + s) 0 l.
Definition proj (n : nat) (x : nat → R) (l : list (nat → R)) (i : nat) : R := lsum (λ q, dot n x q * q i) l.
Lemma dot_proj n x l w : dot n (proj n x l) w = lsum (λ q, dot n x q * dot n q w) l.
Proof.
  induction l as [|q l IH]; [by apply dot_zero_l|].
  rewrite (dot_lin n (dot n x q) 1 q (proj n x l)).
  - rewrite IH. change (lsum (λ q, dot n x q * dot n q w) (q :: l)) with (dot n x q * dot n q w + lsum (λ q, dot n x q * dot n q w) l). lra.
  - intros i _. change (proj n x (q :: l) i) with (dot n x q * q i + proj n x l i). lra.
Qed.
Lemma lsum_ext g h l : (∀ q, q ∈ l → g q = h q) → lsum g l = lsum h l.
Proof. induction l as [|q l IH]; intros H; [done|]. cbn. rewrite H by left. f_equal. apply IH. intros p Hp. apply H. by right. Qed.
Lemma proj_sq n x l : ortho n l → dot n (proj n x l) (proj n x l) = lsum (λ q, dot n x q * dot n x q) l.
Proof.
  induction l as [|q l IH]; intros Ho; [by apply dot_zero_l|]. destruct Ho as (H1 & H2 & H3).
  rewrite (dot_sq n (dot n x q) 1 q (proj n x l)) by (intros i _; change (proj n x (q :: l) i) with (dot n x q * q i + proj n x l i); lra).
  rewrite IH, H1 by done. rewrite (dot_comm n q), dot_proj, (lsum_ext _ (λ _, 0)).
  - change (lsum (λ q, dot n x q * dot n x q) (q :: l)) with (dot n x q * dot n x q + lsum (λ q, dot n x q * dot n x q) l). assert (lsum (λ _, 0) l = 0) as -> by (clear; induction l as [|a l IH]; [done|]; unfold lsum in *; cbn [foldr]; rewrite IH; lra). lra.
  - intros p Hp. rewrite (dot_comm n p q), H2 by done. lra.
Qed.
Lemma bessel n x l : ortho n l → lsum (λ q, dot n x q * dot n x q) l <= dot n x x.
Proof.
  intros Ho. pose proof (dot_nonneg n (λ i, x i - proj n x l i)) as H.
  rewrite (dot_sq n 1 (-1) x (proj n x l)) in H by (intros i _; lra).
  rewrite (dot_comm n x (proj n x l)), dot_proj, (lsum_ext _ (λ q, dot n x q * dot n x q)) in H.
  - rewrite proj_sq in H by done. lra.
  - intros q _. by rewrite (dot_comm n q x).
Qed.
(** An orthonormal family has at most as many vectors as there are dimensions *)
Lemma rsum_delta n i f : (i < n)%nat → rsum n (λ j, (if decide (j = i) then 1 else 0) * f j) = f i.
Proof.
  induction n as [|n IH]; intros Hi; [lia|]. cbn. destruct (decide (i = n)) as [->|Hn].
  - rewrite decide_True by done. rewrite rsum_zero; [lra|]. intros j Hj. rewrite decide_False by lia. lra.
  - rewrite IH by lia. rewrite decide_False by lia. lra.
Qed.
Lemma rsum_lsum n (f : nat → (nat → R) → R) l : rsum n (λ i, lsum (f i) l) = lsum (λ q, rsum n (λ i, f i q)) l.
Proof. induction l as [|q l IH]; [by apply rsum_zero|]. unfold lsum in *. cbn [foldr]. rewrite rsum_plus, IH. done. Qed.
Lemma ortho_length n l : ortho n l → (length l <= n)%nat.
Proof.
  intros Ho. apply INR_le.
  assert (INR (length l) = lsum (λ q, dot n q q) l) as ->.
  { clear -Ho. induction l as [|q l IH]; [done|]. destruct Ho as (H1 & _ & H3). cbn [length lsum foldr]. rewrite S_INR, H1. unfold lsum in IH. rewrite IH by done. lra. }
  unfold dot. rewrite <- (rsum_lsum n (λ i q, q i * q i) l).
  replace (INR n) with (rsum n (λ _, 1)) by (rewrite rsum_const; lra).
  apply rsum_le. intros i Hi.
  pose proof (bessel n (λ j, if decide (j = i) then 1 else 0) l Ho) as H.
  assert (∀ q, dot n (λ j, if decide (j = i) then 1 else 0) q = q i) as Hd by (intros q; by apply rsum_delta).
  rewrite Hd, decide_True in H by done.
  rewrite (lsum_ext _ (λ q, q i * q i)) in H; [done|]. intros q _. by rewrite Hd.
Qed.

(** ** Bidiagonalisation (Golub-Kahan) *)
Section bidiag.
Variable (A : nat → nat → R) (m n : nat).
Notation M := (mv A m n).
Notation T := (tmv A m n).
(** The vectors u and v, the coefficient alpha, and the vectors of the earlier steps *)
Record bd (u v : nat → R) (alpha : R) (HU HV : list (nat → R)) : Prop := {
  bd_alpha : 0 < alpha;
  bd_u : ortho m (u :: HU); bd_v : ortho n (v :: HV);
  bd_len : length HU = length HV;
  bd_uv : dot n (T u) v = alpha;
  bd_tp : ∀ p, p ∈ HU → ∀ z, perp n z HV → dot n z (T p) = 0;
  bd_tu : ∀ z, dot n z v = 0 → perp n z HV → dot n z (T u) = 0;
  bd_mq : ∀ q, q ∈ HV → ∀ y, dot m y u = 0 → perp m y HU → dot m y (M q) = 0;
  bd_ker : ∀ z, (∀ i, (i < m)%nat → M z i = 0) → dot n z v = 0 ∧ perp n z HV }.

Lemma bd_start u v alpha : 0 < alpha → dot m u u = 1 → dot n v v = 1 → (∀ j, (j < n)%nat → T u j = alpha * v j) → bd u v alpha [] [].
Proof.
  intros Ha Hu Hv HT. split; try done.
  - split; [done|]. split; [apply perp_nil|done].
  - split; [done|]. split; [apply perp_nil|done].
  - rewrite (dot_scal n alpha v), Hv by done. lra.
  - intros p Hp. by apply elem_of_nil in Hp.
  - intros z Hz _. rewrite (dot_scal_r n alpha v), Hz by done. lra.
  - intros q Hq. by apply elem_of_nil in Hq.
  - intros z Hz. split; [|apply perp_nil].
    assert (alpha * dot n z v = 0) as H; [|apply Rmult_integral in H; lra].
    rewrite <- (dot_scal_r n alpha v (T u)) by done. rewrite <- adjoint. by apply dot_zero_l.
Qed.

Lemma bd_next_u u v alpha HU HV u' beta : bd u v alpha HU HV → 0 < beta → (∀ i, (i < m)%nat → beta * u' i = M v i - alpha * u i) → perp m u' (u :: HU).
Proof.
  intros [Ha [Hu1 [Hu2 Hu3]] [Hv1 [Hv2 Hv3]] _ Huv Htp Htu Hmq Hker] Hb Hu'.
  assert (∀ w, beta * dot m u' w = dot n v (T w) - alpha * dot m u w) as H.
  { intros w. rewrite <- (dot_scal m beta u' (λ i, M v i - alpha * u i)) by (intros i Hi; by rewrite <- Hu').
    rewrite (dot_lin m 1 (- alpha) (M v) u) by (intros i _; lra). rewrite adjoint. lra. }
  apply perp_cons. split.
  - specialize (H u). rewrite (dot_comm n v), Huv, Hu1 in H. assert (beta * dot m u' u = 0) as H0 by lra. apply Rmult_integral in H0. lra.
  - intros p Hp. specialize (H p). rewrite (Htp p Hp v Hv2), (Hu2 p Hp) in H. assert (beta * dot m u' p = 0) as H0 by lra. apply Rmult_integral in H0. lra.
Qed.

Lemma bd_next u v alpha HU HV u' v' alpha' beta : bd u v alpha HU HV → 0 < beta → 0 < alpha' →
  (∀ i, (i < m)%nat → beta * u' i = M v i - alpha * u i) → (∀ j, (j < n)%nat → alpha' * v' j = T u' j - beta * v j) →
  dot m u' u' = 1 → dot n v' v' = 1 → bd u' v' alpha' (u :: HU) (v :: HV).
Proof.
  intros Hbd Hb Ha' Hu' Hv' Hu1' Hv1'. pose proof (bd_next_u _ _ _ _ _ _ _ Hbd Hb Hu') as Hup.
  destruct Hbd as [Ha [Hu1 [Hu2 Hu3]] [Hv1 [Hv2 Hv3]] Hlen Huv Htp Htu Hmq Hker].
  pose proof Hup as Hup'. apply perp_cons in Hup' as [Hup1 Hup2].
  assert (∀ w, alpha' * dot n v' w = dot m u' (M w) - beta * dot n v w) as H.
  { intros w. rewrite <- (dot_scal n alpha' v' (λ i, T u' i - beta * v i)) by (intros i Hi; by rewrite <- Hv').
    rewrite (dot_lin n 1 (- beta) (T u') v) by (intros i _; lra). rewrite (dot_comm m), adjoint, (dot_comm n w). lra. }
  assert (∀ y, dot m y (M v) = beta * dot m y u' + alpha * dot m y u) as HMv.
  { intros y. apply dot_lin_r. intros i Hi. rewrite Hu' by done. lra. }
  assert (∀ z, dot n z (T u') = alpha' * dot n z v' + beta * dot n z v) as HTu.
  { intros y. apply dot_lin_r. intros i Hi. rewrite Hv' by done. lra. }
  assert (perp n v' (v :: HV)) as Hvp.
  { apply perp_cons. split.
    - specialize (H v). rewrite HMv, Hv1, Hup1, Hu1' in H. assert (alpha' * dot n v' v = 0) as H0 by lra. apply Rmult_integral in H0. lra.
    - intros q Hq. specialize (H q). rewrite (Hmq q Hq u' Hup1 Hup2), (Hv2 q Hq) in H. assert (alpha' * dot n v' q = 0) as H0 by lra. apply Rmult_integral in H0. lra. }
  split; try done.
  - cbn. rewrite Hlen. done.
  - rewrite dot_comm, HTu, Hv1'. apply perp_cons in Hvp as [-> _]. lra.
  - intros p [-> | Hp]%elem_of_cons z [Hz1 Hz2]%perp_cons; [by apply Htu|by apply Htp].
  - intros z Hz [Hz1 Hz2]%perp_cons. rewrite HTu, Hz, Hz1. lra.
  - intros q [-> | Hq]%elem_of_cons y Hy [Hy1 Hy2]%perp_cons; [rewrite HMv, Hy, Hy1; lra|by apply Hmq].
  - intros z Hz. destruct (Hker z Hz) as [Hz1 Hz2]. split; [|by apply perp_cons].
    assert (alpha' * dot n z v' = 0) as H0; [|apply Rmult_integral in H0; lra].
    pose proof (HTu z) as H1. rewrite Hz1, <- adjoint, (dot_zero_l m (M z)) in H1 by done. lra.
Qed.

(** The families are not longer than the dimensions *)
Lemma bd_count u v alpha HU HV : bd u v alpha HU HV → (length HV < n)%nat ∧ (length HV < m)%nat.
Proof.
  intros H. pose proof (ortho_length _ _ (bd_u _ _ _ _ _ H)) as Hu. pose proof (ortho_length _ _ (bd_v _ _ _ _ _ H)) as Hv.
  pose proof (bd_len _ _ _ _ _ H). cbn in *. lia.
Qed.
End bidiag.
