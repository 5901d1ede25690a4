(** C64: the least squares solvers LSQR and LSMR *)
From Coq Require Import Reals Lra Lia.
From stdpp Require Import numbers list sets.
From Verif Require Import DDSystem_Model Lsq_Model LinAlg Lsq_Norms Lsqr_Math Lsqr_Proofs Lsmr_Math Lsmr_Proofs.
Local Open Scope R_scope.

(** ** Specification

    A has m rows and n columns. The damped least squares problem is to minimise
    |b - A x|^2 + damp^2 |x|^2. *)
Definition cost (A : nat → nat → R) (m n : nat) (damp : R) (b x : nat → R) : R :=
  dot m (λ i, b i - dot n (A i) x) (λ i, b i - dot n (A i) x) + damp * damp * dot n x x.
(** Half the opposite of its gradient: A'(b - A x) - damp^2 x *)
Definition grad (A : nat → nat → R) (m n : nat) (damp : R) (b x : nat → R) (j : nat) : R :=
  dot m (λ i, A i j) (λ i, b i - dot n (A i) x) - damp * damp * x j.
Definition optimal (A : nat → nat → R) (m n : nat) (damp : R) (b x : nat → R) : Prop := ∀ y, cost A m n damp b x <= cost A m n damp b y.
(** The sum of the squares of the coefficients of A *)
Definition fro (A : nat → nat → R) (m n : nat) : R := rsum m (λ i, dot n (A i) (A i)).
(** aprod1 x y = y + A x and aprod2 x y = x + A' y *)
Definition products (A : nat → nat → R) (m n : nat) (aprod1 aprod2 : list R → list R → list R) : Prop :=
  (∀ x y, length x = n → length y = m → length (aprod1 x y) = m ∧ ∀ i, (i < m)%nat → vec (aprod1 x y) i = vec y i + dot n (A i) (vec x)) ∧
  (∀ x y, length x = n → length y = m → length (aprod2 x y) = n ∧ ∀ j, (j < n)%nat → vec (aprod2 x y) j = vec x j + dot m (λ i, A i j) (vec y)).

(** ** Facts about the specification *)
Section facts.
Variable (A : nat → nat → R) (m n : nat) (damp : R) (b : nat → R).
Notation M := (mv A m n).
Notation T := (tmv A m n).
Lemma cost_mv x : cost A m n damp b x = dot m (λ i, b i - M x i) (λ i, b i - M x i) + damp * damp * dot n x x.
Proof. unfold cost. f_equal. apply dot_ext; intros i Hi; unfold mv; by rewrite decide_True. Qed.
Lemma grad_mv x j : (j < n)%nat → grad A m n damp b x j = T (λ i, b i - M x i) j - damp * damp * x j.
Proof. intros Hj. unfold grad, tmv. rewrite decide_True by done. f_equal. apply dot_ext; [done|]. intros i Hi. unfold mv. by rewrite decide_True. Qed.
Lemma cost_nonneg x : 0 <= cost A m n damp b x.
Proof. unfold cost. pose proof (dot_nonneg m (λ i, b i - dot n (A i) x)). pose proof (dot_nonneg n x) as H0. pose proof (Rle_0_sqr damp) as Hd. unfold Rsqr in Hd. pose proof (Rmult_le_pos _ _ Hd H0). lra. Qed.
Lemma cost_zero x : (∀ j, (j < n)%nat → x j = 0) → cost A m n damp b x = dot m b b.
Proof. intros Hx. rewrite cost_mv, (dot_zero_l n x) by done. rewrite Rmult_0_r, Rplus_0_r. apply dot_ext; intros i _; rewrite mv_zero by done; ring. Qed.
(** The cost around a point where the gradient vanishes *)
Lemma cost_split x y : (∀ j, (j < n)%nat → grad A m n damp b x j = 0) →
  cost A m n damp b y = cost A m n damp b x + dot m (M (λ j, y j - x j)) (M (λ j, y j - x j)) + damp * damp * dot n (λ j, y j - x j) (λ j, y j - x j).
Proof.
  intros Hg. set (e := λ j, y j - x j). rewrite !cost_mv. set (r := λ i, b i - M x i).
  rewrite (dot_sq m 1 (-1) r (M e) (λ i, b i - M y i)).
  2: { intros i _. unfold r. rewrite (mv_lin A m n 1 (-1) y x e) by (intros j _; unfold e; ring). ring. }
  rewrite (dot_sq n 1 1 x e y) by (intros j _; unfold e; ring).
  assert (dot m r (M e) = damp * damp * dot n x e) as H.
  { rewrite dot_comm, adjoint, dot_comm. rewrite (dot_scal n (damp * damp) x (T r)); [done|]. intros j Hj. specialize (Hg j Hj). rewrite grad_mv in Hg by done. unfold r. lra. }
  rewrite H. ring.
Qed.
Theorem C64_normal_equations x : (∀ j, (j < n)%nat → grad A m n damp b x j = 0) → optimal A m n damp b x.
Proof.
  intros Hg y. rewrite (cost_split x y Hg). pose proof (dot_nonneg m (M (λ j, y j - x j))). pose proof (dot_nonneg n (λ j, y j - x j)) as H0.
  pose proof (Rle_0_sqr damp) as Hd. unfold Rsqr in Hd. pose proof (Rmult_le_pos _ _ Hd H0). lra.
Qed.
(** Without damping there may be many solutions: the one perpendicular to the kernel of A is
    the shortest *)
Lemma shortest x y : (∀ j, (j < n)%nat → grad A m n damp b x j = 0) → (∀ z, (∀ i, (i < m)%nat → dot n (A i) z = 0) → dot n z x = 0) →
  optimal A m n damp b y → dot n x x <= dot n y y.
Proof.
  intros Hg Hk Hy. specialize (Hy x). rewrite (cost_split x y Hg) in Hy. set (e := λ j, y j - x j) in *.
  pose proof (dot_nonneg m (M e)) as H1. pose proof (dot_nonneg n e) as H0.
  pose proof (Rle_0_sqr damp) as Hd. unfold Rsqr in Hd. pose proof (Rmult_le_pos _ _ Hd H0) as H2.
  assert (dot m (M e) (M e) = 0) as He by lra.
  assert (dot n e x = 0) as Hex.
  { apply Hk. intros i Hi. pose proof (dot_definite m (M e) He i Hi) as Hz. unfold mv in Hz. by rewrite decide_True in Hz. }
  rewrite (dot_sq n 1 1 x e y) by (intros j _; unfold e; ring). rewrite (dot_comm n x e), Hex. lra.
Qed.
Lemma frob_le l : ortho n l → frob A m n {| o_damp := damp; o_atol := 0; o_btol := 0; o_conlim := 0; o_itnlim := 0 |} l <= fro A m n + INR (length l) * (damp * damp).
Proof.
  intros Ho. assert (∀ k, (k <= m)%nat → lsum (λ q, rsum k (λ i, M q i * M q i)) l <= rsum k (λ i, dot n (A i) (A i))) as H.
  { intros k Hk. rewrite <- rsum_lsum. apply rsum_le. intros i Hi. rewrite (lsum_ext _ (λ q, dot n (A i) q * dot n (A i) q)); [by apply bessel|].
    intros q _. unfold mv. by rewrite decide_True by lia. }
  specialize (H m (le_n m)). unfold frob, fro. cbn [o_damp]. unfold dot at 1.
  assert (∀ g, lsum (λ q, g q + damp * damp) l = lsum g l + INR (length l) * (damp * damp)) as Hs.
  { intros g. clear. induction l as [|q l IH]; [cbn; lra|]. change (length (q :: l)) with (S (length l)). rewrite S_INR.
    change (lsum (λ q, g q + damp * damp) (q :: l)) with (g q + damp * damp + lsum (λ q, g q + damp * damp) l). change (lsum g (q :: l)) with (g q + lsum g l). rewrite IH. lra. }
  rewrite Hs. lra.
Qed.
Lemma frob0_le l : ortho n l → frob0 A m n l <= fro A m n.
Proof.
  intros Ho. unfold frob0, fro. unfold dot at 1. rewrite <- rsum_lsum. apply rsum_le. intros i Hi. rewrite (lsum_ext _ (λ q, dot n (A i) q * dot n (A i) q)); [by apply bessel|].
  intros q _. unfold mv. by rewrite decide_True by lia.
Qed.
End facts.

(** ** The norms *)
Theorem C64_d2norm jdiv jsqrt (a b : R) : R_d2norm jdiv jsqrt a b = R_sqrt.sqrt (a * a + b * b).
Proof. apply d2norm_ok. Qed.
Theorem C64_dnrm2 jdiv jsqrt (l : list R) : R_dnrm2 jdiv jsqrt l = R_sqrt.sqrt (foldr (λ x s, x * x + s) 0 l).
Proof.
  rewrite dnrm2_ok. unfold norm. f_equal. induction l as [|x l IH]; [done|]. cbn [length]. rewrite dot_cons, IH. cbn [foldr]. ring.
Qed.
Example C64_norm_example jdiv jsqrt : R_dnrm2 jdiv jsqrt [3; 0; -4; 12] = 13.
Proof. rewrite C64_dnrm2. cbn. transitivity (R_sqrt.sqrt (13 * 13)); [f_equal; lra|]. apply sqrt_square. lra. Qed.

(** ** The number of iterations, whatever the numbers and the operations on them are *)
Section any.
Context {F : Type}.
Variable (f0 f1 fhuge ftiny : F) (add sub mul div : F → F → F) (neg fabs fsqrt : F → F) (ltb leb : F → F → bool) (is0 : F → bool).
Variable (aprod1 aprod2 : list F → list F → list F) (o : opts (F := F)).
Theorem C64_lsqr_iterations m n b : ∃ s, (∀ fuel, (max 1 (o_itnlim o) <= fuel)%nat →
    lsqr_solve f0 f1 ftiny add sub mul div neg fabs fsqrt ltb leb is0 aprod1 aprod2 o fuel m n b = Some s) ∧
  (q_itn s <= max 1 (o_itnlim o))%nat ∧ (q_istop s <= 5)%nat ∧ (q_istop s = 0%nat → q_itn s = 0%nat) ∧ (q_istop s = 5%nat → (o_itnlim o <= q_itn s)%nat).
Proof.
  unfold lsqr_solve. cbv zeta. set (s0 := lsqr_start _ _ _ _ _ _ _ _ _ _ _ _ _ _).
  assert (q_itn s0 = 0%nat ∧ q_istop s0 = 0%nat) as [H0 H1].
  { unfold s0, lsqr_start. cbv zeta. destruct (ltb f0 (dnrm2 _ _ _ _ _ _ _ _ _ b)); [destruct (ltb f0 (dnrm2 _ _ _ _ _ _ _ _ _ _)); done|destruct (ltb f0 f0); done]. }
  destruct (is0 (q_arnorm s0)).
  - exists s0. split; [|rewrite H0, H1; split_and!; lia]. intros fuel _. unfold lsqr_end. rewrite bool_decide_eq_false_2 by (rewrite H1; done). by rewrite andb_false_r.
  - set (loop := lsqr_loop f0 f1 ftiny add sub mul div neg fabs fsqrt ltb leb is0 aprod1 aprod2 o).
    assert (∀ k fuel t s, loop k t = Some s → (k <= fuel)%nat → loop fuel t = Some s) as Hmono.
    { induction k as [|k IH]; intros fuel t s Hk Hl; [done|]. destruct fuel as [|fuel]; [lia|]. unfold loop in *. cbn [lsqr_loop] in *. cbv zeta in *. destruct (decide _); [|done]. apply IH; [done|lia]. }
    destruct (lsqr_loop_count f0 f1 ftiny add sub mul div neg fabs fsqrt ltb leb is0 aprod1 aprod2 o (max 1 (o_itnlim o)) s0) as (s & Hs & Hi & Hr & H5); [rewrite H0; lia|].
    exists (lsqr_end f0 ltb o s). split.
    + intros fuel Hf. pose proof (Hmono _ _ _ _ Hs Hf) as Hm. fold loop. by rewrite Hm.
    + rewrite !elem_of_cons, elem_of_nil in Hr. unfold lsqr_end. destruct (_ && _); cbn [lsqr_set_istop q_itn q_istop]; rewrite H0 in Hi; split_and!; try lia.
Qed.
Theorem C64_lsmr_iterations m n b : ∃ s, (∀ fuel, (max 1 (o_itnlim o) <= fuel)%nat →
    lsmr_solve f0 f1 fhuge add sub mul div neg fabs fsqrt ltb leb is0 aprod1 aprod2 o fuel m n b = Some s) ∧
  (r_itn s <= max 1 (o_itnlim o))%nat ∧ (r_istop s <= 7)%nat ∧ (r_istop s = 0%nat → r_itn s = 0%nat) ∧ (r_istop s = 7%nat → (o_itnlim o <= r_itn s)%nat).
Proof.
  unfold lsmr_solve. cbv zeta. set (s0 := lsmr_start _ _ _ _ _ _ _ _ _ _ _ _ _ _ _ _).
  assert (r_itn s0 = 0%nat ∧ r_istop s0 = 0%nat) as [H0 H1].
  { unfold s0, lsmr_start. cbv zeta. destruct (ltb f0 (dnrm2 _ _ _ _ _ _ _ _ _ _)); done. }
  destruct (is0 (r_normAr s0)).
  - exists s0. split; [done|rewrite H0, H1; split_and!; lia].
  - set (loop := lsmr_loop f0 f1 add sub mul div neg fabs fsqrt ltb leb is0 aprod1 aprod2 o).
    assert (∀ k fuel t s, loop k t = Some s → (k <= fuel)%nat → loop fuel t = Some s) as Hmono.
    { induction k as [|k IH]; intros fuel t s Hk Hl; [done|]. destruct fuel as [|fuel]; [lia|]. unfold loop in *. cbn [lsmr_loop] in *. cbv zeta in *. destruct (decide _); [|done]. apply IH; [done|lia]. }
    destruct (lsmr_loop_count f0 f1 add sub mul div neg fabs fsqrt ltb leb is0 aprod1 aprod2 o (max 1 (o_itnlim o)) s0) as (s & Hs & Hi & Hr & H5); [rewrite H0; lia|].
    exists s. split.
    + intros fuel Hf. by apply (Hmono _ _ _ _ Hs Hf).
    + rewrite !elem_of_cons, elem_of_nil in Hr. rewrite H0 in Hi; split_and!; lia.
Qed.
End any.

(** ** Exact arithmetic *)
Section exact.
Variable (jdiv : R → R → R) (jsqrt : R → R) (A : nat → nat → R) (m n : nat) (aprod1 aprod2 : list R → list R → list R).
Hypothesis HA : products A m n aprod1 aprod2.
Variable (o : opts (F := R)) (b : list R) (fuel : nat).
Hypothesis Hb : length b = m.
Hypothesis Hatol : 0 <= o_atol o.
Notation damp := (o_damp o).
Notation COST := (cost A m n damp (vec b)).
Notation GRAD := (grad A m n damp (vec b)).

Lemma zero_case (x : list R) : (∀ j, vec x j = 0) → (∀ j, (j < n)%nat → tmv A m n (vec b) j = 0) → ∀ j, (j < n)%nat → GRAD (vec x) j = 0.
Proof.
  intros Hx HT j Hj. rewrite grad_mv by done. rewrite Hx, (tmv_lin A m n 1 0 (vec b) (vec b)) by (intros i _; rewrite mv_zero by done; ring). rewrite HT by done. ring.
Qed.
Lemma norm_grad x : norm n (λ j, tmv A m n (λ i, vec b i - mv A m n x i) j - damp * damp * x j) = norm n (GRAD x).
Proof. unfold norm. f_equal. apply dot_ext; intros j Hj; by rewrite grad_mv. Qed.

(** What LSQR returns: never worse than no change at all; and either the start is already the
    solution, or the reported norms are those of the returned solution and the stopping reason
    means what its message says. *)
Theorem C64_lsqr s : 0 <= damp → R_lsqr_solve jdiv jsqrt aprod1 aprod2 o fuel m n b = Some s →
  let x := vec (q_x s) in
  length (q_x s) = n ∧ COST x <= dot m (vec b) (vec b) ∧ (∀ y, (∀ i, (i < m)%nat → dot n (A i) y = 0) → dot n y x = 0) ∧
  ((q_itn s = 0%nat ∧ q_istop s = 0%nat ∧ (∀ j, x j = 0) ∧ (∀ j, (j < n)%nat → GRAD x j = 0)) ∨
   ((0 < q_itn s)%nat ∧ (q_itn s <= n)%nat ∧ (q_itn s <= m)%nat ∧
    q_rnorm s = R_sqrt.sqrt (COST x) + 1 / 10 ^ 30 ∧ q_arnorm s = norm n (GRAD x) ∧ q_xnorm s = norm n x ∧ q_bnorm s = norm m (vec b) ∧
    0 < q_anorm s ∧ q_anorm s * q_anorm s <= fro A m n + INR (q_itn s) * (damp * damp) ∧
    (q_istop s = 1%nat ∧ q_rnorm s <= o_btol o * q_bnorm s + o_atol o * q_anorm s * q_xnorm s ∨
     q_istop s = 2%nat ∧ damp = 0 ∧ q_arnorm s <= o_atol o * (q_anorm s * q_rnorm s) ∨
     q_istop s = 3%nat ∧ 0 < damp ∧ q_arnorm s <= o_atol o * (q_anorm s * q_rnorm s) ∨
     q_istop s = 4%nat ∧ 0 < o_conlim o ∧ o_conlim o <= q_acond s ∧ 0 < q_arnorm s ∨
     q_istop s = 5%nat ∧ (o_itnlim o <= q_itn s)%nat ∧ 0 < q_arnorm s) ∧
    (q_arnorm s ≠ 0 → (q_itn s < n)%nat ∧ (q_itn s < m)%nat))).
Proof using HA Hb Hatol.
  intros Hdamp. destruct HA as [Hap1 Hap2]. unfold R_lsqr_solve, lsqr_solve. cbv zeta.
  destruct (start_ok jdiv jsqrt A m n aprod2 Hap2 o b Hb) as (L0 & Hx0 & Hi0 & Hs0 & Hst). set (s0 := lsqr_start _ _ _ _ _ _ _ _ _ _ _ _ _ _) in *.
  destruct (r_is0 (q_arnorm s0)) eqn:E0.
  - intros [= <-]. assert (lsqr_end 0 r_ltb o s0 = s0) as ->.
    { unfold lsqr_end. rewrite bool_decide_eq_false_2 by (rewrite Hs0; done). by rewrite andb_false_r. }
    split; [done|]. split; [rewrite cost_zero by auto; lra|]. split; [intros y _; by apply dot_zero_r|]. left. split_and!; try done. by apply zero_case.
  - destruct (lsqr_loop _ _ _ _ _ _ _ _ _ _ _ _ _ _ _ _ fuel s0) as [s'|] eqn:El; [|done]. intros [= <-].
    destruct (loop_ok jdiv jsqrt A m n aprod1 aprod2 Hap1 Hap2 o Hdamp Hatol b Hb fuel s0 s' Hst El) as [[Lx Hbn Hbp Hr Har Hxn Hdec Han (l & Hol & Hll & Hfr) Hdn Hitn Hker H1 H2 H2' H4] Hcnt].

    assert (q_istop s' ∈ [1; 2; 4; 5]%nat ∧ (q_istop s' = 5%nat → (o_itnlim o <= q_itn s')%nat)) as [Hin H5].
    { clear -El. revert El. generalize s0. induction fuel as [|k IH]; intros t; [done|]. cbn [lsqr_loop]. cbv zeta.
      destruct (lsqr_step_count 0 1 (1 / 10 ^ 30) Rplus Rminus Rmult (r_div jdiv) Ropp Rabs (r_sqrt jsqrt) r_ltb r_leb r_is0 aprod1 aprod2 o t) as (C1 & C2 & C3 & C4).
      destruct (decide _) as [E|E]; [by apply IH|]. intros Et. apply (inj Some) in Et. rewrite Et in *. split; [set_solver|]. rewrite C1. done. }
    assert (0 <= q_arnorm s') as Har0 by (rewrite Har; apply norm_nonneg).
    assert (0 <= q_rnorm s') as Hrn0. { rewrite Hr. match goal with |- context [R_sqrt.sqrt ?a] => pose proof (sqrt_pos a) end. assert (0 < 1 / 10 ^ 30) by (apply Rdiv_lt_0_compat; [lra|apply pow_lt; lra]). lra. }
    assert (q_istop s' ≠ 1%nat → q_istop s' ≠ 2%nat → 0 < q_arnorm s') as H2''.
    { intros C1 C2. specialize (H2' C1 C2). assert (0 <= o_atol o * (q_anorm s' * q_rnorm s')) by (apply Rmult_le_pos; [done|apply Rmult_le_pos; lra]). lra. }
    rewrite <- cost_mv in Hr, Hdec. rewrite norm_grad in Har.
    assert (∀ y, (∀ i, (i < m)%nat → dot n (A i) y = 0) → dot n y (vec (q_x s')) = 0) as Hker'.
    { intros y Hy. apply Hker. intros i Hi. unfold mv. rewrite decide_True by done. by apply Hy. }
    assert (q_anorm s' * q_anorm s' <= fro A m n + INR (q_itn s') * (damp * damp)) as Hfr'.
    { rewrite Hfr, <- Hll. by apply frob_le. }
    unfold lsqr_end, damped. destruct (r_ltb 0 damp && bool_decide (q_istop s' = 2%nat)) eqn:Ee; cbn [lsqr_set_istop q_x q_itn q_istop q_rnorm q_arnorm q_xnorm q_bnorm q_anorm q_acond].
    + apply andb_true_iff in Ee as [Ed E2]. apply r_ltb_true in Ed. apply bool_decide_eq_true in E2.
      split; [done|]. split; [done|]. split; [done|]. right. destruct Hitn as (I1 & I2 & I3). split_and!; try done. right; right; left. split; [done|]. split; [done|]. by apply H2.
    + split; [done|]. split; [done|]. split; [done|]. right. destruct Hitn as (I1 & I2 & I3). split_and!; try done.
      rewrite !elem_of_cons, elem_of_nil in Hin. destruct Hin as [E|[E|[E|[E|[]]]]].
      * left. split; [done|]. by apply H1.
      * right; left. split; [done|]. split; [|by apply H2]. rewrite (bool_decide_eq_true_2 _ E), andb_true_r in Ee. apply r_ltb_false in Ee. lra.
      * right; right; right; left. split; [done|]. destruct (H4 E). split_and!; try done. apply H2''; by rewrite E.
      * right; right; right; right. split; [done|]. split; [by apply H5|]. apply H2''; by rewrite E.
Qed.

(** Without tolerances and with enough iterations, the solution is exact *)
Theorem C64_lsqr_exact s : 0 <= damp → o_atol o = 0 → o_btol o = 0 → o_conlim o <= 0 → (min m n <= o_itnlim o)%nat →
  R_lsqr_solve jdiv jsqrt aprod1 aprod2 o fuel m n b = Some s →
  optimal A m n damp (vec b) (vec (q_x s)) ∧ (∀ y, optimal A m n damp (vec b) y → dot n (vec (q_x s)) (vec (q_x s)) <= dot n y y).
Proof using HA Hb Hatol.
  intros Hdamp Ha Hbt Hc Hl Hs. destruct (C64_lsqr s Hdamp Hs) as (Lx & Hdec & Hker & Hcase).
  assert (∀ j, (j < n)%nat → GRAD (vec (q_x s)) j = 0) as Hg.
  { destruct Hcase as [(_ & _ & _ & Hg)|(I1 & I2 & I3 & Hr & Har & Hxn & Hbn & Han & Hfr & Hst & Hcnt)]; [done|].
    assert (q_arnorm s = 0) as E0; [|by apply norm_zero; rewrite <- Har].
    assert (0 <= q_arnorm s) as Hp by (rewrite Har; apply norm_nonneg).
    destruct Hst as [(_ & H)|[(_ & _ & H)|[(_ & _ & H)|[(_ & H & _)|(_ & H & H')]]]].
    - exfalso. rewrite Ha, Hbt in H. rewrite Hr in H. pose proof (sqrt_pos (COST (vec (q_x s)))). assert (0 < 1 / 10 ^ 30) by (apply Rdiv_lt_0_compat; [lra|apply pow_lt; lra]). lra.
    - rewrite Ha in H. lra.
    - rewrite Ha in H. lra.
    - lra.
    - exfalso. destruct Hcnt as [C1 C2]; [lra|]. lia. }
  split; [by apply C64_normal_equations|]. intros y Hy. by apply (shortest A m n damp (vec b)).
Qed.

(** The same for LSMR, the default solver. The reasons 4, 5 and 6 (limits of the precision of
    the machine) do not occur in exact arithmetic. *)
Theorem C64_lsmr s : 0 <= o_btol o → R_lsmr_solve jdiv jsqrt aprod1 aprod2 o fuel m n b = Some s →
  let x := vec (r_x s) in
  length (r_x s) = n ∧ COST x <= dot m (vec b) (vec b) ∧ (∀ y, (∀ i, (i < m)%nat → dot n (A i) y = 0) → dot n y x = 0) ∧
  ((r_itn s = 0%nat ∧ r_istop s = 0%nat ∧ (∀ j, x j = 0) ∧ (∀ j, (j < n)%nat → GRAD x j = 0)) ∨
   ((0 < r_itn s)%nat ∧ (r_itn s <= n)%nat ∧ (r_itn s <= m)%nat ∧
    r_normr s = R_sqrt.sqrt (COST x) ∧ r_normAr s = norm n (GRAD x) ∧ r_normx s = norm n x ∧ r_normb s = norm m (vec b) ∧
    0 < r_normA s ∧ r_normA s * r_normA s <= fro A m n ∧
    (r_istop s = 1%nat ∧ r_normr s <= o_btol o * r_normb s + o_atol o * r_normA s * r_normx s ∨
     r_istop s = 2%nat ∧ r_normAr s <= o_atol o * (r_normA s * r_normr s) ∨
     r_istop s = 3%nat ∧ 0 < o_conlim o ∧ o_conlim o <= r_condA s ∧ 0 < r_normAr s ∨
     r_istop s = 7%nat ∧ (o_itnlim o <= r_itn s)%nat ∧ 0 < r_normAr s) ∧
    (r_normAr s ≠ 0 → (r_itn s < n)%nat ∧ (r_itn s < m)%nat))).
Proof using HA Hb Hatol.
  intros Hbtol. destruct HA as [Hap1 Hap2]. unfold R_lsmr_solve, lsmr_solve. cbv zeta.
  destruct (mstart_ok jdiv jsqrt A m n aprod1 aprod2 Hap1 Hap2 o b Hb) as (L0 & Hx0 & Hi0 & Hs0 & Hst). set (s0 := lsmr_start _ _ _ _ _ _ _ _ _ _ _ _ _ _ _ _) in *.
  destruct (r_is0 (r_normAr s0)) eqn:E0.
  - intros [= <-]. split; [done|]. split; [rewrite cost_zero by auto; lra|]. split; [intros y _; by apply dot_zero_r|]. left. split_and!; try done. by apply zero_case.
  - intros El.
    destruct (mloop_ok jdiv jsqrt A m n aprod1 aprod2 Hap1 Hap2 o Hatol Hbtol b Hb fuel s0 s Hst El) as [[Lx Hbn Hbp Hr Har Hxn Hdec Han (l & Hol & Hll & Hfr) Hdn Hitn Hker H1 H1' H2 H2' H4 H456] Hcnt].
    assert (r_istop s ∈ [1; 2; 3; 4; 5; 6; 7]%nat ∧ (r_istop s = 7%nat → (o_itnlim o <= r_itn s)%nat)) as [Hin H5].
    { clear -El. revert El. generalize s0. induction fuel as [|k IH]; intros t; [done|]. cbn [lsmr_loop]. cbv zeta.
      destruct (lsmr_step_count 0 1 Rplus Rminus Rmult (r_div jdiv) Ropp Rabs (r_sqrt jsqrt) r_ltb r_leb r_is0 aprod1 aprod2 o t) as (C1 & C2 & C3 & C4).
      destruct (decide _) as [E|E]; [by apply IH|]. intros Et. apply (inj Some) in Et. rewrite Et in *. split; [set_solver|]. rewrite C1. done. }
    assert (0 <= r_normAr s) as Har0 by (rewrite Har; apply norm_nonneg).
    assert (0 <= r_normr s) as Hrn0 by (rewrite Hr; apply sqrt_pos).
    assert (r_istop s ≠ 1%nat → r_istop s ≠ 2%nat → 0 < r_normAr s) as H2''.
    { intros C1 C2. specialize (H2' C1 C2). assert (0 <= o_atol o * (r_normA s * r_normr s)) by (apply Rmult_le_pos; [done|apply Rmult_le_pos; lra]). lra. }
    rewrite <- cost_mv in Hr, Hdec. rewrite norm_grad in Har.
    split; [done|]. split; [done|]. split.
    { intros y Hy. apply Hker. intros i Hi. unfold mv. rewrite decide_True by done. by apply Hy. }
    right. destruct Hitn as (I1 & I2 & I3). split_and!; try done.
    + rewrite Hfr. by apply frob0_le.
    + rewrite !elem_of_cons, elem_of_nil in Hin. rewrite !elem_of_cons, elem_of_nil in H456.
      destruct (decide (r_istop s = 1%nat)) as [E1|N1]; [left; auto|right]. destruct (decide (r_istop s = 2%nat)) as [E2|N2]; [left; auto|right].
      destruct (decide (r_istop s = 3%nat)) as [E3|N3]; [left; destruct (H4 E3); auto|right].
      destruct (decide (r_istop s = 7%nat)) as [E7|N7]; [auto|lia].
Qed.
Theorem C64_lsmr_exact s : o_atol o = 0 → o_btol o = 0 → o_conlim o <= 0 → (min m n <= o_itnlim o)%nat →
  R_lsmr_solve jdiv jsqrt aprod1 aprod2 o fuel m n b = Some s →
  optimal A m n damp (vec b) (vec (r_x s)) ∧ (∀ y, optimal A m n damp (vec b) y → dot n (vec (r_x s)) (vec (r_x s)) <= dot n y y).
Proof using HA Hb Hatol.
  intros Ha Hbt Hc Hl Hs. destruct (C64_lsmr s ltac:(lra) Hs) as (Lx & Hdec & Hker & Hcase).
  assert (optimal A m n damp (vec b) (vec (r_x s)) ∧ ∀ j, (j < n)%nat → GRAD (vec (r_x s)) j = 0) as [Ho Hg].
  { assert (∀ P Q : Prop, (Q → P) → Q → P ∧ Q) as Hpq by tauto. apply Hpq; [by apply C64_normal_equations|].
    destruct Hcase as [(_ & _ & _ & Hg)|(I1 & I2 & I3 & Hr & Har & Hxn & Hbn & Han & Hfr & Hst & Hcnt)]; [done|].
    assert (0 <= r_normAr s) as Hp by (rewrite Har; apply norm_nonneg).
    destruct Hst as [(_ & H)|[(_ & H)|[(_ & H & _)|(_ & H & H')]]].
    - rewrite Ha, Hbt in H. pose proof (sqrt_pos (COST (vec (r_x s)))) as Hq. assert (R_sqrt.sqrt (COST (vec (r_x s))) = 0) as E0 by lra.
      apply sqrt_eq_0 in E0; [|apply cost_nonneg]. unfold cost in E0.
      pose proof (dot_nonneg m (λ i, vec b i - dot n (A i) (vec (r_x s)))) as N1. pose proof (dot_nonneg n (vec (r_x s))) as N2.
      pose proof (Rle_0_sqr damp) as Hd. unfold Rsqr in Hd. pose proof (Rmult_le_pos _ _ Hd N2) as N3.
      assert (dot m (λ i, vec b i - dot n (A i) (vec (r_x s))) (λ i, vec b i - dot n (A i) (vec (r_x s))) = 0) as Z1 by lra.
      assert (damp * damp * dot n (vec (r_x s)) (vec (r_x s)) = 0) as Z2 by lra.
      intros j Hj. unfold grad. rewrite dot_zero_r by (by apply dot_definite).
      apply Rmult_integral in Z2 as [Z2|Z2]; [rewrite Z2; ring|]. rewrite (dot_definite n _ Z2 j Hj). ring.
    - assert (r_normAr s = 0) as E0 by (rewrite Ha in H; lra). by apply norm_zero; rewrite <- Har.
    - lra.
    - exfalso. destruct Hcnt as [C1 C2]; [lra|]. lia. }
  split; [done|]. intros y Hy. by apply (shortest A m n damp (vec b)).
Qed.
End exact.

(** ** Concrete cases: every matrix has such products; the solution of a 2x2 system *)
Definition list_prod1 (A : nat → nat → R) (m n : nat) (x y : list R) : list R := (λ i, vec y i + dot n (A i) (vec x)) <$> seq 0 m.
Definition list_prod2 (A : nat → nat → R) (m n : nat) (x y : list R) : list R := (λ j, vec x j + dot m (λ i, A i j) (vec y)) <$> seq 0 n.
Lemma vec_fmap_seq (f : nat → R) k i : (i < k)%nat → vec (f <$> seq 0 k) i = f i.
Proof. intros Hi. unfold vec. erewrite nth_lookup_Some; [done|]. rewrite list_lookup_fmap, lookup_seq_lt by done. done. Qed.
Lemma list_products A m n : products A m n (list_prod1 A m n) (list_prod2 A m n).
Proof. split; intros x y Hx Hy; unfold list_prod1, list_prod2; (split; [by rewrite fmap_length, seq_length|]; intros i Hi; by rewrite vec_fmap_seq). Qed.
(** 2 x + y = 4, 3 y = 6 *)
Definition ex_A (i j : nat) : R := match i, j with O, O => 2 | O, S O => 1 | S O, S O => 3 | _, _ => 0 end.
Definition ex_o : opts (F := R) := Opts 0 0 0 0 2.
Lemma ex_unique x : optimal ex_A 2 2 0 (vec [4; 6]) x → x 0%nat = 1 ∧ x 1%nat = 2.
Proof.
  intros H. specialize (H (vec [1; 2])). unfold cost, dot, vec in H. cbn in H.
  assert (∀ p q : R, p * p + q * q <= 0 → p = 0 ∧ q = 0) as Hsq.
  { intros p q E. pose proof (Rle_0_sqr p) as H1. pose proof (Rle_0_sqr q) as H2. unfold Rsqr in *. split; apply sq_zero; lra. }
  destruct (Hsq (4 - (2 * x 0%nat + 1 * x 1%nat)) (6 - (0 * x 0%nat + 3 * x 1%nat))); [|lra]. lra.
Qed.
Example C64_lsqr_example jdiv jsqrt : ∃ s, R_lsqr_solve jdiv jsqrt (list_prod1 ex_A 2 2) (list_prod2 ex_A 2 2) ex_o 2 2 2 [4; 6] = Some s ∧ q_x s = [1; 2].
Proof.
  destruct (C64_lsqr_iterations 0 1 (1 / 10 ^ 30) Rplus Rminus Rmult (r_div jdiv) Ropp Rabs (r_sqrt jsqrt) r_ltb r_leb r_is0 (list_prod1 ex_A 2 2) (list_prod2 ex_A 2 2) ex_o 2 2 [4; 6]) as (s & Hs & _).
  specialize (Hs 2%nat (le_n 2)). exists s. split; [exact Hs|].
  destruct (C64_lsqr_exact jdiv jsqrt ex_A 2 2 _ _ (list_products ex_A 2 2) ex_o [4; 6] 2 eq_refl (Rle_refl 0) s (Rle_refl 0) eq_refl eq_refl (Rle_refl 0) (le_n 2) Hs) as [Ho _].
  destruct (C64_lsqr jdiv jsqrt ex_A 2 2 _ _ (list_products ex_A 2 2) ex_o [4; 6] 2 eq_refl (Rle_refl 0) s (Rle_refl 0) Hs) as [Hl _].
  apply ex_unique in Ho as [E1 E2]. destruct (q_x s) as [|a [|c [|]]]; try done. unfold vec in *. cbn in E1, E2. by rewrite E1, E2.
Qed.
Example C64_lsmr_example jdiv jsqrt : ∃ s, R_lsmr_solve jdiv jsqrt (list_prod1 ex_A 2 2) (list_prod2 ex_A 2 2) ex_o 2 2 2 [4; 6] = Some s ∧ r_x s = [1; 2].
Proof.
  destruct (C64_lsmr_iterations 0 1 (10 ^ 100) Rplus Rminus Rmult (r_div jdiv) Ropp Rabs (r_sqrt jsqrt) r_ltb r_leb r_is0 (list_prod1 ex_A 2 2) (list_prod2 ex_A 2 2) ex_o 2 2 [4; 6]) as (s & Hs & _).
  specialize (Hs 2%nat (le_n 2)). exists s. split; [exact Hs|].
  destruct (C64_lsmr_exact jdiv jsqrt ex_A 2 2 _ _ (list_products ex_A 2 2) ex_o [4; 6] 2 eq_refl (Rle_refl 0) s eq_refl eq_refl (Rle_refl 0) (le_n 2) Hs) as [Ho _].
  destruct (C64_lsmr jdiv jsqrt ex_A 2 2 _ _ (list_products ex_A 2 2) ex_o [4; 6] 2 eq_refl (Rle_refl 0) s (Rle_refl 0) Hs) as [Hl _].
  apply ex_unique in Ho as [E1 E2]. destruct (r_x s) as [|a [|c [|]]]; try done. unfold vec in *. cbn in E1, E2. by rewrite E1, E2.
Qed.

Print Assumptions C64_normal_equations.
Print Assumptions C64_d2norm.
Print Assumptions C64_dnrm2.
Print Assumptions C64_lsqr_iterations.
Print Assumptions C64_lsmr_iterations.
Print Assumptions C64_lsqr.
Print Assumptions C64_lsqr_exact.
Print Assumptions C64_lsmr.
Print Assumptions C64_lsmr_exact.
