(** The mathematics of an iteration of LSQR, in exact arithmetic *)
From Coq Require Import Reals Lra Lia Nsatz.
From stdpp Require Import numbers list.
From Verif Require Import LinAlg.
Local Open Scope R_scope.

Lemma dot_bilin n a b x y z c d x' y' z' :
  (∀ i, (i < n)%nat → z i = a * x i + b * y i) → (∀ i, (i < n)%nat → z' i = c * x' i + d * y' i) →
  dot n z z' = a * c * dot n x x' + a * d * dot n x y' + b * c * dot n y x' + b * d * dot n y y'.
Proof. intros H1 H2. rewrite (dot_lin n a b x y z z' H1), !(dot_lin_r n c d x' y' z' _ H2). lra. Qed.

Lemma dot_scal2 n a x z : (∀ i, (i < n)%nat → z i = a * x i) → dot n z z = a * a * dot n x x.
Proof. intros H. rewrite (dot_scal n a x z z H), (dot_scal_r n a x z x H). ring. Qed.

Section lsqr.
Variable (A : nat → nat → R) (m n : nat) (b : nat → R) (damp : R).
Notation M := (mv A m n).
Notation T := (tmv A m n).

(** The residual of the damped problem is (b - A x, - damp x); (ua, ub) is the vector whose
    multiple by phibar is its part that can still be reduced, (ga, gb) is the rest *)
Record qinv (u v w x : nat → R) (alpha rhobar phibar res2 xnorm1 cs2 sn2 z : R) (HU HV : list (nat → R)) (ua ub ga gb X1 : nat → R) : Prop := {
  qi_bd : bd A m n u v alpha HU HV;
  qi_rho : rhobar ≠ 0; qi_cs2 : cs2 ≠ 0;
  qi_res : ∀ i, (i < m)%nat → b i - M x i = phibar * ua i + ga i;
  qi_resd : ∀ j, (j < n)%nat → - damp * x j = phibar * ub j + gb j;
  qi_tu : ∀ j, (j < n)%nat → T ua j + damp * ub j = rhobar * v j;
  qi_tg : ∀ j, (j < n)%nat → T ga j + damp * gb j = 0;
  qi_w : ∀ i, (i < m)%nat → M w i = rhobar * ua i + M v i - alpha * u i;
  qi_wd : ∀ j, (j < n)%nat → damp * w j = rhobar * ub j + damp * v j;
  qi_uu : dot m ua ua + dot n ub ub = 1;
  qi_ug : dot m ua ga + dot n ub gb = 0;
  qi_gg : dot m ga ga + dot n gb gb = res2 * res2;
  qi_su : ∀ y, dot m y u = 0 → perp m y HU → dot m y ua = 0 ∧ dot m y ga = 0;
  qi_sv : ∀ y, perp n y HV → dot n y ub = 0 ∧ dot n y gb = 0;
  qi_x : ∀ j, (j < n)%nat → x j = X1 j - sn2 * z * w j;
  qi_ww : cs2 * cs2 * dot n w w = 1;
  qi_xw : dot n X1 w = 0;
  qi_xx : dot n X1 X1 = xnorm1 * xnorm1;
  qi_sw : ∀ y, dot n y v = 0 → perp n y HV → dot n y w = 0 ∧ dot n y X1 = 0 }.

Section step.
Variable (u v w x : nat → R) (alpha rhobar phibar res2 xnorm1 cs2 sn2 z : R) (HU HV : list (nat → R)) (ua ub ga gb X1 : nat → R).
Hypothesis Hi : qinv u v w x alpha rhobar phibar res2 xnorm1 cs2 sn2 z HU HV ua ub ga gb X1.
Variable (u' : nat → R) (beta : R).
Hypothesis Hb0 : 0 <= beta.
Hypothesis Hu : ∀ i, (i < m)%nat → beta * u' i = M v i - alpha * u i.
Hypothesis Hu1 : 0 < beta → dot m u' u' = 1.
Variable (c1 s1 cs sn rho : R).
Hypothesis Hc1 : c1 * c1 + s1 * s1 = 1.
Hypothesis Hc : cs * cs + sn * sn = 1.
Hypothesis Hrho : rho ≠ 0.
Hypothesis Hrb : rhobar = c1 * (cs * rho).
Hypothesis Hdm : damp = s1 * (cs * rho).
Hypothesis Hbt : beta = sn * rho.
Variable (x' : nat → R).
Hypothesis Hx : ∀ j, (j < n)%nat → x' j = x j + cs * (c1 * phibar) / rho * w j.

Definition psi' := s1 * phibar.
Definition phibar' := sn * (c1 * phibar).
Definition ua' (i : nat) : R := sn * c1 * ua i - cs * u' i.
Definition ub' (i : nat) : R := sn * (c1 * ub i + s1 * v i).
Definition ga' (i : nat) : R := ga i + psi' * s1 * ua i.
Definition gb' (i : nat) : R := gb i + psi' * (s1 * ub i - c1 * v i).

Lemma step_res i : (i < m)%nat → b i - M x' i = phibar' * ua' i + ga' i.
Proof.
  intros Hl. rewrite (mv_lin A m n 1 (cs * (c1 * phibar) / rho) x w x') by (intros j Hj; rewrite Hx by done; lra).
  pose proof (qi_res _ _ _ _ _ _ _ _ _ _ _ _ _ _ _ _ _ _ _ Hi i Hl) as H1. pose proof (qi_w _ _ _ _ _ _ _ _ _ _ _ _ _ _ _ _ _ _ _ Hi i Hl) as H2.
  specialize (Hu i Hl). assert (M w i = rhobar * ua i + beta * u' i) as -> by lra. rewrite Hrb, Hbt.
  replace (cs * (c1 * phibar) / rho * (c1 * (cs * rho) * ua i + sn * rho * u' i)) with (cs * (c1 * phibar) * (c1 * cs * ua i + sn * u' i)) by (field; done).
  unfold phibar', ua', ga', psi'. clear -H1 Hc1 Hc. nsatz.
Qed.
Lemma step_resd j : (j < n)%nat → - damp * x' j = phibar' * ub' j + gb' j.
Proof.
  intros Hl. rewrite Hx by done.
  pose proof (qi_resd _ _ _ _ _ _ _ _ _ _ _ _ _ _ _ _ _ _ _ Hi j Hl) as H1. pose proof (qi_wd _ _ _ _ _ _ _ _ _ _ _ _ _ _ _ _ _ _ _ Hi j Hl) as H2.
  replace (- damp * (x j + cs * (c1 * phibar) / rho * w j)) with (- damp * x j - cs * (c1 * phibar) / rho * (damp * w j)) by (field; done).
  rewrite H2, H1, Hrb. rewrite Hdm at 1.
  replace (cs * (c1 * phibar) / rho * (c1 * (cs * rho) * ub j + s1 * (cs * rho) * v j)) with (cs * (c1 * phibar) * cs * (c1 * ub j + s1 * v j)) by (field; done).
  unfold phibar', ub', gb', psi'. clear -Hc1 Hc. nsatz.
Qed.
Lemma step_tg j : (j < n)%nat → T ga' j + damp * gb' j = 0.
Proof.
  intros Hl. rewrite (tmv_lin A m n 1 (psi' * s1) ga ua) by (intros i _; unfold ga'; lra).
  pose proof (qi_tg _ _ _ _ _ _ _ _ _ _ _ _ _ _ _ _ _ _ _ Hi j Hl) as H1. pose proof (qi_tu _ _ _ _ _ _ _ _ _ _ _ _ _ _ _ _ _ _ _ Hi j Hl) as H2.
  unfold gb'. assert (T ga j = - (damp * gb j)) as -> by lra. assert (T ua j = rhobar * v j - damp * ub j) as -> by lra.
  rewrite Hrb, Hdm. ring.
Qed.
(** The normal equations at the new solution *)
Lemma step_normal j : (j < n)%nat → T (λ i, b i - M x' i) j - damp * damp * x' j = phibar' * (T ua' j + damp * ub' j).
Proof.
  intros Hl. rewrite (tmv_lin A m n phibar' 1 ua' ga') by (intros i Hl'; rewrite step_res by done; lra).
  pose proof (step_tg j Hl). pose proof (step_resd j Hl). nra.
Qed.
Lemma step_tu v' alpha' j : (j < n)%nat → alpha' * v' j = T u' j - beta * v j → T ua' j + damp * ub' j = - cs * alpha' * v' j.
Proof.
  intros Hl Hv. rewrite (tmv_lin A m n (sn * c1) (- cs) ua u') by (intros i _; unfold ua'; lra).
  pose proof (qi_tu _ _ _ _ _ _ _ _ _ _ _ _ _ _ _ _ _ _ _ Hi j Hl) as H2.
  unfold ub'. assert (T u' j = alpha' * v' j + beta * v j) as -> by lra. assert (T ua j = rhobar * v j - damp * ub j) as -> by lra.
  rewrite Hrb, Hdm, Hbt. clear -Hc1 Hc. nsatz.
Qed.

Lemma vperp : dot n v v = 1 ∧ perp n v HV.
Proof. destruct (qi_bd _ _ _ _ _ _ _ _ _ _ _ _ _ _ _ _ _ _ _ Hi) as [_ _ (H1 & H2 & _) _ _ _ _ _ _]. done. Qed.
Lemma uperp : 0 < beta → dot m u' u = 0 ∧ perp m u' HU.
Proof. intros Hb. apply perp_cons. apply (bd_next_u A m n u v alpha HU HV u' beta); [by destruct Hi|done|done]. Qed.

Lemma step_gg : dot m ga' ga' + dot n gb' gb' = res2 * res2 + psi' * psi'.
Proof.
  destruct vperp as [Hv1 Hv2]. destruct Hi as [_ _ _ _ _ _ _ _ _ Huu Hug Hgg Hsu Hsv _ _ _ _ _]. destruct (Hsv v Hv2) as [Hvb Hvg].
  rewrite (dot_sq m 1 (psi' * s1) ga ua ga') by (intros i _; unfold ga'; lra).
  rewrite (dot_sq n 1 psi' gb (λ i, s1 * ub i - c1 * v i) gb') by (intros i _; unfold gb'; lra).
  rewrite (dot_sq n s1 (- c1) ub v (λ i, s1 * ub i - c1 * v i)) by (intros i _; lra). rewrite (dot_lin_r n s1 (- c1) ub v (λ i, s1 * ub i - c1 * v i)) by (intros i _; lra).
  rewrite (dot_comm n ub v), (dot_comm n gb v), (dot_comm n gb ub), (dot_comm m ga ua), Hv1, Hvb, Hvg.
  clear -Hc1 Huu Hug Hgg. nsatz.
Qed.
Lemma step_uu : 0 < beta → dot m ua' ua' + dot n ub' ub' = 1.
Proof.
  intros Hb. destruct vperp as [Hv1 Hv2]. destruct (uperp Hb) as [Hu2 Hu3]. specialize (Hu1 Hb).
  destruct Hi as [_ _ _ _ _ _ _ _ _ Huu Hug Hgg Hsu Hsv _ _ _ _ _]. destruct (Hsv v Hv2) as [Hvb Hvg]. destruct (Hsu u' Hu2 Hu3) as [Hua Huga].
  rewrite (dot_sq m (sn * c1) (- cs) ua u' ua') by (intros i _; unfold ua'; lra).
  rewrite (dot_sq n (sn * c1) (sn * s1) ub v ub') by (intros i _; unfold ub'; lra).
  rewrite (dot_comm n ub v), (dot_comm m ua u'), Hv1, Hvb, Hua, Hu1. clear -Hc1 Hc Huu. nsatz.
Qed.
Lemma step_ug : 0 < beta → dot m ua' ga' + dot n ub' gb' = 0.
Proof.
  intros Hb. destruct vperp as [Hv1 Hv2]. destruct (uperp Hb) as [Hu2 Hu3]. specialize (Hu1 Hb).
  destruct Hi as [_ _ _ _ _ _ _ _ _ Huu Hug Hgg Hsu Hsv _ _ _ _ _]. destruct (Hsv v Hv2) as [Hvb Hvg]. destruct (Hsu u' Hu2 Hu3) as [Hua Huga].
  rewrite (dot_bilin m (sn * c1) (- cs) ua u' ua' 1 (psi' * s1) ga ua ga') by (intros i _; unfold ua', ga'; lra).
  rewrite (dot_bilin n (sn * c1) (sn * s1) ub v ub' 1 psi' gb (λ i, s1 * ub i - c1 * v i) gb') by (intros i _; unfold ub', gb'; lra).
  rewrite !(dot_lin_r n s1 (- c1) ub v (λ i, s1 * ub i - c1 * v i)) by (intros i _; lra).
  rewrite (dot_comm n ub v), Hv1, Hvb, Hvg, Hua, Huga. clear -Hc1 Hc Huu Hug. nsatz.
Qed.
(** The norm of the residual *)
Lemma step_norm : dot m (λ i, b i - M x' i) (λ i, b i - M x' i) + damp * damp * dot n x' x' = res2 * res2 + psi' * psi' + phibar' * phibar'.
Proof.
  assert (damp * damp * dot n x' x' = dot n (λ j, - damp * x' j) (λ j, - damp * x' j)) as ->.
  { rewrite (dot_scal2 n (- damp) x' (λ j, - damp * x' j)) by done. ring. }
  rewrite (dot_sq m phibar' 1 ua' ga' (λ i, b i - M x' i)) by (intros i Hl; rewrite step_res by done; lra).
  rewrite (dot_sq n phibar' 1 ub' gb' (λ j, - damp * x' j)) by (intros i Hl; rewrite step_resd by done; lra).
  pose proof step_gg as H3. destruct (Req_dec beta 0) as [H0|H0].
  - assert (sn = 0) as Hsn. { rewrite H0 in Hbt. symmetry in Hbt. apply Rmult_integral in Hbt as [|]; done. }
    unfold phibar'. rewrite Hsn. clear -H3. nsatz.
  - assert (0 < beta) as Hb by lra. pose proof (step_uu Hb) as H1. pose proof (step_ug Hb) as H2. clear -H1 H2 H3. nsatz.
Qed.

(** The norm of the solution *)
Variable (zbar gambar : R).
Hypothesis Hgb : gambar = - cs2 * rho.
Hypothesis Hzb : zbar * gambar = cs * (c1 * phibar) - sn2 * rho * z.
Lemma step_x j : (j < n)%nat → x' j = X1 j + zbar * (- cs2 * w j).
Proof.
  intros Hl. rewrite Hx by done. destruct Hi as [_ _ Hcs2 _ _ _ _ _ _ _ _ _ _ _ Hx1 _ _ _ _]. rewrite Hx1 by done.
  assert (zbar * - cs2 = cs * (c1 * phibar) / rho - sn2 * z) as H; [|replace (zbar * (- cs2 * w j)) with (zbar * - cs2 * w j) by ring; rewrite H; lra].
  rewrite Hgb in Hzb. apply (Rmult_eq_reg_r rho); [|done]. replace (zbar * - cs2 * rho) with (zbar * (- cs2 * rho)) by ring. rewrite Hzb. field. done.
Qed.
Lemma step_xnorm : dot n x' x' = xnorm1 * xnorm1 + zbar * zbar.
Proof.
  rewrite (dot_sq n 1 zbar X1 (λ j, - cs2 * w j) x') by (intros j Hl; rewrite step_x by done; lra).
  destruct Hi as [_ _ _ _ _ _ _ _ _ _ _ _ _ _ _ Hww Hxw Hxx _].
  rewrite (dot_scal_r n (- cs2) w (λ j, - cs2 * w j) X1) by done. rewrite (dot_scal2 n (- cs2) w (λ j, - cs2 * w j)) by done.
  rewrite Hxw, Hxx. clear -Hww. nsatz.
Qed.

(** The next iteration *)
Variable (v' w' : nat → R) (alpha' theta gamma cs2' sn2' z' : R).
Hypothesis Hb : 0 < beta.
Hypothesis Ha' : 0 < alpha'.
Hypothesis Hv : ∀ j, (j < n)%nat → alpha' * v' j = T u' j - beta * v j.
Hypothesis Hv1 : dot n v' v' = 1.
Hypothesis Hth : theta = sn * alpha'.
Hypothesis Hw : ∀ j, (j < n)%nat → w' j = - theta / rho * w j + v' j.
Hypothesis Hga : gamma * gamma = gambar * gambar + theta * theta.
Hypothesis Hga0 : gamma ≠ 0.
Hypothesis Hcs2' : cs2' = gambar / gamma.
Hypothesis Hsn2' : sn2' = theta / gamma.
Hypothesis Hz' : z' * gamma = cs * (c1 * phibar) - sn2 * rho * z.
Variable (xnorm1' res2' : R).
Hypothesis Hxn : xnorm1' * xnorm1' = xnorm1 * xnorm1 + z' * z'.
Hypothesis Hre : res2' * res2' = res2 * res2 + psi' * psi'.
Definition X1' (j : nat) : R := X1 j + z' * (cs2' * (- cs2 * w j) + sn2' * v' j).

Lemma step_next : qinv u' v' w' x' alpha' (- cs * alpha') phibar' res2' xnorm1' cs2' sn2' z' (u :: HU) (v :: HV) ua' ub' ga' gb' X1'.
Proof.
  pose proof Hi as Hi0. destruct Hi0 as [Hbd Hrb0 Hcs20 _ _ _ _ Hmw Hwd Huu Hug Hgg Hsu Hsv Hx1 Hww Hxw Hxx Hsw].
  assert (bd A m n u' v' alpha' (u :: HU) (v :: HV)) as Hbd' by (by apply (bd_next A m n u v alpha HU HV u' v' alpha' beta); auto).
  destruct (bd_v _ _ _ _ _ _ _ _ Hbd') as (_ & [Hvv Hvp]%perp_cons & _).
  destruct (Hsw v' Hvv Hvp) as [Hvw HvX].
  assert (gambar ≠ 0) as Hg0 by (rewrite Hgb; clear -Hcs20 Hrho; apply Rmult_integral_contrapositive_currified; [lra|done]).
  assert (cs ≠ 0) as Hcs0 by (intros E; apply Hrb0; rewrite Hrb, E; ring).
  assert (cs2' * cs2' + sn2' * sn2' = 1) as Hrot. { rewrite Hcs2', Hsn2'. apply (Rmult_eq_reg_r (gamma * gamma)); [|by apply Rmult_integral_contrapositive_currified]. transitivity (gambar * gambar + theta * theta); [field; done|lra]. }
  (* - cs2' w' is the next unit vector *)
  assert (∀ j, (j < n)%nat → - cs2' * w' j = sn2' * (- cs2 * w j) + - cs2' * v' j) as Hpb.
  { intros j Hl. rewrite Hw by done. rewrite Hcs2', Hsn2', Hgb. field. done. }
  assert (dot n (λ j, - cs2 * w j) (λ j, - cs2 * w j) = 1) as Hp1. { rewrite (dot_scal2 n (- cs2) w (λ j, - cs2 * w j)) by done. lra. }
  assert (dot n v' (λ j, - cs2 * w j) = 0) as Hp2. { rewrite (dot_scal_r n (- cs2) w (λ j, - cs2 * w j) v'), Hvw by done. ring. }
  assert (cs2' ≠ 0) as Hc20 by (rewrite Hcs2'; by apply Rmult_integral_contrapositive_currified; [|apply Rinv_neq_0_compat]).
  assert (∀ y, - cs2' * dot n y w' = sn2' * dot n y (λ j, - cs2 * w j) - cs2' * dot n y v') as Hdw.
  { intros y. rewrite <- (dot_scal_r n (- cs2') w' (λ j, - cs2' * w' j) y) by done. rewrite (dot_lin_r n sn2' (- cs2') (λ j, - cs2 * w j) v' _ y Hpb). ring. }
  assert (∀ y, dot n y (λ j, - cs2 * w j) = - cs2 * dot n y w) as Hdp by (intros y; by apply dot_scal_r).
  assert (∀ y, dot n X1' y = dot n X1 y + z' * (cs2' * dot n (λ j, - cs2 * w j) y + sn2' * dot n v' y)) as HdX.
  { intros y. rewrite (dot_lin n 1 z' X1 (λ j, cs2' * (- cs2 * w j) + sn2' * v' j) X1') by (intros j _; unfold X1'; lra).
    rewrite (dot_lin n cs2' sn2' (λ j, - cs2 * w j) v' (λ j, cs2' * (- cs2 * w j) + sn2' * v' j)) by done. ring. }
  assert (dot n (λ j, - cs2 * w j) v' = 0) as Hp2' by (by rewrite dot_comm).
  assert (dot n X1 v' = 0) as HXv by (by rewrite dot_comm).
  assert (dot n X1 (λ j, - cs2 * w j) = 0) as HXp by (rewrite Hdp, Hxw; ring).
  split.
  - done.
  - clear -Hcs0 Ha'. apply Rmult_integral_contrapositive_currified; lra.
  - done.
  - apply step_res.
  - apply step_resd.
  - intros j Hl. apply (step_tu v' alpha' j Hl). by apply Hv.
  - apply step_tg.
  - intros i Hl. rewrite (mv_lin A m n (- theta / rho) 1 w v' w') by (intros j Hj; rewrite Hw by done; lra).
    specialize (Hmw i Hl). specialize (Hu i Hl). assert (M w i = rhobar * ua i + beta * u' i) as -> by lra. unfold ua'. rewrite Hth, Hrb, Hbt.
    replace (- (sn * alpha') / rho * (c1 * (cs * rho) * ua i + sn * rho * u' i)) with (- (sn * alpha') * (c1 * cs * ua i + sn * u' i)) by (field; done).
    clear -Hc. nsatz.
  - intros j Hl. rewrite Hw by done. specialize (Hwd j Hl). unfold ub'.
    replace (damp * (- theta / rho * w j + v' j)) with (- theta / rho * (damp * w j) + damp * v' j) by (field; done).
    rewrite Hwd, Hth, Hrb. rewrite Hdm at 1.
    replace (- (sn * alpha') / rho * (c1 * (cs * rho) * ub j + s1 * (cs * rho) * v j)) with (- (sn * alpha') * cs * (c1 * ub j + s1 * v j)) by (field; done). ring.
  - by apply step_uu.
  - by apply step_ug.
  - rewrite step_gg. done.
  - intros y Hy [Hy1 Hy2]%perp_cons. destruct (Hsu y Hy1 Hy2) as [H1 H2]. split.
    + rewrite (dot_lin_r m (sn * c1) (- cs) ua u' ua' y) by (intros i _; unfold ua'; lra). rewrite H1, Hy. ring.
    + rewrite (dot_lin_r m 1 (psi' * s1) ga ua ga' y) by (intros i _; unfold ga'; lra). rewrite H1, H2. ring.
  - intros y [Hy1 Hy2]%perp_cons. destruct (Hsv y Hy2) as [H1 H2]. split.
    + rewrite (dot_lin_r n (sn * c1) (sn * s1) ub v ub' y) by (intros i _; unfold ub'; lra). rewrite H1, Hy1. ring.
    + rewrite (dot_lin_r n 1 psi' gb (λ i, s1 * ub i - c1 * v i) gb' y) by (intros i _; unfold gb'; lra).
      rewrite (dot_lin_r n s1 (- c1) ub v (λ i, s1 * ub i - c1 * v i) y) by (intros i _; lra). rewrite H1, H2, Hy1. ring.
  - intros j Hl. rewrite step_x by done. unfold X1'.
    assert (zbar = z' * gamma / gambar) as -> by (rewrite Hz', <- Hzb; field; done).
    specialize (Hpb j Hl). apply (Rmult_eq_reg_l (- cs2')); [|lra].
    transitivity (- cs2' * (X1 j + z' * (cs2' * (- cs2 * w j) + sn2' * v' j)) - sn2' * z' * (- cs2' * w' j)); [|ring]. rewrite Hpb.
    assert (gamma / gambar = / cs2') as Hgg' by (rewrite Hcs2'; field; done).
    replace (z' * gamma / gambar) with (z' * (gamma / gambar)) by (field; done). rewrite Hgg'.
    assert (/ cs2' * cs2' = 1) as Hinv by (by apply Rinv_l).
    clear -Hrot Hinv. set (k := / cs2') in *. clearbody k. nsatz.
  - specialize (Hdw (λ j, - cs2' * w' j)). 
    assert (cs2' * cs2' * dot n w' w' = dot n (λ j, - cs2' * w' j) (λ j, - cs2' * w' j)) as ->. { rewrite (dot_scal2 n (- cs2') w' (λ j, - cs2' * w' j)) by done. ring. }
    rewrite (dot_sq n sn2' (- cs2') (λ j, - cs2 * w j) v' _ Hpb), Hp1, Hv1, (dot_comm n _ v'), Hp2. clear -Hrot. nsatz.
  - assert (- cs2' * dot n X1' w' = 0) as H; [|apply Rmult_integral in H; lra].
    rewrite Hdw, HdX, (HdX v'), HXp, HXv, Hp1, Hp2', Hp2, Hv1. ring.
  - rewrite HdX, (dot_comm n X1 X1'), (dot_comm n (λ j, - cs2 * w j) X1'), (dot_comm n v' X1'), !HdX, (dot_comm n (λ j, - cs2 * w j) X1), (dot_comm n v' X1), Hxx, HXp, HXv, Hp1, Hp2', Hp2, Hv1, Hxn.
    clear -Hrot. nsatz.
  - intros y Hy [Hy1 Hy2]%perp_cons. destruct (Hsw y Hy1 Hy2) as [H1 H2]. split.
    + assert (- cs2' * dot n y w' = 0) as H; [|apply Rmult_integral in H; lra]. rewrite Hdw, Hdp, H1, Hy. ring.
    + rewrite (dot_comm n y), HdX, (dot_comm n (λ j, - cs2 * w j) y), Hdp, H1, (dot_comm n v' y), Hy, (dot_comm n X1 y), H2. ring.
Qed.
End step.
End lsqr.
