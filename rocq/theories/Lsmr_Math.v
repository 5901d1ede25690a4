(** The mathematics of an iteration of LSMR, in exact arithmetic *)
From Coq Require Import Reals Lra Lia Nsatz.
From stdpp Require Import numbers list.
From Verif Require Import LinAlg Lsqr_Math.
Local Open Scope R_scope.

Section lsmr.
Variable (A : nat → nat → R) (m n : nat) (b : nat → R) (damp : R).
Notation M := (mv A m n).
Notation T := (tmv A m n).

(** The residual of the damped problem is (b - A x, - damp x). (ua, ub) and (ga, gb) are as for
    LSQR; the rest of the residual is a multiple of (A hbar, damp hbar). The gradient is a
    multiple of vb; (A'A + damp^2) hbar is a multiple of p. *)
Record minv (u v h hbar x : nat → R) (alpha alphabar zetabar rho rhobar cbar sbar betadd rhod d : R) (HU HV : list (nat → R)) (ua ub ga gb vb p : nat → R) : Prop := {
  mi_bd : bd A m n u v alpha HU HV;
  mi_ab : 0 < alphabar; mi_cb : 0 < cbar; mi_rho : 0 < rho; mi_rb : 0 < rhobar; mi_rd : 0 < rhod;
  mi_zb : zetabar = cbar * alphabar * betadd;
  mi_res : ∀ i, (i < m)%nat → b i - M x i = betadd * ua i + ga i - sbar * alphabar * betadd / (rho * rhobar) * M hbar i;
  mi_resd : ∀ j, (j < n)%nat → - damp * x j = betadd * ub j + gb j - sbar * alphabar * betadd / (rho * rhobar) * (damp * hbar j);
  mi_tu : ∀ j, (j < n)%nat → T ua j + damp * ub j = alphabar * v j;
  mi_h : ∀ i, (i < m)%nat → M h i = alphabar * ua i + M v i - alpha * u i;
  mi_hd : ∀ j, (j < n)%nat → damp * h j = alphabar * ub j + damp * v j;
  mi_grad : ∀ j, (j < n)%nat → T (λ i, b i - M x i) j - damp * damp * x j = zetabar * vb j;
  mi_nh : ∀ j, (j < n)%nat → T (M hbar) j + damp * damp * hbar j = rho * rhobar * p j;
  mi_v : ∀ j, (j < n)%nat → v j = cbar * vb j + sbar * p j;
  mi_vb : dot n vb vb = 1;
  mi_uu : dot m ua ua + dot n ub ub = 1;
  mi_ug : dot m ua ga + dot n ub gb = 0;
  mi_gg : dot m ga ga + dot n gb gb = d;
  mi_hu : dot m (M hbar) ua + damp * dot n hbar ub = 0;
  mi_hg : dot m (M hbar) ga + damp * dot n hbar gb = 0;
  mi_hh : sbar = 0 ∨ rhod * rhod * (dot m (M hbar) (M hbar) + damp * damp * dot n hbar hbar) = rho * rhobar * (rho * rhobar);
  mi_su : ∀ y, dot m y u = 0 → perp m y HU → dot m y ua = 0 ∧ dot m y ga = 0 ∧ dot m y (M hbar) = 0;
  mi_sv : ∀ y, perp n y HV → dot n y ub = 0 ∧ dot n y gb = 0 ∧ dot n y hbar = 0 ∧ dot n y x = 0;
  mi_sw : ∀ y, dot n y v = 0 → perp n y HV → dot n y h = 0 ∧ dot n y vb = 0 }.

Section step.
Variable (u v h hbar x : nat → R) (alpha alphabar zetabar rho rhobar cbar sbar betadd rhod d : R) (HU HV : list (nat → R)) (ua ub ga gb vb p : nat → R).
Hypothesis Hi : minv u v h hbar x alpha alphabar zetabar rho rhobar cbar sbar betadd rhod d HU HV ua ub ga gb vb p.
Variable (u' v' : nat → R) (beta alpha' : R).
Hypothesis Hb0 : 0 <= beta.
Hypothesis Hu : ∀ i, (i < m)%nat → beta * u' i = M v i - alpha * u i.
Hypothesis Hpos : 0 < beta → dot m u' u' = 1 ∧ (∀ j, (j < n)%nat → alpha' * v' j = T u' j - beta * v j).
Variable (chat shat c s rho' rhobar' cbar' sbar' : R).
Hypothesis Hch : chat * chat + shat * shat = 1.
Hypothesis Hcs : c * c + s * s = 1.
Hypothesis Hcb : cbar' * cbar' + sbar' * sbar' = 1.
Hypothesis Hrho : 0 < rho'.
Hypothesis Hrbp : 0 < rhobar'.
Hypothesis Hab : alphabar = chat * (c * rho').
Hypothesis Hdm : damp = shat * (c * rho').
Hypothesis Hbt : beta = s * rho'.
Hypothesis Hcb' : cbar * rho' = cbar' * rhobar'.
Hypothesis Hth : s * alpha' = sbar' * rhobar'.
Variable (hbar' x' : nat → R).
Hypothesis Hhb : ∀ j, (j < n)%nat → hbar' j = h j - sbar * rho' * rho' / (rho * rhobar) * hbar j.
Hypothesis Hx : ∀ j, (j < n)%nat → x' j = x j + cbar' * zetabar / (rho' * rhobar') * hbar' j.

Notation betadd' := (- s * (chat * betadd)).
Notation alphabar' := (c * alpha').
Notation zetabar' := (- sbar' * zetabar).
Notation betacheck := (- shat * betadd).
Notation ua' := (λ i, - s * chat * ua i + c * u' i).
Notation ub' := (λ j, - s * (chat * ub j + shat * v j)).
Notation ga' := (λ i, ga i - betacheck * (shat * ua i)).
Notation gb' := (λ j, gb j + betacheck * (- shat * ub j + chat * v j)).
Notation vb' := (λ j, - sbar' * vb j + cbar' * v' j).
Notation p' := (λ j, cbar' * vb j + sbar' * v' j).
Notation kx := (cbar' * zetabar / (rho' * rhobar')).
Notation kh := (sbar * rho' * rho' / (rho * rhobar)).

Lemma m_rr : rho * rhobar ≠ 0.
Proof. destruct Hi. apply Rmult_integral_contrapositive_currified; lra. Qed.
Lemma m_h i : (i < m)%nat → M h i = alphabar * ua i + beta * u' i.
Proof. intros Hl. destruct Hi. rewrite Hu by done. rewrite mi_h0 by done. ring. Qed.
Lemma m_hbar i : M hbar' i = M h i - kh * M hbar i.
Proof. rewrite (mv_lin A m n 1 (- kh) h hbar hbar') by (intros j Hj; rewrite Hhb by done; ring). ring. Qed.
Lemma m_x i : M x' i = M x i + kx * M hbar' i.
Proof. rewrite (mv_lin A m n 1 kx x hbar' x') by (intros j Hj; rewrite Hx by done; ring). ring. Qed.

(** The coefficient of (A hbar', damp hbar') in the new residual *)
Lemma m_coef : alphabar * betadd / (rho' * rho') - kx = - (sbar' * alphabar' * betadd' / (rho' * rhobar')).
Proof.
  destruct Hi. rewrite mi_zb0. apply (Rmult_eq_reg_r (rho' * rhobar' * rho')); [|repeat apply Rmult_integral_contrapositive_currified; lra].
  transitivity (alphabar * betadd * rhobar' - cbar' * (cbar * rho') * alphabar * betadd); [field; lra|].
  transitivity (sbar' * (s * alpha') * c * chat * betadd * rho'); [|field; lra].
  rewrite Hcb', Hth, Hab. clear -Hcb. nsatz.
Qed.
Lemma m_res i : (i < m)%nat → b i - M x' i = betadd' * ua' i + ga' i - sbar' * alphabar' * betadd' / (rho' * rhobar') * M hbar' i.
Proof.
  intros Hl. rewrite m_x. destruct Hi. pose proof m_coef as Hc. pose proof m_rr as Hrr. specialize (mi_res0 i Hl).
  pose proof (m_hbar i) as H1. pose proof (m_h i Hl) as H2.
  assert (sbar * alphabar * betadd / (rho * rhobar) * M hbar i = alphabar * betadd / (rho' * rho') * (M h i - M hbar' i)) as H3 by (rewrite H1; field; lra).
  rewrite H3 in mi_res0.
  assert (alphabar * betadd / (rho' * rho') * M h i = betadd * chat * c * (chat * c * ua i + s * u' i)) as H4 by (rewrite H2, Hab, Hbt; field; lra).
  transitivity (betadd * ua i + ga i - alphabar * betadd / (rho' * rho') * M h i + (alphabar * betadd / (rho' * rho') - kx) * M hbar' i); [lra|].
  rewrite Hc, H4. clear -Hch Hcs. set (k := sbar' * _ * _ / _). clearbody k. nsatz.
Qed.
Lemma m_resd j : (j < n)%nat → - damp * x' j = betadd' * ub' j + gb' j - sbar' * alphabar' * betadd' / (rho' * rhobar') * (damp * hbar' j).
Proof.
  intros Hl. destruct Hi. pose proof m_coef as Hc. pose proof m_rr as Hrr. specialize (mi_resd0 j Hl). specialize (mi_hd0 j Hl).
  pose proof (Hhb j Hl) as H1. rewrite (Hx j Hl).
  assert (sbar * alphabar * betadd / (rho * rhobar) * (damp * hbar j) = alphabar * betadd / (rho' * rho') * (damp * h j - damp * hbar' j)) as H3 by (rewrite H1; field; lra).
  rewrite H3 in mi_resd0.
  assert (alphabar * betadd / (rho' * rho') * (damp * h j) = betadd * chat * c * c * (chat * ub j + shat * v j)) as H4 by (rewrite mi_hd0, Hab; rewrite Hdm at 1; field; lra).
  transitivity (betadd * ub j + gb j - alphabar * betadd / (rho' * rho') * (damp * h j) + (alphabar * betadd / (rho' * rho') - kx) * (damp * hbar' j)); [lra|].
  rewrite Hc, H4. clear -Hch Hcs. set (k := sbar' * _ * _ / _). clearbody k. nsatz.
Qed.

(** The normal equations *)
Lemma m_nh j : (j < n)%nat → T (M hbar') j + damp * damp * hbar' j = rho' * rhobar' * p' j.
Proof.
  intros Hl. pose proof m_rr as Hrr. rewrite (tmv_lin A m n 1 (- kh) (M h) (M hbar)) by (intros i _; rewrite m_hbar; ring).
  rewrite (tmv_lin A m n alphabar beta ua u' (M h)) by (intros i Hl'; by apply m_h).
  destruct Hi. specialize (mi_nh0 j Hl). specialize (mi_tu0 j Hl). specialize (mi_hd0 j Hl). specialize (mi_v0 j Hl). rewrite Hhb by done.
  assert (beta * T u' j = beta * (alpha' * v' j + beta * v j)) as HT.
  { destruct (Req_dec beta 0) as [-> |E]; [ring|]. destruct Hpos as [_ Hv]; [lra|]. rewrite (Hv j Hl). ring. }
  transitivity (alphabar * (T ua j) + beta * T u' j + damp * (damp * h j) - kh * (T (M hbar) j + damp * damp * hbar j)); [ring|].
  rewrite HT, mi_nh0, mi_hd0. replace (kh * (rho * rhobar * p j)) with (sbar * p j * rho' * rho') by (field; lra).
  assert (T ua j = alphabar * v j - damp * ub j) as -> by lra. assert (sbar * p j = v j - cbar * vb j) as -> by lra.
  transitivity (((alphabar * alphabar + damp * damp + beta * beta) - rho' * rho') * v j + rho' * (cbar * rho') * vb j + beta * alpha' * v' j); [ring|].
  assert (alphabar * alphabar + damp * damp + beta * beta = rho' * rho') as -> by (rewrite Hab, Hbt; rewrite Hdm; clear -Hch Hcs; nsatz).
  rewrite Hcb', Hbt. replace (s * rho' * alpha' * v' j) with (rho' * (s * alpha') * v' j) by ring. rewrite Hth. ring.
Qed.
Lemma m_grad j : (j < n)%nat → T (λ i, b i - M x' i) j - damp * damp * x' j = zetabar' * vb' j.
Proof.
  intros Hl. rewrite (tmv_lin A m n 1 (- kx) (λ i, b i - M x i) (M hbar')) by (intros i _; rewrite m_x; ring).
  pose proof (m_nh j Hl) as H1. destruct Hi. specialize (mi_grad0 j Hl). rewrite Hx by done.
  transitivity (T (λ i, b i - M x i) j - damp * damp * x j - kx * (T (M hbar') j + damp * damp * hbar' j)); [ring|].
  rewrite H1, mi_grad0. replace (kx * (rho' * rhobar' * p' j)) with (cbar' * zetabar * p' j) by (field; lra). cbn beta. clear -Hcb. nsatz.
Qed.

Lemma m_vperp : dot n v v = 1 ∧ perp n v HV.
Proof. destruct Hi as [[_ _ (H1 & H2 & _) _ _ _ _ _ _] _]. done. Qed.
Lemma m_uperp : 0 < beta → dot m u' u = 0 ∧ perp m u' HU.
Proof. intros Hb. apply perp_cons. apply (bd_next_u A m n u v alpha HU HV u' beta); [by destruct Hi|done|done]. Qed.

Lemma m_gg : dot m ga' ga' + dot n gb' gb' = d + betacheck * betacheck.
Proof.
  destruct m_vperp as [Hv1 Hv2]. destruct Hi. destruct (mi_sv0 v Hv2) as (Hvb & Hvg & _).
  rewrite (dot_sq m 1 (- betacheck * shat) ga ua ga') by (intros i _; ring).
  rewrite (dot_sq n 1 betacheck gb (λ i, - shat * ub i + chat * v i) gb') by (intros i _; ring).
  rewrite (dot_sq n (- shat) chat ub v (λ i, - shat * ub i + chat * v i)) by done. rewrite (dot_lin_r n (- shat) chat ub v (λ i, - shat * ub i + chat * v i)) by done.
  rewrite (dot_comm n ub v), (dot_comm n gb v), (dot_comm n gb ub), (dot_comm m ga ua), Hv1, Hvb, Hvg.
  clear -Hch mi_uu0 mi_ug0 mi_gg0. nsatz.
Qed.
Lemma m_uu : 0 < beta → dot m ua' ua' + dot n ub' ub' = 1.
Proof.
  intros Hb. destruct m_vperp as [Hv1 Hv2]. destruct (m_uperp Hb) as [Hu2 Hu3]. destruct (Hpos Hb) as [Hu1 _].
  destruct Hi. destruct (mi_sv0 v Hv2) as (Hvb & Hvg & _). destruct (mi_su0 u' Hu2 Hu3) as (Hua & Huga & _).
  rewrite (dot_sq m (- s * chat) c ua u' ua') by done.
  rewrite (dot_sq n (- s * chat) (- s * shat) ub v ub') by (intros i _; ring).
  rewrite (dot_comm n ub v), (dot_comm m ua u'), Hv1, Hvb, Hua, Hu1. clear -Hch Hcs mi_uu0. nsatz.
Qed.
Lemma m_ug : 0 < beta → dot m ua' ga' + dot n ub' gb' = 0.
Proof.
  intros Hb. destruct m_vperp as [Hv1 Hv2]. destruct (m_uperp Hb) as [Hu2 Hu3]. destruct (Hpos Hb) as [Hu1 _].
  destruct Hi. destruct (mi_sv0 v Hv2) as (Hvb & Hvg & _). destruct (mi_su0 u' Hu2 Hu3) as (Hua & Huga & _).
  rewrite (dot_bilin m (- s * chat) c ua u' ua' 1 (- betacheck * shat) ga ua ga') by (intros i _; ring).
  rewrite (dot_bilin n (- s * chat) (- s * shat) ub v ub' 1 betacheck gb (λ i, - shat * ub i + chat * v i) gb') by (intros i _; ring).
  rewrite !(dot_lin_r n (- shat) chat ub v (λ i, - shat * ub i + chat * v i)) by done.
  rewrite (dot_comm n ub v), Hv1, Hvb, Hvg, Hua, Huga. clear -Hch Hcs mi_uu0 mi_ug0. nsatz.
Qed.
(** Products with (A h, damp h) *)
Lemma m_h_dot y z : dot m (M h) y + damp * dot n h z = alphabar * (dot m ua y + dot n ub z) + beta * dot m u' y + damp * dot n v z.
Proof.
  rewrite (dot_lin m alphabar beta ua u' (M h)) by (intros i Hl; by apply m_h).
  rewrite <- (dot_scal n damp h (λ j, damp * h j)) by done. rewrite (dot_lin n alphabar damp ub v (λ j, damp * h j)) by (intros j Hl; destruct Hi; by apply mi_hd0). ring.
Qed.
Lemma m_hbar_dot y z : dot m (M hbar') y + damp * dot n hbar' z = dot m (M h) y + damp * dot n h z - kh * (dot m (M hbar) y + damp * dot n hbar z).
Proof.
  rewrite (dot_lin m 1 (- kh) (M h) (M hbar) (M hbar')) by (intros i _; rewrite m_hbar; ring).
  rewrite (dot_lin n 1 (- kh) h hbar hbar') by (intros j Hl; rewrite Hhb by done; ring). ring.
Qed.
Lemma m_beta_perp y : (dot m u' y = 0 ∨ ¬ 0 < beta) → beta * dot m u' y = 0.
Proof. intros [-> |H]; [ring|]. assert (beta = 0) as -> by lra. ring. Qed.
Lemma m_hh_h : dot m (M h) (M h) + damp * damp * dot n h h = rho' * rho'.
Proof.
  destruct m_vperp as [Hv1 Hv2]. destruct Hi. destruct (mi_sv0 v Hv2) as (Hvb & _).
  rewrite (dot_sq m alphabar beta ua u' (M h)) by (intros i Hl; by apply m_h).
  assert (damp * damp * dot n h h = dot n (λ j, damp * h j) (λ j, damp * h j)) as -> by (by rewrite (dot_scal2 n damp h (λ j, damp * h j))).
  rewrite (dot_sq n alphabar damp ub v (λ j, damp * h j)) by (intros j Hl; by apply mi_hd0). rewrite (dot_comm n ub v), Hvb, Hv1.
  assert (beta * beta * dot m u' u' = beta * beta ∧ beta * dot m ua u' = 0) as [H1 H2].
  { destruct (Req_dec beta 0) as [-> |E]; [split; ring|]. assert (0 < beta) as Hb by lra. destruct (Hpos Hb) as [-> _]. destruct (m_uperp Hb) as [Hu2 Hu3].
    destruct (mi_su0 u' Hu2 Hu3) as (Hua & _). rewrite (dot_comm m ua), Hua. split; ring. }
  transitivity (alphabar * alphabar * (dot m ua ua + dot n ub ub) + 2 * alphabar * (beta * dot m ua u') + beta * beta * dot m u' u' + damp * damp); [ring|].
  rewrite H1, H2, mi_uu0, Hab, Hbt, Hdm. clear -Hch Hcs. nsatz.
Qed.
Lemma m_cross : dot m (M h) (M hbar) + damp * damp * dot n h hbar = 0.
Proof.
  destruct m_vperp as [Hv1 Hv2]. pose proof (m_h_dot (M hbar) (λ j, damp * hbar j)) as H. rewrite !(dot_scal_r n damp hbar (λ j, damp * hbar j)) in H by done.
  destruct Hi. destruct (mi_sv0 v Hv2) as (_ & _ & Hvh & _). rewrite Hvh, m_beta_perp in H.
  - rewrite (dot_comm m ua), (dot_comm n ub) in H. rewrite mi_hu0 in H. lra.
  - destruct (Rlt_dec 0 beta) as [Hb|Hb]; [left|by right]. destruct (m_uperp Hb) as [Hu2 Hu3]. by destruct (mi_su0 u' Hu2 Hu3) as (_ & _ & ?).
Qed.
Variable (rhotilde rhod' : R).
Hypothesis Hrt : rhotilde * rhotilde = rhod * rhod + sbar * rho' * (sbar * rho').
Hypothesis Hrt0 : 0 < rhotilde.
Hypothesis Hrd : rhod' = rhod / rhotilde * rhobar'.
Lemma m_hh : rhod' * rhod' * (dot m (M hbar') (M hbar') + damp * damp * dot n hbar' hbar') = rho' * rhobar' * (rho' * rhobar').
Proof.
  rewrite (dot_sq m 1 (- kh) (M h) (M hbar) (M hbar')) by (intros i _; rewrite m_hbar; ring).
  rewrite (dot_sq n 1 (- kh) h hbar hbar') by (intros j Hl; rewrite Hhb by done; ring).
  pose proof m_hh_h as H1. pose proof m_cross as H2. pose proof m_rr as Hrr. destruct Hi.
  transitivity (rhod' * rhod' * (dot m (M h) (M h) + damp * damp * dot n h h - 2 * kh * (dot m (M h) (M hbar) + damp * damp * dot n h hbar) + kh * kh * (dot m (M hbar) (M hbar) + damp * damp * dot n hbar hbar))); [ring|].
  rewrite H1, H2, Hrd. destruct mi_hh0 as [E|E].
  - rewrite E in Hrt |- *. assert (rhotilde = rhod) as -> by (apply Rsqr_inj; [lra|lra|unfold Rsqr; lra]). field. lra.
  - set (N := dot m (M hbar) (M hbar) + damp * damp * dot n hbar hbar) in *.
    assert (N = rho * rhobar * (rho * rhobar) / (rhod * rhod)) as -> by (rewrite <- E; field; lra).
    transitivity (rho' * rho' * (rhobar' * rhobar') * ((rhod * rhod + sbar * rho' * (sbar * rho')) / (rhotilde * rhotilde))); [field; lra|].
    rewrite <- Hrt. field. lra.
Qed.
Lemma m_hu : 0 < beta → dot m (M hbar') ua' + damp * dot n hbar' ub' = 0.
Proof.
  intros Hb. rewrite m_hbar_dot, m_h_dot.
  destruct m_vperp as [Hv1 Hv2]. destruct (m_uperp Hb) as [Hu2 Hu3]. destruct (Hpos Hb) as [Hu1 _].
  destruct Hi. destruct (mi_sv0 v Hv2) as (Hvb & Hvg & Hvh & _). destruct (mi_su0 u' Hu2 Hu3) as (Hua & Huga & Huh).
  rewrite !(dot_lin_r m (- s * chat) c ua u' ua') by done.
  rewrite !(dot_lin_r n (- s * chat) (- s * shat) ub v ub') by (intros i _; ring).
  rewrite (dot_comm m (M hbar) u'), (dot_comm n hbar v), (dot_comm n ub v), (dot_comm m ua u'), Huh, Hvh, Hvb, Hua, Hv1, Hu1.
  transitivity (alphabar * (- s * chat) * (dot m ua ua + dot n ub ub) + beta * c + damp * (- s * shat) - kh * (- s * chat) * (dot m (M hbar) ua + damp * dot n hbar ub)); [ring|].
  rewrite mi_uu0, mi_hu0. rewrite Hab, Hbt, Hdm. clear -Hch Hcs. nsatz.
Qed.
Lemma m_hg : dot m (M hbar') ga' + damp * dot n hbar' gb' = 0.
Proof.
  rewrite m_hbar_dot, m_h_dot.
  destruct m_vperp as [Hv1 Hv2].
  destruct Hi. destruct (mi_sv0 v Hv2) as (Hvb & Hvg & Hvh & _).
  assert (beta * dot m u' ga = 0 ∧ beta * dot m u' ua = 0) as [Hu1 Hu2].
  { split; apply m_beta_perp; (destruct (Rlt_dec 0 beta) as [Hb|Hb]; [left|by right]); destruct (m_uperp Hb) as [Hu2 Hu3]; by destruct (mi_su0 u' Hu2 Hu3) as (? & ? & ?). }
  rewrite !(dot_lin_r m 1 (- betacheck * shat) ga ua ga') by (intros i _; ring).
  rewrite !(dot_lin_r n 1 betacheck gb (λ i, - shat * ub i + chat * v i) gb') by (intros i _; ring).
  rewrite !(dot_lin_r n (- shat) chat ub v (λ i, - shat * ub i + chat * v i)) by done.
  rewrite (dot_comm n hbar v), (dot_comm n ub v), Hvh, Hvb, Hvg, Hv1.
  transitivity (alphabar * (dot m ua ga + dot n ub gb) + alphabar * betacheck * - shat * (dot m ua ua + dot n ub ub) + (beta * dot m u' ga) - betacheck * shat * (beta * dot m u' ua) + damp * betacheck * chat
    - kh * (dot m (M hbar) ga + damp * dot n hbar gb) + kh * betacheck * shat * (dot m (M hbar) ua + damp * dot n hbar ub)); [ring|].
  rewrite mi_ug0, mi_uu0, mi_hg0, mi_hu0, Hu1, Hu2. rewrite Hab, Hdm. ring.
Qed.

(** The norm of the residual: kap is betad - taud *)
Variable (kap : R).
Hypothesis Hrd0 : rhod' ≠ 0.
Hypothesis Hkap : rhod' * kap = - sbar' * alphabar' * betadd'.
Lemma m_norm : dot m (λ i, b i - M x' i) (λ i, b i - M x' i) + damp * damp * dot n x' x' = d + betacheck * betacheck + kap * kap + betadd' * betadd'.
Proof.
  set (kk := sbar' * alphabar' * betadd' / (rho' * rhobar')).
  assert (damp * damp * dot n x' x' = dot n (λ j, - damp * x' j) (λ j, - damp * x' j)) as ->.
  { rewrite (dot_scal2 n (- damp) x' (λ j, - damp * x' j)) by done. ring. }
  set (ra := λ i, betadd' * ua' i + ga' i). set (rb := λ j, betadd' * ub' j + gb' j).
  rewrite (dot_sq m 1 (- kk) ra (M hbar') (λ i, b i - M x' i)) by (intros i Hl; rewrite m_res by done; unfold ra, kk; cbn beta; ring).
  rewrite (dot_sq n 1 (- kk * damp) rb hbar' (λ j, - damp * x' j)) by (intros j Hl; rewrite m_resd by done; unfold rb, kk; cbn beta; ring).
  pose proof m_gg as Hgg. pose proof m_hh as Hhh. pose proof m_hg as Hhg.
  assert (dot m ra ra + dot n rb rb = d + betacheck * betacheck + betadd' * betadd') as Hr.
  { rewrite (dot_sq m betadd' 1 ua' ga' ra) by (intros i _; unfold ra; ring). rewrite (dot_sq n betadd' 1 ub' gb' rb) by (intros i _; unfold rb; ring).
    destruct (Rlt_dec 0 beta) as [Hb|Hb].
    - pose proof (m_uu Hb) as H1. pose proof (m_ug Hb) as H2. clear -Hgg H1 H2. nsatz.
    - assert (beta = 0) as E by lra. assert (s = 0) as Hs0. { rewrite E in Hbt. symmetry in Hbt. apply Rmult_integral in Hbt as [|]; [done|lra]. }
      assert (betadd' = 0) as Hbd0 by (rewrite Hs0; ring). rewrite Hbd0. clear -Hgg. nsatz. }
  assert (kk * (dot m (M hbar') ra + damp * dot n hbar' rb) = 0) as Hx0.
  { rewrite (dot_lin_r m betadd' 1 ua' ga' ra) by (intros i _; unfold ra; ring). rewrite (dot_lin_r n betadd' 1 ub' gb' rb) by (intros i _; unfold rb; ring).
    transitivity (kk * (betadd' * (dot m (M hbar') ua' + damp * dot n hbar' ub') + (dot m (M hbar') ga' + damp * dot n hbar' gb'))); [ring|]. rewrite Hhg.
    destruct (Rlt_dec 0 beta) as [Hb|Hb]; [rewrite (m_hu Hb); ring|].
    assert (beta = 0) as E by lra. assert (s = 0) as Hs0. { rewrite E in Hbt. symmetry in Hbt. apply Rmult_integral in Hbt as [|]; [done|lra]. }
    rewrite Hs0. ring. }
  assert (kk * kk * (dot m (M hbar') (M hbar') + damp * damp * dot n hbar' hbar') = kap * kap) as Hkk.
  { set (N := dot m (M hbar') (M hbar') + damp * damp * dot n hbar' hbar') in *.
    assert (kk * (rho' * rhobar') = - (rhod' * kap)) as Hk1 by (rewrite Hkap; unfold kk; field; lra).
    assert (rhod' * rhod' * (kk * kk * N) = rhod' * rhod' * (kap * kap)) as H0.
    { replace (rhod' * rhod' * (kk * kk * N)) with (kk * kk * (rhod' * rhod' * N)) by ring. rewrite Hhh.
      replace (kk * kk * (rho' * rhobar' * (rho' * rhobar'))) with (kk * (rho' * rhobar') * (kk * (rho' * rhobar'))) by ring. rewrite Hk1. ring. }
    apply Rmult_eq_reg_l in H0; [done|]. by apply Rmult_integral_contrapositive_currified. }
  transitivity (dot m ra ra + dot n rb rb - 2 * (kk * (dot m (M hbar') ra + damp * dot n hbar' rb)) + kk * kk * (dot m (M hbar') (M hbar') + damp * damp * dot n hbar' hbar')).
  - rewrite (dot_comm m ra (M hbar')), (dot_comm n rb hbar'). ring.
  - rewrite Hr, Hx0, Hkk. ring.
Qed.

(** The next iteration *)
Hypothesis Hb : 0 < beta.
Hypothesis Ha' : 0 < alpha'.
Hypothesis Hv1 : dot n v' v' = 1.
Hypothesis Hc0 : 0 < c.
Variable (h' : nat → R) (d' : R).
Hypothesis Hh : ∀ j, (j < n)%nat → h' j = v' j - s * alpha' / rho' * h j.
Hypothesis Hd : d' = d + betacheck * betacheck.
Lemma m_next : minv u' v' h' hbar' x' alpha' alphabar' zetabar' rho' rhobar' cbar' sbar' betadd' rhod' d' (u :: HU) (v :: HV) ua' ub' ga' gb' vb' p'.
Proof.
  pose proof m_rr as Hrr. pose proof Hi as Hi0. destruct Hi0. destruct (Hpos Hb) as [Hu1 Hv].
  assert (bd A m n u' v' alpha' (u :: HU) (v :: HV)) as Hbd' by (by apply (bd_next A m n u v alpha HU HV u' v' alpha' beta); auto).
  destruct (bd_v _ _ _ _ _ _ _ _ Hbd') as (_ & [Hvv Hvp]%perp_cons & _). destruct (mi_sw0 v' Hvv Hvp) as [Hvh Hvvb].
  assert (0 < cbar') as Hcb0. { assert (cbar' = cbar * rho' / rhobar') as -> by (rewrite Hcb'; field; lra). apply Rdiv_lt_0_compat; [apply Rmult_lt_0_compat; lra|lra]. }
  assert (0 < rhod') as Hrdp by (rewrite Hrd; apply Rmult_lt_0_compat; [apply Rdiv_lt_0_compat; lra|lra]).
  split; try done.
  - by apply Rmult_lt_0_compat.
  - rewrite mi_zb0. transitivity (- sbar' * (cbar * alphabar * betadd)); [ring|]. rewrite Hab.
    transitivity (- sbar' * (cbar * rho') * chat * c * betadd); [ring|]. rewrite Hcb'.
    transitivity (- (sbar' * rhobar') * cbar' * chat * c * betadd); [ring|]. rewrite <- Hth. ring.
  - apply m_res.
  - apply m_resd.
  - intros j Hl. rewrite (tmv_lin A m n (- s * chat) c ua u' ua') by done. specialize (mi_tu0 j Hl). specialize (Hv j Hl).
    assert (T u' j = alpha' * v' j + beta * v j) as -> by lra. assert (T ua j = alphabar * v j - damp * ub j) as -> by lra. cbn beta.
    rewrite Hab, Hbt, Hdm. clear -Hch Hcs. nsatz.
  - intros i Hl. rewrite (mv_lin A m n 1 (- (s * alpha' / rho')) v' h h') by (intros j Hj; rewrite Hh by done; ring).
    rewrite (m_h i Hl), Hab, Hbt. replace (- (s * alpha' / rho') * (chat * (c * rho') * ua i + s * rho' * u' i)) with (- (s * alpha') * (chat * c * ua i + s * u' i)) by (field; lra).
    cbn beta. clear -Hcs. nsatz.
  - intros j Hl. rewrite Hh by done. replace (damp * (v' j - s * alpha' / rho' * h j)) with (damp * v' j - s * alpha' / rho' * (damp * h j)) by (field; lra). rewrite mi_hd0 by done.
    rewrite Hab. cbn beta. rewrite Hdm at 2. replace (s * alpha' / rho' * (chat * (c * rho') * ub j + shat * (c * rho') * v j)) with (s * alpha' * c * (chat * ub j + shat * v j)) by (field; lra). ring.
  - apply m_grad.
  - apply m_nh.
  - intros j Hl. cbn beta. clear -Hcb. nsatz.
  - rewrite (dot_sq n (- sbar') cbar' vb v' vb') by done. rewrite mi_vb0, Hv1, (dot_comm n vb), Hvvb. clear -Hcb. nsatz.
  - by apply m_uu.
  - by apply m_ug.
  - by rewrite m_gg.
  - by apply m_hu.
  - apply m_hg.
  - right. apply m_hh.
  - intros y Hy [Hy1 Hy2]%perp_cons. destruct (mi_su0 y Hy1 Hy2) as (H1 & H2 & H3). split_and!.
    + rewrite (dot_lin_r m (- s * chat) c ua u' ua' y) by done. rewrite H1, Hy. ring.
    + rewrite (dot_lin_r m 1 (- betacheck * shat) ga ua ga' y) by (intros i _; ring). rewrite H1, H2. ring.
    + rewrite (dot_lin_r m 1 (- kh) (M h) (M hbar) (M hbar')) by (intros i _; rewrite m_hbar; ring). rewrite H3.
      rewrite (dot_lin_r m alphabar beta ua u' (M h)) by (intros i Hl; by apply m_h). rewrite H1, Hy. ring.
  - intros y [Hy1 Hy2]%perp_cons. destruct (mi_sv0 y Hy2) as (H1 & H2 & H3 & H4). destruct (mi_sw0 y Hy1 Hy2) as [H5 H6].
    assert (dot n y hbar' = 0) as H7 by (rewrite (dot_lin_r n 1 (- kh) h hbar hbar') by (intros j Hl; rewrite Hhb by done; ring); rewrite H3, H5; ring).
    split_and!.
    + rewrite (dot_lin_r n (- s * chat) (- s * shat) ub v ub' y) by (intros i _; ring). rewrite H1, Hy1. ring.
    + rewrite (dot_lin_r n 1 betacheck gb (λ i, - shat * ub i + chat * v i) gb' y) by (intros i _; ring).
      rewrite (dot_lin_r n (- shat) chat ub v (λ i, - shat * ub i + chat * v i) y) by done. rewrite H1, H2, Hy1. ring.
    + done.
    + rewrite (dot_lin_r n 1 kx x hbar' x') by (intros j Hl; rewrite Hx by done; ring). rewrite H4, H7. ring.
  - intros y Hy [Hy1 Hy2]%perp_cons. destruct (mi_sw0 y Hy1 Hy2) as [H5 H6]. split.
    + rewrite (dot_lin_r n 1 (- (s * alpha' / rho')) v' h h') by (intros j Hj; rewrite Hh by done; ring). rewrite Hy, H5. ring.
    + rewrite (dot_lin_r n (- sbar') cbar' vb v' vb' y) by done. rewrite H6, Hy. ring.
Qed.
End step.
End lsmr.
