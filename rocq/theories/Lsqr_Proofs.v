(** The iterations of LSQR in exact arithmetic *)
From Coq Require Import Reals Lra Lia Nsatz.
From stdpp Require Import numbers list sets.
From Verif Require Import DDSystem_Model Lsq_Model LinAlg Lsq_Norms Lsqr_Math.
Local Open Scope R_scope.

(** ** Any arithmetic: the number of iterations and the stopping reasons *)
Section any.
Context {F : Type}.
Variable (f0 f1 fhuge ftiny : F) (add sub mul div : F → F → F) (neg fabs fsqrt : F → F) (ltb leb : F → F → bool) (is0 : F → bool).
Variable (aprod1 aprod2 : list F → list F → list F) (o : opts (F := F)).
Notation step := (lsqr_step f0 f1 ftiny add sub mul div neg fabs fsqrt ltb leb is0 aprod1 aprod2 o).
Notation solve := (lsqr_solve f0 f1 ftiny add sub mul div neg fabs fsqrt ltb leb is0 aprod1 aprod2 o).
Lemma lsqr_reason_in itn t1 t2 t3 test1 test2 test3 rtol : let k := lsqr_reason f0 f1 div ltb leb o itn t1 t2 t3 test1 test2 test3 rtol in
  (k = 0 ∧ (itn < o_itnlim o))%nat ∨ k = 1%nat ∨ k = 2%nat ∨ k = 4%nat ∨ (k = 5 ∧ o_itnlim o ≤ itn)%nat.
Proof. unfold lsqr_reason. cbv zeta. repeat match goal with |- context [if ?c then _ else _] => destruct c end; lia. Qed.
Lemma lsqr_step_count s : q_itn (step s) = S (q_itn s) ∧ (q_istop (step s) = 0%nat → (S (q_itn s) < o_itnlim o)%nat) ∧
  (q_istop (step s) ∈ [0; 1; 2; 4; 5]%nat) ∧ (q_istop (step s) = 5%nat → (o_itnlim o <= S (q_itn s))%nat).
Proof.
  unfold lsqr_step. destruct (bidiag _ _ _ _ _ _ _ _ _ _ _ _ _ _ _) as [[[u v] alpha] beta]. destruct (damping _ _ _ _ _ _ _ _ _ _ _ _) as [[r1 psi] pb]. cbv zeta.
  match goal with |- context [lsqr_reason f0 f1 div ltb leb o ?a ?b ?c ?d ?e ?f ?g ?h] => pose proof (lsqr_reason_in a b c d e f g h) as Hk; generalize dependent (lsqr_reason f0 f1 div ltb leb o a b c d e f g h) end.
  intros k Hk. cbv zeta in Hk. destruct (ltb (q_dxmax s) _).
  all: destruct (decide (k = 0%nat)) as [->|Hn]; cbn [q_itn q_istop]; [split; [done|]; split; [intros _; lia|split; [set_solver|done]]|].
  all: rewrite decide_False by lia; split; [done|]; split; [lia|]; split; [|lia].
  all: destruct Hk as [[-> _]|[-> |[-> |[-> |[-> _]]]]]; set_solver.
Qed.
Lemma lsqr_loop_count fuel s : (max 1 (o_itnlim o - q_itn s) <= fuel)%nat →
  ∃ s', lsqr_loop f0 f1 ftiny add sub mul div neg fabs fsqrt ltb leb is0 aprod1 aprod2 o fuel s = Some s' ∧
    (q_itn s < q_itn s' <= max (S (q_itn s)) (o_itnlim o))%nat ∧ q_istop s' ∈ [1; 2; 4; 5]%nat ∧ (q_istop s' = 5%nat → (o_itnlim o <= q_itn s')%nat).
Proof.
  revert s. induction fuel as [|fuel IH]; intros s Hf; [lia|]. cbn [lsqr_loop]. cbv zeta. destruct (lsqr_step_count s) as (H1 & H2 & H3 & H4). destruct (decide _) as [He|He].
  - specialize (H2 He). destruct (IH (step s)) as (s' & Hl & Hb & Hr & H5); [lia|]. exists s'. split; [done|]. split; [lia|done].
  - eexists. split; [done|]. split; [lia|]. split; [set_solver|]. intros E. rewrite H1. by apply H4.
Qed.
End any.

Section exact.
Variable (jdiv : R → R → R) (jsqrt : R → R).
Variable (A : nat → nat → R) (m n : nat) (aprod1 aprod2 : list R → list R → list R).
Hypothesis Hap1 : ∀ x y, length x = n → length y = m → length (aprod1 x y) = m ∧ ∀ i, (i < m)%nat → vec (aprod1 x y) i = vec y i + dot n (A i) (vec x).
Hypothesis Hap2 : ∀ x y, length x = n → length y = m → length (aprod2 x y) = n ∧ ∀ j, (j < n)%nat → vec (aprod2 x y) j = vec x j + dot m (λ i, A i j) (vec y).
Notation M := (mv A m n).
Notation T := (tmv A m n).
Notation D2 := (R_d2norm jdiv jsqrt).
Notation NRM := (R_dnrm2 jdiv jsqrt).
Notation bdg := (bidiag 0 1 Rplus Rmult (r_div jdiv) Ropp Rabs (r_sqrt jsqrt) r_ltb r_is0 aprod1 aprod2).

Lemma scaled_unit l k : length l = k → 0 < NRM l → dot k (vec (scale Rmult (r_div jdiv 1 (NRM l)) l)) (vec (scale Rmult (r_div jdiv 1 (NRM l)) l)) = 1.
Proof.
  intros Hl Hp. rewrite (dot_scal2 k (r_div jdiv 1 (NRM l)) (vec l)) by (intros i _; rewrite vec_scale; ring).
  rewrite r_div_ok by lra. rewrite dnrm2_ok, Hl in *. rewrite <- norm_sq. field. lra.
Qed.
Lemma norm_vanish (l : list R) : NRM l = 0 → ∀ i, vec l i = 0.
Proof. intros H i. rewrite dnrm2_ok in H. destruct (decide (i < length l)%nat) as [Hi|Hi]; [by apply (proj1 (norm_zero _ _) H)|apply vec_over; lia]. Qed.
Lemma NRM_nonneg l : 0 <= NRM l.
Proof. rewrite dnrm2_ok. apply norm_nonneg. Qed.

Lemma bidiag_ok u v alpha u' v' alpha' beta : length u = m → length v = n → bdg u v alpha = (u', v', alpha', beta) →
  length u' = m ∧ length v' = n ∧ 0 <= beta ∧ (∀ i, (i < m)%nat → beta * vec u' i = M (vec v) i - alpha * vec u i) ∧
  (0 < beta → dot m (vec u') (vec u') = 1 ∧ 0 <= alpha' ∧ (∀ j, (j < n)%nat → alpha' * vec v' j = T (vec u') j - beta * vec v j) ∧ (0 < alpha' → dot n (vec v') (vec v') = 1)) ∧
  (beta = 0 → v' = v ∧ alpha' = alpha).
Proof using Hap1 Hap2.
  intros Hu Hv. unfold bidiag. cbv zeta. change (dnrm2 0 1 Rplus Rmult (r_div jdiv) Rabs (r_sqrt jsqrt) r_ltb r_is0) with NRM. set (u1 := aprod1 v (scale Rmult (- alpha) u)).
  destruct (Hap1 v (scale Rmult (- alpha) u) Hv) as [Hl1 Hv1]; [by rewrite length_scale|]. fold u1 in Hl1, Hv1.
  assert (∀ i, (i < m)%nat → vec u1 i = M (vec v) i - alpha * vec u i) as Hu1.
  { intros i Hi. rewrite Hv1 by done. rewrite vec_scale. unfold mv. rewrite decide_True by done. ring. }
  pose proof (NRM_nonneg u1) as Hn0.
  destruct (r_ltb 0 (NRM u1)) eqn:E.
  - apply r_ltb_true in E. set (u2 := scale Rmult (r_div jdiv 1 (NRM u1)) u1). set (v1 := aprod2 (scale Rmult (- NRM u1) v) u2).
    destruct (Hap2 (scale Rmult (- NRM u1) v) u2) as [Hl2 Hv2]; [by rewrite length_scale|unfold u2; by rewrite length_scale|]. fold v1 in Hl2, Hv2.
    assert (∀ j, (j < n)%nat → vec v1 j = T (vec u2) j - NRM u1 * vec v j) as Hv3.
    { intros j Hj. rewrite Hv2 by done. rewrite vec_scale. unfold tmv. rewrite decide_True by done. ring. }
    pose proof (NRM_nonneg v1) as Hn1.
    intros [= <- <- <- <-]. split; [unfold u2; by rewrite length_scale|]. split; [destruct (r_ltb 0 (NRM v1)); [by rewrite length_scale|done]|]. split; [done|]. split.
    { intros i Hi. unfold u2. rewrite vec_scale, r_div_ok by lra. rewrite Hu1 by done. field. lra. }
    split; [|intros; lra]. intros _. split; [by apply scaled_unit|]. split; [done|]. split.
    + intros j Hj. rewrite <- Hv3 by done. destruct (r_ltb 0 (NRM v1)) eqn:E1.
      * apply r_ltb_true in E1. rewrite vec_scale, r_div_ok by lra. field. lra.
      * apply r_ltb_false in E1. assert (NRM v1 = 0) as E0 by lra. rewrite (norm_vanish v1 E0). ring.
    + intros Hp. rewrite (proj2 (r_ltb_true 0 (NRM v1)) Hp). by apply scaled_unit.
  - apply r_ltb_false in E. assert (NRM u1 = 0) as E0 by lra. intros [= <- <- <- <-].
    split; [done|]. split; [done|]. split; [done|]. split; [|split; [intros; lra|done]].
    intros i Hi. rewrite <- Hu1 by done. rewrite E0, (norm_vanish u1 E0). ring.
Qed.

Variable (o : opts (F := R)).
Notation damp := (o_damp o).
Hypothesis Hdamp : 0 <= damp.
Hypothesis Hatol : 0 <= o_atol o.
Notation tiny := (1 / 10 ^ 30).
Notation step := (R_lsqr_step jdiv jsqrt aprod1 aprod2 o).
Variable (b : list R).
Hypothesis Hb : length b = m.

(** The sum of the squares of the coefficients of A (and of the damping) seen so far *)
Definition frob (l : list (nat → R)) : R := lsum (λ q, dot m (M q) (M q) + damp * damp) l.

Record qst (s : lsqr (F := R)) : Prop := {
  qs_u : length (q_u s) = m; qs_v : length (q_v s) = n; qs_w : length (q_w s) = n; qs_x : length (q_x s) = n;
  qs_bn : q_bnorm s = norm m (vec b); qs_bp : 0 < q_bnorm s;
  qs_psi : damp = 0 → q_psi s = 0;
  qs_dec : q_res2 s * q_res2 s + q_phibar s * q_phibar s <= dot m (vec b) (vec b);
  qs_dn : 0 <= q_dnorm s; qs_an : 0 <= q_anorm s;
  qs_inv : ∃ HU HV ua ub ga gb X1, qinv A m n (vec b) damp (vec (q_u s)) (vec (q_v s)) (vec (q_w s)) (vec (q_x s)) (q_alpha s) (q_rhobar s) (q_phibar s) (q_res2 s) (q_xnorm1 s) (q_cs2 s) (q_sn2 s) (q_z s) HU HV ua ub ga gb X1 ∧
    length HV = q_itn s ∧ q_anorm s * q_anorm s = frob HV }.

(** What an iteration leaves *)
Record qout (s : lsqr (F := R)) : Prop := {
  qo_x : length (q_x s) = n;
  qo_bn : q_bnorm s = norm m (vec b); qo_bp : 0 < q_bnorm s;
  qo_r : q_rnorm s = R_sqrt.sqrt (dot m (λ i, vec b i - M (vec (q_x s)) i) (λ i, vec b i - M (vec (q_x s)) i) + damp * damp * dot n (vec (q_x s)) (vec (q_x s))) + tiny;
  qo_ar : q_arnorm s = norm n (λ j, T (λ i, vec b i - M (vec (q_x s)) i) j - damp * damp * vec (q_x s) j);
  qo_xn : q_xnorm s = norm n (vec (q_x s));
  qo_dec : dot m (λ i, vec b i - M (vec (q_x s)) i) (λ i, vec b i - M (vec (q_x s)) i) + damp * damp * dot n (vec (q_x s)) (vec (q_x s)) <= dot m (vec b) (vec b);
  qo_an : 0 < q_anorm s; qo_frob : ∃ l, ortho n l ∧ length l = q_itn s ∧ q_anorm s * q_anorm s = frob l;
  qo_dn : 0 < q_acond s;
  qo_itn : (0 < q_itn s)%nat ∧ (q_itn s <= n)%nat ∧ (q_itn s <= m)%nat;
  qo_ker : ∀ y, (∀ i, (i < m)%nat → M y i = 0) → dot n y (vec (q_x s)) = 0;
  qo_1 : q_istop s = 1%nat → q_rnorm s <= o_btol o * q_bnorm s + o_atol o * q_anorm s * q_xnorm s;
  qo_2 : q_istop s = 2%nat → q_arnorm s <= o_atol o * (q_anorm s * q_rnorm s);
  qo_2' : q_istop s ≠ 1%nat → q_istop s ≠ 2%nat → o_atol o * (q_anorm s * q_rnorm s) < q_arnorm s;
  qo_4 : q_istop s = 4%nat → 0 < o_conlim o ∧ o_conlim o <= q_acond s }.

Definition damped_ok := proj1 (r_ltb_true 0 damp).

Lemma sq_zero x : x * x = 0 → x = 0.
Proof. intros H. apply Rmult_integral in H. lra. Qed.

Lemma damping_ok rhobar psi phibar r1 psi1 pb1 : rhobar ≠ 0 → (damp = 0 → psi = 0) →
  damping 0 Rplus Rmult (r_div jdiv) Rabs (r_sqrt jsqrt) r_ltb r_is0 o rhobar psi phibar = (r1, psi1, pb1) →
  ∃ c1 s1, c1 * c1 + s1 * s1 = 1 ∧ rhobar = c1 * r1 ∧ damp = s1 * r1 ∧ r1 ≠ 0 ∧ psi1 = s1 * phibar ∧ pb1 = c1 * phibar ∧ (damp = 0 → psi1 = 0).
Proof using Hdamp.
  intros Hr Hpsi. unfold damping, damped. fold D2. destruct (r_ltb 0 damp) eqn:E.
  - apply r_ltb_true in E. pose proof (d2norm_pos jdiv jsqrt rhobar damp (or_introl Hr)) as Hp. pose proof (d2norm_sq jdiv jsqrt rhobar damp) as Hs. rewrite !r_div_ok by lra.
    intros [= <- <- <-]. exists (rhobar / D2 rhobar damp), (damp / D2 rhobar damp). split_and!; try done; try (field; lra); try lra.
    apply (Rmult_eq_reg_r (D2 rhobar damp * D2 rhobar damp)); [|apply Rmult_integral_contrapositive_currified; lra].
    transitivity (rhobar * rhobar + damp * damp); [field; lra|lra].
  - apply r_ltb_false in E. assert (damp = 0) as E0 by lra. intros [= <- <- <-]. exists 1, 0. rewrite (Hpsi E0). split_and!; try done; try lra.
Qed.

(** The reason *)
Lemma reason_cases itn t1 t2 t3 test1 test2 test3 rtol : 1 < t1 → 1 < t3 → (t2 <= 1 → test2 <= 0) →
  let k := lsqr_reason 0 1 (r_div jdiv) r_ltb r_leb o itn t1 t2 t3 test1 test2 test3 rtol in
  (k = 1%nat → test1 <= rtol) ∧ (k = 2%nat → test2 <= o_atol o) ∧ (k ≠ 1%nat → k ≠ 2%nat → o_atol o < test2) ∧ (k = 4%nat → test3 <= ctol 0 1 (r_div jdiv) r_ltb o).
Proof.
  intros H1 H3 H2. unfold lsqr_reason. cbv zeta. rewrite (proj2 (r_leb_false t3 1)), (proj2 (r_leb_false t1 1)) by done.
  destruct (r_leb test1 rtol) eqn:E1; [apply r_leb_true in E1; split_and!; done|]. apply r_leb_false in E1.
  destruct (r_leb test2 (o_atol o)) eqn:E2; [apply r_leb_true in E2; split_and!; done|].
  apply r_leb_false in E2. destruct (r_leb test3 _) eqn:E3; [apply r_leb_true in E3; split_and!; done|].
  destruct (r_leb t2 1) eqn:E4; [apply r_leb_true, H2 in E4; lra|].
  destruct (decide _); split_and!; done.
Qed.

(** The values computed by an iteration, named *)
Lemma lsqr_step_eq s u v alpha beta r1 psi pb :
  bdg (q_u s) (q_v s) (q_alpha s) = (u, v, alpha, beta) → damping 0 Rplus Rmult (r_div jdiv) Rabs (r_sqrt jsqrt) r_ltb r_is0 o (q_rhobar s) (q_psi s) (q_phibar s) = (r1, psi, pb) →
  ∃ rho cs sn theta phi t1 t2 dk gambar gamma rhs zbar z anorm dnorm res2 phibar' rnorm xnorm arnorm test1 test2 test3 t1' rtol x dxmax maxdx nstop,
    rho = D2 r1 beta ∧ cs = r_div jdiv r1 rho ∧ sn = r_div jdiv beta rho ∧ theta = sn * alpha ∧ phi = cs * pb ∧ t1 = r_div jdiv phi rho ∧ t2 = r_div jdiv (- theta) rho ∧
    dk = r_sqrt jsqrt (fold_left (λ d t, r_div jdiv 1 rho * t * (r_div jdiv 1 rho * t) + d) (q_w s) 0) ∧
    gambar = - q_cs2 s * rho ∧ gamma = D2 gambar theta ∧ rhs = phi - q_sn2 s * rho * q_z s ∧ zbar = r_div jdiv rhs gambar ∧ z = r_div jdiv rhs gamma ∧
    anorm = D2 (q_anorm s) (D2 (D2 (q_alpha s) beta) damp) ∧ dnorm = D2 (q_dnorm s) dk ∧ res2 = D2 (q_res2 s) psi ∧ phibar' = sn * pb ∧ rnorm = D2 res2 phibar' + tiny ∧
    xnorm = D2 (q_xnorm1 s) zbar ∧ arnorm = alpha * Rabs (sn * phi) ∧
    test1 = r_div jdiv rnorm (q_bnorm s) ∧ test2 = r_div jdiv arnorm (anorm * rnorm) ∧ test3 = r_div jdiv 1 (anorm * dnorm) ∧
    t1' = r_div jdiv test1 (1 + r_div jdiv (anorm * xnorm) (q_bnorm s)) ∧ rtol = o_btol o + r_div jdiv (o_atol o * anorm * xnorm) (q_bnorm s) ∧
    x = zip_with (λ t x, t1 * t + x) (q_w s) (q_x s) ∧
    step s = Lsqr (S (q_itn s)) (lsqr_reason 0 1 (r_div jdiv) r_ltb r_leb o (S (q_itn s)) (1 + t1') (1 + test2) (1 + test3) test1 test2 test3 rtol) nstop
      u v (zip_with (λ t v, t2 * t + v) (q_w s) v) x alpha beta (- cs * alpha) phibar' dnorm res2 psi (D2 (q_xnorm1 s) z) (r_div jdiv gambar gamma) (r_div jdiv theta gamma) z
      anorm (anorm * dnorm) rnorm arnorm xnorm (q_bnorm s) dxmax maxdx.
Proof.
  intros H1 H2. unfold R_lsqr_step, lsqr_step. rewrite H1, H2. cbv zeta. change (d2norm 0 Rplus Rmult (r_div jdiv) Rabs (r_sqrt jsqrt) r_is0) with D2.
  match goal with |- context [if r_ltb (q_dxmax s) ?a then _ else _] => destruct (r_ltb (q_dxmax s) a) end.
  all: match goal with |- context [decide (lsqr_reason ?f0 ?f1 ?div ?ltb ?leb ?o ?a ?b ?c ?d ?e ?f ?g ?h = 0%nat)] => destruct (decide (lsqr_reason f0 f1 div ltb leb o a b c d e f g h = 0%nat)) end.
  all: try rewrite decide_False by lia.
  all: do 29 eexists; do 26 (split; [reflexivity|]); reflexivity.
Qed.

Lemma fold_dot k w a : fold_left (λ d t, k * t * (k * t) + d) w a = a + k * k * dot (length w) (vec w) (vec w).
Proof.
  revert a. induction w as [|t w IH]; intros a.
  - cbn. unfold dot. cbn. ring.
  - cbn [fold_left length]. rewrite IH, dot_cons. ring.
Qed.

Lemma step_ok s : qst s → qout (step s) ∧ (q_arnorm (step s) ≠ 0 → qst (step s)).
Proof using Hap1 Hap2 Hdamp Hatol Hb.
  intros [Lu Lv Lw Lx Hbn Hbp Hpsi Hdec Hdn Han (HU & HV & ua & ub & ga & gb & X1 & Hi & Hlen & Hfr)].
  destruct (bdg (q_u s) (q_v s) (q_alpha s)) as [[[u v] alpha] beta] eqn:Ebd.
  destruct (damping 0 Rplus Rmult (r_div jdiv) Rabs (r_sqrt jsqrt) r_ltb r_is0 o (q_rhobar s) (q_psi s) (q_phibar s)) as [[r1 psi] pb] eqn:Edm.
  destruct (lsqr_step_eq s _ _ _ _ _ _ _ Ebd Edm) as (rho & cs & sn & theta & phi & t1 & t2 & dk & gambar & gamma & rhs & zbar & z & anorm & dnorm & res2 & phibar1 & rnorm & xnorm & arnorm & test1 & test2 & test3 & t1' & rtol & x & dxmax & maxdx & nstop &
    Erho & Ecs & Esn & Eth & Ephi & Et1 & Et2 & Edk & Egb & Ega & Erhs & Ezb & Ez & Ean & Edn & Ere & Epb & Ern & Exn & Ear & Ete1 & Ete2 & Ete3 & Et1' & Ert & Ex & Es).
  destruct (bidiag_ok _ _ _ _ _ _ _ Lu Lv Ebd) as (Lu' & Lv' & Hb0 & Hu & Hpos & Hzero).
  destruct (damping_ok _ _ _ _ _ _ (qi_rho _ _ _ _ _ _ _ _ _ _ _ _ _ _ _ _ _ _ _ _ _ _ _ _ Hi) Hpsi Edm) as (c1 & s1 & Hc1 & Hrb & Hdm & Hr10 & Epsi & Epb1 & Hpsi').
  assert (0 < rho) as Hrho by (rewrite Erho; apply d2norm_pos; by left).
  assert (rho * rho = r1 * r1 + beta * beta) as Hrho2 by (rewrite Erho; apply d2norm_sq).
  rewrite r_div_ok in Ecs, Esn, Et1, Et2 by lra.
  assert (r1 = cs * rho) as Er1 by (rewrite Ecs; field; lra). assert (beta = sn * rho) as Ebeta by (rewrite Esn; field; lra).
  assert (cs * cs + sn * sn = 1) as Hc.
  { rewrite Ecs, Esn. apply (Rmult_eq_reg_r (rho * rho)); [|apply Rmult_integral_contrapositive_currified; lra]. transitivity (r1 * r1 + beta * beta); [field; lra|lra]. }
  assert (rho ≠ 0) as Hrho0 by lra.
  assert (cs ≠ 0) as Hcs0 by (intros E; apply Hr10; rewrite Er1, E; ring).
  rewrite Er1 in Hrb, Hdm.
  pose proof (qi_bd _ _ _ _ _ _ _ _ _ _ _ _ _ _ _ _ _ _ _ _ _ _ _ _ Hi) as Hbd.
  pose proof (qi_cs2 _ _ _ _ _ _ _ _ _ _ _ _ _ _ _ _ _ _ _ _ _ _ _ _ Hi) as Hcs2.
  pose proof (qi_ww _ _ _ _ _ _ _ _ _ _ _ _ _ _ _ _ _ _ _ _ _ _ _ _ Hi) as Hww.
  pose proof (qi_sw _ _ _ _ _ _ _ _ _ _ _ _ _ _ _ _ _ _ _ _ _ _ _ _ Hi) as Hsw.
  assert (∀ j, vec x j = vec (q_x s) j + t1 * vec (q_w s) j) as Hx0.
  { intros j. rewrite Ex, vec_zip; [ring|ring|lia]. }
  assert (∀ j, (j < n)%nat → vec x j = vec (q_x s) j + cs * (c1 * q_phibar s) / rho * vec (q_w s) j) as Hx.
  { intros j _. rewrite Hx0, Et1, Ephi, Epb1. done. }
  assert (gambar ≠ 0) as Hg0 by (rewrite Egb; apply Rmult_integral_contrapositive_currified; lra).
  assert (0 < gamma) as Hga0 by (rewrite Ega; apply d2norm_pos; by left).
  assert (gamma * gamma = gambar * gambar + theta * theta) as Hga2 by (rewrite Ega; apply d2norm_sq).
  rewrite r_div_ok in Ezb, Ez by lra.
  assert (zbar * gambar = cs * (c1 * q_phibar s) - q_sn2 s * rho * q_z s) as Hzb by (rewrite Ezb, Erhs, Ephi, Epb1; field; lra).
  assert (z * gamma = cs * (c1 * q_phibar s) - q_sn2 s * rho * q_z s) as Hz by (rewrite Ez, Erhs, Ephi, Epb1; field; lra).
  pose proof (step_norm A m n (vec b) damp _ _ _ _ _ _ _ _ _ _ _ _ _ _ _ _ _ _ _ Hi (vec u) beta Hb0 Hu (λ H, proj1 (Hpos H)) c1 s1 cs sn rho Hc1 Hc Hrho0 Hrb Hdm Ebeta (vec x) Hx) as Hnorm.
  pose proof (step_normal A m n (vec b) damp _ _ _ _ _ _ _ _ _ _ _ _ _ _ _ _ _ _ _ Hi (vec u) beta Hu c1 s1 cs sn rho Hc1 Hc Hrho0 Hrb Hdm Ebeta (vec x) Hx) as Hnorma.
  pose proof (step_tu A m n (vec b) damp _ _ _ _ _ _ _ _ _ _ _ _ _ _ _ _ _ _ _ Hi (vec u) beta c1 s1 cs sn rho Hc1 Hc Hrb Hdm Ebeta (vec v) alpha) as Htu.
  pose proof (step_xnorm A m n (vec b) damp _ _ _ _ _ _ _ _ _ _ _ _ _ _ _ _ _ _ _ Hi c1 cs rho Hrho0 (vec x) Hx zbar gambar Egb Hzb) as Hxnorm.
  unfold psi', phibar' in Hnorm, Hnorma.
  assert (length x = n) as Lx' by (rewrite Ex, zip_with_length; lia).
  assert (phibar1 = sn * (c1 * q_phibar s)) as Epb' by (by rewrite Epb, Epb1).
  (* the norm of the residual *)
  assert (D2 res2 phibar1 = R_sqrt.sqrt (dot m (λ i, vec b i - M (vec x) i) (λ i, vec b i - M (vec x) i) + damp * damp * dot n (vec x) (vec x))) as Hr.
  { rewrite d2norm_ok. f_equal. rewrite Hnorm, Ere, d2norm_sq, Epsi, Epb'. ring. }
  assert (res2 * res2 + phibar1 * phibar1 <= dot m (vec b) (vec b)) as Hdec'.
  { rewrite Ere, d2norm_sq, Epsi, Epb'. pose proof (Rle_0_sqr (c1 * q_phibar s * cs)) as H0. unfold Rsqr in H0.
    assert (q_res2 s * q_res2 s + s1 * q_phibar s * (s1 * q_phibar s) + sn * (c1 * q_phibar s) * (sn * (c1 * q_phibar s)) = q_res2 s * q_res2 s + q_phibar s * q_phibar s - c1 * q_phibar s * cs * (c1 * q_phibar s * cs)) as ->; [|lra]. clear -Hc1 Hc. nsatz. }
  (* the norm of the gradient *)
  assert (arnorm = norm n (λ j, T (λ i, vec b i - M (vec x) i) j - damp * damp * vec x j)) as Har.
  { destruct (Req_dec beta 0) as [E0|E0].
    - destruct (Hzero E0) as [_ Ea]. assert (sn = 0) as Esn0 by (rewrite Esn, E0; field; lra).
      rewrite Ear, Esn0, Rmult_0_l, Rabs_R0, Rmult_0_r. symmetry. apply norm_zero. intros j Hj. rewrite Hnorma by done. rewrite Esn0. ring.
    - destruct Hpos as (_ & Ha' & Hv & Hv1); [lra|].
      assert (∀ j, (j < n)%nat → T (λ i, vec b i - M (vec x) i) j - damp * damp * vec x j = phibar1 * (- cs * alpha) * vec v j) as Hg.
      { intros j Hj. rewrite Hnorma by done. rewrite Htu; [rewrite Epb'; ring|done|by apply Hv]. }
      apply norm_unique; [rewrite Ear; apply Rmult_le_pos; [done|apply Rabs_pos]|].
      rewrite (dot_scal2 n (phibar1 * (- cs * alpha)) (vec v) _ Hg), Ear.
      transitivity (alpha * alpha * (Rabs (sn * phi) * Rabs (sn * phi))); [ring|]. rewrite <- Rabs_mult, Rabs_right by (apply Rle_ge, Rle_0_sqr).
      destruct (Req_dec alpha 0) as [-> |Ha0]; [ring|]. rewrite Hv1 by lra. rewrite Ephi, Epb', Epb1. ring. }
  assert (xnorm = norm n (vec x)) as Hxn.
  { apply norm_unique; [rewrite Exn; apply d2norm_nonneg|]. rewrite Exn, d2norm_sq. symmetry. done. }
  pose proof (bd_alpha _ _ _ _ _ _ _ _ Hbd) as Halpha.
  assert (0 < anorm) as Hanp.
  { rewrite Ean. apply d2norm_pos. right. assert (0 < D2 (D2 (q_alpha s) beta) damp); [|lra]. apply d2norm_pos. left. assert (0 < D2 (q_alpha s) beta); [|lra]. apply d2norm_pos. left. lra. }
  assert (anorm * anorm = frob (vec (q_v s) :: HV)) as Hfr'.
  { rewrite Ean, d2norm_sq, Hfr, !d2norm_sq. change (frob (vec (q_v s) :: HV)) with (dot m (M (vec (q_v s))) (M (vec (q_v s))) + damp * damp + frob HV).
    destruct (bd_u _ _ _ _ _ _ _ _ Hbd) as (Huu & _ & _).
    rewrite (dot_sq m beta (q_alpha s) (vec u) (vec (q_u s)) (M (vec (q_v s)))) by (intros i Hl; rewrite Hu by done; ring). rewrite Huu.
    destruct (Req_dec beta 0) as [-> |E0]; [ring|]. assert (0 < beta) as Hbt by lra. destruct (Hpos Hbt) as (-> & _).
    pose proof (bd_next_u A m n _ _ _ _ _ _ _ Hbd Hbt Hu) as [-> _]%perp_cons. ring. }
  assert (0 < rnorm) as Hrn. { rewrite Ern. pose proof (d2norm_nonneg jdiv jsqrt res2 phibar1). assert (0 < tiny) by (apply Rdiv_lt_0_compat; [lra|apply pow_lt; lra]). lra. }
  assert (0 < dk) as Hdk.
  { rewrite Edk, fold_dot, Lw, r_div_ok by lra.
    assert (0 < dot n (vec (q_w s)) (vec (q_w s))) as Hw0. { destruct (dot_nonneg n (vec (q_w s))) as [Hn|Hn]; [done|]. rewrite <- Hn in Hww. lra. }
    assert (0 < 0 + 1 / rho * (1 / rho) * dot n (vec (q_w s)) (vec (q_w s))) as Hp.
    { rewrite Rplus_0_l. apply Rmult_lt_0_compat; [|done]. apply Rmult_lt_0_compat; apply Rdiv_lt_0_compat; lra. }
    rewrite r_sqrt_ok by lra. by apply sqrt_lt_R0. }
  assert (0 < dnorm) as Hdnp by (rewrite Edn; apply d2norm_pos; right; lra).
  assert (0 < anorm * dnorm) as Hac by (by apply Rmult_lt_0_compat). assert (0 < anorm * rnorm) as Har0 by (by apply Rmult_lt_0_compat).
  pose proof (norm_nonneg n (vec x)) as Hxn0. rewrite <- Hxn in Hxn0.
  assert (0 <= anorm * xnorm / q_bnorm s) as Hax. { apply Rmult_le_pos; [apply Rmult_le_pos; lra|]. left. by apply Rinv_0_lt_compat. }
  rewrite r_div_ok in Ete1 by lra. rewrite r_div_ok in Ete2 by lra. rewrite r_div_ok in Ete3 by lra. rewrite !r_div_ok in Ert by lra.
  rewrite (r_div_ok _ _ (q_bnorm s)) in Et1' by lra. rewrite r_div_ok in Et1' by lra.
  pose proof (reason_cases (S (q_itn s)) (1 + t1') (1 + test2) (1 + test3) test1 test2 test3 rtol) as Hreason.
  destruct Hreason as (Hr1 & Hr2 & Hr2' & Hr4).
  { assert (0 < t1'); [|lra]. rewrite Et1', Ete1. apply Rdiv_lt_0_compat; [by apply Rdiv_lt_0_compat|lra]. }
  { assert (0 < test3); [|lra]. rewrite Ete3. apply Rdiv_lt_0_compat; lra. }
  { lra. }
  destruct (bd_count _ _ _ _ _ _ _ _ Hbd) as [Hc_n Hc_m].
  rewrite Es. split.
  - split; cbn [q_x q_bnorm q_rnorm q_arnorm q_xnorm q_anorm q_acond q_itn q_istop]; try done.
    + by rewrite Ern, Hr.
    + rewrite Hnorm. rewrite Ere, d2norm_sq, Epsi, Epb' in Hdec'. lra.
    + exists (vec (q_v s) :: HV). split; [by apply (bd_v _ _ _ _ _ _ _ _ Hbd)|]. split; [cbn; lia|done].
    + lia.
    + intros y Hy. destruct (bd_ker _ _ _ _ _ _ _ _ Hbd y Hy) as [Hy1 Hy2]. destruct (Hsw y Hy1 Hy2) as [Hyw HyX].
      rewrite (dot_lin_r n 1 (zbar * - q_cs2 s) X1 (vec (q_w s)) (vec x)); [rewrite Hyw, HyX; ring|].
      intros j Hj. rewrite (step_x A m n (vec b) damp _ _ _ _ _ _ _ _ _ _ _ _ _ _ _ _ _ _ _ Hi c1 cs rho Hrho0 (vec x) Hx zbar gambar Egb Hzb j Hj). ring.
    + intros E. specialize (Hr1 E). rewrite Ete1, Ert in Hr1.
      apply (Rmult_le_compat_r (q_bnorm s)) in Hr1; [|lra]. replace (rnorm / q_bnorm s * q_bnorm s) with rnorm in Hr1 by (field; lra).
      replace ((o_btol o + o_atol o * anorm * xnorm / q_bnorm s) * q_bnorm s) with (o_btol o * q_bnorm s + o_atol o * anorm * xnorm) in Hr1 by (field; lra). done.
    + intros E. specialize (Hr2 E). rewrite Ete2 in Hr2. apply (Rmult_le_compat_r (anorm * rnorm)) in Hr2; [|lra].
      replace (arnorm / (anorm * rnorm) * (anorm * rnorm)) with arnorm in Hr2 by (field; lra). done.
    + intros E E'. specialize (Hr2' E E'). rewrite Ete2 in Hr2'. apply (Rmult_lt_compat_r (anorm * rnorm)) in Hr2'; [|lra].
      replace (arnorm / (anorm * rnorm) * (anorm * rnorm)) with arnorm in Hr2' by (field; lra). done.
    + intros E. specialize (Hr4 E). unfold ctol in Hr4. assert (0 < test3) as Hp by (rewrite Ete3; apply Rdiv_lt_0_compat; lra).
      destruct (r_ltb 0 (o_conlim o)) eqn:Ecl; [|lra]. apply r_ltb_true in Ecl. split; [done|]. rewrite r_div_ok in Hr4 by lra. rewrite Ete3 in Hr4.
      apply (Rmult_le_compat_r (anorm * dnorm * o_conlim o)) in Hr4; [|apply Rmult_le_pos; lra].
      replace (1 / (anorm * dnorm) * (anorm * dnorm * o_conlim o)) with (o_conlim o) in Hr4 by (field; lra).
      replace (1 / o_conlim o * (anorm * dnorm * o_conlim o)) with (anorm * dnorm) in Hr4 by (field; lra). done.
  - cbn [q_arnorm]. intros Hne.
    assert (beta ≠ 0) as Hbne. { intros E0. apply Hne. assert (sn = 0) as E1 by (rewrite Esn, E0; field; lra). rewrite Ear, E1, Rmult_0_l, Rabs_R0. ring. }
    assert (0 < beta) as Hbt by lra. destruct (Hpos Hbt) as (Hu1 & Ha' & Hv & Hv1).
    assert (alpha ≠ 0) as Hane. { intros E0. apply Hne. rewrite Ear, E0. ring. }
    assert (0 < alpha) as Hap by lra.
    split; cbn [q_u q_v q_w q_x q_bnorm q_psi q_dnorm q_anorm q_itn q_alpha q_beta q_rhobar q_phibar q_res2 q_xnorm1 q_cs2 q_sn2 q_z]; try done; try lra.
    + rewrite zip_with_length. lia.
    + exists (vec (q_u s) :: HU), (vec (q_v s) :: HV), (ua' ua (vec u) c1 cs sn), (ub' (vec (q_v s)) ub c1 s1 sn), (ga' (q_phibar s) ua ga s1), (gb' (vec (q_v s)) (q_phibar s) ub gb c1 s1), (X1' (vec (q_w s)) (q_cs2 s) X1 (vec v) (r_div jdiv gambar gamma) (r_div jdiv theta gamma) z).
      split; [|split; [cbn; lia|done]]. rewrite Epb'. 
      eapply (step_next A m n (vec b) damp) with (beta := beta) (rho := rho) (gamma := gamma) (gambar := gambar) (zbar := zbar) (theta := theta); try done; try (by rewrite r_div_ok by lra); try lra.
      * intros j Hj. rewrite vec_zip; [rewrite Et2; ring|ring|lia].
      * apply d2norm_sq.
      * rewrite Ere, d2norm_sq, Epsi. done.
Qed.

Notation start := (lsqr_start 0 1 Rplus Rmult (r_div jdiv) Ropp Rabs (r_sqrt jsqrt) r_ltb r_is0 aprod2 m n b).
Lemma start_ok : length (q_x start) = n ∧ (∀ j, vec (q_x start) j = 0) ∧ q_itn start = 0%nat ∧ q_istop start = 0%nat ∧
  (if r_is0 (q_arnorm start) then ∀ j, (j < n)%nat → T (vec b) j = 0 else qst start).
Proof using Hap2 Hb.
  unfold lsqr_start. cbv zeta. change (dnrm2 0 1 Rplus Rmult (r_div jdiv) Rabs (r_sqrt jsqrt) r_ltb r_is0) with NRM.
  pose proof (NRM_nonneg b) as Hn0. destruct (r_ltb 0 (NRM b)) eqn:Eb.
  2: { apply r_ltb_false in Eb. assert (NRM b = 0) as E0 by lra. rewrite (proj2 (r_ltb_false 0 0)) by lra.
       cbn [q_x q_itn q_istop q_arnorm]. rewrite replicate_length. split; [done|]. split; [intros j; apply vec_zeros|]. split; [done|]. split; [done|].
       rewrite (proj2 (r_is0_true _)) by ring. intros j Hj. apply tmv_zero. intros i _. by apply norm_vanish. }
  apply r_ltb_true in Eb. set (u := scale Rmult (r_div jdiv 1 (NRM b)) b).
  assert (length u = m) as Lu by (unfold u; by rewrite length_scale).
  assert (∀ i, NRM b * vec u i = vec b i) as Hub. { intros i. unfold u. rewrite vec_scale, r_div_ok by lra. field. lra. }
  destruct (Hap2 (replicate n 0) u) as [L1 Hv1]; [apply replicate_length|done|].
  set (v1 := aprod2 (replicate n 0) u) in *.
  assert (∀ j, (j < n)%nat → vec v1 j = T (vec u) j) as Hv2. { intros j Hj. rewrite Hv1 by done. rewrite vec_zeros. unfold tmv. rewrite decide_True by done. ring. }
  assert (∀ j, T (vec b) j = NRM b * T (vec u) j) as HTb.
  { intros j. rewrite (tmv_lin A m n (NRM b) 0 (vec u) (vec u) (vec b)); [ring|]. intros i _. rewrite <- Hub. ring. }
  pose proof (NRM_nonneg v1) as Hn1. destruct (r_ltb 0 (NRM v1)) eqn:Ev.
  2: { apply r_ltb_false in Ev. assert (NRM v1 = 0) as E0 by lra. cbn [q_x q_itn q_istop q_arnorm]. rewrite replicate_length. split; [done|]. split; [intros j; apply vec_zeros|]. split; [done|]. split; [done|].
       rewrite (proj2 (r_is0_true _)) by (rewrite E0; ring). intros j Hj. rewrite HTb, <- Hv2 by done. rewrite norm_vanish by done. ring. }
  apply r_ltb_true in Ev. cbn [q_x q_itn q_istop q_arnorm]. rewrite replicate_length. split; [done|]. split; [intros j; apply vec_zeros|]. split; [done|]. split; [done|].
  rewrite (proj2 (r_is0_false (NRM v1 * NRM b))) by (apply Rmult_integral_contrapositive_currified; lra).
  set (v := scale Rmult (r_div jdiv 1 (NRM v1)) v1).
  assert (length v = n) as Lv by (unfold v; by rewrite length_scale).
  assert (∀ j, (j < n)%nat → T (vec u) j = NRM v1 * vec v j) as Hv. { intros j Hj. rewrite <- Hv2 by done. unfold v. rewrite vec_scale, r_div_ok by lra. field. lra. }
  assert (dot m (vec u) (vec u) = 1) as Huu by (by apply scaled_unit). assert (dot n (vec v) (vec v) = 1) as Hvv by (by apply scaled_unit).
  assert (bd A m n (vec u) (vec v) (NRM v1) [] []) as Hbd by (by apply bd_start).
  split; cbn [q_u q_v q_w q_x q_bnorm q_psi q_dnorm q_anorm q_itn q_alpha q_beta q_rhobar q_phibar q_res2 q_xnorm1 q_cs2 q_sn2 q_z]; try done; try lra.
  - apply replicate_length.
  - rewrite dnrm2_ok, Hb. done.
  - rewrite dnrm2_ok, Hb, norm_sq. lra.
  - exists [], [], (vec u), (λ _, 0), (λ _, 0), (λ _, 0), (λ _, 0). split; [|split; [done|unfold frob; cbn; ring]].
    assert (∀ k y, dot k y (λ _, 0) = 0) as Hz by (intros; by apply dot_zero_r).
    split; try done; try lra.
    + intros i Hi. rewrite mv_zero by (intros; apply vec_zeros). rewrite <- Hub. ring.
    + intros j Hj. rewrite vec_zeros. ring.
    + intros j Hj. rewrite Hv by done. ring.
    + intros j Hj. rewrite tmv_zero by done. ring.
    + intros i Hi. ring.
    + intros j Hj. ring.
    + rewrite Hz. lra.
    + rewrite !Hz. lra.
    + rewrite !Hz. lra.
    + intros j Hj. rewrite vec_zeros. ring.
    + rewrite (dot_comm n). apply Hz.
    + rewrite Hz. ring.
Qed.

Lemma loop_ok fuel s s' : qst s → lsqr_loop 0 1 tiny Rplus Rminus Rmult (r_div jdiv) Ropp Rabs (r_sqrt jsqrt) r_ltb r_leb r_is0 aprod1 aprod2 o fuel s = Some s' →
  qout s' ∧ (q_arnorm s' ≠ 0 → (q_itn s' < n)%nat ∧ (q_itn s' < m)%nat).
Proof using Hap1 Hap2 Hdamp Hatol Hb.
  revert s. induction fuel as [|fuel IH]; intros s Hs; [done|]. cbn [lsqr_loop]. cbv zeta. fold step.
  change (lsqr_step 0 1 tiny Rplus Rminus Rmult (r_div jdiv) Ropp Rabs (r_sqrt jsqrt) r_ltb r_leb r_is0 aprod1 aprod2 o s) with (step s).
  destruct (step_ok s Hs) as [Ho Hn]. destruct (decide _) as [E|E].
  - intros H. apply (IH (step s)); [|done]. apply Hn. pose proof (qo_2' _ Ho) as H2. rewrite E in H2. specialize (H2 ltac:(done) ltac:(done)).
    pose proof (qo_an _ Ho) as Ha. pose proof (qo_r _ Ho) as Hr.
    assert (0 < q_rnorm (step s)) as Hr0. { rewrite Hr. match goal with |- context [R_sqrt.sqrt ?a] => pose proof (sqrt_pos a) end. assert (0 < tiny) by (apply Rdiv_lt_0_compat; [lra|apply pow_lt; lra]). lra. }
    assert (0 <= o_atol o * (q_anorm (step s) * q_rnorm (step s))) by (apply Rmult_le_pos; [lra|]; apply Rmult_le_pos; lra). lra.
  - intros [= <-]. split; [done|]. intros Hne. destruct (Hn Hne) as [_ _ _ _ _ _ _ _ _ _ (HU & HV & ua & ub & ga & gb & X1 & Hi & Hlen & Hfr)].
    rewrite <- Hlen. apply (bd_count A m n _ _ _ _ _ (qi_bd _ _ _ _ _ _ _ _ _ _ _ _ _ _ _ _ _ _ _ _ _ _ _ _ Hi)).
Qed.
End exact.
