(** The iterations of LSMR in exact arithmetic *)
From Coq Require Import Reals Lra Lia Nsatz.
From stdpp Require Import numbers list sets.
From Verif Require Import DDSystem_Model Lsq_Model LinAlg Lsq_Norms Lsqr_Math Lsmr_Math Lsqr_Proofs.
Local Open Scope R_scope.

(** ** Any arithmetic: the number of iterations and the stopping reasons *)
Section any.
Context {F : Type}.
Variable (f0 f1 fhuge : F) (add sub mul div : F → F → F) (neg fabs fsqrt : F → F) (ltb leb : F → F → bool) (is0 : F → bool).
Variable (aprod1 aprod2 : list F → list F → list F) (o : opts (F := F)).
Notation step := (lsmr_step f0 f1 add sub mul div neg fabs fsqrt ltb leb is0 aprod1 aprod2 o).
Lemma lsmr_reason_in itn t1 test1 test2 test3 rtol : let k := lsmr_reason f0 f1 add div ltb leb o itn t1 test1 test2 test3 rtol in
  (k = 0 ∧ (itn < o_itnlim o))%nat ∨ k ∈ [1; 2; 3; 4; 5; 6]%nat ∨ (k = 7 ∧ o_itnlim o ≤ itn)%nat.
Proof. unfold lsmr_reason. cbv zeta. repeat match goal with |- context [if ?c then _ else _] => destruct c end; first [left; lia|right; right; lia|right; left; set_solver]. Qed.
Lemma lsmr_step_count s : r_itn (step s) = S (r_itn s) ∧ (r_istop (step s) = 0%nat → (S (r_itn s) < o_itnlim o)%nat) ∧
  (r_istop (step s) ∈ [0; 1; 2; 3; 4; 5; 6; 7]%nat) ∧ (r_istop (step s) = 7%nat → (o_itnlim o <= S (r_itn s))%nat).
Proof.
  unfold lsmr_step. destruct (bidiag _ _ _ _ _ _ _ _ _ _ _ _ _ _ _) as [[[u v] alpha] beta]. cbv zeta.
  match goal with |- context [lsmr_reason f0 f1 add div ltb leb o ?a ?b ?c ?d ?e ?f] => pose proof (lsmr_reason_in a b c d e f) as Hk; generalize dependent (lsmr_reason f0 f1 add div ltb leb o a b c d e f) end.
  intros k Hk. cbv zeta in Hk. cbn [r_itn r_istop]. split; [done|]. rewrite !elem_of_cons, elem_of_nil in *. lia.
Qed.
Lemma lsmr_loop_count fuel s : (max 1 (o_itnlim o - r_itn s) <= fuel)%nat →
  ∃ s', lsmr_loop f0 f1 add sub mul div neg fabs fsqrt ltb leb is0 aprod1 aprod2 o fuel s = Some s' ∧
    (r_itn s < r_itn s' <= max (S (r_itn s)) (o_itnlim o))%nat ∧ r_istop s' ∈ [1; 2; 3; 4; 5; 6; 7]%nat ∧ (r_istop s' = 7%nat → (o_itnlim o <= r_itn s')%nat).
Proof.
  revert s. induction fuel as [|fuel IH]; intros s Hf; [lia|]. cbn [lsmr_loop]. cbv zeta. destruct (lsmr_step_count s) as (H1 & H2 & H3 & H4). destruct (decide _) as [He|He].
  - specialize (H2 He). destruct (IH (step s)) as (s' & Hl & Hb & Hr & H5); [lia|]. exists s'. split; [done|]. split; [lia|done].
  - eexists. split; [done|]. split; [lia|]. split; [set_solver|]. intros E. rewrite H1. by apply H4.
Qed.
End any.

Section exact.
Variable (jdiv : R → R → R) (jsqrt : R → R).
Variable (A : nat → nat → R) (m n : nat) (aprod1 aprod2 : list R → list R → list R).
Hypothesis Hap1 : ∀ x y, length x = n → length y = m → length (aprod1 x y) = m ∧ ∀ i, (i < m)%nat → vec (aprod1 x y) i = vec y i + dot n (A i) (vec x).
Hypothesis Hap2 : ∀ x y, length x = n → length y = m → length (aprod2 x y) = n ∧ ∀ j, (j < n)%nat → vec (aprod2 x y) j = vec x j + dot m (λ i, A i j) (vec y).
Notation M := (mv A m n).
Notation T := (tmv A m n).
Notation D2 := (R_d2norm jdiv jsqrt).
Notation NRM := (R_dnrm2 jdiv jsqrt).
Notation bdg := (bidiag 0 1 Rplus Rmult (r_div jdiv) Ropp Rabs (r_sqrt jsqrt) r_ltb r_is0 aprod1 aprod2).
Variable (o : opts (F := R)).
Notation damp := (o_damp o).
Hypothesis Hatol : 0 <= o_atol o.
Hypothesis Hbtol : 0 <= o_btol o.
Notation step := (R_lsmr_step jdiv jsqrt aprod1 aprod2 o).
Variable (b : list R).
Hypothesis Hb : length b = m.

Definition frob0 (l : list (nat → R)) : R := lsum (λ q, dot m (M q) (M q)) l.

Record mst (s : lsmr (F := R)) : Prop := {
  ms_u : length (r_u s) = m; ms_v : length (r_v s) = n; ms_h : length (r_h s) = n; ms_hb : length (r_hbar s) = n; ms_x : length (r_x s) = n;
  ms_bn : r_normb s = norm m (vec b); ms_bp : 0 < r_normb s;
  ms_dec : r_betadd s * r_betadd s + r_d s + (r_sbar s * r_alphabar s * r_betadd s / r_rhodold s) * (r_sbar s * r_alphabar s * r_betadd s / r_rhodold s) <= dot m (vec b) (vec b);
  ms_tau : r_thetatilde s * r_tautildeold s + r_rhodold s * r_betad s - r_zeta s = - r_sbar s * r_alphabar s * r_betadd s;
  ms_max : 0 <= r_maxrbar s; ms_min : 0 < r_minrbar s;
  ms_inv : ∃ HU HV ua ub ga gb vb p, minv A m n (vec b) damp (vec (r_u s)) (vec (r_v s)) (vec (r_h s)) (vec (r_hbar s)) (vec (r_x s)) (r_alpha s) (r_alphabar s) (r_zetabar s) (r_rho s) (r_rhobar s) (r_cbar s) (r_sbar s) (r_betadd s) (r_rhodold s) (r_d s) HU HV ua ub ga gb vb p ∧
    length HV = r_itn s ∧ r_normA2 s = frob0 HV + r_alpha s * r_alpha s }.

(** What an iteration leaves *)
Record mout (s : lsmr (F := R)) : Prop := {
  mo_x : length (r_x s) = n;
  mo_bn : r_normb s = norm m (vec b); mo_bp : 0 < r_normb s;
  mo_r : r_normr s = R_sqrt.sqrt (dot m (λ i, vec b i - M (vec (r_x s)) i) (λ i, vec b i - M (vec (r_x s)) i) + damp * damp * dot n (vec (r_x s)) (vec (r_x s)));
  mo_ar : r_normAr s = norm n (λ j, T (λ i, vec b i - M (vec (r_x s)) i) j - damp * damp * vec (r_x s) j);
  mo_xn : r_normx s = norm n (vec (r_x s));
  mo_dec : dot m (λ i, vec b i - M (vec (r_x s)) i) (λ i, vec b i - M (vec (r_x s)) i) + damp * damp * dot n (vec (r_x s)) (vec (r_x s)) <= dot m (vec b) (vec b);
  mo_an : 0 < r_normA s; mo_frob : ∃ l, ortho n l ∧ length l = r_itn s ∧ r_normA s * r_normA s = frob0 l;
  mo_dn : 0 < r_condA s;
  mo_itn : (0 < r_itn s)%nat ∧ (r_itn s <= n)%nat ∧ (r_itn s <= m)%nat;
  mo_ker : ∀ y, (∀ i, (i < m)%nat → M y i = 0) → dot n y (vec (r_x s)) = 0;
  mo_1 : r_istop s = 1%nat → r_normr s <= o_btol o * r_normb s + o_atol o * r_normA s * r_normx s;
  mo_1' : r_istop s ≠ 1%nat → 0 < r_normr s;
  mo_2 : r_istop s = 2%nat → r_normAr s <= o_atol o * (r_normA s * r_normr s);
  mo_2' : r_istop s ≠ 1%nat → r_istop s ≠ 2%nat → o_atol o * (r_normA s * r_normr s) < r_normAr s;
  mo_3 : r_istop s = 3%nat → 0 < o_conlim o ∧ o_conlim o <= r_condA s;
  mo_456 : r_istop s ∉ [4; 5; 6]%nat }.

Lemma reason_cases_m itn t1 test1 test2 test3 rtol : 0 < test3 → 0 <= rtol → (t1 <= 0 → test1 <= 0) →
  let k := lsmr_reason 0 1 Rplus (r_div jdiv) r_ltb r_leb o itn t1 test1 test2 test3 rtol in
  (k = 1%nat → test1 <= rtol) ∧ (k ≠ 1%nat → rtol < test1) ∧ (k = 2%nat → test2 <= o_atol o) ∧ (k ≠ 1%nat → k ≠ 2%nat → o_atol o < test2) ∧ (k = 3%nat → test3 <= ctol 0 1 (r_div jdiv) r_ltb o) ∧ k ∉ [4; 5; 6]%nat.
Proof using Hatol.
  clear -Hatol. intros H3 Hr H1. unfold lsmr_reason. cbv zeta. rewrite (proj2 (r_leb_false (1 + test3) 1)) by lra.
  destruct (r_leb test1 rtol) eqn:E1; [apply r_leb_true in E1; split_and!; try done; set_solver|]. apply r_leb_false in E1.
  rewrite (proj2 (r_leb_false (1 + t1) 1)).
  2: { destruct (Rle_dec t1 0) as [H|H]; [apply H1 in H; lra|lra]. }
  destruct (r_leb test2 (o_atol o)) eqn:E2; [apply r_leb_true in E2; split_and!; try done; set_solver|]. apply r_leb_false in E2.
  rewrite (proj2 (r_leb_false (1 + test2) 1)) by lra.
  destruct (r_leb test3 _) eqn:E3; [apply r_leb_true in E3; split_and!; try done; set_solver|].
  destruct (decide _); split_and!; try done; set_solver.
Qed.

(** The values computed by an iteration, named *)
Lemma lsmr_step_eq s u v alpha beta :
  bdg (r_u s) (r_v s) (r_alpha s) = (u, v, alpha, beta) →
  ∃ alphahat chat shat rho c sn rhobar cbar sbar kh hbar kx x k h rhotilde ctilde stilde betad tautilde taud normr normA maxrbar minrbar condA test1 test2 test3 t1 rtol,
    alphahat = D2 (r_alphabar s) damp ∧ chat = r_div jdiv (r_alphabar s) alphahat ∧ shat = r_div jdiv damp alphahat ∧
    rho = D2 alphahat beta ∧ c = r_div jdiv alphahat rho ∧ sn = r_div jdiv beta rho ∧
    rhobar = D2 (r_cbar s * rho) (sn * alpha) ∧ cbar = r_div jdiv (r_cbar s * rho) rhobar ∧ sbar = r_div jdiv (sn * alpha) rhobar ∧
    kh = r_div jdiv (r_sbar s * rho * rho) (r_rho s * r_rhobar s) ∧ hbar = zip_with (λ h hb, h - kh * hb) (r_h s) (r_hbar s) ∧
    kx = r_div jdiv (cbar * r_zetabar s) (rho * rhobar) ∧ x = zip_with (λ x hb, x + kx * hb) (r_x s) hbar ∧
    k = r_div jdiv (sn * alpha) rho ∧ h = zip_with (λ v h, v - k * h) v (r_h s) ∧
    rhotilde = D2 (r_rhodold s) (r_sbar s * rho) ∧ ctilde = r_div jdiv (r_rhodold s) rhotilde ∧ stilde = r_div jdiv (r_sbar s * rho) rhotilde ∧
    betad = - stilde * r_betad s + ctilde * (c * (chat * r_betadd s)) ∧
    tautilde = r_div jdiv (r_zeta s - r_thetatilde s * r_tautildeold s) rhotilde ∧
    taud = r_div jdiv (cbar * r_zetabar s - stilde * rhobar * tautilde) (ctilde * rhobar) ∧
    normr = r_sqrt jsqrt (r_d s + - shat * r_betadd s * (- shat * r_betadd s) + (betad - taud) * (betad - taud) + - sn * (chat * r_betadd s) * (- sn * (chat * r_betadd s))) ∧
    normA = r_sqrt jsqrt (r_normA2 s + beta * beta) ∧
    maxrbar = fmax r_ltb (r_maxrbar s) (r_rhobar s) ∧ minrbar = (if decide (1 < S (r_itn s))%nat then fmin r_ltb (r_minrbar s) (r_rhobar s) else r_minrbar s) ∧
    condA = r_div jdiv (fmax r_ltb maxrbar (r_cbar s * rho)) (fmin r_ltb minrbar (r_cbar s * rho)) ∧
    test1 = r_div jdiv normr (r_normb s) ∧ test2 = r_div jdiv (Rabs (- sbar * r_zetabar s)) (normA * normr) ∧ test3 = r_div jdiv 1 condA ∧
    t1 = r_div jdiv test1 (1 + r_div jdiv (normA * NRM x) (r_normb s)) ∧ rtol = o_btol o + r_div jdiv (o_atol o * normA * NRM x) (r_normb s) ∧
    step s = Lsmr (S (r_itn s)) (lsmr_reason 0 1 Rplus (r_div jdiv) r_ltb r_leb o (S (r_itn s)) t1 test1 test2 test3 rtol)
      u v h hbar x alpha beta (- sbar * r_zetabar s) (c * alpha) rho rhobar cbar sbar (- sn * (chat * r_betadd s)) betad (ctilde * rhobar) tautilde (stilde * rhobar) (cbar * r_zetabar s)
      (r_d s + - shat * r_betadd s * (- shat * r_betadd s)) (r_normA2 s + beta * beta + alpha * alpha) maxrbar minrbar normA condA normr (Rabs (- sbar * r_zetabar s)) (NRM x) (r_normb s).
Proof.
  intros H1. unfold R_lsmr_step, lsmr_step. rewrite H1. cbv zeta.
  do 31 eexists. do 31 (split; [reflexivity|]). reflexivity.
Qed.

Lemma fmax_pos x y : 0 <= x → 0 < y → 0 < fmax r_ltb x y.
Proof. intros H1 H2. unfold fmax. destruct (r_ltb x y) eqn:E; [done|]. apply r_ltb_false in E. lra. Qed.
Lemma fmin_pos x y : 0 < x → 0 < y → 0 < fmin r_ltb x y.
Proof. intros H1 H2. unfold fmin. by destruct (r_ltb y x). Qed.
Lemma rotation a y h : h = D2 a y → 0 < h → r_div jdiv a h * r_div jdiv a h + r_div jdiv y h * r_div jdiv y h = 1 ∧ a = r_div jdiv a h * h ∧ y = r_div jdiv y h * h.
Proof.
  intros E H. rewrite !r_div_ok by lra. split; [|split; field; lra].
  apply (Rmult_eq_reg_r (h * h)); [|apply Rmult_integral_contrapositive_currified; lra].
  transitivity (a * a + y * y); [field; lra|]. rewrite E, d2norm_sq. lra.
Qed.

Lemma mstep_ok s : mst s → mout (step s) ∧ (r_normAr (step s) ≠ 0 → mst (step s)).
Proof using Hap1 Hap2 Hatol Hbtol Hb.
  intros [Lu Lv Lh Lhb Lx Hbn Hbp Hdec Htau Hmax Hmin (HU & HV & ua & ub & ga & gb & vb & p & Hi & Hlen & Hfr)].
  destruct (bdg (r_u s) (r_v s) (r_alpha s)) as [[[u v] alpha] beta] eqn:Ebd.
  destruct (lsmr_step_eq s _ _ _ _ Ebd) as (alphahat & chat & shat & rho & c & sn & rhobar & cbar & sbar & kh & hbar & kx & x & k & h & rhotilde & ctilde & stilde & betad & tautilde & taud & normr & normA & maxrbar & minrbar & condA & test1 & test2 & test3 & t1 & rtol &
    Eah & Ech & Esh & Erho & Ec & Esn & Erb & Ecb & Esb & Ekh & Ehb & Ekx & Ex & Ek & Eh & Ert & Ect & Est & Ebe & Eta & Etd & Ern & Ena & Emx & Emn & Eco & Ete1 & Ete2 & Ete3 & Et1 & Ertol & Es).
  destruct (bidiag_ok jdiv jsqrt A m n _ _ Hap1 Hap2 _ _ _ _ _ _ _ Lu Lv Ebd) as (Lu' & Lv' & Hb0 & Hu & Hpos & Hzero).
  pose proof Hi as Hi0. destruct Hi0 as [Hbd Hab0 Hcb0 Hrho0 Hrb0 Hrd0 Hzb _ _ _ _ _ _ _ _ _ _ _ _ _ _ _ _ Hsv Hsw].
  assert (0 < alphahat) as Hah by (rewrite Eah; apply d2norm_pos; left; lra).
  destruct (rotation _ _ _ Eah Hah) as (Hch & Hch1 & Hch2). rewrite <- Ech in Hch, Hch1. rewrite <- Esh in Hch, Hch2.
  assert (0 < rho) as Hrho by (rewrite Erho; apply d2norm_pos; left; lra).
  destruct (rotation _ _ _ Erho Hrho) as (Hcs & Hcs1 & Hcs2). rewrite <- Ec in Hcs, Hcs1. rewrite <- Esn in Hcs, Hcs2.
  assert (0 < r_cbar s * rho) as Hcr by (by apply Rmult_lt_0_compat).
  assert (0 < rhobar) as Hrb by (rewrite Erb; apply d2norm_pos; left; lra).
  destruct (rotation _ _ _ Erb Hrb) as (Hcb & Hcb1 & Hcb2). rewrite <- Ecb in Hcb, Hcb1. rewrite <- Esb in Hcb, Hcb2.
  assert (0 < rhotilde) as Hrt by (rewrite Ert; apply d2norm_pos; left; lra).
  destruct (rotation _ _ _ Ert Hrt) as (Hct & Hct1 & Hct2). rewrite <- Ect in Hct, Hct1. rewrite <- Est in Hct, Hct2.
  assert (r_rho s * r_rhobar s ≠ 0) as Hrr by (apply Rmult_integral_contrapositive_currified; lra).
  assert (rho * rhobar ≠ 0) as Hrr' by (apply Rmult_integral_contrapositive_currified; lra).
  rewrite r_div_ok in Ekh, Ekx, Ek, Eta by lra.
  assert (0 < c) as Hc0 by (rewrite Ec, r_div_ok by lra; by apply Rdiv_lt_0_compat).
  assert (0 < cbar) as Hcbp by (rewrite Ecb, r_div_ok by lra; by apply Rdiv_lt_0_compat).
  assert (0 < ctilde) as Hctp by (rewrite Ect, r_div_ok by lra; by apply Rdiv_lt_0_compat).
  assert (0 < ctilde * rhobar) as Hrdp by (by apply Rmult_lt_0_compat).
  rewrite r_div_ok in Etd by lra.
  assert (r_alphabar s = chat * (c * rho)) as Hab by (rewrite <- Hcs1; done).
  assert (damp = shat * (c * rho)) as Hdm by (rewrite <- Hcs1; done).
  assert (∀ j, (j < n)%nat → vec hbar j = vec (r_h s) j - r_sbar s * rho * rho / (r_rho s * r_rhobar s) * vec (r_hbar s) j) as Hhb.
  { intros j _. rewrite Ehb, vec_zip; [by rewrite Ekh|ring|lia]. }
  assert (length hbar = n) as Lhb' by (rewrite Ehb, zip_with_length; lia).
  assert (length x = n) as Lx' by (rewrite Ex, zip_with_length; lia).
  assert (∀ j, (j < n)%nat → vec x j = vec (r_x s) j + cbar * r_zetabar s / (rho * rhobar) * vec hbar j) as Hx.
  { intros j _. rewrite Ex, vec_zip; [by rewrite Ekx|ring|lia]. }
  set (betadd := - sn * (chat * r_betadd s)) in *. set (betacheck := - shat * r_betadd s) in *.
  (* betad - taud *)
  assert (tautilde = ctilde * r_betad s + stilde * (c * (chat * r_betadd s))) as Eta'.
  { rewrite Eta. apply (Rmult_eq_reg_r rhotilde); [|lra]. transitivity (r_zeta s - r_thetatilde s * r_tautildeold s); [field; lra|].
    assert (r_zeta s - r_thetatilde s * r_tautildeold s = r_rhodold s * r_betad s + r_sbar s * r_alphabar s * r_betadd s) as -> by lra.
    rewrite Hab. transitivity (ctilde * rhotilde * r_betad s + stilde * rhotilde * (c * (chat * r_betadd s))); [|ring]. rewrite <- Hct1, <- Hct2. ring. }
  assert (cbar * r_zetabar s = cbar * cbar * rhobar * (c * (chat * r_betadd s))) as Ezt.
  { rewrite Hzb, Hab. transitivity (cbar * (r_cbar s * rho) * (c * (chat * r_betadd s))); [ring|]. rewrite Hcb1. ring. }
  assert (sbar * (c * alpha) * betadd = - (sbar * sbar * rhobar * (c * (chat * r_betadd s)))) as Esab.
  { unfold betadd. transitivity (- (sbar * (sn * alpha) * (c * (chat * r_betadd s)))); [ring|]. rewrite Hcb2. ring. }
  assert (ctilde * rhobar * (betad - taud) = sbar * sbar * rhobar * (c * (chat * r_betadd s))) as Hkap0.
  { rewrite Etd. transitivity (ctilde * rhobar * betad + stilde * rhobar * tautilde - cbar * r_zetabar s); [field; split; lra|].
    rewrite Ezt, Ebe, Eta'. clear -Hct Hcb. nsatz. }
  assert (ctilde * rhobar * (betad - taud) = - sbar * (c * alpha) * betadd) as Hkap by (rewrite Hkap0; lra).
  assert (rhotilde * rhotilde = r_rhodold s * r_rhodold s + r_sbar s * rho * (r_sbar s * rho)) as Hrt2 by (rewrite Ert; apply d2norm_sq).
  assert (ctilde * rhobar = r_rhodold s / rhotilde * rhobar) as Hrd by (rewrite Ect, r_div_ok by lra; done).
  assert (0 < beta → dot m (vec u) (vec u) = 1 ∧ (∀ j, (j < n)%nat → alpha * vec v j = T (vec u) j - beta * vec (r_v s) j)) as Hpos'.
  { intros H. destruct (Hpos H) as (H1 & _ & H2 & _). done. }
  assert (ctilde * rhobar ≠ 0) as Hrdn by lra.
  pose proof (m_norm A m n (vec b) damp _ _ _ _ _ _ _ _ _ _ _ _ _ _ _ _ _ _ _ _ _ _ _ Hi (vec u) (vec v) beta alpha Hb0 Hu Hpos' chat shat c sn rho rhobar cbar sbar Hch Hcs Hcb Hrho Hrb Hab Hdm Hcs2 Hcb1 Hcb2 (vec hbar) (vec x) Hhb Hx rhotilde (ctilde * rhobar) Hrt2 Hrt Hrd (betad - taud) Hrdn Hkap) as Hnorm.
  pose proof (m_grad A m n (vec b) damp _ _ _ _ _ _ _ _ _ _ _ _ _ _ _ _ _ _ _ _ _ _ _ Hi (vec u) (vec v) beta alpha Hb0 Hu Hpos' chat shat c sn rho rhobar cbar sbar Hch Hcs Hcb Hrho Hrb Hab Hdm Hcs2 Hcb1 Hcb2 (vec hbar) (vec x) Hhb Hx) as Hgrad.
  (* the norm of the gradient *)
  assert (Rabs (- sbar * r_zetabar s) = norm n (λ j, T (λ i, vec b i - M (vec x) i) j - damp * damp * vec x j)) as Har.
  { pose proof (mi_vb _ _ _ _ _ _ _ _ _ _ _ _ _ _ _ _ _ _ _ _ _ _ _ _ _ _ _ _ Hi) as Hvb.
    apply norm_unique; [apply Rabs_pos|]. rewrite <- Rabs_mult, Rabs_right by (apply Rle_ge, Rle_0_sqr).
    rewrite (dot_scal2 n (- sbar * r_zetabar s) (λ j, - sbar * vb j + cbar * vec v j) _ Hgrad).
    rewrite (dot_sq n (- sbar) cbar vb (vec v) (λ j, - sbar * vb j + cbar * vec v j)) by done. rewrite Hvb.
    destruct (Req_dec (sn * alpha) 0) as [E0|E0].
    - assert (sbar = 0) as ->; [|ring]. rewrite E0 in Hcb2. symmetry in Hcb2. apply Rmult_integral in Hcb2 as [|]; [done|lra].
    - assert (0 < beta) as Hbt. { destruct (Req_dec beta 0) as [E1|]; [|lra]. exfalso. apply E0. rewrite Esn, r_div_ok, E1 by lra. field. lra. }
      assert (alpha ≠ 0) as Ha0 by (intros E1; apply E0; rewrite E1; ring).
      destruct (Hpos Hbt) as (Hu1 & Ha & Hv & Hv1). assert (0 < alpha) as Hap by lra. rewrite (Hv1 Hap).
      pose proof (bd_next A m n _ _ _ _ _ (vec u) (vec v) alpha beta Hbd Hbt Hap Hu Hv Hu1 (Hv1 Hap)) as Hbd'.
      destruct (bd_v _ _ _ _ _ _ _ _ Hbd') as (_ & [Hvv Hvp]%perp_cons & _). destruct (Hsw (vec v) Hvv Hvp) as [_ Hvvb].
      rewrite (dot_comm n vb), Hvvb. clear -Hcb. nsatz. }
  (* the norm of the residual *)
  assert (0 <= dot m (λ i, vec b i - M (vec x) i) (λ i, vec b i - M (vec x) i) + damp * damp * dot n (vec x) (vec x)) as Hcost0.
  { pose proof (dot_nonneg m (λ i, vec b i - M (vec x) i)). pose proof (dot_nonneg n (vec x)). pose proof (Rle_0_sqr damp) as Hd. unfold Rsqr in Hd. pose proof (Rmult_le_pos _ _ Hd H0). lra. }
  assert (normr = R_sqrt.sqrt (dot m (λ i, vec b i - M (vec x) i) (λ i, vec b i - M (vec x) i) + damp * damp * dot n (vec x) (vec x))) as Hr.
  { rewrite Hnorm in Hcost0 |- *. rewrite Ern. fold betacheck betadd in Hcost0 |- *. by rewrite r_sqrt_ok. }
  assert (betadd * betadd + (r_d s + betacheck * betacheck) + (betad - taud) * (betad - taud) <= dot m (vec b) (vec b)) as Hdec'.
  { set (bh := c * (chat * r_betadd s)) in *.
    assert (r_sbar s * r_alphabar s * r_betadd s / r_rhodold s = stilde / ctilde * bh) as Ho1.
    { apply (Rmult_eq_reg_r (r_rhodold s * ctilde)); [|apply Rmult_integral_contrapositive_currified; lra].
      transitivity (ctilde * (r_sbar s * rho) * bh); [unfold bh; rewrite Hab; field; lra|]. transitivity (r_rhodold s * stilde * bh); [|field; lra].
      rewrite Hct2. rewrite Hct1. ring. }
    assert (betad - taud = sbar * sbar / ctilde * bh) as Ho2.
    { apply (Rmult_eq_reg_l (ctilde * rhobar)); [|lra]. rewrite Hkap0. field. lra. }
    rewrite Ho1 in Hdec. rewrite Ho2.
    assert (r_betadd s * r_betadd s = bh * bh + betadd * betadd + betacheck * betacheck) as Ho3 by (unfold bh, betadd, betacheck; clear -Hch Hcs; nsatz).
    assert (bh * bh + stilde / ctilde * bh * (stilde / ctilde * bh) = bh * bh / (ctilde * ctilde)) as Ho4.
    { apply (Rmult_eq_reg_r (ctilde * ctilde)); [|apply Rmult_integral_contrapositive_currified; lra]. transitivity (bh * bh * (ctilde * ctilde + stilde * stilde)); [field; lra|]. rewrite Hct. field. lra. }
    assert (sbar * sbar / ctilde * bh * (sbar * sbar / ctilde * bh) <= bh * bh / (ctilde * ctilde)) as Ho5; [|lra].
    replace (sbar * sbar / ctilde * bh * (sbar * sbar / ctilde * bh)) with (sbar * sbar * (sbar * sbar) * (bh * bh / (ctilde * ctilde))) by (field; lra).
    assert (0 <= bh * bh / (ctilde * ctilde)) as Hq. { pose proof (Rle_0_sqr bh) as H0. unfold Rsqr in H0. apply Rmult_le_pos; [done|]. left. apply Rinv_0_lt_compat. apply Rmult_lt_0_compat; lra. }
    assert (0 <= sbar * sbar <= 1) as [Hs1 Hs2]. { pose proof (Rle_0_sqr sbar) as H0. pose proof (Rle_0_sqr cbar) as H1. unfold Rsqr in H0, H1. lra. }
    assert (sbar * sbar * (sbar * sbar) <= 1) as Hs3. { pose proof (Rmult_le_compat (sbar * sbar) 1 (sbar * sbar) 1 Hs1 Hs1 Hs2 Hs2). lra. }
    pose proof (Rmult_le_compat_r _ _ _ Hq Hs3). lra. }
  assert (dot m (λ i, vec b i - M (vec x) i) (λ i, vec b i - M (vec x) i) + damp * damp * dot n (vec x) (vec x) <= dot m (vec b) (vec b)) as Hdec''.
  { rewrite Hnorm. fold betadd betacheck. lra. }
  assert (NRM x = norm n (vec x)) as Hxn by (by rewrite dnrm2_ok, Lx').
  (* the norm of the matrix *)
  pose proof (bd_alpha _ _ _ _ _ _ _ _ Hbd) as Halpha.
  assert (∀ l, 0 <= frob0 l) as Hfr0.
  { intros l. induction l as [|q l IHl]; [unfold frob0; cbn; lra|]. change (frob0 (q :: l)) with (dot m (M q) (M q) + frob0 l). pose proof (dot_nonneg m (M q)). lra. }
  assert (r_normA2 s + beta * beta = frob0 (vec (r_v s) :: HV)) as Hfr'.
  { rewrite Hfr. change (frob0 (vec (r_v s) :: HV)) with (dot m (M (vec (r_v s))) (M (vec (r_v s))) + frob0 HV).
    destruct (bd_u _ _ _ _ _ _ _ _ Hbd) as (Huu & _ & _).
    rewrite (dot_sq m beta (r_alpha s) (vec u) (vec (r_u s)) (M (vec (r_v s)))) by (intros i Hl; rewrite Hu by done; ring). rewrite Huu.
    destruct (Req_dec beta 0) as [-> |E0]; [ring|]. assert (0 < beta) as Hbt by lra. destruct (Hpos Hbt) as (-> & _).
    pose proof (bd_next_u A m n _ _ _ _ _ _ _ Hbd Hbt Hu) as [-> _]%perp_cons. ring. }
  assert (0 < r_normA2 s + beta * beta) as Hna0.
  { rewrite Hfr. pose proof (Hfr0 HV). pose proof (Rmult_lt_0_compat _ _ Halpha Halpha). pose proof (Rle_0_sqr beta) as H1. unfold Rsqr in H1. lra. }
  rewrite r_sqrt_ok in Ena by lra.
  assert (0 < normA) as Hanp by (rewrite Ena; by apply sqrt_lt_R0).
  assert (normA * normA = frob0 (vec (r_v s) :: HV)) as Hfr2 by (rewrite Ena, sqrt_sqrt by lra; done).
  (* condA *)
  assert (0 <= maxrbar) as Hmax' by (rewrite Emx; left; by apply fmax_pos).
  assert (0 < minrbar) as Hmin' by (rewrite Emn; destruct (decide _); [by apply fmin_pos|done]).
  assert (0 < fmin r_ltb minrbar (r_cbar s * rho)) as Hco1 by (by apply fmin_pos).
  assert (0 < condA) as Hco by (rewrite Eco, r_div_ok by lra; apply Rdiv_lt_0_compat; [by apply fmax_pos|done]).
  (* tests *)
  pose proof (norm_nonneg n (vec x)) as Hxn0. rewrite <- Hxn in Hxn0.
  assert (0 <= normA * NRM x / r_normb s) as Hax. { apply Rmult_le_pos; [apply Rmult_le_pos; lra|]. left. by apply Rinv_0_lt_compat. }
  assert (0 <= o_atol o * normA * NRM x / r_normb s) as Hax'. { apply Rmult_le_pos; [apply Rmult_le_pos; [apply Rmult_le_pos; lra|done]|]. left. by apply Rinv_0_lt_compat. }
  rewrite r_div_ok in Ete1 by lra. rewrite r_div_ok in Ete3 by lra. rewrite !r_div_ok in Ertol by lra.
  rewrite (r_div_ok _ _ (r_normb s)) in Et1 by lra. rewrite r_div_ok in Et1 by lra.
  assert (0 <= normr) as Hrn by (rewrite Hr; apply sqrt_pos).
  pose proof (reason_cases_m (S (r_itn s)) t1 test1 test2 test3 rtol) as Hreason.
  destruct Hreason as (Hr1 & Hr1' & Hr2 & Hr2' & Hr3 & Hr456).
  { rewrite Ete3. apply Rdiv_lt_0_compat; lra. }
  { lra. }
  { intros Ht. assert (test1 = t1 * (1 + normA * NRM x / r_normb s)) as -> by (rewrite Et1; field; split; [lra|]; assert (0 < r_normb s * (1 + normA * NRM x / r_normb s)) as Hp by (apply Rmult_lt_0_compat; lra); replace (r_normb s * (1 + normA * NRM x / r_normb s)) with (r_normb s + normA * NRM x) in Hp by (field; lra); lra).
    assert (0 <= - t1 * (1 + normA * NRM x / r_normb s)) by (apply Rmult_le_pos; lra). lra. }
  set (rsn := lsmr_reason 0 1 Rplus (r_div jdiv) r_ltb r_leb o (S (r_itn s)) t1 test1 test2 test3 rtol) in *.
  assert (rsn ≠ 1%nat → 0 < normr) as Hrpos.
  { intros E. specialize (Hr1' E). destruct (Req_dec normr 0) as [E0|]; [|lra]. rewrite Ete1, E0 in Hr1'. replace (0 / r_normb s) with 0 in Hr1' by (field; lra). lra. }
  destruct (bd_count _ _ _ _ _ _ _ _ Hbd) as [Hc_n Hc_m].
  rewrite Es. split.
  - split; cbn [r_x r_normb r_normr r_normAr r_normx r_normA r_condA r_itn r_istop]; try done.
    + exists (vec (r_v s) :: HV). split; [by apply (bd_v _ _ _ _ _ _ _ _ Hbd)|]. split; [cbn; lia|done].
    + lia.
    + intros y Hy. destruct (bd_ker _ _ _ _ _ _ _ _ Hbd y Hy) as [Hy1 Hy2]. destruct (Hsw y Hy1 Hy2) as [Hyh _]. destruct (Hsv y Hy2) as (_ & _ & Hyhb & Hyx).
      rewrite (dot_lin_r n 1 (cbar * r_zetabar s / (rho * rhobar)) (vec (r_x s)) (vec hbar) (vec x)) by (intros j Hj; rewrite Hx by done; ring).
      rewrite (dot_lin_r n 1 (- (r_sbar s * rho * rho / (r_rho s * r_rhobar s))) (vec (r_h s)) (vec (r_hbar s)) (vec hbar)) by (intros j Hj; rewrite Hhb by done; ring).
      rewrite Hyh, Hyhb, Hyx. ring.
    + intros E. specialize (Hr1 E). rewrite Ete1, Ertol in Hr1.
      apply (Rmult_le_compat_r (r_normb s)) in Hr1; [|lra]. replace (normr / r_normb s * r_normb s) with normr in Hr1 by (field; lra).
      replace ((o_btol o + o_atol o * normA * NRM x / r_normb s) * r_normb s) with (o_btol o * r_normb s + o_atol o * normA * NRM x) in Hr1 by (field; lra). done.
    + intros E. specialize (Hr2 E). assert (0 < normr) as Hp by (apply Hrpos; rewrite E; done). assert (0 < normA * normr) as Hp2 by (by apply Rmult_lt_0_compat).
      rewrite Ete2, r_div_ok in Hr2 by lra. apply (Rmult_le_compat_r (normA * normr)) in Hr2; [|lra].
      replace (Rabs (- sbar * r_zetabar s) / (normA * normr) * (normA * normr)) with (Rabs (- sbar * r_zetabar s)) in Hr2 by (field; lra). done.
    + intros E E'. specialize (Hr2' E E'). assert (0 < normr) as Hp by (by apply Hrpos). assert (0 < normA * normr) as Hp2 by (by apply Rmult_lt_0_compat).
      rewrite Ete2, r_div_ok in Hr2' by lra. apply (Rmult_lt_compat_r (normA * normr)) in Hr2'; [|lra].
      replace (Rabs (- sbar * r_zetabar s) / (normA * normr) * (normA * normr)) with (Rabs (- sbar * r_zetabar s)) in Hr2' by (field; lra). done.
    + intros E. specialize (Hr3 E). unfold ctol in Hr3. assert (0 < test3) as Hp by (rewrite Ete3; apply Rdiv_lt_0_compat; lra).
      destruct (r_ltb 0 (o_conlim o)) eqn:Ecl; [|lra]. apply r_ltb_true in Ecl. split; [done|]. rewrite r_div_ok in Hr3 by lra. rewrite Ete3 in Hr3.
      apply (Rmult_le_compat_r (condA * o_conlim o)) in Hr3; [|apply Rmult_le_pos; lra].
      replace (1 / condA * (condA * o_conlim o)) with (o_conlim o) in Hr3 by (field; lra).
      replace (1 / o_conlim o * (condA * o_conlim o)) with condA in Hr3 by (field; lra). done.
  - cbn [r_normAr]. intros Hne.
    assert (sbar ≠ 0) as Hsne. { intros E0. apply Hne. rewrite E0, Ropp_0, Rmult_0_l, Rabs_R0. done. }
    assert (sn * alpha ≠ 0) as Hsa by (rewrite Hcb2; apply Rmult_integral_contrapositive_currified; lra).
    assert (beta ≠ 0) as Hbne. { intros E0. apply Hsa. rewrite Esn, E0, r_div_ok by lra. field. lra. }
    assert (0 < beta) as Hbt by lra. destruct (Hpos Hbt) as (Hu1 & Ha' & Hv & Hv1).
    assert (alpha ≠ 0) as Hane. { intros E0. apply Hsa. rewrite E0. ring. }
    assert (0 < alpha) as Hap by lra.
    split; cbn [r_u r_v r_h r_hbar r_x r_normb r_betadd r_d r_sbar r_alphabar r_rhodold r_thetatilde r_tautildeold r_betad r_zeta r_maxrbar r_minrbar r_alpha r_zetabar r_rho r_rhobar r_cbar r_itn r_normA2]; try done.
    + rewrite Eh, zip_with_length. lia.
    + assert (sbar * (c * alpha) * betadd / (ctilde * rhobar) = - (betad - taud)) as ->; [|lra].
      apply (Rmult_eq_reg_l (ctilde * rhobar)); [|lra]. transitivity (sbar * (c * alpha) * betadd); [field; split; lra|]. lra.
    + rewrite <- Hkap, Etd. field. split; lra.
    + eexists (vec (r_u s) :: HU), (vec (r_v s) :: HV), _, _, _, _, _, _. split; [|split; [cbn; lia|rewrite <- Hfr'; done]].
      eapply (m_next A m n (vec b) damp) with (beta := beta) (rhotilde := rhotilde) (rho' := rho); try done; try lra.
      * intros j Hj. rewrite Eh, vec_zip; [rewrite Ek; done|ring|lia].
Qed.

Notation start := (lsmr_start 0 1 (10 ^ 100) Rplus Rmult (r_div jdiv) Ropp Rabs (r_sqrt jsqrt) r_ltb r_is0 aprod1 aprod2 m n b).
Lemma mstart_ok : length (r_x start) = n ∧ (∀ j, vec (r_x start) j = 0) ∧ r_itn start = 0%nat ∧ r_istop start = 0%nat ∧
  (if r_is0 (r_normAr start) then ∀ j, (j < n)%nat → T (vec b) j = 0 else mst start).
Proof using Hap1 Hap2 Hb.
  unfold lsmr_start. cbv zeta. change (dnrm2 0 1 Rplus Rmult (r_div jdiv) Rabs (r_sqrt jsqrt) r_ltb r_is0) with NRM.
  set (b1 := scale Rmult (Ropp 1) (aprod1 (replicate n 0) (scale Rmult (Ropp 1) b))).
  destruct (Hap1 (replicate n 0) (scale Rmult (Ropp 1) b)) as [L0 Hv0]; [apply replicate_length|by rewrite length_scale|].
  assert (length b1 = m) as Lb1 by (unfold b1; by rewrite length_scale).
  assert (∀ i, (i < m)%nat → vec b1 i = vec b i) as Hb1.
  { intros i Hi. unfold b1. rewrite vec_scale, Hv0, vec_scale by done. rewrite dot_zero_r by (intros; apply vec_zeros). ring. }
  assert (b1 = b) as ->.
  { apply (list_eq_same_length _ _ m); [done|done|]. intros i x y Hi Hx Hy. specialize (Hb1 i Hi). unfold vec in Hb1.
    rewrite (nth_lookup_Some b1 i 0 x Hx), (nth_lookup_Some b i 0 y Hy) in Hb1. done. }
  pose proof (NRM_nonneg jdiv jsqrt b) as Hn0. destruct (r_ltb 0 (NRM b)) eqn:Eb.
  2: { apply r_ltb_false in Eb. assert (NRM b = 0) as E0 by lra. rewrite (proj2 (r_ltb_false 0 0)) by lra.
       cbn [r_x r_itn r_istop r_normAr]. rewrite replicate_length. split; [done|]. split; [intros j; apply vec_zeros|]. split; [done|]. split; [done|].
       rewrite (proj2 (r_is0_true _)) by ring. intros j Hj. apply tmv_zero. intros i _. by apply (norm_vanish jdiv jsqrt). }
  apply r_ltb_true in Eb. set (u := scale Rmult (r_div jdiv 1 (NRM b)) b).
  assert (length u = m) as Lu by (unfold u; by rewrite length_scale).
  assert (∀ i, NRM b * vec u i = vec b i) as Hub. { intros i. unfold u. rewrite vec_scale, r_div_ok by lra. field. lra. }
  destruct (Hap2 (replicate n 0) u) as [L1 Hv1]; [apply replicate_length|done|].
  set (v1 := aprod2 (replicate n 0) u) in *.
  assert (∀ j, (j < n)%nat → vec v1 j = T (vec u) j) as Hv2. { intros j Hj. rewrite Hv1 by done. rewrite vec_zeros. unfold tmv. rewrite decide_True by done. ring. }
  assert (∀ j, T (vec b) j = NRM b * T (vec u) j) as HTb.
  { intros j. rewrite (tmv_lin A m n (NRM b) 0 (vec u) (vec u) (vec b)); [ring|]. intros i _. rewrite <- Hub. ring. }
  pose proof (NRM_nonneg jdiv jsqrt v1) as Hn1. destruct (r_ltb 0 (NRM v1)) eqn:Ev.
  2: { apply r_ltb_false in Ev. assert (NRM v1 = 0) as E0 by lra. cbn [r_x r_itn r_istop r_normAr]. rewrite replicate_length. split; [done|]. split; [intros j; apply vec_zeros|]. split; [done|]. split; [done|].
       rewrite (proj2 (r_is0_true _)) by (rewrite E0; ring). intros j Hj. rewrite HTb, <- Hv2 by done. rewrite (norm_vanish jdiv jsqrt) by done. ring. }
  apply r_ltb_true in Ev. cbn [r_x r_itn r_istop r_normAr]. rewrite replicate_length. split; [done|]. split; [intros j; apply vec_zeros|]. split; [done|]. split; [done|].
  rewrite (proj2 (r_is0_false (NRM v1 * NRM b))) by (apply Rmult_integral_contrapositive_currified; lra).
  set (v := scale Rmult (r_div jdiv 1 (NRM v1)) v1).
  assert (length v = n) as Lv by (unfold v; by rewrite length_scale).
  assert (∀ j, (j < n)%nat → T (vec u) j = NRM v1 * vec v j) as Hv. { intros j Hj. rewrite <- Hv2 by done. unfold v. rewrite vec_scale, r_div_ok by lra. field. lra. }
  assert (dot m (vec u) (vec u) = 1) as Huu by (by apply scaled_unit). assert (dot n (vec v) (vec v) = 1) as Hvv by (by apply scaled_unit).
  assert (bd A m n (vec u) (vec v) (NRM v1) [] []) as Hbd by (by apply bd_start).
  split; cbn [r_u r_v r_h r_hbar r_x r_normb r_betadd r_d r_sbar r_alphabar r_rhodold r_thetatilde r_tautildeold r_betad r_zeta r_maxrbar r_minrbar r_alpha r_zetabar r_rho r_rhobar r_cbar r_itn r_normA2]; try done; try lra.
  - apply replicate_length.
  - apply replicate_length.
  - rewrite dnrm2_ok, Hb. done.
  - rewrite dnrm2_ok, Hb, norm_sq. lra.
  - exists [], [], (vec u), (λ _, 0), (λ _, 0), (λ _, 0), (vec v), (λ _, 0). split; [|split; [done|unfold frob0; cbn; ring]].
    assert (∀ k y, dot k y (λ _, 0) = 0) as Hz by (intros; by apply dot_zero_r).
    assert (∀ i, M (vec (replicate n 0)) i = 0) as HMz by (intros i; apply mv_zero; intros; apply vec_zeros).
    split; try done; try lra.
    + intros i Hi. rewrite !HMz, <- Hub. lra.
    + intros j Hj. rewrite !vec_zeros. lra.
    + intros j Hj. rewrite Hv by done. ring.
    + intros i Hi. ring.
    + intros j Hj. ring.
    + intros j Hj. rewrite vec_zeros. rewrite (tmv_lin A m n (NRM b) 0 (vec u) (vec u)) by (intros i _; rewrite HMz, <- Hub; ring). rewrite Hv by done. ring.
    + intros j Hj. rewrite vec_zeros, tmv_zero by (intros; apply HMz). ring.
    + intros j Hj. ring.
    + rewrite Hz. lra.
    + rewrite !Hz. lra.
    + rewrite !Hz. lra.
    + rewrite dot_zero_l by (intros; apply HMz). rewrite Hz. lra.
    + rewrite !Hz. lra.
    + intros y Hy _. split; [done|]. split; [apply Hz|]. apply dot_zero_r. intros; apply HMz.
    + intros y _. split; [apply Hz|]. split; [apply Hz|]. split; apply dot_zero_r; intros; apply vec_zeros.
Qed.

Lemma mloop_ok fuel s s' : mst s → lsmr_loop 0 1 Rplus Rminus Rmult (r_div jdiv) Ropp Rabs (r_sqrt jsqrt) r_ltb r_leb r_is0 aprod1 aprod2 o fuel s = Some s' →
  mout s' ∧ (r_normAr s' ≠ 0 → (r_itn s' < n)%nat ∧ (r_itn s' < m)%nat).
Proof using Hap1 Hap2 Hatol Hbtol Hb.
  revert s. induction fuel as [|fuel IH]; intros s Hs; [done|]. cbn [lsmr_loop]. cbv zeta.
  change (lsmr_step 0 1 Rplus Rminus Rmult (r_div jdiv) Ropp Rabs (r_sqrt jsqrt) r_ltb r_leb r_is0 aprod1 aprod2 o s) with (step s).
  destruct (mstep_ok s Hs) as [Ho Hn]. destruct (decide _) as [E|E].
  - intros H. apply (IH (step s)); [|done]. apply Hn. pose proof (mo_2' _ Ho) as H2. rewrite E in H2. specialize (H2 ltac:(done) ltac:(done)).
    pose proof (mo_an _ Ho) as Ha. pose proof (mo_r _ Ho) as Hr.
    assert (0 <= r_normr (step s)) as Hr0 by (rewrite Hr; apply sqrt_pos).
    assert (0 <= o_atol o * (r_normA (step s) * r_normr (step s))) by (apply Rmult_le_pos; [lra|]; apply Rmult_le_pos; lra). lra.
  - intros [= <-]. split; [done|]. intros Hne. destruct (Hn Hne) as [_ _ _ _ _ _ _ _ _ _ _ (HU & HV & ua & ub & ga & gb & vb & p & Hi & Hlen & Hfr)].
    rewrite <- Hlen. apply (bd_count A m n _ _ _ _ _ (mi_bd _ _ _ _ _ _ _ _ _ _ _ _ _ _ _ _ _ _ _ _ _ _ _ _ _ _ _ _ Hi)).
Qed.
End exact.
