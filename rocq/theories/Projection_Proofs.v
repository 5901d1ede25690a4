(** Properties of the functions behind the Lambert projection *)
From Coq Require Import Reals Lra Lia String List.
From Coquelicot Require Import Coquelicot.
From Verif Require Import Geo_Model Geo_Proofs Geo_Props Transform_Model Transform_Props Projection_Model.
Local Open Scope R_scope.

(** ** Ellipsoids *)
Definition good (e : ellip) : Prop :=
  0 < EQ_RAD e /\ 0 <= ECC e < 1 / 10 /\ ECC2 e = ECC e * ECC e /\ ECC2 e < 7 / 1000 /\
  ECC4 e = ECC2 e * ECC2 e /\ ECC6 e = ECC2 e * ECC2 e * ECC2 e.
Lemma setup_row n e : map_setup_proxy n = Some e -> exists a b f, In (n, (a, b, f)) ellipse /\
  e = Ellip a (d_sqrt (2 * f - f * f)) (2 * f - f * f) ((2 * f - f * f) * (2 * f - f * f)) ((2 * f - f * f) * ((2 * f - f * f) * (2 * f - f * f))).
Proof.
  unfold map_setup_proxy. destruct (find _ _) as [[n' [[a b] f]]|] eqn:E; [|discriminate]. intros H. injection H as <-.
  apply find_some in E as [Hin Heq]. cbn [fst] in Heq. apply String.eqb_eq in Heq as <-. exists a, b, f. split; [exact Hin|reflexivity].
Qed.
Lemma table_bounds n a b f : In (n, (a, b, f)) ellipse -> 6000000 < a /\ 0 <= f <= 1 / 293.
Proof.
  unfold ellipse. cbn [In]. intros H.
  repeat (destruct H as [H|H]; [injection H as _ <- _ <-; split; lra|]). destruct H.
Qed.
Lemma setup_good n e : map_setup_proxy n = Some e -> good e.
Proof.
  intros H. apply setup_row in H as (a & b & f & Hin & ->). apply table_bounds in Hin as [Ha Hf]. unfold good. cbn [EQ_RAD ECC ECC2 ECC4 ECC6].
  assert (0 <= f * f) by (apply Rmult_le_pos; lra). assert (f * f <= f * 1) by (apply Rmult_le_compat_l; lra).
  assert (H2 : 0 <= 2 * f - f * f < 7 / 1000) by lra.
  unfold d_sqrt. destruct (Rlt_dec (2 * f - f * f) 0) as [K|K]; [lra|].
  pose proof (sqrt_pos (2 * f - f * f)) as P. pose proof (sqrt_sqrt (2 * f - f * f) ltac:(lra)) as Q.
  repeat apply conj; try lra; try ring.
  apply Rnot_le_lt. intros L. assert (1 / 10 * (1 / 10) <= sqrt (2 * f - f * f) * sqrt (2 * f - f * f)) by (apply Rmult_le_compat; lra). lra.
Qed.

(** ** Checked operations *)
Lemma div_ok a b : b <> 0 -> div_ a b = Some (a / b).
Proof. intros H. unfold div_. destruct (Req_EM_T b 0); [contradiction|reflexivity]. Qed.
Lemma tan_ok x : cos x <> 0 -> tan_ x = Some (tan x).
Proof. intros H. unfold tan_. destruct (Req_EM_T (cos x) 0); [contradiction|reflexivity]. Qed.
Lemma pow_ok x y : 0 < x -> pow_ x y = Some (Rpower x y).
Proof. intros H. unfold pow_. destruct (Rlt_dec 0 x); [reflexivity|contradiction]. Qed.

(** ** The functions of the projection for one eccentricity *)
Section Ecc.
  Variable k : R.
  Hypothesis Hk : 0 <= k < 1.
  Definition w (f : R) : R := Rpower ((1 - k * sin f) / (1 + k * sin f)) (1 / 2 * k).
  Definition Lf (f : R) : R := ln (sin (PI / 4 - f / 2)) - ln (cos (PI / 4 - f / 2)) - k / 2 * (ln (1 - k * sin f) - ln (1 + k * sin f)).
  Definition Kf (f : R) : R := ln (cos f) - 1 / 2 * ln (1 - k * k * (sin f * sin f)).
  Definition inside (f : R) : Prop := - (PI / 2) < f < PI / 2.

  Lemma ks_bound f : - 1 < k * sin f < 1.
  Proof using Hk.
    pose proof (SIN_bound f) as B. assert (Rabs (k * sin f) <= k * 1).
    { rewrite Rabs_mult, (Rabs_pos_eq k) by lra. apply Rmult_le_compat_l; [lra|]. apply Rabs_le. lra. }
    apply Rabs_le_between in H. lra.
  Qed.
  Lemma kk_bound f : 0 <= k * k * (sin f * sin f) <= k * k /\ k * k < 1.
  Proof using Hk.
    pose proof (sin2_cos2 f) as E. unfold Rsqr in E. pose proof (Rle_0_sqr (cos f)) as C. pose proof (Rle_0_sqr (sin f)) as S. unfold Rsqr in C, S.
    assert (0 <= k * k) by (apply Rmult_le_pos; lra). repeat apply conj.
    - apply Rmult_le_pos; lra.
    - rewrite <- (Rmult_1_r (k * k)) at 2. apply Rmult_le_compat_l; lra.
    - assert (k * k <= k * 1) by (apply Rmult_le_compat_l; lra). lra.
  Qed.
  Lemma w_pos f : 0 < w f. Proof using. apply exp_pos. Qed.
  Lemma ratio_pos f : 0 < (1 - k * sin f) / (1 + k * sin f).
  Proof using Hk. pose proof (ks_bound f). apply Rdiv_lt_0_compat; lra. Qed.
  Lemma ln_w f : ln (w f) = k / 2 * (ln (1 - k * sin f) - ln (1 + k * sin f)).
  Proof using Hk. unfold w, Rpower. rewrite ln_exp. pose proof (ks_bound f). rewrite ln_div by lra. field. Qed.
  Lemma half_trig f : inside f -> 0 < sin (PI / 4 - f / 2) /\ 0 < cos (PI / 4 - f / 2).
  Proof using. intros [H1 H2]. split; [apply sin_gt_0; lra|apply cos_gt_0; lra]. Qed.
  Lemma tan_pos f : inside f -> 0 < tan (PI / 4 - f / 2).
  Proof using. intros H. destruct (half_trig f H). unfold tan. apply Rdiv_lt_0_compat; assumption. Qed.
  Lemma Lf_ln f : inside f -> Lf f = ln (tan (PI / 4 - f / 2) / w f).
  Proof using Hk.
    intros H. destruct (half_trig f H). rewrite ln_div by (apply tan_pos || apply w_pos; exact H). rewrite ln_w. unfold tan. rewrite ln_div by assumption. unfold Lf. ring.
  Qed.
  Lemma exp_Lf f : inside f -> exp (Lf f) = tan (PI / 4 - f / 2) / w f.
  Proof using Hk. intros H. rewrite Lf_ln by exact H. apply exp_ln. apply Rdiv_lt_0_compat; [apply tan_pos; exact H|apply w_pos]. Qed.
  Lemma cos_pos f : inside f -> 0 < cos f.
  Proof using. intros [H1 H2]. apply cos_gt_0; lra. Qed.
  Lemma exp_Kf f : inside f -> exp (Kf f) = cos f / sqrt (1 - k * k * (sin f * sin f)).
  Proof using Hk.
    intros H. pose proof (cos_pos f H). pose proof (kk_bound f). assert (P : 0 < 1 - k * k * (sin f * sin f)) by lra.
    unfold Kf. unfold Rminus at 1. rewrite exp_plus, exp_ln by assumption. unfold Rdiv. f_equal.
    rewrite exp_Ropp. f_equal. rewrite <- Rpower_sqrt by exact P. unfold Rpower. f_equal. field.
  Qed.
  Definition dL (f : R) : R := - (1 - k * k) / (cos f * (1 - k * k * (sin f * sin f))).
  Lemma dL_neg f : inside f -> dL f < 0.
  Proof using Hk.
    intros H. pose proof (cos_pos f H). pose proof (kk_bound f). unfold dL. unfold Rdiv. rewrite Ropp_mult_distr_l_reverse.
    apply Ropp_lt_gt_0_contravar. apply Rdiv_lt_0_compat; [lra|]. apply Rmult_lt_0_compat; lra.
  Qed.
  Lemma derive_Lf f : inside f -> is_derive Lf f (dL f).
  Proof using Hk.
    intros H. destruct (half_trig f H) as [S C]. pose proof (cos_pos f H) as Cf. pose proof (kk_bound f) as [B1 B2]. pose proof (ks_bound f) as B3.
    unfold Lf, dL. auto_derive.
    - replace (PI / 4 + - (f * / 2)) with (PI / 4 - f / 2) by (unfold Rdiv; ring). repeat apply conj; try exact I; lra.
    - replace (PI / 4 + - (f * / 2)) with (PI / 4 - f / 2) by (unfold Rdiv; ring).
      assert (E2 : cos f = 2 * sin (PI / 4 - f / 2) * cos (PI / 4 - f / 2)).
      { rewrite <- sin_2a. replace (2 * (PI / 4 - f / 2)) with (PI / 2 - f) by field. symmetry. apply sin_shift. }
      pose proof (sin2_cos2 (PI / 4 - f / 2)) as U. unfold Rsqr in U. pose proof (sin2_cos2 f) as U'. unfold Rsqr in U'.
      set (s := sin (PI / 4 - f / 2)) in *. set (c := cos (PI / 4 - f / 2)) in *.
      assert (A : - (1 * / 2) * c * / s + - (- (1 * / 2) * - s * / c) = - / cos f).
      { rewrite E2. transitivity (- (s * s + c * c) * / (2 * s * c)); [field; split; lra|]. rewrite U. ring. }
      rewrite A. transitivity (- / cos f + k * k * cos f / ((1 - k * sin f) * (1 + k * sin f))).
      { field. repeat apply conj; lra. }
      assert (W : (1 - k * sin f) * (1 + k * sin f) = 1 - k * k * (sin f * sin f)) by ring. rewrite W.
      transitivity (- (1 - k * k * (sin f * sin f + cos f * cos f)) / (cos f * (1 - k * k * (sin f * sin f)))).
      { field. split; lra. }
      rewrite U'. f_equal. ring.
  Qed.
  Lemma derive_Kf f : inside f -> is_derive Kf f (sin f * dL f).
  Proof using Hk.
    intros H. pose proof (cos_pos f H) as Cf. pose proof (kk_bound f) as [B1 B2]. unfold Kf, dL. auto_derive.
    - repeat apply conj; try exact I; lra.
    - pose proof (sin2_cos2 f) as U'. unfold Rsqr in U'.
      transitivity (- sin f * (1 - k * k * (sin f * sin f + cos f * cos f)) / (cos f * (1 - k * k * (sin f * sin f)))).
      { field. split; lra. }
      rewrite U'. field. split; lra.
  Qed.
  (** Mean values *)
  Lemma inside_between a b c : inside a -> inside b -> Rmin a b <= c <= Rmax a b -> inside c.
  Proof using. unfold inside, Rmin, Rmax. destruct (Rle_dec a b); lra. Qed.
  Lemma Lf_decreasing a b : inside a -> inside b -> a < b -> Lf b < Lf a.
  Proof using Hk.
    intros Ha Hb Hab. destruct (MVT_gen Lf a b dL) as (c & Hc & E).
    - intros x Hx. apply derive_Lf. apply (inside_between a b); [assumption..|lra].
    - intros x Hx. apply derivable_continuous_pt. exists (dL x). apply is_derive_Reals. apply derive_Lf. apply (inside_between a b); assumption.
    - pose proof (dL_neg c (inside_between a b c Ha Hb Hc)) as D.
      assert (dL c * (b - a) < 0); [|lra]. rewrite <- (Rmult_0_l (b - a)). apply Rmult_lt_compat_r; lra.
  Qed.
  Lemma Kf_even f : Kf (- f) = Kf f.
  Proof using. unfold Kf. rewrite cos_neg, sin_neg. do 3 f_equal. ring. Qed.
  Lemma sin_inside_inj a b : inside a -> inside b -> sin a = sin b -> a = b.
  Proof using.
    intros [A1 A2] [B1 B2] E. destruct (Rtotal_order a b) as [L|[L|L]]; [|exact L|]; exfalso.
    - pose proof (sin_increasing_1 a b ltac:(lra) ltac:(lra) ltac:(lra) ltac:(lra) L). lra.
    - pose proof (sin_increasing_1 b a ltac:(lra) ltac:(lra) ltac:(lra) ltac:(lra) L). lra.
  Qed.
  Lemma Kf_eq a b : inside a -> inside b -> Kf a = Kf b -> a = b \/ a = - b.
  Proof using Hk.
    intros Ha Hb E. apply (f_equal exp) in E. rewrite !exp_Kf in E by assumption.
    pose proof (kk_bound a) as [A1 A2]. pose proof (kk_bound b) as [B1 _]. pose proof (sin2_cos2 a) as Ua. pose proof (sin2_cos2 b) as Ub. unfold Rsqr in Ua, Ub.
    set (ra := 1 - k * k * (sin a * sin a)) in *. set (rb := 1 - k * k * (sin b * sin b)) in *.
    assert (Pa : 0 < ra) by (unfold ra; lra). assert (Pb : 0 < rb) by (unfold rb; lra).
    pose proof (sqrt_lt_R0 ra Pa) as Sa. pose proof (sqrt_lt_R0 rb Pb) as Sb. pose proof (sqrt_sqrt ra ltac:(lra)) as Qa. pose proof (sqrt_sqrt rb ltac:(lra)) as Qb.
    assert (E2 : cos a * cos a * rb = cos b * cos b * ra).
    { rewrite <- Qa, <- Qb. assert (E' : cos a * sqrt rb = cos b * sqrt ra).
      { apply (Rmult_eq_reg_r (/ sqrt ra * / sqrt rb)); [|apply Rgt_not_eq, Rmult_lt_0_compat; apply Rinv_0_lt_compat; assumption].
        transitivity (cos a / sqrt ra); [field; lra|]. rewrite E. field; lra. }
      replace (cos a * cos a * (sqrt rb * sqrt rb)) with ((cos a * sqrt rb) * (cos a * sqrt rb)) by ring. rewrite E'. ring. }
    assert (E3 : (sin a - sin b) * (sin a + sin b) = 0).
    { apply (Rmult_eq_reg_l (1 - k * k)); [|lra]. rewrite Rmult_0_r. unfold ra, rb in E2.
      replace (cos a * cos a) with (1 - sin a * sin a) in E2 by lra. replace (cos b * cos b) with (1 - sin b * sin b) in E2 by lra.
      assert (X : (1 - k * k) * ((sin a - sin b) * (sin a + sin b)) = (1 - sin b * sin b) * (1 - k * k * (sin a * sin a)) - (1 - sin a * sin a) * (1 - k * k * (sin b * sin b))) by ring.
      rewrite X, <- E2. ring. }
    apply Rmult_integral in E3 as [E3|E3].
    - left. apply sin_inside_inj; [assumption..|lra].
    - right. apply sin_inside_inj; [assumption|unfold inside in *; lra|]. rewrite sin_neg. lra.
  Qed.
  (** The constant of the cone *)
  Lemma cone a b : inside a -> inside b -> a <> b -> exists c, Rmin a b <= c <= Rmax a b /\ (Kf a - Kf b) / (Lf a - Lf b) = sin c.
  Proof using Hk.
    intros Ha Hb Hab. assert (HL : Lf a - Lf b <> 0).
    { destruct (Rtotal_order a b) as [L|[L|L]]; [|contradiction|]; [pose proof (Lf_decreasing a b Ha Hb L)|pose proof (Lf_decreasing b a Hb Ha L)]; lra. }
    set (n := (Kf a - Kf b) / (Lf a - Lf b)).
    assert (D : forall x, Rmin a b <= x <= Rmax a b -> is_derive (fun x => Kf x - n * Lf x) x ((sin x - n) * dL x)).
    { intros x Hx. pose proof (inside_between a b x Ha Hb Hx) as Hi. replace ((sin x - n) * dL x) with (sin x * dL x - n * dL x) by ring.
      apply (is_derive_minus Kf (fun x => n * Lf x)); [apply derive_Kf; exact Hi|]. apply (is_derive_scal Lf). apply derive_Lf. exact Hi. }
    destruct (MVT_gen (fun x => Kf x - n * Lf x) a b (fun x => (sin x - n) * dL x)) as (c & Hc & E).
    - intros x Hx. apply D. lra.
    - intros x Hx. apply derivable_continuous_pt. exists ((sin x - n) * dL x). apply is_derive_Reals. apply D. exact Hx.
    - exists c. split; [exact Hc|]. fold n. replace (Kf b - n * Lf b - (Kf a - n * Lf a)) with 0 in E by (unfold n; field; exact HL).
      symmetry in E. apply Rmult_integral in E as [E|E]; [|lra]. apply Rmult_integral in E as [E|E]; [lra|].
      pose proof (dL_neg c (inside_between a b c Ha Hb Hc)). lra.
  Qed.

  (** The iteration for the latitude *)
  Definition g (t f : R) : R := PI / 2 - 2 * atan (t * w f).
  Definition q : R := k * k / (1 - k * k).
  Lemma derive_w f : is_derive w f (- (k * k * cos f / (1 - k * k * (sin f * sin f))) * w f).
  Proof using Hk.
    pose proof (ks_bound f) as B. pose proof (ratio_pos f) as P. unfold w, Rpower. auto_derive.
    - repeat apply conj; try exact I; [lra|exact P].
    - change (1 + - (k * sin f)) with (1 - k * sin f). change ((1 - k * sin f) * / (1 + k * sin f)) with ((1 - k * sin f) / (1 + k * sin f)).
      set (E := exp _). field. repeat apply conj; try lra. replace (1 - k * k * (sin f * sin f)) with ((1 - k * sin f) * (1 + k * sin f)) by ring.
      apply Rmult_integral_contrapositive_currified; lra.
  Qed.
  Lemma derive_g t f : is_derive (g t) f (2 * (t * w f) / (1 + (t * w f) * (t * w f)) * (k * k * cos f / (1 - k * k * (sin f * sin f)))).
  Proof using Hk.
    pose proof (kk_bound f) as [B1 B2].
    assert (P : 0 < 1 + (t * w f) * (t * w f)) by (pose proof (Rle_0_sqr (t * w f)) as P; unfold Rsqr in P; lra).
    unfold g. pose proof (derive_w f) as D. auto_derive.
    - exists (- (k * k * cos f / (1 - k * k * (sin f * sin f))) * w f). exact D.
    - replace (Derive (fun x : R => w x) f) with (- (k * k * cos f / (1 - k * k * (sin f * sin f))) * w f) by (symmetry; apply is_derive_unique; exact D).
      field. split; lra.
  Qed.
  Lemma q_pos : 0 <= q. Proof using Hk. unfold q. pose proof (kk_bound 0) as [_ B]. assert (0 <= k * k) by (apply Rmult_le_pos; lra). apply Rdiv_le_0_compat; lra. Qed.
  Lemma g_contracts t x y : Rabs (g t x - g t y) <= q * Rabs (x - y).
  Proof using Hk.
    set (dg := fun f => 2 * (t * w f) / (1 + (t * w f) * (t * w f)) * (k * k * cos f / (1 - k * k * (sin f * sin f)))).
    destruct (MVT_gen (g t) y x dg) as (c & Hc & E).
    - intros z _. apply derive_g.
    - intros z _. apply derivable_continuous_pt. exists (dg z). apply is_derive_Reals. apply derive_g.
    - rewrite E, Rabs_mult. apply Rmult_le_compat_r; [apply Rabs_pos|]. unfold dg. rewrite Rabs_mult.
      pose proof (kk_bound c) as [B1 B2]. assert (Hkk : 0 <= k * k) by (apply Rmult_le_pos; lra). set (u := t * w c).
      assert (P : 0 < 1 + u * u) by (pose proof (Rle_0_sqr u) as P; unfold Rsqr in P; lra).
      assert (U : Rabs (2 * u / (1 + u * u)) <= 1).
      { unfold Rdiv. rewrite Rabs_mult, (Rabs_pos_eq (/ (1 + u * u))) by (apply Rlt_le, Rinv_0_lt_compat; exact P).
        apply (Rmult_le_reg_r (1 + u * u)); [exact P|]. rewrite Rmult_assoc, Rinv_l by lra. rewrite Rmult_1_r, Rmult_1_l. apply Rabs_le.
        pose proof (Rle_0_sqr (u - 1)) as S1. pose proof (Rle_0_sqr (u + 1)) as S2. unfold Rsqr in S1, S2. lra. }
      assert (V : Rabs (k * k * cos c / (1 - k * k * (sin c * sin c))) <= q).
      { unfold Rdiv. rewrite !Rabs_mult, (Rabs_pos_eq (/ _)) by (apply Rlt_le, Rinv_0_lt_compat; lra).
        unfold q, Rdiv. apply Rmult_le_compat; [apply Rmult_le_pos; apply Rmult_le_pos || apply Rabs_pos; apply Rabs_pos|apply Rlt_le, Rinv_0_lt_compat; lra| |apply Rinv_le_contravar; lra].
        rewrite <- Rabs_mult, (Rabs_pos_eq (k * k)) by exact Hkk. rewrite <- (Rmult_1_r (k * k)) at 2. apply Rmult_le_compat_l; [exact Hkk|].
        apply Rabs_le. apply COS_bound. }
      apply Rle_trans with (1 * q); [apply Rmult_le_compat; try apply Rabs_pos; assumption|lra].
  Qed.
  Lemma g_range t f : 0 < t -> inside (g t f).
  Proof using.
    intros Ht. unfold g, inside. pose proof (atan_bound (t * w f)). pose proof PI_RGT_0.
    assert (0 < atan (t * w f)) by (rewrite <- atan_0; apply atan_increasing; apply Rmult_lt_0_compat; [exact Ht|apply w_pos]). lra.
  Qed.
  (** The latitude is the fixed point *)
  Lemma g_fixed f : inside f -> g (exp (Lf f)) f = f.
  Proof using Hk.
    intros H. unfold g. rewrite exp_Lf by exact H. pose proof (w_pos f).
    replace (tan (PI / 4 - f / 2) / w f * w f) with (tan (PI / 4 - f / 2)) by (field; lra).
    destruct H as [H1 H2]. rewrite atan_tan by lra. field.
  Qed.
  (** The sign never changes *)
  Lemma w_sign f : (0 <= f <= PI / 2 -> w f <= 1) /\ (- (PI / 2) <= f <= 0 -> 1 <= w f).
  Proof using Hk.
    pose proof (ks_bound f) as B. split; intros Hf.
    - assert (S : 0 <= k * sin f) by (apply Rmult_le_pos; [lra|apply sin_ge_0; lra]).
      rewrite <- exp_0. unfold w, Rpower. assert (L : ln ((1 - k * sin f) / (1 + k * sin f)) <= 0).
      { rewrite <- ln_1. apply ln_le; [apply ratio_pos|]. apply (Rmult_le_reg_r (1 + k * sin f)); [lra|]. unfold Rdiv. rewrite Rmult_assoc, Rinv_l by lra. lra. }
      destruct (Req_dec (1 / 2 * k * ln ((1 - k * sin f) / (1 + k * sin f))) 0) as [->|N]; [lra|]. apply Rlt_le, exp_increasing.
      assert (1 / 2 * k * ln ((1 - k * sin f) / (1 + k * sin f)) <= 1 / 2 * k * 0) by (apply Rmult_le_compat_l; lra). lra.
    - assert (S : k * sin f <= 0) by (rewrite <- (Rmult_0_r k); apply Rmult_le_compat_l; [lra|]; rewrite <- sin_0; apply sin_incr_1; lra).
      rewrite <- exp_0. unfold w, Rpower. assert (L : 0 <= ln ((1 - k * sin f) / (1 + k * sin f))).
      { rewrite <- ln_1. apply ln_le; [lra|]. apply (Rmult_le_reg_r (1 + k * sin f)); [lra|]. unfold Rdiv. rewrite Rmult_assoc, Rinv_l by lra. lra. }
      destruct (Req_dec (1 / 2 * k * ln ((1 - k * sin f) / (1 + k * sin f))) 0) as [->|N]; [lra|]. apply Rlt_le, exp_increasing.
      assert (1 / 2 * k * 0 <= 1 / 2 * k * ln ((1 - k * sin f) / (1 + k * sin f))) by (apply Rmult_le_compat_l; lra). lra.
  Qed.
  Lemma g_sign t f : 0 < t -> (t <= 1 -> 0 <= f <= PI / 2 -> 0 <= g t f) /\ (1 <= t -> - (PI / 2) <= f <= 0 -> g t f <= 0).
  Proof using Hk.
    intros Ht. unfold g. pose proof (w_pos f) as W. split; intros H1 Hf.
    - pose proof (proj1 (w_sign f) Hf) as W1. assert (t * w f <= 1) by (rewrite <- (Rmult_1_r 1); apply Rmult_le_compat; lra).
      assert (atan (t * w f) <= PI / 4); [|lra]. rewrite <- atan_1. destruct (Req_dec (t * w f) 1) as [->|N]; [lra|]. apply Rlt_le, atan_increasing. lra.
    - pose proof (proj2 (w_sign f) Hf) as W1. assert (1 <= t * w f) by (rewrite <- (Rmult_1_r 1); apply Rmult_le_compat; lra).
      assert (PI / 4 <= atan (t * w f)); [|lra]. rewrite <- atan_1. destruct (Req_dec (t * w f) 1) as [->|N]; [lra|]. apply Rlt_le, atan_increasing. lra.
  Qed.
End Ecc.

(** ** The functions of the model *)
Lemma D2R_pos : 0 < D2R. Proof. unfold D2R. pose proof PI_RGT_0. lra. Qed.
Lemma D2R_R2D : D2R * R2D = 1. Proof. unfold D2R, R2D. pose proof PI_RGT_0. field. lra. Qed.
Lemma inside_deg l : -90 < l < 90 -> inside (l * D2R).
Proof.
  intros H. pose proof D2R_pos as P. unfold inside. replace (PI / 2) with (90 * D2R) by (unfold D2R; field).
  assert (-90 * D2R < l * D2R) by (apply Rmult_lt_compat_r; lra). assert (l * D2R < 90 * D2R) by (apply Rmult_lt_compat_r; lra). lra.
Qed.
Lemma deg45 f : 45 * D2R - 1 / 2 * f = PI / 4 - f / 2. Proof. unfold D2R. field. Qed.
Lemma deg90 : 90 * D2R = PI / 2. Proof. unfold D2R. field. Qed.
Lemma good_k e : good e -> 0 <= ECC e < 1. Proof. unfold good. lra. Qed.
Lemma ell_pow_ok e f : good e -> ell_pow e f = Some (w (ECC e) f).
Proof.
  intros G. pose proof (good_k e G) as Hk. pose proof (ks_bound _ Hk f) as B. unfold ell_pow. rewrite div_ok by lra. cbn [obind].
  rewrite pow_ok by (apply ratio_pos; exact Hk). reflexivity.
Qed.
Lemma conf_t_ok e f : good e -> inside f -> conf_t e f = Some (exp (Lf (ECC e) f)).
Proof.
  intros G H. pose proof (good_k e G) as Hk. unfold conf_t. rewrite deg45. destruct (half_trig f H). rewrite tan_ok by lra. cbn [obind].
  rewrite ell_pow_ok by exact G. cbn [obind]. pose proof (w_pos (ECC e) f). rewrite div_ok by lra. rewrite exp_Lf by assumption. reflexivity.
Qed.
Lemma conf_m_ok e f : good e -> inside f -> conf_m e f = Some (exp (Kf (ECC e) f)).
Proof.
  intros G H. pose proof (good_k e G) as Hk. pose proof (kk_bound _ Hk f) as [B1 B2]. destruct G as (_ & _ & E & _). unfold conf_m, d_sqrt. rewrite E.
  destruct (Rlt_dec _ 0) as [K|K]; [lra|]. rewrite div_ok; [rewrite exp_Kf by assumption; reflexivity|].
  apply Rgt_not_eq, sqrt_lt_R0. lra.
Qed.
Lemma d_log_exp x : d_log (exp x) = x.
Proof. unfold d_log. pose proof (exp_pos x). destruct (Rle_dec (exp x) 0); [lra|]. apply ln_exp. Qed.
Lemma Rpower_exp x y : Rpower (exp x) y = exp (y * x).
Proof. unfold Rpower. rewrite ln_exp. reflexivity. Qed.

Lemma min_max_deg a b c : Rmin (a * D2R) (b * D2R) <= c <= Rmax (a * D2R) (b * D2R) -> Rmin a b * D2R <= c <= Rmax a b * D2R.
Proof.
  pose proof D2R_pos as P. intros H. unfold Rmin, Rmax in *. destruct (Rle_dec a b) as [L|L], (Rle_dec (a * D2R) (b * D2R)) as [L'|L']; try exact H; exfalso.
  - apply L'. apply Rmult_le_compat_r; lra.
  - apply L. apply (Rmult_le_reg_r D2R); assumption.
Qed.
(** The parameters of the projection *)
Lemma vlamb_ok n e lon0 lat0 pha phb : map_setup_proxy n = Some e -> -90 < lat0 < 90 -> -90 < pha < 90 -> -90 < phb < 90 -> pha + phb <> 0 ->
  exists N F, vlamb n lon0 lat0 pha phb = Some (Lambert e lon0 N F (EQ_RAD e * F * exp (N * Lf (ECC e) (lat0 * D2R)))) /\
    N <> 0 /\ 0 < N * F /\ (exists c, Rmin pha phb <= c <= Rmax pha phb /\ N = sin (c * D2R)) /\
    N * F * exp (N * Lf (ECC e) (pha * D2R)) = exp (Kf (ECC e) (pha * D2R)) /\
    N * F * exp (N * Lf (ECC e) (phb * D2R)) = exp (Kf (ECC e) (phb * D2R)).
Proof.
  intros He H0 Ha Hb Hs. pose proof (setup_good n e He) as G. pose proof (good_k e G) as Hk. pose proof D2R_pos as P.
  set (k := ECC e) in *. set (a := pha * D2R). set (b := phb * D2R).
  pose proof (inside_deg _ Ha) as Ia. pose proof (inside_deg _ Hb) as Ib. pose proof (inside_deg _ H0) as I0. fold a in Ia. fold b in Ib.
  set (N := if Req_EM_T a b then sin a else (Kf k a - Kf k b) / (Lf k a - Lf k b)).
  assert (Hab : a + b <> 0).
  { unfold a, b. rewrite <- Rmult_plus_distr_r. apply Rmult_integral_contrapositive_currified; lra. }
  assert (HL : a <> b -> Lf k a - Lf k b <> 0).
  { intros Hn. destruct (Rtotal_order a b) as [L|[L|L]]; [|contradiction|]; [pose proof (Lf_decreasing k Hk a b Ia Ib L)|pose proof (Lf_decreasing k Hk b a Ib Ia L)]; lra. }
  assert (HN : N <> 0).
  { unfold N. destruct (Req_EM_T a b) as [E|E].
    - intros S. rewrite <- sin_0 in S. apply sin_inside_inj in S; [lra|exact Ia|unfold inside; pose proof PI_RGT_0; lra].
    - intros S. apply Rmult_integral in S as [S|S]; [|apply Rinv_neq_0_compat in S; [exact S|apply HL; exact E]].
      destruct (Kf_eq k Hk a b Ia Ib ltac:(lra)) as [X|X]; lra. }
  assert (HC : exists c, Rmin pha phb <= c <= Rmax pha phb /\ N = sin (c * D2R)).
  { unfold N. destruct (Req_EM_T a b) as [E|E].
    - exists pha. split; [|reflexivity]. unfold Rmin, Rmax. destruct (Rle_dec pha phb) as [L|L]; [lra|].
      assert (phb < pha) by lra. assert (phb * D2R < pha * D2R) by (apply Rmult_lt_compat_r; lra). unfold a, b in E. lra.
    - destruct (cone k Hk a b Ia Ib E) as (c & Hc & Ec). exists (c / D2R). apply min_max_deg in Hc. replace (c / D2R * D2R) with c by (field; lra).
      split; [|exact Ec]. split; apply (Rmult_le_reg_r D2R); try exact P; unfold Rdiv; rewrite Rmult_assoc, Rinv_l by lra; lra. }
  exists N, (exp (Kf k a) / (N * exp (N * Lf k a))). pose proof (exp_pos (N * Lf k a)) as X1. pose proof (exp_pos (Kf k a)) as X2.
  assert (NF : N * (exp (Kf k a) / (N * exp (N * Lf k a))) = exp (Kf k a) / exp (N * Lf k a)) by (field; split; [lra|exact HN]).
  split; [|split; [exact HN|split; [rewrite NF; apply Rdiv_lt_0_compat; assumption|split; [exact HC|split]]]].
  - unfold vlamb. rewrite He. cbn [obind]. cbv zeta. fold a b. rewrite !conf_t_ok, !conf_m_ok by assumption. cbn [obind]. fold k.
    assert (EN : (if Req_EM_T a b then Some (sin a) else div_ (d_log (exp (Kf k a)) - d_log (exp (Kf k b))) (d_log (exp (Lf k a)) - d_log (exp (Lf k b)))) = Some N).
    { unfold N. destruct (Req_EM_T a b) as [E|E]; [reflexivity|]. rewrite !d_log_exp. apply div_ok, HL, E. }
    rewrite EN. cbn [obind]. rewrite !pow_ok by apply exp_pos. cbn [obind]. rewrite !Rpower_exp.
    rewrite div_ok by (apply Rmult_integral_contrapositive_currified; lra). cbn [obind]. reflexivity.
  - rewrite NF. field. lra.
  - rewrite NF. replace (exp (Kf k a) / exp (N * Lf k a) * exp (N * Lf k b)) with (exp (Kf k a - N * Lf k a + N * Lf k b)).
    2: { rewrite exp_plus. unfold Rminus. rewrite exp_plus, exp_Ropp. reflexivity. }
    f_equal. unfold N. destruct (Req_EM_T a b) as [E|E]; [rewrite E; ring|]. field. apply HL, E.
Qed.

(** The latitude that the iteration finds *)
Definition side (t f : R) : Prop := (t <= 1 /\ 0 <= f <= PI / 2) \/ (1 <= t /\ - (PI / 2) <= f <= 0).
Lemma q_small e : good e -> 0 <= q (ECC e) <= 7 / 993.
Proof.
  intros G. pose proof (good_k e G) as Hk. split; [apply q_pos; exact Hk|]. destruct G as (_ & _ & E & B & _). rewrite E in B. unfold q.
  apply (Rmult_le_reg_r (1 - ECC e * ECC e)); [lra|]. unfold Rdiv at 1. rewrite Rmult_assoc, Rinv_l by lra. lra.
Qed.
Lemma ilat_ok e fs : good e -> inside fs -> let t := exp (Lf (ECC e) fs) in forall i tphi, side t tphi ->
  exists r, ilat e t i tphi = Some r /\ inside r /\ Rabs (r - fs) <= Rmax (q (ECC e) / (1 - q (ECC e)) / 10 ^ 8) (q (ECC e) ^ (S i) * Rabs (tphi - fs)).
Proof.
  intros G If. cbv zeta. set (k := ECC e). set (t := exp (Lf k fs)). pose proof (good_k e G) as Hk. fold k in Hk. pose proof (q_small e G) as Hq. fold k in Hq.
  assert (Ht : 0 < t) by apply exp_pos.
  assert (Hc : forall f, Rabs (g k t f - fs) <= q k * Rabs (f - fs)).
  { intros f. pose proof (g_contracts k Hk t f fs) as C. unfold t in C at 2. rewrite (g_fixed k Hk fs If) in C. exact C. }
  induction i as [|i IH]; intros tphi Hs; cbn [ilat]; rewrite ell_pow_ok by exact G; cbn [obind]; fold k; rewrite deg90; change (PI / 2 - 2 * atan (t * w k tphi)) with (g k t tphi).
  - exists (g k t tphi). split; [reflexivity|]. split; [apply g_range; exact Ht|]. rewrite pow_1. eapply Rle_trans; [apply Hc|apply Rmax_r].
  - set (phi := g k t tphi). assert (Rg : inside phi) by (apply g_range; exact Ht).
    assert (Sp : side t phi).
    { unfold inside in Rg. destruct Hs as [[T F]|[T F]]; [left; pose proof (proj1 (g_sign k Hk t tphi Ht) T F) as X|right; pose proof (proj2 (g_sign k Hk t tphi Ht) T F) as X]; fold phi in X; lra. }
    destruct (Rlt_dec (1 / 10 ^ 8) _) as [L|L].
    + destruct (IH phi Sp) as (r & Er & Ir & Br). exists r. split; [exact Er|]. split; [exact Ir|]. eapply Rle_trans; [exact Br|]. apply Rle_max_compat_l.
      change (q k ^ S (S i)) with (q k * q k ^ S i). rewrite (Rmult_comm (q k)), Rmult_assoc. apply Rmult_le_compat_l; [apply pow_le; lra|]. apply Hc.
    + exists phi. split; [reflexivity|]. split; [exact Rg|]. eapply Rle_trans; [|apply Rmax_l].
      assert (Ed : Rabs (tphi - phi) <= 1 / 10 ^ 8).
      { replace (Rabs (tphi - phi)) with (Rabs (Rabs tphi - Rabs phi)); [lra|]. destruct Hs as [[T F]|[T F]], Sp as [[T' F']|[T' F']].
        - rewrite !(Rabs_pos_eq tphi), !(Rabs_pos_eq phi) by lra. reflexivity.
        - assert (phi = 0). { pose proof (proj1 (g_sign k Hk t tphi Ht) T F) as X. fold phi in X. lra. }
          rewrite H, Rabs_R0, !Rminus_0_r. apply Rabs_Rabsolu.
        - assert (phi = 0). { pose proof (proj2 (g_sign k Hk t tphi Ht) T F) as X. fold phi in X. lra. }
          rewrite H, Rabs_R0, !Rminus_0_r. apply Rabs_Rabsolu.
        - rewrite !(Rabs_left1 tphi), !(Rabs_left1 phi) by lra. rewrite <- Rabs_Ropp. f_equal. ring. }
      pose proof (Hc tphi) as C. fold phi in C. assert (Tr : Rabs (tphi - fs) <= Rabs (tphi - phi) + Rabs (phi - fs)).
      { replace (tphi - fs) with ((tphi - phi) + (phi - fs)) by ring. apply Rabs_triang. }
      assert (Q1 : q k * Rabs (tphi - fs) <= q k * (1 / 10 ^ 8 + Rabs (phi - fs))) by (apply Rmult_le_compat_l; lra).
      set (d := Rabs (phi - fs)) in *. apply (Rmult_le_reg_l (1 - q k)); [lra|].
      replace ((1 - q k) * (q k / (1 - q k) / 10 ^ 8)) with (q k * (1 / 10 ^ 8)) by (field; lra). lra.
Qed.
