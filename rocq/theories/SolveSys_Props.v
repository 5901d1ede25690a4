(** C66: what a solution handed to the relocation does to the linearised problem *)
From Coq Require Import Reals Lra Lia.
From stdpp Require Import numbers list sets.
From Verif Require Import LinAlg Lsq_Model Lsq_Props DDSystem_Model DDSystem_Props SolveSys_Model.
Local Open Scope R_scope.

(** ** Specification

    The residual of a row after the change M to the events, linearised: what is left of the
    double difference; and the sum of the squares of the weighted residuals *)
Definition residual (s : dds R) (M : nat → R) (ob : nat) : R :=
  nthR (aD s) ob - rsum (cols s) (λ col, (side s (aEv1 s) ob col - side s (aEv2 s) ob col) * M col).
Definition weighted_misfit (s : dds R) (M : nat → R) : R :=
  rsum (rows s) (λ ob, (nthR (aW s) ob * residual s M ob) * (nthR (aW s) ob * residual s M ob)).
(** A column has a row of weight other than zero that uses its event *)
Definition used (s : dds R) (col : nat) : Prop :=
  ∃ ob e, (ob < rows s)%nat ∧ nthR (aW s) ob ≠ 0 ∧ e = (col / 4)%nat ∧ (aEv1 s !! ob = Some (Some e) ∨ aEv2 s !! ob = Some (Some e)).
(** The unit of each unknown: with normalisation, one over the norm of its column *)
Definition unit (normalizeG : bool) (s : dds R) (col : nat) : R :=
  if normalizeG then 1 / R_sqrt.sqrt (rsum (rows s) (λ ob, entry0 s ob col * entry0 s ob col)) else 1.
(** Unknowns in these units: their length and the opposite of half the gradient of
    weighted_misfit + damp^2 |z|^2 *)
Definition scaled (normalizeG : bool) (s : dds R) (M : nat → R) (col : nat) : R := M col / unit normalizeG s col.
Definition used_sum (s : dds R) (f : nat → R) : R := rsum (cols s) (λ col, if touched s col then f col else 0).
Definition size2 (normalizeG : bool) (s : dds R) (M : nat → R) : R := used_sum s (λ col, scaled normalizeG s M col * scaled normalizeG s M col).
Definition objective (normalizeG : bool) (damp : R) (s : dds R) (M : nat → R) : R := weighted_misfit s M + damp * damp * size2 normalizeG s M.
Definition slope (normalizeG : bool) (damp : R) (s : dds R) (M : nat → R) (col : nat) : R :=
  unit normalizeG s col * rsum (rows s) (λ ob, entry0 s ob col * (nthR (aW s) ob * residual s M ob)) - damp * damp * scaled normalizeG s M col.
Definition slope2 (normalizeG : bool) (damp : R) (s : dds R) (M : nat → R) : R := used_sum s (λ col, slope normalizeG damp s M col * slope normalizeG damp s M col).
(** The sum of the squares of the coefficients of the scaled matrix *)
Definition coefficients2 (normalizeG : bool) (s : dds R) : R :=
  used_sum s (λ col, rsum (rows s) (λ ob, (entry0 s ob col * unit normalizeG s col) * (entry0 s ob col * unit normalizeG s col))).

(** ** Facts about the specification *)
Lemma nthR_vec (l : list R) i : nthR l i = vec l i.
Proof. unfold nthR, vec. rewrite nth_lookup. done. Qed.
Lemma nsum_rsum n (f : nat → R) : lsum f (seq 0 n) = rsum n f.
Proof. induction n as [|n IH]; [done|]. rewrite seq_S, lsum_app, IH. cbn. lra. Qed.
Lemma touched_used (s : dds R) col : wf s → touched s col = true ↔ used s col.
Proof.
  intros Hwf. unfold touched, used. rewrite existsb_exists. split.
  - intros (ob & Hin & Ht). apply elem_of_list_In, elem_of_seq in Hin. unfold touches in Ht.
    destruct (aW s !! ob) as [w|] eqn:Ew; [|done]. apply andb_true_iff in Ht as [Hw He]. exists ob, (col / 4)%nat. split; [lia|]. split.
    + unfold nthR. rewrite Ew. cbn. unfold Datatypes.id. unfold r_is0 in Hw. by destruct (Req_EM_T w 0).
    + split; [done|]. apply orb_true_iff in He. rewrite !bool_decide_eq_true in He. done.
  - intros (ob & e & Hob & Hw & -> & He). exists ob. split; [apply elem_of_list_In, elem_of_seq; lia|]. unfold touches.
    destruct (lookup_lt_is_Some_2 (aW s) ob) as [w Ew]; [by rewrite wf_W|]. rewrite Ew. unfold nthR in Hw. rewrite Ew in Hw. cbn in Hw. unfold Datatypes.id in Hw.
    unfold r_is0. destruct (Req_EM_T w 0); [done|]. cbn [negb andb]. apply orb_true_iff. rewrite !bool_decide_eq_true. done.
Qed.
Lemma unused_zero (s : dds R) ob col : wf s → (ob < rows s)%nat → ¬ used s col → entry0 s ob col = 0.
Proof.
  intros Hwf Hob Hu. unfold entry0. destruct (Req_dec (nthR (aW s) ob) 0) as [->|Hw]; [ring|].
  assert (∀ ev, (ev = aEv1 s ∨ ev = aEv2 s) → side s ev ob col = 0) as Hs.
  { intros ev Hev. unfold side. destruct (ev !! ob) as [[e|]|] eqn:E; [|done..]. destruct (decide _) as [->|]; [|done]. exfalso. apply Hu.
    exists ob, (col / 4)%nat. destruct Hev as [->| ->]; eauto 10. }
  rewrite !Hs by auto. ring.
Qed.

(** From the scaled system to the double differences *)
Section scaled.
Variable (nG : bool) (damp : R) (s : dds R) (L x M : nat → R).
Hypothesis (Hwf : wf s).
Hypothesis (HL : ∀ col, (col < cols s)%nat → used s col → L col = unit nG s col ∧ 0 < L col).
Hypothesis (Hx : ∀ col, (col < cols s)%nat → ¬ used s col → x col = 0).
Hypothesis (HM : ∀ col, (col < cols s)%nat → used s col → M col = x col * L col).
Variable (A : nat → nat → R) (b : nat → R).
Hypothesis (HA : ∀ ob col, (ob < rows s)%nat → (col < cols s)%nat → A ob col = entry0 s ob col * L col).
Hypothesis (Hb : ∀ ob, (ob < rows s)%nat → b ob = nthR (aW s) ob * nthR (aD s) ob).

Lemma used_cases col : used s col ∨ ¬ used s col.
Proof using Hwf. destruct (touched s col) eqn:E; [left; by apply touched_used|right]. rewrite <- touched_used by done. by rewrite E. Qed.
Lemma used_sum_rsum f g : (∀ col, (col < cols s)%nat → used s col → f col = g col) → (∀ col, (col < cols s)%nat → ¬ used s col → g col = 0) → used_sum s f = rsum (cols s) g.
Proof using Hwf.
  intros H1 H2. apply rsum_ext. intros col Hc. destruct (touched s col) eqn:E; [apply H1; [done|]; by apply touched_used|]. symmetry. apply H2; [done|]. rewrite <- touched_used by done. by rewrite E.
Qed.
Lemma scaled_x col : (col < cols s)%nat → used s col → scaled nG s M col = x col.
Proof using HL HM. intros Hc Hu. destruct (HL col Hc Hu) as [E Hp]. unfold scaled. rewrite HM, <- E by done. field. lra. Qed.
Lemma row_residual ob : (ob < rows s)%nat → b ob - dot (cols s) (A ob) x = nthR (aW s) ob * residual s M ob.
Proof using HL Hx HM HA Hb Hwf.
  intros Hob. rewrite Hb by done. unfold residual. rewrite Rmult_minus_distr_l. f_equal. rewrite <- rsum_scal. unfold dot. apply rsum_ext. intros col Hc.
  rewrite HA by done. destruct (used_cases col) as [Hu|Hu].
  - rewrite HM by done. unfold entry0. ring.
  - rewrite Hx by done. assert (E : entry0 s ob col = 0) by by apply unused_zero. unfold entry0 in E. rewrite <- Rmult_assoc, E. ring.
Qed.
Lemma scaled_size : size2 nG s M = dot (cols s) x x.
Proof using HL Hx HM Hwf.
  apply used_sum_rsum; intros col Hc Hu; [by rewrite scaled_x|]. rewrite Hx by done. ring.
Qed.
Lemma scaled_misfit : weighted_misfit s M = dot (rows s) (λ i, b i - dot (cols s) (A i) x) (λ i, b i - dot (cols s) (A i) x).
Proof using HL Hx HM HA Hb Hwf. unfold weighted_misfit, dot at 1. apply rsum_ext. intros ob Hob. rewrite row_residual by done. done. Qed.
Lemma scaled_cost : objective nG damp s M = cost A (rows s) (cols s) damp b x.
Proof using HL Hx HM HA Hb Hwf. unfold objective, cost. by rewrite scaled_misfit, scaled_size. Qed.
Lemma scaled_slope col : (col < cols s)%nat → used s col → slope nG damp s M col = grad A (rows s) (cols s) damp b x col.
Proof using HL Hx HM HA Hb Hwf.
  intros Hc Hu. unfold slope, grad. rewrite scaled_x by done. f_equal. destruct (HL col Hc Hu) as [<- _]. rewrite <- rsum_scal. unfold dot at 1. apply rsum_ext. intros ob Hob.
  rewrite row_residual, HA by done. ring.
Qed.
Lemma grad_unused col : (col < cols s)%nat → ¬ used s col → grad A (rows s) (cols s) damp b x col = 0.
Proof using Hx HA Hwf.
  intros Hc Hu. unfold grad. rewrite Hx by done. rewrite dot_zero_l; [ring|]. intros ob Hob. rewrite HA by done. rewrite unused_zero by done. ring.
Qed.
Lemma scaled_slope2 : slope2 nG damp s M = dot (cols s) (grad A (rows s) (cols s) damp b x) (grad A (rows s) (cols s) damp b x).
Proof using HL Hx HM HA Hb Hwf.
  apply used_sum_rsum; intros col Hc Hu; [by rewrite scaled_slope|]. rewrite grad_unused by done. ring.
Qed.
Lemma scaled_fro : coefficients2 nG s = fro A (rows s) (cols s).
Proof using HL HA Hwf.
  unfold fro. unfold dot. rewrite rsum_swap. apply used_sum_rsum; intros col Hc Hu.
  - destruct (HL col Hc Hu) as [<- _]. apply rsum_ext. intros ob Hob. by rewrite HA.
  - apply rsum_zero. intros ob Hob. rewrite HA, unused_zero by done. ring.
Qed.
Lemma zero_misfit : weighted_misfit s (λ _, 0) = dot (rows s) b b.
Proof using Hb.
  unfold weighted_misfit. apply rsum_ext. intros ob Hob. unfold residual. rewrite rsum_zero by (intros; ring). rewrite Hb by done. ring.
Qed.
End scaled.

(** ** The system given to the solvers *)
Lemma normalize_ok jinv (s : dds R) : wf s → distinct s → (∀ col, (col < cols s)%nat → used s col → ∃ ob, (ob < rows s)%nat ∧ entry0 s ob col ≠ 0) →
  ∃ l, normalize jinv s = Some (with_L s l) ∧ length l = cols s ∧ ∀ col, (col < cols s)%nat → used s col → nthR l col = unit true s col ∧ 0 < nthR l col.
Proof.
  intros Hwf Hd Hnz. unfold normalize, l2normalize. destruct (norm_sums s Hwf Hd) as (l & H1 & H2 & H3). rewrite H1. cbn [mbind option_bind].
  assert (Hpos : ∀ col, (col < cols s)%nat → used s col → 0 < col_norm2 s col).
  { intros col Hc Hu. destruct (Hnz col Hc Hu) as (ob & Hob & He). unfold col_norm2. rewrite nsum_rsum. clear -Hob He. induction (rows s) as [|n IH]; [lia|]. cbn [rsum].
    assert (0 <= rsum n (λ ob, entry0 s ob col * entry0 s ob col)) by (apply rsum_nonneg; intros; nra).
    assert (0 <= entry0 s n col * entry0 s n col) by nra.
    destruct (decide (ob = n)) as [->|]; [nra|]. specialize (IH ltac:(lia)). lra. }
  replace (existsb _ _) with false.
  2: { symmetry. apply not_true_iff_false. intros Hex. apply existsb_exists in Hex as (col & Hin & Hc). apply elem_of_list_In, elem_of_seq in Hin.
       apply andb_true_iff in Hc as [H0 Ht]. apply touched_used in Ht; [|done]. specialize (Hpos col ltac:(lia) Ht). change (default 0 (l !! col)) with (nthR l col) in H0. rewrite H3 in H0 by lia.
       unfold r_is0 in H0. destruct (Req_EM_T _ _); [lra|done]. }
  eexists. split; [done|]. split; [by rewrite fmap_length|]. intros col Hc Hu. specialize (Hpos col Hc Hu).
  assert (nthR (scaler jinv <$> l) col = scaler jinv (col_norm2 s col)) as ->.
  { rewrite <- H3 by done. unfold nthR. rewrite list_lookup_fmap. destruct (lookup_lt_is_Some_2 l col) as [v Ev]; [lia|]. by rewrite Ev. }
  unfold scaler, r_inv_sqrt, unit. unfold r_is0. destruct (Req_EM_T _ _) as [E|_]; [lra|]. unfold col_norm2 in *. rewrite nsum_rsum in *. split; [done|].
  apply Rdiv_lt_0_compat; [lra|]. by apply sqrt_lt_R0.
Qed.
Lemma system_products (s : dds R) : wf s → products (entry s) (rows s) (cols s) (times s) (ttimes s).
Proof.
  intros Hwf. split; intros x y Hx Hy.
  - destruct (C35_aprod1 s x y Hwf Hx Hy) as (y' & E & Hl & Hv). assert (times s x y = y') as -> by (unfold times; by rewrite E). split; [done|]. intros i Hi. rewrite <- (nthR_vec y'), <- (nthR_vec y), Hv by done.
    rewrite nsum_rsum. unfold dot. f_equal. apply rsum_ext. intros. by rewrite nthR_vec.
  - destruct (C35_aprod2 s x y Hwf Hx Hy) as (y' & E & Hl & Hv). assert (ttimes s x y = y') as -> by (unfold ttimes; by rewrite E). split; [done|]. intros i Hi. rewrite <- (nthR_vec y'), <- (nthR_vec x), Hv by done.
    rewrite nsum_rsum. unfold dot. f_equal. apply rsum_ext. intros. by rewrite nthR_vec.
Qed.

(** What both methods return, for a matrix A: the union of C64_lsqr and C64_lsmr *)
Definition limit (iters : nat) (s : dds R) : nat := if decide (iters = 0)%nat then (cols s / 2)%nat else iters.
Definition outcome (k : method) (A : nat → nat → R) (m n : nat) (damp : R) (b : nat → R) (lim itn why : nat) (x : nat → R) : Prop :=
  cost A m n damp b x <= dot m b b ∧ (∀ y, (∀ i, (i < m)%nat → dot n (A i) y = 0) → dot n y x = 0) ∧ (itn <= max 1 lim)%nat ∧
  (why = 0%nat ∧ (∀ j, x j = 0) ∧ (∀ j, (j < n)%nat → grad A m n damp b x j = 0) ∨
   ∃ a, 0 < a ∧ a * a <= fro A m n + INR itn * (damp * damp) ∧
     (why = 1%nat ∧ R_sqrt.sqrt (cost A m n damp b x) <= 1 / 10 ^ 6 * norm m b + 1 / 10 ^ 6 * a * norm n x ∨
      (why = 2%nat ∨ k = LSQR ∧ why = 3%nat) ∧ norm n (grad A m n damp b x) <= 1 / 10 ^ 6 * (a * (R_sqrt.sqrt (cost A m n damp b x) + 1 / 10 ^ 30)) ∨
      why = match k with LSQR => 4%nat | LSMR => 3%nat end ∨
      why = match k with LSQR => 5%nat | LSMR => 7%nat end ∧ (lim <= itn)%nat)).
Lemma run_outcome jdiv jsqrt k iters damp (s : dds R) : wf s → 0 <= damp →
  ∃ itn why x, run_method jdiv jsqrt k (settings iters damp s) s = Some (itn, why, x) ∧ length x = cols s ∧ outcome k (entry s) (rows s) (cols s) damp (vec (aD s)) (limit iters s) itn why (vec x).
Proof.
  intros Hwf Hd. pose proof (system_products s Hwf) as HP. assert (Hb : length (aD s) = rows s) by by apply wf_D.
  assert (Ht : 0 <= 1 / 10 ^ 6) by (apply Rlt_le, Rdiv_lt_0_compat; [lra|apply pow_lt; lra]).
  assert (Hi : 0 < 1 / 10 ^ 30) by (apply Rdiv_lt_0_compat; [lra|apply pow_lt; lra]).
  set (o := settings iters damp s). assert (Hat : 0 <= o_atol o) by exact Ht. assert (Hbt : 0 <= o_btol o) by exact Ht.
  change (limit iters s) with (o_itnlim o). unfold run_method. cbv zeta. destruct k.
  - unfold R_lsqr_solve at 1.
    destruct (C64_lsqr_iterations 0 1 (1 / 10 ^ 30) Rplus Rminus Rmult (r_div jdiv) Ropp Rabs (r_sqrt jsqrt) r_ltb r_leb r_is0 (times s) (ttimes s) o (rows s) (cols s) (aD s)) as (r & Hr & Hcnt).
    specialize (Hr (max 1 (o_itnlim o)) (le_n _)). rewrite Hr. cbn [mbind option_bind]. exists (q_itn r), (q_istop r), (q_x r). split; [done|].
    destruct (C64_lsqr jdiv jsqrt (entry s) (rows s) (cols s) (times s) (ttimes s) HP o (aD s) (max 1 (o_itnlim o)) Hb Hat r Hd Hr) as (Lx & Hdec & Hker & Hc).
    split; [done|]. split; [exact Hdec|]. split; [exact Hker|]. split; [tauto|].
    destruct Hc as [(_ & H0 & Hx & Hg)|(I1 & I2 & I3 & Hrn & Har & Hxn & Hbn & Han & Hfr & Hst & _)]; [by left|right].
    exists (q_anorm r). split; [done|]. split; [done|]. change (o_damp o) with damp in *. change (o_atol o) with (1 / 10 ^ 6) in *. change (o_btol o) with (1 / 10 ^ 6) in *.
    rewrite Hrn, Har, Hxn, Hbn in Hst. destruct Hst as [(-> & H)|[(-> & _ & H)|[(-> & _ & H)|[(-> & _)|(-> & H & _)]]]].
    + left. split; [done|]. lra.
    + right; left. auto.
    + right; left. auto.
    + right; right; left. done.
    + right; right; right. done.
  - unfold R_lsmr_solve at 1.
    destruct (C64_lsmr_iterations 0 1 (10 ^ 100) Rplus Rminus Rmult (r_div jdiv) Ropp Rabs (r_sqrt jsqrt) r_ltb r_leb r_is0 (times s) (ttimes s) o (rows s) (cols s) (aD s)) as (r & Hr & Hcnt).
    specialize (Hr (max 1 (o_itnlim o)) (le_n _)). rewrite Hr. cbn [mbind option_bind]. exists (r_itn r), (r_istop r), (r_x r). split; [done|].
    destruct (C64_lsmr jdiv jsqrt (entry s) (rows s) (cols s) (times s) (ttimes s) HP o (aD s) (max 1 (o_itnlim o)) Hb Hat r Hbt Hr) as (Lx & Hdec & Hker & Hc).
    split; [done|]. split; [exact Hdec|]. split; [exact Hker|]. split; [tauto|].
    destruct Hc as [(_ & H0 & Hx & Hg)|(I1 & I2 & I3 & Hrn & Har & Hxn & Hbn & Han & Hfr & Hst & _)]; [by left|right].
    exists (r_normA r). split; [done|]. change (o_damp o) with damp in *. change (o_atol o) with (1 / 10 ^ 6) in *. change (o_btol o) with (1 / 10 ^ 6) in *.
    split. { assert (0 <= INR (r_itn r) * (damp * damp)) by (apply Rmult_le_pos; [apply pos_INR|nra]). lra. }
    rewrite Hrn, Har, Hxn, Hbn in Hst. destruct Hst as [(-> & H)|[(-> & H)|[(-> & _)|(-> & H & _)]]].
    + left. done.
    + right; left. split; [by left|]. eapply Rle_trans; [exact H|]. apply Rmult_le_compat_l; [done|]. apply Rmult_le_compat_l; lra.
    + right; right; left. done.
    + right; right; right. done.
Qed.

(** The system after the constructor of the adapter *)
Lemma adapter_shape (s : dds R) : wf s → ∃ d, R_adapter s = Some (with_L (with_MD s (replicate (cols s) 0) d) (replicate (cols s) 1)) ∧ length d = rows s ∧ (∀ ob, (ob < rows s)%nat → nthR d ob = nthR (aW s) ob * nthR (aD s) ob).
Proof.
  intros Hwf. destruct (C35_rhs s Hwf) as (s' & E & Hwf' & Hd & _). pose proof E as E'. unfold R_adapter, adapter in E'. destruct (loopM _ _ _) as [d|] eqn:El; [|done]. cbn [mbind option_bind] in E'.
  injection E' as E'. exists d. rewrite E, <- E'. split; [done|]. rewrite <- E' in *. split; [by apply (wf_D _ Hwf')|]. exact Hd.
Qed.

(** ** C66 *)
(** What is handed back: the solution never makes the weighted misfit, damping included, larger
    than no change does; it has no part in the directions that the data do not see; and it
    satisfies the test announced by the stopping reason. *)
Definition good_step (k : method) (nG : bool) (damp : R) (lim itn why : nat) (s : dds R) (M : nat → R) : Prop :=
  objective nG damp s M <= weighted_misfit s (λ _, 0) ∧
  (∀ y, (∀ ob, (ob < rows s)%nat → used_sum s (λ col, entry0 s ob col * unit nG s col * y col) = 0) → used_sum s (λ col, y col * scaled nG s M col) = 0) ∧
  (why = 0%nat ∧ (∀ col, (col < cols s)%nat → used s col → M col = 0 ∧ slope nG damp s M col = 0) ∨
   ∃ a, 0 < a ∧ a * a <= coefficients2 nG s + INR itn * (damp * damp) ∧
     (why = 1%nat ∧ R_sqrt.sqrt (objective nG damp s M) <= 1 / 10 ^ 6 * R_sqrt.sqrt (weighted_misfit s (λ _, 0)) + 1 / 10 ^ 6 * a * R_sqrt.sqrt (size2 nG s M) ∨
      (why = 2%nat ∨ k = LSQR ∧ why = 3%nat) ∧ R_sqrt.sqrt (slope2 nG damp s M) <= 1 / 10 ^ 6 * (a * (R_sqrt.sqrt (objective nG damp s M) + 1 / 10 ^ 30)) ∨
      why = match k with LSQR => 5%nat | LSMR => 7%nat end ∧ (lim <= itn)%nat)).
Theorem C66_step jinv jdiv jsqrt k iters damp nG (s : dds R) : wf s → distinct s → 0 <= damp →
  (nG = true → ∀ col, (col < cols s)%nat → used s col → ∃ ob, (ob < rows s)%nat ∧ entry0 s ob col ≠ 0) →
  ∃ itn why r, solve_system jinv jdiv jsqrt k iters damp nG s = Some (itn, why, r) ∧ (itn <= max 1 (limit iters s))%nat ∧
  match r with
  | None => why = match k with LSQR => 4%nat | LSMR => 3%nat end
  | Some M => length M = cols s ∧
      ∀ M', (∀ col, (col < cols s)%nat → used s col → M' col = nthR M col) → good_step k nG damp (limit iters s) itn why s M'
  end.
Proof.
  intros Hwf Hdis Hdamp Hnz. destruct (adapter_shape s Hwf) as (d & HAd & Hdl & Hd). unfold solve_system. rewrite HAd. cbn [mbind option_bind].
  set (s1 := with_L _ _).
  assert (Hwf1 : wf s1). { destruct Hwf. constructor; try done; cbn; by rewrite ?replicate_length. }
  assert (HN : ∃ l, (if nG then normalize jinv s1 else Some s1) = Some (with_L s1 l) ∧ length l = cols s ∧ ∀ col, (col < cols s)%nat → used s col → nthR l col = unit nG s col ∧ 0 < nthR l col).
  { destruct nG.
    - destruct (normalize_ok jinv s1 Hwf1 Hdis (Hnz eq_refl)) as (l & E & Hl & Hu). exists l. done.
    - exists (replicate (cols s) 1). split; [done|]. split; [by rewrite replicate_length|]. intros col Hc _. unfold nthR. rewrite lookup_replicate_2 by done. cbn. unfold Datatypes.id. split; [done|lra]. }
  destruct HN as (l & HN & Hl & HL). rewrite HN. cbn [mbind option_bind]. set (s2 := with_L s1 l).
  assert (Hwf2 : wf s2) by (destruct Hwf1; by constructor).
  destruct (run_outcome jdiv jsqrt k iters damp s2 Hwf2 Hdamp) as (itn & why & x & HR & Hxl & Hout). rewrite HR. cbn [mbind option_bind].
  change (rows s2) with (rows s) in *. change (cols s2) with (cols s) in *. change (limit iters s2) with (limit iters s) in *. change (aD s2) with d in *.
  destruct Hout as (Hdec & Hker & Hit & Hcase). exists itn, why.
  assert (Hx0 : ∀ col, (col < cols s)%nat → ¬ used s col → vec x col = 0).
  { intros col Hc Hu. specialize (Hker (λ j, if decide (j = col) then 1 else 0)).
    assert (Hone : ∀ n (f : nat → R), rsum n (λ j, (if decide (j = col) then 1 else 0) * f j) = if decide (col < n)%nat then f col else 0).
    { induction n as [|n IH]; intros f; [done|]. cbn [rsum]. rewrite IH. destruct (decide (n = col)) as [->|Hne]; [rewrite decide_False by lia; rewrite decide_True by lia; lra|].
      destruct (decide (col < n)%nat), (decide (col < S n)%nat); try lia; lra. }
    unfold dot in Hker. rewrite (Hone (cols s) (vec x)), decide_True in Hker by done. apply Hker. intros ob Hob.
    rewrite (rsum_ext _ _ (λ j, (if decide (j = col) then 1 else 0) * entry s2 ob j)) by (intros; ring). rewrite Hone, decide_True by done.
    unfold entry. change (entry0 s2 ob col) with (entry0 s ob col). rewrite unused_zero by done. ring. }
  assert (HAe : ∀ ob col, (ob < rows s)%nat → (col < cols s)%nat → entry s2 ob col = entry0 s ob col * nthR l col) by done.
  assert (Hbv : ∀ ob, (ob < rows s)%nat → vec d ob = nthR (aW s) ob * nthR (aD s) ob) by (intros ob Hob; rewrite <- nthR_vec; by apply Hd).
  assert (Hgood : why ∉ refused k → ∀ M', (∀ col, (col < cols s)%nat → used s col → M' col = vec x col * nthR l col) → good_step k nG damp (limit iters s) itn why s M').
  { intros Hnr M' HM'. unfold good_step.
    rewrite (scaled_cost nG damp s (nthR l) (vec x) M' Hwf HL Hx0 HM' (entry s2) (vec d) HAe Hbv), (zero_misfit s (vec d) Hbv).
    rewrite (scaled_fro nG s (nthR l) Hwf HL (entry s2) HAe), (scaled_size nG s (nthR l) (vec x) M' Hwf HL Hx0 HM'), (scaled_slope2 nG damp s (nthR l) (vec x) M' Hwf HL Hx0 HM' (entry s2) (vec d) HAe Hbv).
    split; [exact Hdec|]. split.
    - intros y Hy. set (y' := λ col, if touched s col then y col else 0).
      assert (Hy' : ∀ col, ¬ used s col → y' col = 0) by (intros col Hu; unfold y'; destruct (touched s col) eqn:E; [exfalso; by apply Hu, touched_used|done]).
      assert (Hy'' : ∀ col, used s col → y' col = y col) by (intros col Hu; unfold y'; by rewrite (proj2 (touched_used s col Hwf) Hu)).
      rewrite (used_sum_rsum s Hwf _ (λ col, y' col * vec x col)).
      + apply (Hker y'). intros ob Hob. rewrite <- (Hy ob Hob). symmetry. apply used_sum_rsum; [done| |].
        * intros col Hc Hu. rewrite HAe, Hy'' by done. by destruct (HL col Hc Hu) as [<- _].
        * intros col Hc Hu. rewrite Hy' by done. ring.
      + intros col Hc Hu. rewrite Hy'' by done. by rewrite (scaled_x nG s (nthR l) (vec x) M' HL HM').
      + intros col Hc Hu. rewrite Hy' by done. ring.
    - destruct Hcase as [(-> & Hz & Hg)|(a & Ha & Hfr & Hcase)].
      + left. split; [done|]. intros col Hc Hu. rewrite HM', Hz by done. split; [ring|].
        by rewrite (scaled_slope nG damp s (nthR l) (vec x) M' Hwf HL Hx0 HM' (entry s2) (vec d) HAe Hbv), Hg.
      + right. exists a. split; [done|]. split; [done|]. destruct Hcase as [H|[H|[H|H]]]; [by left|by right; left|exfalso|by right; right].
        apply Hnr. subst why. destruct k; cbn; set_solver. }
  assert (Hrej : why ∈ refused k → why = match k with LSQR => 4%nat | LSMR => 3%nat end).
  { intros Hr. destruct k; cbn in Hr; rewrite !elem_of_cons, elem_of_nil in Hr; [destruct Hr as [->|[]]; done|].
    destruct Hr as [->|[E|[]]]; [done|]. exfalso. subst why. destruct Hcase as [(H & _)|(a & _ & _ & [(H & _)|[([H|[H _]] & _)|[H|(H & _)]]])]; done. }
  destruct (decide (why ∈ refused k)) as [Hr|Hnr].
  - exists None. split; [done|]. split; [done|]. by apply Hrej.
  - destruct nG.
    + destruct (denorm (with_MD s2 x d)) as (s3 & E3 & Hl3 & Hv3); [destruct Hwf2; by constructor|]. change (cols _) with (cols s) in Hl3, Hv3. cbn [aM aL with_MD with_L] in Hv3.
      rewrite E3. cbn [mbind option_bind]. exists (Some (aM s3)). split; [done|]. split; [done|]. split; [done|]. intros M' HM'. apply Hgood; [done|].
      intros col Hc Hu. rewrite HM', Hv3 by done. by rewrite nthR_vec.
    + exists (Some x). split; [done|]. split; [done|]. split; [done|]. intros M' HM'. apply Hgood; [done|].
      intros col Hc Hu. rewrite HM', nthR_vec by done. destruct (HL col Hc Hu) as [-> _]. unfold unit. ring.
Qed.
Print Assumptions C66_step.

(** The system of DDSystem_Props: two events, a double difference and a travel time constraint *)
Example ex_step_hyps : wf ex_sys ∧ distinct ex_sys ∧ (∀ col, (col < cols ex_sys)%nat → used ex_sys col → ∃ ob, (ob < rows ex_sys)%nat ∧ entry0 ex_sys ob col ≠ 0) ∧ used ex_sys 5 ∧ weighted_misfit ex_sys (λ _, 0) = 260.
Proof.
  split; [apply ex_wf|]. split; [apply ex_distinct|]. split; [|split].
  - intros col Hc _. exists 0%nat. split; [cbn; lia|]. change (cols ex_sys) with 8%nat in Hc.
    destruct col as [|[|[|[|[|[|[|[|col]]]]]]]]; [cbv -[Rmult Rminus IZR]; lra..|lia].
  - exists 0%nat, 1%nat. split; [cbn; lia|]. split; [cbv -[IZR]; lra|]. split; [done|]. by right.
  - unfold weighted_misfit, residual. change (rows ex_sys) with 2%nat. cbn [rsum]. rewrite !rsum_zero by (intros; ring).
    change (nthR (aW ex_sys) 0) with 2. change (nthR (aW ex_sys) 1) with 1. change (nthR (aD ex_sys) 0) with 7. change (nthR (aD ex_sys) 1) with 8. lra.
Qed.
