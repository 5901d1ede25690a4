(** C67: the residual statistics of the relocated events. *)
From Coq Require Import Reals Lra.
From stdpp Require Import gmap list strings.
From Verif Require Import Solver_Model Residual_Model.
Local Open Scope R_scope.

(** ** Specification *)
Fixpoint Rsum (l : list R) : R := match l with [] => 0 | x :: r => x + Rsum r end.
(** [x] is the root mean square of the residuals [o.1] weighted by [o.2] *)
Definition is_rms (obs : list (R * R)) (x : R) : Prop :=
  0 <= x ∧ x * x * Rsum ((λ o, o.2 * o.2) <$> obs) = Rsum ((λ o, (o.1 * o.2) * (o.1 * o.2)) <$> obs) ∧
  ((∀ o, o ∈ obs → o.2 = 0) → x = 0).
Section spec.
Variable params : N → string → string → option R.
Variable use : bool.
Definition weight_of (p : pinfo) : R := if use then q_class p else 1.
Definition observed (id : N) (phs : list pinfo) : list (R * R) :=
  omap (λ p, (λ r, (r, weight_of p)) <$> params id (q_sta p) (q_type p)) phs.
Definition residual_of (id : N) (p : pinfo) : R := default 0 (params id (q_sta p) (q_type p)).
Definition phase_after (first : bool) (id : N) (p p' : pinfo) : Prop :=
  q_sta p' = q_sta p ∧ q_type p' = q_type p ∧ q_class p' = q_class p ∧ q_weight p' = weight_of p ∧
  q_start p' = (if first then residual_of id p else q_start p) ∧ q_final p' = (if first then 0 else residual_of id p).
Definition event_after (first : bool) (id : N) (e e' : einfo) : Prop :=
  Forall2 (phase_after first id) (i_phs e) (i_phs e') ∧
  (if first then is_rms (observed id (i_phs e)) (i_startRms e') ∧ i_finalRms e' = 0
   else i_startRms e' = i_startRms e ∧ is_rms (observed id (i_phs e)) (i_finalRms e')).
End spec.

(** ** Proofs *)
Lemma Rsum_app a b : Rsum (a ++ b) = Rsum a + Rsum b.
Proof. induction a as [|x a IH]; cbn; [lra|]. rewrite IH. lra. Qed.
Lemma Rsum_sq_nonneg {A} (f : A → R) l : 0 <= Rsum ((λ o, f o * f o) <$> l).
Proof. induction l as [|x l IH]; cbn; [lra|]. pose proof (Rle_0_sqr (f x)) as H. unfold Rsqr in H. cbn in *. lra. Qed.
Lemma Rsum_sq_zero {A} (f : A → R) l : Rsum ((λ o, f o * f o) <$> l) = 0 → ∀ o, o ∈ l → f o = 0.
Proof.
  induction l as [|x l IH]; intros E o Ho; [by apply elem_of_nil in Ho|]. cbn in E.
  pose proof (Rsum_sq_nonneg f l) as H1. pose proof (Rle_0_sqr (f x)) as H2. unfold Rsqr in H2. cbn in *.
  apply elem_of_cons in Ho as [->|Ho]; [|apply IH; [lra|done]].
  assert (f x * f x = 0) as H3 by lra. apply Rmult_integral in H3. tauto.
Qed.
Lemma Rsum_zero_all {A} (f : A → R) l : (∀ o, o ∈ l → f o = 0) → Rsum (f <$> l) = 0.
Proof.
  induction l as [|x l IH]; intros H; cbn; [done|]. rewrite (H x) by left. rewrite IH; [lra|]. intros o Ho. apply H. by right.
Qed.

Lemma rms_ok obs : let sr := Rsum ((λ o : R * R, (o.1 * o.2) * (o.1 * o.2)) <$> obs) in
  let sw := Rsum ((λ o : R * R, o.2 * o.2) <$> obs) in
  is_rms obs (if Rlt_dec 0 sw then R_sqrt.sqrt (sr / sw) else 0).
Proof.
  intros sr sw. pose proof (Rsum_sq_nonneg (λ o : R * R, o.1 * o.2) obs) as Hr. pose proof (Rsum_sq_nonneg (λ o : R * R, o.2) obs) as Hw.
  cbn in Hr, Hw. fold sr in Hr. fold sw in Hw. unfold is_rms. fold sr sw.
  destruct (Rlt_dec 0 sw) as [Hp|Hp].
  - split; [apply sqrt_pos|]. split.
    + rewrite R_sqrt.sqrt_sqrt; [field; lra|]. apply Rmult_le_pos; [done|]. left. by apply Rinv_0_lt_compat.
    + intros H. exfalso. assert (sw = 0); [|lra]. unfold sw. apply Rsum_zero_all. intros o Ho. rewrite (H o Ho). lra.
  - split; [lra|]. split; [|done].
    assert (sw = 0) as E0 by lra. pose proof (Rsum_sq_zero (λ o : R * R, o.2) obs E0) as Hz. cbn in Hz.
    assert (sr = 0) as ->; [|lra]. unfold sr. apply Rsum_zero_all. intros o Ho. rewrite (Hz o Ho). lra.
Qed.

Section main.
Variable params : N → string → string → option R.
Variable stations : gset string.
Variable use : bool.

Lemma res_phase_loop first id l : ∀ sr sw out,
  Forall (λ p, q_sta p ∈ stations) l →
  ∃ l', Forall2 (phase_after params use first id) l l' ∧
    rloop (res_phase params stations use first id) l (sr, sw, out) =
      Ok (sr + Rsum ((λ o, (o.1 * o.2) * (o.1 * o.2)) <$> observed params use id l),
          sw + Rsum ((λ o, o.2 * o.2) <$> observed params use id l), out ++ l').
Proof.
  induction l as [|p l IH]; intros sr sw out HF.
  - exists []. split; [constructor|]. cbn. rewrite app_nil_r. do 3 f_equal; lra.
  - apply Forall_cons in HF as [Hp HF].
    cbn [rloop]. unfold res_phase at 1. rewrite decide_True by done.
    destruct (params id (q_sta p) (q_type p)) as [r|] eqn:E; cbn [rbind].
    + destruct (IH (sr + r * (if use then q_class p else 1) * (r * (if use then q_class p else 1)))
        (sw + (if use then q_class p else 1) * (if use then q_class p else 1))
        (out ++ [PI_ (q_sta p) (q_type p) (q_class p) (if first then r else q_start p) (if first then 0 else r) (if use then q_class p else 1)]) HF) as (l' & H2 & Hl).
      exists (PI_ (q_sta p) (q_type p) (q_class p) (if first then r else q_start p) (if first then 0 else r) (if use then q_class p else 1) :: l').
      split.
      * constructor; [|done]. unfold phase_after, residual_of. cbn. rewrite E. destruct first; done.
      * replace (if first then r else if first then 0 else q_start p) with (if first then r else q_start p) by (by destruct first).
        rewrite Hl. unfold observed. cbn. rewrite E. cbn. rewrite <- app_assoc. unfold weight_of.
        f_equal. f_equal. f_equal; lra.
    + destruct (IH sr sw (out ++ [PI_ (q_sta p) (q_type p) (q_class p) (if first then 0 else q_start p) 0 (if use then q_class p else 1)]) HF) as (l' & H2 & Hl).
      exists (PI_ (q_sta p) (q_type p) (q_class p) (if first then 0 else q_start p) 0 (if use then q_class p else 1) :: l').
      split.
      * constructor; [|done]. unfold phase_after, residual_of. cbn. rewrite E. destruct first; done.
      * rewrite Hl. unfold observed. cbn. rewrite E. cbn. rewrite <- app_assoc. done.
Qed.
Lemma res_phase_exc first id l : ∀ acc, ¬ Forall (λ p, q_sta p ∈ stations) l →
  rloop (res_phase params stations use first id) l acc = Exc.
Proof.
  induction l as [|p l IH]; intros [[sr sw] out] HF; [by destruct HF|].
  cbn [rloop]. unfold res_phase at 1. destruct (decide (q_sta p ∈ stations)) as [Hp|Hp]; [|done].
  assert (¬ Forall (λ p, q_sta p ∈ stations) l) as Hn by (intros H; apply HF; by constructor).
  destruct (params id (q_sta p) (q_type p)); cbn [rbind]; by apply IH.
Qed.

Definition fine (evs : gmap N einfo) (id : N) : Prop :=
  ∃ e, evs !! id = Some e ∧ Forall (λ p, q_sta p ∈ stations) (i_phs e).

Lemma res_event_ok first evs id : fine evs id →
  ∃ e e', evs !! id = Some e ∧ event_after params use first id e e' ∧
    res_event params stations use first evs id = Ok (<[id := e']> evs).
Proof.
  intros (e & He & HF). destruct (res_phase_loop first id (i_phs e) 0 0 [] HF) as (l' & H2 & Hl).
  unfold res_event. rewrite He. cbn [at_ rbind]. rewrite Hl. cbn [rbind app]. rewrite !Rplus_0_l.
  eexists e, _. split; [done|]. split; [|reflexivity].
  pose proof (rms_ok (observed params use id (i_phs e))) as Hr. cbv zeta in Hr.
  destruct (Rlt_dec 0 _) as [Hp|Hp]; destruct first; split; cbn; auto.
Qed.
Lemma res_event_bad first evs id : ¬ fine evs id → res_event params stations use first evs id = Exc.
Proof.
  intros H. unfold res_event. destruct (evs !! id) as [e|] eqn:E; [|done]. cbn [at_ rbind].
  rewrite res_phase_exc; [done|]. intros HF. apply H. by exists e.
Qed.
Lemma fine_insert evs id id' e : id ≠ id' → fine evs id ↔ fine (<[id' := e]> evs) id.
Proof. intros Hn. unfold fine. by rewrite lookup_insert_ne. Qed.

(** C67: either a referenced event or a station is missing, and the function throws; or the
    statistics of the events of the cluster become what they should and the others are kept. *)
Theorem C67_residuals first refs : ∀ evs, NoDup refs →
  ((∀ id, id ∈ refs → fine evs id) →
    ∃ evs', event_residuals params stations use first refs evs = Ok evs' ∧
      (∀ id, id ∉ refs → evs' !! id = evs !! id) ∧
      (∀ id, id ∈ refs → ∃ e e', evs !! id = Some e ∧ evs' !! id = Some e' ∧ event_after params use first id e e')) ∧
  ((∃ id, id ∈ refs ∧ ¬ fine evs id) → event_residuals params stations use first refs evs = Exc).
Proof.
  induction refs as [|id refs IH]; intros evs Hnd.
  { split.
    - intros _. exists evs. split; [done|]. split; [done|]. intros id H. by apply elem_of_nil in H.
    - intros (id & H & _). by apply elem_of_nil in H. }
  apply NoDup_cons in Hnd as [Hni Hnd]. unfold event_residuals. cbn [rloop]. split.
  - intros Hf. destruct (res_event_ok first evs id (Hf id ltac:(left))) as (e & e' & He & Ha & ->). cbn [rbind].
    destruct (IH (<[id := e']> evs) Hnd) as [IH1 _].
    destruct IH1 as (evs' & HE & Ho & Hi).
    { intros j Hj. apply fine_insert; [by intros ->|]. apply Hf. by right. }
    exists evs'. split; [exact HE|]. split.
    + intros j Hj. apply not_elem_of_cons in Hj as [Hj1 Hj2]. rewrite (Ho j Hj2). by rewrite lookup_insert_ne.
    + intros j Hj. destruct (decide (j = id)) as [->|Hne].
      * exists e, e'. split; [done|]. split; [|done]. rewrite (Ho id Hni). by rewrite lookup_insert.
      * apply elem_of_cons in Hj as [?|Hj]; [done|]. destruct (Hi j Hj) as (a & b & Ha1 & Hb & Hab).
        rewrite lookup_insert_ne in Ha1 by done. eauto.
  - intros (j & Hj & Hb). destruct (decide (j = id)) as [->|Hne].
    + by rewrite res_event_bad.
    + apply elem_of_cons in Hj as [?|Hj]; [done|].
      assert (fine evs id ∨ ¬ fine evs id) as [Hf|Hf].
      { unfold fine. destruct (evs !! id) as [e|]; [|right; by intros (? & ? & _)].
        destruct (decide (Forall (λ p, q_sta p ∈ stations) (i_phs e))) as [H|H]; [left; eauto|]. right. intros (? & [= <-] & ?). done. }
      * destruct (res_event_ok first evs id Hf) as (e & e' & He & Ha & ->). cbn [rbind].
        apply (IH (<[id := e']> evs) Hnd). exists j. split; [done|]. by rewrite <- fine_insert.
      * by rewrite res_event_bad.
Qed.
End main.

(** The root mean square lies between the smallest and the largest absolute residual, and is zero
    only if all weighted residuals are. *)
Theorem C67_bounds obs x m M : is_rms obs x → (∃ o, o ∈ obs ∧ o.2 ≠ 0) → 0 <= m →
  (∀ o, o ∈ obs → o.2 ≠ 0 → m <= Rabs o.1 <= M) → m <= x <= M.
Proof.
  intros (H0 & HE & _) (o & Ho & Hn) Hm HB.
  set (sw := Rsum _) in HE. set (sr := Rsum _) in HE.
  assert (0 < sw) as Hsw.
  { pose proof (Rsum_sq_nonneg (λ o : R * R, o.2) obs) as Hw. cbn in Hw. fold sw in Hw.
    destruct (Req_dec sw 0) as [E|]; [|lra]. by pose proof (Rsum_sq_zero (λ o : R * R, o.2) obs E o Ho). }
  assert (m * m * sw <= sr <= M * M * sw) as [Hlo Hhi].
  { unfold sw, sr. clear - HB Hm. induction obs as [|a l IH]; [cbn; lra|].
    rewrite !fmap_cons. cbn [Rsum fst snd].
    assert (m * m * Rsum ((λ o : R * R, o.2 * o.2) <$> l) <= Rsum ((λ o : R * R, (o.1 * o.2) * (o.1 * o.2)) <$> l) <= M * M * Rsum ((λ o : R * R, o.2 * o.2) <$> l)) as [I1 I2].
    { apply IH. intros o Ho. apply HB. by right. }
    assert (m * m * (a.2 * a.2) <= (a.1 * a.2) * (a.1 * a.2) <= M * M * (a.2 * a.2)) as [J1 J2]; [|lra].
    destruct (Req_dec a.2 0) as [E|Hn]; [rewrite E; lra|].
    destruct (HB a ltac:(left) Hn) as [K1 K2].
    replace (a.1 * a.2 * (a.1 * a.2)) with (Rabs a.1 * Rabs a.1 * (a.2 * a.2)).
    2: { rewrite <- Rabs_mult. rewrite (Rabs_right (a.1 * a.1)) by (apply Rle_ge; apply Rle_0_sqr). ring. }
    pose proof (Rle_0_sqr a.2) as Hs. unfold Rsqr in Hs.
    split; apply Rmult_le_compat_r; try done; apply Rmult_le_compat; lra. }
  assert (m * m <= x * x <= M * M) as [H1 H2].
  { split; apply (Rmult_le_reg_r sw); lra. }
  assert (0 <= M) as HM. { destruct (HB o Ho Hn). lra. }
  split; apply Rsqr_incr_0; try (unfold Rsqr; lra); done.
Qed.
Theorem C67_zero obs x : is_rms obs x → (x = 0 ↔ ∀ o, o ∈ obs → o.1 = 0 ∨ o.2 = 0).
Proof.
  intros (H0 & HE & Hz). split.
  - intros ->. rewrite !Rmult_0_l in HE. symmetry in HE. intros o Ho.
    pose proof (Rsum_sq_zero (λ o : R * R, o.1 * o.2) obs HE o Ho) as H. cbn in H. by apply Rmult_integral.
  - intros H.
    rewrite (Rsum_zero_all (λ o : R * R, o.1 * o.2 * (o.1 * o.2))) in HE.
    2: { intros o Ho. destruct (H o Ho) as [-> | ->]; lra. }
    apply Rmult_integral in HE as [E|E]; [apply Rmult_integral in E; tauto|].
    apply Hz. exact (Rsum_sq_zero (λ o : R * R, o.2) obs E).
Qed.

(** ** All passes *)
Section loop.
Variable stations : gset string.
Variable use : bool.
Variable refs : list N.
Hypothesis Hnd : NoDup refs.
Definition key (p : pinfo) : string * string * R * R := (q_sta p, q_type p, q_class p, q_start p).
(** Moving events or putting them back keeps the start values and the picks *)
Definition keeps (between : gmap N einfo → gmap N einfo) : Prop :=
  ∀ evs id e, evs !! id = Some e → ∃ e', between evs !! id = Some e' ∧
    i_startRms e' = i_startRms e ∧ key <$> i_phs e' ≡ₚ key <$> i_phs e.

Lemma fine_keeps f evs id : keeps f → fine stations evs id → fine stations (f evs) id.
Proof.
  intros Hk (e & He & HF). destruct (Hk _ _ _ He) as (e' & He' & _ & Hp). exists e'. split; [done|].
  apply Forall_forall. intros p Hin. assert (key p ∈ key <$> i_phs e) as H by (rewrite <- Hp; by apply elem_of_list_fmap_1).
  apply elem_of_list_fmap in H as (p0 & Hk0 & Hin0). unfold key in Hk0. injection Hk0 as -> _ _ _. rewrite Forall_forall in HF. by apply HF.
Qed.
Lemma fine_after ps first id e e' (evs evs' : gmap N einfo) : evs !! id = Some e → evs' !! id = Some e' →
  event_after ps use first id e e' → fine stations evs id → fine stations evs' id.
Proof.
  intros He He' [Ha _] (e0 & He0 & HF). exists e'. split; [done|]. rewrite He in He0. apply (inj Some) in He0 as <-.
  clear -Ha HF. induction Ha as [|p p' l l' Hp _ IH]; [constructor|]. apply Forall_cons in HF as [H1 H2].
  constructor; [|by apply IH]. destruct Hp as (-> & _). done.
Qed.
Lemma key_later ps id l l' : Forall2 (phase_after ps use false id) l l' → key <$> l' = key <$> l.
Proof.
  induction 1 as [|p p' l l' H _ IH]; [done|]. cbn. rewrite IH. unfold key. destruct H as (-> & -> & -> & _ & -> & _). done.
Qed.

(** after the later passes the start values are kept and the final ones are those of the last *)
Lemma later_passes l : ∀ evs, Forall (λ x, keeps x.2) l → (∀ id, id ∈ refs → fine stations evs id) →
  ∃ evs', passes stations use refs l false evs = Ok evs' ∧
    ∀ id e, id ∈ refs → evs !! id = Some e → ∃ e', evs' !! id = Some e' ∧
      i_startRms e' = i_startRms e ∧ key <$> i_phs e' ≡ₚ key <$> i_phs e ∧
      (∀ x, last l = Some x → is_rms (observed x.1 use id (i_phs e')) (i_finalRms e') ∧
         Forall (λ p, q_final p = residual_of x.1 id p ∧ q_weight p = weight_of use p) (i_phs e')).
Proof using Hnd.
  induction l as [|[ps f] l IH]; intros evs HK HF.
  - exists evs. split; [done|]. intros id e _ He. exists e. do 3 (split; [done|]). intros x [=].
  - apply Forall_cons in HK as [Hk HK]. cbn [passes]. cbn [snd] in Hk.
    destruct (C67_residuals ps stations use false refs (f evs) Hnd) as [H1 _].
    destruct H1 as (evs1 & E1 & _ & Hi). { intros id Hid. apply fine_keeps; auto. }
    rewrite E1. cbn [rbind].
    destruct (IH evs1 HK) as (evs' & E' & H').
    { intros id Hid. destruct (Hi id Hid) as (e & e' & He & He' & Ha). apply (fine_after ps false id e e' (f evs) evs1 He He' Ha).
      apply fine_keeps; auto. }
    exists evs'. split; [done|]. intros id e Hid He.
    destruct (Hk _ _ _ He) as (e1 & He1 & Hs1 & Hp1). destruct (Hi id Hid) as (e1' & e2 & He1' & He2 & Ha).
    rewrite He1 in He1'. apply (inj Some) in He1' as <-. destruct Ha as (Hph & Hst & Hrms).
    destruct (H' id e2 Hid He2) as (e3 & He3 & Hs3 & Hp3 & Hfin).
    exists e3. split; [done|]. split; [by rewrite Hs3, Hst|]. split.
    { rewrite Hp3. by rewrite (key_later _ _ _ _ Hph). }
    intros x Hx. destruct l as [|y l].
    + cbn in Hx. injection Hx as <-. cbn [passes] in E'. injection E' as <-. rewrite He2 in He3. apply (inj Some) in He3 as <-. cbn [fst]. split.
      * replace (observed ps use id (i_phs e2)) with (observed ps use id (i_phs e1)); [done|].
        clear -Hph. induction Hph as [|p p' a b H _ IH]; [done|]. unfold observed in *. cbn. rewrite IH.
        destruct H as (-> & -> & H3 & _). unfold weight_of. by rewrite H3.
      * clear -Hph. induction Hph as [|p p' a b H _ IH]; [constructor|]. constructor; [|done].
        destruct H as (H1 & H2 & H3 & H4 & _ & H5). unfold residual_of, weight_of. rewrite H1, H2, H3. done.
    + apply Hfin. by rewrite last_cons_cons in Hx.
Qed.

(** C67: over all passes of a relocation the start values are those of the first pass and the final
    ones those of the last, whatever the locations did in between. *)
Theorem C67_start_and_final x0 l evs : Forall (λ x, keeps x.2) (x0 :: l) → (∀ id, id ∈ refs → fine stations evs id) →
  ∃ evs', passes stations use refs (x0 :: l) true evs = Ok evs' ∧
    ∀ id e, id ∈ refs → evs !! id = Some e → ∃ e', evs' !! id = Some e' ∧
      key <$> i_phs e' ≡ₚ (λ p, (q_sta p, q_type p, q_class p, residual_of x0.1 id p)) <$> i_phs e ∧
      is_rms (observed x0.1 use id (i_phs e)) (i_startRms e') ∧
      (∀ x, last l = Some x → is_rms (observed x.1 use id (i_phs e')) (i_finalRms e') ∧
         Forall (λ p, q_final p = residual_of x.1 id p ∧ q_weight p = weight_of use p) (i_phs e')).
Proof using Hnd.
  intros HK HF. destruct x0 as [ps f]. apply Forall_cons in HK as [Hk HK]. cbn [passes fst snd] in *.
  destruct (C67_residuals ps stations use true refs (f evs) Hnd) as [H1 _].
  destruct H1 as (evs1 & E1 & _ & Hi). { intros id Hid. apply fine_keeps; auto. }
  rewrite E1. cbn [rbind].
  destruct (later_passes l evs1 HK) as (evs' & E' & H').
  { intros id Hid. destruct (Hi id Hid) as (e & e' & He & He' & Ha). apply (fine_after ps true id e e' (f evs) evs1 He He' Ha).
    apply fine_keeps; auto. }
  exists evs'. split; [done|]. intros id e Hid He.
  destruct (Hk _ _ _ He) as (e1 & He1 & Hs1 & Hp1). destruct (Hi id Hid) as (e1' & e2 & He1' & He2 & Ha).
  rewrite He1 in He1'. apply (inj Some) in He1' as <-. destruct Ha as (Hph & Hrms & Hfin0).
  destruct (H' id e2 Hid He2) as (e3 & He3 & Hs3 & Hp3 & Hfin).
  exists e3. split; [done|].
  split.
  { rewrite Hp3. transitivity ((λ p, (q_sta p, q_type p, q_class p, residual_of ps id p)) <$> i_phs e1).
    - clear -Hph. induction Hph as [|p p' a b H _ IH]; [done|]. cbn. rewrite IH. unfold key.
      destruct H as (-> & -> & -> & _ & -> & _). done.
    - apply (fmap_Permutation (λ k, (k.1.1.1, k.1.1.2, k.1.2, default 0 (ps id k.1.1.1 k.1.1.2)))) in Hp1.
      rewrite <- !list_fmap_compose in Hp1. exact Hp1. }
  split; [|done]. rewrite Hs3. destruct Hrms as (R0 & RE & Rz).
  assert (observed ps use id (i_phs e1) ≡ₚ observed ps use id (i_phs e)) as Hobs.
  { assert (∀ l, observed ps use id l = omap (λ k : string * string * R * R, (λ r, (r, if use then k.1.2 else 1)) <$> ps id k.1.1.1 k.1.1.2) (key <$> l)) as Hrw.
    { intros q. unfold observed, weight_of. induction q as [|p q IHq]; [done|]. cbn. rewrite IHq. done. }
    rewrite !Hrw. by rewrite Hp1. }
  assert (∀ (g : R * R → R) a b, a ≡ₚ b → Rsum (g <$> a) = Rsum (g <$> b)) as Hperm.
  { intros g a b Hab. induction Hab; cbn; lra. }
  split; [done|]. split.
  - rewrite <- (Hperm (λ o, o.2 * o.2) _ _ Hobs), <- (Hperm (λ o, o.1 * o.2 * (o.1 * o.2)) _ _ Hobs). done.
  - intros H. apply Rz. intros o Ho. apply H. by rewrite <- Hobs.
Qed.
End loop.

(** *** A concrete case *)
Definition case_ev := EI 9 9 [PI_ "A" "P" 1 5 5 5; PI_ "B" "P" (1/2) 5 5 5].
Definition case_params (r : R) (_ : N) (s _ : string) : option R := if bool_decide (s = "A") then Some r else None.
Example C67_case : NoDup [1%N] ∧ (∀ id, id ∈ [1%N] → fine {["A"; "B"]} {[1%N := case_ev]} id) ∧
  Forall (λ x : (N → string → string → option R) * (gmap N einfo → gmap N einfo), keeps x.2) [(case_params 3, λ m, m); (case_params 2, λ m, m)].
Proof.
  split; [apply NoDup_singleton|]. split.
  - intros id Hid. apply elem_of_list_singleton in Hid as ->. exists case_ev. split; [by rewrite lookup_singleton|].
    apply Forall_cons. split; [cbn; set_solver|]. apply Forall_cons. split; [cbn; set_solver|constructor].
  - assert (keeps (λ m, m)) as K by (intros evs id e He; exists e; done).
    constructor; [exact K|]. constructor; [exact K|constructor].
Qed.
Example C67_bounds_example : is_rms [(3, 1); (4, 1)] (R_sqrt.sqrt (25 / 2)).
Proof.
  split; [apply sqrt_pos|]. split.
  - cbn. rewrite R_sqrt.sqrt_sqrt by lra. lra.
  - intros H. specialize (H (3, 1) ltac:(left)). cbn in H. lra.
Qed.

Print Assumptions C67_residuals.
Print Assumptions C67_bounds.
Print Assumptions C67_zero.
Print Assumptions C67_start_and_final.
