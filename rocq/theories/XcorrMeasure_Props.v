(** The cross-correlation of a pair of phases (C72). *)
From Coq Require Import Ascii String Reals QArith Qreals Lra.
From stdpp Require Import numbers list gmap countable strings sets.
From Verif Require Import TimeWindow_Model Trace_Model XcorrWindow_Model WaveCache_Model Csv_Model Catalog_Model Neighbours_Model XCorrCache_Model Solver_Model XcorrBuild_Model.
From Verif Require Import Catalog_Props XCorrCache_Props XcorrBuild_Props.
From Verif Require XCorr_Model XCorr_Props Trace_Props XcorrWindow_Props.
Local Open Scope R_scope.

(** ** Bounds of DD::xcorr *)
Lemma dd_xcorr_bounds t u maxDelay lag0 :
  0 < XCorr_Model.freq t → 0 <= maxDelay → XCorr_Model.samples t ≠ [] → XCorr_Model.samples u ≠ [] →
  ∃ lag co, XCorr_Model.dd_xcorr t u maxDelay lag0 = Some (lag, co) ∧ Rabs lag <= maxDelay ∧ (∀ c, co = XCorr_Model.Fin c → -1 <= c <= 1).
Proof.
  intros Hf Hm Ht Hu. destruct (XCorr_Props.C08_in_bounds t u maxDelay lag0 Hf Hm Ht Hu) as (lag & co & E & H). cbn zeta in H.
  exists lag, co. split; [done|]. destruct H as (_ & Hl & H1 & H2). split; [done|]. intros c Hc.
  match type of H1 with (?P → _) => destruct (Classical_Prop.classic P) as [HP|HP] end.
  - destruct (H1 HP) as (k & (_ & N1 & N2) & Ec & _). rewrite Ec in Hc. injection Hc as <-. apply XCorr_Props.pearson_bound; [|done|done].
    unfold XCorr_Props.shorter. case_bool_decide; [destruct (XCorr_Model.samples u)|destruct (XCorr_Model.samples t)]; cbn; try done; lia.
  - rewrite (H2 HP) in Hc. done.
Qed.

Section measure.
Context {V I : Type}.
Notation wave := (@trace I R).
Notation loader := (tw → phase V → event V → station V → transform → option wave).
Variable opt : xcorr_opt.
Variable bg : catalog V.

(** ** Specification *)
(** Traces have samples and a positive frequency. *)
Definition good (ld : loader) : Prop := ∀ w p e s t tr, ld w p e s t = Some tr → (0 < t_freq tr)%Q ∧ t_data tr ≠ [].
(** The second trace, cut to the short window of its phase, against the first one *)
Definition against (e2 : event V) (p2 : phase V) (tr1 tr2 : wave) (D l : R) (co : XCorr_Model.coef) : Prop :=
  ∃ w s2, short_window opt e2 p2 = Ok w ∧ slice tr2 w = SlTrue s2 ∧
    XCorr_Model.dd_xcorr (real_trace tr1) (real_trace s2) D 0 = Some (l, co).
(** The same with the first one cut *)
Definition with_first_cut (e1 : event V) (p1 : phase V) (tr1 tr2 : wave) (D l : R) (co : XCorr_Model.coef) : Prop :=
  ∃ w s1, short_window opt e1 p1 = Ok w ∧ slice tr1 w = SlTrue s1 ∧
    XCorr_Model.dd_xcorr (real_trace s1) (real_trace tr2) D 0 = Some (l, co).
Definition manual (p : phase V) : Prop := ∃ i, p_proc p = Some i ∧ (pr_source i = SrcCatalog ∨ pr_source i = SrcManual).

(** ** Proof *)
Lemma trusted_manual (p : phase V) i : proc p = Ok i → trusted (pr_source i) = true ↔ manual p.
Proof.
  unfold proc, trusted, manual. destruct (p_proc p) as [j|]; [|done]. intros [= ->]. rewrite orb_true_iff, !bool_decide_eq_true. naive_solver.
Qed.
Lemma short_ordered (e : event V) (p : phase V) w : short_window opt e p = Ok w → (w_start w ≤ w_end w)%Z.
Proof.
  unfold short_window. destruct (opt_of opt p) as [po| |]; cbn [rbind]; [|done|done]. destruct (window_short _ _ _) as [w'|] eqn:E; [|done]. intros [= ->].
  unfold window_short in E. case_decide; [done|]. injection E as <-. unfold mk_tw_len, mk_tw, set_end. cbn [w_start w_end].
  destruct (_ <? _)%Z eqn:L; [lia|]. apply Z.ltb_ge in L. lia.
Qed.
Lemma short_defined (e : event V) (p : phase V) w : long_window opt e p = Ok w → ∃ w', short_window opt e p = Ok w'.
Proof.
  unfold long_window, short_window. destruct (opt_of opt p) as [po| |]; cbn [rbind]; [|done|done]. unfold window_long.
  destruct (window_short _ _ _) as [w'|]; cbn [mbind option_bind]; [eauto|done].
Qed.
Lemma cut_ok (tr : wave) w : (0 < t_freq tr)%Q → t_data tr ≠ [] → (w_start w ≤ w_end w)%Z →
  (∃ t', slice tr w = SlFalse t') ∨ ∃ s, slice tr w = SlTrue s ∧ t_freq s = t_freq tr ∧ t_data s ≠ [].
Proof.
  intros Hf Hd Hw. destruct (Trace_Props.C48_defined tr w Hf Hw) as [Hub _]. destruct (slice tr w) as [|t'|s] eqn:E; [done|eauto|].
  right. exists s. split; [done|]. destruct (Trace_Props.C48_slice tr w s Hf Hw Hd E) as (_ & H1 & H2 & _). done.
Qed.
Lemma freq_pos (f : Q) : (0 < f)%Q → 0 < Q2R f.
Proof. intros H. apply Qlt_Rlt in H. by rewrite RMicromega.Q2R_0 in H. Qed.

(** One direction that is tried: it fails, or gives a lag and a coefficient *)
Lemma direction_ok (tr u : wave) (e : event V) (p : phase V) w D :
  (0 < t_freq tr)%Q → t_data tr ≠ [] → t_data u ≠ [] → (0 < t_freq u)%Q → short_window opt e p = Ok w → 0 <= D →
  (one_direction true tr (short_window opt e p) (λ s, correlate u s D) = Ok None ∧
   one_direction true tr (short_window opt e p) (λ s, correlate s u D) = Ok None ∧ ∀ s, slice tr w ≠ SlTrue s) ∨
  ∃ s l co l' co', slice tr w = SlTrue s ∧
    one_direction true tr (short_window opt e p) (λ s, correlate u s D) = Ok (Some (l, co)) ∧
    XCorr_Model.dd_xcorr (real_trace u) (real_trace s) D 0 = Some (l, co) ∧ Rabs l <= D ∧ (∀ c, co = XCorr_Model.Fin c → -1 <= c <= 1) ∧
    one_direction true tr (short_window opt e p) (λ s, correlate s u D) = Ok (Some (l', co')) ∧
    XCorr_Model.dd_xcorr (real_trace s) (real_trace u) D 0 = Some (l', co') ∧ Rabs l' <= D ∧ (∀ c, co' = XCorr_Model.Fin c → -1 <= c <= 1) ∧
    t_freq s = t_freq tr ∧ t_data s ≠ [].
Proof.
  intros Hf Hd Hu Hfu Hw HD. unfold one_direction. rewrite Hw. cbn [rbind]. destruct (cut_ok tr w Hf Hd (short_ordered _ _ _ Hw)) as [[t' E]|(s & E & Ef & Es)].
  - rewrite E. left. done.
  - rewrite E. right. unfold correlate.
    destruct (dd_xcorr_bounds (real_trace u) (real_trace s) D 0) as (l & co & E1 & B1 & C1); [by apply freq_pos|done|done|done|].
    destruct (dd_xcorr_bounds (real_trace s) (real_trace u) D 0) as (l' & co' & E2 & B2 & C2); [cbn; rewrite Ef; by apply freq_pos|done|done|done|].
    exists s, l, co, l', co'. rewrite E1, E2. done.
Qed.

(** What a valid result is *)
Record valid_pair (ld1 ld2 : loader) (e1 : event V) (p1 : phase V) (e2 : event V) (p2 : phase V) (x : text) (D c l : R) : Prop := Valid {
  v_waves : ∃ w1 w2 tr1 tr2, long_window opt e1 p1 = Ok w1 ∧ long_window opt e2 p2 = Ok w2 ∧
    get_waveform bg ld1 w1 e1 p1 x = Ok (Some tr1) ∧ get_waveform bg ld2 w2 e2 p2 x = Ok (Some tr2) ∧ (t_freq tr1 == t_freq tr2)%Q ∧
    (¬ (manual p1 ∧ ¬ manual p2) ∧ against e2 p2 tr1 tr2 D l (XCorr_Model.Fin c) ∨
     ¬ (manual p2 ∧ ¬ manual p1) ∧ with_first_cut e1 p1 tr1 tr2 D l (XCorr_Model.Fin c)) ∧
    (∀ l' c', ¬ (manual p1 ∧ ¬ manual p2) → against e2 p2 tr1 tr2 D l' (XCorr_Model.Fin c') → Rabs c' <= Rabs c) ∧
    (∀ l' c', ¬ (manual p2 ∧ ¬ manual p1) → with_first_cut e1 p1 tr1 tr2 D l' (XCorr_Model.Fin c') → Rabs c' <= Rabs c);
  v_coeff : -1 <= c <= 1;
  v_lag : Rabs l <= D }.

Lemma good_get ld w e p x tr : good ld → get_waveform bg ld w e p x = Ok (Some tr) → (0 < t_freq tr)%Q ∧ t_data tr ≠ [].
Proof.
  intros Hg. unfold get_waveform. destruct (c_sta bg !! p_staid p); cbn [at_ rbind]; [|done]. destruct (request p x) as [[p' t]|]; [|done].
  intros H. injection H as H. by eapply Hg.
Qed.
Lemma choose_ok l1 c1 l2 c2 v x y : choose (l1, c1) (l2, c2) = (v, x, y) →
  (v = false ∧ x = Num 0 ∧ y = Num 0 ∧ (∀ c, c1 ≠ XCorr_Model.Fin c) ∧ (∀ c, c2 ≠ XCorr_Model.Fin c)) ∨
  ∃ c l, v = true ∧ x = Num c ∧ y = Num l ∧ (c1 = XCorr_Model.Fin c ∧ l = l1 ∨ c2 = XCorr_Model.Fin c ∧ l = l2) ∧
    (∀ c', c1 = XCorr_Model.Fin c' → Rabs c' <= Rabs c) ∧ (∀ c', c2 = XCorr_Model.Fin c' → Rabs c' <= Rabs c).
Proof.
  unfold choose. cbn [fst snd]. destruct c1 as [r1| |], c2 as [r2| |]; try destruct Rlt_dec as [L|L]; intros [= <- <- <-];
    try (left; done); right; do 2 eexists; (split; [done|split; [done|split; [done|]]]);
    (split; [first [left; done|right; done]|]); split; intros c' [= <-]; lra.
Qed.
Lemma component_ok ld1 ld2 e1 p1 e2 p2 x po v cx ly :
  good ld1 → good ld2 → opt_of opt p1 = Ok po → (0 <= maxDelay (po_win po))%Q →
  one_component opt bg ld1 ld2 e1 p1 e2 p2 x = Ok (v, cx, ly) →
  (v = false ∧ cx = Num 0 ∧ ly = Num 0) ∨ ∃ c l, v = true ∧ cx = Num c ∧ ly = Num l ∧ valid_pair ld1 ld2 e1 p1 e2 p2 x (Q2R (maxDelay (po_win po))) c l.
Proof.
  intros G1 G2 Ho HD. unfold one_component. rewrite Ho. cbn [rbind]. set (D := Q2R (maxDelay (po_win po))).
  assert (0 <= D) as HD' by (unfold D; rewrite <- RMicromega.Q2R_0; by apply Qle_Rle).
  assert (∀ v' cx' ly', Ok (false, Num 0, Num 0) = Ok (v', cx', ly') → v' = false ∧ cx' = Num 0 ∧ ly' = Num 0) as Fail by (intros v' cx' ly' [= <- <- <-]; done).
  destruct (long_window opt e1 p1) as [w1| |] eqn:W1; cbn [rbind]; [|done|done]. destruct (long_window opt e2 p2) as [w2| |] eqn:W2; cbn [rbind]; [|done|done].
  destruct (get_waveform bg ld1 w1 e1 p1 x) as [[tr1|]| |] eqn:T1; cbn [rbind]; [|intros ?%Fail; by left|done|done].
  destruct (get_waveform bg ld2 w2 e2 p2 x) as [[tr2|]| |] eqn:T2; cbn [rbind]; [|intros ?%Fail; by left|done|done].
  destruct (Qeq_bool _ _) eqn:Ef; [|intros ?%Fail; by left]. apply Qeq_bool_eq in Ef.
  destruct (good_get _ _ _ _ _ _ G1 T1) as [F1 D1]. destruct (good_get _ _ _ _ _ _ G2 T2) as [F2 D2].
  destruct (proc p1) as [i1| |] eqn:P1; cbn [rbind]; [|done|done]. destruct (proc p2) as [i2| |] eqn:P2; cbn [rbind]; [|done|done].
  pose proof (trusted_manual p1 i1 P1) as M1. pose proof (trusted_manual p2 i2 P2) as M2.
  destruct (short_defined _ _ _ W1) as [sw1 S1]. destruct (short_defined _ _ _ W2) as [sw2 S2].
  pose proof (direction_ok tr2 tr1 e2 p2 sw2 D F2 D2 D1 F1 S2 HD') as A. pose proof (direction_ok tr1 tr2 e1 p1 sw1 D F1 D1 D2 F2 S1 HD') as B.
  assert (∀ on, on = false → ∀ tr (w : res tw) m, one_direction (I := I) on tr w m = Ok (Some (0, XCorr_Model.NotANumber))) as Off by (intros on -> *; done).
  (* the first direction *)
  match goal with |- context [one_direction ?on1 tr2 _ _] => set (first := on1) end.
  match goal with |- context [one_direction ?on2 tr1 _ _] => set (second := on2) end.
  assert (first = true ↔ ¬ (manual p1 ∧ ¬ manual p2)) as Hfirst.
  { unfold first. rewrite <- M1, <- M2. destruct (trusted (pr_source i1)), (trusted (pr_source i2)); cbn; intuition congruence. }
  assert (second = true ↔ ¬ (manual p2 ∧ ¬ manual p1)) as Hsecond.
  { unfold second. rewrite <- M1, <- M2. destruct (trusted (pr_source i1)), (trusted (pr_source i2)); cbn; intuition congruence. }
  assert (∃ r1, one_direction first tr2 (short_window opt e2 p2) (λ s, correlate tr1 s D) = Ok r1 ∧
     ∀ l co, r1 = Some (l, co) → (∀ c, co = XCorr_Model.Fin c → first = true ∧ Rabs l <= D ∧ -1 <= c <= 1) ∧
       (first = true → against e2 p2 tr1 tr2 D l co) ∧ (first = false → co = XCorr_Model.NotANumber)) as (r1 & E1 & R1).
  { destruct first.
    - destruct A as [(A1 & A2 & A3)|(s & l & co & l' & co' & A1 & A2 & A3 & A4 & A5 & _)]; [exists None; split; [done|]; done|].
      exists (Some (l, co)). split; [done|]. intros l0 co0 [= <- <-]. split; [intros c Hc; split; [done|]; split; [done|by apply A5]|].
      split; [|done]. intros _. exists sw2, s. done.
    - eexists. split; [by apply Off|]. intros l0 co0 [= <- <-]. done. }
  assert (∃ r2, one_direction second tr1 (short_window opt e1 p1) (λ s, correlate s tr2 D) = Ok r2 ∧
     ∀ l co, r2 = Some (l, co) → (∀ c, co = XCorr_Model.Fin c → second = true ∧ Rabs l <= D ∧ -1 <= c <= 1) ∧
       (second = true → with_first_cut e1 p1 tr1 tr2 D l co) ∧ (second = false → co = XCorr_Model.NotANumber)) as (r2 & E2 & R2).
  { destruct second.
    - destruct B as [(A1 & A2 & A3)|(s & l & co & l' & co' & A1 & A2 & A3 & A4 & A5 & A6 & A7 & A8 & A9 & _)]; [exists None; split; [done|]; done|].
      exists (Some (l', co')). split; [done|]. intros l0 co0 [= <- <-]. split; [intros c Hc; split; [done|]; split; [done|by apply A9]|].
      split; [|done]. intros _. exists sw1, s. done.
    - eexists. split; [by apply Off|]. intros l0 co0 [= <- <-]. done. }
  rewrite E1. cbn [rbind]. destruct r1 as [[l1 co1]|]; [|intros ?%Fail; by left]. rewrite E2. cbn [rbind]. destruct r2 as [[l2 co2]|]; [|intros ?%Fail; by left].
  intros H. injection H as H. destruct (R1 _ _ eq_refl) as (B1 & A1 & N1). destruct (R2 _ _ eq_refl) as (B2 & A2 & N2).
  apply choose_ok in H as [(-> & -> & -> & _)|(c & l & -> & -> & -> & Hc & X1 & X2)]; [by left|]. right. exists c, l. split; [done|]. split; [done|]. split; [done|].
  assert (∀ l' c', first = true → against e2 p2 tr1 tr2 D l' (XCorr_Model.Fin c') → Rabs c' <= Rabs c) as Y1.
  { intros l' c' Hon Hag. apply X1. specialize (A1 Hon). destruct A1 as (w & s & Q1 & Q2 & Q3). destruct Hag as (w' & s' & Q1' & Q2' & Q3'). congruence. }
  assert (∀ l' c', second = true → with_first_cut e1 p1 tr1 tr2 D l' (XCorr_Model.Fin c') → Rabs c' <= Rabs c) as Y2.
  { intros l' c' Hon Hag. apply X2. specialize (A2 Hon). destruct A2 as (w & s & Q1 & Q2 & Q3). destruct Hag as (w' & s' & Q1' & Q2' & Q3'). congruence. }
  destruct Hc as [(Hc & ->)|(Hc & ->)].
  - destruct (B1 c Hc) as (Hon & Bl & Bc). split; [|done|done]. exists w1, w2, tr1, tr2. rewrite Hc in A1.
    split; [done|]. split; [done|]. split; [done|]. split; [done|]. split; [done|]. split; [left; split; [by apply Hfirst|by apply A1]|]. split; intros l' c' H'; [apply Y1; by apply Hfirst|apply Y2; by apply Hsecond].
  - destruct (B2 c Hc) as (Hon & Bl & Bc). split; [|done|done]. exists w1, w2, tr1, tr2. rewrite Hc in A2.
    split; [done|]. split; [done|]. split; [done|]. split; [done|]. split; [done|]. split; [right; split; [by apply Hsecond|by apply A2]|]. split; intros l' c' H'; [apply Y1; by apply Hfirst|apply Y2; by apply Hsecond].
Qed.

(** C72: a valid measurement is that of the first component for which there is one; the
    coefficient is between -1 and 1 and the lag at most the allowed delay; the trace of a
    trusted pick is the short one if the other pick is not trusted, and otherwise the better
    of the two directions is taken. *)
Theorem C72_measurement ld1 ld2 e1 p1 e2 p2 po v x y :
  good ld1 → good ld2 → opt_of opt p1 = Ok po → (0 <= maxDelay (po_win po))%Q →
  xcorr_phases opt bg ld1 ld2 e1 p1 e2 p2 = Ok (v, x, y) →
  if v then
    p_type p1 = p_type p2 ∧ band_and_instrument (p_cha p1) = band_and_instrument (p_cha p2) ∧
    ∃ pre comp post c l, components opt p1 = Ok (pre ++ comp :: post) ∧
      (∀ q, q ∈ pre → one_component opt bg ld1 ld2 e1 p1 e2 p2 q = Ok (false, Num 0, Num 0)) ∧
      x = Num c ∧ y = Num l ∧ valid_pair ld1 ld2 e1 p1 e2 p2 comp (Q2R (maxDelay (po_win po))) c l
  else (x = Num 0 ∧ y = Num 0) ∨ (x = Indet ∧ y = Indet).
Proof.
  intros G1 G2 Ho HD. unfold xcorr_phases. case_decide as Et; [|intros [= <- <- <-]; by right]. case_decide as Eb; [|intros [= <- <- <-]; by right].
  destruct (components opt p1) as [comps| |] eqn:Ec; cbn [rbind]; [|done|done].
  assert (∀ l o, try_components (one_component opt bg ld1 ld2 e1 p1 e2 p2) l o = Ok (v, x, y) → (o = (false, Indet, Indet) ∨ o = (false, Num 0, Num 0)) →
    if v then ∃ pre comp post c la, l = pre ++ comp :: post ∧ (∀ q, q ∈ pre → one_component opt bg ld1 ld2 e1 p1 e2 p2 q = Ok (false, Num 0, Num 0)) ∧
      x = Num c ∧ y = Num la ∧ valid_pair ld1 ld2 e1 p1 e2 p2 comp (Q2R (maxDelay (po_win po))) c la
    else (x = Num 0 ∧ y = Num 0) ∨ (x = Indet ∧ y = Indet)) as Main.
  { intros l. induction l as [|q l IH]; intros o E Hor; cbn [try_components] in E.
    - injection E as ->. destruct Hor as [[= -> -> ->]|[= -> -> ->]]; tauto.
    - destruct (one_component opt bg ld1 ld2 e1 p1 e2 p2 q) as [[[v' x'] y']| |] eqn:Eq; cbn [rbind] in E; [|done|done]. cbn [fst snd] in E.
      destruct (component_ok _ _ _ _ _ _ _ _ _ _ _ G1 G2 Ho HD Eq) as [(-> & -> & ->)|(c & la & -> & -> & -> & Hv)].
      + specialize (IH _ E (or_intror eq_refl)). destruct v; [|done]. destruct IH as (pre & comp & post & c & la & -> & Hpre & Hx & Hy & Hv).
        exists (q :: pre), comp, post, c, la. split; [done|]. split; [|done]. intros z [->|Hz]%elem_of_cons; [done|by apply Hpre].
      + injection E as <- <- <-. exists [], q, l, c, la. split; [done|]. split; [by intros z Hz%elem_of_nil|]. done. }
  intros E. specialize (Main comps _ E (or_introl eq_refl)). destruct v; [|done]. split; [done|]. split; [done|].
  destruct Main as (pre & comp & post & c & l & -> & H). exists pre, comp, post, c, l. done.
Qed.

(** ** Exchanging the two phases *)
(** When both directions are measured they do not give equally large coefficients with
    different results. *)
Definition no_ties (ld1 ld2 : loader) (e1 : event V) (p1 : phase V) (e2 : event V) (p2 : phase V) (D : R) : Prop :=
  ∀ x w1 w2 tr1 tr2 l1 c1 l2 c2, (manual p1 ↔ manual p2) → get_waveform bg ld1 w1 e1 p1 x = Ok (Some tr1) → get_waveform bg ld2 w2 e2 p2 x = Ok (Some tr2) →
    against e2 p2 tr1 tr2 D l1 (XCorr_Model.Fin c1) → with_first_cut e1 p1 tr1 tr2 D l2 (XCorr_Model.Fin c2) → Rabs c1 = Rabs c2 → c1 = c2 ∧ l1 = l2.
Lemma swap_real (t u : wave) D l co : (t_freq t == t_freq u)%Q → (0 < t_freq t)%Q → t_data t ≠ [] → t_data u ≠ [] → 0 <= D →
  XCorr_Model.dd_xcorr (real_trace t) (real_trace u) D 0 = Some (l, co) → XCorr_Model.dd_xcorr (real_trace u) (real_trace t) D 0 = Some (- l, co).
Proof.
  intros Ef Hf Ht Hu HD. apply XCorr_Props.C08_swap; try done; cbn; [by apply Qeq_eqR|by apply freq_pos].
Qed.
Lemma choose_swap l1 co1 l2 co2 v x y :
  (∀ c1 c2, co1 = XCorr_Model.Fin c1 → co2 = XCorr_Model.Fin c2 → Rabs c1 = Rabs c2 → c1 = c2 ∧ l1 = l2) →
  choose (l1, co1) (l2, co2) = (v, x, y) → choose (- l2, co2) (- l1, co1) = (v, x, dneg y).
Proof.
  intros Ht. unfold choose. cbn [fst snd]. assert (Num (- 0) = Num 0) as Z by (f_equal; lra).
  destruct co1 as [r1| |], co2 as [r2| |]; try (intros [= <- <- <-]; cbn [dneg]; by rewrite ?Z).
  destruct (Rlt_dec (Rabs r1) (Rabs r2)), (Rlt_dec (Rabs r2) (Rabs r1)); try lra; intros [= <- <- <-]; cbn [dneg]; try done.
  destruct (Ht r1 r2 eq_refl eq_refl) as [-> ->]; [lra|done].
Qed.
Lemma component_swap ld1 ld2 e1 p1 e2 p2 x po v cx ly :
  good ld1 → good ld2 → opt_of opt p1 = Ok po → opt_of opt p2 = Ok po → p_staid p1 = p_staid p2 → (0 <= maxDelay (po_win po))%Q →
  no_ties ld1 ld2 e1 p1 e2 p2 (Q2R (maxDelay (po_win po))) →
  one_component opt bg ld1 ld2 e1 p1 e2 p2 x = Ok (v, cx, ly) →
  one_component opt bg ld2 ld1 e2 p2 e1 p1 x = Ok (v, cx, dneg ly).
Proof.
  intros G1 G2 Ho1 Ho2 Hsta HD Hties. unfold one_component. rewrite Ho1, Ho2. cbn [rbind]. set (D := Q2R (maxDelay (po_win po))) in *.
  assert (0 <= D) as HD' by (unfold D; rewrite <- RMicromega.Q2R_0; by apply Qle_Rle).
  assert (∀ v' cx' ly', Ok (false, Num 0, Num 0) = Ok (v', cx', ly') → Ok (false, Num 0, Num 0) = Ok (v', cx', dneg ly')) as Fail.
  { intros v' cx' ly' [= <- <- <-]. cbn. do 3 f_equal. lra. }
  destruct (long_window opt e1 p1) as [w1| |] eqn:W1; cbn [rbind]; [|done|done]. destruct (long_window opt e2 p2) as [w2| |] eqn:W2; cbn [rbind]; [|done|done].
  destruct (get_waveform bg ld1 w1 e1 p1 x) as [t1| |] eqn:T1; cbn [rbind]; [|done|done].
  assert (∃ t2, get_waveform bg ld2 w2 e2 p2 x = Ok t2) as [t2 T2].
  { unfold get_waveform in *. rewrite <- Hsta. destruct (c_sta bg !! p_staid p1); cbn [at_ rbind] in *; [eauto|done]. }
  rewrite T2. cbn [rbind]. destruct t1 as [tr1|]; [|destruct t2; apply Fail]. destruct t2 as [tr2|]; [|apply Fail].
  rewrite (Qeq_bool_comm (t_freq tr2)). destruct (Qeq_bool (t_freq tr1) (t_freq tr2)) eqn:Ef; [|apply Fail]. apply Qeq_bool_eq in Ef.
  destruct (good_get _ _ _ _ _ _ G1 T1) as [F1 D1]. destruct (good_get _ _ _ _ _ _ G2 T2) as [F2 D2].
  destruct (proc p1) as [i1| |] eqn:P1; cbn [rbind]; [|done|done]. destruct (proc p2) as [i2| |] eqn:P2; cbn [rbind]; [|done|done].
  destruct (short_defined _ _ _ W1) as [sw1 S1]. destruct (short_defined _ _ _ W2) as [sw2 S2].
  pose proof (direction_ok tr2 tr1 e2 p2 sw2 D F2 D2 D1 F1 S2 HD') as A. pose proof (direction_ok tr1 tr2 e1 p1 sw1 D F1 D1 D2 F2 S1 HD') as B.
  assert (trusted (pr_source i1) = trusted (pr_source i2) → (manual p1 ↔ manual p2)) as Hman.
  { intros E. rewrite <- (trusted_manual _ _ P1), <- (trusted_manual _ _ P2), E. done. }
  revert Hman. generalize (trusted (pr_source i1)) as b1, (trusted (pr_source i2)) as b2. intros b1 b2 Hman.
  assert (∀ tr (w : res tw) m, one_direction (I := I) false tr w m = Ok (Some (0, XCorr_Model.NotANumber))) as Off by done.
  assert (∀ l co s, slice tr2 sw2 = SlTrue s → XCorr_Model.dd_xcorr (real_trace tr1) (real_trace s) D 0 = Some (l, co) → against e2 p2 tr1 tr2 D l co) as Ag by (intros; eexists _, _; eauto).
  assert (∀ l co s, slice tr1 sw1 = SlTrue s → XCorr_Model.dd_xcorr (real_trace s) (real_trace tr2) D 0 = Some (l, co) → with_first_cut e1 p1 tr1 tr2 D l co) as Fi by (intros; eexists _, _; eauto).
  destruct A as [(A1 & A2 & _)|(s2 & l2 & co2 & l2' & co2' & A1 & A2 & A3 & _ & _ & A4 & A5 & _ & _ & Hf2 & Hs2)];
  destruct B as [(B1 & B2 & _)|(s1 & l1 & co1 & l1' & co1' & B1 & B2 & B3 & _ & _ & B4 & B5 & _ & _ & Hf1 & Hs1)].
  - destruct b1, b2; cbn [Bool.eqb negb andb]; rewrite ?A1, ?A2, ?B1, ?B2, ?Off; cbn [rbind]; apply Fail.
  - pose proof (swap_real tr2 s1 D l1 co1 ltac:(rewrite Hf1; by symmetry) F2 D2 Hs1 HD' B3) as Q1. rewrite B5 in Q1. injection Q1 as -> ->.
    destruct b1, b2; cbn [Bool.eqb negb andb]; rewrite ?A1, ?A2, ?B2, ?B4, ?Off; cbn [rbind]; rewrite ?A1, ?A2, ?B2, ?B4, ?Off; cbn [rbind]; try apply Fail.
    intros E. injection E as E. f_equal. pose proof (choose_swap 0 XCorr_Model.NotANumber (- l1) co1 v cx ly ltac:(done) E) as K.
    rewrite Ropp_involutive in K. rewrite <- K. reflexivity.
  - pose proof (swap_real tr1 s2 D l2 co2 ltac:(by rewrite Hf2) F1 D1 Hs2 HD' A3) as Q1. rewrite A5 in Q1. injection Q1 as -> ->.
    destruct b1, b2; cbn [Bool.eqb negb andb]; rewrite ?B1, ?B2, ?A2, ?A4, ?Off; cbn [rbind]; rewrite ?B1, ?B2, ?A2, ?A4, ?Off; cbn [rbind]; try apply Fail.
    intros E. injection E as E. f_equal. pose proof (choose_swap l2 co2 0 XCorr_Model.NotANumber v cx ly ltac:(done) E) as K.
    rewrite <- K. reflexivity.
  - pose proof (swap_real tr2 s1 D l1 co1 ltac:(rewrite Hf1; by symmetry) F2 D2 Hs1 HD' B3) as Q1. rewrite B5 in Q1. injection Q1 as -> ->.
    pose proof (swap_real tr1 s2 D l2 co2 ltac:(by rewrite Hf2) F1 D1 Hs2 HD' A3) as Q2. rewrite A5 in Q2. injection Q2 as -> ->.
    destruct b1, b2; cbn [Bool.eqb negb andb]; rewrite ?A2, ?A4, ?B2, ?B4, ?Off; cbn [rbind]; rewrite ?A2, ?A4, ?B2, ?B4, ?Off; cbn [rbind]; intros E; injection E as E; f_equal.
    + rewrite <- (Ropp_involutive l1). apply choose_swap; [|done]. intros c1 c2 -> -> Hab. eapply (Hties x); [by apply Hman|exact T1|exact T2|by eapply Ag|by eapply Fi|done].
    + pose proof (choose_swap 0 XCorr_Model.NotANumber (- l1) co1 v cx ly ltac:(done) E) as K. rewrite Ropp_involutive in K. rewrite <- K. reflexivity.
    + pose proof (choose_swap l2 co2 0 XCorr_Model.NotANumber v cx ly ltac:(done) E) as K. rewrite <- K. reflexivity.
    + rewrite <- (Ropp_involutive l1). apply choose_swap; [|done]. intros c1 c2 -> -> Hab. eapply (Hties x); [by apply Hman|exact T1|exact T2|by eapply Ag|by eapply Fi|done].
Qed.
(** C72: with the events exchanged the measurement has the same validity and coefficient and
    the opposite lag, so that it does not matter which of the two events is the reference. *)
Theorem C72_exchange ld1 ld2 e1 p1 e2 p2 po v x y :
  good ld1 → good ld2 → opt_of opt p1 = Ok po → opt_of opt p2 = Ok po → p_staid p1 = p_staid p2 → components opt p1 = components opt p2 →
  (0 <= maxDelay (po_win po))%Q → no_ties ld1 ld2 e1 p1 e2 p2 (Q2R (maxDelay (po_win po))) →
  xcorr_phases opt bg ld1 ld2 e1 p1 e2 p2 = Ok (v, x, y) →
  xcorr_phases opt bg ld2 ld1 e2 p2 e1 p1 = Ok (v, x, dneg y).
Proof.
  intros G1 G2 Ho1 Ho2 Hsta Hc HD Ht. unfold xcorr_phases. case_decide as Et; [|rewrite decide_False by done; by intros [= <- <- <-]].
  rewrite (decide_True _ _ (eq_sym Et)). case_decide as Eb; [|rewrite decide_False by done; by intros [= <- <- <-]]. rewrite (decide_True _ _ (eq_sym Eb)).
  rewrite <- Hc. destruct (components opt p1) as [comps| |]; cbn [rbind]; [|done|done]. clear Hc.
  assert (∀ o : outcome, try_components (one_component opt bg ld1 ld2 e1 p1 e2 p2) comps o = Ok (v, x, y) →
    try_components (one_component opt bg ld2 ld1 e2 p2 e1 p1) comps (o.1, dneg o.2) = Ok (v, x, dneg y)) as Main.
  { induction comps as [|q comps IH]; intros o E; cbn [try_components] in *; [injection E as ->; done|].
    destruct (one_component opt bg ld1 ld2 e1 p1 e2 p2 q) as [[[v' x'] y']| |] eqn:Eq; cbn [rbind] in E; [|done|done].
    rewrite (component_swap _ _ _ _ _ _ _ _ _ _ _ G1 G2 Ho1 Ho2 Hsta HD Ht Eq). cbn [rbind fst snd] in *.
    destruct v'; [by injection E as <- <- <-|]. by apply IH in E. }
  intros E. by apply Main in E.
Qed.
End measure.
