(** C66: the changes of the events that Solver::solve reports, in terms of the calls made *)
From Coq Require Import Reals Lra Lia Ascii.
From stdpp Require Import numbers list gmap countable strings.
From Verif Require Import Time_Model LinAlg Lsq_Model DDSystem_Model DDSystem_Props Solver_Model Solver_Hist Solver_Prep Solver_Sys Solver_Props Solver_Entry SolveSys_Model SolveSys_Props.
Local Open Scope R_scope.

(** No observation is of an event with itself *)
Definition no_self (h : list (@op R)) : Prop := ∀ e1 e2 sta ph a, first_obs h (e1, e2, sta, ph) = Some a → e1 ≠ e2.
(** The change of an event: three coordinates and the origin time *)
Definition shift (p : @oprm R) (M : nat → R) (x : nat) : R :=
  partials p 0 * M (x * 4)%nat + partials p 1 * M (x * 4 + 1)%nat + partials p 2 * M (x * 4 + 2)%nat + partials p 3 * M (x * 4 + 3)%nat.
(** M holds the changes reported for the events *)
Definition reported (s0 s3 : @solver R) (M : nat → R) : Prop :=
  ∀ e x vx vy vz vt, ev_index s0 e = Some x → get_event_changes s3 e = Some (vx, vy, vz, vt) →
    M (x * 4)%nat = vx ∧ M (x * 4 + 1)%nat = vy ∧ M (x * 4 + 2)%nat = vz ∧ M (x * 4 + 3)%nat = vt.
Definition rsolve (k : method) jinv jdiv jsqrt iters damp nG (S : dds R) : option (list R) :=
  match solve_system jinv jdiv jsqrt k iters damp nG S with Some (_, _, r) => r | None => None end.

Lemma four_columns (f : nat → R) (M : nat → R) (x n : nat) : (x < n)%nat →
  rsum (n * 4) (λ col, (if decide (x = col / 4)%nat then f (col mod 4)%nat else 0) * M col) =
  f 0%nat * M (x * 4)%nat + f 1%nat * M (x * 4 + 1)%nat + f 2%nat * M (x * 4 + 2)%nat + f 3%nat * M (x * 4 + 3)%nat.
Proof.
  assert (Hq : ∀ n k, (k < 4)%nat → ((n * 4 + k) / 4 = n)%nat) by (intros m k Hk; rewrite Nat.div_add_l by lia; rewrite Nat.div_small by lia; lia).
  assert (Hm : ∀ n k, (k < 4)%nat → ((n * 4 + k) mod 4 = k)%nat) by (intros m k Hk; rewrite Nat.add_comm, Nat.mod_add by lia; by apply Nat.mod_small).
  assert (Hs : ∀ n (g : nat → R), rsum (S n * 4) g = rsum (n * 4) g + (g (n * 4 + 0)%nat + g (n * 4 + 1)%nat + g (n * 4 + 2)%nat + g (n * 4 + 3)%nat)).
  { intros m g. replace (S m * 4)%nat with (S (S (S (S (m * 4))))) by lia. cbn [rsum]. replace (m * 4 + 0)%nat with (m * 4)%nat by lia. replace (S (m * 4)) with (m * 4 + 1)%nat by lia.
    replace (S (m * 4 + 1)) with (m * 4 + 2)%nat by lia. replace (S (m * 4 + 2)) with (m * 4 + 3)%nat by lia. ring. }
  assert (Hlow : ∀ n, (n <= x)%nat → rsum (n * 4) (λ col, (if decide (x = col / 4)%nat then f (col mod 4)%nat else 0) * M col) = 0).
  { intros m Hle. apply rsum_zero. intros col Hc. rewrite decide_False; [ring|]. intros ->. assert (col / 4 < m)%nat by (apply Nat.div_lt_upper_bound; lia). lia. }
  induction n as [|n IH]; intros Hx; [lia|]. rewrite Hs. rewrite !Hq, !Hm by lia. destruct (decide (x = n)) as [->|Hne].
  - rewrite Hlow by lia. replace (n * 4 + 0)%nat with (n * 4)%nat by lia. ring.
  - rewrite IH by lia. ring.
Qed.

Section events.
Variables (h : list (@op R)) (tt : option R) (rw : option (list R → res (list R))) (pl : list (N * N * @oprm R)) (ol : list (N * @obsv R)) (s' : @solver R).
Hypothesis Hok : hist_ok h.
Hypothesis Hpl : prm_order (run 0 h) pl.
Hypothesis Hol : obs_order (run 0 h) ol.
Hypothesis Hrw : rw_ok rw.
Hypothesis HP : Rprep tt rw pl ol (run 0 h) = Ok s'.
Notation S := (s_sys s').

Lemma is_complete : complete h.
Proof using Hok Hpl Hol Hrw HP.
  destruct (prepared 0 1 Rplus Rminus Rmult r_is0 (λ a n, a / INR n) h tt rw pl ol s' Hok Hpl Hol Hrw HP) as (le & lp & lo & rws & G & I & Len & Hhas & _).
  apply (has_params_complete _ _ _ _ _ I (proj1 Hok)); done.
Qed.
Lemma same_event e1 e2 x : ev_index (run 0 h) e1 = Some x → ev_index (run 0 h) e2 = Some x → e1 = e2.
Proof using Hok Hpl Hol Hrw HP.
  destruct (prepared 0 1 Rplus Rminus Rmult r_is0 (λ a n, a / INR n) h tt rw pl ol s' Hok Hpl Hol Hrw HP) as (le & lp & lo & rws & G & I & _).
  intros H1 H2. apply (ev_index_le _ _ _ _ _ I) in H1. apply (ev_index_le _ _ _ _ _ I) in H2. congruence.
Qed.
(** Rows beyond the observations: for one event, which has an observation; or of weight zero *)
Lemma other_rows ob : (nObs S <= ob)%nat → (ob < rows S)%nat →
  (∃ x, aEv1 S !! ob = Some (Some x) ∧ aEv2 S !! ob = Some None ∧ constrained r_is0 S x) ∨ (aEv1 S !! ob = Some None ∧ aEv2 S !! ob = Some None ∧ aW S !! ob = Some 0).
Proof using Hok Hpl Hol Hrw HP.
  intros Hlo Hhi. unfold rows in Hhi. destruct (C37_rows 0 1 Rplus Rminus Rmult r_is0 (λ a n, a / INR n) h tt rw pl ol Hok Hpl Hol Hrw is_complete) as (s'' & HP' & Hwf & H0 & _).
  assert (s'' = s') as -> by (unfold Rprep in HP; congruence). destruct tt as [c|] eqn:Ett; [|rewrite H0 in Hhi by done; lia].
  destruct (C37_constraints 0 1 Rplus Rminus Rmult r_is0 (λ a n, a / INR n) h c rw pl ol s' Hok Hpl Hol Hrw HP) as (qs & _ & _ & Hq & Hrow & Hblank). cbn zeta in *.
  replace ob with (nObs S + (ob - nObs S))%nat by lia. set (j := (ob - nObs S)%nat). destruct (decide (j < length qs)%nat) as [Hj|Hj].
  - destruct (lookup_lt_is_Some_2 _ _ Hj) as [[[e sta] ph] Ej]. left.
    destruct (Hrow _ _ _ _ Ej) as (o & x & q & P1 & X1 & Q1 & _ & _ & V1 & V2 & _). exists x. split; [done|]. split; [done|].
    destruct (proj1 (Hq e sta ph)) as (o' & x' & q' & P1' & _ & X1' & Q1' & Hu); [by apply elem_of_list_lookup; exists j|].
    assert (x' = x) as -> by congruence. assert (q' = q) as -> by congruence.
    apply row_uses_nonempty in Hu as (i & w & Hi & W & W0 & _ & He). by exists i, w.
  - right. destruct (Hblank j) as (W & _ & V1 & V2); [unfold j in *; lia|]. done.
Qed.
Lemma used_constrained col : used S col → constrained r_is0 S (col / 4).
Proof using Hok Hpl Hol Hrw HP.
  intros (ob & e & Hob & Hw & -> & He). destruct (decide (ob < nObs S)%nat) as [Hlt|Hge].
  - destruct (aW S !! ob) as [w|] eqn:Ew; [|exfalso; unfold nthR in Hw; rewrite Ew in Hw; done]. unfold nthR in Hw. rewrite Ew in Hw. cbn in Hw. unfold Datatypes.id in Hw.
    exists ob, w. split; [done|]. split; [done|]. split; [|done]. unfold r_is0. by destruct (Req_EM_T w 0).
  - destruct (other_rows ob) as [(x & V1 & V2 & Hc)|(V1 & V2 & _)]; [lia|done| |].
    + destruct He as [He|He]; [|congruence]. assert (x = col / 4)%nat as <- by congruence. done.
    + destruct He; congruence.
Qed.
Lemma are_distinct : no_self h → distinct S.
Proof using Hok Hpl Hol Hrw HP.
  intros Hns ob e V1 V2. destruct (C37_rows 0 1 Rplus Rminus Rmult r_is0 (λ a n, a / INR n) h tt rw pl ol Hok Hpl Hol Hrw is_complete) as (s'' & HP' & Hwf & H0 & _ & R2 & _ & R4).
  assert (s'' = s') as -> by (unfold Rprep in HP; congruence). cbn zeta in *.
  assert (ob < rows S)%nat as Hob by (rewrite <- (wf_1 _ Hwf); apply lookup_lt_is_Some_1; by eexists).
  destruct (decide (ob < nObs S)%nat) as [Hlt|Hge].
  - exfalso. destruct (R2 ob Hlt) as ([[[e1 e2] sta] ph] & [[[td w0] xu] xc] & Hf & Hoi). destruct (is_complete _ _ _ _ _ Hf) as [[p1 P1] [p2 P2]].
    destruct (R4 _ _ _ _ _ _ _ _ _ _ _ Hf P1 P2 Hoi) as (x1 & x2 & q & fw & X1 & X2 & _ & _ & _ & U1 & U2 & _).
    rewrite V1 in U1. rewrite V2 in U2. destruct (op_ch p1), (op_ch p2); try done. injection U1 as <-. injection U2 as <-. by apply (Hns _ _ _ _ _ Hf), (same_event e1 e2 e).
  - destruct (other_rows ob) as [(x & W1 & W2 & Hc)|(W1 & W2 & _)]; [lia|done|congruence|congruence].
Qed.

(** The residual of the row of an observation: the double difference less the changes of the
    travel time of its two events *)
Theorem C66_residual M e1 e2 sta ph td w xu xc p1 p2 i x1 x2 : first_obs h (e1, e2, sta, ph) = Some (td, w, xu, xc) →
  first_prm h (e1, sta, ph) = Some p1 → first_prm h (e2, sta, ph) = Some p2 → obs_index (run 0 h) (e1, e2, sta, ph) = Some i → ev_index (run 0 h) e1 = Some x1 → ev_index (run 0 h) e2 = Some x2 →
  residual S M i = (td - (op_tt p1 - op_tt p2)) - (shift p1 M x1 - shift p2 M x2).
Proof using Hok Hpl Hol Hrw HP.
  intros Hf P1 P2 Hi X1 X2. destruct (C37_rows 0 1 Rplus Rminus Rmult r_is0 (λ a n, a / INR n) h tt rw pl ol Hok Hpl Hol Hrw is_complete) as (s'' & HP' & Hwf & H0 & _ & R2 & _ & R4).
  assert (s'' = s') as -> by (unfold Rprep in HP; congruence). cbn zeta in *.
  destruct (R4 _ _ _ _ _ _ _ _ _ _ _ Hf P1 P2 Hi) as (y1 & y2 & q & fw & Y1 & Y2 & Q & _ & _ & V1 & V2 & Vp & VD & G1 & G2).
  assert (y1 = x1) as -> by congruence. assert (y2 = x2) as -> by congruence.
  unfold residual. unfold nthR at 1. rewrite VD. cbn [default from_option]. unfold Datatypes.id at 1. f_equal.
  assert (Hside : ∀ ev x p, (∀ e, ev !! i = Some (Some e) → (e < nEvts S)%nat) → ev !! i = Some (if op_ch p then Some x else None) → aG S !! (x * nPhStas S + q)%nat = Some [op_dx p; op_dy p; op_dz p; 1] →
    rsum (cols S) (λ col, side S ev i col * M col) = shift p M x).
  { intros ev x p Hr Hev HG. unfold side. rewrite Hev in *. destruct (op_ch p) eqn:Ep.
    - specialize (Hr x eq_refl).
      rewrite (rsum_ext _ _ (λ col, (if decide (x = col / 4)%nat then (λ k, partials p k) (col mod 4)%nat else 0) * M col)).
      + unfold cols. by rewrite (four_columns (λ k, partials p k) M x (nEvts S) Hr).
      + intros col Hc. f_equal. destruct (decide _); [|done]. unfold deriv, partials. rewrite Vp, Ep. cbn [default from_option]. unfold Datatypes.id. rewrite HG. unfold nthR.
        assert (col mod 4 < 4)%nat as H4 by (apply Nat.mod_upper_bound; lia). destruct (col mod 4)%nat as [|[|[|[|]]]]; [done..|lia].
    - rewrite rsum_zero by (intros; ring). unfold shift, partials. rewrite Ep. ring. }
  rewrite <- (Hside _ _ _ (λ e, wf_e1 _ Hwf i e) V1 G1), <- (Hside _ _ _ (λ e, wf_e2 _ Hwf i e) V2 G2).
  assert (Hm : ∀ n f g, rsum n (λ j, f j - g j) = rsum n f - rsum n g) by (intros n f g; induction n as [|n IH]; cbn; [lra|rewrite IH; lra]).
  rewrite <- Hm. apply rsum_ext. intros; ring.
Qed.

(** The changes reported by the solver, whatever M says of the other events *)
Theorem C66_events k jinv jdiv jsqrt iters damp nG el dl : no_self h → 0 <= damp →
  (nG = true → ∀ col, (col < cols S)%nat → used S col → ∃ ob, (ob < rows S)%nat ∧ entry0 S ob col ≠ 0) →
  el ≡ₚ map_to_list (s_stat s') → (∀ d, dl d ≡ₚ map_to_list d) →
  ∃ itn why r, solve_system jinv jdiv jsqrt k iters damp nG S = Some (itn, why, r) ∧ (itn <= max 1 (limit iters S))%nat ∧
  match solve 0 (λ _, true) (rsolve k jinv jdiv jsqrt iters damp nG) el dl s' with
  | Bad => False
  | Exc => s_obs s' = ∅ ∨ why = match k with LSQR => 4%nat | LSMR => 3%nat end ∨ ∀ e x, ev_index (run 0 h) e = Some x → ¬ constrained r_is0 S x
  | Ok s3 => (∃ e v, get_event_changes s3 e = Some v) ∧ (∀ e x, ev_index (run 0 h) e = Some x → is_Some (get_event_changes s3 e) ↔ constrained r_is0 S x) ∧
      ∀ M, reported (run 0 h) s3 M → good_step k nG damp (limit iters S) itn why S M
  end.
Proof using Hok Hpl Hol Hrw HP.
  intros Hns Hdamp Hnz Hel Hdl. destruct (C37_rows 0 1 Rplus Rminus Rmult r_is0 (λ a n, a / INR n) h tt rw pl ol Hok Hpl Hol Hrw is_complete) as (s'' & HP' & Hwf & H0 & _ & R2 & _ & R4).
  assert (s'' = s') as -> by (unfold Rprep in HP; congruence). cbn zeta in *.
  destruct (C66_step jinv jdiv jsqrt k iters damp nG S Hwf (are_distinct Hns) Hdamp Hnz) as (itn & why & r & HS & Hit & Hr).
  exists itn, why, r. split; [done|]. split; [done|].
  assert (Hlsq : rsolve k jinv jdiv jsqrt iters damp nG S = r) by (unfold rsolve; by rewrite HS).
  pose proof (C40_solve 0 1 Rplus Rminus Rmult r_is0 (λ a n, a / INR n) (λ _, true) h tt rw pl ol s' (rsolve k jinv jdiv jsqrt iters damp nG) el dl Hok Hpl Hol Hrw HP) as HC.
  rewrite Hlsq in HC. specialize (HC ltac:(intros m ->; apply Hr) Hel Hdl).
  assert (Hsol : ∀ m x, length m = cols S → (x < nEvts S)%nat → ∃ v, solution (λ _, true) m x v ∧ v = (nthR m (x * 4), nthR m (x * 4 + 1), nthR m (x * 4 + 2), nthR m (x * 4 + 3))).
  { intros m x Hm Hx. unfold cols in Hm. eexists. split; [|done]. unfold solution, nthR.
    destruct (lookup_lt_is_Some_2 m (x * 4)%nat) as [v0 E0]; [lia|]. destruct (lookup_lt_is_Some_2 m (x * 4 + 1)%nat) as [v1 E1]; [lia|].
    destruct (lookup_lt_is_Some_2 m (x * 4 + 2)%nat) as [v2 E2]; [lia|]. destruct (lookup_lt_is_Some_2 m (x * 4 + 3)%nat) as [v3 E3]; [lia|]. rewrite E0, E1, E2, E3. done. }
  assert (Hcon : ∀ x, constrained r_is0 S x → (x < nEvts S)%nat).
  { intros x (i & w & _ & _ & _ & [He|He]); [by apply (wf_e1 _ Hwf i)|by apply (wf_e2 _ Hwf i)]. }
  destruct (solve _ _ _ _ _ _) as [s3| |] eqn:Es; [|destruct HC as [HC|[HC|(m & HC & Hno)]]|done].
  - destruct HC as (m & -> & Hex & Hch). destruct Hr as [Hm Hgood]. split; [done|]. split.
    + intros e x Hx. split.
      * intros [v Hv]. apply Hch in Hv as (x' & Hx' & Hc & _). assert (x' = x) as -> by congruence. done.
      * intros Hc. destruct (Hsol m x Hm (Hcon x Hc)) as (v & Hv & _). exists v. apply Hch. by exists x.
    + intros M HM. apply Hgood. intros col Hc Hu. pose proof (used_constrained col Hu) as Hcc.
      assert (∃ e, ev_index (run 0 h) e = Some (col / 4)%nat) as [e He].
      { destruct Hcc as (i & w & Hi & _ & _ & He). destruct (R2 i Hi) as ([[[e1 e2] sta] ph] & [[[td w0] xu] xc] & Hf & Hoi). destruct (is_complete _ _ _ _ _ Hf) as [[p1 P1] [p2 P2]].
        destruct (R4 _ _ _ _ _ _ _ _ _ _ _ Hf P1 P2 Hoi) as (x1 & x2 & q & fw & X1 & X2 & _ & _ & _ & U1 & U2 & _).
        destruct He as [He|He]; [exists e1; rewrite U1 in He; destruct (op_ch p1)|exists e2; rewrite U2 in He; destruct (op_ch p2)]; congruence. }
      destruct (Hsol m (col / 4)%nat Hm (Hcon _ Hcc)) as (v & Hv & Ev).
      assert (get_event_changes s3 e = Some v) as Hg by (apply Hch; by exists (col / 4)%nat). rewrite Ev in Hg.
      destruct (HM _ _ _ _ _ _ He Hg) as (M0 & M1 & M2 & M3).
      assert (col mod 4 < 4)%nat as H4 by (apply Nat.mod_upper_bound; lia). pose proof (Nat.div_mod col 4 ltac:(lia)) as Hdm.
      replace col with (col / 4 * 4 + col mod 4)%nat by lia.
      destruct (col mod 4)%nat as [|[|[|[|]]]]; [rewrite Nat.add_0_r; done|done|done|done|lia].
  - by left.
  - right; left. rewrite HC in Hr. done.
  - right; right. rewrite HC in Hr. intros e x Hx Hc. destruct (Hsol m x (proj1 Hr) (Hcon x Hc)) as (v & Hv & _). by apply (Hno e x v Hx Hc).
Qed.
End events.
Print Assumptions C66_events.
Print Assumptions C66_residual.

(** ** A concrete case *)
(** The orders of the maps exist *)
Lemma prm_order_exists (s : @solver R) : ∃ pl, prm_order s pl.
Proof.
  exists (map_to_list (s_prm s) ≫= λ em, (λ po, (em.1, po.1, po.2)) <$> map_to_list em.2). split.
  - pose proof (NoDup_fst_map_to_list (s_prm s)) as Hn. induction (map_to_list (s_prm s)) as [|[e m] l IH]; [apply NoDup_nil_2|].
    change ((e, m) :: l) with ([(e, m)] ++ l). rewrite bind_app, fmap_app. apply NoDup_app. inversion Hn as [|? ? Hni Hnd]; subst. split; [|split].
    + cbn. rewrite app_nil_r. pose proof (NoDup_fst_map_to_list m) as Hm.
      assert (∀ k : list (N * @oprm R), ((λ po, (e, po.1, po.2)) <$> k).*1 = (λ p, (e, p)) <$> k.*1) as -> by (intros k; induction k as [|[p o] k IHk]; [done|]; cbn; by f_equal).
      apply NoDup_fmap_2; [intros ? ? [=]; done|done].
    + intros [e' p] H1 H2. cbn in H1. rewrite app_nil_r in H1. apply elem_of_list_fmap in H1 as ([[e1 p1] o1] & [= -> ->] & H1). apply elem_of_list_fmap in H1 as ([p2 o2] & [= -> -> ->] & _).
      apply elem_of_list_fmap in H2 as ([[e3 p3] o3] & [= <- <-] & H2). apply elem_of_list_bind in H2 as ([e4 m4] & H2 & H4). apply elem_of_list_fmap in H2 as ([p5 o5] & [= -> -> ->] & _).
      apply Hni. apply elem_of_list_fmap. by exists (e4, m4).
    + by apply IH.
  - intros e p o. rewrite elem_of_list_bind. unfold get_prm. split.
    + intros ([e' m] & H1 & H2). apply elem_of_list_fmap in H1 as ([p' o'] & [= -> -> ->] & H1). apply elem_of_map_to_list in H1, H2. cbn in *. by rewrite H2.
    + destruct (s_prm s !! e) as [m|] eqn:E; [|done]. cbn. intros Hp. exists (e, m). split; [|by apply elem_of_map_to_list]. apply elem_of_list_fmap. exists (p, o). split; [done|]. by apply elem_of_map_to_list.
Qed.

(** One observation of two events; its travel times are 10 and 20, the observed difference -7 *)
Definition ex_hr : list (@op R) :=
  [AddPrm 1 sA pP (Oprm true 10 1 2 3 4); AddPrm 2 sA pP (Oprm true 20 2 5 6 7); AddObs 1 2 sA pP (-7) 6 false 0].
Example ex_events_hyps : ∃ pl ol s', hist_ok ex_hr ∧ prm_order (run 0 ex_hr) pl ∧ obs_order (run 0 ex_hr) ol ∧ rw_ok (D := R) None ∧ Rprep None None pl ol (run 0 ex_hr) = Ok s' ∧ no_self ex_hr ∧
  (∀ col, (col < cols (s_sys s'))%nat → used (s_sys s') col → ∃ ob, (ob < rows (s_sys s'))%nat ∧ entry0 (s_sys s') ob col ≠ 0) ∧ used (s_sys s') 3.
Proof.
  destruct (prm_order_exists (run 0 ex_hr)) as [pl Hpl]. exists pl, (map_to_list (s_obs (run 0 ex_hr))).
  assert (Hol : obs_order (run 0 ex_hr) (map_to_list (s_obs (run 0 ex_hr)))) by (unfold obs_order; reflexivity).
  assert (Hok : hist_ok ex_hr). { split; [|done]. repeat (apply Forall_cons_2; [cbn; set_solver|]). apply Forall_nil_2. }
  assert (Hf : ∀ k a, first_obs ex_hr k = Some a → k = (1%N, 2%N, sA, pP) ∧ a = (-7, 6, false, 0)).
  { intros k a Ha. unfold first_obs in Ha. cbn [first_of obs_of ex_hr] in Ha. destruct (decide _) as [<-|]; [|done]. by injection Ha as <-. }
  assert (Hc : complete ex_hr). { intros e1 e2 sta ph a Ha. apply Hf in Ha as [[= -> -> -> ->] _]. split; by eexists. }
  assert (Hrw : rw_ok (D := R) None) by done.
  destruct (C37_entry ex_hr None None pl _ Hok Hpl Hol Hrw Hc) as (s' & HP & Hent). exists s'.
  destruct (C37_rows 0 1 Rplus Rminus Rmult r_is0 (λ a n, a / INR n) ex_hr None None pl _ Hok Hpl Hol Hrw Hc) as (s'' & HP' & Hwf & Htt & R1 & R2 & _ & R4).
  assert (s'' = s') as -> by (unfold Rprep in HP; congruence). cbn zeta in *. specialize (Htt eq_refl).
  destruct (R1 (1%N, 2%N, sA, pP) (-7, 6, false, 0) eq_refl) as (i & Hi & Hlt).
  destruct (R4 1%N 2%N sA pP (-7) 6 false 0 (Oprm true 10 1 2 3 4) (Oprm true 20 2 5 6 7) _ eq_refl eq_refl eq_refl Hi) as (x1 & x2 & q & fw & X1 & X2 & _ & Hfw & W & V1 & V2 & _).
  vm_compute in X1. vm_compute in X2. injection X1 as <-. injection X2 as <-. cbn in V1, V2.
  assert (fw = 6) as -> by (by inversion Hfw).
  specialize (Hent 1%N 2%N sA pP _ (Oprm true 10 1 2 3 4) (Oprm true 20 2 5 6 7) i 0%nat 1%nat 6 eq_refl eq_refl eq_refl Hi eq_refl eq_refl W).
  split; [done|]. split; [done|]. split; [done|]. split; [done|]. split; [done|]. split; [|split].
  - intros e1 e2 sta ph a Ha. apply Hf in Ha as [[= -> -> -> ->] _]. done.
  - intros col Hcol (ob & e & Hob & _ & -> & He). exists i. split; [unfold rows; lia|].
    assert (ob = i) as ->.
    { unfold rows in Hob. rewrite Htt, Nat.add_0_r in Hob. destruct (R2 ob Hob) as (k & a & Hk & Hki). apply Hf in Hk as [-> _]. congruence. }
    assert (col mod 4 < 4)%nat as H4 by (apply Nat.mod_upper_bound; lia). pose proof (Nat.div_mod col 4 ltac:(lia)) as Hdm.
    rewrite V1, V2 in He. replace col with (col / 4 * 4 + col mod 4)%nat by lia. rewrite Hent by done.
    assert (col / 4 = 0 ∨ col / 4 = 1)%nat as Hq by (destruct He; [left|right]; congruence). clear -Hq H4.
    destruct (col mod 4)%nat as [|[|[|[|n]]]]; [..|exfalso; lia]; destruct Hq as [-> | ->]; repeat (case_decide; try lia); unfold partials; cbn [op_ch op_dx op_dy op_dz]; lra.
  - exists i, 0%nat. split; [unfold rows; lia|]. split; [unfold nthR; rewrite W; cbn; unfold Datatypes.id; lra|]. split; [done|]. by left.
Qed.
