(** Cross-correlation windows (C63) and windows to load (C47). *)
From Coq Require Import ZArith QArith Qround Lqa Qfield.
From stdpp Require Import numbers.
From Verif Require Import TimeWindow_Model Trace_Model Trace_Props Time_Model Time_Proofs Time_Props XcorrWindow_Model.
Local Open Scope Q_scope.

(** The window contains a point, another window. *)
Definition has (w : tw) (t : Z) : Prop := (w_start w <= t <= w_end w)%Z.
Definition inside (v w : tw) : Prop := (w_start w <= w_start v /\ w_end v <= w_end w)%Z.

Lemma qtrunc_nonneg x : 0 <= x -> (0 <= qtrunc x)%Z /\ qtrunc x = Qfloor x.
Proof.
  intros H. unfold qtrunc. assert (Qle_bool 0 x = true) as -> by by apply Qle_bool_iff. split; [|done].
  change 0%Z with (Qfloor 0). by apply Qfloor_resp_le.
Qed.
Lemma qtrunc_opp x : qtrunc (- x) = (- qtrunc x)%Z.
Proof.
  unfold qtrunc. destruct (Qle_bool 0 x) eqn:Ex; destruct (Qle_bool 0 (- x)) eqn:Ey.
  - apply Qle_bool_iff in Ex, Ey. assert (x == 0) as E by lra.
    assert (Qfloor (- x) = 0)%Z as -> by (transitivity (Qfloor 0); [apply Qfloor_comp; lra|reflexivity]).
    assert (Qfloor x = 0)%Z as -> by (transitivity (Qfloor 0); [apply Qfloor_comp; lra|reflexivity]). done.
  - unfold Qceiling. f_equal. apply Qfloor_comp. ring.
  - unfold Qceiling. rewrite Z.opp_involutive. apply Qfloor_comp. ring.
  - exfalso. assert (x < 0) as Hx by (destruct (Qlt_le_dec x 0) as [|K]; [done|apply Qle_bool_iff in K; congruence]).
    assert (0 <= - x) as K by lra. apply Qle_bool_iff in K. congruence.
Qed.
Lemma secToDur_nonneg x : 0 <= x -> (0 <= secToDur x)%Z.
Proof. intros H. unfold secToDur. apply qround_ge. apply Qmult_le_0_compat; [done|discriminate]. Qed.
Lemma secToDur_mono x y : x <= y -> (secToDur x <= secToDur y)%Z.
Proof. intros H. unfold secToDur. apply qround_mono. apply Qmult_le_compat_r; [done|discriminate]. Qed.
Lemma qround_comp x y : x == y -> qround x = qround y.
Proof. intros H. apply Z.le_antisymm; apply qround_mono; lra. Qed.
Lemma secToDur_opp x : secToDur (- x) = (- secToDur x)%Z.
Proof. unfold secToDur. rewrite <- qround_opp. apply qround_comp. ring. Qed.

(** C63: the long window is the short one extended by the maximum delay on both sides. *)
Theorem C63_long cfg et pt w : 0 <= maxDelay cfg -> window_short cfg et pt = Some w ->
  window_long cfg et pt = Some (Tw (w_start w - secToDur (maxDelay cfg)) (w_end w + secToDur (maxDelay cfg))) /\
  (w_start w <= w_end w)%Z /\ (0 <= secToDur (maxDelay cfg))%Z.
Proof.
  intros Hm E. unfold window_long. rewrite E. cbn [mbind option_bind]. pose proof (secToDur_nonneg _ Hm) as Hd. set (d := secToDur (maxDelay cfg)) in *.
  assert (w_start w <= w_end w)%Z as Hw.
  { unfold window_short in E. case_decide; [done|]. injection E as <-. unfold mk_tw_len, mk_tw, set_end. cbn [w_start w_end]. destruct (_ <? _)%Z eqn:L; [lia|]. apply Z.ltb_ge in L. lia. }
  split; [|done]. unfold set_start, set_end. cbn [w_start w_end].
  replace (w_end w <? w_start w - d)%Z with false by (symmetry; apply Z.ltb_ge; lia).
  replace (w_end w + d <? w_start w - d)%Z with false by (symmetry; apply Z.ltb_ge; lia). done.
Qed.
(** C63: hence the long window contains the short one. *)
Corollary C63_long_contains cfg et pt w : 0 <= maxDelay cfg -> window_short cfg et pt = Some w ->
  exists w', window_long cfg et pt = Some w' /\ inside w w'.
Proof. intros Hm E. destruct (C63_long _ _ _ _ Hm E) as (EL & Hw & Hd). eexists. split; [exact EL|]. unfold inside. cbn [w_start w_end]. lia. Qed.
(** C63: the short window has the configured length, stretched in proportion to the travel
    time, and contains the pick when the offsets are on both sides of it. *)
Theorem C63_pick cfg et pt :
  startOffset cfg <= 0 -> 0 <= endOffset cfg -> 0 <= winScaling cfg -> (et <= pt)%Z ->
  secToDur (endOffset cfg - startOffset cfg) <> 0%Z ->
  exists w, window_short cfg et pt = Some w /\ has w pt /\
    inject_Z (w_length w) <= inject_Z (secToDur (endOffset cfg - startOffset cfg)) + inject_Z (pt - et) * winScaling cfg < inject_Z (w_length w) + 1.
Proof.
  intros Hs He Hsc Ht Hn. unfold window_short. rewrite decide_False by done. eexists. split; [reflexivity|].
  set (len := secToDur (endOffset cfg - startOffset cfg)) in *. set (ext := inject_Z (pt - et) * winScaling cfg).
  assert (0 <= len)%Z as Hlen by (apply secToDur_nonneg; lra).
  assert (0 <= ext) as Hext. { unfold ext. apply Qmult_le_0_compat; [change 0 with (inject_Z 0); rewrite <- Zle_Qle; lia|done]. }
  assert (0 < inject_Z len) as Hl by (change 0 with (inject_Z 0); rewrite <- Zlt_Qlt; lia).
  set (sc := (inject_Z len + ext) / inject_Z len). assert (0 <= sc) as Hsc0 by (apply Qle_shift_div_l; lra).
  assert (0 <= inject_Z len + ext) as Htot by lra.
  destruct (qtrunc_nonneg _ Htot) as [Q1 Q2]. set (so := secToDur (startOffset cfg)).
  assert (0 <= - so)%Z as Hso. { unfold so. rewrite <- secToDur_opp. apply secToDur_nonneg. lra. }
  assert (- so <= len)%Z as Hsl. { unfold so, len. rewrite <- secToDur_opp. apply secToDur_mono. lra. }
  assert (qtrunc (inject_Z so * sc) = - qtrunc (inject_Z (- so) * sc))%Z as E1.
  { rewrite <- qtrunc_opp. unfold qtrunc. assert (- (inject_Z (- so) * sc) == inject_Z so * sc) as EE by (rewrite inject_Z_opp; ring).
    destruct (Qle_bool 0 (inject_Z so * sc)) eqn:X; destruct (Qle_bool 0 (- (inject_Z (- so) * sc))) eqn:Y.
    - apply Qfloor_comp. by rewrite EE.
    - exfalso. apply Qle_bool_iff in X. rewrite <- EE in X. apply Qle_bool_iff in X. congruence.
    - exfalso. apply Qle_bool_iff in Y. rewrite EE in Y. apply Qle_bool_iff in Y. congruence.
    - apply Qceiling_comp. by rewrite EE. }
  assert (0 <= inject_Z (- so) * sc) as P1. { apply Qmult_le_0_compat; [change 0 with (inject_Z 0); by rewrite <- Zle_Qle|done]. }
  assert (inject_Z (- so) * sc <= inject_Z len + ext) as P2.
  { setoid_replace (inject_Z len + ext) with (inject_Z len * sc) by (unfold sc; field; lra). apply Qmult_le_compat_r; [by rewrite <- Zle_Qle|done]. }
  destruct (qtrunc_nonneg _ P1) as [R1 R2].
  assert (qtrunc (inject_Z (- so) * sc) <= qtrunc (inject_Z len + ext))%Z as P3. { rewrite R2, Q2. by apply Qfloor_resp_le. }
  unfold mk_tw_len, mk_tw, set_end, has, w_length. cbn [w_start w_end].
  replace (_ <? _)%Z with false by (symmetry; apply Z.ltb_ge; lia). rewrite E1. split; [lia|].
  replace (pt + - qtrunc (inject_Z (- so) * sc) + qtrunc (inject_Z len + ext) - (pt + - qtrunc (inject_Z (- so) * sc)))%Z with (qtrunc (inject_Z len + ext)) by lia.
  rewrite Q2. destruct (floor_spec (inject_Z len + ext)). split; lra.
Qed.
(** Equal offsets divide by zero; NaN or an infinity is converted to an integer. *)
Theorem C63_empty_refuted cfg et pt : startOffset cfg == endOffset cfg -> window_short cfg et pt = None.
Proof.
  intros E. unfold window_short. rewrite decide_True; [done|]. unfold secToDur. change 0%Z with (qround 0). apply qround_comp. rewrite E. ring.
Qed.
Print Assumptions C63_long.
Print Assumptions C63_long_contains.
Print Assumptions C63_pick.
Print Assumptions C63_empty_refuted.
Example window_ex : window_short (XcorrCfg (-(1#2)) (3#4) (1#2) (1#10)) 0 5000000 = Some (Tw 4300000 6050000) /\
  window_long (XcorrCfg (-(1#2)) (3#4) (1#2) (1#10)) 0 5000000 = Some (Tw 3800000 6550000).
Proof. split; vm_compute; reflexivity. Qed.

(** ** C47 *)
Local Open Scope Z_scope.
(** Whole seconds *)
Definition whole (t : Z) : Prop := t mod 1000000 = 0.
Lemma to_date_usec t : 0 <= t -> f_usec (to_date t) = t mod 1000000.
Proof. intros H. unfold to_date. cbn [f_usec]. unfold from_time_t, to_time_t. rewrite Z.quot_div_nonneg by lia. rewrite Zmod_eq_full by lia. lia. Qed.
Lemma timegm_sec y m d h mi s k : timegm y m d h mi (s + k) = timegm y m d h mi s + k.
Proof. unfold timegm. lia. Qed.
Lemma from_date_ok f : timegm (f_year f) (f_mon f) (f_day f) (f_hour f) (f_min f) (f_sec f) <> -1 ->
  from_date f = ROk (from_time_t (timegm (f_year f) (f_mon f) (f_day f) (f_hour f) (f_min f) (f_sec f)) + f_usec f).
Proof. intros H. unfold from_date. destruct (Z.eqb_spec (timegm (f_year f) (f_mon f) (f_day f) (f_hour f) (f_min f) (f_sec f)) (-1)) as [E|E]; [destruct (H E)|]. reflexivity. Qed.
Lemma to_date_timegm t : 0 <= t ->
  timegm (f_year (to_date t)) (f_mon (to_date t)) (f_day (to_date t)) (f_hour (to_date t)) (f_min (to_date t)) (f_sec (to_date t)) = t / 1000000.
Proof.
  intros Ht. pose proof (gmtime_timegm (to_time_t t)) as G. unfold to_date. cbv zeta.
  cbn [f_year f_mon f_day f_hour f_min f_sec]. rewrite G. unfold to_time_t. apply Z.quot_div_nonneg; lia.
Qed.
Lemma from_date_sec t (s : Z) : 0 <= t -> 0 <= s ->
  from_date (Fields (f_year (to_date t)) (f_mon (to_date t)) (f_day (to_date t)) (f_hour (to_date t)) (f_min (to_date t)) (f_sec (to_date t) + s) 0) = ROk (1000000 * (t / 1000000 + s)).
Proof.
  intros Ht Hs. pose proof (to_date_timegm t Ht) as E. generalize dependent (to_date t). intros d E.
  assert (0 <= t / 1000000) by (apply Z.div_pos; lia). revert H E. generalize (t / 1000000). clear t Ht. intros q Hq E.
  rewrite from_date_ok; cbn [f_year f_mon f_day f_hour f_min f_sec f_usec]; rewrite timegm_sec, E; [|lia]. f_equal. unfold from_time_t. lia.
Qed.
(** C47: after 1970 the window to load contains what is needed and the span around the pick,
    begins and ends on whole seconds, and is the smallest such window. *)
Theorem C47_window_to_load_partial before after needed pick :
  let extra := mk_tw 0 (pick - secToDur before) (pick + secToDur after) in
  w_start needed <= w_end needed -> 0 <= w_start needed -> 0 <= w_start extra ->
  exists w, window_to_load before after needed pick = ROk w /\
    inside needed w /\ inside extra w /\ whole (w_start w) /\ whole (w_end w) /\
    (forall v, inside needed v -> inside extra v -> whole (w_start v) -> whole (w_end v) -> inside w v).
Proof.
  intros extra Hn H0 H1. unfold window_to_load. fold extra.
  assert (w_start extra <= w_end extra) as He. { unfold extra, mk_tw, set_end. cbn [w_start w_end]. destruct (_ <? _) eqn:L; [lia|apply Z.ltb_ge in L; lia]. }
  assert (w_merge extra needed = Tw (Z.min (w_start extra) (w_start needed)) (Z.max (w_end extra) (w_end needed))) as ->.
  { unfold w_merge, set_start, set_end. destruct (w_start needed <? w_start extra) eqn:L1; cbn [w_start w_end];
      [apply Z.ltb_lt in L1|apply Z.ltb_ge in L1].
    - replace (w_end extra <? w_start needed) with false by (symmetry; apply Z.ltb_ge; lia). cbn [w_start w_end].
      destruct (w_end extra <? w_end needed) eqn:L2; [apply Z.ltb_lt in L2|apply Z.ltb_ge in L2]; cbn [w_start w_end].
      + replace (w_end needed <? w_start needed) with false by (symmetry; apply Z.ltb_ge; lia). f_equal; lia.
      + f_equal; lia.
    - destruct (w_end extra <? w_end needed) eqn:L2; [apply Z.ltb_lt in L2|apply Z.ltb_ge in L2].
      + replace (w_end needed <? w_start extra) with false by (symmetry; apply Z.ltb_ge; lia). f_equal; lia.
      + destruct extra as [s e]. cbn [w_start w_end] in *. f_equal; lia. }
  set (s := Z.min (w_start extra) (w_start needed)). set (e := Z.max (w_end extra) (w_end needed)). cbn [w_start w_end].
  assert (0 <= s <= e) as Hse by lia.
  pose proof (Z.mod_pos_bound s 1000000 ltac:(lia)) as Ms. pose proof (Z.mod_pos_bound e 1000000 ltac:(lia)) as Me.
  pose proof (Z.div_mod s 1000000 ltac:(lia)) as Ds. pose proof (Z.div_mod e 1000000 ltac:(lia)) as De.
  set (s' := 1000000 * (s / 1000000)). set (e' := if e mod 1000000 =? 0 then e else 1000000 * (e / 1000000 + 1)).
  assert ((if 0 <? f_usec (to_date s)
     then match from_date (Fields (f_year (to_date s)) (f_mon (to_date s)) (f_day (to_date s)) (f_hour (to_date s)) (f_min (to_date s)) (f_sec (to_date s)) 0) with
          | ROk t => ROk (set_start (Tw s e) t) | RThrow => RThrow | RBad => RBad end else ROk (Tw s e)) = ROk (Tw s' e)) as ->.
  { rewrite (to_date_usec s) by lia. destruct (0 <? s mod 1000000) eqn:L.
    - pose proof (from_date_sec s 0 ltac:(lia) ltac:(lia)) as F. rewrite Z.add_0_r in F. rewrite F. rewrite Z.add_0_r. fold s'. unfold set_start. cbn [w_end].
      replace (e <? s') with false by (symmetry; apply Z.ltb_ge; unfold s'; lia). done.
    - apply Z.ltb_ge in L. do 2 f_equal. unfold s'. lia. }
  cbn [w_end]. exists (Tw s' e'). split.
  - rewrite (to_date_usec e) by lia. unfold e'. destruct (Z.eqb_spec (e mod 1000000) 0) as [E|E].
    + rewrite E. reflexivity.
    + replace (0 <? e mod 1000000) with true by (symmetry; apply Z.ltb_lt; lia).
      pose proof (from_date_sec e 1 ltac:(lia) ltac:(lia)) as F. rewrite F. unfold set_end. cbn [w_start].
      replace (1000000 * (e / 1000000 + 1) <? s') with false by (symmetry; apply Z.ltb_ge; unfold s'; lia). done.
  - unfold inside, whole. cbn [w_start w_end]. assert (e <= e') as Ee. { unfold e'. destruct (_ =? _); lia. }
    assert (s' <= s) as Es by (unfold s'; lia). split; [lia|]. split; [lia|]. split; [unfold s'; rewrite Z.mul_comm; apply Z.mod_mul; lia|]. split.
    { unfold e'. destruct (Z.eqb_spec (e mod 1000000) 0) as [E|E]; [done|]. rewrite Z.mul_comm. apply Z.mod_mul. lia. }
    intros v [V1 V2] [V3 V4] Wv We. pose proof (Z.div_mod (w_start v) 1000000 ltac:(lia)) as Dv. pose proof (Z.div_mod (w_end v) 1000000 ltac:(lia)) as Dv'.
    split; [unfold s'; lia|]. unfold e'. destruct (Z.eqb_spec (e mod 1000000) 0) as [E|E]; lia.
Qed.
(** Before 1970 the fraction of a second is negative and the window is not rounded. *)
Theorem C47_before_1970_refuted : exists before after needed pick w,
  window_to_load before after needed pick = ROk w /\ w_start needed <= w_end needed /\ ~ whole (w_start w).
Proof.
  exists 1%Q, 1%Q, (Tw (-5500000) (-5400000)), (-5450000), (Tw (-6450000) (-4450000)). split; [vm_compute; reflexivity|]. split; [cbn; lia|]. vm_compute. discriminate.
Qed.
Print Assumptions C47_window_to_load_partial.
Print Assumptions C47_before_1970_refuted.
Example load_ex : window_to_load 1 1 (Tw 5500000 5600000) 5550000 = ROk (Tw 4000000 7000000).
Proof. vm_compute. reflexivity. Qed.
