(** Slicing traces (C48). *)
From Coq Require Import ZArith QArith Qround Qabs Lqa Qfield.
From stdpp Require Import numbers list.
From Verif Require Import TimeWindow_Model Trace_Model.
Local Open Scope Q_scope.

(** ** Rounding *)
Lemma floor_spec x : inject_Z (Qfloor x) <= x /\ x < inject_Z (Qfloor x) + 1.
Proof. split; [apply Qfloor_le|]. pose proof (Qlt_floor x) as H. rewrite inject_Z_plus in H. exact H. Qed.
Lemma ceiling_spec x : x <= inject_Z (Qceiling x) /\ inject_Z (Qceiling x) - 1 < x.
Proof.
  split; [apply Qle_ceiling|]. pose proof (Qceiling_lt x) as H. unfold Z.sub in H. rewrite inject_Z_plus, inject_Z_opp in H. change (inject_Z 1) with 1 in H. lra.
Qed.
Lemma inj_lt a b : inject_Z a < inject_Z b + 1 -> (a <= b)%Z.
Proof. intros H. assert (inject_Z a < inject_Z (b + 1)) as K by (rewrite inject_Z_plus; exact H). rewrite <- Zlt_Qlt in K. lia. Qed.
Lemma qround_near x : x - (1 # 2) <= inject_Z (qround x) <= x + (1 # 2) /\ (0 <= x -> x - (1 # 2) < inject_Z (qround x)).
Proof.
  unfold qround. destruct (Qle_bool 0 x) eqn:E.
  - destruct (floor_spec (x + (1 # 2))). split; [lra|]. intros _. lra.
  - destruct (ceiling_spec (x - (1 # 2))). split; [lra|]. intros H'. apply Qle_bool_iff in H'. congruence.
Qed.
Lemma qround_le x k : x <= inject_Z k -> (qround x <= k)%Z.
Proof. intros H. apply inj_lt. destruct (qround_near x) as [[_ K] _]. lra. Qed.
Lemma qround_ge x k : inject_Z k <= x -> (k <= qround x)%Z.
Proof. intros H. apply inj_lt. destruct (qround_near x) as [[K _] _]. lra. Qed.
Lemma qround_mono x y : x <= y -> (qround x <= qround y)%Z.
Proof.
  intros H. unfold qround. destruct (Qle_bool 0 x) eqn:Ex; destruct (Qle_bool 0 y) eqn:Ey.
  - apply Qfloor_resp_le. lra.
  - exfalso. apply Qle_bool_iff in Ex. assert (0 <= y) as K by lra. apply Qle_bool_iff in K. congruence.
  - assert (x < 0) as Hx by (destruct (Qlt_le_dec x 0) as [|K]; [done|apply Qle_bool_iff in K; congruence]). apply Qle_bool_iff in Ey.
    apply inj_lt. destruct (ceiling_spec (x - (1 # 2))), (floor_spec (y + (1 # 2))). lra.
  - apply Qceiling_resp_le. lra.
Qed.
Lemma qround_opp x : qround (- x) = (- qround x)%Z.
Proof.
  unfold qround. destruct (Qle_bool 0 x) eqn:Ex; destruct (Qle_bool 0 (- x)) eqn:Ey.
  - apply Qle_bool_iff in Ex, Ey. assert (x == 0) as E by lra.
    assert (Qfloor (- x + (1 # 2)) = 0)%Z as -> by (transitivity (Qfloor (1 # 2)); [apply Qfloor_comp; lra|reflexivity]).
    assert (Qfloor (x + (1 # 2)) = 0)%Z as -> by (transitivity (Qfloor (1 # 2)); [apply Qfloor_comp; lra|reflexivity]). done.
  - unfold Qceiling. f_equal. apply Qfloor_comp. ring.
  - unfold Qceiling. rewrite Z.opp_involutive. apply Qfloor_comp. ring.
  - exfalso. assert (x < 0) as Hx by (destruct (Qlt_le_dec x 0) as [|K]; [done|apply Qle_bool_iff in K; congruence]).
    assert (0 <= - x) as K by lra. apply Qle_bool_iff in K. congruence.
Qed.

Section props.
Context {N A : Type}.
Implicit Types t : trace N A.

(** ** Specification: the exact time of a sample, in microseconds. *)
Definition sample_time t (i : nat) : Q := inject_Z (t_start t) + inject_Z (Z.of_nat i) / t_freq t * inject_Z 1000000.

Lemma div_pos_mul (a b c : Q) : 0 < c -> a <= b / c <-> a * c <= b.
Proof.
  intros Hc. split; intros H.
  - setoid_replace b with (b / c * c) by (field; lra). apply Qmult_le_compat_r; [done|lra].
  - apply Qle_shift_div_l; done.
Qed.
Lemma index_scaled t z : 0 < t_freq t -> index t z / t_freq t * inject_Z 1000000 == inject_Z (z - t_start t).
Proof. intros H. unfold index, durToSec. field. lra. Qed.
Lemma scale_le (x y f : Q) : 0 < f -> x <= y -> x / f * inject_Z 1000000 <= y / f * inject_Z 1000000.
Proof.
  intros Hf H. apply Qmult_le_compat_r; [|discriminate]. unfold Qdiv. apply Qmult_le_compat_r; [done|]. apply Qlt_le_weak, Qinv_lt_0_compat. done.
Qed.
Lemma unscale_lt (x y f : Q) : 0 < f -> x / f * inject_Z 1000000 < y / f * inject_Z 1000000 -> x < y.
Proof. intros Hf H. destruct (Qlt_le_dec x y) as [|K]; [done|]. pose proof (scale_le y x f Hf K). lra. Qed.
Lemma index_mono t a b : 0 < t_freq t -> (a <= b)%Z -> index t a <= index t b.
Proof.
  intros Hf H. destruct (Qlt_le_dec (index t b) (index t a)) as [K|]; [|done]. exfalso.
  pose proof (scale_le _ _ _ Hf (Qlt_le_weak _ _ K)) as S. rewrite !index_scaled in S by done. rewrite <- Zle_Qle in S.
  assert (a = b) as -> by lia. lra.
Qed.

(** C48: no undefined behaviour, and a failing slice changes nothing. *)
Theorem C48_defined t w : 0 < t_freq t -> (w_start w <= w_end w)%Z ->
  slice t w <> SlUB /\ (forall t', slice t w = SlFalse t' -> t' = t).
Proof using.
  intros Hf Hw. unfold slice. destruct (tw_eqb _ _); [split; [done|intros t' [=]]|]. destruct (w_contains _ _); cbn [negb]; [|split; [done|by intros t' [= ->]]].
  destruct (_ <? 0)%Z eqn:E0; [split; [done|by intros t' [= ->]]|]. apply Z.ltb_ge in E0.
  destruct (sample_count t <=? _)%Z eqn:E1; [split; [done|by intros t' [= ->]]|]. apply Z.leb_gt in E1.
  unfold sub_vector. rewrite decide_True; [split; [done|by intros t' [=]]|]. unfold sample_count in E1.
  destruct (floor_spec (index t (w_start w))) as [F _]. destruct (ceiling_spec (index t (w_end w))) as [C _]. pose proof (index_mono t _ _ Hf Hw) as M.
  assert (Qfloor (index t (w_start w)) <= Qceiling (index t (w_end w)))%Z by (rewrite Zle_Qle; lra). split; lia.
Qed.

Definition window_ok t (t' : trace N A) w : Prop :=
  (* the new trace covers the window, *)
  (t_start t' <= w_start w)%Z /\ (w_end w <= end_time t')%Z /\
  (* it exceeds it by less than one sample and one microsecond at each end, *)
  inject_Z (w_start w) - inject_Z (t_start t') < 1 / t_freq t * inject_Z 1000000 + 1 /\
  inject_Z (end_time t') - inject_Z (w_end w) < 1 / t_freq t * inject_Z 1000000 + 1.
Definition samples_ok t (t' : trace N A) (k : nat) : Prop :=
  (* and its samples are the original ones at the same time to half a microsecond. *)
  forall i x, t_data t' !! i = Some x -> t_data t !! (k + i)%nat = Some x /\
    Qabs (sample_time t' i - sample_time t (k + i)) <= 1 # 2.

Theorem C48_slice t w t' : 0 < t_freq t -> (w_start w <= w_end w)%Z -> t_data t <> [] -> slice t w = SlTrue t' ->
  t_id t' = t_id t /\ t_freq t' = t_freq t /\ t_data t' <> [] /\ window_ok t t' w /\ exists k, samples_ok t t' k.
Proof using.
  intros Hf Hw Hd. unfold slice. assert (0 < 1 / t_freq t) as HP by (apply Qlt_shift_div_l; lra).
  destruct (tw_eqb _ _) eqn:Eq.
  - intros [= <-]. apply andb_true_iff in Eq as [E1 E2]. apply Z.eqb_eq in E1, E2. cbn [time_window mk_tw set_end w_start w_end] in E1, E2.
    split; [done|]. split; [done|]. split; [done|]. split.
    + assert (w_end w = end_time t) as Ee.
      { unfold end_time in *. rewrite decide_False in * by (destruct (t_data t); [done|cbn; lia]).
        assert (0 <= secToDur (inject_Z (sample_count t - 1) / t_freq t))%Z as H0.
        { unfold secToDur. apply qround_ge. change (inject_Z 0) with 0. setoid_replace 0 with (0 / t_freq t * inject_Z 1000000) by (field; lra). apply scale_le; [done|]. change 0 with (inject_Z 0). rewrite <- Zle_Qle. unfold sample_count. destruct (t_data t); [done|cbn [length]; lia]. }
        rewrite <- E2. destruct (_ <? _)%Z eqn:L; [apply Z.ltb_lt in L; lia|done]. }
      unfold window_ok. rewrite <- Ee, <- E1. split; [lia|]. split; [lia|]. change (inject_Z 1000000) with 1000000 in *. split; lra.
    + exists 0%nat. intros i x Hi. cbn [Nat.add]. split; [done|]. setoid_replace (sample_time t i - sample_time t i) with 0 by ring. done.
  - destruct (w_contains _ _); cbn [negb]; [|done]. destruct (_ <? 0)%Z eqn:E0; [done|]. apply Z.ltb_ge in E0.
    destruct (sample_count t <=? _)%Z eqn:E1; [done|]. apply Z.leb_gt in E1. set (so := Qfloor (index t (w_start w))) in *. set (eo := Qceiling (index t (w_end w))) in *.
    unfold sub_vector. case_decide as Hdec; [|done]. intros [= <-]. cbn [t_id t_freq t_start]. split; [done|]. split; [done|].
    destruct (floor_spec (index t (w_start w))) as [F1 F2]. destruct (ceiling_spec (index t (w_end w))) as [C1 C2]. fold so in F1, F2. fold eo in C1, C2. pose proof (index_mono t _ _ Hf Hw) as M.
    assert (so <= eo)%Z as Hse by (rewrite Zle_Qle; lra).
    set (d := take (Z.to_nat (eo + 1 - so)) (drop (Z.to_nat so) (t_data t))).
    assert (Z.of_nat (length d) = eo + 1 - so)%Z as Ld. { unfold d. rewrite take_length, drop_length. unfold sample_count in E1. lia. }
    split. { cbn [t_data]. intros K. fold d in K. rewrite K in Ld. cbn [length] in Ld. lia. }
    (* the two rounded durations *)
    assert (inject_Z so / t_freq t * inject_Z 1000000 <= inject_Z (w_start w - t_start t)) as A1 by (rewrite <- index_scaled by done; by apply scale_le).
    assert (inject_Z (w_start w - t_start t) < inject_Z so / t_freq t * inject_Z 1000000 + 1 / t_freq t * inject_Z 1000000) as A2.
    { rewrite <- (index_scaled t (w_start w)) by done.
      setoid_replace (inject_Z so / t_freq t * inject_Z 1000000 + 1 / t_freq t * inject_Z 1000000) with ((inject_Z so + 1) / t_freq t * inject_Z 1000000) by (field; lra).
      apply Qmult_lt_compat_r; [done|]. unfold Qdiv. apply Qmult_lt_compat_r; [by apply Qinv_lt_0_compat|done]. }
    assert (inject_Z (w_end w - t_start t) <= inject_Z eo / t_freq t * inject_Z 1000000) as B1 by (rewrite <- index_scaled by done; by apply scale_le).
    assert (inject_Z eo / t_freq t * inject_Z 1000000 < inject_Z (w_end w - t_start t) + 1 / t_freq t * inject_Z 1000000) as B2.
    { rewrite <- (index_scaled t (w_end w)) by done.
      setoid_replace (index t (w_end w) / t_freq t * inject_Z 1000000 + 1 / t_freq t * inject_Z 1000000) with ((index t (w_end w) + 1) / t_freq t * inject_Z 1000000) by (field; lra).
      apply Qmult_lt_compat_r; [done|]. unfold Qdiv. apply Qmult_lt_compat_r; [by apply Qinv_lt_0_compat|]. lra. }
    set (a := inject_Z so / t_freq t * inject_Z 1000000) in *. set (e := inject_Z eo / t_freq t * inject_Z 1000000) in *.
    assert (secToDur (inject_Z so / t_freq t) = qround a) as Ea by done. rewrite Ea.
    set (t' := MkTrace (t_id t) (t_start t + qround a) (t_freq t) d).
    assert (end_time t' = t_start t + qround a + secToDur (inject_Z (eo - so) / t_freq t))%Z as Eend.
    { unfold end_time, sample_count. cbn [t_data t' t_start t_freq]. rewrite decide_False by lia. rewrite Ld. replace (eo + 1 - so - 1)%Z with (eo - so)%Z by lia. done. }
    unfold secToDur in Eend. set (b := inject_Z (eo - so) / t_freq t * inject_Z 1000000) in *.
    assert (a + b == e) as Hab. { unfold a, b, e. unfold Z.sub. rewrite inject_Z_plus, inject_Z_opp. field. lra. }
    assert (0 <= a) as Pa. { unfold a. setoid_replace 0 with (0 / t_freq t * inject_Z 1000000) by (field; lra). apply scale_le; [done|]. change 0 with (inject_Z 0). by rewrite <- Zle_Qle. }
    assert (0 <= b) as Pb. { unfold b. setoid_replace 0 with (0 / t_freq t * inject_Z 1000000) by (field; lra). apply scale_le; [done|]. change 0 with (inject_Z 0). rewrite <- Zle_Qle. lia. }
    destruct (qround_near a) as [[Na1 Na2] Na3]. destruct (qround_near b) as [[Nb1 Nb2] Nb3]. specialize (Na3 Pa). specialize (Nb3 Pb).
    assert (forall z, inject_Z (z - t_start t) == inject_Z z - inject_Z (t_start t)) as HJ by (intros z; unfold Z.sub; rewrite inject_Z_plus, inject_Z_opp; ring).
    split; [split; [|split; [|split]]|].
    + cbn [t' t_start]. pose proof (qround_le _ _ A1). lia.
    + rewrite Eend. assert (w_end w - t_start t <= qround a + qround b)%Z as K; [|lia]. apply inj_lt. rewrite inject_Z_plus. lra.
    + cbn [t' t_start]. rewrite inject_Z_plus. rewrite HJ in A2. lra.

    + rewrite Eend, !inject_Z_plus. rewrite HJ in B2. lra.
    + exists (Z.to_nat so). intros i x Hi. cbn [t' t_data] in Hi. unfold d in Hi.
      assert (i < Z.to_nat (eo + 1 - so))%nat as Hlt. { apply lookup_lt_Some in Hi. rewrite take_length in Hi. lia. }
      rewrite lookup_take, lookup_drop in Hi by done. split; [done|]. unfold sample_time. cbn [t' t_start t_freq].
      rewrite Nat2Z.inj_add, Z2Nat.id, !inject_Z_plus by done.
      setoid_replace (inject_Z (t_start t) + inject_Z (qround a) + inject_Z (Z.of_nat i) / t_freq t * inject_Z 1000000 -
        (inject_Z (t_start t) + (inject_Z so + inject_Z (Z.of_nat i)) / t_freq t * inject_Z 1000000)) with (inject_Z (qround a) - a) by (unfold a; field; lra).
      apply Qabs_Qle_condition. lra.
Qed.

(** When does it succeed: for a window inside the exact span of the samples. *)
Theorem C48_succeeds t w : 0 < t_freq t -> (t_start t <= w_start w <= w_end w)%Z -> t_data t <> [] ->
  inject_Z (w_end w) <= sample_time t (length (t_data t) - 1) -> exists t', slice t w = SlTrue t'.
Proof using.
  intros Hf [H1 H2] Hd H3. unfold slice. destruct (tw_eqb _ _); [by eexists|].
  assert (0 < length (t_data t))%nat as Hlen by (destruct (t_data t); [done|cbn; lia]).
  assert (inject_Z (w_end w - t_start t) <= inject_Z (sample_count t - 1) / t_freq t * inject_Z 1000000) as K.
  { unfold sample_time in H3. unfold sample_count. replace (Z.of_nat (length (t_data t)) - 1)%Z with (Z.of_nat (length (t_data t) - 1)) by lia.
    unfold Z.sub. rewrite inject_Z_plus, inject_Z_opp. lra. }
  assert (w_contains (time_window t) w = true) as ->.
  { unfold w_contains. apply andb_true_iff. cbn [time_window mk_tw set_end w_start w_end]. split; [by apply Z.leb_le|].
    unfold end_time. rewrite decide_False by lia. pose proof (qround_ge _ _ K) as KK. unfold secToDur.
    destruct (_ <? _)%Z eqn:L; apply Z.leb_le; [apply Z.ltb_lt in L|]; lia. }
  cbn [negb]. assert (0 <= Qfloor (index t (w_start w)))%Z as F.
  { change 0%Z with (Qfloor (inject_Z 0)). apply Qfloor_resp_le. change (inject_Z 0) with 0. unfold index, durToSec.
    apply Qmult_le_0_compat; [|lra]. apply Qle_shift_div_l; [done|]. rewrite Qmult_0_l. change 0 with (inject_Z 0). rewrite <- Zle_Qle. lia. }
  replace (_ <? 0)%Z with false by (symmetry; by apply Z.ltb_ge).
  assert (Qceiling (index t (w_end w)) <= sample_count t - 1)%Z as C.
  { rewrite <- (Qceiling_Z (sample_count t - 1)). apply Qceiling_resp_le. rewrite <- index_scaled in K by done.
    destruct (Qlt_le_dec (inject_Z (sample_count t - 1)) (index t (w_end w))) as [L|]; [|done]. exfalso.
    apply Qle_not_lt in K. apply K. apply Qmult_lt_compat_r; [done|]. unfold Qdiv. apply Qmult_lt_compat_r; [by apply Qinv_lt_0_compat|done]. }
  replace (sample_count t <=? _)%Z with false by (symmetry; apply Z.leb_gt; lia).
  destruct (sub_vector _ _ _) eqn:S; [by eexists|]. exfalso. destruct (C48_defined t w Hf H2) as [K' _].
  unfold sub_vector in S. case_decide as Hdec; [done|]. apply Hdec. 
  destruct (floor_spec (index t (w_start w))) as [F1 _]. destruct (ceiling_spec (index t (w_end w))) as [C1 _]. pose proof (index_mono t _ _ Hf H2) as M.
  assert (Qfloor (index t (w_start w)) <= Qceiling (index t (w_end w)))%Z by (rewrite Zle_Qle; lra). unfold sample_count in C. split; lia.
Qed.
End props.
(** A window contained in the window of the trace may still fail: the end time is rounded up
    to the microsecond (three samples at 3 Hz). *)
Theorem C48_contained_refuted : exists (t : trace unit Z) w,
  0 < t_freq t /\ (w_start w <= w_end w)%Z /\ w_contains (time_window t) w = true /\ slice t w = SlFalse t.
Proof.
  exists (MkTrace tt 0 3 [1; 2; 3]%Z), (Tw 100 666667). split; [done|]. split; [done|]. split; vm_compute; reflexivity.
Qed.
Print Assumptions C48_defined.
Print Assumptions C48_slice.
Print Assumptions C48_succeeds.
Print Assumptions C48_contained_refuted.
(** A slice of a trace at 100 Hz. *)
Example slice_ex : slice (MkTrace tt 1000000 100 [10; 11; 12; 13; 14; 15]%Z) (Tw 1015000 1032000) =
  SlTrue (MkTrace tt 1010000 100 [11; 12; 13; 14]%Z).
Proof. vm_compute. reflexivity. Qed.
