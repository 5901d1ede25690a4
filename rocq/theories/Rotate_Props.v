(** Rotation of components (C49). *)
From Coq Require Import ZArith QArith Qround Qabs Lqa Qfield Reals Lra.
From stdpp Require Import numbers list list_numbers.
From Verif Require Import Geo_Model Geo_Proofs TimeWindow_Model Trace_Model Trace_Props Rotate_Model.
Local Open Scope R_scope.

(** ** The rotation of one sample. *)
(** Specification: the direction of a component (East, North, up) from its azimuth and its
    dip (down) and the ground motion recorded by three components. *)
Definition direction (c : component) : vec :=
  let a := degToRad (c_azimuth c) in let d := degToRad (c_dip c) in Vec (cos d * sin a) (cos d * cos a) (- sin d).
Definition dotv (u v : vec) : R := vx u * vx v + vy u * vy v + vz u * vz v.
Definition addv (u v : vec) : vec := Vec (vx u + vx v) (vy u + vy v) (vz u + vz v).
Definition scalev (k : R) (v : vec) : vec := Vec (k * vx v) (k * vy v) (k * vz v).
Definition motion (tc : components) (h2 h1 v : R) : vec :=
  addv (addv (scalev h2 (direction (second_horizontal tc))) (scalev h1 (direction (first_horizontal tc)))) (scalev v (direction (vertical tc))).
(** The unit vector pointing away from the event, and the one to its right *)
Definition outward (evLat evLon staLat staLon : R) : vec :=
  let b := azimuth staLat staLon evLat evLon in Vec (- sin b) (- cos b) 0.
Definition rightward (evLat evLon staLat staLon : R) : vec :=
  let b := azimuth staLat staLon evLat evLon in Vec (- cos b) (sin b) 0.
Definition up : vec := Vec 0 0 1.

Lemma column_direction c : column c = direction c.
Proof.
  unfold column, direction, normalize, from_angles. cbn [vx vy vz]. rewrite cos_neg, sin_neg.
  set (a := degToRad (c_azimuth c)). set (d := degToRad (c_dip c)). pose proof (sin_cos_unit a) as Ua. pose proof (sin_cos_unit d) as Ud. unfold square in *.
  assert (cos d * sin a * (cos d * sin a) + cos d * cos a * (cos d * cos a) + - sin d * - sin d = 1) as ->.
  { transitivity (cos d * cos d * (sin a * sin a + cos a * cos a) + sin d * sin d); [ring|]. rewrite Ua. lra. }
  rewrite sqrt_1. replace (1 / 1) with 1 by field. rewrite !Rmult_1_r. reflexivity.
Qed.
(** C49: the transversal, radial and vertical samples are the projections of the ground
    motion on the directions to the right of the ray, along it and up. *)
Theorem C49_projection tc evLat evLon staLat staLon h2 h1 v :
  let m := transformation tc evLat evLon staLat staLon in
  rt_sample m Radial h2 h1 v = dotv (motion tc h2 h1 v) (outward evLat evLon staLat staLon) /\
  rt_sample m Transversal h2 h1 v = dotv (motion tc h2 h1 v) (rightward evLat evLon staLat staLon) /\
  rt_sample m VerticalOut h2 h1 v = dotv (motion tc h2 h1 v) up.
Proof.
  cbv zeta. unfold rt_sample, transformation, matrix_mult, orientation_zne, orientation_zrt, away, motion, outward, rightward, up, dotv, addv, scalev.
  replace (degToRad 180) with PI by (unfold degToRad; field). rewrite neg_sin, neg_cos, !column_direction. unfold entry.
  cbn [fmap list_fmap nth vx vy vz]. split; [ring|]. split; ring.
Qed.
Definition orthonormal (tc : components) : Prop :=
  dotv (direction (vertical tc)) (direction (first_horizontal tc)) = 0 /\
  dotv (direction (vertical tc)) (direction (second_horizontal tc)) = 0 /\
  dotv (direction (first_horizontal tc)) (direction (second_horizontal tc)) = 0.
Lemma direction_unit c : dotv (direction c) (direction c) = 1.
Proof.
  unfold dotv, direction. cbn [vx vy vz]. set (a := degToRad (c_azimuth c)). set (d := degToRad (c_dip c)).
  pose proof (sin_cos_unit a) as Ua. pose proof (sin_cos_unit d) as Ud. unfold square in *.
  transitivity (cos d * cos d * (sin a * sin a + cos a * cos a) + sin d * sin d); [ring|]. rewrite Ua. lra.
Qed.
(** C49: the energy of the three components is preserved sample by sample, *)
Theorem C49_energy_3d tc evLat evLon staLat staLon h2 h1 v : orthonormal tc ->
  let m := transformation tc evLat evLon staLat staLon in
  square (rt_sample m Radial h2 h1 v) + square (rt_sample m Transversal h2 h1 v) + square (rt_sample m VerticalOut h2 h1 v) =
  square h1 + square h2 + square v.
Proof.
  intros (O1 & O2 & O3). cbv zeta. destruct (C49_projection tc evLat evLon staLat staLon h2 h1 v) as (-> & -> & ->).
  pose proof (direction_unit (vertical tc)) as U1. pose proof (direction_unit (first_horizontal tc)) as U2. pose proof (direction_unit (second_horizontal tc)) as U3.
  unfold outward, rightward, up. pose proof (sin_cos_unit (azimuth staLat staLon evLat evLon)) as UB.
  set (b := azimuth staLat staLon evLat evLon) in *. unfold motion.
  set (dv := direction (vertical tc)) in *. set (d1 := direction (first_horizontal tc)) in *. set (d2 := direction (second_horizontal tc)) in *.
  unfold dotv, addv, scalev, square in *. cbn [vx vy vz] in *.
  set (mx := h2 * vx d2 + h1 * vx d1 + v * vx dv). set (my := h2 * vy d2 + h1 * vy d1 + v * vy dv). set (mz := h2 * vz d2 + h1 * vz d1 + v * vz dv).
  transitivity (mx * mx * (sin b * sin b + cos b * cos b) + my * my * (sin b * sin b + cos b * cos b) + mz * mz); [ring|]. rewrite UB.
  transitivity (h2 * h2 * (vx d2 * vx d2 + vy d2 * vy d2 + vz d2 * vz d2) + h1 * h1 * (vx d1 * vx d1 + vy d1 * vy d1 + vz d1 * vz d1) +
    v * v * (vx dv * vx dv + vy dv * vy dv + vz dv * vz dv) + 2 * h2 * v * (vx dv * vx d2 + vy dv * vy d2 + vz dv * vz d2) +
    2 * h1 * v * (vx dv * vx d1 + vy dv * vy d1 + vz dv * vz d1) + 2 * h1 * h2 * (vx d1 * vx d2 + vy d1 * vy d2 + vz d1 * vz d2)); [unfold mx, my, mz; ring|].
  rewrite U1, U2, U3, O1, O2, O3. ring.
Qed.
(** C49: and the energy of the horizontal components when the sensor is levelled. *)
Theorem C49_energy tc evLat evLon staLat staLon h2 h1 v : orthonormal tc ->
  c_dip (first_horizontal tc) = 0 -> c_dip (second_horizontal tc) = 0 ->
  let m := transformation tc evLat evLon staLat staLon in
  square (rt_sample m Radial h2 h1 v) + square (rt_sample m Transversal h2 h1 v) = square h1 + square h2.
Proof.
  intros O D1 D2. cbv zeta. pose proof (C49_energy_3d tc evLat evLon staLat staLon h2 h1 v O) as E. cbv zeta in E.
  enough (square (rt_sample (transformation tc evLat evLon staLat staLon) VerticalOut h2 h1 v) = square v) by lra. clear E.
  destruct (C49_projection tc evLat evLon staLat staLon h2 h1 v) as (_ & _ & ->). destruct O as (O1 & O2 & O3).
  pose proof (direction_unit (vertical tc)) as U1. pose proof (direction_unit (first_horizontal tc)) as U2. pose proof (direction_unit (second_horizontal tc)) as U3.
  assert (vz (direction (first_horizontal tc)) = 0) as Z1. { unfold direction. cbn [vz]. rewrite D1. unfold degToRad. replace (PI * 0 / 180) with 0 by field. rewrite sin_0. ring. }
  assert (vz (direction (second_horizontal tc)) = 0) as Z2. { unfold direction. cbn [vz]. rewrite D2. unfold degToRad. replace (PI * 0 / 180) with 0 by field. rewrite sin_0. ring. }
  unfold motion. set (dv := direction (vertical tc)) in *. set (d1 := direction (first_horizontal tc)) in *. set (d2 := direction (second_horizontal tc)) in *.
  unfold dotv, addv, scalev, up, square in *. cbn [vx vy vz] in *. rewrite Z1, Z2 in *.
  (* the two horizontals span the plane, so the vertical has no horizontal part *)
  assert (vz dv * vz dv = 1) as V1.
  { set (a := vx d1) in *. set (b := vy d1) in *. set (c := vx d2) in *. set (d := vy d2) in *. set (x := vx dv) in *. set (y := vy dv) in *.
    assert ((a * d - b * c) * (a * d - b * c) = 1) as Det.
    { transitivity ((a * a + b * b + 0 * 0) * (c * c + d * d + 0 * 0) - (a * c + b * d + 0 * 0) * (a * c + b * d + 0 * 0)); [ring|]. rewrite U2, U3, O3. ring. }
    assert (x * (a * d - b * c) = 0) as X. { transitivity (d * (x * a + y * b + vz dv * 0) - b * (x * c + y * d + vz dv * 0)); [ring|]. rewrite O1, O2. ring. }
    assert (y * (a * d - b * c) = 0) as Y. { transitivity (a * (x * c + y * d + vz dv * 0) - c * (x * a + y * b + vz dv * 0)); [ring|]. rewrite O1, O2. ring. }
    assert (a * d - b * c <> 0) as ND by (intros K; rewrite K in Det; lra).
    assert (x = 0) as -> by (apply Rmult_integral in X as [|]; [done|contradiction]). assert (y = 0) as -> by (apply Rmult_integral in Y as [|]; [done|contradiction]). lra. }
  transitivity (v * v * (vz dv * vz dv)); [ring|]. rewrite V1. ring.
Qed.
Print Assumptions C49_projection.
Print Assumptions C49_energy_3d.
Print Assumptions C49_energy.
(** Z, N, E components are such a sensor. *)
Example zne : let tc := Comps (Comp 0 (-90)) (Comp 0 0) (Comp 90 0) in orthonormal tc /\ c_dip (first_horizontal tc) = 0 /\ c_dip (second_horizontal tc) = 0.
Proof.
  cbv zeta. unfold orthonormal, direction, dotv. cbn [vertical first_horizontal second_horizontal c_azimuth c_dip vx vy vz].
  replace (degToRad 0) with 0 by (unfold degToRad; field). replace (degToRad (-90)) with (- (PI / 2)) by (unfold degToRad; field). replace (degToRad 90) with (PI / 2) by (unfold degToRad; field).
  rewrite cos_neg, sin_neg, sin_0, cos_0, sin_PI2, cos_PI2. split; [split; [ring|split; ring]|]. split; reflexivity.
Qed.

(** ** The time window. *)
Section windows.
Context {N : Type}.
Notation tr := (trace N R).
Local Open Scope Q_scope.

(** Sample [i] of the result is made of the samples [k + i] of the input [t], whose time
    differs by at most half a sample. *)
Definition aligned (t : tr) (start : Z) (count k : nat) : Prop :=
  (k + count <= length (t_data t))%nat /\
  forall i : nat, Qabs (sample_time t (k + i) - (inject_Z start + inject_Z (Z.of_nat i) / t_freq t * inject_Z 1000000)) <= (1 # 2) / t_freq t * inject_Z 1000000.
Lemma first_sample_aligned (t : tr) start count k : 0 < t_freq t -> first_sample t start count = Some k -> aligned t start count k.
Proof using.
  intros Hf. unfold first_sample. case_decide as H0; [done|]. case_decide as H1; [done|]. intros [= <-]. unfold sample_count in H1. split; [lia|]. intros i.
  destruct (qround_near (index t start)) as [[N1 N2] _]. set (s := qround (index t start)) in *.
  assert (sample_time t (Z.to_nat s + i) - (inject_Z start + inject_Z (Z.of_nat i) / t_freq t * inject_Z 1000000) == (inject_Z s - index t start) / t_freq t * inject_Z 1000000) as E.
  { unfold sample_time. rewrite Nat2Z.inj_add, Z2Nat.id by lia. rewrite inject_Z_plus.
    assert (index t start / t_freq t * inject_Z 1000000 == inject_Z start - inject_Z (t_start t)) as IX.
    { rewrite index_scaled by done. unfold Z.sub. rewrite inject_Z_plus, inject_Z_opp. ring. }
    setoid_replace ((inject_Z s - index t start) / t_freq t * inject_Z 1000000) with (inject_Z s / t_freq t * inject_Z 1000000 - index t start / t_freq t * inject_Z 1000000) by (field; Lqa.lra).
    rewrite IX. field. Lqa.lra. }
  apply Qabs_Qle_condition. rewrite E. split.
  - setoid_replace (- ((1 # 2) / t_freq t * inject_Z 1000000)) with ((- (1 # 2)) / t_freq t * inject_Z 1000000) by (field; Lqa.lra). apply scale_le; [done|Lqa.lra].
  - apply scale_le; [done|Lqa.lra].
Qed.
Lemma common_count_spec s e f c : 0 < f -> common_count s e f = Some c -> c <> 0%nat ->
  inject_Z (Z.of_nat c - 1) / f * inject_Z 1000000 <= inject_Z (e - s) /\ inject_Z (e - s) < inject_Z (Z.of_nat c) / f * inject_Z 1000000.
Proof using.
  intros Hf. unfold common_count. case_decide as H; [done|]. intros HS Hc. apply (inj Some) in HS. subst c. destruct (floor_spec (durToSec (e - s) * f)) as [F1 F2].
  set (q := Qfloor (durToSec (e - s) * f)) in *. rewrite Z2Nat.id by lia. replace (q + 1 - 1)%Z with q by lia.
  assert (durToSec (e - s) * f / f * inject_Z 1000000 == inject_Z (e - s)) as E by (unfold durToSec; field; Lqa.lra).
  rewrite <- E. split; [apply scale_le; [done|exact F1]|]. apply Qmult_lt_compat_r; [done|]. unfold Qdiv. apply Qmult_lt_compat_r; [by apply Qinv_lt_0_compat|]. rewrite inject_Z_plus. done.
Qed.

(** C49: the L2 trace starts at the common start, its samples combine the samples of the two
    inputs at the same time (to half a sample), and it extends to the common end (short of it
    by less than one sample). *)
Theorem C49_l2 (newId : N) (t1 t2 t' : tr) : 0 < t_freq t1 -> transform_l2 newId t1 t2 = OTrace t' ->
  let start := Z.max (t_start t1) (t_start t2) in let stop := Z.min (end_time t1) (end_time t2) in
  t_start t' = start /\ t_freq t' = t_freq t1 /\ (0 < length (t_data t'))%nat /\
  inject_Z (Z.of_nat (length (t_data t')) - 1) / t_freq t1 * inject_Z 1000000 <= inject_Z (stop - start) /\
  inject_Z (stop - start) < inject_Z (Z.of_nat (length (t_data t'))) / t_freq t1 * inject_Z 1000000 /\
  exists k1 k2, aligned t1 start (length (t_data t')) k1 /\ aligned t2 start (length (t_data t')) k2 /\
    forall i x, t_data t' !! i = Some x -> exists x1 x2, t_data t1 !! (k1 + i)%nat = Some x1 /\ t_data t2 !! (k2 + i)%nat = Some x2 /\ x = R_sqrt.sqrt (square x1 + square x2)%R.
Proof using.
  intros Hf E start stop. unfold transform_l2 in E. destruct (Qeq_bool (t_freq t1) (t_freq t2)) eqn:EF; [|done]. cbn [negb] in E. fold start stop in E.
  apply Qeq_bool_iff in EF. destruct (common_count start stop (t_freq t1)) as [c|] eqn:EC; [|done]. case_decide as Hc; [done|].
  destruct (first_sample t1 start c) as [k1|] eqn:E1; [|done]. destruct (first_sample t2 start c) as [k2|] eqn:E2; [|done]. injection E as <-.
  cbn [t_start t_freq t_data]. rewrite fmap_length, seq_length. destruct (common_count_spec _ _ _ _ Hf EC Hc) as [C1 C2].
  split; [done|]. split; [done|]. split; [lia|]. split; [done|]. split; [done|]. exists k1, k2.
  pose proof (first_sample_aligned _ _ _ _ Hf E1) as A1. pose proof (first_sample_aligned t2 _ _ _ ltac:(rewrite <- EF; done) E2) as A2.
  split; [done|]. split; [done|]. intros i x Hi. rewrite list_lookup_fmap in Hi. destruct (decide (i < c)%nat) as [Hic|Hic].
  - rewrite lookup_seq_lt in Hi by done. cbn in Hi. injection Hi as <-. destruct A1 as [L1 _], A2 as [L2 _].
    destruct (lookup_lt_is_Some_2 (t_data t1) (k1 + i)) as [x1 X1]; [lia|]. destruct (lookup_lt_is_Some_2 (t_data t2) (k2 + i)) as [x2 X2]; [lia|].
    exists x1, x2. split; [done|]. split; [done|]. rewrite !nth_lookup, X1, X2. done.
  - rewrite lookup_seq_ge in Hi by lia. done.
Qed.
(** C49: the samples of the radial and transversal traces are those of the common window, but
    the result is labelled with the start of the first horizontal component: right only if
    that one starts last. *)
Theorem C49_rt_partial (newId : N) tc a b c d what (tv t1 t2 t' : tr) : 0 < t_freq t1 -> transform_rt newId tc a b c d what tv t1 t2 = OTrace t' ->
  let start := Z.max (Z.max (t_start t1) (t_start t2)) (t_start tv) in let stop := Z.min (Z.min (end_time t1) (end_time t2)) (end_time tv) in
  t_start t' = t_start t1 /\ t_freq t' = t_freq t1 /\ (0 < length (t_data t'))%nat /\
  inject_Z (Z.of_nat (length (t_data t')) - 1) / t_freq t1 * inject_Z 1000000 <= inject_Z (stop - start) /\
  inject_Z (stop - start) < inject_Z (Z.of_nat (length (t_data t'))) / t_freq t1 * inject_Z 1000000 /\
  exists k1 k2 kv, aligned t1 start (length (t_data t')) k1 /\ aligned t2 start (length (t_data t')) k2 /\ aligned tv start (length (t_data t')) kv /\
    forall i x, t_data t' !! i = Some x -> exists x1 x2 xv, t_data t1 !! (k1 + i)%nat = Some x1 /\ t_data t2 !! (k2 + i)%nat = Some x2 /\ t_data tv !! (kv + i)%nat = Some xv /\
      x = rt_sample (transformation tc a b c d) what x2 x1 xv.
Proof using.
  intros Hf E start stop. unfold transform_rt in E. destruct (Qeq_bool (t_freq t1) (t_freq t2)) eqn:EF; [|done]. destruct (Qeq_bool (t_freq t1) (t_freq tv)) eqn:EV; [|done]. cbn [negb orb] in E. fold start stop in E.
  apply Qeq_bool_iff in EF, EV. destruct (common_count start stop (t_freq t1)) as [n|] eqn:EC; [|done]. case_decide as Hc; [done|].
  destruct (first_sample t1 start n) as [k1|] eqn:E1; [|done]. destruct (first_sample t2 start n) as [k2|] eqn:E2; [|done]. destruct (first_sample tv start n) as [kv|] eqn:E3; [|done]. injection E as <-.
  cbn [t_start t_freq t_data]. rewrite fmap_length, seq_length. destruct (common_count_spec _ _ _ _ Hf EC Hc) as [C1 C2].
  split; [done|]. split; [done|]. split; [lia|]. split; [done|]. split; [done|]. exists k1, k2, kv.
  pose proof (first_sample_aligned _ _ _ _ Hf E1) as A1. pose proof (first_sample_aligned t2 _ _ _ ltac:(rewrite <- EF; done) E2) as A2. pose proof (first_sample_aligned tv _ _ _ ltac:(rewrite <- EV; done) E3) as A3.
  split; [done|]. split; [done|]. split; [done|]. intros i x Hi. rewrite list_lookup_fmap in Hi. destruct (decide (i < n)%nat) as [Hic|Hic].
  - rewrite lookup_seq_lt in Hi by done. cbn [fmap option_fmap option_map Nat.add] in Hi. injection Hi as <-. destruct A1 as [L1 _], A2 as [L2 _], A3 as [L3 _].
    destruct (lookup_lt_is_Some_2 (t_data t1) (k1 + i)) as [x1 X1]; [lia|]. destruct (lookup_lt_is_Some_2 (t_data t2) (k2 + i)) as [x2 X2]; [lia|]. destruct (lookup_lt_is_Some_2 (t_data tv) (kv + i)) as [xv X3]; [lia|].
    exists x1, x2, xv. split; [done|]. split; [done|]. split; [done|]. rewrite !nth_lookup, X1, X2, X3. done.
  - rewrite lookup_seq_ge in Hi by lia. done.
Qed.
End windows.
(** The start time of the radial trace is wrong when another component starts later: here
    the second horizontal component starts one sample (10 ms) after the first. *)
Theorem C49_rt_start_refuted : exists tc a b c d (tv t1 t2 t' : trace unit R),
  transform_rt tt tc a b c d Radial tv t1 t2 = OTrace t' /\
  t_start t' <> Z.max (Z.max (t_start t1) (t_start t2)) (t_start tv).
Proof.
  exists (Comps (Comp 0 (-90)) (Comp 0 0) (Comp 90 0)), 0, 0, 1, 1, (MkTrace tt 0 100 [1; 2; 3; 4]), (MkTrace tt 0 100 [1; 2; 3; 4]), (MkTrace tt 10000 100 [5; 6; 7; 8]).
  eexists. split; [reflexivity|]. cbn [t_start]. discriminate.
Qed.
(** Traces that do not overlap: a negative number is converted to size_t before the test for
    an overlap, which can then only see zero. *)
Theorem C49_no_overlap_refuted : exists t1 t2 : trace unit R, transform_l2 tt t1 t2 = OUndefined.
Proof. exists (MkTrace tt 0 100 [1; 2; 3; 4]), (MkTrace tt 1000000 100 [5; 6; 7; 8]). reflexivity. Qed.
Print Assumptions C49_l2.
Print Assumptions C49_rt_partial.
Print Assumptions C49_rt_start_refuted.
Print Assumptions C49_no_overlap_refuted.
Example l2_ex : exists t' : trace unit R, transform_l2 tt (MkTrace tt 0 100 [1; 2; 3; 4]) (MkTrace tt 10000 100 [5; 6; 7; 8]) = OTrace t' /\ length (t_data t') = 3%nat.
Proof. eexists. split; [reflexivity|]. reflexivity. Qed.
