(** Homogeneous travel times (C54). *)
From Coq Require Import Reals Lra Ascii String.
From Verif Require Import Geo_Model Geo_Proofs Geo_Props Interp_Model Interp_Props Homogeneous_Model.
Local Open Scope R_scope.

Definition good_velocities (h : homogeneous) : Prop := 0 < pVel h /\ 0 < sVel h.
Lemma velocity_pos h ph v : good_velocities h -> velocity_of h ph = Some v -> 0 < v.
Proof.
  intros [H1 H2]. unfold velocity_of. destruct (String.eqb ph "P"); [intros [= <-]; exact H1|].
  destruct (String.eqb ph "S"); [intros [= <-]; exact H2|discriminate].
Qed.
(** C54: exactly the two known phases are answered, by both entry points. *)
Theorem C54_phases h ela elo ed sla slo se ph :
  (compute_time h ela elo ed sla slo se ph = None <-> ph <> "P"%string /\ ph <> "S"%string) /\
  (compute_full h ela elo ed sla slo se ph = None <-> ph <> "P"%string /\ ph <> "S"%string).
Proof.
  unfold compute_time, compute_full, velocity_of.
  destruct (String.eqb_spec ph "P") as [->|NP]; [|destruct (String.eqb_spec ph "S") as [->|NS]].
  - split; (split; [discriminate|intros [K _]; destruct (K eq_refl)]).
  - split; (split; [discriminate|intros [_ K]; destruct (K eq_refl)]).
  - split; (split; [intros _; split; assumption|reflexivity]).
Qed.
(** The two travel times agree unless event and station are less than 1e-7 km, but not
    zero, apart vertically; even then they differ by at most 1e-7 km over the velocity. *)
Theorem C54_agree_partial h ela elo ed sla slo se ph t r :
  good_velocities h -> (ed - se / 1000) / 2 <= EARTH_RADIUS ->
  compute_time h ela elo ed sla slo se ph = Some t -> compute_full h ela elo ed sla slo se ph = Some r ->
  (ed + se / 1000 = 0 \/ 1 / 10000000 <= Rabs (ed + se / 1000) -> travelTime r = t) /\
  exists v, velocity_of h ph = Some v /\ t <= travelTime r <= t + 1 / 10000000 / v.
Proof.
  intros Hv Hd. unfold compute_time, compute_full. destruct (velocity_of h ph) as [v|] eqn:E; [|discriminate].
  intros [= <-] [= <-]. cbn [travelTime]. pose proof (velocity_pos _ _ _ Hv E) as Hp.
  unfold distance3. replace ((ed + - (se / 1000)) / 2) with ((ed - se / 1000) / 2) by field.
  replace (ed - - (se / 1000)) with (ed + se / 1000) by ring.
  pose proof (C23_range ela elo sla slo _ Hd) as [Ph _]. set (H := distance ela elo sla slo ((ed - se / 1000) / 2)) in *.
  set (V := ed + se / 1000) in *. clearbody H V.
  assert (square (Rabs V) = V * V) as EV. { unfold square. rewrite <- Rabs_mult. apply Rabs_right. apply Rle_ge. nra. }
  assert (sqrt (H * H + V * V) = sqrt (square H + square (Rabs V))) as -> by (rewrite EV; reflexivity).
  rewrite EV. fold (square V). pose proof (Rabs_pos V) as PV. pose proof (square_pos V) as SV. pose proof (square_pos H) as SH.
  set (s := sqrt (square H + square V)). assert (0 <= s) as Ps by apply sqrt_pos.
  assert (square s = square H + square V) as Es by (apply square_sqrt; lra).
  assert (0 < / v) as Pi by (apply Rinv_0_lt_compat; exact Hp).
  destruct (Rlt_dec (Rabs V) (1 / 10000000)) as [L|G].
  - split.
    + intros [Z|K]; [|lra]. unfold s. rewrite Z. replace (square H + square 0) with (square H) by (unfold square; ring). rewrite sqrt_square by exact Ph. reflexivity.
    + exists v. split; [reflexivity|]. assert (H <= s <= H + 1 / 10000000) as B.
      { unfold square in Es, EV. rewrite <- EV in Es. split; nra. }
      unfold Rdiv. split; [nra|]. rewrite <- Rmult_plus_distr_r. apply Rmult_le_compat_r; lra.
  - split; [reflexivity|]. exists v. split; [reflexivity|]. split; [lra|]. assert (0 < 1 / 10000000 / v); [|lra].
    apply Rdiv_lt_0_compat; lra.
Qed.
(** C54: the travel time is non-negative and the path length over it is the velocity; the
    horizontal and vertical slownesses combine to the slowness of the medium; the take-off
    angle is between 0 (down) and 180 (up), 90 for a horizontal ray. *)
Theorem C54_slowness h ela elo ed sla slo se ph r :
  good_velocities h -> (ed - se / 1000) / 2 <= EARTH_RADIUS ->
  compute_full h ela elo ed sla slo se ph = Some r ->
  let H := distance ela elo sla slo ((ed - se / 1000) / 2) in let V := ed + se / 1000 in
  exists v, velocity_of h ph = Some v /\ 0 <= travelTime r /\
    square (travelTime r * v) = square H + square V /\
    square (dtdd r / kmOfDegree 0) + square (dtdh r) = square (1 / v) /\
    dtdd r / kmOfDegree 0 * H + dtdh r * V = travelTime r /\
    0 <= takeOffDip r <= 180 /\
    (0 < V -> 90 < takeOffDip r) /\ (V < 0 -> takeOffDip r < 90).
Proof.
  intros Hv Hd. unfold compute_full. destruct (velocity_of h ph) as [v|] eqn:E; [|discriminate].
  intros [= <-]. cbn [travelTime dtdd dtdh takeOffDip]. pose proof (velocity_pos _ _ _ Hv E) as Hp. cbv zeta.
  pose proof (C23_range ela elo sla slo _ Hd) as [Ph _]. set (H := distance ela elo sla slo ((ed - se / 1000) / 2)) in *.
  set (V := ed + se / 1000) in *. clearbody H V. exists v. split; [reflexivity|].
  pose proof (square_pos V) as SV. pose proof (square_pos H) as SH. unfold square in SV, SH.
  set (s := sqrt (H * H + V * V)). assert (0 <= s) as Ps by apply sqrt_pos.
  assert (s * s = H * H + V * V) as Es by (apply sqrt_sqrt; lra).
  assert (0 < / v) as Pi by (apply Rinv_0_lt_compat; exact Hp).
  pose proof PI_RGT_0 as HPI.
  assert (0 < kmOfDegree 0) as Hk. { unfold kmOfDegree. assert (0 < EARTH_RADIUS) by (unfold EARTH_RADIUS; lra). nra. }
  assert (cos (atan2 V H) / km2deg v 0 / kmOfDegree 0 = cos (atan2 V H) / v) as Ec. { unfold km2deg. field. lra. }
  assert (H = s * cos (atan2 V H) /\ V = s * sin (atan2 V H) /\ - (PI / 2) <= atan2 V H <= PI / 2 /\
          (0 < V -> 0 < atan2 V H) /\ (V < 0 -> atan2 V H < 0)) as (EH & EV & B & BP & BN).
  { destruct (Req_dec H 0) as [ZH|NH].
    - rewrite ZH. assert (s = Rabs V) as ->. { unfold s. rewrite ZH. replace (0 * 0 + V * V) with (Rsqr V) by (unfold Rsqr; ring). apply sqrt_Rsqr_abs. }
      unfold atan2. destruct (Rlt_dec 0 0); [lra|]. destruct (Rlt_dec 0 V) as [P|P]; [|destruct (Rlt_dec V 0) as [P'|P']].
      + rewrite cos_PI2, sin_PI2, Rabs_right by lra. lra.
      + rewrite cos_neg, sin_neg, cos_PI2, sin_PI2, Rabs_left by lra. lra.
      + assert (V = 0) as -> by lra. rewrite Rabs_R0, cos_0, sin_0. lra.
    - destruct (atan2_polar V H (or_introl NH)) as (_ & E1 & E2). unfold square in E1, E2. fold s in E1, E2.
      split; [exact E1|]. split; [exact E2|]. unfold atan2. destruct (Rlt_dec 0 H) as [P|P]; [|lra].
      pose proof (atan_bound (V / H)) as AB. split; [lra|]. pose proof atan_0 as A0. split; intros K.
      + assert (atan 0 < atan (V / H)); [|lra]. apply atan_increasing. apply Rdiv_lt_0_compat; assumption.
      + assert (atan (V / H) < atan 0); [|lra]. apply atan_increasing. unfold Rdiv. pose proof (Rinv_0_lt_compat H P). nra. }
  rewrite Ec. set (a := atan2 V H) in *. clearbody a. pose proof (sin_cos_unit a) as U. unfold square in *.
  split; [unfold Rdiv; nra|]. split; [replace (s / v * v) with s by (field; lra); exact Es|].
  split. { transitivity ((sin a * sin a + cos a * cos a) * (/ v * / v)); [field; lra|]. rewrite U. field. lra. }
  split. { transitivity (s * (sin a * sin a + cos a * cos a) / v); [rewrite EH at 1; rewrite EV at 1; field; lra|]. rewrite U. field. lra. }
  assert (radToDeg a = a * (180 / PI)) as Ed by (unfold radToDeg; field; lra).
  assert (0 < 180 / PI) as HR by (apply Rdiv_lt_0_compat; lra).
  assert (PI * (180 / PI) = 180) as HR2 by (field; lra). rewrite Ed. set (k := 180 / PI) in *. clearbody k.
  split; [split; nra|]. split; intros K; [specialize (BP K); nra|specialize (BN K); nra].
Qed.
(** Below the tolerance the time-only entry point ignores the vertical distance. *)
Theorem C54_agree_refuted : exists h ela elo ed sla slo se t r,
  good_velocities h /\ compute_time h ela elo ed sla slo se "P" = Some t /\
  compute_full h ela elo ed sla slo se "P" = Some r /\ t = 0 /\ 0 < travelTime r.
Proof.
  exists {| pVel := 5; sVel := 3 |}, 46, 8, (1 / 20000000), 46, 8, 0. eexists. eexists.
  split; [unfold good_velocities; cbn; lra|]. split; [unfold compute_time; cbn; reflexivity|]. split; [unfold compute_full; cbn; reflexivity|].
  cbn [travelTime]. assert (forall d, distance 46 8 46 8 d = 0) as Z by (intros d; apply (C23_zero 46 8 0 d)). split.
  - unfold distance3. rewrite Z. replace (1 / 20000000 - - (0 / 1000)) with (1 / 20000000) by field. rewrite Rabs_right by lra.
    destruct (Rlt_dec (1 / 20000000) (1 / 10000000)); lra.
  - rewrite Z. apply Rdiv_lt_0_compat; [|lra]. apply sqrt_lt_R0. lra.
Qed.
(** An earthquake 10 km under a station at sea level: travel time 2 s, upward ray. *)
Example below_station : exists r, compute_full {| pVel := 5; sVel := 3 |} 46 8 10 46 8 0 "P" = Some r /\ travelTime r = 2 /\ 90 < takeOffDip r.
Proof.
  eexists. split; [unfold compute_full; cbn; reflexivity|]. cbn [travelTime takeOffDip].
  rewrite (proj1 (C23_zero 46 8 0 _)). replace (10 + 0 / 1000) with 10 by field. split.
  - replace (0 * 0 + 10 * 10) with (Rsqr 10) by (unfold Rsqr; ring). rewrite sqrt_Rsqr by lra. field.
  - unfold atan2. destruct (Rlt_dec 0 0); [lra|]. destruct (Rlt_dec 0 10); [|lra]. unfold radToDeg. pose proof PI_RGT_0.
    replace (180 * (PI / 2) / PI) with 90 by (field; lra). lra.
Qed.

Print Assumptions C54_phases.
Print Assumptions C54_agree_partial.
Print Assumptions C54_slowness.
Print Assumptions C54_agree_refuted.
