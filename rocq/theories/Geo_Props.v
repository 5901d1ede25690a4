(** Angle normalisation (C21) and distances (C23). *)
From Coq Require Import Reals Lra Lia.
From Verif Require Import Geo_Model Geo_Proofs.
Local Open Scope R_scope.

(** ** Specification: equivalence of angles in degrees *)
Definition same_angle (a b : R) : Prop := exists k : Z, a = b + 360 * IZR k.

Lemma same_angle_unique lo a b : same_angle a b -> lo <= a < lo + 360 -> lo <= b < lo + 360 -> a = b.
Proof.
  intros [k E] Ha Hb. assert (k = 0%Z) as -> by (apply IZR_small; lra). rewrite E. ring.
Qed.

(** C21: the normalised angle is the equivalent angle in the target range ... *)
Theorem C21_normalize_lon lon : same_angle (normalizeLon lon) lon /\ -180 <= normalizeLon lon < 180.
Proof.
  unfold normalizeLon. destruct (fmod_fmod_spec (lon + 180) 360 ltac:(lra)) as (k & E & H).
  split; [|lra]. exists (- k)%Z. rewrite E, opp_IZR. ring.
Qed.
Theorem C21_normalize_azimuth az : same_angle (normalizeAzimuth az) az /\ 0 <= normalizeAzimuth az < 360.
Proof.
  unfold normalizeAzimuth. destruct (fmod_fmod_spec az 360 ltac:(lra)) as (k & E & H).
  split; [|lra]. exists (- k)%Z. rewrite E, opp_IZR. ring.
Qed.
(** ... so that it only depends on the direction and is kept when already in range. *)
Theorem C21_lon_canonical a b : same_angle a b -> normalizeLon a = normalizeLon b.
Proof.
  intros [k E]. destruct (C21_normalize_lon a) as [[i Ei] Ha]. destruct (C21_normalize_lon b) as [[j Ej] Hb].
  apply (same_angle_unique (-180)); [|lra|lra]. exists (i + k - j)%Z. rewrite Ei, Ej, E, minus_IZR, plus_IZR. ring.
Qed.
Theorem C21_azimuth_canonical a b : same_angle a b -> normalizeAzimuth a = normalizeAzimuth b.
Proof.
  intros [k E]. destruct (C21_normalize_azimuth a) as [[i Ei] Ha]. destruct (C21_normalize_azimuth b) as [[j Ej] Hb].
  apply (same_angle_unique 0); [|lra|lra]. exists (i + k - j)%Z. rewrite Ei, Ej, E, minus_IZR, plus_IZR. ring.
Qed.
Theorem C21_lon_idempotent lon : normalizeLon (normalizeLon lon) = normalizeLon lon.
Proof. apply C21_lon_canonical, C21_normalize_lon. Qed.
Theorem C21_azimuth_idempotent az : normalizeAzimuth (normalizeAzimuth az) = normalizeAzimuth az.
Proof. apply C21_azimuth_canonical, C21_normalize_azimuth. Qed.
Theorem C21_lon_in_range lon : -180 <= lon < 180 -> normalizeLon lon = lon.
Proof.
  intros H. destruct (C21_normalize_lon lon) as [E H']. apply (same_angle_unique (-180)); [exact E|lra|lra].
Qed.
Theorem C21_azimuth_in_range az : 0 <= az < 360 -> normalizeAzimuth az = az.
Proof.
  intros H. destruct (C21_normalize_azimuth az) as [E H']. apply (same_angle_unique 0); [exact E|lra|lra].
Qed.
Example normalize_190 : normalizeLon 190 = -170 /\ normalizeLon 180 = -180 /\ normalizeAzimuth (-90) = 270.
Proof.
  split; [|split].
  - rewrite (C21_lon_canonical 190 (-170)); [apply C21_lon_in_range; lra|]. exists 1%Z. lra.
  - rewrite (C21_lon_canonical 180 (-180)); [apply C21_lon_in_range; lra|]. exists 1%Z. lra.
  - rewrite (C21_azimuth_canonical (-90) 270); [apply C21_azimuth_in_range; lra|]. exists (-1)%Z. lra.
Qed.

(** ** Specification: great-circle angle as the angle between two unit vectors *)
Definition unit_vec (lat lon : R) : R * R * R :=
  (cos (degToRad lat) * cos (degToRad lon), cos (degToRad lat) * sin (degToRad lon), sin (degToRad lat)).
Definition dot (u v : R * R * R) : R :=
  let '(a, b, c) := u in let '(d, e, f) := v in a * d + b * e + c * f.
Definition valid_lat (lat : R) : Prop := -90 <= lat <= 90.

Lemma haversine_dot lat1 lon1 lat2 lon2 :
  1 - 2 * haversine lat1 lon1 lat2 lon2 = dot (unit_vec lat1 lon1) (unit_vec lat2 lon2).
Proof.
  unfold haversine, dot, unit_vec.
  replace (degToRad (lat2 - lat1)) with (degToRad lat2 - degToRad lat1) by (unfold degToRad; field).
  replace (degToRad (lon2 - lon1)) with (degToRad lon2 - degToRad lon1) by (unfold degToRad; field).
  set (f1 := degToRad lat1). set (f2 := degToRad lat2). set (l1 := degToRad lon1). set (l2 := degToRad lon2).
  assert (forall x, square (sin (x / 2)) = (1 - cos x) / 2) as H.
  { intros x. replace (cos x) with (cos (2 * (x / 2))) by (f_equal; field). rewrite cos_2a_sin. unfold square. field. }
  rewrite !H, !cos_minus. field.
Qed.

(** C23: outside the shortcut for coincident points the result is the great-circle angle
    (the only angle between 0 and pi with that cosine) ... *)
Theorem C23_great_circle lat1 lon1 lat2 lon2 :
  valid_lat lat1 -> valid_lat lat2 -> ~ same_place lat1 lon1 lat2 lon2 ->
  0 <= angular_distance lat1 lon1 lat2 lon2 <= PI /\
  cos (angular_distance lat1 lon1 lat2 lon2) = dot (unit_vec lat1 lon1) (unit_vec lat2 lon2).
Proof.
  intros V1 V2 N. destruct (angular_distance_unfold _ _ _ _ N) as (t & -> & Ht & E).
  split; [lra|]. rewrite clamp01_id in E by (apply haversine_range; assumption).
  rewrite cos_2a_sin, <- haversine_dot, <- E. unfold square. ring.
Qed.
(** ... the distance is the arc length at the given depth ... *)
Theorem C23_arc_length lat1 lon1 lat2 lon2 depth :
  distance lat1 lon1 lat2 lon2 depth = angular_distance lat1 lon1 lat2 lon2 * (EARTH_RADIUS - depth).
Proof.
  unfold distance, rad2km, angular_distance. destruct (same_place_dec lat1 lon1 lat2 lon2); [lra|reflexivity].
Qed.
Lemma angular_distance_range lat1 lon1 lat2 lon2 : 0 <= angular_distance lat1 lon1 lat2 lon2 <= PI.
Proof.
  pose proof PI_RGT_0. destruct (same_place_dec lat1 lon1 lat2 lon2) as [S|N].
  - unfold angular_distance. destruct (same_place_dec lat1 lon1 lat2 lon2); [lra|contradiction].
  - destruct (angular_distance_unfold _ _ _ _ N) as (t & -> & Ht & _). lra.
Qed.
(** ... within half a circumference ... *)
Theorem C23_range lat1 lon1 lat2 lon2 depth : depth <= EARTH_RADIUS ->
  0 <= distance lat1 lon1 lat2 lon2 depth <= PI * (EARTH_RADIUS - depth).
Proof.
  intros Hd. rewrite C23_arc_length. pose proof (angular_distance_range lat1 lon1 lat2 lon2). nra.
Qed.
(** ... symmetric, for all depths ... *)
Theorem C23_symmetric lat1 lon1 dep1 lat2 lon2 dep2 depth :
  angular_distance lat1 lon1 lat2 lon2 = angular_distance lat2 lon2 lat1 lon1 /\
  distance lat1 lon1 lat2 lon2 depth = distance lat2 lon2 lat1 lon1 depth /\
  distance3 lat1 lon1 dep1 lat2 lon2 dep2 = distance3 lat2 lon2 dep2 lat1 lon1 dep1.
Proof.
  assert (angular_distance lat1 lon1 lat2 lon2 = angular_distance lat2 lon2 lat1 lon1) as E.
  { unfold angular_distance. rewrite haversine_sym.
    destruct (same_place_dec lat1 lon1 lat2 lon2) as [S|N]; destruct (same_place_dec lat2 lon2 lat1 lon1) as [S'|N']; try reflexivity.
    - destruct (N' (same_place_sym _ _ _ _ S)).
    - destruct (N (same_place_sym _ _ _ _ S')). }
  split; [exact E|]. assert (forall d, distance lat1 lon1 lat2 lon2 d = distance lat2 lon2 lat1 lon1 d) as E2.
  { intros d. rewrite !C23_arc_length, E. reflexivity. }
  split; [apply E2|]. unfold distance3. rewrite E2, (Rabs_minus_sym dep1 dep2), (Rplus_comm dep1 dep2). reflexivity.
Qed.
(** ... and zero for a point with itself. *)
Theorem C23_zero lat lon dep depth : distance lat lon lat lon depth = 0 /\ distance3 lat lon dep lat lon dep = 0.
Proof.
  assert (forall d, distance lat lon lat lon d = 0) as E.
  { intros d. unfold distance. destruct (same_place_dec lat lon lat lon) as [_|N]; [reflexivity|].
    exfalso. apply N. unfold same_place, degToRad. replace (PI * (lon - lon) / 180) with 0 by field.
    replace (lat - lat) with 0 by ring. rewrite Rabs_R0. lra. }
  split; [apply E|]. unfold distance3. rewrite E. replace (dep - dep) with 0 by ring. rewrite Rabs_R0.
  destruct (Rlt_dec 0 (1 / 10000000)); [reflexivity|lra].
Qed.
(** Conversely two points at distance zero coincide: they fell into the shortcut (a
    billionth of a degree or less), or their unit vectors are equal. *)
Theorem C23_zero_only lat1 lon1 lat2 lon2 depth :
  valid_lat lat1 -> valid_lat lat2 -> depth < EARTH_RADIUS -> distance lat1 lon1 lat2 lon2 depth = 0 ->
  same_place lat1 lon1 lat2 lon2 \/ unit_vec lat1 lon1 = unit_vec lat2 lon2.
Proof.
  intros V1 V2 Hd. destruct (same_place_dec lat1 lon1 lat2 lon2) as [S|N]; [left; exact S|]. intros E. right.
  rewrite C23_arc_length in E. destruct (C23_great_circle _ _ _ _ V1 V2 N) as [_ C].
  assert (angular_distance lat1 lon1 lat2 lon2 = 0) as E0 by nra. rewrite E0, cos_0 in C.
  revert C. unfold dot, unit_vec.
  pose proof (sin_cos_unit (degToRad lat1)) as U1. pose proof (sin_cos_unit (degToRad lat2)) as U2.
  pose proof (sin_cos_unit (degToRad lon1)) as U3. pose proof (sin_cos_unit (degToRad lon2)) as U4. unfold square in *.
  set (c1 := cos (degToRad lat1)) in *. set (s1 := sin (degToRad lat1)) in *. set (c2 := cos (degToRad lat2)) in *. set (s2 := sin (degToRad lat2)) in *.
  set (c3 := cos (degToRad lon1)) in *. set (s3 := sin (degToRad lon1)) in *. set (c4 := cos (degToRad lon2)) in *. set (s4 := sin (degToRad lon2)) in *.
  intros C.
  assert (Rsqr (c1 * c3 - c2 * c4) + Rsqr (c1 * s3 - c2 * s4) + Rsqr (s1 - s2) = 0) as Z.
  { unfold Rsqr.
    transitivity (c1 * c1 * (s3 * s3 + c3 * c3) + c2 * c2 * (s4 * s4 + c4 * c4) + s1 * s1 + s2 * s2 - 2 * (c1 * c3 * (c2 * c4) + c1 * s3 * (c2 * s4) + s1 * s2)); [ring|].
    rewrite U3, U4, <- C. lra. }
  pose proof (Rle_0_sqr (c1 * c3 - c2 * c4)) as P1. pose proof (Rle_0_sqr (c1 * s3 - c2 * s4)) as P2. pose proof (Rle_0_sqr (s1 - s2)) as P3.
  assert (c1 * c3 - c2 * c4 = 0) as Q1 by (apply Rsqr_0_uniq; lra). assert (c1 * s3 - c2 * s4 = 0) as Q2 by (apply Rsqr_0_uniq; lra).
  assert (s1 - s2 = 0) as Q3 by (apply Rsqr_0_uniq; lra). f_equal; [f_equal|]; lra.
Qed.
(** C23 for three dimensions: at least the horizontal distance at the mean depth, and at
    least the vertical one unless this is below the tolerance of 1e-7 km. *)
Theorem C23_3d_partial lat1 lon1 dep1 lat2 lon2 dep2 : (dep1 + dep2) / 2 <= EARTH_RADIUS ->
  let h := distance lat1 lon1 lat2 lon2 ((dep1 + dep2) / 2) in let v := Rabs (dep1 - dep2) in
  let d := distance3 lat1 lon1 dep1 lat2 lon2 dep2 in
  0 <= d /\ h <= d /\ (1 / 10000000 <= v -> v <= d /\ square d = square h + square v) /\ v - 1 / 10000000 <= d <= h + v.
Proof.
  intros Hd h v d. pose proof (C23_range lat1 lon1 lat2 lon2 _ Hd) as [Ph _]. fold h in Ph.
  assert (0 <= v) as Pv by apply Rabs_pos.
  assert (d = if Rlt_dec v (1 / 10000000) then h else sqrt (square h + square v)) as E by reflexivity.
  destruct (Rlt_dec v (1 / 10000000)) as [L|G].
  - rewrite E. split; [exact Ph|]. split; [lra|]. split; [intros K; lra|lra].
  - pose proof (square_pos h) as Sh. pose proof (square_pos v) as Sv.
    assert (0 <= d) as Pd by (rewrite E; apply sqrt_pos).
    assert (square d = square h + square v) as E2 by (rewrite E; apply square_sqrt; lra).
    assert (h <= d) as Hh by (unfold square in *; nra). assert (v <= d) as Hv by (unfold square in *; nra).
    assert (d <= h + v) as Hs by (unfold square in *; nra).
    split; [exact Pd|]. split; [exact Hh|]. split; [intros _; split; assumption|lra].
Qed.
(** Below the tolerance the vertical distance is ignored. *)
Theorem C23_vertical_refuted : exists lat lon dep1 dep2,
  distance3 lat lon dep1 lat lon dep2 < Rabs (dep1 - dep2).
Proof.
  exists 46, 8, 10, (10 + 1 / 20000000). unfold distance3.
  rewrite (proj1 (C23_zero 46 8 0 ((10 + (10 + 1 / 20000000)) / 2))).
  replace (10 - (10 + 1 / 20000000)) with (- (1 / 20000000)) by lra. rewrite Rabs_Ropp, Rabs_right by lra.
  destruct (Rlt_dec (1 / 20000000) (1 / 10000000)); lra.
Qed.
(** A quarter of the equator. *)
Example quarter_equator : distance 0 0 0 90 0 = EARTH_RADIUS * PI / 2.
Proof.
  rewrite C23_arc_length. pose proof PI_RGT_0 as HPI. pose proof PI2_3_2.
  rewrite (angular_distance_eq _ _ _ _ (PI / 4)).
  - field.
  - unfold same_place, degToRad. intros [_ K]. rewrite Rabs_right in K; lra.
  - lra.
  - unfold haversine, degToRad. replace (PI * (0 - 0) / 180 / 2) with 0 by field. replace (PI * (90 - 0) / 180 / 2) with (PI / 4) by field.
    replace (PI * 0 / 180) with 0 by field. rewrite sin_0, cos_0. unfold square. ring.
Qed.
Example half_equator_3d : valid_lat 46 /\ ~ same_place 46 8 47 9.
Proof.
  split; [unfold valid_lat; lra|]. intros [K _]. rewrite Rabs_left in K; lra.
Qed.

Print Assumptions C21_normalize_lon.
Print Assumptions C21_normalize_azimuth.
Print Assumptions C21_lon_canonical.
Print Assumptions C21_azimuth_canonical.
Print Assumptions C21_lon_idempotent.
Print Assumptions C21_azimuth_idempotent.
Print Assumptions C21_lon_in_range.
Print Assumptions C21_azimuth_in_range.
Print Assumptions C23_great_circle.
Print Assumptions C23_arc_length.
Print Assumptions C23_range.
Print Assumptions C23_symmetric.
Print Assumptions C23_zero.
Print Assumptions C23_zero_only.
Print Assumptions C23_3d_partial.
Print Assumptions C23_vertical_refuted.
