(** Coordinates of a point at a given azimuth and distance (C65). *)
From Coq Require Import Reals Lra Lia.
From Verif Require Import Geo_Model Geo_Proofs Geo_Props Interp_Model Interp_Props.
Local Open Scope R_scope.

Lemma unit_vec_same_lon lat a b : same_angle a b -> unit_vec lat a = unit_vec lat b.
Proof. intros H. unfold unit_vec. destruct (same_angle_trig _ _ H) as [-> ->]. reflexivity. Qed.
Lemma asin_props s : -1 <= s <= 1 -> - (PI / 2) <= asin s <= PI / 2 /\ sin (asin s) = s /\ 0 <= cos (asin s).
Proof.
  intros H. pose proof (asin_bound s) as B. split; [exact B|]. split; [apply sin_asin; exact H|]. apply cos_ge_0; lra.
Qed.

Section target.
  Context (dist az clat clon : R).
  Hypothesis Hlat : valid_lat clat.
  Hypothesis Hd : 0 < dist < PI.
  Let f := degToRad clat.
  Let S := sin f * cos dist + cos f * sin dist * cos az.
  Let Y := sin az * sin dist * cos f.
  Let X := cos dist - sin f * S.
  Let d := atan2 Y X.
  Let lat := fst (coordinates dist az clat clon).
  Let lon := snd (coordinates dist az clat clon).

  Lemma cos_f_nonneg : 0 <= cos f.
  Proof using Hlat. pose proof PI_RGT_0. unfold valid_lat in Hlat. apply cos_ge_0; unfold f, degToRad; nra. Qed.
  Lemma XY_square : square X + square Y = square (cos f) * (1 - square S).
  Proof using.
    pose proof (sin_cos_unit f) as U1. pose proof (sin_cos_unit dist) as U2. pose proof (sin_cos_unit az) as U3.
    unfold X, Y, S. unfold square in *.
    set (a := sin f) in *. set (b := cos f) in *. set (c := sin dist) in *. set (e := cos dist) in *. set (g := sin az) in *. set (h := cos az) in *.
    assert (a * a = 1 - b * b) as E1 by lra. assert (c * c = 1 - e * e) as E2 by lra. assert (g * g = 1 - h * h) as E3 by lra.
    transitivity (e * e - 2 * (e * e) * (a * a) - 2 * a * e * b * c * h + (a * a) * (a * a) * (e * e) + 2 * (a * a) * a * e * b * c * h +
                  (a * a) * (b * b) * (c * c) * (h * h) + (g * g) * (c * c) * (b * b)); [ring|].
    rewrite E3. transitivity (b * b * (1 - (a * a) * (e * e) - 2 * a * e * b * c * h - (b * b) * (c * c) * (h * h))); [|ring].
    transitivity (e * e * (1 - a * a) * (1 - a * a) - 2 * a * e * b * c * h * (1 - a * a) + (c * c) * (b * b) * (1 - h * h * (1 - a * a))); [ring|].
    rewrite E1, E2. ring.
  Qed.
  Lemma S_range : -1 <= S <= 1.
  Proof using.
    pose proof (sin_cos_unit f) as U1. pose proof (sin_cos_unit dist) as U2. pose proof (COS_bound az) as B.
    assert (square S <= 1); [|unfold square in *; nra].
    unfold S. unfold square in *. set (a := sin f) in *. set (b := cos f) in *. set (c := sin dist) in *. set (e := cos dist) in *. set (h := cos az) in *. clearbody a b c e h.
    assert ((a * a + b * b * (h * h)) * (e * e + c * c) - (a * e + b * c * h) * (a * e + b * c * h) = (a * c - b * h * e) * (a * c - b * h * e)) as L by ring.
    pose proof (Rle_0_sqr (a * c - b * h * e)) as P. unfold Rsqr in P.
    assert (h * h <= 1) by nra. assert (b * b * (h * h) <= b * b) by nra. replace (e * e + c * c) with 1 in L by lra. lra.
  Qed.
  Lemma lat_eq : degToRad lat = asin S /\ sin (degToRad lat) = S /\ 0 <= cos (degToRad lat) /\ square (cos (degToRad lat)) = 1 - square S.
  Proof using Hd.
    assert (degToRad lat = asin S) as E.
    { unfold lat, coordinates. destruct (Req_EM_T dist 0); [lra|]. cbn [fst]. rewrite degToRad_radToDeg. reflexivity. }
    rewrite E. destruct (asin_props S S_range) as (_ & E1 & E2). split; [reflexivity|]. split; [exact E1|]. split; [exact E2|].
    pose proof (sin_cos_unit (asin S)) as U. rewrite E1 in U. lra.
  Qed.
  Lemma lon_eq : exists k : Z, degToRad lon = degToRad clon + d + 2 * IZR k * PI.
  Proof using Hd.
    destruct lat_eq as (_ & Es & _). unfold lon. unfold lat in Es. unfold coordinates in *. destruct (Req_EM_T dist 0); [lra|]. cbn [snd fst] in *.
    rewrite degToRad_radToDeg in Es. fold f in Es |- *. fold S in Es |- *. rewrite Es. fold X. fold Y. fold d.
    destruct (C21_normalize_lon (radToDeg (degToRad clon + d))) as [[k E] _]. exists k. rewrite E.
    rewrite degToRad_plus, degToRad_radToDeg. unfold degToRad. field.
  Qed.
  Lemma polar : cos f * cos (degToRad lat) * cos d = X /\ cos f * cos (degToRad lat) * sin d = Y.
  Proof using Hlat Hd.
    destruct lat_eq as (_ & Es & Hc & Ec). pose proof cos_f_nonneg as Hf. pose proof XY_square as E.
    set (r := cos f * cos (degToRad lat)). assert (0 <= r) as Hr by (apply Rmult_le_pos; assumption).
    assert (square X + square Y = square r) as E'. { unfold r. rewrite E, <- Ec. unfold square. ring. }
    destruct (Req_dec r 0) as [Z|N].
    - rewrite Z in *. assert (X = 0) by (unfold square in *; nra). assert (Y = 0) by (unfold square in *; nra). lra.
    - assert (X <> 0 \/ Y <> 0) as NZ.
      { destruct (Req_dec X 0) as [->|NX]; [right; intros ->; unfold square in *; nra|left; exact NX]. }
      destruct (atan2_polar Y X NZ) as (_ & HX & HY). fold d in HX, HY. rewrite E', sqrt_square in HX, HY by exact Hr. split; congruence.
  Qed.
  Lemma lon_trig g : cos (degToRad lon - degToRad clon + g) = cos (d + g) /\ sin (degToRad lon - degToRad clon + g) = sin (d + g).
  Proof using Hd.
    destruct lon_eq as [k E]. replace (degToRad lon - degToRad clon + g) with (d + g + 2 * IZR k * PI) by (rewrite E; ring).
    split; apply sin_cos_turns.
  Qed.
  (** C65: the new point is a valid position ... *)
  Lemma target_valid : valid_lat lat /\ -180 <= lon < 180.
  Proof using Hd.
    split.
    - destruct lat_eq as (E & _). destruct (asin_props S S_range) as (B & _). rewrite <- E in B. pose proof PI_RGT_0.
      unfold valid_lat. unfold degToRad in B. nra.
    - unfold lon, coordinates. destruct (Req_EM_T dist 0); [lra|]. cbn [snd]. apply C21_normalize_lon.
  Qed.
  Lemma target_dot : dot (unit_vec clat clon) (unit_vec lat lon) = cos dist.
  Proof using Hlat Hd.
    rewrite <- haversine_dot. unfold haversine.
    assert (forall x, square (sin (x / 2)) = (1 - cos x) / 2) as H.
    { intros x. replace (cos x) with (cos (2 * (x / 2))) by (f_equal; field). rewrite cos_2a_sin. unfold square. field. }
    rewrite !H, !degToRad_minus. destruct (lon_trig 0) as [E _]. rewrite !Rplus_0_r in E. rewrite E.
    rewrite cos_minus. destruct lat_eq as (_ & Es & _). rewrite Es. fold f. destruct polar as [P _].
    transitivity (S * sin f + cos f * cos (degToRad lat) * cos d); [field|]. rewrite P. unfold X. ring.
  Qed.
  Lemma target_azimuth : 0 < cos f -> - PI < az <= PI -> ~ same_place clat clon lat lon -> azimuth clat clon lat lon = az.
  Proof using Hlat Hd.
    intros Hf Haz N. unfold azimuth. destruct (same_place_dec clat clon lat lon) as [K|_]; [contradiction|].
    rewrite degToRad_minus. destruct (lon_trig 0) as [E1 E2]. rewrite !Rplus_0_r in E1, E2. rewrite E1, E2. fold f.
    destruct lat_eq as (_ & Es & _). rewrite Es. destruct polar as [P1 P2]. pose proof (sin_cos_unit f) as U.
    assert (sin d * cos (degToRad lat) = sin dist * sin az) as ->.
    { apply (Rmult_eq_reg_l (cos f)); [|lra]. transitivity (cos f * cos (degToRad lat) * sin d); [ring|]. rewrite P2. unfold Y. ring. }
    assert (cos f * S - sin f * cos (degToRad lat) * cos d = sin dist * cos az) as ->.
    { apply (Rmult_eq_reg_l (cos f)); [|lra].
      transitivity (square (cos f) * S - sin f * (cos f * cos (degToRad lat) * cos d)); [unfold square; ring|]. rewrite P1.
      transitivity (S * (square (sin f) + square (cos f)) - sin f * cos dist); [unfold X, square; ring|]. rewrite U. unfold S. ring. }
    apply atan2_of_polar; [apply sin_gt_0; lra|exact Haz].
  Qed.
End target.

(** C65: the returned point is a valid position at exactly the requested distance ... *)
Theorem C65_distance dist az clat clon : valid_lat clat -> 0 < dist < PI ->
  let (lat, lon) := coordinates dist az clat clon in
  valid_lat lat /\ -180 <= lon < 180 /\ dot (unit_vec clat clon) (unit_vec lat lon) = cos dist /\
  (~ same_place clat clon lat lon -> angular_distance clat clon lat lon = dist).
Proof.
  intros V Hd. destruct (coordinates dist az clat clon) as [lat lon] eqn:E.
  pose proof (target_valid dist az clat clon Hd) as [T1 T2]. pose proof (target_dot dist az clat clon V Hd) as T3.
  rewrite E in T1, T2, T3. cbn [fst snd] in *. split; [exact T1|]. split; [exact T2|]. split; [exact T3|]. intros N.
  destruct (C23_great_circle _ _ _ _ V T1 N) as [R2 C]. rewrite T3 in C.
  pose proof PI_RGT_0. destruct (Rtotal_order (angular_distance clat clon lat lon) dist) as [L|[Q|G]]; [|exact Q|].
  - assert (cos dist < cos (angular_distance clat clon lat lon)) by (apply cos_decreasing_1; lra). lra.
  - assert (cos (angular_distance clat clon lat lon) < cos dist) by (apply cos_decreasing_1; lra). lra.
Qed.
(** ... in exactly the requested direction, unless the start is a pole. *)
Theorem C65_azimuth dist az clat clon : -90 < clat < 90 -> 0 < dist < PI -> - PI < az <= PI ->
  let (lat, lon) := coordinates dist az clat clon in
  ~ same_place clat clon lat lon -> azimuth clat clon lat lon = az.
Proof.
  intros V Hd Haz. destruct (coordinates dist az clat clon) as [lat lon] eqn:E. intros N.
  assert (valid_lat clat) as V' by (unfold valid_lat; lra).
  pose proof (target_azimuth dist az clat clon V' Hd) as T. rewrite E in T. cbn [fst snd] in T. apply T; [|exact Haz|exact N].
  pose proof PI_RGT_0. apply cos_gt_0; unfold degToRad; nra.
Qed.
(** In kilometres, at any depth above the centre of the Earth. *)
Theorem C65_distance_km dist az clat clon depth : valid_lat clat -> depth < EARTH_RADIUS ->
  0 < dist < PI * (EARTH_RADIUS - depth) ->
  let (lat, lon) := coordinates_km dist az clat clon depth in
  ~ same_place clat clon lat lon -> distance clat clon lat lon depth = dist.
Proof.
  intros V Hr Hd. destruct (coordinates_km dist az clat clon depth) as [lat lon] eqn:E. intros N.
  unfold coordinates_km in E. destruct (Req_EM_T dist 0); [lra|].
  assert (0 < km2rad dist depth < PI) as Hk.
  { unfold km2rad. split; [apply Rdiv_lt_0_compat; lra|]. apply (Rmult_lt_reg_r (EARTH_RADIUS - depth)); [lra|].
    unfold Rdiv. rewrite Rmult_assoc, Rinv_l by lra. lra. }
  pose proof (C65_distance (km2rad dist depth) az clat clon V Hk) as T. rewrite E in T. destruct T as (_ & _ & _ & T).
  rewrite C23_arc_length, (T N). unfold km2rad. field. lra.
Qed.
(** The start point is returned for distance zero. *)
Theorem C65_zero az clat clon depth : coordinates 0 az clat clon = (clat, clon) /\ coordinates_km 0 az clat clon depth = (clat, clon).
Proof. unfold coordinates_km, coordinates. destruct (Req_EM_T 0 0); [split; reflexivity|lra]. Qed.
(** The hypotheses hold for a point a tenth of a radian east of Zurich: it is not in the same place. *)
Example far_point : let (lat, lon) := coordinates (1 / 10) (PI / 2) 47 8 in ~ same_place 47 8 lat lon.
Proof.
  pose proof PI_RGT_0 as HPI. pose proof PI2_3_2 as HP2. pose proof PI_4 as HP4.
  assert (valid_lat 47) as V by (unfold valid_lat; lra).
  pose proof (C65_distance (1 / 10) (PI / 2) 47 8 V ltac:(lra)) as T.
  destruct (coordinates (1 / 10) (PI / 2) 47 8) as [lat lon]. destruct T as (V2 & _ & D & _). intros [S1 S2].
  rewrite <- haversine_dot in D.
  assert (haversine 47 8 lat lon <= 2 * (1 / 10000)) as H.
  { unfold haversine.
    assert (forall x, Rabs x < 1 / 1000 -> square (sin x) <= 1 / 10000) as K.
    { intros x Hx. assert (Rabs (sin x) <= Rabs x) as HS.
      { destruct (Rle_dec 0 x) as [P|P].
        - rewrite (Rabs_right x) in * by lra. rewrite Rabs_right by (apply Rle_ge, sin_ge_0; lra).
          destruct (Req_dec x 0) as [->|N]; [rewrite sin_0; lra|]. left. apply sin_lt_x. lra.
        - rewrite (Rabs_left x) in * by lra. rewrite <- Rabs_Ropp, <- sin_neg, Rabs_right by (apply Rle_ge, sin_ge_0; lra).
          left. apply sin_lt_x. lra. }
      unfold square. rewrite <- (Rabs_right (sin x * sin x)) by (apply Rle_ge; nra). rewrite Rabs_mult. pose proof (Rabs_pos (sin x)). nra. }
    assert (square (sin (degToRad (lat - 47) / 2)) <= 1 / 10000) as K1.
    { apply K. unfold degToRad. replace (PI * (lat - 47) / 180 / 2) with (- (PI / 360 * (47 - lat))) by field.
      rewrite Rabs_Ropp, Rabs_mult, (Rabs_right (PI / 360)) by lra. pose proof (Rabs_pos (47 - lat)). nra. }
    assert (square (sin (degToRad (lon - 8) / 2)) <= 1 / 10000) as K2.
    { apply K. replace (degToRad (lon - 8) / 2) with (1 / 2 * degToRad (lon - 8)) by field.
      rewrite Rabs_mult, (Rabs_right (1 / 2)) by lra. lra. }
    pose proof (COS_bound (degToRad 47)) as B1. pose proof (COS_bound (degToRad lat)) as B2.
    pose proof (square_pos (sin (degToRad (lon - 8) / 2))) as P.
    assert (cos (degToRad 47) * cos (degToRad lat) <= 1) by nra. nra. }
  assert (cos (1 / 10) <= 1 - 1 / 250) as HC.
  { replace (1 / 10) with (2 * (1 / 20)) by field. rewrite cos_2a_sin.
    assert (1 / 20 - (1 / 20) * (1 / 20) * (1 / 20) / 6 <= sin (1 / 20)) as HS; [|nra].
    destruct (pre_sin_bound (1 / 20) 0 ltac:(lra) ltac:(lra)) as [L _]. unfold sin_approx, sin_term in L. simpl in L. lra. }
  lra.
Qed.

Print Assumptions C65_distance.
Print Assumptions C65_azimuth.
Print Assumptions C65_distance_km.
Print Assumptions C65_zero.
