(** C52: the projections SIMPLE and SDC are undone exactly; rotation and angles agree *)
From Coq Require Import Reals Lra Lia Nsatz.
From Verif Require Import Geo_Model Geo_Proofs Geo_Props Interp_Props Transform_Model.
Local Open Scope R_scope.

(** ** Rotation *)
Lemma rot_unit o : cosang o * cosang o + sinang o * sinang o = 1.
Proof. unfold cosang, sinang. pose proof (sin_cos_unit (- degToRad (o_rot o))) as H. unfold square in H. lra. Qed.
Theorem C52_rotation o p q :
  inverseRotate o (rotate o p) = p /\ rotate o (inverseRotate o p) = p /\
  plane_distance (fst (rotate o p)) (snd (rotate o p)) (fst (rotate o q)) (snd (rotate o q)) = plane_distance (fst p) (snd p) (fst q) (snd q).
Proof.
  pose proof (rot_unit o) as H. destruct p as [x y], q as [u v]. unfold rotate, inverseRotate, plane_distance, square. cbn [fst snd].
  split; [|split].
  - f_equal; nsatz.
  - f_equal; nsatz.
  - f_equal. nsatz.
Qed.
Print Assumptions C52_rotation.
(** A displacement of length d with the azimuth a has the azimuth a + rot afterwards *)
Theorem C52_azimuth o d a : rotate o (d * sin (degToRad a), d * cos (degToRad a)) = (d * sin (degToRad (a + o_rot o)), d * cos (degToRad (a + o_rot o))).
Proof.
  unfold rotate, cosang, sinang. cbn [fst snd]. rewrite degToRad_plus, sin_plus, cos_plus, cos_neg, sin_neg. f_equal; ring.
Qed.
(** The conversions of azimuths add and subtract the rotation modulo 360, and stay in [0,360] *)
Theorem C52_angles o a : -360 <= o_rot o <= 360 -> 0 <= a <= 360 ->
  same_angle (fromLatLonAngle o a) (a + o_rot o) /\ 0 <= fromLatLonAngle o a <= 360 /\
  same_angle (toLatLonAngle o a) (a - o_rot o) /\ 0 <= toLatLonAngle o a <= 360 /\
  same_angle (toLatLonAngle o (fromLatLonAngle o a)) a /\ same_angle (fromLatLonAngle o (toLatLonAngle o a)) a.
Proof.
  intros Hr Ha.
  assert (F : forall b, 0 <= b <= 360 -> same_angle (fromLatLonAngle o b) (b + o_rot o) /\ 0 <= fromLatLonAngle o b <= 360).
  { intros b Hb. unfold fromLatLonAngle. cbv zeta. destruct (Rlt_dec (b + o_rot o) 0) as [E|E]; [|destruct (Rlt_dec 360 (b + o_rot o)) as [E'|E']].
    - split; [exists 1%Z; ring|lra].
    - split; [exists (-1)%Z; lra|lra].
    - split; [apply same_angle_refl|lra]. }
  assert (T : forall b, 0 <= b <= 360 -> same_angle (toLatLonAngle o b) (b - o_rot o) /\ 0 <= toLatLonAngle o b <= 360).
  { intros b Hb. unfold toLatLonAngle. cbv zeta. destruct (Rlt_dec (b - o_rot o) 0) as [E|E]; [|destruct (Rlt_dec 360 (b - o_rot o)) as [E'|E']].
    - split; [exists 1%Z; ring|lra].
    - split; [exists (-1)%Z; lra|lra].
    - split; [apply same_angle_refl|lra]. }
  assert (S : forall x y z, same_angle x (y + z) -> same_angle (x - z) y) by (intros x y z [k Hk]; exists k; lra).
  assert (S' : forall x y z, same_angle x (y - z) -> same_angle (x + z) y) by (intros x y z [k Hk]; exists k; lra).
  destruct (F a Ha) as [F1 F2]. destruct (T a Ha) as [T1 T2].
  split; [exact F1|]. split; [exact F2|]. split; [exact T1|]. split; [exact T2|]. split.
  - apply same_angle_trans with (fromLatLonAngle o a - o_rot o); [apply T, F2|]. apply S, F1.
  - apply same_angle_trans with (toLatLonAngle o a + o_rot o); [apply F, T2|]. apply S', T1.
Qed.
Print Assumptions C52_angles.

(** ** The factors of SDC *)
Lemma DRLT_pos : 0 < DRLT. Proof. unfold DRLT. lra. Qed.
Lemma cos_atan_pos x : 0 < cos (atan x).
Proof. pose proof (atan_bound x). apply cos_gt_0; lra. Qed.
Lemma sdc_r_pos lat : 0 < sdc_r lat.
Proof.
  unfold sdc_r. apply Rmult_lt_0_compat; [unfold ERAD; lra|]. pose proof (sin_cos_unit (sdc_dlt lat)) as H. pose proof (square_pos (cos (sdc_dlt lat))). pose proof (square_pos (sin (sdc_dlt lat))).
  assert (square (sin (sdc_dlt lat)) * FLATTENING <= 1 * FLATTENING) by (apply Rmult_le_compat_r; [unfold FLATTENING; lra|lra]).
  assert (FLATTENING < 1) by (unfold FLATTENING; lra). lra.
Qed.
Lemma degToRad_lt a b : a < b -> degToRad a < degToRad b.
Proof. intros H. unfold degToRad. pose proof PI_RGT_0. assert (PI * a < PI * b) by (apply Rmult_lt_compat_l; lra). lra. Qed.
Lemma degToRad_90 : degToRad 90 = PI / 2. Proof. unfold degToRad. field. Qed.
Lemma degToRad_m90 : degToRad (-90) = - (PI / 2). Proof. unfold degToRad. field. Qed.
Lemma tan_period x : cos x <> 0 -> tan (x - PI) = tan x.
Proof.
  intros H. unfold tan. replace (x - PI) with (- (PI - x)) by ring. rewrite sin_neg, cos_neg.
  rewrite (sin_PI_x x). replace (cos (PI - x)) with (- cos x) by (rewrite cos_minus, cos_PI, sin_PI; ring). field. exact H.
Qed.
Theorem C52_sdc_factors lat : -90 < lat < 89 -> 0 < sdc_xltkm lat /\ 0 < sdc_xlnkm lat.
Proof.
  intros [H1 H2]. pose proof (sdc_r_pos lat) as Hr. split.
  - unfold sdc_xltkm. apply Rmult_lt_0_compat; [exact Hr|]. enough (sdc_dlt lat < sdc_dlt (lat + 1)) by lra.
    unfold sdc_dlt. apply atan_increasing. apply Rmult_lt_compat_l; [exact DRLT_pos|].
    apply tan_increasing; [replace (- PI / 2) with (degToRad (-90)) by (unfold degToRad; field); apply
 degToRad_lt; lra|apply degToRad_lt; lra|rewrite <- degToRad_90; apply degToRad_lt; lra].
  - unfold sdc_xlnkm. set (c := cos (sdc_dlt lat)). assert (Hc : 0 < c) by apply cos_atan_pos.
    assert (Hc1 : square c <= 1) by (pose proof (sin_cos_unit (sdc_dlt lat)) as K; fold c in K; pose proof (square_pos (sin (sdc_dlt lat))); lra).
    assert (Hc0 : 0 < square c) by (unfold square; apply Rmult_lt_0_compat; exact Hc).
    assert (Hd : 0 < 1 - cos (degToRad 1) < 1).
    { assert (0 < degToRad 1 < PI / 2) by (split; [pose proof (degToRad_lt 0 1 ltac:(lra)) as K; unfold degToRad in *; lra|rewrite <- degToRad_90; apply degToRad_lt; lra]).
      pose proof PI_RGT_0. pose proof (cos_gt_0 (degToRad 1) ltac:(lra) ltac:(lra)). pose proof (cos_decreasing_1 0 (degToRad 1) ltac:(lra) ltac:(lra) ltac:(lra) ltac:(lra) ltac:(lra)) as K.
      rewrite cos_0 in K. lra. }
    set (e := 1 - cos (degToRad 1)) in *.
    assert (Hes : 0 < e * square c < 1) by (split; [apply Rmult_lt_0_compat; lra|]; apply Rle_lt_trans with (e * 1); [apply Rmult_le_compat_l; lra|lra]).
    apply Rdiv_lt_0_compat; [|exact Hc]. apply Rmult_lt_0_compat; [exact Hr|].
    pose proof (acos_bound (1 - e * square c)) as [Ha _]. destruct (Rle_lt_or_eq_dec _ _ Ha) as [Ha'|Ha']; [exact Ha'|].
    exfalso. pose proof (cos_acos (1 - e * square c) ltac:(lra)) as K. rewrite <- Ha', cos_0 in K. lra.
Qed.
Print Assumptions C52_sdc_factors.
(** Within one degree of the north pole the factor of the latitude has the wrong sign: the
    coordinate y decreases towards the north *)
Theorem C52_sdc_pole_refuted : exists lat, -90 <= lat <= 90 /\ sdc_xltkm lat < 0.
Proof.
  exists (179 / 2). split; [lra|]. unfold sdc_xltkm. pose proof (sdc_r_pos (179 / 2)) as Hr.
  enough (sdc_dlt (179 / 2 + 1) - sdc_dlt (179 / 2) < 0) by (apply Ropp_lt_cancel; rewrite Ropp_0, Ropp_mult_distr_r; apply Rmult_lt_0_compat; lra).
  enough (sdc_dlt (179 / 2 + 1) < sdc_dlt (179 / 2)) by lra. unfold sdc_dlt. apply atan_increasing, Rmult_lt_compat_l; [exact DRLT_pos|].
  assert (Hb : forall d, 0 < d < 90 -> 0 < tan (degToRad d)) by (intros d Hd; apply tan_gt_0; [pose proof (degToRad_lt 0 d ltac:(lra)) as K; unfold degToRad in *; lra|rewrite <- degToRad_90; apply degToRad_lt; lra]).
  pose proof (Hb (179 / 2) ltac:(lra)) as K. assert (tan (degToRad (179 / 2 + 1)) < 0); [|lra].
  assert (Ec : cos (degToRad (179 / 2 + 1)) <> 0).
  { apply Rlt_not_eq. apply cos_lt_0; [rewrite <- degToRad_90; apply degToRad_lt; lra|]. replace (3 * (PI / 2)) with (degToRad 270) by (unfold degToRad; field). apply degToRad_lt. lra. }
  rewrite <- (tan_period _ Ec). replace (degToRad (179 / 2 + 1) - PI) with (- degToRad (179 / 2)) by (unfold degToRad; field).
  rewrite tan_neg. lra.
Qed.
Print Assumptions C52_sdc_pole_refuted.

(** ** Forward and back *)
Lemma c111_pos : 0 < c111. Proof. unfold c111. pose proof PI_RGT_0. lra. Qed.
Lemma cos_lat_pos lat : -90 < lat < 90 -> 0 < cos (degToRad lat).
Proof. intros H. apply cos_gt_0; [rewrite <- degToRad_m90; apply degToRad_lt; lra|rewrite <- degToRad_90; apply degToRad_lt; lra]. Qed.
(** The transforms that the header of a grid can give, where the factors make sense *)
Definition sane (t : transform) (lat : R) : Prop :=
  match t with
  | Global => True
  | Simple o => -90 < lat < 90
  | Sdc o xltkm xlnkm => xltkm <> 0 /\ xlnkm <> 0 /\ -180 < lat + o_lat o < 180
  end.
(** The longitude of GLOBAL is not normalised *)
Definition norm_lon (t : transform) (lon : R) : R := match t with Global => lon | _ => normalizeLon lon end.
Lemma lon_back o lon : normalizeLon (o_lon o + normalizeLon (lon - o_lon o)) = normalizeLon lon.
Proof.
  apply C21_lon_canonical. destruct (C21_normalize_lon (lon - o_lon o)) as [[k Hk] _]. exists k. lra.
Qed.
Lemma geographic_back o (fx fy : R -> R) lat lon : fx lat <> 0 -> fy lat <> 0 ->
  let q := inverseRotate o (rotate o (normalizeLon (lon - o_lon o) * fx lat, (lat - o_lat o) * fy lat)) in
  o_lat o + snd q / fy lat = lat /\ normalizeLon (o_lon o + fst q / fx lat) = normalizeLon lon.
Proof.
  intros Hx Hy. cbv zeta. rewrite (proj1 (C52_rotation o _ (0, 0))). cbn [fst snd]. split; [field; exact Hy|].
  replace (normalizeLon (lon - o_lon o) * fx lat / fx lat) with (normalizeLon (lon - o_lon o)) by (field; exact Hx). apply lon_back.
Qed.
Theorem C52_there_and_back t lat lon : sane t lat ->
  let p := fromLatLon t lat lon in toLatLon t (fst p) (snd p) = (lat, norm_lon t lon).
Proof.
  intros H. cbv zeta. destruct t as [|o|o xltkm xlnkm]; cbn [sane] in H.
  - reflexivity.
  - unfold fromLatLon, toLatLon, simple_from, simple_to. rewrite <- surjective_pairing.
    destruct (geographic_back o (fun l => c111 * cos (degToRad l)) (fun _ => c111) lat lon) as [E1 E2].
    { pose proof c111_pos. pose proof (cos_lat_pos lat H). apply Rgt_not_eq. apply Rmult_lt_0_compat; assumption. }
    { pose proof c111_pos. lra. }
    cbv zeta beta in E1, E2 |- *. rewrite E1, E2. reflexivity.
  - destruct H as (H1 & H2 & H3). unfold fromLatLon, toLatLon, sdc_from, sdc_to. rewrite <- surjective_pairing.
    destruct (geographic_back o (fun l => xlnkm * cos (sdc_xlt1 o l)) (fun _ => xltkm) lat lon) as [E1 E2].
    { apply Rmult_integral_contrapositive_currified; [exact H2|]. apply Rgt_not_eq, cos_atan_pos. }
    { exact H1. }
    cbv zeta beta in E1, E2 |- *. rewrite E1, E2. reflexivity.
Qed.
Print Assumptions C52_there_and_back.
(** From the plane and back: as long as the longitude is less than half a turn away from the
    origin *)
Theorem C52_back_and_there t x y : let g := toLatLon t x y in sane t (fst g) ->
  match t with
  | Global => True
  | Simple o => -180 <= fst (inverseRotate o (x, y)) / (c111 * cos (degToRad (fst g))) < 180
  | Sdc o xltkm xlnkm => -180 <= fst (inverseRotate o (x, y)) / (xlnkm * cos (sdc_xlt1 o (fst g))) < 180
  end -> fromLatLon t (fst g) (snd g) = (x, y).
Proof.
  cbv zeta. intros Hs Hl. destruct t as [|o|o xltkm xlnkm].
  - reflexivity.
  - unfold fromLatLon, toLatLon, simple_from, simple_to in *. cbv zeta in *. cbn [fst snd sane] in *. set (q := inverseRotate o (x, y)) in *. set (lat := o_lat o + snd q / c111) in *.
    pose proof c111_pos as Hc. pose proof (cos_lat_pos lat Hs) as Hcl. set (f := c111 * cos (degToRad lat)) in *. assert (Hf : 0 < f) by (apply Rmult_lt_0_compat; assumption).
    assert (E : normalizeLon (normalizeLon (o_lon o + fst q / f) - o_lon o) = fst q / f).
    { transitivity (normalizeLon (fst q / f)); [|apply C21_lon_in_range; exact Hl]. apply C21_lon_canonical.
      destruct (C21_normalize_lon (o_lon o + fst q / f)) as [[k Hk] _]. exists k. lra. }
    rewrite E. replace (fst q / f * f) with (fst q) by (field; lra). replace ((lat - o_lat o) * c111) with (snd q) by (unfold lat; field; lra).
    rewrite <- surjective_pairing. unfold q. apply (proj1 (proj2 (C52_rotation o (x, y) (0, 0)))).
  - destruct Hs as (H1 & H2 & _). unfold fromLatLon, toLatLon, sdc_from, sdc_to in *. cbv zeta in *. cbn [fst snd] in *. set (q := inverseRotate o (x, y)) in *. set (lat := o_lat o + snd q / xltkm) in *.
    set (f := xlnkm * cos (sdc_xlt1 o lat)) in *. assert (Hf : f <> 0) by (apply Rmult_integral_contrapositive_currified; [exact H2|apply Rgt_not_eq, cos_atan_pos]).
    assert (E : normalizeLon (normalizeLon (o_lon o + fst q / f) - o_lon o) = fst q / f).
    { transitivity (normalizeLon (fst q / f)); [|apply C21_lon_in_range; exact Hl]. apply C21_lon_canonical.
      destruct (C21_normalize_lon (o_lon o + fst q / f)) as [[k Hk] _]. exists k. lra. }
    rewrite E. replace (fst q / f * f) with (fst q) by (field; exact Hf). replace ((lat - o_lat o) * xltkm) with (snd q) by (unfold lat; field; exact H1).
    rewrite <- surjective_pairing. unfold q. apply (proj1 (proj2 (C52_rotation o (x, y) (0, 0)))).
Qed.
Print Assumptions C52_back_and_there.

(** ** Origin and orientation *)
(** The origin is at (0,0); a point k km north of it is at distance k in the direction of the
    rotation, a point of the same latitude to the east in the direction of the rotation plus 90
    degrees. The scales are those of a degree at the origin. *)
Definition scale_lat (t : transform) : R := match t with Global => 1 | Simple _ => c111 | Sdc _ a _ => a end.
Theorem C52_orientation t o d : (t = Simple o \/ exists a b, t = Sdc o a b) ->
  fromLatLon t (o_lat o) (o_lon o) = (0, 0) /\
  fromLatLon t (o_lat o + d) (o_lon o) = (scale_lat t * d * sin (degToRad (o_rot o)), scale_lat t * d * cos (degToRad (o_rot o))) /\
  (-180 <= d < 180 -> exists e, fromLatLon t (o_lat o) (o_lon o + d) = (e * d * sin (degToRad (90 + o_rot o)), e * d * cos (degToRad (90 + o_rot o))) /\
    (match t with Global => True | Simple _ => e = c111 * cos (degToRad (o_lat o)) | Sdc _ _ b => e = b * cos (sdc_dlt (o_lat o)) end)).
Proof.
  intros Ht.
  assert (H0 : normalizeLon (o_lon o - o_lon o) = 0) by (rewrite Rminus_diag_eq by reflexivity; apply C21_lon_in_range; lra).
  assert (S90 : sin (degToRad 90) = 1) by (rewrite degToRad_90; apply sin_PI2). assert (C90 : cos (degToRad 90) = 0) by (rewrite degToRad_90; apply cos_PI2).
  assert (Sd0 : sin (degToRad 0) = 0 /\ cos (degToRad 0) = 1) by (unfold degToRad; replace (PI * 0 / 180) with 0 by field; rewrite sin_0, cos_0; split; reflexivity). destruct Sd0 as [S0 C0].
  assert (North : forall k, rotate o (0, k) = (k * sin (degToRad (o_rot o)), k * cos (degToRad (o_rot o)))).
  { intros k. pose proof (C52_azimuth o k 0) as K. rewrite S0, C0, Rplus_0_l in K. rewrite <- K. f_equal. f_equal; ring. }
  assert (East : forall k, rotate o (k, 0) = (k * sin (degToRad (90 + o_rot o)), k * cos (degToRad (90 + o_rot o)))).
  { intros k. pose proof (C52_azimuth o k 90) as K. rewrite S90, C90 in K. rewrite <- K. f_equal. f_equal; ring. }
  assert (Hd : -180 <= d < 180 -> normalizeLon (o_lon o + d - o_lon o) = d) by (intros Hd; replace (o_lon o + d - o_lon o) with d by ring; apply C21_lon_in_range; exact Hd).
  destruct Ht as [->|(a & b & ->)]; unfold fromLatLon, simple_from, sdc_from, scale_lat; rewrite H0.
  - split; [|split].
    + rewrite Rmult_0_l. replace ((o_lat o - o_lat o) * c111) with 0 by ring. rewrite North. f_equal; ring.
    + rewrite Rmult_0_l. replace ((o_lat o + d - o_lat o) * c111) with (c111 * d) by ring. apply North.
    + intros K. exists (c111 * cos (degToRad (o_lat o))). split; [|reflexivity]. rewrite (Hd K). replace ((o_lat o - o_lat o) * c111) with 0 by ring.
      rewrite (Rmult_comm d). apply East.
  - split; [|split].
    + rewrite Rmult_0_l. replace ((o_lat o - o_lat o) * a) with 0 by ring. rewrite North. f_equal; ring.
    + rewrite Rmult_0_l. replace ((o_lat o + d - o_lat o) * a) with (a * d) by ring. apply North.
    + intros K. exists (b * cos (sdc_dlt (o_lat o))). split; [|reflexivity]. rewrite (Hd K). replace ((o_lat o - o_lat o) * a) with 0 by ring.
      replace (sdc_xlt1 o (o_lat o)) with (sdc_dlt (o_lat o)) by (unfold sdc_xlt1, sdc_dlt; do 3 f_equal; unfold degToRad; field).
      rewrite (Rmult_comm d). apply East.
Qed.
Print Assumptions C52_orientation.

(** ** What a header can give *)
Theorem C52_header t lat lon rot tr : make t lat lon rot = Some tr -> forall l, -90 < l < 90 ->
  (t = TSdc -> -90 < lat < 89) -> sane tr l.
Proof.
  intros H l Hl Hs. destruct t; cbn [make] in H.
  - injection H as <-. exact I.
  - destruct (check_origin _); [|discriminate]. injection H as <-. exact Hl.
  - destruct (check_origin (Origin lat lon rot)) as [o|] eqn:E; [|discriminate]. injection H as <-.
    assert (o = Origin lat lon rot) as ->.
    { unfold check_origin in E. repeat (destruct (Rlt_dec _ _); [discriminate|]). injection E as <-. reflexivity. }
    specialize (Hs eq_refl). destruct (C52_sdc_factors lat Hs). cbn [sane o_lat]. lra.
Qed.
Theorem C52_header_checked lat lon rot : (exists o, check_origin (Origin lat lon rot) = Some o) <-> -90 <= lat <= 90 /\ -180 <= lon <= 180 /\ -360 <= rot <= 360.
Proof.
  unfold check_origin. cbn [o_lat o_lon o_rot].
  split.
  - intros [o H]. repeat (destruct (Rlt_dec _ _); [discriminate|]). lra.
  - intros H. repeat (destruct (Rlt_dec _ _); [lra|]). eexists. reflexivity.
Qed.
Print Assumptions C52_header.
Print Assumptions C52_header_checked.
(** At the pole SIMPLE loses the longitude *)
Theorem C52_pole_refuted : exists o lon lon', normalizeLon lon <> normalizeLon lon' /\ simple_from o 90 lon = simple_from o 90 lon'.
Proof.
  exists (Origin 0 0 0), 0, 10. split; [rewrite !C21_lon_in_range by lra; lra|].
  unfold simple_from. rewrite degToRad_90, cos_PI2. f_equal. f_equal. ring.
Qed.
Print Assumptions C52_pole_refuted.

(** A concrete case *)
Example ex_transform : exists tr, make TSdc 46 8 30 = Some tr /\ sane tr 47 /\ (exists tr', make TSimple 46 8 (-30) = Some tr' /\ sane tr' 47) /\
  (-360 <= o_rot (Origin 46 8 30) <= 360).
Proof.
  assert (E : forall r, -360 <= r <= 360 -> check_origin (Origin 46 8 r) = Some (Origin 46 8 r)).
  { intros r Hr. unfold check_origin. cbn [o_lat o_lon o_rot]. repeat (destruct (Rlt_dec _ _); [lra|]). reflexivity. }
  exists (Sdc (Origin 46 8 30) (sdc_xltkm 46) (sdc_xlnkm 46)). assert (M : make TSdc 46 8 30 = Some (Sdc (Origin 46 8 30) (sdc_xltkm 46) (sdc_xlnkm 46))) by (unfold make; rewrite E by lra; reflexivity).
  split; [exact M|]. split; [apply (C52_header _ _ _ _ _ M); [lra|intros _; lra]|]. split; [|cbn; lra].
  exists (Simple (Origin 46 8 (-30))). split; [unfold make; rewrite E by lra; reflexivity|cbn; lra].
Qed.
