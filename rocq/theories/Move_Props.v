(** C70: the solution moves the event as the derivatives mean it. *)
From Coq Require Import Reals Lra String.
From Coquelicot Require Import Coquelicot.
From Verif Require Import Geo_Model Geo_Proofs Geo_Props Coord_Props Homogeneous_Model Homogeneous_Props Move_Model.
From Verif Require AddObs_Model Solver_Model.
Local Open Scope R_scope.

Lemma Int_part_bound x : IZR (Int_part x) <= x < IZR (Int_part x) + 1.
Proof. pose proof (base_Int_part x). lra. Qed.
Lemma rround_near x : Rabs (IZR (rround x) - x) <= 1 / 2.
Proof.
  unfold rround. destruct (Rlt_dec x 0).
  - rewrite opp_IZR. pose proof (Int_part_bound (- x + 1 / 2)). apply Rabs_le. lra.
  - pose proof (Int_part_bound (x + 1 / 2)). apply Rabs_le. lra.
Qed.

(** C70: the new epicentre lies deltaX east and deltaY north of the old one on the sphere of its
    depth: at the distance sqrt(dx^2+dy^2) and in that direction; the depth decreases by deltaZ and
    the time changes by deltaTime up to half a microsecond. *)
Theorem C70_move h dx dy dz dt :
  -90 < y_lat h < 90 -> y_depth h < EARTH_RADIUS ->
  0 < sqrt (square dx + square dy) < PI * (EARTH_RADIUS - y_depth h) ->
  let h' := move h dx dy dz dt in
  y_depth h' = y_depth h - dz /\
  Rabs (IZR (y_time h' - y_time h) / 1000000 - dt) <= 1 / 2000000 /\
  (~ same_place (y_lat h) (y_lon h) (y_lat h') (y_lon h') ->
   let d := distance (y_lat h) (y_lon h) (y_lat h') (y_lon h') (y_depth h) in
   let a := azimuth (y_lat h) (y_lon h) (y_lat h') (y_lon h') in
   d * sin a = dx /\ d * cos a = dy /\ d = sqrt (square dx + square dy)).
Proof.
  intros Hlat Hdep Hd h'. subst h'. unfold move.
  assert (dy <> 0 \/ dx <> 0) as Hn.
  { destruct (Req_dec dx 0) as [->|]; [|now right]. destruct (Req_dec dy 0) as [->|]; [|now left].
    replace (square 0 + square 0) with 0 in Hd by (unfold square; ring). rewrite sqrt_0 in Hd. lra. }
  destruct (atan2_polar dx dy Hn) as (Hr & Hc & Hs). replace (square dy + square dx) with (square dx + square dy) in * by ring.
  pose proof (atan2_range dx dy) as Ha.
  set (D := sqrt (square dx + square dy)) in *. set (A := atan2 dx dy) in *.
  assert (valid_lat (y_lat h)) as HV by (unfold valid_lat; lra).
  pose proof (C65_distance_km D A (y_lat h) (y_lon h) (y_depth h) HV Hdep Hd) as T1.
  assert (0 < km2rad D (y_depth h) < PI) as Hk.
  { unfold km2rad. split; [apply Rdiv_lt_0_compat; lra|]. apply (Rmult_lt_reg_r (EARTH_RADIUS - y_depth h)); [lra|].
    unfold Rdiv. rewrite Rmult_assoc, Rinv_l by lra. lra. }
  pose proof (C65_azimuth (km2rad D (y_depth h)) A (y_lat h) (y_lon h) Hlat Hk Ha) as T2.
  assert (coordinates_km D A (y_lat h) (y_lon h) (y_depth h) = coordinates (km2rad D (y_depth h)) A (y_lat h) (y_lon h)) as E.
  { unfold coordinates_km. destruct (Req_EM_T D 0); [lra|reflexivity]. }
  rewrite E in *. destruct (coordinates (km2rad D (y_depth h)) A (y_lat h) (y_lon h)) as [lat lon].
  cbn [y_lat y_lon y_depth y_time]. split; [reflexivity|]. split.
  - replace (y_time h + secToDur dt - y_time h)%Z with (secToDur dt) by ring. unfold secToDur.
    pose proof (rround_near (dt * 1000000)) as H. apply Rabs_le_between in H. apply Rabs_le. lra.
  - intros Hs'. cbv zeta. rewrite (T1 Hs'), (T2 Hs'). split; [now symmetry|]. split; [now symmetry|reflexivity].
Qed.
(** No horizontal change: the epicentre stays. *)
Theorem C70_still h dz dt :
  y_lat (move h 0 0 dz dt) = y_lat h /\ y_lon (move h 0 0 dz dt) = y_lon h.
Proof.
  unfold move. replace (square 0 + square 0) with 0 by (unfold square; ring). rewrite sqrt_0.
  destruct (C65_zero (atan2 0 0) (y_lat h) (y_lon h) (y_depth h)) as [_ ->]. split; reflexivity.
Qed.
Example C70_move_example : let h := Hypo 47 8 10 0 in
  -90 < y_lat h < 90 /\ y_depth h < EARTH_RADIUS /\ 0 < sqrt (square 3 + square 4) < PI * (EARTH_RADIUS - y_depth h).
Proof.
  cbn. unfold EARTH_RADIUS. split; [lra|]. split; [lra|].
  replace (square 3 + square 4) with (square 5) by (unfold square; lra). rewrite sqrt_square by lra.
  pose proof PI2_3_2. split; [lra|]. nra.
Qed.

(** ** The derivatives *)
(** Straight rays in the tangent space of the event: time from (x, y, z) to (X, Y, Z) (east, north, up) *)
Definition ray_time (v X Y Z x y z : R) : R := sqrt (square (X - x) + square (Y - y) + square (Z - z)) / v.

Lemma azi_angle a : cos (degToRad (90 - a)) = sin (degToRad a) /\ sin (degToRad (90 - a)) = cos (degToRad a).
Proof.
  replace (degToRad (90 - a)) with (PI / 2 - degToRad a) by (unfold degToRad; field).
  split; [apply cos_shift|apply sin_shift].
Qed.
Lemma deg_rad r : degToRad (radToDeg r) = r.
Proof. unfold degToRad, radToDeg. field. apply PI_neq0. Qed.

Lemma root_derive a c v : 0 < v -> 0 < a * a + c ->
  is_derive (fun x => sqrt ((a - x) * (a - x) + c) / v) 0 (- a / (sqrt (a * a + c) * v)).
Proof.
  intros Hv Hp. pose proof (sqrt_lt_R0 _ Hp) as Hs. auto_derive.
  - replace (a + - 0) with a by ring. exact Hp.
  - replace (a + - 0) with a by ring. field. split; lra.
Qed.

(** C70: with the homogeneous table the derivatives used by the solver are the partial derivatives,
    by the position of the event (east, north, up), of the travel time along the ray to the station
    seen at the horizontal distance, azimuth and height that the table uses. *)
Theorem C70_gradient h ela elo ed sla slo se ph r :
  good_velocities h -> (ed - se / 1000) / 2 <= EARTH_RADIUS ->
  compute_full h ela elo ed sla slo se ph = Some r ->
  let H := distance ela elo sla slo ((ed - se / 1000) / 2) in
  let V := ed + se / 1000 in
  let az := azimuth ela elo sla slo in
  0 < travelTime r ->
  exists v, velocity_of h ph = Some v /\
    let X := H * sin az in let Y := H * cos az in
    let '(dx, dy, dz) := derivatives (takeOffAzi r) (dtdd r) (dtdh r) in
    travelTime r = ray_time v X Y V 0 0 0 /\
    is_derive (fun x => ray_time v X Y V x 0 0) 0 dx /\
    is_derive (fun y => ray_time v X Y V 0 y 0) 0 dy /\
    is_derive (fun z => ray_time v X Y V 0 0 z) 0 dz.
Proof.
  intros Hv Hd Hr H V az Ht. unfold compute_full in Hr.
  destruct (velocity_of h ph) as [v|] eqn:Ev; [|discriminate]. injection Hr as <-.
  exists v. split; [reflexivity|]. cbn [travelTime takeOffAzi dtdd dtdh] in *. fold H in Ht |- *. fold V in Ht |- *. fold az.
  assert (0 < v) as Hv0.
  { unfold velocity_of in Ev. destruct Hv as [Hp Hsv].
    destruct (String.eqb ph "P"); [injection Ev as <-; lra|]. destruct (String.eqb ph "S"); [injection Ev as <-; lra|discriminate]. }
  set (S := H * H + V * V) in *.
  assert (0 < S) as HS.
  { destruct (Rle_lt_dec S 0) as [Hle|]; [|assumption]. rewrite (sqrt_neg_0 S Hle) in Ht. unfold Rdiv in Ht. lra. }
  assert (H <> 0 \/ V <> 0) as Hn.
  { destruct (Req_dec H 0) as [E0|]; [|now left]. destruct (Req_dec V 0) as [E1|]; [|now right].
    unfold S in HS. rewrite E0, E1 in HS. lra. }
  destruct (atan2_polar V H Hn) as (Hp & Hc & Hs2). change (square H + square V) with S in *.
  set (L := sqrt S) in *. set (dip := atan2 V H) in *.
  unfold derivatives. destruct (azi_angle (radToDeg az)) as [-> ->]. rewrite deg_rad.
  assert (kmOfDegree 0 <> 0) as Hk.
  { unfold kmOfDegree, EARTH_RADIUS. pose proof PI_RGT_0. apply Rgt_not_eq. unfold Rdiv. apply Rlt_gt. nra. }
  assert (cos dip / km2deg v 0 / kmOfDegree 0 = H / (L * v)) as ->.
  { replace H with (L * cos dip) by (symmetry; exact Hc). unfold km2deg. field. repeat split; try assumption; lra. }
  assert (sin dip / v = V / (L * v)) as ->.
  { replace V with (L * sin dip) by (symmetry; exact Hs2). field. split; lra. }
  pose proof (sin2_cos2 az) as Hsc. unfold Rsqr in Hsc.
  assert (square (H * sin az - 0) + square (H * cos az - 0) + square (V - 0) = S) as ES.
  { unfold square, S. transitivity (H * H * (sin az * sin az + cos az * cos az) + V * V); [ring|]. rewrite Hsc. ring. }
  split; [|split; [|split]].
  - unfold ray_time. rewrite ES. reflexivity.
  - apply (is_derive_ext (fun x => sqrt ((H * sin az - x) * (H * sin az - x) + (square (H * cos az - 0) + square (V - 0))) / v)).
    { intros x. unfold ray_time, square. do 2 f_equal. ring. }
    assert (H * sin az * (H * sin az) + (square (H * cos az - 0) + square (V - 0)) = S) as E4 by (rewrite <- ES; unfold square; ring).
    pose proof (root_derive (H * sin az) _ v Hv0 ltac:(rewrite E4; exact HS)) as D. rewrite E4 in D. fold L in D.
    replace (H / (L * v) * - sin az) with (- (H * sin az) / (L * v)) by (field; split; lra). exact D.
  - apply (is_derive_ext (fun x => sqrt ((H * cos az - x) * (H * cos az - x) + (square (H * sin az - 0) + square (V - 0))) / v)).
    { intros x. unfold ray_time, square. do 2 f_equal. ring. }
    assert (H * cos az * (H * cos az) + (square (H * sin az - 0) + square (V - 0)) = S) as E4 by (rewrite <- ES; unfold square; ring).
    pose proof (root_derive (H * cos az) _ v Hv0 ltac:(rewrite E4; exact HS)) as D. rewrite E4 in D. fold L in D.
    replace (H / (L * v) * - cos az) with (- (H * cos az) / (L * v)) by (field; split; lra). exact D.
  - apply (is_derive_ext (fun x => sqrt ((V - x) * (V - x) + (square (H * sin az - 0) + square (H * cos az - 0))) / v)).
    { intros x. unfold ray_time, square. do 2 f_equal. ring. }
    assert (V * V + (square (H * sin az - 0) + square (H * cos az - 0)) = S) as E4 by (rewrite <- ES; unfold square; ring).
    pose proof (root_derive V _ v Hv0 ltac:(rewrite E4; exact HS)) as D. rewrite E4 in D. fold L in D.
    replace (- (V / (L * v))) with (- V / (L * v)) by (field; split; lra). exact D.
Qed.
Example C70_gradient_example : let h := {| pVel := 6; sVel := 3 |} in
  good_velocities h /\ (10 - 0 / 1000) / 2 <= EARTH_RADIUS /\ exists r, compute_full h 46 8 10 46 8 0 "P" = Some r /\ 0 < travelTime r.
Proof.
  cbv zeta. split; [unfold good_velocities; cbn; lra|]. split; [unfold EARTH_RADIUS; lra|].
  eexists. split; [unfold compute_full; cbn; reflexivity|]. cbn [travelTime].
  apply Rdiv_lt_0_compat; [|lra]. apply sqrt_lt_R0. nra.
Qed.

(** Any table that gives dtdd and dtdh for a dip and a velocity: the derivatives form the slowness
    vector, of length 1/v, pointing from the station to the event. *)
Theorem C70_slowness azi dip v dx dy dz : 0 < v ->
  derivatives azi (cos dip / km2deg v 0) (sin dip / v) = (dx, dy, dz) ->
  square dx + square dy + square dz = square (1 / v) /\
  dx * sin (degToRad azi) + dy * cos (degToRad azi) = - cos dip / v /\ dz = - sin dip / v.
Proof.
  intros Hv E. unfold derivatives in E. destruct (azi_angle azi) as [E1 E2]. rewrite E1, E2 in E.
  assert (kmOfDegree 0 <> 0) as Hk.
  { unfold kmOfDegree, EARTH_RADIUS. pose proof PI_RGT_0. apply Rgt_not_eq. unfold Rdiv. apply Rlt_gt. nra. }
  assert (cos dip / km2deg v 0 / kmOfDegree 0 = cos dip / v) as E3 by (unfold km2deg; field; split; [lra|assumption]).
  rewrite E3 in E. injection E as <- <- <-.
  pose proof (sin2_cos2 dip) as H1. pose proof (sin2_cos2 (degToRad azi)) as H2. unfold Rsqr in *.
  set (s := sin (degToRad azi)) in *. set (c := cos (degToRad azi)) in *. set (S := sin dip) in *. set (C := cos dip) in *.
  unfold square. split; [|split].
  - transitivity ((C * C * (s * s + c * c) + S * S) / (v * v)); [field; lra|]. rewrite H2. 
    replace (C * C * 1 + S * S) with (S * S + C * C) by ring. rewrite H1. field. lra.
  - transitivity (- (C / v) * (s * s + c * c)); [ring|]. rewrite H2. field. lra.
  - field. lra.
Qed.

(** These are the derivatives that the observation model passes to the solver. *)
Theorem C70_observation (e : Catalog_Model.event R) (p : Catalog_Model.phase R) ch tm azi dip dtdd dtdh :
  let o := AddObs_Model.params_of (kmOfDegree 0) e p ch (tm, azi, dip, dtdd, dtdh) in
  (Solver_Model.op_dx o, Solver_Model.op_dy o, Solver_Model.op_dz o) = derivatives azi dtdd dtdh.
Proof.
  cbn. unfold derivatives, degToRad. rewrite (Rmult_comm PI (90 - azi)). reflexivity.
Qed.

Print Assumptions C70_move.
Print Assumptions C70_still.
Print Assumptions C70_gradient.
Print Assumptions C70_slowness.
Print Assumptions C70_observation.
