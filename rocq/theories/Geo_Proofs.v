(** Lemmas about angles and spherical distances. *)
From Coq Require Import Reals Lra Lia.
From Verif Require Import Geo_Model.
Local Open Scope R_scope.

(** ** fmod and normalisation *)
Lemma Int_part_spec x : IZR (Int_part x) <= x < IZR (Int_part x) + 1.
Proof. pose proof (base_Int_part x). lra. Qed.
Lemma IZR_small z : -1 < IZR z < 1 -> z = 0%Z.
Proof. intros [H1 H2]. apply lt_IZR in H1, H2. lia. Qed.
Lemma Int_part_unique x z : IZR z <= x < IZR z + 1 -> Int_part x = z.
Proof.
  intros H. pose proof (Int_part_spec x) as H'.
  assert (Int_part x - z = 0)%Z as E by (apply IZR_small; rewrite minus_IZR; lra). lia.
Qed.
Lemma fmod_spec x y : 0 < y -> exists k : Z, fmod x y = x - y * IZR k /\
  (0 <= x -> 0 <= fmod x y < y) /\ (x < 0 -> - y < fmod x y <= 0).
Proof.
  intros Hy. exists (trunc (x / y)). split; [reflexivity|]. unfold fmod, trunc.
  assert (x = y * (x / y)) as E by (field; lra).
  split; intros Hx.
  - destruct (Rle_dec 0 (x / y)) as [H|H].
    + pose proof (Int_part_spec (x / y)) as I. set (k := Int_part (x / y)) in *. set (q := x / y) in *. clearbody k q. subst x. nra.
    + exfalso. apply H. apply Rmult_le_pos; [exact Hx|]. left. apply Rinv_0_lt_compat, Hy.
  - destruct (Rle_dec 0 (x / y)) as [H|H].
    + exfalso. nra.
    + pose proof (Int_part_spec (- (x / y))) as I. rewrite opp_IZR. set (k := Int_part (- (x / y))) in *. set (q := x / y) in *. clearbody k q. subst x. nra.
Qed.
Lemma fmod_range x y : 0 < y -> - y < fmod x y < y.
Proof.
  intros Hy. destruct (fmod_spec x y Hy) as (k & _ & H1 & H2). destruct (Rle_dec 0 x) as [H|H].
  - specialize (H1 H). lra.
  - assert (x < 0) as H' by lra. specialize (H2 H'). lra.
Qed.
Lemma fmod_fmod_spec x y : 0 < y -> exists k : Z, fmod (fmod x y + y) y = x - y * IZR k /\ 0 <= fmod (fmod x y + y) y < y.
Proof.
  intros Hy. pose proof (fmod_range x y Hy) as Hr. destruct (fmod_spec x y Hy) as (k & E & _).
  destruct (fmod_spec (fmod x y + y) y Hy) as (j & E' & H' & _).
  exists (k + j - 1)%Z. split; [|apply H'; lra]. rewrite E', E, minus_IZR, plus_IZR. lra.
Qed.

(** ** atan2 *)
Lemma sin_cos_unit t : square (sin t) + square (cos t) = 1.
Proof. pose proof (sin2_cos2 t) as H. unfold Rsqr in H. unfold square. lra. Qed.
Lemma sqrt_square x : 0 <= x -> sqrt (square x) = x.
Proof. intros H. unfold square. apply sqrt_square, H. Qed.
Lemma square_sqrt x : 0 <= x -> square (sqrt x) = x.
Proof. intros H. unfold square. apply sqrt_sqrt, H. Qed.
Lemma square_pos x : 0 <= square x.
Proof. unfold square. nra. Qed.

Lemma atan2_range y x : - PI < atan2 y x <= PI.
Proof.
  unfold atan2. pose proof PI_RGT_0 as HPI. pose proof (atan_bound (y / x)) as B.
  destruct (Rlt_dec 0 x); [lra|]. destruct (Rlt_dec x 0) as [Hx|Hx].
  - destruct (Rle_dec 0 y) as [Hy|Hy].
    + split; [lra|].
      assert (y / x <= 0) as Hq. { unfold Rdiv. pose proof (Rinv_lt_0_compat x Hx). nra. }
      assert (atan (y / x) <= 0); [|lra].
      destruct (Req_dec (y / x) 0) as [->|N]; [rewrite atan_0; lra|].
      assert (atan (y / x) < atan 0) by (apply atan_increasing; lra). rewrite atan_0 in *. lra.
    + assert (0 < y / x) as Hq. { unfold Rdiv. pose proof (Rinv_lt_0_compat x Hx). nra. }
      assert (atan 0 < atan (y / x)) by (apply atan_increasing; lra). rewrite atan_0 in *. lra.
  - destruct (Rlt_dec 0 y); [lra|]. destruct (Rlt_dec y 0); lra.
Qed.
Lemma atan_polar q : exists r, 0 < r /\ cos (atan q) = 1 / r /\ sin (atan q) = q / r /\ square r = 1 + square q.
Proof.
  exists (sqrt (1 + q²)). assert (0 < 1 + q²) by (pose proof (Rle_0_sqr q); lra).
  split; [apply sqrt_lt_R0; assumption|]. split; [rewrite cos_atan; reflexivity|]. split; [rewrite sin_atan; reflexivity|].
  unfold square. rewrite sqrt_sqrt; [reflexivity|lra].
Qed.
Lemma atan2_polar y x : (x <> 0 \/ y <> 0) ->
  let r := sqrt (square x + square y) in 0 < r /\ x = r * cos (atan2 y x) /\ y = r * sin (atan2 y x).
Proof.
  intros H r.
  assert (0 < square x + square y) as Hp. { unfold square. destruct H; nra. }
  assert (0 < r) as Hr by (apply sqrt_lt_R0; exact Hp). split; [exact Hr|].
  assert (square r = square x + square y) as Er by (apply square_sqrt; lra).
  unfold atan2. destruct (Rlt_dec 0 x) as [Hx|Hx]; [|destruct (Rlt_dec x 0) as [Hx'|Hx']].
  - destruct (atan_polar (y / x)) as (s & Hs & -> & -> & Es).
    assert (r = x * s) as E.
    { assert (square r = square (x * s)) as E2. { rewrite Er. replace (square (x * s)) with (square x * square s) by (unfold square; ring). rewrite Es. unfold square. field. lra. }
      rewrite <- (sqrt_square r), E2, sqrt_square; [reflexivity|nra|lra]. }
    rewrite E. split; field; lra.
  - destruct (atan_polar (y / x)) as (s & Hs & Ec & Esn & Es).
    assert (r = - x * s) as E.
    { assert (square r = square (- x * s)) as E2. { rewrite Er. replace (square (- x * s)) with (square x * square s) by (unfold square; ring). rewrite Es. unfold square. field. lra. }
      rewrite <- (sqrt_square r), E2, sqrt_square; [reflexivity|nra|lra]. }
    assert (cos (atan (y / x) + PI) = - cos (atan (y / x)) /\ sin (atan (y / x) + PI) = - sin (atan (y / x))) as [C1 S1] by (split; [apply neg_cos|apply neg_sin]).
    assert (cos (atan (y / x) - PI) = - cos (atan (y / x)) /\ sin (atan (y / x) - PI) = - sin (atan (y / x))) as [C2 S2].
    { split; [rewrite cos_minus, cos_PI, sin_PI; ring|rewrite sin_minus, cos_PI, sin_PI; ring]. }
    destruct (Rle_dec 0 y); [rewrite C1, S1|rewrite C2, S2]; rewrite Ec, Esn, E; split; field; lra.
  - assert (x = 0) as -> by lra. assert (y <> 0) as Hy by (destruct H; [lra|assumption]).
    destruct (Rlt_dec 0 y) as [P|P].
    + rewrite cos_PI2, sin_PI2. assert (r = y) as ->.
      { subst r. replace (square 0 + square y) with (square y) by (unfold square; ring). apply sqrt_square. lra. } lra.
    + destruct (Rlt_dec y 0) as [P'|P']; [|lra]. rewrite cos_neg, sin_neg, cos_PI2, sin_PI2. assert (r = - y) as ->.
      { subst r. replace (square 0 + square y) with (square (- y)) by (unfold square; ring). apply sqrt_square. lra. } lra.
Qed.
(** Two angles less than a full turn apart with the same sine and cosine are equal. *)
Lemma angle_unique s t : - (2 * PI) < s - t < 2 * PI -> sin s = sin t -> cos s = cos t -> s = t.
Proof.
  intros H Hs Hc.
  assert (sin ((s - t) / 2) = 0) as H0.
  { assert (cos (s - t) = 1) as C. { rewrite cos_minus, Hs, Hc. pose proof (sin_cos_unit t). unfold square in *. lra. }
    replace (s - t) with (2 * ((s - t) / 2)) in C by field. rewrite cos_2a_sin in C. nra. }
  destruct (Rtotal_order s t) as [L|[E|G]]; [|exact E|].
  - assert (0 < sin ((t - s) / 2)) by (apply sin_gt_0; lra).
    replace ((t - s) / 2) with (- ((s - t) / 2)) in H1 by field. rewrite sin_neg in H1. lra.
  - assert (0 < sin ((s - t) / 2)) by (apply sin_gt_0; lra). lra.
Qed.
Lemma atan2_of_polar r t : 0 < r -> - PI < t <= PI -> atan2 (r * sin t) (r * cos t) = t.
Proof.
  intros Hr Ht.
  assert (r * cos t <> 0 \/ r * sin t <> 0) as Hn.
  { pose proof (sin_cos_unit t) as U. destruct (Req_dec (cos t) 0) as [E|N].
    - right. intros K. rewrite E in U. unfold square in U. nra.
    - left. nra. }
  destruct (atan2_polar (r * sin t) (r * cos t) Hn) as (Hp & Hc & Hs).
  set (s := sqrt (square (r * cos t) + square (r * sin t))) in *.
  assert (s = r) as E.
  { unfold s. replace (square (r * cos t) + square (r * sin t)) with (square r * (square (sin t) + square (cos t))) by (unfold square; ring).
    rewrite sin_cos_unit, Rmult_1_r. apply sqrt_square. lra. }
  rewrite E in *. pose proof (atan2_range (r * sin t) (r * cos t)) as R2.
  apply angle_unique; [lra| |]; apply (Rmult_eq_reg_l r); lra.
Qed.

(** ** The haversine formula *)
Lemma haversine_range lat1 lon1 lat2 lon2 :
  -90 <= lat1 <= 90 -> -90 <= lat2 <= 90 -> 0 <= haversine lat1 lon1 lat2 lon2 <= 1.
Proof.
  intros H1 H2. unfold haversine.
  assert (0 < PI) as HPI by apply PI_RGT_0.
  assert (0 <= cos (degToRad lat1)) as C1. { apply cos_ge_0; unfold degToRad; nra. }
  assert (0 <= cos (degToRad lat2)) as C2. { apply cos_ge_0; unfold degToRad; nra. }
  set (dl := degToRad (lon2 - lon1) / 2). pose proof (sin_cos_unit dl) as Ul.
  pose proof (square_pos (sin dl)) as Pl. pose proof (square_pos (cos dl)) as Pl'.
  replace (degToRad (lat2 - lat1) / 2) with ((degToRad lat2 - degToRad lat1) / 2) by (unfold degToRad; field).
  set (a := degToRad lat1) in *. set (b := degToRad lat2) in *. clearbody dl a b.
  pose proof (square_pos (sin ((b - a) / 2))) as Pf.
  assert (cos a * cos b <= square (cos ((b - a) / 2))) as K.
  { set (u := (a + b) / 2). set (v := (b - a) / 2).
    assert (a = u - v) as Ea by (unfold u, v; field). assert (b = u + v) as Eb by (unfold u, v; field).
    clearbody u v. rewrite Ea, Eb, cos_minus, cos_plus.
    pose proof (sin_cos_unit u) as Uu. pose proof (sin_cos_unit v) as Uv.
    replace ((cos u * cos v + sin u * sin v) * (cos u * cos v - sin u * sin v))
      with (square (cos u) * square (cos v) - square (sin u) * square (sin v)) by (unfold square; ring).
    pose proof (square_pos (sin u)). pose proof (square_pos (sin v)). pose proof (square_pos (cos v)). pose proof (square_pos (cos u)). nra. }
  pose proof (sin_cos_unit ((b - a) / 2)) as Uf.
  assert (0 <= cos a * cos b) by (apply Rmult_le_pos; assumption). nra.
Qed.
Lemma clamp01_id a : 0 <= a <= 1 -> clamp01 a = a.
Proof. intros H. unfold clamp01. rewrite Rmin_right by lra. apply Rmax_right. lra. Qed.
Lemma clamp01_range a : 0 <= clamp01 a <= 1.
Proof.
  unfold clamp01. split; [apply Rmax_l|]. apply Rmax_lub; [lra|apply Rmin_l].
Qed.
(** The half angle *)
Lemma half_angle a : 0 <= a <= 1 -> exists t, atan2 (sqrt a) (sqrt (1 - a)) = t /\ 0 <= t <= PI / 2 /\
  sin t = sqrt a /\ cos t = sqrt (1 - a).
Proof.
  intros H. pose proof PI_RGT_0 as HPI. exists (atan2 (sqrt a) (sqrt (1 - a))). split; [reflexivity|].
  assert (sqrt (1 - a) <> 0 \/ sqrt a <> 0) as Hn.
  { destruct (Req_dec a 0) as [->|N]; [left; rewrite Rminus_0_r, sqrt_1; lra|right].
    intros E. apply sqrt_eq_0 in E; lra. }
  destruct (atan2_polar (sqrt a) (sqrt (1 - a)) Hn) as (Hp & Hc & Hs). rewrite !square_sqrt in Hp, Hc, Hs by lra.
  replace (1 - a + a) with 1 in Hp, Hc, Hs by ring. rewrite sqrt_1 in Hp, Hc, Hs. rewrite Rmult_1_l in Hc, Hs.
  pose proof (sqrt_pos a) as P1. pose proof (sqrt_pos (1 - a)) as P2.
  pose proof (atan2_range (sqrt a) (sqrt (1 - a))) as R2. set (t := atan2 (sqrt a) (sqrt (1 - a))) in *.
  split; [|split; congruence]. split.
  - destruct (Rle_dec 0 t) as [K|K]; [exact K|]. exfalso.
    assert (sin t < 0); [|lra]. assert (0 < sin (- t)) as G by (apply sin_gt_0; lra). rewrite sin_neg in G. lra.
  - destruct (Rle_dec t (PI / 2)) as [K|K]; [exact K|]. exfalso.
    assert (cos t < 0); [|lra]. apply cos_lt_0; lra.
Qed.
Lemma angular_distance_unfold lat1 lon1 lat2 lon2 : ~ same_place lat1 lon1 lat2 lon2 ->
  exists t, angular_distance lat1 lon1 lat2 lon2 = 2 * t /\ 0 <= t <= PI / 2 /\ square (sin t) = clamp01 (haversine lat1 lon1 lat2 lon2).
Proof.
  intros N. unfold angular_distance. destruct (same_place_dec lat1 lon1 lat2 lon2) as [S|_]; [contradiction|].
  destruct (half_angle (clamp01 (haversine lat1 lon1 lat2 lon2)) (clamp01_range _)) as (t & -> & Ht & Hs & _).
  exists t. split; [reflexivity|]. split; [exact Ht|]. rewrite Hs. apply square_sqrt, clamp01_range.
Qed.
Lemma half_angle_unique s t : 0 <= s <= PI / 2 -> 0 <= t <= PI / 2 -> square (sin s) = square (sin t) -> s = t.
Proof.
  intros Hs Ht E. pose proof PI_RGT_0 as HPI.
  assert (0 <= sin s) as P1 by (apply sin_ge_0; lra). assert (0 <= sin t) as P2 by (apply sin_ge_0; lra).
  assert (sin s = sin t) as E1 by (rewrite <- (sqrt_square (sin s)), E, sqrt_square; [reflexivity|exact P2|exact P1]).
  assert (0 <= cos s) as P3 by (apply cos_ge_0; lra). assert (0 <= cos t) as P4 by (apply cos_ge_0; lra).
  pose proof (sin_cos_unit s) as U1. pose proof (sin_cos_unit t) as U2.
  assert (square (cos s) = square (cos t)) as E2 by lra.
  assert (cos s = cos t) as E3 by (rewrite <- (sqrt_square (cos s)), E2, sqrt_square; [reflexivity|exact P4|exact P3]).
  apply angle_unique; [lra|exact E1|exact E3].
Qed.
Lemma angular_distance_eq lat1 lon1 lat2 lon2 t : ~ same_place lat1 lon1 lat2 lon2 ->
  0 <= t <= PI / 2 -> square (sin t) = haversine lat1 lon1 lat2 lon2 -> angular_distance lat1 lon1 lat2 lon2 = 2 * t.
Proof.
  intros N Ht E. destruct (angular_distance_unfold _ _ _ _ N) as (s & -> & Hs & E').
  rewrite clamp01_id in E'.
  - f_equal. apply half_angle_unique; [exact Hs|exact Ht|lra].
  - rewrite <- E. pose proof (square_pos (sin t)). pose proof (sin_cos_unit t). pose proof (square_pos (cos t)). lra.
Qed.
Lemma same_place_sym lat1 lon1 lat2 lon2 : same_place lat1 lon1 lat2 lon2 -> same_place lat2 lon2 lat1 lon1.
Proof.
  unfold same_place. intros [H1 H2]. split.
  - rewrite Rabs_minus_sym. exact H1.
  - replace (degToRad (lon1 - lon2)) with (- degToRad (lon2 - lon1)) by (unfold degToRad; field). rewrite Rabs_Ropp. exact H2.
Qed.
Lemma haversine_sym lat1 lon1 lat2 lon2 : haversine lat1 lon1 lat2 lon2 = haversine lat2 lon2 lat1 lon1.
Proof.
  unfold haversine. 
  replace (degToRad (lat1 - lat2) / 2) with (- (degToRad (lat2 - lat1) / 2)) by (unfold degToRad; field).
  replace (degToRad (lon1 - lon2) / 2) with (- (degToRad (lon2 - lon1) / 2)) by (unfold degToRad; field).
  rewrite !sin_neg. unfold square. ring.
Qed.
