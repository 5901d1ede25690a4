(** Ellipsoid layers and quadrants (C24). *)
From Coq Require Import Reals List Lra Lia.
From Verif Require Import Geo_Model Geo_Proofs Geo_Props Ellipsoid_Model.
Import ListNotations.
Local Open Scope R_scope.

(** ** Specification of an ellipsoid of revolution with vertical semi-axis v and
    horizontal semi-axes v/2 *)
Definition in_spheroid (v h z : R) : Prop := 4 * square h + square z <= square v.

Section layers.
  Context (lat lon depth plat plon pdepth : R).
  Let h := distance plat plon lat lon depth.
  Let z := pdepth - depth.

  Lemma inside_spheroid v : 0 < v ->
    is_inside {| axis_a := v / 2; axis_b := v / 2; axis_c := v; el_lat := lat; el_lon := lon; el_depth := depth |} plat plon pdepth
    <-> in_spheroid v h z.
  Proof using.
    intros Hv. unfold is_inside, in_spheroid. cbn [axis_a axis_b axis_c el_lat el_lon el_depth]. fold h. fold z.
    pose proof (sin_cos_unit (azimuth plat plon lat lon)) as U. set (s := sin _) in *. set (c := cos _) in *.
    assert (square (h * s / (v / 2)) + square (h * c / (v / 2)) + square (z / v) = (4 * square h * (square s + square c) + square z) / square v) as ->
      by (unfold square; field; lra).
    rewrite U, Rmult_1_r. assert (0 < square v) as P by (unfold square; nra). split.
    - intros (_ & _ & _ & H). apply (Rmult_le_compat_r (square v)) in H; [|lra]. unfold Rdiv in H. rewrite Rmult_assoc, Rinv_l in H by lra. lra.
    - intros H. split; [lra|]. split; [lra|]. split; [lra|]. apply (Rmult_le_reg_r (square v)); [lra|]. unfold Rdiv. rewrite Rmult_assoc, Rinv_l by lra. lra.
  Qed.
  Lemma inside_zero : ~ is_inside {| axis_a := 0 / 2; axis_b := 0 / 2; axis_c := 0; el_lat := lat; el_lon := lon; el_depth := depth |} plat plon pdepth.
  Proof using. intros (_ & _ & K & _). cbn in K. lra. Qed.

  (** C24: each layer is the part of its spheroid outside the next smaller one ... *)
  Lemma layer_half v : 0 < v -> layer_inside (hdd_half v lat lon depth) plat plon pdepth <-> in_spheroid v h z /\ ~ in_spheroid (v / 2) h z.
  Proof using.
    intros Hv. unfold layer_inside, hdd_half, hdd. cbn [outer inner]. rewrite (inside_spheroid v Hv), (inside_spheroid (v / 2)) by lra. reflexivity.
  Qed.
  Lemma layer_zero v : 0 < v -> layer_inside (hdd 0 v lat lon depth) plat plon pdepth <-> in_spheroid v h z.
  Proof using.
    intros Hv. unfold layer_inside, hdd. cbn [outer inner]. rewrite (inside_spheroid v Hv). pose proof inside_zero. tauto.
  Qed.
  Lemma in_spheroid_mono v w : 0 < v <= w -> in_spheroid v h z -> in_spheroid w h z.
  Proof using. unfold in_spheroid, square. intros H K. nra. Qed.

  Lemma layers_in k v i e : 0 < v -> nth_error (layers k v lat lon depth) i = Some e -> layer_inside e plat plon pdepth -> in_spheroid v h z.
  Proof using.
    revert v i. induction k as [|k IH]; intros v i Hv; [destruct i; discriminate|]. cbn [layers]. destruct k as [|k].
    - destruct i as [|i]; [intros [= <-]; apply layer_zero; exact Hv|destruct i; discriminate].
    - intros He Hi. destruct (Nat.lt_ge_cases i (length (layers (S k) (v / 2) lat lon depth))) as [L|G].
      + rewrite nth_error_app1 in He by exact L. apply (in_spheroid_mono (v / 2)); [lra|]. eapply IH; [lra|exact He|exact Hi].
      + rewrite nth_error_app2 in He by exact G. destruct (i - length _)%nat as [|j]; [|destruct j; discriminate].
        injection He as <-. apply layer_half in Hi; [exact (proj1 Hi)|exact Hv].
  Qed.
  Lemma layers_unique k v : 0 < v -> (0 < k)%nat -> in_spheroid v h z ->
    exists i e, nth_error (layers k v lat lon depth) i = Some e /\ layer_inside e plat plon pdepth /\
      forall j e', nth_error (layers k v lat lon depth) j = Some e' -> layer_inside e' plat plon pdepth -> j = i.
  Proof using.
    revert v. induction k as [|k IH]; intros v Hv Hk Hin; [lia|]. cbn [layers]. destruct k as [|k].
    - exists 0%nat, (hdd 0 v lat lon depth). split; [reflexivity|]. split; [apply layer_zero; assumption|].
      intros [|j] e' He _; [reflexivity|destruct j; discriminate].
    - set (L := layers (S k) (v / 2) lat lon depth) in *.
      destruct (Rle_dec (4 * square h + square z) (square (v / 2))) as [Hs|Hs].
      + assert (0 < v / 2) as Hv2 by lra. destruct (IH (v / 2) Hv2 ltac:(lia) Hs) as (i & e & Hi & He & Hu). fold L in Hi, Hu. exists i, e.
        assert (i < length L)%nat as Li by (apply nth_error_Some; rewrite Hi; discriminate).
        split; [rewrite nth_error_app1; assumption|]. split; [exact He|]. intros j e' Hj He'.
        destruct (Nat.lt_ge_cases j (length L)) as [Lj|Gj].
        * rewrite nth_error_app1 in Hj by exact Lj. eapply Hu; eassumption.
        * exfalso. rewrite nth_error_app2 in Hj by exact Gj. destruct (j - length L)%nat as [|q]; [|destruct q; discriminate].
          injection Hj as <-. apply layer_half in He'; [|exact Hv]. exact (proj2 He' Hs).
      + exists (length L), (hdd_half v lat lon depth). split; [rewrite nth_error_app2, Nat.sub_diag by lia; reflexivity|].
        split; [apply layer_half; [exact Hv|split; [exact Hin|exact Hs]]|]. intros j e' Hj He'.
        destruct (Nat.lt_ge_cases j (length L)) as [Lj|Gj].
        * exfalso. rewrite nth_error_app1 in Hj by exact Lj. apply Hs. assert (0 < v / 2) as Hv2 by lra. exact (layers_in _ _ _ _ Hv2 Hj He').
        * rewrite nth_error_app2 in Hj by exact Gj. destruct (j - length L)%nat as [|q] eqn:Eq; [lia|destruct q; discriminate].
  Qed.
  Lemma layers_last k v : (0 < k)%nat -> exists h0, outer (last (layers k v lat lon depth) h0) =
    {| axis_a := v / 2; axis_b := v / 2; axis_c := v; el_lat := lat; el_lon := lon; el_depth := depth |}.
  Proof using.
    intros Hk. exists (hdd 0 0 0 0 0). destruct k as [|k]; [lia|]. cbn [layers]. destruct k as [|k]; [reflexivity|]. rewrite last_last. reflexivity.
  Qed.
End layers.

(** C24: the layers built for a neighbour search partition the outermost ellipsoid: a point
    inside it is in exactly one layer, and no other point is in any layer. *)
Theorem C24_layers_partition k maxDist lat lon depth plat plon pdepth d :
  (0 < k)%nat -> 0 < maxDist ->
  let es := ellipsoids k maxDist lat lon depth in
  let out := outer (last es d) in
  length es = k /\ axis_c out = 2 * maxDist /\ axis_a out = maxDist /\ axis_b out = maxDist /\
  (is_inside out plat plon pdepth <->
   exists i e, nth_error es i = Some e /\ layer_inside e plat plon pdepth /\
     forall j e', nth_error es j = Some e' -> layer_inside e' plat plon pdepth -> j = i) /\
  (forall i e, nth_error es i = Some e -> layer_inside e plat plon pdepth -> is_inside out plat plon pdepth).
Proof.
  intros Hk Hm es out. assert (0 < maxDist * 2) as Hv by lra.
  assert (out = {| axis_a := maxDist * 2 / 2; axis_b := maxDist * 2 / 2; axis_c := maxDist * 2; el_lat := lat; el_lon := lon; el_depth := depth |}) as Eo.
  { unfold out, es, ellipsoids. destruct k as [|k]; [lia|]. cbn [layers]. destruct k as [|k]; [reflexivity|]. rewrite last_last. reflexivity. }
  assert (forall n v, length (layers n v lat lon depth) = n) as Hlen.
  { induction n as [|n IH]; intros v; [reflexivity|]. cbn [layers]. destruct n as [|n]; [reflexivity|]. rewrite app_length, IH. cbn [length]. lia. }
  assert (forall i e, nth_error es i = Some e -> layer_inside e plat plon pdepth -> is_inside out plat plon pdepth) as Hall.
  { intros i e Hi He. rewrite Eo. apply inside_spheroid; [exact Hv|]. eapply layers_in; [exact Hv|exact Hi|exact He]. }
  split; [apply Hlen|]. rewrite Eo at 1 2 3. cbn [axis_a axis_b axis_c]. split; [ring|]. split; [field|]. split; [field|]. split; [|exact Hall]. split.
  - rewrite Eo. intros H. apply inside_spheroid in H; [|exact Hv]. apply layers_unique; assumption.
  - intros (i & e & Hi & He & _). exact (Hall i e Hi He).
Qed.
(** The outermost ellipsoid is the set of points with (2 h)^2 + z^2 <= (2 maxDist)^2. *)
Theorem C24_outermost k maxDist lat lon depth plat plon pdepth d :
  (0 < k)%nat -> 0 < maxDist ->
  is_inside (outer (last (ellipsoids k maxDist lat lon depth) d)) plat plon pdepth <->
  in_spheroid (2 * maxDist) (distance plat plon lat lon depth) (pdepth - depth).
Proof.
  intros Hk Hm. assert (outer (last (ellipsoids k maxDist lat lon depth) d) = {| axis_a := maxDist * 2 / 2; axis_b := maxDist * 2 / 2; axis_c := maxDist * 2; el_lat := lat; el_lon := lon; el_depth := depth |}) as ->.
  { unfold ellipsoids. destruct k as [|k]; [lia|]. cbn [layers]. destruct k as [|k]; [reflexivity|]. rewrite last_last. reflexivity. }
  rewrite (Rmult_comm 2 maxDist). apply inside_spheroid. lra.
Qed.

(** ** Quadrants *)
(** The side of the three planes through the centre for each quadrant: deeper, north, east. *)
Definition sides (q : nat) : bool * bool * bool :=
  match q with
  | 1%nat => (true, true, true) | 2%nat => (true, true, false) | 3%nat => (true, false, false) | 4%nat => (true, false, true)
  | 5%nat => (false, true, true) | 6%nat => (false, true, false) | 7%nat => (false, false, false) | _ => (false, false, true)
  end.
Definition on_side (b : bool) (x : R) : Prop := if b then 0 <= x else x <= 0.
Lemma in_quadrant_sides h lat lon depth q : (1 <= q <= 8)%nat ->
  in_quadrant h lat lon depth q <->
  let '(d, n, e) := sides q in
  on_side d (depth - el_depth (outer h)) /\ on_side n (lat - el_lat (outer h)) /\ on_side e (normalizeLon (lon - el_lon (outer h))).
Proof.
  intros Hq. unfold in_quadrant. cbv zeta. set (L := normalizeLon (lon - el_lon (outer h))). set (D := el_depth (outer h)). set (T := el_lat (outer h)).
  assert (q = 1 \/ q = 2 \/ q = 3 \/ q = 4 \/ q = 5 \/ q = 6 \/ q = 7 \/ q = 8)%nat as C by lia.
  destruct C as [->|[->|[->|[->|[->|[->|[->| ->]]]]]]]; cbn [sides on_side In]; (split;
    [intros (A1 & A2 & A3 & A4 & A5 & A6); split; [|split]; apply Rnot_lt_le; intros K;
       first [apply A1; split; [lra|tauto]|apply A2; split; [lra|tauto]|apply A3; split; [lra|tauto]
             |apply A4; split; [lra|tauto]|apply A5; split; [lra|tauto]|apply A6; split; [lra|tauto]]
    |intros (A1 & A2 & A3); split; [|split; [|split; [|split; [|split]]]]; intros [K Hin];
       first [lra|exfalso; lia]]).
Qed.
(** C24: every point is in at least one quadrant ... *)
Theorem C24_quadrants_cover h lat lon depth : exists q, (1 <= q <= 8)%nat /\ in_quadrant h lat lon depth q.
Proof.
  set (z := depth - el_depth (outer h)). set (y := lat - el_lat (outer h)). set (x := normalizeLon (lon - el_lon (outer h))).
  destruct (Rle_dec 0 z) as [Hz|Hz]; destruct (Rle_dec 0 y) as [Hy|Hy]; destruct (Rle_dec 0 x) as [Hx|Hx];
  [exists 1%nat|exists 2%nat|exists 4%nat|exists 3%nat|exists 5%nat|exists 6%nat|exists 8%nat|exists 7%nat];
  (split; [lia|]); apply in_quadrant_sides; try lia; cbn [sides on_side]; fold z; fold y; fold x; lra.
Qed.
(** ... and in exactly one if it lies on none of the three planes, the one on its side of each. *)
Theorem C24_quadrants_exact h lat lon depth q q' : (1 <= q <= 8)%nat -> (1 <= q' <= 8)%nat ->
  depth <> el_depth (outer h) -> lat <> el_lat (outer h) -> normalizeLon (lon - el_lon (outer h)) <> 0 ->
  in_quadrant h lat lon depth q -> in_quadrant h lat lon depth q' -> q = q'.
Proof.
  intros Hq Hq' N1 N2 N3 H H'. apply in_quadrant_sides in H, H'; [|assumption|assumption].
  assert (forall b b' x, x <> 0 -> on_side b x -> on_side b' x -> b = b') as U.
  { intros [] [] x Hx; unfold on_side; intros; try reflexivity; exfalso; apply Hx; lra. }
  destruct (sides q) as [[a1 a2] a3] eqn:E. destruct (sides q') as [[b1 b2] b3] eqn:E'.
  destruct H as (A1 & A2 & A3). destruct H' as (B1 & B2 & B3).
  assert (sides q = sides q') as ES.
  { rewrite E, E'. f_equal; [f_equal|]; [apply (U _ _ (depth - el_depth (outer h))); [lra|assumption|assumption]|
      apply (U _ _ (lat - el_lat (outer h))); [lra|assumption|assumption]|eapply U; [exact N3|assumption|assumption]]. }
  clear -ES Hq Hq'.
  assert (q = 1 \/ q = 2 \/ q = 3 \/ q = 4 \/ q = 5 \/ q = 6 \/ q = 7 \/ q = 8)%nat as C by lia.
  assert (q' = 1 \/ q' = 2 \/ q' = 3 \/ q' = 4 \/ q' = 5 \/ q' = 6 \/ q' = 7 \/ q' = 8)%nat as C' by lia.
  destruct C as [->|[->|[->|[->|[->|[->|[->| ->]]]]]]]; destruct C' as [->|[->|[->|[->|[->|[->|[->| ->]]]]]]]; try reflexivity; discriminate.
Qed.
(** The header says that quadrants 1-4 are above the centre. They are below it. *)
Theorem C24_first_quadrants_below h lat lon depth q : (1 <= q <= 4)%nat -> in_quadrant h lat lon depth q -> el_depth (outer h) <= depth.
Proof.
  intros Hq H. apply in_quadrant_sides in H; [|lia].
  assert (q = 1 \/ q = 2 \/ q = 3 \/ q = 4)%nat as C by lia. destruct C as [->|[->|[->| ->]]]; cbn in H; lra.
Qed.

(** clustering.cpp 531-534 looks for the points of a layer only among those whose distance
    is at least the inner horizontal semi-axis. The distance is computed at the mean depth,
    the ellipsoid at the depth of its centre: a point of a layer may be too near. Here the
    point is 0.1 degrees east of the centre and about 10 m deeper. *)
Theorem C24_layer_range_refuted : exists v plon pdepth,
  0 < v /\ layer_inside (hdd_half v 0 0 0) 0 plon pdepth /\
  distance3 0 plon pdepth 0 0 0 < axis_a (inner (hdd_half v 0 0 0)).
Proof.
  pose proof PI_RGT_0 as HPI. pose proof PI2_3_2 as HP2. pose proof PI_4 as HP4.
  assert (EARTH_RADIUS > 6371 /\ EARTH_RADIUS < 6372) as [R1 R2] by (unfold EARTH_RADIUS; lra).
  set (L := PI / 1800). assert (3 / 1800 < L < 4 / 1800 \/ L = 4 / 1800) as HL by (unfold L; lra).
  assert (forall d, distance 0 (1 / 10) 0 0 d = L * (EARTH_RADIUS - d)) as HD.
  { intros d. rewrite C23_arc_length. f_equal. rewrite (angular_distance_eq _ _ _ _ (L / 2)).
    - field.
    - intros [_ K]. replace (degToRad (0 - 1 / 10)) with (- L) in K by (unfold degToRad, L; field). rewrite Rabs_Ropp, Rabs_right in K by lra. lra.
    - lra.
    - unfold haversine. replace (degToRad (0 - 1 / 10) / 2) with (- (L / 2)) by (unfold degToRad, L; field).
      replace (degToRad (0 - 0) / 2) with 0 by (unfold degToRad; field). replace (degToRad 0) with 0 by (unfold degToRad; field).
      rewrite sin_neg, sin_0, cos_0. unfold square. ring. }
  set (h := L * EARTH_RADIUS). set (z := h * L / 2).
  assert (0 < h) as Hh by (unfold h; nra).
  assert (1 / 10000000 < z) as Hz. { unfold z, h. assert (3 / 1800 * (3 / 1800) <= L * L) by nra. nra. }
  exists (4 * h), (1 / 10), z. split; [lra|]. split.
  - apply layer_half; [lra|]. unfold in_spheroid. rewrite HD, !Rminus_0_r. fold h. unfold square. split; [|nra].
    assert (z <= h) by (unfold z; nra). nra.
  - cbn [hdd_half hdd inner axis_a]. unfold distance3. rewrite HD, Rminus_0_r, Rabs_right by lra.
    destruct (Rlt_dec z (1 / 10000000)); [lra|]. replace (4 * h / 2 / 2) with h by field.
    rewrite <- (sqrt_square h) by lra. apply sqrt_lt_1; [apply Rplus_le_le_0_compat; apply square_pos|apply square_pos|].
    replace (L * (EARTH_RADIUS - (z + 0) / 2)) with (h - L * z / 2) by (unfold h; field).
    assert (z = h * L / 2) as Ez by reflexivity. unfold square. 
    assert (z * z + (L * z / 2) * (L * z / 2) < h * (L * z)); [|nra].
    assert (h * L = 2 * z) as E2 by (rewrite Ez; field). replace (h * (L * z)) with (2 * z * z) by (rewrite <- E2; ring).
    assert (L * L <= 1) by nra. nra.
Qed.
(** Five layers as in the default configuration: the centre is in layer 0. *)
Example centre_in_layer_0 : exists e, nth_error (ellipsoids 5 4 46 8 10) 0 = Some e /\ layer_inside e 46 8 10 /\
  is_inside (outer (last (ellipsoids 5 4 46 8 10) e)) 46 8 10.
Proof.
  eexists. split; [reflexivity|]. assert (layer_inside (hdd 0 (4 * 2 / 2 / 2 / 2 / 2) 46 8 10) 46 8 10) as H.
  { apply layer_zero; [lra|]. unfold in_spheroid. rewrite (proj1 (C23_zero 46 8 0 10)). unfold square. lra. }
  split; [exact H|].
  refine (proj2 (proj2 (proj2 (proj2 (proj2 (C24_layers_partition 5 4 46 8 10 46 8 10 _ ltac:(lia) ltac:(lra)))))) 0%nat _ _ H). reflexivity.
Qed.

Print Assumptions C24_layers_partition.
Print Assumptions C24_outermost.
Print Assumptions C24_quadrants_cover.
Print Assumptions C24_quadrants_exact.
Print Assumptions C24_first_quadrants_below.
Print Assumptions C24_layer_range_refuted.
