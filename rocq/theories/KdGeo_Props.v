(** The KD-tree on the Earth (C27, and the order assumed by C30). *)
From Coq Require Import Reals Lra.
From stdpp Require Import numbers list sorting sets.
From Verif Require Import Geo_Model Geo_Proofs Geo_Props KdTree_Model KdTree_Proofs KdTree_Props KdGeo_Model.
Local Open Scope R_scope.

Global Instance Rle_total_order : TotalOrder Rle.
Proof.
  split; [split; [split|]|].
  - intros x. lra.
  - intros x y z. lra.
  - intros x y. lra.
  - intros x y. unfold strict. destruct (Rtotal_order x y) as [H|[H|H]]; [left; lra|right; left; exact H|right; right; lra].
Qed.

(** ** The tree of four points with two southern ones *)
Section four.
Context (pts : nat → gpoint) (nth : nat → list nat → nat → list nat).
Hypothesis Hnth : nth_spec Rle (gcoord pts) nth.
Hypothesis H01 : g_lat (pts 0%nat) < g_lat (pts 1%nat).
Hypothesis H12 : g_lat (pts 1%nat) < g_lat (pts 2%nat).
Hypothesis H13 : g_lat (pts 1%nat) < g_lat (pts 3%nat).

Lemma nth_one a x : nth a [x] 0 = [x].
Proof using Hnth. destruct (Hnth a [x] 0%nat) as [HP _]; [simpl; lia|]. by apply Permutation_singleton_r in HP. Qed.
Lemma build_nil fuel depth : build nth fuel [] depth = Leaf.
Proof using. by destruct fuel. Qed.
Lemma build_S fuel l depth : build nth (S fuel) l depth =
  if decide (length l = 0%nat) then Leaf else
  let axis := depth mod 3 in let mid := ((length l - 1) / 2)%nat in let l' := nth axis l mid in
  match l' !! mid with
  | None => Leaf
  | Some idx => Node idx axis (build nth fuel (take mid l') (S depth)) (build nth fuel (drop (S mid) l') (S depth))
  end.
Proof using. reflexivity. Qed.
Lemma build_one fuel depth x : build nth (S fuel) [x] depth = Node x (depth mod 3) Leaf Leaf.
Proof using Hnth.
  rewrite build_S. rewrite decide_False by done. cbv zeta. change ((length [x] - 1) / 2)%nat with 0%nat. rewrite nth_one.
  cbn [lookup list_lookup take drop]. by rewrite !build_nil.
Qed.
Lemma nth_two a x y : ∃ u v, nth a [x; y] 0 = [u; v] ∧ [u; v] ≡ₚ [x; y] ∧ gcoord pts a u <= gcoord pts a v.
Proof using Hnth.
  destruct (Hnth a [x; y] 0%nat) as [HP HS]; [simpl; lia|].
  pose proof (Permutation_length HP) as HL. destruct (nth a [x; y] 0) as [|u [|v [|]]]; try discriminate HL.
  exists u, v. split; [done|]. split; [done|]. destruct (HS u eq_refl) as [_ H]. apply (H 1%nat v); [lia|done].
Qed.
Lemma nth_four : ∃ c d, nth 0%nat [0;1;2;3]%nat 1 = [0;1;c;d]%nat ∧ [c; d] ≡ₚ [2;3]%nat.
Proof using Hnth H01 H12 H13.
  destruct (Hnth 0%nat [0;1;2;3]%nat 1%nat) as [HP HS]; [simpl; lia|].
  pose proof (Permutation_length HP) as HL. destruct (nth 0%nat [0;1;2;3]%nat 1) as [|a [|b [|c [|d [|]]]]]; try discriminate HL.
  destruct (HS b eq_refl) as [Hlo Hhi]. pose proof (Hlo 0%nat a ltac:(lia) eq_refl) as Ha.
  pose proof (Hhi 2%nat c ltac:(lia) eq_refl) as Hc. pose proof (Hhi 3%nat d ltac:(lia) eq_refl) as Hd.
  unfold gcoord, gcoord_of in Ha, Hc, Hd.
  assert (NoDup [a; b; c; d]) as HN. { rewrite HP. repeat constructor; set_solver. }
  assert (∀ x, x ∈ [a; b; c; d] → x = 0 ∨ x = 1 ∨ x = 2 ∨ x = 3)%nat as Hin. { intros x Hx. rewrite HP in Hx. set_solver. }
  assert (b = 1)%nat as ->.
  { destruct (Hin b) as [->|[->|[->| ->]]]; [set_solver| |done| |]; exfalso.
    - destruct (Hin a) as [->|[->|[->| ->]]]; [set_solver| |lra|lra|lra]. apply NoDup_cons in HN as [HN _]. set_solver.
    - destruct (Hin c) as [->|[->|[->| ->]]]; [set_solver|lra|lra|apply NoDup_cons in HN as [_ HN]; apply NoDup_cons in HN as [HN _]; set_solver|].
      destruct (Hin d) as [->|[->|[->| ->]]]; [set_solver|lra|lra|apply NoDup_cons in HN as [_ HN]; apply NoDup_cons in HN as [HN _]; set_solver|].
      do 2 apply NoDup_cons in HN as [_ HN]. apply NoDup_cons in HN as [HN _]. set_solver.
    - destruct (Hin c) as [->|[->|[->| ->]]]; [set_solver|lra|lra| |apply NoDup_cons in HN as [_ HN]; apply NoDup_cons in HN as [HN _]; set_solver].
      destruct (Hin d) as [->|[->|[->| ->]]]; [set_solver|lra|lra| |apply NoDup_cons in HN as [_ HN]; apply NoDup_cons in HN as [HN _]; set_solver].
      do 2 apply NoDup_cons in HN as [_ HN]. apply NoDup_cons in HN as [HN _]. set_solver. }
  assert (a = 0)%nat as ->.
  { destruct (Hin a) as [->|[->|[->| ->]]]; [set_solver|done| |exfalso; lra|exfalso; lra]. apply NoDup_cons in HN as [HN _]. set_solver. }
  exists c, d. split; [done|]. by apply Permutation_cons_inv, Permutation_cons_inv in HP.
Qed.
Lemma tree_four : ∃ c d, make nth 4 = Node 1 0 (Node 0 1 Leaf Leaf) (Node c 1 Leaf (Node d 2 Leaf Leaf)) ∧
  [c; d] ≡ₚ [2; 3]%nat ∧ g_lon (pts c) <= g_lon (pts d).
Proof using Hnth H01 H12 H13.
  destruct nth_four as (c0 & d0 & E4 & HP). destruct (nth_two 1%nat c0 d0) as (c & d & E2 & HP2 & HL).
  exists c, d. split; [|split; [by rewrite HP2|exact HL]].
  unfold make. change (seq 0 4) with [0;1;2;3]%nat. rewrite build_S.
  rewrite decide_False by done. cbv zeta. change (0 mod 3) with 0%nat. change ((length [0;1;2;3]%nat - 1) / 2)%nat with 1%nat.
  rewrite E4. cbn [lookup list_lookup take drop]. rewrite build_one. f_equal.
  rewrite build_S. rewrite decide_False by done. cbv zeta. change (1 mod 3) with 1%nat. change ((length [c0; d0] - 1) / 2)%nat with 0%nat.
  rewrite E2. cbn [lookup list_lookup take drop]. rewrite build_one, build_nil. reflexivity.
Qed.
End four.

(** Where the points in the result of a radius search come from. *)
Section radius_node.
Context (pts : nat → gpoint) (q : gpoint).
Notation rs := (radius Rle (gcoord pts) (gquery q) (gdist pts q) (gadist pts q)).
Fixpoint visited (rad : R) (t : tree) : list nat :=
  match t with
  | Leaf => []
  | Node i a l r =>
      i :: (if decide (¬ (gcoord pts a i <= gquery q a)) then visited rad l else visited rad r) ++
           (if decide (gadist pts q a i <= rad)
            then (if decide (¬ (gcoord pts a i <= gquery q a)) then visited rad r else visited rad l) else [])
  end.
Lemma radius_visited rad t : ∀ qq x, x ∈ (rs rad t qq).*2 → x ∈ visited rad t ∨ x ∈ qq.*2.
Proof using.
  induction t as [|i a l IHl r IHr]; intros qq x; [cbn; tauto|]. cbn [radius visited].
  set (q1 := if decide (gdist pts q i <= rad) then _ else _).
  assert (x ∈ q1.*2 → x = i ∨ x ∈ qq.*2) as H1.
  { unfold q1. destruct (decide _); [|tauto]. rewrite emplace_perm, fmap_cons, elem_of_cons. tauto. }
  rewrite elem_of_cons, elem_of_app.
  destruct (decide (¬ (gcoord pts a i <= gquery q a))); destruct (decide (gadist pts q a i <= rad)); intros H.
  - apply IHr in H as [H|H]; [tauto|]. apply IHl in H as [H|H]; tauto.
  - apply IHl in H as [H|H]; tauto.
  - apply IHl in H as [H|H]; [tauto|]. apply IHr in H as [H|H]; tauto.
  - apply IHr in H as [H|H]; tauto.
Qed.
End radius_node.
(** ** Distances along the axes *)
Lemma dist_meridian lat1 lat2 depth : Rabs (lat1 - lat2) <= 180 -> 1 / 1000000000 <= Rabs (lat1 - lat2) ->
  distance lat1 0 lat2 0 depth = degToRad (Rabs (lat1 - lat2)) * (EARTH_RADIUS - depth).
Proof.
  intros H1 H2. pose proof PI_RGT_0 as HPI. rewrite C23_arc_length. f_equal.
  rewrite (angular_distance_eq _ _ _ _ (degToRad (Rabs (lat1 - lat2)) / 2)).
  - field.
  - intros [K _]. lra.
  - unfold degToRad. pose proof (Rabs_pos (lat1 - lat2)). nra.
  - unfold haversine. replace (degToRad (0 - 0) / 2) with 0 by (unfold degToRad; field). rewrite sin_0.
    unfold Rabs. destruct (Rcase_abs (lat1 - lat2)) as [N|P].
    + replace (- (lat1 - lat2)) with (lat2 - lat1) by ring. unfold square. ring.
    + replace (degToRad (lat2 - lat1) / 2) with (- (degToRad (lat1 - lat2) / 2)) by (unfold degToRad; field). rewrite sin_neg. unfold square. ring.
Qed.
Lemma small_deg x : 1 / 1000000 <= x -> 1 / 1000000000 <= degToRad x.
Proof. intros H. pose proof PI2_3_2. unfold degToRad. nra. Qed.
Lemma dist_equator lon1 lon2 depth : Rabs (lon2 - lon1) <= 180 -> 1 / 1000000 <= Rabs (lon2 - lon1) ->
  distance 0 lon1 0 lon2 depth = degToRad (Rabs (lon2 - lon1)) * (EARTH_RADIUS - depth).
Proof.
  intros H1 H2. pose proof PI_RGT_0 as HPI. rewrite C23_arc_length. f_equal.
  assert (Rabs (degToRad (lon2 - lon1)) = degToRad (Rabs (lon2 - lon1))) as EA.
  { unfold degToRad, Rdiv. rewrite !Rabs_mult, (Rabs_right PI), (Rabs_right (/ 180)) by lra. reflexivity. }
  rewrite (angular_distance_eq _ _ _ _ (degToRad (Rabs (lon2 - lon1)) / 2)).
  - field.
  - intros [_ K]. rewrite EA in K. apply small_deg in H2. lra.
  - unfold degToRad. pose proof (Rabs_pos (lon2 - lon1)). nra.
  - unfold haversine. replace (degToRad (0 - 0) / 2) with 0 by (unfold degToRad; field). replace (degToRad 0) with 0 by (unfold degToRad; field). rewrite sin_0, cos_0.
    unfold Rabs. destruct (Rcase_abs (lon2 - lon1)) as [N|P].
    + replace (degToRad (- (lon2 - lon1)) / 2) with (- (degToRad (lon2 - lon1) / 2)) by (unfold degToRad; field). rewrite sin_neg. unfold square. ring.
    + unfold square. ring.
Qed.

(** ** C27 is false: at every latitude off the equator, and for every separation in
    longitude, there is a set of points and a radius for which radiusSearch, however it was
    built, misses a point within the radius: the distance to the splitting plane is
    computed at the equator. *)
Definition south_and (p : gpoint) (i : nat) : gpoint :=
  match i with 0%nat => GP (-20) 0 0 | 1%nat => GP (-10) 0 0 | _ => p end.
Theorem C27_radius_refuted lat dlon : 0 < lat < 90 -> 1 / 1000000 <= dlon < 180 ->
  let pts := south_and (GP lat dlon 0) in let q := GP lat 0 0 in
  exists rad, forall nth, nth_spec Rle (gcoord pts) nth ->
    exists i, (i < 4)%nat /\ gdist pts q i <= rad /\ i ∉ (geo_radius_search pts q nth 4 rad).*2.
Proof.
  intros Hlat Hlon pts q. pose proof PI_RGT_0 as HPI. pose proof PI2_3_2 as HP2.
  assert (0 < EARTH_RADIUS) as HR by (unfold EARTH_RADIUS; lra).
  exists (gdist pts q 2%nat). intros nth Hnth.
  destruct (tree_four pts nth Hnth) as (c & d & ET & HP & _); [cbn; lra|cbn; lra|cbn; lra|].
  assert (d = 2 ∨ d = 3)%nat as Hd. { assert (d ∈ [2;3]%nat) as K by (rewrite <- HP; set_solver). set_solver. }
  assert (c = 2 ∨ c = 3)%nat as Hc. { assert (c ∈ [2;3]%nat) as K by (rewrite <- HP; set_solver). set_solver. }
  assert (c ≠ d) as Hcd. { intros ->. assert (NoDup [d; d]) as K by (rewrite HP; repeat constructor; set_solver). apply NoDup_cons in K as [K _]. set_solver. }
  assert (∀ i, i = 2 ∨ i = 3 → pts i = GP lat dlon 0)%nat as Hp by (intros i [->| ->]; reflexivity).
  assert (gdist pts q d = gdist pts q 2%nat) as Ed by (unfold gdist; rewrite (Hp d Hd); reflexivity).
  (* the distance is shorter than along the equator *)
  assert (gdist pts q 2%nat < gadist pts q 1%nat c) as Hshort.
  { unfold gadist. rewrite (Hp c Hc). cbn [g_lon q]. rewrite dist_equator; [|rewrite Rabs_left; lra|rewrite Rabs_left; lra].
    replace (Rabs (0 - dlon)) with dlon by (rewrite Rabs_left; lra).
    unfold gdist. rewrite (Hp 2%nat (or_introl eq_refl)). cbn [g_lat g_lon g_depth q]. unfold distance3.
    replace ((0 + 0) / 2) with 0 by field. replace (0 - 0) with 0 by ring. rewrite Rabs_R0. destruct (Rlt_dec 0 (1 / 10000000)); [|lra].
    rewrite C23_arc_length. apply Rmult_lt_compat_r; [lra|].
    assert (~ same_place lat dlon lat 0) as N.
    { intros [_ K]. replace (degToRad (0 - dlon)) with (- degToRad dlon) in K by (unfold degToRad; field). rewrite Rabs_Ropp in K.
      pose proof (small_deg dlon ltac:(lra)). rewrite Rabs_right in K by lra. lra. }
    destruct (angular_distance_unfold _ _ _ _ N) as (t & -> & Ht & Es).
    rewrite clamp01_id in Es by (apply haversine_range; lra).
    unfold haversine in Es. replace (degToRad (lat - lat) / 2) with 0 in Es by (unfold degToRad; field). rewrite sin_0 in Es.
    replace (degToRad (0 - dlon) / 2) with (- (degToRad dlon / 2)) in Es by (unfold degToRad; field). rewrite sin_neg in Es.
    assert (0 < cos (degToRad lat) < 1) as Hcos.
    { split; [apply cos_gt_0; unfold degToRad; nra|]. rewrite <- cos_0. apply cos_decreasing_1; unfold degToRad; nra. }
    assert (0 < sin (degToRad dlon / 2)) as Hsin by (apply sin_gt_0; unfold degToRad; nra).
    destruct (Rlt_dec (2 * t) (degToRad dlon)) as [K|K]; [exact K|exfalso].
    assert (sin (degToRad dlon / 2) <= sin t) as Hle by (apply sin_incr_1; [unfold degToRad; nra|unfold degToRad; nra|lra|lra|lra]).
    unfold square in Es. set (sn := sin (degToRad dlon / 2)) in *. set (cs := cos (degToRad lat)) in *. 
    assert (sn * sn <= sin t * sin t) by nra. assert (cs * cs < 1) by nra. assert (0 < sn * sn) by nra. nra. }
  exists d. split; [destruct Hd; lia|]. split; [lra|].
  assert (gquery q 0%nat = lat ∧ gquery q 1%nat = 0) as [Q0 Q1] by done.
  unfold geo_radius_search, radius_search. rewrite ET. set (rad := gdist pts q 2%nat) in *.
  intros Hin. apply radius_visited in Hin as [Hin|Hin]; [|by apply elem_of_nil in Hin].
  assert (¬ (gcoord pts 1%nat c <= gquery q 1%nat)) as Hw by (unfold gcoord; rewrite (Hp c Hc); cbn; lra).
  cbn [visited] in Hin.
  rewrite (decide_False (P := ¬ (gcoord pts 0%nat 1%nat <= gquery q 0%nat))) in Hin by (intros K; apply K; cbn; lra).
  rewrite (decide_False (P := ¬ (gcoord pts 0%nat 1%nat <= gquery q 0%nat))) in Hin by (intros K; apply K; cbn; lra).
  rewrite (decide_True (P := ¬ (gcoord pts 1%nat c <= gquery q 1%nat))) in Hin by exact Hw.
  rewrite (decide_False (P := gadist pts q 1%nat c <= rad)) in Hin by lra.
  assert (d ∈ [1; c; 0]%nat) as Hin2.
  { revert Hin. rewrite !elem_of_cons, !elem_of_app. intros [H|[H|H]]; [tauto| |].
    - rewrite elem_of_cons in H. destruct H as [H|H]; [tauto|]. by apply elem_of_nil in H.
    - destruct (decide _) in H; [|by apply elem_of_nil in H]. rewrite elem_of_cons in H. destruct H as [H|H]; [tauto|].
      destruct (decide _) in H; destruct (decide _) in H; by apply elem_of_nil in H. }
  clear -Hin2 Hd Hcd. set_solver by lia.
Qed.

(** ** Nearest neighbour and best first search return points in the wrong order *)
Definition polar_pts (i : nat) : gpoint :=
  match i with 0%nat => GP (-70) 180 0 | 1%nat => GP (-60) 180 0 | 2%nat => GP 30 90 0 | _ => GP 60 180 0 end.
Definition polar_q : gpoint := GP 60 0 0.
Lemma deg60 : degToRad 60 = PI / 3. Proof. unfold degToRad. field. Qed.
Lemma deg30 : degToRad 30 = PI / 6. Proof. unfold degToRad. field. Qed.
Lemma deg90 : degToRad 90 = PI / 2. Proof. unfold degToRad. field. Qed.
Lemma deg0 : degToRad 0 = 0. Proof. unfold degToRad. field. Qed.
Lemma not_same_lat lat1 lon1 lat2 lon2 : 1 <= Rabs (lat1 - lat2) -> ~ same_place lat1 lon1 lat2 lon2.
Proof. intros H [K _]. lra. Qed.
Lemma not_same_lon lat1 lon1 lat2 lon2 : 1 <= lon1 - lon2 -> ~ same_place lat1 lon1 lat2 lon2.
Proof.
  intros H [_ K]. replace (degToRad (lon2 - lon1)) with (- degToRad (lon1 - lon2)) in K by (unfold degToRad; field). rewrite Rabs_Ropp in K.
  pose proof (small_deg (lon1 - lon2) ltac:(lra)). rewrite Rabs_right in K by lra. lra.
Qed.
Lemma surface_dist lat1 lon1 lat2 lon2 : distance3 lat1 lon1 0 lat2 lon2 0 = angular_distance lat1 lon1 lat2 lon2 * EARTH_RADIUS.
Proof.
  unfold distance3. replace ((0 + 0) / 2) with 0 by field. replace (0 - 0) with 0 by ring. rewrite Rabs_R0.
  destruct (Rlt_dec 0 (1 / 10000000)); [|lra]. rewrite C23_arc_length, Rminus_0_r. reflexivity.
Qed.
Lemma polar_dists : gdist polar_pts polar_q 3%nat = PI / 3 * EARTH_RADIUS ∧
  PI / 3 * EARTH_RADIUS < gdist polar_pts polar_q 2%nat < PI / 2 * EARTH_RADIUS ∧
  gdist polar_pts polar_q 1%nat = PI * EARTH_RADIUS ∧
  gadist polar_pts polar_q 1%nat 2%nat = PI / 2 * EARTH_RADIUS ∧ gadist polar_pts polar_q 0%nat 1%nat = 2 * PI / 3 * EARTH_RADIUS.
Proof.
  pose proof PI_RGT_0 as HPI. assert (0 < EARTH_RADIUS) as HR by (unfold EARTH_RADIUS; lra).
  split; [|split; [|split; [|split]]].
  - unfold gdist. cbn. rewrite surface_dist. f_equal. rewrite (angular_distance_eq _ _ _ _ (PI / 6)); [field|apply not_same_lon; lra|lra|].
    unfold haversine. replace (degToRad (60 - 60) / 2) with 0 by (unfold degToRad; field). replace (degToRad (0 - 180) / 2) with (- (PI / 2)) by (unfold degToRad; field).
    rewrite sin_0, sin_neg, sin_PI2, deg60, cos_PI3, sin_PI6. unfold square. field.
  - unfold gdist. cbn. rewrite surface_dist.
    destruct (C23_great_circle 30 90 60 0) as [B C]; [unfold valid_lat; lra|unfold valid_lat; lra|apply not_same_lon; lra|].
    unfold dot, unit_vec in C. rewrite deg90, deg0, deg60, deg30, cos_PI2, sin_0, sin_PI6, sin_PI3 in C.
    set (x := angular_distance 30 90 60 0) in *. clearbody x.
    assert (cos x = R_sqrt.sqrt 3 / 4) as C' by (rewrite C; field).
    assert (1 < R_sqrt.sqrt 3 < 2) as S3.
    { split; [rewrite <- sqrt_1; apply sqrt_lt_1; lra|]. replace 2 with (R_sqrt.sqrt (square 2)) by (apply sqrt_square; lra). apply sqrt_lt_1; unfold square; lra. }
    assert (PI / 3 < x).
    { destruct (Rlt_dec (PI / 3) x) as [K|K]; [exact K|exfalso]. assert (cos (PI / 3) <= cos x) by (apply cos_decr_1; lra). rewrite cos_PI3 in *. lra. }
    assert (x < PI / 2).
    { destruct (Rlt_dec x (PI / 2)) as [K|K]; [exact K|exfalso]. assert (cos x <= cos (PI / 2)) by (apply cos_decr_1; lra). rewrite cos_PI2 in *. lra. }
    split; apply Rmult_lt_compat_r; lra.
  - unfold gdist. cbn. rewrite surface_dist. f_equal. rewrite (angular_distance_eq _ _ _ _ (PI / 2)); [field|apply not_same_lon; lra|lra|].
    unfold haversine. replace (degToRad (60 - -60) / 2) with (PI / 3) by (unfold degToRad; field). replace (degToRad (0 - 180) / 2) with (- (PI / 2)) by (unfold degToRad; field).
    replace (degToRad (-60)) with (- (PI / 3)) by (unfold degToRad; field).
    rewrite sin_neg, sin_PI2, deg60, cos_neg, cos_PI3, sin_PI3. unfold square.
    replace (R_sqrt.sqrt 3 / 2 * (R_sqrt.sqrt 3 / 2)) with (R_sqrt.sqrt 3 * R_sqrt.sqrt 3 / 4) by field. rewrite sqrt_sqrt by lra. field.
  - unfold gadist. cbn. rewrite dist_equator; [|rewrite Rabs_left; lra|rewrite Rabs_left; lra]. rewrite Rabs_left, Rminus_0_r by lra.
    replace (- (0 - 90)) with 90 by ring. rewrite deg90. reflexivity.
  - unfold gadist. cbn. rewrite dist_meridian; [|rewrite Rabs_left; lra|rewrite Rabs_left; lra]. rewrite Rabs_left, Rminus_0_r by lra.
    replace (- (-60 - 60)) with 120 by ring. unfold degToRad. field.
Qed.
Lemma polar_tree nth : nth_spec Rle (gcoord polar_pts) nth →
  make nth 4 = Node 1 0 (Node 0 1 Leaf Leaf) (Node 2 1 Leaf (Node 3 2 Leaf Leaf)).
Proof.
  intros Hnth. destruct (tree_four polar_pts nth Hnth) as (c & d & ET & HP & HL); [cbn; lra|cbn; lra|cbn; lra|].
  assert (d = 2 ∨ d = 3)%nat as Hd. { assert (d ∈ [2;3]%nat) as K by (rewrite <- HP; set_solver). set_solver. }
  assert (c = 2 ∨ c = 3)%nat as Hc. { assert (c ∈ [2;3]%nat) as K by (rewrite <- HP; set_solver). set_solver. }
  assert (c ≠ d) as Hcd. { intros ->. assert (NoDup [d; d]) as K by (rewrite HP; repeat constructor; set_solver). apply NoDup_cons in K as [K _]. set_solver. }
  destruct Hc as [->| ->], Hd as [->| ->]; try congruence. exfalso. cbn in HL. lra.
Qed.
Lemma nn_step pts q i a l r s s1 s2 :
  (if decide (¬ (s.2 <= gdist pts q i)) then (Some i, gdist pts q i) else s) = s1 →
  (if decide (¬ (gcoord pts a i <= gquery q a)) then nn Rle (gcoord pts) (gquery q) (gdist pts q) (gadist pts q) l s1
   else nn Rle (gcoord pts) (gquery q) (gdist pts q) (gadist pts q) r s1) = s2 →
  ¬ ¬ (s2.2 <= gadist pts q a i) →
  nn Rle (gcoord pts) (gquery q) (gdist pts q) (gadist pts q) (Node i a l r) s = s2.
Proof. intros <- <- H. cbn [nn]. rewrite (decide_False (P := ¬ (_ <= gadist pts q a i))); [done|exact H]. Qed.
Lemma bf_step pts q pop fuel cb qq out :
  best_first Rle (gcoord pts) (gquery q) (gdist pts q) (gadist pts q) pop (S fuel) cb qq out =
  match pop qq with
  | None => (out, true)
  | Some (IPoint d i, qq) =>
      if cb (out ++ [(i, d)]) then (out ++ [(i, d)], true)
      else best_first Rle (gcoord pts) (gquery q) (gdist pts q) (gadist pts q) pop fuel cb qq (out ++ [(i, d)])
  | Some (INode d Leaf, qq) => best_first Rle (gcoord pts) (gquery q) (gdist pts q) (gadist pts q) pop fuel cb qq out
  | Some (INode d (Node idx axis l r), qq) =>
      best_first Rle (gcoord pts) (gquery q) (gdist pts q) (gadist pts q) pop fuel cb
        (push_node (maxD Rle d (gadist pts q axis idx)) (far Rle (gcoord pts) (gquery q) axis idx l r)
          (push_node d (near Rle (gcoord pts) (gquery q) axis idx l r) (IPoint (gdist pts q idx) idx :: qq))) out
  end.
Proof. reflexivity. Qed.
(** nnSearch returns a point although another one is nearer (by a third of the distance). *)
Theorem C27_nn_refuted nth dmax : nth_spec Rle (gcoord polar_pts) nth → PI * EARTH_RADIUS < dmax →
  ∃ i d j, geo_nn_search polar_pts polar_q nth 4 dmax = NNFound i d ∧ (j < 4)%nat ∧ gdist polar_pts polar_q j < d.
Proof.
  intros Hnth Hmax. destruct polar_dists as (D3 & D2 & D1 & A2 & A1). pose proof PI_RGT_0 as HPI. assert (0 < EARTH_RADIUS) as HR by (unfold EARTH_RADIUS; lra).
  assert (0 < PI * EARTH_RADIUS) as HPR by nra.
  exists 2%nat, (gdist polar_pts polar_q 2), 3%nat. split; [|split; [lia|lra]].
  unfold geo_nn_search. rewrite (polar_tree nth Hnth). unfold nn_search.
  rewrite (nn_step _ _ 1%nat 0%nat _ _ _ (Some 1%nat, gdist polar_pts polar_q 1) (Some 2%nat, gdist polar_pts polar_q 2)); [reflexivity| | |].
  - rewrite decide_True; [done|]. cbn [snd]. rewrite D1. lra.
  - rewrite decide_False by (intros K; apply K; cbn; lra).
    apply (nn_step _ _ 2%nat 1%nat _ _ _ (Some 2%nat, gdist polar_pts polar_q 2)).
    + rewrite decide_True; [done|]. cbn [snd]. rewrite D1. lra.
    + rewrite decide_True by (cbn; lra). reflexivity.
    + cbn [snd]. intros K; apply K; lra.
  - cbn [snd]. intros K; apply K; lra.
Qed.

(** The callback of bestFirstSearch is not called in the order of the distance, against
    the comment "it is guaranteed to be the next closest point" (kdtree.h 176) and what
    the selection of the nearest neighbours assumes (C30). *)
Theorem C30_tree_order_refuted nth pop :
  nth_spec Rle (gcoord polar_pts) nth → pop_spec Rle pop →
  ∃ o, geo_best_first polar_pts polar_q nth pop 4 (λ _, false) = (o, true) ∧ length o = 4%nat ∧
    ¬ StronglySorted (λ x y, x.2 <= y.2) o.
Proof.
  intros Hnth Hpop. destruct polar_dists as (D3 & D2 & D1 & A2 & A1). pose proof PI_RGT_0 as HPI. assert (0 < EARTH_RADIUS) as HR by (unfold EARTH_RADIUS; lra).
  assert (0 < PI * EARTH_RADIUS) as HPR by nra.
  assert (∀ i, (i < 4)%nat → 0 <= gdist polar_pts polar_q i) as Hpos.
  { intros i _. unfold gdist. destruct i as [|[|[|i]]]; cbn; rewrite surface_dist; apply Rmult_le_pos; try lra; apply angular_distance_range. }
  destruct (C26_best_first Rle (gcoord polar_pts) nth Hnth (gquery polar_q) (gdist polar_pts polar_q) (gadist polar_pts polar_q) pop Hpop 4 0 (λ _, false) Hpos)
    as (o & rest & E & HPm & Hr & _).
  destruct Hr as [->|[_ K]]; [|discriminate K]. rewrite app_nil_r in HPm.
  exists o. split; [exact E|]. split; [by rewrite HPm|].
  (* the first call is for point 2 *)
  assert (∃ o', o = (2%nat, gdist polar_pts polar_q 2) :: o') as [o' Eo].
  { unfold best_first_search in E. rewrite (polar_tree nth Hnth) in E. change (S (2 * length (indices (Node 1 0 (Node 0 1 Leaf Leaf) (Node 2 1 Leaf (Node 3 2 Leaf Leaf))))))%nat with (S (S (S 6))) in E.
    generalize dependent 6%nat. intros fuel E. rewrite bf_step in E. pose proof (Hpop [INode 0 (Node 1 0 (Node 0 1 Leaf Leaf) (Node 2 1 Leaf (Node 3 2 Leaf Leaf)))]) as H1.
    destruct (pop [INode 0 _]) as [[x q1]|] eqn:P1; [|discriminate H1]. destruct H1 as [H1 _]. symmetry in H1. apply Permutation_singleton_r in H1. injection H1 as -> ->.
    assert (near Rle (gcoord polar_pts) (gquery polar_q) 0 1 (Node 0 1 Leaf Leaf) (Node 2 1 Leaf (Node 3 2 Leaf Leaf)) = Node 2 1 Leaf (Node 3 2 Leaf Leaf)) as N1.
    { unfold near. rewrite decide_False; [done|]. intros K; apply K; cbn; lra. }
    assert (far Rle (gcoord polar_pts) (gquery polar_q) 0 1 (Node 0 1 Leaf Leaf) (Node 2 1 Leaf (Node 3 2 Leaf Leaf)) = Node 0 1 Leaf Leaf) as F1.
    { unfold far. rewrite decide_False; [done|]. intros K; apply K; cbn; lra. }
    rewrite N1, F1 in E. cbn [push_node] in E. rewrite A1, D1 in E.
    unfold maxD at 1 in E. rewrite decide_True in E by nra.
    set (r0 := INode (2 * PI / 3 * EARTH_RADIUS) (Node 0 1 Leaf Leaf)) in *. set (p1 := IPoint (PI * EARTH_RADIUS) 1%nat) in *.
    set (n2 := INode 0 (Node 2 1 Leaf (Node 3 2 Leaf Leaf))) in *.
    rewrite bf_step in E. pose proof (Hpop [r0; n2; p1]) as H2. destruct (pop [r0; n2; p1]) as [[x q2]|] eqn:P2; [|discriminate H2]. destruct H2 as [H2 M2].
    assert (x = n2) as ->.
    { assert (x ∈ [r0; n2; p1]) as Hx by (rewrite H2; by left).
      assert (n2 ∈ x :: q2) as Hn by (rewrite <- H2; set_solver).
      apply elem_of_cons in Hn as [Hn|Hn]; [done|]. specialize (M2 _ Hn). unfold n2 in M2. cbn [key] in M2.
      rewrite !elem_of_cons in Hx. destruct Hx as [->|[->|[->|Hx]]]; [exfalso|done|exfalso|by apply elem_of_nil in Hx]; cbn in M2; nra. }
    assert (q2 ≡ₚ [r0; p1]) as Hq2.
    { apply (Permutation_cons_inv (a := n2)). rewrite <- H2. constructor. }
    unfold n2 in E. cbn iota in E.
    assert (near Rle (gcoord polar_pts) (gquery polar_q) 1 2 Leaf (Node 3 2 Leaf Leaf) = Leaf) as N2.
    { unfold near. rewrite decide_True; [done|]. cbn; lra. }
    assert (far Rle (gcoord polar_pts) (gquery polar_q) 1 2 Leaf (Node 3 2 Leaf Leaf) = Node 3 2 Leaf Leaf) as F2.
    { unfold far. rewrite decide_True; [done|]. cbn; lra. }
    rewrite N2, F2 in E. cbn [push_node] in E. rewrite A2 in E. unfold maxD at 1 in E. rewrite decide_True in E by nra.
    set (n3 := INode (PI / 2 * EARTH_RADIUS) (Node 3 2 Leaf Leaf)) in *. set (p2 := IPoint (gdist polar_pts polar_q 2) 2%nat) in *.
    rewrite bf_step in E. pose proof (Hpop (n3 :: p2 :: q2)) as H3. destruct (pop (n3 :: p2 :: q2)) as [[x q3]|] eqn:P3; [|discriminate H3]. destruct H3 as [H3 M3].
    assert (x = p2) as ->.
    { assert (x ∈ n3 :: p2 :: q2) as Hx by (rewrite H3; by left).
      assert (p2 ∈ x :: q3) as Hn by (rewrite <- H3; set_solver).
      apply elem_of_cons in Hn as [Hn|Hn]; [done|]. specialize (M3 _ Hn). unfold p2 in M3. cbn [key] in M3.
      rewrite Hq2 in Hx. rewrite !elem_of_cons in Hx. destruct Hx as [->|[->|[->|[->|Hx]]]]; [exfalso|done|exfalso|exfalso|by apply elem_of_nil in Hx]; cbn in M3; nra. }
    unfold p2 in E. cbn iota in E.
    assert (∀ fuel q out o, best_first Rle (gcoord polar_pts) (gquery polar_q) (gdist polar_pts polar_q) (gadist polar_pts polar_q) pop fuel (λ _, false) q out = (o, true) → ∃ o', o = out ++ o') as Hext.
    { clear. induction fuel as [|fuel IH]; intros q out o; [discriminate|]. rewrite bf_step.
      destruct (pop q) as [[[d [|i a l r]|d i] q']|].
      - apply IH.
      - apply IH.
      - intros H. apply IH in H as [o' ->]. exists ((i, d) :: o'). by rewrite <- app_assoc.
      - intros [= <-]. exists []. by rewrite app_nil_r. }
    apply Hext in E as [o' ->]. by exists o'. }
  intros Hs. rewrite Eo in Hs. apply StronglySorted_inv in Hs as [_ Hs].
  assert ((3%nat, gdist polar_pts polar_q 3) ∈ o') as H3.
  { assert ((3%nat, gdist polar_pts polar_q 3) ∈ o) as H. { rewrite HPm. apply elem_of_list_fmap. exists 3%nat. split; [done|]. apply elem_of_seq. lia. }
    rewrite Eo in H. apply elem_of_cons in H as [H|H]; [discriminate H|done]. }
  rewrite Forall_forall in Hs. specialize (Hs _ H3). cbn in Hs. lra.
Qed.
(** Satisfiability: sorting is an admissible nth_element. *)
Example geo_nth_exists pts : nth_spec Rle (gcoord pts) (nth_sort Rle (gcoord pts)).
Proof. apply nth_sort_spec, _. Qed.
Example geo_pop_exists : pop_spec Rle (pop_sort Rle).
Proof. apply pop_sort_spec, _. Qed.

(** ** What does hold: a point is found if its distance is below a fraction of the radius
    which depends on the largest latitude and depth (partial C27). *)
Section found.
Context (pts : nat → gpoint) (q : gpoint).
Notation rs := (radius Rle (gcoord pts) (gquery q) (gdist pts q) (gadist pts q)).
Lemma radius_keeps rad t : ∀ qq x, x ∈ qq → x ∈ rs rad t qq.
Proof using.
  intros qq x Hx. destruct (radius_sound Rle (gcoord pts) (gquery q) (gdist pts q) (gadist pts q) rad t qq) as (l & _ & _ & E).
  rewrite E. apply elem_of_app. by right.
Qed.
Lemma radius_found rad t x : sep Rle (gcoord pts) t → axes_lt3 t → x ∈ indices t → gdist pts q x <= rad →
  (∀ a i, i ∈ indices t → (a < 3)%nat → across Rle (gcoord pts) (gquery q) a i x → gadist pts q a i <= rad) →
  ∀ qq, (gdist pts q x, x) ∈ rs rad t qq.
Proof using.
  induction t as [|i a l IHl r IHr]; intros Hs Ha Hx Hd Hall qq; [by apply elem_of_nil in Hx|].
  pose proof (far_across Rle (gcoord pts) (gquery q) i a l r x Hs) as Hfar.
  destruct Hs as (S1 & S2 & S3 & S4). destruct Ha as (A1 & A2 & A3). cbn [indices] in Hx, Hall.
  cbn [radius]. set (q1 := if decide (gdist pts q i <= rad) then _ else _).
  assert (∀ a' i', i' ∈ indices l → (a' < 3)%nat → across Rle (gcoord pts) (gquery q) a' i' x → gadist pts q a' i' <= rad) as Hl.
  { intros a' i' Hi'. apply Hall. rewrite elem_of_cons, elem_of_app. tauto. }
  assert (∀ a' i', i' ∈ indices r → (a' < 3)%nat → across Rle (gcoord pts) (gquery q) a' i' x → gadist pts q a' i' <= rad) as Hr.
  { intros a' i' Hi'. apply Hall. rewrite elem_of_cons, elem_of_app. tauto. }
  assert (x ∈ indices (far Rle (gcoord pts) (gquery q) a i l r) → gadist pts q a i <= rad) as Hf.
  { intros H. apply Hall; [by left|done|by apply Hfar]. }
  unfold far in Hf. apply elem_of_cons in Hx as [->|Hx].
  - assert ((gdist pts q i, i) ∈ q1) as H1. { unfold q1. rewrite decide_True by exact Hd. rewrite emplace_perm. by left. }
    repeat case_decide; repeat apply radius_keeps; exact H1.
  - apply elem_of_app in Hx. destruct (decide (¬ (gcoord pts a i <= gquery q a))) as [W|W].
    + destruct Hx as [Hx|Hx].
      * case_decide; [apply radius_keeps|]; apply IHl; assumption.
      * rewrite decide_True by (apply Hf, Hx). apply IHr; assumption.
    + destruct Hx as [Hx|Hx].
      * rewrite decide_True by (apply Hf, Hx). apply IHl; assumption.
      * case_decide; [apply radius_keeps|]; apply IHr; assumption.
Qed.
End found.
Lemma sin_half_bound u : 0 <= u <= PI / 2 -> u / 2 <= sin u.
Proof.
  intros H. pose proof PI_4. destruct (pre_sin_bound u 0 ltac:(lra) ltac:(lra)) as [L _]. unfold sin_approx, sin_term in L. simpl in L.
  assert (u * u <= 3).
  { destruct (PI_ineq 2) as [_ K]. unfold tg_alt, PI_tg in K. simpl in K. assert (u <= 168/100) by lra. nra. }
  nra.
Qed.
Lemma Rabs_le_inv x b : Rabs x <= b -> - b <= x <= b.
Proof. unfold Rabs. destruct (Rcase_abs x); lra. Qed.
Lemma deg_abs x : Rabs (degToRad x) = degToRad (Rabs x).
Proof. pose proof PI_RGT_0. unfold degToRad, Rdiv. rewrite !Rabs_mult, (Rabs_right PI), (Rabs_right (/ 180)) by lra. reflexivity. Qed.
Lemma deg_mono x y : x <= y -> degToRad x <= degToRad y.
Proof. pose proof PI_RGT_0. unfold degToRad. intros. nra. Qed.
Lemma sin_abs_half x : square (sin (degToRad x / 2)) = square (sin (degToRad (Rabs x) / 2)).
Proof.
  unfold Rabs. destruct (Rcase_abs x) as [N|P]; [|reflexivity].
  replace (degToRad (- x) / 2) with (- (degToRad x / 2)) by (unfold degToRad; field). rewrite sin_neg. unfold square. ring.
Qed.
(** Lower bounds of the angular distance *)
Lemma angle_lower lat1 lon1 lat2 lon2 w : valid_lat lat1 -> valid_lat lat2 -> ~ same_place lat1 lon1 lat2 lon2 ->
  0 <= w <= PI / 2 -> square (sin w) <= haversine lat1 lon1 lat2 lon2 -> 2 * w <= angular_distance lat1 lon1 lat2 lon2.
Proof.
  intros V1 V2 N Hw H. pose proof PI_RGT_0. destruct (angular_distance_unfold _ _ _ _ N) as (t & -> & Ht & Es).
  rewrite clamp01_id in Es by (apply haversine_range; assumption).
  destruct (Rle_dec w t) as [K|K]; [lra|exfalso].
  assert (sin t < sin w) by (apply sin_increasing_1; lra). assert (0 <= sin t) by (apply sin_ge_0; lra). unfold square in *. nra.
Qed.
Lemma haversine_parts lat1 lon1 lat2 lon2 Phi : 0 <= Phi < 90 -> Rabs lat1 <= Phi -> Rabs lat2 <= Phi ->
  square (sin (degToRad (Rabs (lat1 - lat2)) / 2)) <= haversine lat1 lon1 lat2 lon2 /\
  square (cos (degToRad Phi) * sin (degToRad (Rabs (lon1 - lon2)) / 2)) <= haversine lat1 lon1 lat2 lon2.
Proof.
  intros HP H1 H2. pose proof PI_RGT_0 as HPI.
  assert (forall l, Rabs l <= Phi -> cos (degToRad Phi) <= cos (degToRad l)) as HC.
  { intros l Hl. assert (cos (degToRad l) = cos (degToRad (Rabs l))) as ->.
    { unfold Rabs. destruct (Rcase_abs l); [|reflexivity]. replace (degToRad (- l)) with (- degToRad l) by (unfold degToRad; field). symmetry. apply cos_neg. }
    pose proof (Rabs_pos l). apply cos_decr_1; unfold degToRad; nra. }
  assert (0 <= cos (degToRad Phi)) as HC0 by (apply cos_ge_0; unfold degToRad; nra).
  pose proof (HC lat1 H1) as K1. pose proof (HC lat2 H2) as K2. unfold haversine.
  rewrite (Rabs_minus_sym lat1 lat2), (Rabs_minus_sym lon1 lon2), <- (sin_abs_half (lat2 - lat1)).
  pose proof (square_pos (sin (degToRad (lat2 - lat1) / 2))) as P1. pose proof (square_pos (sin (degToRad (lon2 - lon1) / 2))) as P2.
  assert (cos (degToRad Phi) * cos (degToRad Phi) <= cos (degToRad lat1) * cos (degToRad lat2)) by nra.
  split; [nra|].
  assert (square (cos (degToRad Phi) * sin (degToRad (Rabs (lon2 - lon1)) / 2)) = cos (degToRad Phi) * cos (degToRad Phi) * square (sin (degToRad (lon2 - lon1) / 2))) as ->.
  { rewrite (sin_abs_half (lon2 - lon1)). unfold square. ring. }
  nra.
Qed.
Theorem C27_radius_partial pts q nth n Phi dmax rad x :
  nth_spec Rle (gcoord pts) nth → 0 <= Phi < 90 → 0 <= dmax < EARTH_RADIUS → 1 / 10000000 <= rad →
  Rabs (g_lat q) <= Phi →
  (∀ i, (i < n)%nat → Rabs (g_lat (pts i)) <= Phi ∧ (g_depth (pts i) + g_depth q) / 2 <= dmax ∧ Rabs (g_lon (pts i) - g_lon q) <= 180) →
  (x < n)%nat → gdist pts q x <= cos (degToRad Phi) / 2 * (1 - dmax / EARTH_RADIUS) * rad →
  (gdist pts q x, x) ∈ geo_radius_search pts q nth n rad.
Proof.
  intros Hnth HPhi Hdm Hrad Hq Hpts Hx Hdist. pose proof PI_RGT_0 as HPI.
  assert (0 < EARTH_RADIUS) as HR by (unfold EARTH_RADIUS; lra).
  assert (0 < cos (degToRad Phi) <= 1) as Hc. { split; [apply cos_gt_0; unfold degToRad; nra|apply COS_bound]. }
  set (C := cos (degToRad Phi)) in *.
  set (k := 1 - dmax / EARTH_RADIUS) in *. assert (0 < k <= 1) as Hk.
  { unfold k. split.
    - assert (dmax / EARTH_RADIUS < 1); [|lra]. apply (Rmult_lt_reg_r EARTH_RADIUS); [lra|]. unfold Rdiv. rewrite Rmult_assoc, Rinv_l by lra. lra.
    - assert (0 <= dmax / EARTH_RADIUS); [|lra]. apply Rmult_le_pos; [lra|]. left. apply Rinv_0_lt_compat. lra. }
  assert (k * EARTH_RADIUS = EARTH_RADIUS - dmax) as Ek by (unfold k; field; lra).
  assert (gdist pts q x <= rad) as Hxr. { assert (C / 2 * k <= 1) by nra. nra. }
  destruct (Hpts x Hx) as (Lx & Dx & Ox).
  assert (valid_lat (g_lat (pts x))) as Vx by (unfold valid_lat; apply Rabs_le_inv in Lx; lra).
  assert (valid_lat (g_lat q)) as Vq by (unfold valid_lat; apply Rabs_le_inv in Hq; lra).
  assert ((g_depth (pts x) + g_depth q) / 2 <= EARTH_RADIUS) as DR by lra.
  destruct (C23_3d_partial (g_lat (pts x)) (g_lon (pts x)) (g_depth (pts x)) (g_lat q) (g_lon q) (g_depth q) DR) as (P0 & P1 & P2 & _).
  fold (gdist pts q x) in P0, P1, P2. rewrite C23_arc_length in P1.
  set (ang := angular_distance (g_lat (pts x)) (g_lon (pts x)) (g_lat q) (g_lon q)) in *.
  pose proof (angular_distance_range (g_lat (pts x)) (g_lon (pts x)) (g_lat q) (g_lon q)) as RA. fold ang in RA.
  assert (ang * EARTH_RADIUS <= C / 2 * rad) as Hang.
  { assert (ang * (k * EARTH_RADIUS) <= C / 2 * k * rad) by (rewrite Ek; nra). apply (Rmult_le_reg_l k); [lra|]. nra. }
  unfold geo_radius_search, radius_search. apply radius_found.
  - by apply tree_sep.
  - by eapply tree_axes.
  - by apply (in_tree Rle (gcoord pts) nth Hnth).
  - exact Hxr.
  - intros a i Hi Ha Hac. apply (in_tree Rle (gcoord pts) nth Hnth) in Hi. destruct (Hpts i Hi) as (Li & Di & Oi).
    assert (Rabs (gcoord pts a i - gquery q a) <= Rabs (gcoord pts a x - gquery q a)) as Hnear.
    { unfold across in Hac. unfold Rabs. destruct (Rcase_abs (gcoord pts a i - gquery q a)), (Rcase_abs (gcoord pts a x - gquery q a)); lra. }
    destruct a as [|[|[|a]]]; [| | |lia]; unfold gadist, gcoord, gquery, gcoord_of in *.
    + (* latitude *)
      rewrite C23_arc_length, Rminus_0_r.
      destruct (same_place_dec (g_lat (pts i)) 0 (g_lat q) 0) as [Sp|Ns].
      { unfold angular_distance. destruct (same_place_dec _ _ _ _); [lra|contradiction]. }
      assert (angular_distance (g_lat (pts i)) 0 (g_lat q) 0 = degToRad (Rabs (g_lat (pts i) - g_lat q))) as ->.
      { apply Rabs_le_inv in Li, Hq. rewrite (angular_distance_eq _ _ _ _ (degToRad (Rabs (g_lat (pts i) - g_lat q)) / 2)); [field|exact Ns| |].
        - assert (Rabs (g_lat (pts i) - g_lat q) <= 180) by (apply Rabs_le; lra). pose proof (Rabs_pos (g_lat (pts i) - g_lat q)). unfold degToRad. nra.
        - unfold haversine. replace (degToRad (0 - 0) / 2) with 0 by (unfold degToRad; field). rewrite sin_0, (Rabs_minus_sym (g_lat (pts i))), <- sin_abs_half. unfold square. ring. }
      assert (~ same_place (g_lat (pts x)) (g_lon (pts x)) (g_lat q) (g_lon q)) as Nx.
      { intros [K _]. apply Ns. split; [lra|]. replace (degToRad (0 - 0)) with 0 by (unfold degToRad; field). rewrite Rabs_R0. lra. }
      destruct (haversine_parts (g_lat (pts x)) (g_lon (pts x)) (g_lat q) (g_lon q) Phi HPhi Lx Hq) as [Hh _].
      assert (2 * (degToRad (Rabs (g_lat (pts x) - g_lat q)) / 2) <= ang) as Hl.
      { apply angle_lower; try assumption. apply Rabs_le_inv in Lx, Hq.
        assert (Rabs (g_lat (pts x) - g_lat q) <= 180) by (apply Rabs_le; lra). pose proof (Rabs_pos (g_lat (pts x) - g_lat q)). unfold degToRad. nra. }
      pose proof (deg_mono _ _ Hnear). nra.
    + (* longitude *)
      rewrite C23_arc_length, Rminus_0_r.
      destruct (same_place_dec 0 (g_lon (pts i)) 0 (g_lon q)) as [Sp|Ns].
      { unfold angular_distance. destruct (same_place_dec _ _ _ _); [lra|contradiction]. }
      assert (angular_distance 0 (g_lon (pts i)) 0 (g_lon q) = degToRad (Rabs (g_lon (pts i) - g_lon q))) as ->.
      { rewrite (angular_distance_eq _ _ _ _ (degToRad (Rabs (g_lon (pts i) - g_lon q)) / 2)); [field|exact Ns| |].
        - pose proof (Rabs_pos (g_lon (pts i) - g_lon q)). unfold degToRad. nra.
        - unfold haversine. replace (degToRad (0 - 0) / 2) with 0 by (unfold degToRad; field). replace (degToRad 0) with 0 by (unfold degToRad; field).
          rewrite sin_0, cos_0, (Rabs_minus_sym (g_lon (pts i))), <- sin_abs_half. unfold square. ring. }
      assert (~ same_place (g_lat (pts x)) (g_lon (pts x)) (g_lat q) (g_lon q)) as Nx.
      { intros [_ K]. apply Ns. split; [replace (0 - 0) with 0 by ring; rewrite Rabs_R0; lra|]. rewrite deg_abs, Rabs_minus_sym in K |- *.
        pose proof (deg_mono _ _ Hnear). lra. }
      destruct (haversine_parts (g_lat (pts x)) (g_lon (pts x)) (g_lat q) (g_lon q) Phi HPhi Lx Hq) as [_ Hh]. fold C in Hh.
      set (u := degToRad (Rabs (g_lon (pts x) - g_lon q)) / 2) in *.
      assert (0 <= u <= PI / 2) as Hu. { pose proof (Rabs_pos (g_lon (pts x) - g_lon q)). unfold u, degToRad. nra. }
      pose proof (sin_half_bound u Hu) as Hsu.
      assert (sin (C * (u / 2)) <= C * sin u) as Hs2.
      { assert (0 <= C * (u / 2)) by nra. assert (C * (u / 2) <= C * sin u) by nra.
        destruct (Req_dec (C * (u / 2)) 0) as [E|E]; [rewrite E, sin_0; nra|]. pose proof (sin_lt_x (C * (u / 2)) ltac:(lra)). lra. }
      assert (2 * (C * (u / 2)) <= ang) as Hl.
      { apply angle_lower; try assumption; [nra|]. assert (0 <= C * (u / 2) <= PI / 2) as B by nra.
        assert (0 <= sin (C * (u / 2))) by (apply sin_ge_0; lra). unfold square in *. nra. }
      pose proof (deg_mono _ _ Hnear) as Hm. replace (degToRad (Rabs (g_lon (pts x) - g_lon q))) with (2 * u) in Hm by (unfold u; field).
      assert (C * (2 * u) * EARTH_RADIUS <= C * rad) by nra.
      assert (2 * u * EARTH_RADIUS <= rad) by (apply (Rmult_le_reg_l C); [lra|]; lra). nra.
    + (* depth *)
      destruct (Rle_dec (1 / 10000000) (Rabs (g_depth (pts x) - g_depth q))) as [G|L]; [destruct (P2 G); lra|lra].
Qed.
(** The hypotheses hold for events around Switzerland: for instance latitude at most 50,
    depth at most 100 km. The point of C27_radius_refuted is of this kind too. *)
Example swiss_points : ∃ rad, 1 / 10000000 <= rad ∧
  gdist (λ _, GP 47 8 10) (GP 47 8 10) 0%nat <= cos (degToRad 50) / 2 * (1 - 100 / EARTH_RADIUS) * rad.
Proof.
  exists 1. split; [lra|]. unfold gdist. cbn. rewrite (proj2 (C23_zero 47 8 10 0)). pose proof PI_RGT_0.
  assert (0 < cos (degToRad 50)) by (apply cos_gt_0; unfold degToRad; nra).
  assert (0 < 1 - 100 / EARTH_RADIUS) by (unfold EARTH_RADIUS; lra). nra.
Qed.

Print Assumptions C27_radius_refuted.
Print Assumptions C27_nn_refuted.
Print Assumptions C30_tree_order_refuted.
Print Assumptions C27_radius_partial.
