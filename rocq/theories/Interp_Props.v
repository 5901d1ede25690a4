(** Interpolation (C22). *)
From Coq Require Import Reals Lra Lia.
From Verif Require Import Geo_Model Geo_Proofs Geo_Props Interp_Model.
Local Open Scope R_scope.

(** A value for every corner of the cell, addressed by 0/1 coordinates. *)
Definition corner (b : bool) : R := if b then 1 else 0.
Definition bil (x z : R) (v : bool -> bool -> R) : R :=
  interpolateBilinear x z (v false false) (v false true) (v true false) (v true true).
Definition tri (x y z : R) (v : bool -> bool -> bool -> R) : R :=
  interpolateTrilinear x y z (v false false false) (v false false true) (v false true false) (v false true true)
    (v true false false) (v true false true) (v true true false) (v true true true).
Definition sqa (x z : R) (v : bool -> bool -> R) : R :=
  interpolateSquareAngles x z (v false false) (v false true) (v true false) (v true true).
Definition cua (x y z : R) (v : bool -> bool -> bool -> R) : R :=
  interpolateCubeAngles x y z (v false false false) (v false false true) (v false true false) (v false true true)
    (v true false false) (v true false true) (v true true false) (v true true true).

Lemma lerp_between lo hi a b t : lo <= a <= hi -> lo <= b <= hi -> 0 <= t <= 1 -> lo <= lerp a b t <= hi.
Proof. intros. unfold lerp. nra. Qed.

(** C22: exact on every node ... *)
Theorem C22_nodes v w i j k :
  bil (corner i) (corner j) v = v i j /\ tri (corner i) (corner j) (corner k) w = w i j k.
Proof.
  unfold bil, tri, interpolateBilinear, interpolateTrilinear, lerp, corner.
  split; destruct i, j; [ring|ring|ring|ring|destruct k; ring|destruct k; ring|destruct k; ring|destruct k; ring].
Qed.
(** ... never outside the range of the node values ... *)
Theorem C22_between lo hi v w x y z : 0 <= x <= 1 -> 0 <= y <= 1 -> 0 <= z <= 1 ->
  ((forall i j, lo <= v i j <= hi) -> lo <= bil x z v <= hi) /\
  ((forall i j k, lo <= w i j k <= hi) -> lo <= tri x y z w <= hi).
Proof.
  intros Hx Hy Hz. split; intros H.
  - unfold bil, interpolateBilinear. apply lerp_between; [apply lerp_between|apply lerp_between|exact Hx]; try apply H; exact Hz.
  - unfold tri, interpolateTrilinear.
    apply lerp_between; [|  |exact Hx]; (apply lerp_between; [| |exact Hy]); (apply lerp_between; [| |exact Hz]); apply H.
Qed.
(** ... and exact for functions affine in each coordinate (in particular affine ones). *)
Theorem C22_multi_affine x y z a b c d e f g h :
  bil x z (fun i j => a + b * corner i + c * corner j + d * corner i * corner j) = a + b * x + c * z + d * x * z /\
  tri x y z (fun i j k => a + b * corner i + c * corner j + d * corner k + e * corner i * corner j + f * corner i * corner k +
                          g * corner j * corner k + h * corner i * corner j * corner k) =
    a + b * x + c * y + d * z + e * x * y + f * x * z + g * y * z + h * x * y * z.
Proof. unfold bil, tri, interpolateBilinear, interpolateTrilinear, lerp, corner. split; ring. Qed.

(** ** Angles *)
Lemma radToDeg_degToRad d : radToDeg (degToRad d) = d.
Proof. unfold radToDeg, degToRad. field. apply PI_neq0. Qed.
Lemma degToRad_radToDeg r : degToRad (radToDeg r) = r.
Proof. unfold radToDeg, degToRad. field. apply PI_neq0. Qed.
Lemma degToRad_plus a b : degToRad (a + b) = degToRad a + degToRad b.
Proof. unfold degToRad. field. Qed.
Lemma degToRad_minus a b : degToRad (a - b) = degToRad a - degToRad b.
Proof. unfold degToRad. field. Qed.
Lemma sin_cos_turns x (k : Z) : sin (x + 2 * IZR k * PI) = sin x /\ cos (x + 2 * IZR k * PI) = cos x.
Proof.
  destruct (Z_le_gt_dec 0 k) as [H|H].
  - rewrite <- (Z2Nat.id k H), <- INR_IZR_INZ. split; [apply sin_period|apply cos_period].
  - set (n := Z.to_nat (- k)). assert (IZR k = - INR n) as ->.
    { unfold n. rewrite INR_IZR_INZ, Z2Nat.id by lia. rewrite opp_IZR. ring. }
    set (y := x + 2 * - INR n * PI). replace x with (y + 2 * INR n * PI) by (unfold y; ring).
    split; [symmetry; apply sin_period|symmetry; apply cos_period].
Qed.
Lemma same_angle_trig a b : same_angle a b -> sin (degToRad a) = sin (degToRad b) /\ cos (degToRad a) = cos (degToRad b).
Proof.
  intros [k ->]. replace (degToRad (b + 360 * IZR k)) with (degToRad b + 2 * IZR k * PI) by (unfold degToRad; field).
  apply sin_cos_turns.
Qed.
Lemma same_angle_refl a : same_angle a a.
Proof. exists 0%Z. ring. Qed.
Lemma same_angle_sym a b : same_angle a b -> same_angle b a.
Proof. intros [k ->]. exists (- k)%Z. rewrite opp_IZR. ring. Qed.
Lemma same_angle_trans a b c : same_angle a b -> same_angle b c -> same_angle a c.
Proof. intros [k ->] [j ->]. exists (k + j)%Z. rewrite plus_IZR. ring. Qed.
(** The reconstructed angle is in [0, 360) and points in the direction of the vector. *)
Lemma angle_of_spec s c : (c <> 0 \/ s <> 0) -> 0 <= angle_of s c < 360 /\
  exists r, 0 < r /\ c = r * cos (degToRad (angle_of s c)) /\ s = r * sin (degToRad (angle_of s c)).
Proof.
  intros H. destruct (atan2_polar s c H) as (Hr & Hc & Hs). pose proof (atan2_range s c) as R2. pose proof PI_RGT_0 as HPI.
  set (t := atan2 s c) in *. assert (-180 < radToDeg t <= 180) as B.
  { replace t with (degToRad (radToDeg t)) in R2 by apply degToRad_radToDeg. unfold degToRad in R2.
    set (d := radToDeg t) in *. clearbody d. split; nra. }
  assert (exists j, angle_of s c = radToDeg t + 360 * IZR j) as [j Ej].
  { unfold angle_of. fold t. destruct (Rlt_dec (radToDeg t) 0); [exists 1%Z|exists 0%Z]; lra. }
  split.
  - unfold angle_of. fold t. destruct (Rlt_dec (radToDeg t) 0); lra.
  - exists (sqrt (square c + square s)). split; [exact Hr|].
    destruct (same_angle_trig (angle_of s c) (radToDeg t)) as [-> ->]; [exists j; exact Ej|].
    rewrite degToRad_radToDeg. split; assumption.
Qed.

(** [within m w a]: some representative of the angle a is at most w degrees from m. *)
Definition within (m w a : R) : Prop := exists k : Z, - w <= a + 360 * IZR k - m <= w.

(** A direction with positive component along m and on the right side of both borders. *)
Lemma sin_nonneg_range u : - PI < u < PI -> 0 <= sin u -> 0 <= u.
Proof.
  intros H S. destruct (Rle_dec 0 u) as [K|K]; [exact K|]. exfalso.
  assert (0 < sin (- u)) as G by (apply sin_gt_0; lra). rewrite sin_neg in G. lra.
Qed.
Lemma cos_pos_range u : - PI <= u <= PI -> 0 < cos u -> - (PI / 2) < u < PI / 2.
Proof.
  intros H C. split.
  - destruct (Rlt_dec (- (PI / 2)) u) as [K|K]; [exact K|]. exfalso. rewrite <- cos_neg in C.
    destruct (Req_dec u (- (PI / 2))) as [->|N]; [rewrite Ropp_involutive, cos_PI2 in C; lra|].
    assert (cos (- u) < 0) by (apply cos_lt_0; lra). lra.
  - destruct (Rlt_dec u (PI / 2)) as [K|K]; [exact K|]. exfalso.
    destruct (Req_dec u (PI / 2)) as [->|N]; [rewrite cos_PI2 in C; lra|].
    assert (cos u < 0) by (apply cos_lt_0; lra). lra.
Qed.
Lemma convex_pos a b t : 0 < a -> 0 < b -> 0 <= t <= 1 -> 0 < (1 - t) * a + t * b.
Proof. intros. destruct (Rle_dec t (1 / 2)); nra. Qed.
Lemma convex_nonneg a b t : 0 <= a -> 0 <= b -> 0 <= t <= 1 -> 0 <= (1 - t) * a + t * b.
Proof. intros. nra. Qed.
(** The linear conditions which describe the sector. *)
Definition sector (m w s c : R) : Prop :=
  0 < c * cos (degToRad m) + s * sin (degToRad m) /\
  0 <= s * cos (degToRad (m - w)) - c * sin (degToRad (m - w)) /\
  0 <= c * sin (degToRad (m + w)) - s * cos (degToRad (m + w)).
Lemma sector_convex m w s c s' c' t : sector m w s c -> sector m w s' c' -> 0 <= t <= 1 -> sector m w (lerp s s' t) (lerp c c' t).
Proof.
  intros (A1 & A2 & A3) (B1 & B2 & B3) Ht. unfold sector, lerp. unfold sector in *.
  set (u := cos (degToRad m)) in *. set (v := sin (degToRad m)) in *. set (u1 := cos (degToRad (m - w))) in *. set (v1 := sin (degToRad (m - w))) in *.
  set (u2 := cos (degToRad (m + w))) in *. set (v2 := sin (degToRad (m + w))) in *. clearbody u v u1 v1 u2 v2.
  split; [|split].
  - replace ((c + t * (c' - c)) * u + (s + t * (s' - s)) * v) with ((1 - t) * (c * u + s * v) + t * (c' * u + s' * v)) by ring. apply convex_pos; assumption.
  - replace ((s + t * (s' - s)) * u1 - (c + t * (c' - c)) * v1) with ((1 - t) * (s * u1 - c * v1) + t * (s' * u1 - c' * v1)) by ring. apply convex_nonneg; assumption.
  - replace ((c + t * (c' - c)) * v2 - (s + t * (s' - s)) * u2) with ((1 - t) * (c * v2 - s * u2) + t * (c' * v2 - s' * u2)) by ring. apply convex_nonneg; assumption.
Qed.
Lemma within_sector m w a : 0 <= w < 90 -> within m w a -> sector m w (sin (degToRad a)) (cos (degToRad a)).
Proof.
  intros Hw [k Hk]. pose proof PI_RGT_0 as HPI.
  assert (same_angle a (a + 360 * IZR k)) as Ha by (apply same_angle_sym; exists k; reflexivity).
  destruct (same_angle_trig _ _ Ha) as [-> ->]. set (b := a + 360 * IZR k) in *.
  unfold sector. rewrite <- cos_minus, <- !sin_minus.
  rewrite (Rmult_comm (cos (degToRad b)) (sin (degToRad (m + w)))), (Rmult_comm (sin (degToRad b)) (cos (degToRad (m + w)))).
  rewrite <- sin_minus, <- !degToRad_minus. split; [|split].
  - apply cos_gt_0; unfold degToRad; nra.
  - apply sin_ge_0; unfold degToRad; nra.
  - apply sin_ge_0; unfold degToRad; nra.
Qed.
Lemma sector_nonzero m w s c : sector m w s c -> c <> 0 \/ s <> 0.
Proof.
  intros (A & _). destruct (Req_dec c 0) as [->|N]; [|left; exact N]. right. intros ->. lra.
Qed.
Lemma same_angle_near a m : exists k : Z, -180 <= a + 360 * IZR k - m < 180.
Proof.
  destruct (C21_normalize_lon (a - m)) as [[k E] H]. exists k. lra.
Qed.
Lemma sector_within m w s c : 0 <= w < 90 -> sector m w s c -> within m w (angle_of s c).
Proof.
  intros Hw Hs. pose proof PI_RGT_0 as HPI. destruct (angle_of_spec s c (sector_nonzero _ _ _ _ Hs)) as (_ & r & Hr & Ec & Es).
  destruct (same_angle_near (angle_of s c) m) as [k Hk]. exists k.
  destruct (same_angle_trig (angle_of s c) (angle_of s c + 360 * IZR k)) as [E1 E2]; [apply same_angle_sym; exists k; reflexivity|].
  rewrite E1 in Es. rewrite E2 in Ec. clear E1 E2. set (b := angle_of s c + 360 * IZR k) in *. clearbody b.
  destruct Hs as (A1 & A2 & A3). rewrite Ec, Es in A1, A2, A3.
  replace (r * cos (degToRad b) * cos (degToRad m) + r * sin (degToRad b) * sin (degToRad m)) with (r * cos (degToRad (b - m))) in A1
    by (rewrite degToRad_minus, cos_minus; ring).
  replace (r * sin (degToRad b) * cos (degToRad (m - w)) - r * cos (degToRad b) * sin (degToRad (m - w))) with (r * sin (degToRad (b - (m - w)))) in A2
    by (rewrite (degToRad_minus b), sin_minus; ring).
  replace (r * cos (degToRad b) * sin (degToRad (m + w)) - r * sin (degToRad b) * cos (degToRad (m + w))) with (r * sin (degToRad (m + w - b))) in A3
    by (rewrite (degToRad_minus (m + w)), sin_minus; ring).
  assert (0 < cos (degToRad (b - m))) as B1 by nra. assert (0 <= sin (degToRad (b - (m - w)))) as B2 by nra. assert (0 <= sin (degToRad (m + w - b))) as B3 by nra.
  apply cos_pos_range in B1; [|unfold degToRad; nra].
  apply sin_nonneg_range in B2; [|unfold degToRad in *; nra]. apply sin_nonneg_range in B3; [|unfold degToRad in *; nra].
  unfold degToRad in *. nra.
Qed.
(** C22 for angles, which wrap at 360 degrees: the result is in [0, 360); if the node
    angles are at most w < 90 degrees away from some direction so is the result ... *)
Theorem C22_angles_between m w v u x y z : 0 <= x <= 1 -> 0 <= y <= 1 -> 0 <= z <= 1 -> 0 <= w < 90 ->
  ((forall i j, within m w (v i j)) -> 0 <= sqa x z v < 360 /\ within m w (sqa x z v)) /\
  ((forall i j k, within m w (u i j k)) -> 0 <= cua x y z u < 360 /\ within m w (cua x y z u)).
Proof.
  intros Hx Hy Hz Hw. split; intros H.
  - unfold sqa, interpolateSquareAngles. cbv zeta. set (S := interpolateBilinear _ _ (sin _) _ _ _). set (C := interpolateBilinear _ _ (cos _) _ _ _).
    assert (sector m w S C) as HS.
    { unfold S, C, interpolateBilinear. cbv zeta. apply sector_convex; [|  |exact Hx]; (apply sector_convex; [| |exact Hz]); apply within_sector; auto. }
    split; [apply angle_of_spec; exact (sector_nonzero _ _ _ _ HS)|]. apply sector_within; assumption.
  - unfold cua, interpolateCubeAngles. cbv zeta. set (S := interpolateTrilinear _ _ _ (sin _) _ _ _ _ _ _ _). set (C := interpolateTrilinear _ _ _ (cos _) _ _ _ _ _ _ _).
    assert (sector m w S C) as HS.
    { unfold S, C, interpolateTrilinear. cbv zeta.
      apply sector_convex; [| |exact Hx]; (apply sector_convex; [| |exact Hy]); (apply sector_convex; [| |exact Hz]); apply within_sector; auto. }
    split; [apply angle_of_spec; exact (sector_nonzero _ _ _ _ HS)|]. apply sector_within; assumption.
Qed.
(** ... and on every node it is the node's angle. *)
Lemma angle_of_unit a : same_angle (angle_of (sin (degToRad a)) (cos (degToRad a))) a.
Proof.
  assert (within a 0 (angle_of (sin (degToRad a)) (cos (degToRad a)))) as [k H].
  { apply sector_within; [lra|]. apply within_sector; [lra|]. exists 0%Z. lra. }
  exists (- k)%Z. rewrite opp_IZR. lra.
Qed.
Theorem C22_angles_nodes v u i j k :
  same_angle (sqa (corner i) (corner j) v) (v i j) /\ same_angle (cua (corner i) (corner j) (corner k) u) (u i j k).
Proof.
  split.
  - unfold sqa, interpolateSquareAngles. cbv zeta.
    pose proof (proj1 (C22_nodes (fun a b => sin (degToRad (v a b))) (fun _ _ _ => 0) i j k)) as Es.
    pose proof (proj1 (C22_nodes (fun a b => cos (degToRad (v a b))) (fun _ _ _ => 0) i j k)) as Ec.
    unfold bil in Es, Ec. rewrite Es, Ec. apply angle_of_unit.
  - unfold cua, interpolateCubeAngles. cbv zeta.
    pose proof (proj2 (C22_nodes (fun _ _ => 0) (fun a b c => sin (degToRad (u a b c))) i j k)) as Es.
    pose proof (proj2 (C22_nodes (fun _ _ => 0) (fun a b c => cos (degToRad (u a b c))) i j k)) as Ec.
    unfold tri in Es, Ec. rewrite Es, Ec. apply angle_of_unit.
Qed.
(** Across north: nodes at 350 and 10 degrees give an angle within 10 degrees of north. *)
Example across_north : within 0 10 (sqa (1/2) (1/4) (fun i _ => if i then 10 else 350)).
Proof.
  refine (proj2 (proj1 (C22_angles_between 0 10 _ (fun _ _ _ => 0) (1/2) 0 (1/4) ltac:(lra) ltac:(lra) ltac:(lra) ltac:(lra)) _)).
  intros [] _; [exists 0%Z|exists (-1)%Z]; lra.
Qed.

Print Assumptions C22_nodes.
Print Assumptions C22_between.
Print Assumptions C22_multi_affine.
Print Assumptions C22_angles_between.
Print Assumptions C22_angles_nodes.
