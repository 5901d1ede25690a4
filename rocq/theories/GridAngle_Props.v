(** C55: take-off angles *)
From Coq Require Import Reals Lra.
From stdpp Require Import numbers list.
From Verif Require Import Geo_Model Geo_Proofs Geo_Props Interp_Model Interp_Props GridFile_Model GridFile_Props GridCell_Model GridCell_Props
  Transform_Model Transform_Props GridAngle_Model.
Local Open Scope N_scope.

(** ** Packing *)
(** The word with the quality in the bits 0-3, the dip in the bits 4-15 and the azimuth in the
    bits 16-31, least significant byte first *)
Definition word (a : angles) : N := t_quality a + 2 ^ 4 * t_dip a + 2 ^ 16 * t_azimuth a.
Definition bytes_of (w : N) : list N := [w mod 2 ^ 8; w / 2 ^ 8 mod 2 ^ 8; w / 2 ^ 16 mod 2 ^ 8; w / 2 ^ 24 mod 2 ^ 8].
Definition fields_fit (a : angles) : Prop := t_quality a < 2 ^ 4 ∧ t_dip a < 2 ^ 12 ∧ t_azimuth a < 2 ^ 16.
Lemma decode_arith b0 b1 b2 b3 : decode [b0; b1; b2; b3] = Angles (b0 mod 16) (b0 / 16 + b1 * 16) (b2 + b3 * 256).
Proof.
  unfold decode. f_equal.
  - change 15 with (N.ones 4). by rewrite N.land_ones.
  - by rewrite N.shiftr_div_pow2, N.shiftl_mul_pow2.
  - by rewrite N.shiftl_mul_pow2.
Qed.
Theorem C55_unpack a : fields_fit a → decode (bytes_of (word a)) = a.
Proof.
  intros (Hq & Hd & Ha). unfold bytes_of. rewrite decode_arith. destruct a as [q d z]. unfold word. cbn [t_quality t_dip t_azimuth] in *.
  set (w := q + 2 ^ 4 * d + 2 ^ 16 * z).
  assert (W : w = q + 2 ^ 4 * d + 2 ^ 16 * z) by done. clearbody w.
  change (2 ^ 4) with 16 in *. change (2 ^ 8) with 256 in *. change (2 ^ 12) with 4096 in *. change (2 ^ 16) with 65536 in *. change (2 ^ 24) with 16777216 in *.
  f_equal; zify; Z.to_euclidean_division_equations; lia.
Qed.
Theorem C55_pack b0 b1 b2 b3 : b0 < 256 → b1 < 256 → b2 < 256 → b3 < 256 →
  fields_fit (decode [b0; b1; b2; b3]) ∧ bytes_of (word (decode [b0; b1; b2; b3])) = [b0; b1; b2; b3].
Proof.
  intros H0 H1 H2 H3. rewrite decode_arith. unfold fields_fit, bytes_of, word. cbn [t_quality t_dip t_azimuth].
  change (2 ^ 4) with 16 in *. change (2 ^ 8) with 256 in *. change (2 ^ 12) with 4096 in *. change (2 ^ 16) with 65536 in *. change (2 ^ 24) with 16777216 in *.
  assert (E : b0 mod 16 + 16 * (b0 / 16 + b1 * 16) + 65536 * (b2 + b3 * 256) = b0 + 256 * b1 + 65536 * b2 + 16777216 * b3)
    by (zify; Z.to_euclidean_division_equations; lia).
  rewrite E. clear E. split; [split; [|split]; zify; Z.to_euclidean_division_equations; lia|].
  f_equal; [|f_equal; [|f_equal; [|f_equal]]]; zify; Z.to_euclidean_division_equations; lia.
Qed.
Print Assumptions C55_unpack.
Print Assumptions C55_pack.
(** Reversing twice is the identity: a file with the opposite byte order read with swapBytes
    gives the same angles *)
Theorem C55_swap h a : h_swap h = true → fields_fit a →
  swapped h (swapped h (bytes_of (word a))) = bytes_of (word a) ∧ decode (swapped h (rev (bytes_of (word a)))) = a.
Proof. intros H Ha. unfold swapped. rewrite H. cbn [bytes_of length rev app andb]. rewrite !bool_decide_eq_true_2 by done. cbn [orb length rev app]. split; [done|]. by apply C55_unpack. Qed.
Print Assumptions C55_swap.
Theorem C55_swap_involutive h v : swapped h (swapped h v) = v.
Proof.
  unfold swapped. destruct (h_swap h && (bool_decide (length v = 4%nat) || bool_decide (length v = 8%nat))) eqn:E.
  - rewrite rev_length, E. apply rev_involutive.
  - by rewrite E.
Qed.
Print Assumptions C55_swap_involutive.

(** ** The nodes around a location *)
Local Open Scope R_scope.
Section values.
Context {V : Type} (rd : N → N → N → result V) (ax ay az : axis) (Hy : good ay) (Hz : good az).
Lemma values3D_inside (Hx : good ax) x y z r : values3D rd ax ay az (Some x) (Some y) (Some z) = Val r →
  ∃ jx jy jz v, around ax x jx ∧ around ay y jy ∧ around az z jz ∧
    (∀ bx by_ bz, rd (nth_ jx bx) (nth_ jy by_) (nth_ jz bz) = Val (v bx by_ bz)) ∧
    r = (rel ax x jx, rel ay y jy, rel az z jz,
         (v false false false, v false false true, v false true false, v false true true, (v true false false, v true false true, v true true false, v true true true))).
Proof using Hy Hz.
  intros H. unfold values3D in H. destruct (outside ax (Some x) || outside ay (Some y) || outside az (Some z)) eqn:E; [done|].
  rewrite !orb_false_iff, !outside_within in E by (destruct Hx, Hy, Hz; lia). destruct E as [[W1 W2] W3].
  destruct (cell_spec ax x Hx W1) as (ix & C1 & A1). destruct (cell_spec ay y Hy W2) as (iy & C2 & A2). destruct (cell_spec az z Hz W3) as (iz & C3 & A3).
  rewrite C1, C2, C3 in H. exists ix, iy, iz.
  destruct (rd ix iy iz) as [v1| |] eqn:E1; [|done..]. cbn [bind] in H. destruct (rd ix iy (iz + 1)%N) as [v2| |] eqn:E2; [|done..]. cbn [bind] in H.
  destruct (rd ix (iy + 1)%N iz) as [v3| |] eqn:E3; [|done..]. cbn [bind] in H. destruct (rd ix (iy + 1)%N (iz + 1)%N) as [v4| |] eqn:E4; [|done..]. cbn [bind] in H.
  destruct (rd (ix + 1)%N iy iz) as [v5| |] eqn:E5; [|done..]. cbn [bind] in H. destruct (rd (ix + 1)%N iy (iz + 1)%N) as [v6| |] eqn:E6; [|done..]. cbn [bind] in H.
  destruct (rd (ix + 1)%N (iy + 1)%N iz) as [v7| |] eqn:E7; [|done..]. cbn [bind] in H. destruct (rd (ix + 1)%N (iy + 1)%N (iz + 1)%N) as [v8| |] eqn:E8; [|done..]. cbn [bind] in H.
  exists (λ bx by_ bz : bool, if bx then (if by_ then (if bz then v8 else v7) else if bz then v6 else v5) else if by_ then (if bz then v4 else v3) else if bz then v2 else v1).
  split; [done|]. split; [done|]. split; [done|]. split; [by intros [] [] []|]. congruence.
Qed.
Lemma values2D_inside (Hx : (1 <= a_num ax < 2 ^ 64)%N ∧ 0 <= a_step ax) y z r : values2D rd ax ay az (Some y) (Some z) = Val r →
  ∃ jy jz v, around ay y jy ∧ around az z jz ∧
    (∀ by_ bz, rd 0%N (nth_ jy by_) (nth_ jz bz) = Val (v by_ bz)) ∧
    r = (rel ay y jy, rel az z jz, (v false false, v false true, v true false, v true true)).
Proof using Hy Hz.
  intros H. unfold values2D in H. rewrite (slice_within ax Hx) in H. cbn [orb] in H. destruct (outside ay (Some y) || outside az (Some z)) eqn:E; [done|].
  rewrite !orb_false_iff, !outside_within in E by (destruct Hy, Hz; lia). destruct E as [W2 W3].
  destruct (cell_spec ay y Hy W2) as (iy & C2 & A2). destruct (cell_spec az z Hz W3) as (iz & C3 & A3).
  rewrite C2, C3 in H. exists iy, iz.
  destruct (rd 0%N iy iz) as [v1| |] eqn:E1; [|done..]. cbn [bind] in H. destruct (rd 0%N iy (iz + 1)%N) as [v2| |] eqn:E2; [|done..]. cbn [bind] in H.
  destruct (rd 0%N (iy + 1)%N iz) as [v3| |] eqn:E3; [|done..]. cbn [bind] in H. destruct (rd 0%N (iy + 1)%N (iz + 1)%N) as [v4| |] eqn:E4; [|done..]. cbn [bind] in H.
  exists (λ by_ bz : bool, if by_ then (if bz then v4 else v3) else if bz then v2 else v1).
  split; [done|]. split; [done|]. split; [by intros [] []|]. congruence.
Qed.
End values.

(** ** Conversions *)
Lemma trunc_floor x : 0 <= x → IZR (trunc x) <= x < IZR (trunc x) + 1.
Proof. intros H. unfold trunc. destruct (Rle_dec 0 x); [|done]. apply Int_part_spec. Qed.
Lemma to_u16_spec x : 0 <= x → x < 65536 → ∃ i, to_u16 x = Some i ∧ real i <= x < real i + 1.
Proof.
  intros H0 H1. pose proof (trunc_floor x H0) as K. unfold to_u16. cbv zeta.
  assert (Hp : (0 <= trunc x)%Z) by (assert (-1 < trunc x)%Z by (apply lt_IZR; lra); lia).
  assert (Hq : (trunc x < 2 ^ 16)%Z) by (apply lt_IZR; change (IZR (2 ^ 16)) with 65536; lra).
  rewrite bool_decide_eq_true_2 by done. eexists. split; [done|]. unfold real. by rewrite Z2N.id.
Qed.
Lemma angle_of_range s c : 0 <= angle_of s c < 360.
Proof.
  unfold angle_of. cbv zeta. pose proof (atan2_range s c) as [H1 H2]. pose proof PI_RGT_0.
  assert (-180 < radToDeg (atan2 s c) <= 180).
  { unfold radToDeg. split.
    - apply (Rmult_lt_reg_r PI); [done|]. unfold Rdiv. rewrite Rmult_assoc, Rinv_l by lra. lra.
    - apply (Rmult_le_reg_r PI); [done|]. unfold Rdiv. rewrite Rmult_assoc, Rinv_l by lra. lra. }
  destruct (Rlt_dec _ _); lra.
Qed.
Lemma real_lt a b : (a < b)%N → real a < real b.
Proof. intros. apply IZR_lt. lia. Qed.
Lemma real_le a b : (a <= b)%N ↔ real a <= real b.
Proof. split; intros H; [apply IZR_le; lia|]. apply le_IZR in H. lia. Qed.
Lemma real_floor a i x : real i <= x < real i + 1 → real a <= x → (a <= i)%N.
Proof.
  intros [_ H2] H. apply N.lt_succ_r. unfold real in *. apply N2Z.inj_lt, lt_IZR. rewrite N2Z.inj_succ, succ_IZR. lra.
Qed.
Definition a8 {A} (v : bool → bool → bool → A) (P : A → Prop) : Prop := ∀ bx by_ bz, P (v bx by_ bz).
Lemma interp3a_spec xd yd zd v : 0 <= xd <= 1 → 0 <= yd <= 1 → 0 <= zd <= 1 → a8 v fields_fit →
  ∃ a, interp3a xd yd zd (v false false false) (v false false true) (v false true false) (v false true true) (v true false false) (v true false true) (v true true false) (v true true true) = Val a ∧
    fields_fit a ∧ a8 v (λ b, (t_quality a <= t_quality b)%N) ∧ (∃ bx by_ bz, t_quality a = t_quality (v bx by_ bz)) ∧
    deg (t_azimuth a) <= cua xd yd zd (λ bx by_ bz, deg (t_azimuth (v bx by_ bz))) < deg (t_azimuth a) + 1 / 10 ∧
    real (t_dip a) <= tri xd yd zd (λ bx by_ bz, real (t_dip (v bx by_ bz))) < real (t_dip a) + 1 ∧
    (∀ lo hi, a8 v (λ b, (lo <= t_dip b <= hi)%N) → (lo <= t_dip a <= hi)%N).
Proof.
  intros Hx Hy Hz Hf. unfold interp3a. cbv zeta.
  set (A := interpolateCubeAngles _ _ _ _ _ _ _ _ _ _ _). set (D := interpolateTrilinear _ _ _ (real _) _ _ _ _ _ _ _).
  assert (HA : 0 <= A < 360) by (unfold A, interpolateCubeAngles; cbv zeta; apply angle_of_range).
  assert (HDlh : ∀ lo hi, a8 v (λ b, (lo <= t_dip b <= hi)%N) → real lo <= D <= real hi).
  { intros lo hi Hlh. apply (proj2 (C22_between (real lo) (real hi) (λ _ _, 0) (λ bx by_ bz, real (t_dip (v bx by_ bz))) _ _ _ Hx Hy Hz)).
    intros bx by_ bz. destruct (Hlh bx by_ bz) as [L1 L2]. split; by apply real_le. }
  assert (HD : 0 <= D <= 4095).
  { change 0 with (real 0). change 4095 with (real 4095). apply HDlh. intros bx by_ bz. destruct (Hf bx by_ bz) as (_ & Hd & _). change (2 ^ 12)%N with 4096%N in Hd. lia. }
  destruct (to_u16_spec (A * 10) ltac:(lra) ltac:(lra)) as (ia & -> & Ia). destruct (to_u16_spec D ltac:(lra) ltac:(lra)) as (id & -> & Id).
  assert (Hid : (id < 4096)%N) by (unfold real in Id; apply N2Z.inj_lt, lt_IZR; change (IZR (Z.of_N 4096)) with 4096; lra).
  assert (Hia : (ia < 65536)%N) by (unfold real in Ia; apply N2Z.inj_lt, lt_IZR; change (IZR (Z.of_N 65536)) with 65536; lra).
  set (q := min8 _ _ _ _ _ _ _ _).
  assert (Hq : a8 v (λ b, (q <= t_quality b)%N)) by (intros [] [] []; unfold q, min8; lia).
  assert (Hqe : ∃ bx by_ bz, q = t_quality (v bx by_ bz)).
  { unfold q, min8. assert (M : ∀ a b, N.min a b = a ∨ N.min a b = b) by (intros; lia).
    destruct (M (N.min (N.min (t_quality (v false false false)) (t_quality (v false false true))) (N.min (t_quality (v false true false)) (t_quality (v false true true))))
                (N.min (N.min (t_quality (v true false false)) (t_quality (v true false true))) (N.min (t_quality (v true true false)) (t_quality (v true true true))))) as [->| ->].
    - destruct (M (N.min (t_quality (v false false false)) (t_quality (v false false true))) (N.min (t_quality (v false true false)) (t_quality (v false true true)))) as [->| ->].
      + destruct (M (t_quality (v false false false)) (t_quality (v false false true))) as [->| ->]; eauto.
      + destruct (M (t_quality (v false true false)) (t_quality (v false true true))) as [->| ->]; eauto.
    - destruct (M (N.min (t_quality (v true false false)) (t_quality (v true false true))) (N.min (t_quality (v true true false)) (t_quality (v true true true)))) as [->| ->].
      + destruct (M (t_quality (v true false false)) (t_quality (v true false true))) as [->| ->]; eauto.
      + destruct (M (t_quality (v true true false)) (t_quality (v true true true))) as [->| ->]; eauto. }
  assert (Hq16 : (q < 16)%N) by (destruct Hqe as (bx & by_ & bz & ->); apply Hf).
  eexists. split; [done|]. rewrite (N.mod_small q) by done. rewrite (N.mod_small id) by done.
  split; [done|]. cbn [t_quality t_dip t_azimuth]. split; [done|]. split; [done|]. split.
  { change (cua xd yd zd (λ bx by_ bz, deg (t_azimuth (v bx by_ bz)))) with A. unfold deg. lra. }
  split; [done|].
  intros lo hi Hlh. destruct (HDlh lo hi Hlh) as [L1 L2]. split; [by apply (real_floor _ _ D)|]. apply real_le. lra.
Qed.
Lemma interp2a_spec xd zd (v : bool → bool → angles) : 0 <= xd <= 1 → 0 <= zd <= 1 → (∀ i j, fields_fit (v i j)) →
  ∃ a, interp2a xd zd (v false false) (v false true) (v true false) (v true true) = Val a ∧
    fields_fit a ∧ (∀ i j, (t_quality a <= t_quality (v i j))%N) ∧ (∃ i j, t_quality a = t_quality (v i j)) ∧
    real (t_dip a) <= bil xd zd (λ i j, real (t_dip (v i j))) < real (t_dip a) + 1 ∧
    (∀ lo hi, (∀ i j, (lo <= t_dip (v i j) <= hi)%N) → (lo <= t_dip a <= hi)%N).
Proof.
  intros Hx Hz Hf. unfold interp2a. cbv zeta. set (D := interpolateBilinear _ _ _ _ _ _).
  assert (HDlh : ∀ lo hi, (∀ i j, (lo <= t_dip (v i j) <= hi)%N) → real lo <= D <= real hi).
  { intros lo hi Hlh. apply (proj1 (C22_between (real lo) (real hi) (λ i j, real (t_dip (v i j))) (λ _ _ _, 0) _ _ _ Hx Hz Hz)).
    intros i j. destruct (Hlh i j) as [L1 L2]. split; by apply real_le. }
  assert (HD : 0 <= D <= 4095).
  { change 0 with (real 0). change 4095 with (real 4095). apply HDlh. intros i j. destruct (Hf i j) as (_ & Hd & _). change (2 ^ 12)%N with 4096%N in Hd. lia. }
  destruct (to_u16_spec D ltac:(lra) ltac:(lra)) as (id & -> & Id).
  assert (Hid : (id < 4096)%N) by (unfold real in Id; apply N2Z.inj_lt, lt_IZR; change (IZR (Z.of_N 4096)) with 4096; lra).
  set (q := N.min _ _). assert (Hq : ∀ i j, (q <= t_quality (v i j))%N) by (intros [] []; unfold q; lia).
  assert (Hqe : ∃ i j, q = t_quality (v i j)).
  { unfold q. assert (M : ∀ a b, N.min a b = a ∨ N.min a b = b) by (intros; lia).
    destruct (M (N.min (t_quality (v false false)) (t_quality (v false true))) (N.min (t_quality (v true false)) (t_quality (v true true)))) as [->| ->].
    - destruct (M (t_quality (v false false)) (t_quality (v false true))) as [->| ->]; eauto.
    - destruct (M (t_quality (v true false)) (t_quality (v true true))) as [->| ->]; eauto. }
  assert (Hq16 : (q < 16)%N) by (destruct Hqe as (i & j & ->); apply Hf).
  eexists. split; [done|]. rewrite (N.mod_small q) by done. rewrite (N.mod_small id) by done.
  split; [done|]. cbn [t_quality t_dip t_azimuth]. split; [done|]. split; [done|]. split; [done|].
  intros lo hi Hlh. destruct (HDlh lo hi Hlh) as [L1 L2]. split; [by apply (real_floor _ _ D)|]. apply real_le. lra.
Qed.

(** ** C55: angles at a location *)
(** In three dimensions: the angles come from the eight nodes around. None of them has less
    than the required quality; the azimuth is the interpolated direction and the dip the
    interpolated dip, cut to a tenth of a degree; azimuths are converted from the rotated
    system of the grid. *)
Theorem C55_angles3D cutoff o rd ax ay az x y z dist az' dip : good ax → good ay → good az →
  (∀ i j k a, rd i j k = Val a → fields_fit a) →
  getAngles cutoff o rd ax ay az (Some x, Some y) dist (Some z) = Val (az', dip) →
  ∃ jx jy jz v a, around ax x jx ∧ around ay y jy ∧ around az z jz ∧
    (∀ bx by_ bz, rd (nth_ jx bx) (nth_ jy by_) (nth_ jz bz) = Val (v bx by_ bz) ∧ (cutoff <= t_quality (v bx by_ bz))%N) ∧
    az' = Some (toLatLonAngle o a) ∧
    a <= cua (rel ax x jx) (rel ay y jy) (rel az z jz) (λ bx by_ bz, deg (t_azimuth (v bx by_ bz))) < a + 1 / 10 ∧ 0 <= a < 360 ∧
    dip <= tri (rel ax x jx) (rel ay y jy) (rel az z jz) (λ bx by_ bz, deg (t_dip (v bx by_ bz))) < dip + 1 / 10 ∧
    (∀ lo hi, (∀ bx by_ bz, (lo <= t_dip (v bx by_ bz) <= hi)%N) → deg lo <= dip <= deg hi).
Proof.
  intros Hx Hy Hz Hf H. unfold getAngles in H. assert (E : (1 <? a_num ax)%N = true) by (apply N.ltb_lt; destruct Hx; lia). rewrite E in H. cbn [fst snd] in H.
  destruct (values3D rd ax ay az (Some x) (Some y) (Some z)) as [r| |] eqn:Ev; [|done..]. cbn [bind] in H.
  destruct (values3D_inside rd ax ay az Hy Hz Hx x y z r Ev) as (jx & jy & jz & v & A1 & A2 & A3 & Hv & ->). cbv beta iota in H.
  destruct (interp3a_spec _ _ _ v (rel_range _ _ _ Hx A1) (rel_range _ _ _ Hy A2) (rel_range _ _ _ Hz A3)) as (a & Ea & Fa & Qa & Qe & Aa & Da & Dlh).
  { intros bx by_ bz. exact (Hf _ _ _ _ (Hv bx by_ bz)). }
  rewrite Ea in H. cbn [bind] in H. unfold convertAngles in H. destruct (t_quality a <? cutoff)%N eqn:Eq; [done|]. apply N.ltb_ge in Eq.
  assert (az' = Some (toLatLonAngle o (deg (t_azimuth a))) ∧ dip = deg (t_dip a)) as [-> ->] by (split; congruence).
  exists jx, jy, jz, v, (deg (t_azimuth a)). split; [done|]. split; [done|]. split; [done|]. split.
  { intros bx by_ bz. split; [apply Hv|]. specialize (Qa bx by_ bz). cbn in Qa. lia. }
  split; [done|]. split; [exact Aa|]. split.
  { assert (0 <= deg (t_azimuth a)) by (unfold deg; change 0 with (real 0); pose proof (proj1 (real_le 0 (t_azimuth a)) ltac:(lia)) as K; change (real 0) with 0 in *; lra).
    split; [done|]. apply Rle_lt_trans with (1 := proj1 Aa). unfold cua, interpolateCubeAngles. cbv zeta. apply angle_of_range. }
  assert (Ed : tri (rel ax x jx) (rel ay y jy) (rel az z jz) (λ bx by_ bz, deg (t_dip (v bx by_ bz))) =
      tri (rel ax x jx) (rel ay y jy) (rel az z jz) (λ bx by_ bz, real (t_dip (v bx by_ bz))) / 10) by (unfold tri, interpolateTrilinear, lerp, deg; field).
  split; [rewrite Ed; unfold deg; lra|]. intros lo hi Hlh. destruct (Dlh lo hi) as [L1 L2].
  { intros bx by_ bz. apply Hlh. }
  unfold deg. apply real_le in L1, L2. lra.
Qed.
Print Assumptions C55_angles3D.
(** With dips and azimuths in their ranges the results are in [0,180] and [0,360] *)
Theorem C55_range3D cutoff o rd ax ay az x y z dist az' dip : good ax → good ay → good az → -360 <= o_rot o <= 360 →
  (∀ i j k a, rd i j k = Val a → fields_fit a ∧ (t_dip a <= 1800)%N) →
  getAngles cutoff o rd ax ay az (Some x, Some y) dist (Some z) = Val (az', dip) →
  0 <= dip <= 180 ∧ ∃ a, az' = Some a ∧ 0 <= a <= 360.
Proof.
  intros Hx Hy Hz Hr Hf H. destruct (C55_angles3D cutoff o rd ax ay az x y z dist az' dip Hx Hy Hz ltac:(intros; eapply Hf; eauto) H) as (jx & jy & jz & v & a & _ & _ & _ & Hv & -> & _ & Ha & _ & Hlh).
  split.
  - assert (K : deg 0 <= dip <= deg 1800) by (apply Hlh; intros bx by_ bz; split; [lia|]; exact (proj2 (Hf _ _ _ _ (proj1 (Hv bx by_ bz))))).
    unfold deg, real in K. cbn -[Rdiv Rle] in K. lra.
  - eexists. split; [done|]. apply (C52_angles o a Hr). lra.
Qed.
Print Assumptions C55_range3D.
(** On a node: the angles of the node *)
Theorem C55_node3D cutoff o rd ax ay az i j k val dist : good ax → good ay → good az → (i < a_num ax)%N → (j < a_num ay)%N → (k < a_num az)%N →
  (∀ i j k, (i < a_num ax)%N → (j < a_num ay)%N → (k < a_num az)%N → rd i j k = Val (val i j k) ∧ fields_fit (val i j k) ∧ (cutoff <= t_quality (val i j k))%N) →
  ∃ a, getAngles cutoff o rd ax ay az (Some (pos ax i), Some (pos ay j)) dist (Some (pos az k)) = Val (Some (toLatLonAngle o a), deg (t_dip (val i j k))) ∧
    same_angle a (deg (t_azimuth (val i j k))).
Proof.
  intros Hx Hy Hz Hi Hj Hk Hr.
  assert (Hcell : ∀ a n, good a → (n < a_num a)%N → GridCell_Props.within a (pos a n)).
  { intros a n [Hn2 Hs] Hn. unfold GridCell_Props.within, pos. change (IZR (Z.of_N 0)) with 0. split.
    - assert (0 <= IZR (Z.of_N n)) by (apply IZR_le; lia). assert (0 <= IZR (Z.of_N n) * a_step a) by (apply Rmult_le_pos; lra). lra.
    - apply Rplus_le_compat_l, Rmult_le_compat_r; [lra|]. apply IZR_le. lia. }
  assert (Hcorner : ∀ a n c, good a → around a (pos a n) c → ∃ b, nth_ c b = n ∧ rel a (pos a n) c = corner b).
  { intros a n c [Hn2 Hs] [Hc [L1 L2]]. assert (Ec : (c <= n <= c + 1)%N).
    { split; apply N2Z.inj_le, le_IZR; unfold pos in L1, L2.
      - apply Rmult_le_reg_r with (a_step a); [lra|]. lra.
      - apply Rmult_le_reg_r with (a_step a); [lra|]. lra. }
    destruct (decide (n = c)) as [->|Hne]; [exists false|assert (n = (c + 1)%N) as -> by lia; exists true]; (split; [done|]).
    - unfold rel, corner. field. lra.
    - unfold rel, corner. rewrite pos_succ. field. lra. }
  assert (Hr' : ∀ i j k, (i < a_num ax)%N → (j < a_num ay)%N → (k < a_num az)%N → rd i j k = Val (val i j k)) by (intros; by apply Hr).
  unfold getAngles. assert (E : (1 <? a_num ax)%N = true) by (apply N.ltb_lt; destruct Hx; lia). rewrite E. cbn [fst snd].
  destruct (values3D rd ax ay az (Some (pos ax i)) (Some (pos ay j)) (Some (pos az k))) as [r|e|] eqn:Ev.
  - destruct (values3D_inside rd ax ay az Hy Hz Hx _ _ _ r Ev) as (jx & jy & jz & v & A1 & A2 & A3 & Hv & ->). cbn [bind].
    destruct (Hcorner ax i jx Hx A1) as (bx & N1 & R1). destruct (Hcorner ay j jy Hy A2) as (by_ & N2 & R2). destruct (Hcorner az k jz Hz A3) as (bz & N3 & R3).
    assert (Hnode : ∀ cx cy cz, v cx cy cz = val (nth_ jx cx) (nth_ jy cy) (nth_ jz cz) ∧ fields_fit (v cx cy cz) ∧ (cutoff <= t_quality (v cx cy cz))%N).
    { intros cx cy cz. destruct (Hr (nth_ jx cx) (nth_ jy cy) (nth_ jz cz)) as (E1 & E2 & E3);
        [destruct A1; unfold nth_; destruct cx; lia|destruct A2; unfold nth_; destruct cy; lia|destruct A3; unfold nth_; destruct cz; lia|].
      rewrite Hv in E1. assert (v cx cy cz = val (nth_ jx cx) (nth_ jy cy) (nth_ jz cz)) as -> by congruence. done. }
    destruct (interp3a_spec _ _ _ v (rel_range _ _ _ Hx A1) (rel_range _ _ _ Hy A2) (rel_range _ _ _ Hz A3)) as (a & -> & Fa & Qa & Qe & Aa & Da & Dlh).
    { intros cx cy cz. apply Hnode. }
    cbn [bind]. unfold convertAngles. assert (Eq : (t_quality a <? cutoff)%N = false) by (apply N.ltb_ge; destruct Qe as (cx & cy & cz & ->); apply Hnode). rewrite Eq.
    rewrite R1, R2, R3 in Aa, Da. rewrite (proj2 (C22_nodes (λ _ _, 0) _ bx by_ bz)) in Da. pose proof (proj2 (C22_angles_nodes (λ _ _, 0) (λ bx by_ bz, deg (t_azimuth (v bx by_ bz))) bx by_ bz)) as An. cbv beta in An, Da.
    destruct (Hnode bx by_ bz) as (Ev' & _). rewrite N1, N2, N3 in Ev'. rewrite Ev' in An, Da.
    assert (Ed : t_dip a = t_dip (val i j k)).
    { apply N2Z.inj. unfold real in Da. destruct Da as [D1 D2]. apply le_IZR in D1. rewrite <- succ_IZR in D2. apply lt_IZR in D2. lia. }
    rewrite Ed. exists (deg (t_azimuth a)). split; [done|].
    (* the azimuth is a whole number of tenths of degree, so that nothing is cut *)
    set (c := cua _ _ _ _) in *. destruct An as [n Hn]. exists n.
    assert (Ez : real (t_azimuth a) = real (t_azimuth (val i j k)) + 3600 * IZR n); [|unfold deg; lra].
    unfold deg in Aa, Hn. destruct Aa as [G1 G2]. rewrite Hn in G1, G2. clear - G1 G2. unfold real in *. rewrite <- mult_IZR, <- plus_IZR. f_equal.
    assert (K1 : IZR (Z.of_N (t_azimuth a)) <= IZR (Z.of_N (t_azimuth (val i j k)) + 3600 * n)) by (rewrite plus_IZR, mult_IZR; lra).
    assert (K2 : IZR (Z.of_N (t_azimuth (val i j k)) + 3600 * n) < IZR (Z.succ (Z.of_N (t_azimuth a)))) by (rewrite succ_IZR, plus_IZR, mult_IZR; lra).
    apply le_IZR in K1. apply lt_IZR in K2. lia.
  - exfalso. revert Ev. unfold values3D.
    rewrite (proj2 (outside_within ax _ ltac:(destruct Hx; lia)) (Hcell ax i Hx Hi)), (proj2 (outside_within ay _ ltac:(destruct Hy; lia)) (Hcell ay j Hy Hj)), (proj2 (outside_within az _ ltac:(destruct Hz; lia)) (Hcell az k Hz Hk)). cbn [orb].
    destruct (cell_spec ax _ Hx (Hcell ax i Hx Hi)) as (ix & -> & [B1 _]). destruct (cell_spec ay _ Hy (Hcell ay j Hy Hj)) as (iy & -> & [B2 _]). destruct (cell_spec az _ Hz (Hcell az k Hz Hk)) as (iz & -> & [B3 _]).
    rewrite !Hr' by lia. done.
  - exfalso. revert Ev. unfold values3D.
    rewrite (proj2 (outside_within ax _ ltac:(destruct Hx; lia)) (Hcell ax i Hx Hi)), (proj2 (outside_within ay _ ltac:(destruct Hy; lia)) (Hcell ay j Hy Hj)), (proj2 (outside_within az _ ltac:(destruct Hz; lia)) (Hcell az k Hz Hk)). cbn [orb].
    destruct (cell_spec ax _ Hx (Hcell ax i Hx Hi)) as (ix & -> & [B1 _]). destruct (cell_spec ay _ Hy (Hcell ay j Hy Hj)) as (iy & -> & [B2 _]). destruct (cell_spec az _ Hz (Hcell az k Hz Hk)) as (iz & -> & [B3 _]).
    rewrite !Hr' by lia. done.
Qed.
Print Assumptions C55_node3D.
(** In two dimensions there is no azimuth *)
Theorem C55_angles2D cutoff o rd ax ay az xy y z az' dip : a_num ax = 1%N → 0 <= a_step ax → good ay → good az →
  (∀ i j k a, rd i j k = Val a → fields_fit a) →
  getAngles cutoff o rd ax ay az xy (Some y) (Some z) = Val (az', dip) →
  az' = None ∧ ∃ jy jz v, around ay y jy ∧ around az z jz ∧
    (∀ by_ bz, rd 0%N (nth_ jy by_) (nth_ jz bz) = Val (v by_ bz) ∧ (cutoff <= t_quality (v by_ bz))%N) ∧
    dip <= bil (rel ay y jy) (rel az z jz) (λ by_ bz, deg (t_dip (v by_ bz))) < dip + 1 / 10 ∧
    (∀ lo hi, (∀ by_ bz, (lo <= t_dip (v by_ bz) <= hi)%N) → deg lo <= dip <= deg hi).
Proof.
  intros Hx Hs Hy Hz Hf H. unfold getAngles in H. assert (E : (1 <? a_num ax)%N = false) by (apply N.ltb_ge; lia). rewrite E in H.
  destruct (values2D rd ax ay az (Some y) (Some z)) as [r| |] eqn:Ev; [|done..]. cbn [bind] in H.
  destruct (values2D_inside rd ax ay az Hy Hz ltac:(split; [lia|done]) y z r Ev) as (jy & jz & v & A2 & A3 & Hv & ->). cbv beta iota in H.
  destruct (interp2a_spec _ _ v (rel_range _ _ _ Hy A2) (rel_range _ _ _ Hz A3)) as (a & Ea & Fa & Qa & Qe & Da & Dlh).
  { intros by_ bz. exact (Hf _ _ _ _ (Hv by_ bz)). }
  rewrite Ea in H. cbn [bind] in H. unfold convertAngles in H. destruct (t_quality a <? cutoff)%N eqn:Eq; [done|]. apply N.ltb_ge in Eq.
  assert (az' = None ∧ dip = deg (t_dip a)) as [-> ->] by (split; congruence). split; [done|].
  exists jy, jz, v. split; [done|]. split; [done|]. split.
  { intros by_ bz. split; [apply Hv|]. specialize (Qa by_ bz). lia. }
  assert (Ed : bil (rel ay y jy) (rel az z jz) (λ by_ bz, deg (t_dip (v by_ bz))) = bil (rel ay y jy) (rel az z jz) (λ by_ bz, real (t_dip (v by_ bz))) / 10) by (unfold bil, interpolateBilinear, lerp, deg; field).
  split; [rewrite Ed; unfold deg; lra|]. intros lo hi Hlh. destruct (Dlh lo hi) as [L1 L2].
  { intros by_ bz. apply Hlh. }
  unfold deg. apply real_le in L1, L2. lra.
Qed.
Print Assumptions C55_angles2D.

(** The words of a file are not checked: a dip above 180 degrees and an azimuth above 360 are
    passed on *)
Theorem C55_range_refuted : ∃ b o ax, Forall (λ x, (x < 256)%N) b ∧ length b = 4%nat ∧ (1 < a_num ax)%N ∧
  ∃ az' dip, getAnglesAtIndex 5 o (λ _ _ _, Val (decode b)) ax 0 0 0 = Val (Some az', dip) ∧ 180 < dip ∧ 360 < az'.
Proof.
  exists [255; 255; 255; 255]%N, (Origin 0 0 0), (Axis 3 0 1). split; [by repeat constructor|]. split; [done|]. split; [done|].
  eexists _, _. split; [reflexivity|]. unfold deg, real. change (Z.of_N (t_dip (decode [255; 255; 255; 255]%N))) with 4095%Z. change (Z.of_N (t_azimuth (decode [255; 255; 255; 255]%N))) with 65535%Z.
  split; [lra|]. unfold toLatLonAngle. cbn [o_rot]. destruct (Rlt_dec _ _); [lra|]. destruct (Rlt_dec _ _); lra.
Qed.
Print Assumptions C55_range_refuted.

(** A concrete case: a node with the quality 7, dip 120.5 and azimuth 359.9 in a rotated grid *)
Definition ex_angles : angles := Angles 7 1205 3599.
Example ex_angle_node : good ex_axis ∧ fields_fit ex_angles ∧ decode (bytes_of (word ex_angles)) = ex_angles ∧
  ∃ a, getAngles 5 (Origin 46 8 30) (λ _ _ _, Val ex_angles) ex_axis ex_axis ex_axis (Some (pos ex_axis 2), Some (pos ex_axis 1)) None (Some (pos ex_axis 0)) = Val (Some a, 1205 / 10) ∧
    same_angle a (3599 / 10 - 30).
Proof.
  assert (G : good ex_axis) by apply ex_grid. split; [exact G|]. split; [done|]. split; [by vm_compute|].
  destruct (C55_node3D 5 (Origin 46 8 30) (λ _ _ _, Val ex_angles) ex_axis ex_axis ex_axis 2 1 0 (λ _ _ _, ex_angles) None G G G ltac:(done) ltac:(done) ltac:(done) ltac:(by intros)) as (a & E & n & Hn).
  exists (toLatLonAngle (Origin 46 8 30) a). split; [exact E|]. unfold toLatLonAngle. cbn [o_rot]. cbv zeta.
  unfold deg, real in Hn. change (Z.of_N (t_azimuth ex_angles)) with 3599%Z in Hn.
  destruct (Rlt_dec (a - 30) 0); [exists (n + 1)%Z; rewrite plus_IZR; lra|]. destruct (Rlt_dec 360 (a - 30)); [exists (n - 1)%Z; rewrite minus_IZR; lra|exists n; lra].
Qed.
