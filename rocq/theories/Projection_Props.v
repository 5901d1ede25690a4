(** C80: the map projections LAMBERT, AZIMUTHAL_EQUIDIST and TRANS_MERC *)
From Coq Require Import Reals Lra Lia String List.
From Coquelicot Require Import Coquelicot.
From Verif Require Import Geo_Model Geo_Proofs Geo_Props Interp_Props Transform_Model Transform_Props Projection_Model Projection_Proofs.
Import ListNotations.
Local Open Scope R_scope.
Local Arguments wrap : simpl never.

(** ** The table of ellipsoids *)
(** Radii and flattening agree within one metre, with one exception *)
Theorem C80_table n a b f : In (n, (a, b, f)) ellipse -> n <> "NAD-83"%string -> Rabs (a * (1 - f) - b) < 1.
Proof.
  unfold ellipse. cbn [In]. intros H Hn.
  repeat (destruct H as [H|H]; [injection H as E <- <- <-; try (exfalso; apply Hn; symmetry; exact E); apply Rabs_def1; lra|]). destruct H.
Qed.
Print Assumptions C80_table.
(** The flattening of NAD-83 (1/294.26 instead of 1/298.26) puts the poles 290 m off *)
Theorem C80_nad83_refuted : exists a b f, In ("NAD-83"%string, (a, b, f)) ellipse /\ 290 < b - a * (1 - f).
Proof. do 3 eexists. split; [unfold ellipse; cbn [In]; do 14 right; left; reflexivity|lra]. Qed.
Print Assumptions C80_nad83_refuted.
Theorem C80_names n : (exists e, map_setup_proxy n = Some e) <-> In n (map fst ellipse).
Proof.
  split.
  - intros [e He]. apply setup_row in He as (a & b & f & Hin & _). apply (in_map fst) in Hin. exact Hin.
  - intros H. unfold map_setup_proxy. destruct (find _ _) as [[n' [[a b] f]]|] eqn:E; [eexists; reflexivity|]. exfalso.
    apply in_map_iff in H as ([m r] & <- & Hin). pose proof (find_none _ _ E _ Hin) as K. cbn [fst] in K. rewrite String.eqb_refl in K. discriminate.
Qed.
Print Assumptions C80_names.

(** ** Longitudes near the central meridian *)
Lemma wrap_up_spec n cm lon : -180 <= lon - cm + 360 * INR n -> exists j, wrap_up n cm lon = lon + 360 * IZR j /\ -180 <= wrap_up n cm lon - cm /\
  (lon - cm <= 180 -> wrap_up n cm lon - cm <= 180) /\ (-180 <= lon - cm -> wrap_up n cm lon = lon).
Proof.
  revert lon. induction n as [|n IH]; intros lon H; cbn [wrap_up].
  - cbn in H. exists 0%Z. repeat apply conj; try lra.
  - destruct (Rlt_dec (lon - cm) (-180)) as [L|L].
    + destruct (IH (lon + 360)) as (j & E & B1 & B2 & B3); [rewrite S_INR in H; lra|]. exists (j + 1)%Z. rewrite plus_IZR.
      repeat apply conj; [lra|exact B1|intros _; apply B2; lra|intros K; lra].
    + exists 0%Z. repeat apply conj; try lra.
Qed.
Lemma wrap_down_spec n cm lon : lon - cm - 360 * INR n <= 180 -> exists j, wrap_down n cm lon = lon + 360 * IZR j /\ wrap_down n cm lon - cm <= 180 /\
  (-180 <= lon - cm -> -180 <= wrap_down n cm lon - cm) /\ (lon - cm <= 180 -> wrap_down n cm lon = lon).
Proof.
  revert lon. induction n as [|n IH]; intros lon H; cbn [wrap_down].
  - cbn in H. exists 0%Z. repeat apply conj; try lra.
  - destruct (Rlt_dec 180 (lon - cm)) as [L|L].
    + destruct (IH (lon - 360)) as (j & E & B1 & B2 & B3); [rewrite S_INR in H; lra|]. exists (j - 1)%Z. rewrite minus_IZR.
      repeat apply conj; [lra|exact B1|intros _; apply B2; lra|intros K; lra].
    + exists 0%Z. repeat apply conj; try lra.
Qed.
Lemma rounds_enough cm lon : Rabs (lon - cm) <= 360 * INR (rounds cm lon).
Proof.
  unfold rounds. destruct (archimed (Rabs (lon - cm) / 360)) as [A _]. pose proof (Rabs_pos (lon - cm)).
  rewrite INR_IZR_INZ, Z2Nat.id; [lra|]. apply le_IZR. lra.
Qed.
Lemma wrap_spec cm lon : same_angle (wrap cm lon) lon /\ -180 <= wrap cm lon - cm <= 180 /\ (-180 <= lon - cm <= 180 -> wrap cm lon = lon).
Proof.
  unfold wrap. cbv zeta. pose proof (rounds_enough cm lon) as R1. apply Rabs_le_between in R1.
  destruct (wrap_up_spec (rounds cm lon) cm lon ltac:(lra)) as (j & E1 & B1 & B2 & B3). set (l := wrap_up _ _ _) in *.
  pose proof (rounds_enough cm l) as R2. apply Rabs_le_between in R2.
  destruct (wrap_down_spec (rounds cm l) cm l ltac:(lra)) as (j' & E1' & B1' & B2' & B3'). set (l' := wrap_down _ _ _) in *.
  repeat apply conj.
  - exists (j + j')%Z. rewrite plus_IZR. lra.
  - apply B2', B1.
  - exact B1'.
  - intros [H1 H2]. rewrite B3' by (apply B2; exact H2). apply B3, H1.
Qed.
Theorem C80_wrap cm lon : same_angle (wrap cm lon) lon /\ -180 <= wrap cm lon - cm <= 180.
Proof. pose proof (wrap_spec cm lon). tauto. Qed.
Print Assumptions C80_wrap.

(** ** Lambert: parameters *)
Record lambert_header (name : string) (lat0 lon0 rot pha phb : R) : Prop := {
  lh_name : In name (map fst ellipse);
  lh_lat : -90 < lat0 < 90; lh_lon : -180 <= lon0 <= 180; lh_rot : -360 <= rot <= 360;
  lh_a : -90 < pha < 90; lh_b : -90 < phb < 90; lh_ab : pha + phb <> 0 }.
Lemma check_ok lat lon rot : -90 <= lat <= 90 -> -180 <= lon <= 180 -> -360 <= rot <= 360 -> check_origin (Origin lat lon rot) = Some (Origin lat lon rot).
Proof. intros. unfold check_origin. cbn [o_lat o_lon o_rot]. repeat (destruct (Rlt_dec _ _); [lra|]). reflexivity. Qed.
Lemma lambert_made name lat0 lon0 rot pha phb : lambert_header name lat0 lon0 rot pha phb -> exists e N F,
  good e /\ map_setup_proxy name = Some e /\
  make_proj (KLambert pha phb) name lat0 lon0 rot = Some (Origin lat0 lon0 rot, PLambert (Lambert e lon0 N F (EQ_RAD e * F * exp (N * Lf (ECC e) (lat0 * D2R))))) /\
  vlamb name lon0 lat0 pha phb = Some (Lambert e lon0 N F (EQ_RAD e * F * exp (N * Lf (ECC e) (lat0 * D2R)))) /\
  N <> 0 /\ 0 < N * F /\ (exists c, Rmin pha phb <= c <= Rmax pha phb /\ N = sin (c * D2R)) /\
  N * F * exp (N * Lf (ECC e) (pha * D2R)) = exp (Kf (ECC e) (pha * D2R)) /\
  N * F * exp (N * Lf (ECC e) (phb * D2R)) = exp (Kf (ECC e) (phb * D2R)).
Proof.
  intros [Hn H0 Hl Hr Ha Hb Hab]. apply C80_names in Hn as [e He]. destruct (vlamb_ok name e lon0 lat0 pha phb He H0 Ha Hb Hab) as (N & F & E & R).
  exists e, N, F. split; [apply (setup_good name); exact He|]. split; [exact He|]. split; [|split; [exact E|exact R]].
  unfold make_proj. rewrite check_ok by lra. cbn [obind]. repeat (destruct (Rlt_dec _ _); [lra|]). rewrite E. reflexivity.
Qed.
Lemma cone_lt1 pha phb c : -90 < pha < 90 -> -90 < phb < 90 -> Rmin pha phb <= c <= Rmax pha phb -> -1 < sin (c * D2R) < 1.
Proof.
  intros Ha Hb Hc. assert (-90 < c < 90) as H by (unfold Rmin, Rmax in Hc; destruct (Rle_dec pha phb); lra). apply inside_deg in H.
  pose proof (cos_pos _ H) as C. pose proof (sin2_cos2 (c * D2R)) as U. unfold Rsqr in U. assert (0 < cos (c * D2R) * cos (c * D2R)) by (apply Rmult_lt_0_compat; exact C).
  split; [apply Rnot_le_lt|apply Rnot_le_lt]; intros L.
  - assert (1 * 1 <= (- sin (c * D2R)) * (- sin (c * D2R))) by (apply Rmult_le_compat; lra). lra.
  - assert (1 * 1 <= sin (c * D2R) * sin (c * D2R)) by (apply Rmult_le_compat; lra). lra.
Qed.

(** ** Lambert: forward *)
Lemma tan_ge_id x : 0 <= x < PI / 2 -> x <= tan x.
Proof.
  intros H. destruct (Req_dec x 0) as [->|Hx]; [rewrite tan_0; lra|].
  rewrite <- (atan_tan x) at 1 by lra. set (t := tan x). assert (Ht : 0 < t) by (apply tan_gt_0; lra).
  destruct (MVT_gen atan 0 t (fun x => / (1 + x * x))) as (c & Hc & E).
  - intros z _. auto_derive; [exact I|]. field. pose proof (Rle_0_sqr z) as Z. unfold Rsqr in Z. lra.
  - intros z _. apply derivable_continuous_pt. apply derivable_pt_atan.
  - rewrite atan_0, !Rminus_0_r in E. rewrite E. rewrite <- (Rmult_1_l t) at 2. apply Rmult_le_compat_r; [lra|].
    pose proof (Rle_0_sqr c) as Z. unfold Rsqr in Z. rewrite <- Rinv_1. apply Rinv_le_contravar; lra.
Qed.
Definition off_pole (lat : R) : Prop := -90 < lat <= 90 - 1 / 10 ^ 7.
Lemma lamb_ok e lon0 N F r0 lon lat : good e -> off_pole lat ->
  lamb (Lambert e lon0 N F r0) lon lat =
    let rho := EQ_RAD e * F * exp (N * Lf (ECC e) (lat * D2R)) in let theta := N * (wrap lon0 lon - lon0) * D2R in Some (rho * sin theta, r0 - rho * cos theta).
Proof.
  intros G [H1 H2]. pose proof (good_k e G) as Hk. assert (I : inside (lat * D2R)) by (apply inside_deg; lra). unfold lamb. cbn [l_e l_cm l_N l_F l_rho0]. cbv zeta.
  rewrite ell_pow_ok by exact G. cbn [obind]. rewrite deg45. destruct (half_trig _ I) as [S C]. rewrite tan_ok by lra. cbn [obind].
  assert (T : SMALL <= tan (PI / 4 - lat * D2R / 2)).
  { apply Rle_trans with (PI / 4 - lat * D2R / 2); [|apply tan_ge_id; destruct I; lra]. unfold SMALL, D2R. pose proof PI2_3_2 as P3.
    replace (PI / 4 - lat * (PI / 180) / 2) with ((90 - lat) * (PI / 360)) by field.
    apply Rle_trans with (1 / 10 ^ 7 * (3 / 360)); [lra|]. apply Rmult_le_compat; lra. }
  assert (T0 : 0 < SMALL) by (unfold SMALL; lra).
  destruct (Rlt_dec _ SMALL) as [L|L]; [rewrite Rabs_pos_eq in L by lra; lra|]. destruct (Req_EM_T _ 0) as [Z|_]; [lra|].
  pose proof (w_pos (ECC e) (lat * D2R)). rewrite div_ok by lra. cbn [obind]. rewrite <- exp_Lf by assumption. rewrite pow_ok by apply exp_pos. cbn [obind].
  rewrite Rpower_exp. reflexivity.
Qed.
(** ** Lambert: back *)
Lemma ilamb_ok e lon0 N F r0 rho d f : good e -> inside f -> N <> 0 -> 0 < N * F -> rho = EQ_RAD e * F * exp (N * Lf (ECC e) f) -> - (PI / 2) < N * d * D2R < PI / 2 ->
  exists r, ilamb (Lambert e lon0 N F r0) (rho * sin (N * d * D2R)) (r0 - rho * cos (N * d * D2R)) = Some (lon0 + d, r * R2D) /\
    Rabs (r - f) <= 8 / 10 ^ 11 /\ (ECC e = 0 -> r = f).
Proof.
  intros G I HN HNF Hr Ht. pose proof (good_k e G) as Hk. pose proof (proj1 G) as Ha. pose proof D2R_pos as DP. pose proof D2R_R2D as DR. set (th := N * d * D2R) in *.
  assert (Hc : 0 < cos th) by (apply cos_gt_0; lra).
  assert (Hrho : rho <> 0).
  { rewrite Hr. pose proof (exp_pos (N * Lf (ECC e) f)). assert (F <> 0) by (intros ->; lra). repeat apply Rmult_integral_contrapositive_currified; lra. }
  unfold ilamb. cbn [l_e l_cm l_N l_F l_rho0]. cbv zeta. replace (r0 - (r0 - rho * cos th)) with (rho * cos th) by ring.
  rewrite div_ok by (apply Rmult_integral_contrapositive_currified; lra). cbn [obind].
  replace (rho * sin th / (rho * cos th)) with (tan th) by (unfold tan; field; lra). rewrite atan_tan by lra. rewrite div_ok by exact HN. cbn [obind].
  replace (th / N * R2D + lon0) with (lon0 + d). 2: { unfold th. transitivity (d * (D2R * R2D) + lon0); [rewrite DR; ring|field; exact HN]. }
  replace (rho * sin th * (rho * sin th) + rho * cos th * (rho * cos th)) with (Rsqr rho).
  2: { pose proof (sin2_cos2 th) as U. unfold Rsqr in *. transitivity (rho * rho * (sin th * sin th + cos th * cos th)); [rewrite U; ring|ring]. }
  assert (Es : copysign (d_sqrt (Rsqr rho)) N = rho).
  { unfold copysign, d_sqrt. pose proof (Rle_0_sqr rho). destruct (Rlt_dec (Rsqr rho) 0) as [L|L]; [lra|]. rewrite sqrt_Rsqr_abs, Rabs_Rabsolu.
    pose proof (exp_pos (N * Lf (ECC e) f)) as X. destruct (Rlt_dec N 0) as [L'|L'].
    - assert (F < 0). { apply Rnot_le_lt. intros K. assert (N * F <= 0); [|lra]. apply Ropp_le_cancel. rewrite Ropp_0, <- Ropp_mult_distr_l_reverse. apply Rmult_le_pos; lra. }
      rewrite Rabs_left; [ring|]. rewrite Hr. assert (0 < EQ_RAD e * - F * exp (N * Lf (ECC e) f)) by (repeat apply Rmult_lt_0_compat; lra). lra.
    - assert (0 < N) by lra. assert (0 < F) by (apply (Rmult_lt_reg_l N); lra). apply Rabs_pos_eq. rewrite Hr. apply Rlt_le. repeat apply Rmult_lt_0_compat; assumption. }
  rewrite Es. assert (HF : F <> 0) by (intros ->; lra).
  rewrite div_ok by (apply Rmult_integral_contrapositive_currified; lra). cbn [obind]. rewrite div_ok by exact HN. cbn [obind].
  replace (rho / (EQ_RAD e * F)) with (exp (N * Lf (ECC e) f)) by (rewrite Hr; field; lra). rewrite pow_ok by apply exp_pos. cbn [obind]. rewrite Rpower_exp.
  replace (1 / N * (N * Lf (ECC e) f)) with (Lf (ECC e) f) by (field; exact HN). rewrite deg90.
  set (t := exp (Lf (ECC e) f)). assert (Pt : 0 < t) by apply exp_pos.
  assert (Sd : side t (PI / 2 - 2 * atan t)).
  { pose proof (atan_bound t). assert (0 < atan t) by (rewrite <- atan_0; apply atan_increasing; exact Pt). destruct (Rle_dec t 1) as [L|L].
    - left. split; [exact L|]. assert (atan t <= PI / 4); [|lra]. rewrite <- atan_1. destruct (Req_dec t 1) as [->|K]; [lra|]. apply Rlt_le, atan_increasing. lra.
    - right. split; [lra|]. assert (PI / 4 < atan t) by (rewrite <- atan_1; apply atan_increasing; lra). lra. }
  destruct (ilat_ok e f G I 99 _ Sd) as (r & Er & _ & Br). fold t in Er. rewrite Er. cbn [obind]. exists r. split; [reflexivity|].
  pose proof (q_small e G) as Hq. split.
  - eapply Rle_trans; [exact Br|]. apply Rmax_lub.
    + set (z := q (ECC e)) in *. assert (z / (1 - z) <= 8 / 1000); [|lra]. apply (Rmult_le_reg_r (1 - z)); [lra|]. unfold Rdiv at 1. rewrite Rmult_assoc, Rinv_l by lra. lra.
    + set (z := q (ECC e)) in *. assert (Hz : z ^ 100 <= (1 / 100) ^ 100) by (apply pow_incr; lra).
      assert (Hz' : (1 / 100) ^ 100 <= 1 / 10 ^ 11). { change (100%nat) with (94 + 6)%nat. rewrite pow_add. assert ((1 / 100) ^ 94 <= 1 ^ 94) by (apply pow_incr; lra). rewrite pow1 in H.
        apply Rle_trans with (1 * (1 / 100) ^ 6); [apply Rmult_le_compat_r; [apply pow_le; lra|exact H]|lra]. }
      destruct I as [I1 I2]. pose proof PI_4 as P4. assert (Ab : Rabs (PI / 2 - 2 * atan t - f) <= 4). { unfold side in Sd. apply Rabs_le. lra. }
      pose proof (Rabs_pos (PI / 2 - 2 * atan t - f)). apply Rle_trans with (1 / 10 ^ 11 * 4); [|lra]. apply Rmult_le_compat; [apply pow_le; lra|exact H|lra|exact Ab].
  - intros E0. assert (Q0 : q (ECC e) = 0) by (rewrite E0; unfold q; field). rewrite Q0 in Br.
    replace (0 / (1 - 0) / 10 ^ 8) with 0 in Br by field. rewrite pow_i, Rmult_0_l, Rmax_left in Br by (lia || lra).
    pose proof (Rabs_pos (r - f)). destruct (Req_dec (r - f) 0) as [Z|Z]; [lra|]. apply Rabs_no_R0 in Z. lra.
Qed.

(** ** Forward and back for a grid: rotation and kilometres *)
Lemma grid_back o pr lat lon x y lon' lat' : forward pr lon lat = Some (x, y) -> inverse pr x y = Some (lon', lat') -> same_angle lon' lon ->
  exists u v, proj_from (o, pr) lat lon = Some (u, v) /\ proj_to (o, pr) u v = Some (lat', normalizeLon lon).
Proof.
  intros Hf Hi Hs. unfold proj_from. cbn [fst snd]. rewrite Hf. cbn [obind fst snd]. set (r := rotate o (x / 1000, y / 1000)). exists (fst r), (snd r).
  split; [rewrite <- surjective_pairing; reflexivity|]. unfold proj_to. cbn [fst snd]. rewrite <- surjective_pairing. unfold r. rewrite (proj1 (C52_rotation o _ (0, 0))). cbv zeta. cbn [fst snd].
  replace (x / 1000 * 1000) with x by field. replace (y / 1000 * 1000) with y by field. rewrite Hi. cbn [obind fst snd]. do 2 f_equal. apply C21_lon_canonical, Hs.
Qed.
(** The difference of two longitudes is at most c degrees *)
Definition within (c lon0 lon : R) : Prop := exists j : Z, Rabs (lon - lon0 - 360 * IZR j) <= c.
Lemma within_wrap c lon0 lon : c < 180 -> within c lon0 lon -> - c <= wrap lon0 lon - lon0 <= c.
Proof.
  intros Hc [j Hj]. destruct (wrap_spec lon0 lon) as ([i Hi] & B & _). apply Rabs_le_between in Hj.
  assert (E : IZR (i + j) = 0).
  { rewrite (IZR_small (i + j)); [reflexivity|]. rewrite plus_IZR. lra. }
  rewrite plus_IZR in E. lra.
Qed.
Lemma sphere_ecc e : map_setup_proxy "Sphere" = Some e -> ECC e = 0.
Proof.
  intros H. apply setup_row in H as (a & b & f & Hin & ->). cbn [ECC].
  assert (f = 0) as ->. { revert Hin. unfold ellipse. cbn [In]. intros H. repeat (destruct H as [H|H]; [first [discriminate|injection H as _ _ <-; reflexivity]|]). destruct H. }
  replace (2 * 0 - 0 * 0) with 0 by ring. unfold d_sqrt. destruct (Rlt_dec 0 0); [reflexivity|apply sqrt_0].
Qed.
(** A point at most 90 degrees of longitude away from the central meridian comes back: the
    longitude exactly, the latitude within half a millimetre (5e-9 degrees), exactly on the sphere *)
Theorem C80_lambert_back name lat0 lon0 rot pha phb lat lon : lambert_header name lat0 lon0 rot pha phb -> off_pole lat -> within 90 lon0 lon ->
  exists tr x y lat', make_proj (KLambert pha phb) name lat0 lon0 rot = Some tr /\ proj_from tr lat lon = Some (x, y) /\
    proj_to tr x y = Some (lat', normalizeLon lon) /\ Rabs (lat' - lat) <= 5 / 10 ^ 9 /\ (name = "Sphere"%string -> lat' = lat).
Proof.
  intros H Hl Hw. destruct (lambert_made _ _ _ _ _ _ H) as (e & N & F & G & He & Em & _ & HN & HNF & (c & Hc & Ec) & _).
  pose proof (cone_lt1 _ _ _ (lh_a _ _ _ _ _ _ H) (lh_b _ _ _ _ _ _ H) Hc) as HN1. rewrite <- Ec in HN1.
  apply (within_wrap 90) in Hw; [|lra]. set (r0 := EQ_RAD e * F * exp (N * Lf (ECC e) (lat0 * D2R))) in *.
  pose proof (lamb_ok e lon0 N F r0 lon lat G Hl) as Ef. cbv zeta in Ef. set (d := wrap lon0 lon - lon0) in *. set (rho := EQ_RAD e * F * exp (N * Lf (ECC e) (lat * D2R))) in *.
  assert (Ht : - (PI / 2) < N * d * D2R < PI / 2).
  { rewrite <- deg90. pose proof D2R_pos. assert (B : Rabs (N * d) < 90).
    { rewrite Rabs_mult. destruct (Req_dec d 0) as [->|Zd]; [rewrite Rabs_R0; lra|]. assert (Rabs N < 1) by (apply Rabs_def1; lra). assert (Rabs d <= 90) by (apply Rabs_le; lra).
      apply Rabs_pos_lt in Zd. apply Rlt_le_trans with (1 * Rabs d); [apply Rmult_lt_compat_r; assumption|lra]. }
    apply Rabs_def2 in B. split; [apply Ropp_lt_cancel; rewrite Ropp_involutive, <- Ropp_mult_distr_l_reverse|]; apply Rmult_lt_compat_r; lra. }
  assert (I : inside (lat * D2R)) by (apply inside_deg; unfold off_pole in Hl; lra).
  destruct (ilamb_ok e lon0 N F r0 rho d (lat * D2R) G I HN HNF eq_refl Ht) as (r & Ei & Br & E0).
  destruct (grid_back (Origin lat0 lon0 rot) (PLambert (Lambert e lon0 N F r0)) lat lon _ _ _ _ Ef Ei) as (x & y & E1 & E2).
  { replace (lon0 + d) with (wrap lon0 lon) by (unfold d; ring). apply wrap_spec. }
  exists (Origin lat0 lon0 rot, PLambert (Lambert e lon0 N F r0)), x, y, (r * R2D). split; [exact Em|]. split; [exact E1|]. split; [exact E2|]. pose proof D2R_R2D as DR. pose proof PI2_3_2 as P3.
  assert (HR : 0 < R2D <= 60). { unfold R2D. split; [apply Rdiv_lt_0_compat; lra|]. apply (Rmult_le_reg_r PI); [lra|]. unfold Rdiv. rewrite Rmult_assoc, Rinv_l by lra. lra. }
  replace (r * R2D - lat) with ((r - lat * D2R) * R2D). 2: { transitivity (r * R2D - lat * (D2R * R2D)); [ring|rewrite DR; ring]. }
  split.
  - rewrite Rabs_mult, (Rabs_pos_eq R2D) by lra. apply Rle_trans with (8 / 10 ^ 11 * 60); [|lra]. apply Rmult_le_compat; [apply Rabs_pos|lra|exact Br|lra].
  - intros ->. rewrite (E0 (sphere_ecc e He)), Rmult_assoc, DR. ring.
Qed.
Print Assumptions C80_lambert_back.
(** Farther away the inverse takes the wrong branch of the arctangent *)
Theorem C80_lambert_far_refuted : exists tr x y lat' lon', make_proj (KLambert 45 45) "Sphere" 45 0 0 = Some tr /\ proj_from tr 45 180 = Some (x, y) /\
  proj_to tr x y = Some (lat', lon') /\ lon' <> normalizeLon 180.
Proof.
  assert (H : lambert_header "Sphere" 45 0 0 45 45) by (split; try lra; cbn; tauto).
  destruct (lambert_made _ _ _ _ _ _ H) as (e & N & F & G & He & Em & _ & HN & HNF & (c & Hc & Ec) & _).
  assert (c = 45) as -> by (unfold Rmin, Rmax in Hc; destruct (Rle_dec 45 45); lra). replace (45 * D2R) with (PI / 4) in Ec by (unfold D2R; field). rewrite sin_PI4 in Ec.
  pose proof Rlt_sqrt2_0 as S0. pose proof (sqrt_sqrt 2 ltac:(lra)) as SS.
  assert (S1 : 5 / 4 < sqrt 2) by (apply Rnot_le_lt; intros L; assert (sqrt 2 * sqrt 2 <= 5 / 4 * (5 / 4)) by (apply Rmult_le_compat; lra); lra).
  assert (S2 : sqrt 2 < 3 / 2) by (apply Rnot_le_lt; intros L; assert (3 / 2 * (3 / 2) <= sqrt 2 * sqrt 2) by (apply Rmult_le_compat; lra); lra).
  assert (N1 : N = sqrt 2 / 2). { rewrite Ec. apply (Rmult_eq_reg_r (sqrt 2)); [|lra]. unfold Rdiv at 1. rewrite Rmult_assoc, Rinv_l by lra. lra. }
  set (r0 := EQ_RAD e * F * exp (N * Lf (ECC e) (45 * D2R))) in *.
  assert (Hl : off_pole 45) by (unfold off_pole; lra).
  pose proof (lamb_ok e 0 N F r0 180 45 G Hl) as Ef. cbv zeta in Ef. rewrite (proj2 (proj2 (wrap_spec 0 180))) in Ef by lra. rewrite Rminus_0_r in Ef.
  set (rho := EQ_RAD e * F * exp (N * Lf (ECC e) (45 * D2R))) in *.
  (* the angle minus half a turn, seen from a longitude 180 - 180 / N *)
  set (d := 180 - 180 / N). assert (Ed : N * d * D2R = N * 180 * D2R - PI) by (unfold d, D2R; field; exact HN).
  assert (PI0 := PI_RGT_0). assert (E180 : N * 180 * D2R = N * PI) by (unfold D2R; field).
  assert (B : 5 / 8 * PI < N * PI < 3 / 4 * PI) by (rewrite N1; split; apply Rmult_lt_compat_r; lra).
  assert (Hc0 : cos (N * 180 * D2R) < 0) by (rewrite E180; apply cos_lt_0; lra).
  assert (T : tan (N * 180 * D2R) = tan (N * d * D2R)) by (rewrite Ed; symmetry; apply tan_period; lra).
  assert (I : inside (45 * D2R)) by (apply inside_deg; lra).
  assert (Hrho : rho <> 0).
  { unfold rho. pose proof (exp_pos (N * Lf (ECC e) (45 * D2R))). assert (F <> 0) by (intros ->; lra). pose proof (proj1 G). repeat apply Rmult_integral_contrapositive_currified; lra. }
  assert (Ht : - (PI / 2) < N * d * D2R < PI / 2) by (rewrite Ed, E180; lra).
  destruct (ilamb_ok e 0 N F r0 rho d (45 * D2R) G I HN HNF eq_refl Ht) as (r & Ei & _).
  assert (Ei' : ilamb (Lambert e 0 N F r0) (rho * sin (N * 180 * D2R)) (r0 - rho * cos (N * 180 * D2R)) = Some (0 + d, r * R2D)).
  { rewrite <- Ei. assert (Sd : sin (N * d * D2R) = - sin (N * 180 * D2R)) by (rewrite Ed; rewrite sin_minus, cos_PI, sin_PI; ring).
    assert (Cd : cos (N * d * D2R) = - cos (N * 180 * D2R)) by (rewrite Ed; rewrite cos_minus, cos_PI, sin_PI; ring). rewrite Sd, Cd.
    unfold ilamb. cbn [l_e l_cm l_N l_F l_rho0]. cbv zeta. set (s := sin (N * 180 * D2R)) in *. set (co := cos (N * 180 * D2R)) in *.
    replace (r0 - (r0 - rho * co)) with (rho * co) by ring. replace (r0 - (r0 - rho * - co)) with (- (rho * co)) by ring. replace (rho * - s) with (- (rho * s)) by ring.
    assert (Z : rho * co <> 0) by (apply Rmult_integral_contrapositive_currified; lra). rewrite (div_ok (rho * s) (rho * co)) by exact Z. rewrite (div_ok (- (rho * s)) (- (rho * co))) by lra. cbn [obind].
    replace (- (rho * s) / - (rho * co)) with (rho * s / (rho * co)) by (field; split; lra).
    replace (- (rho * s) * - (rho * s) + - (rho * co) * - (rho * co)) with (rho * s * (rho * s) + rho * co * (rho * co)) by ring. reflexivity. }
  assert (Eg : exists u v, proj_from (Origin 45 0 0, PLambert (Lambert e 0 N F r0)) 45 180 = Some (u, v) /\ proj_to (Origin 45 0 0, PLambert (Lambert e 0 N F r0)) u v = Some (r * R2D, normalizeLon (0 + d))).
  { unfold proj_from. cbn [fst snd forward]. rewrite Ef. cbn [obind fst snd]. set (rr := rotate _ _). exists (fst rr), (snd rr). split; [rewrite <- surjective_pairing; reflexivity|].
    unfold proj_to. cbn [fst snd]. rewrite <- surjective_pairing. unfold rr. rewrite (proj1 (C52_rotation _ _ (0, 0))). cbv zeta. cbn [fst snd].
    match goal with |- context [inverse _ (?x / 1000 * 1000) (?y / 1000 * 1000)] => replace (x / 1000 * 1000) with x by field; replace (y / 1000 * 1000) with y by field end.
    cbn [inverse]. rewrite Ei'. reflexivity. }
  destruct Eg as (u & v & E1 & E2). do 5 eexists. split; [exact Em|]. split; [exact E1|]. split; [exact E2|].
  rewrite (C21_lon_canonical 180 (-180)) by (exists 1%Z; lra). rewrite (C21_lon_in_range (-180)) by lra.
  assert (Bd : -180 < 0 + d < 180). { unfold d. rewrite N1. replace (180 / (sqrt 2 / 2)) with (180 * sqrt 2). 2: { apply (Rmult_eq_reg_r (sqrt 2)); [|lra]. rewrite Rmult_assoc, SS. field. lra. } lra. }
  rewrite C21_lon_in_range by lra. lra.
Qed.
Print Assumptions C80_lambert_far_refuted.
(** Opposite standard parallels are accepted, but have no cone *)
Theorem C80_lambert_opposite name lat0 lon0 rot pha : In name (map fst ellipse) -> 0 < pha < 90 ->
  make_proj (KLambert pha (- pha)) name lat0 lon0 rot = None.
Proof.
  intros Hn Ha. apply C80_names in Hn as [e He]. pose proof (setup_good _ _ He) as G. pose proof (good_k e G) as Hk. unfold make_proj. destruct (check_origin _); [|reflexivity]. cbn [obind].
  repeat (destruct (Rlt_dec _ _); [lra|]). unfold vlamb. rewrite He. cbn [obind]. cbv zeta.
  assert (I : inside (pha * D2R)) by (apply inside_deg; lra). assert (I' : inside (- pha * D2R)) by (apply inside_deg; lra).
  rewrite !(conf_t_ok e (pha * D2R)), !(conf_m_ok e (pha * D2R)), !(conf_t_ok e (- pha * D2R)), !(conf_m_ok e (- pha * D2R)) by assumption. cbn [obind].
  destruct (conf_t e (lat0 * D2R)) as [t0|]; [|reflexivity]. cbn [obind].
  pose proof D2R_pos. destruct (Req_EM_T _ _) as [E|E]. { assert (0 < pha * D2R) by (apply Rmult_lt_0_compat; lra). lra. }
  rewrite !d_log_exp. replace (- pha * D2R) with (- (pha * D2R)) in * by ring. rewrite Kf_even.
  assert (HL : Lf (ECC e) (pha * D2R) - Lf (ECC e) (- (pha * D2R)) <> 0).
  { assert (0 < pha * D2R) by (apply Rmult_lt_0_compat; lra). pose proof (Lf_decreasing _ Hk (- (pha * D2R)) (pha * D2R) I' I ltac:(lra)). lra. }
  rewrite div_ok by exact HL. cbn [obind]. replace (_ / _) with 0 by (field; exact HL). rewrite pow_ok by apply exp_pos. cbn [obind]. rewrite Rmult_0_l. unfold div_. destruct (Req_EM_T 0 0) as [_|K]; [reflexivity|contradiction].
Qed.
Print Assumptions C80_lambert_opposite.

(** ** Lambert: what kind of map it is *)
(** The origin of the grid is at (0,0); the central meridian is the axis of y, from south to north *)
Theorem C80_lambert_origin name lat0 lon0 rot pha phb : lambert_header name lat0 lon0 rot pha phb -> off_pole lat0 ->
  exists tr p, make_proj (KLambert pha phb) name lat0 lon0 rot = Some tr /\ proj_from tr lat0 lon0 = Some (0, 0) /\ snd tr = PLambert p /\
  (forall lat, off_pole lat -> exists y, lamb p lon0 lat = Some (0, y)) /\
  (forall lat lat' y y', off_pole lat -> off_pole lat' -> lat < lat' -> lamb p lon0 lat = Some (0, y) -> lamb p lon0 lat' = Some (0, y') -> y < y').
Proof.
  intros H Hl. destruct (lambert_made _ _ _ _ _ _ H) as (e & N & F & G & He & Em & _ & HN & HNF & _). pose proof (good_k e G) as Hk. pose proof D2R_pos as DP.
  set (r0 := EQ_RAD e * F * exp (N * Lf (ECC e) (lat0 * D2R))) in *. exists (Origin lat0 lon0 rot, PLambert (Lambert e lon0 N F r0)), (Lambert e lon0 N F r0). split; [exact Em|].
  assert (W : wrap lon0 lon0 = lon0) by (apply wrap_spec; lra).
  assert (Ec : forall lat, off_pole lat -> lamb (Lambert e lon0 N F r0) lon0 lat = Some (0, r0 - EQ_RAD e * F * exp (N * Lf (ECC e) (lat * D2R)))).
  { intros lat Hlat. rewrite lamb_ok by assumption. cbv zeta. rewrite W. replace (N * (lon0 - lon0) * D2R) with 0 by ring. rewrite sin_0, cos_0. do 2 f_equal; ring. }
  split; [|split; [reflexivity|split]].
  - unfold proj_from. cbn [fst snd forward]. rewrite (Ec _ Hl). cbn [obind fst snd]. fold r0. unfold rotate. cbn [fst snd]. do 2 f_equal; field.
  - intros lat Hlat. eexists. apply Ec, Hlat.
  - intros lat lat' y y' Ha Hb L E E'. rewrite (Ec _ Ha) in E. rewrite (Ec _ Hb) in E'. injection E as <-. injection E' as <-.
    assert (Ia : inside (lat * D2R)) by (apply inside_deg; unfold off_pole in Ha; lra). assert (Ib : inside (lat' * D2R)) by (apply inside_deg; unfold off_pole in Hb; lra).
    assert (LL : Lf (ECC e) (lat' * D2R) < Lf (ECC e) (lat * D2R)) by (apply Lf_decreasing; try assumption; apply Rmult_lt_compat_r; lra).
    assert (Ex : 0 < F * (exp (N * Lf (ECC e) (lat * D2R)) - exp (N * Lf (ECC e) (lat' * D2R)))).
    { destruct (Rtotal_order N 0) as [Ns|[Ns|Ns]]; [|contradiction|].
      - assert (F < 0). { apply Rnot_le_lt. intros K. assert (0 <= (- N) * F) by (apply Rmult_le_pos; lra). lra. }
        assert (exp (N * Lf (ECC e) (lat * D2R)) < exp (N * Lf (ECC e) (lat' * D2R))).
        { apply exp_increasing. apply Ropp_lt_cancel. rewrite <- !Ropp_mult_distr_l_reverse. apply Rmult_lt_compat_l; lra. }
        replace (F * _) with ((- F) * (exp (N * Lf (ECC e) (lat' * D2R)) - exp (N * Lf (ECC e) (lat * D2R)))) by ring. apply Rmult_lt_0_compat; lra.
      - assert (0 < F) by (apply (Rmult_lt_reg_l N); lra).
        assert (exp (N * Lf (ECC e) (lat' * D2R)) < exp (N * Lf (ECC e) (lat * D2R))) by (apply exp_increasing; apply Rmult_lt_compat_l; lra). apply Rmult_lt_0_compat; lra. }
    pose proof (proj1 G) as Ha0. assert (0 < EQ_RAD e * (F * (exp (N * Lf (ECC e) (lat * D2R)) - exp (N * Lf (ECC e) (lat' * D2R))))) by (apply Rmult_lt_0_compat; assumption). lra.
Qed.
Print Assumptions C80_lambert_origin.

(** The specification: radii of curvature of the ellipsoid with equatorial radius a and flattening f
    at the latitude l (radians) *)
Definition ecc2 (f : R) : R := 1 - (1 - f) * (1 - f).
Definition rad_meridian (a f l : R) : R := a * (1 - ecc2 f) / (sqrt (1 - ecc2 f * (sin l * sin l)) * (1 - ecc2 f * (sin l * sin l))).
Definition rad_parallel (a f l : R) : R := a * cos l / sqrt (1 - ecc2 f * (sin l * sin l)).
Definition px (r : option (R * R)) : R := match r with Some (x, _) => x | None => 0 end.
Definition py (r : option (R * R)) : R := match r with Some (_, y) => y | None => 0 end.
Lemma setup_ecc n e a b f : map_setup_proxy n = Some e -> In (n, (a, b, f)) ellipse -> EQ_RAD e = a /\ ECC e * ECC e = ecc2 f.
Proof.
  intros He Hin. pose proof (setup_good n e He) as (_ & _ & E2 & _). apply setup_row in He as (a' & b' & f' & Hin' & ->). cbn [EQ_RAD ECC ECC2] in *. rewrite <- E2.
  assert ((a', b', f') = (a, b, f)) as Eq.
  { assert (ND : NoDup (map fst ellipse)).
    { unfold ellipse. cbn [map fst]. repeat (constructor; [cbn [In]; intros K; repeat (destruct K as [K|K]; [discriminate|]); exact K|]). constructor. }
    clear -Hin Hin' ND. induction ellipse as [|[m r] l IH]; [destruct Hin|]. cbn [map fst] in ND. inversion ND as [|? ? K1 K2]; subst. destruct Hin as [E|Hin], Hin' as [E'|Hin'].
    - congruence.
    - exfalso. apply K1. injection E as -> _. apply (in_map fst) in Hin'. exact Hin'.
    - exfalso. apply K1. injection E' as -> _. apply (in_map fst) in Hin. exact Hin.
    - apply IH; assumption. }
  injection Eq as -> _ ->. split; [reflexivity|]. unfold ecc2. ring.
Qed.
(** The map is conformal: one scale k in all directions, meridians and parallels at right angles; the
    scale is 1 on both standard parallels *)
Theorem C80_lambert_conformal name lat0 lon0 rot pha phb a b f lat lon : lambert_header name lat0 lon0 rot pha phb -> In (name, (a, b, f)) ellipse ->
  -90 < lat < 90 - 1 / 10 ^ 7 -> -180 < lon - lon0 < 180 ->
  exists o p k gamma, make_proj (KLambert pha phb) name lat0 lon0 rot = Some (o, PLambert p) /\ 0 < k /\
    is_derive (fun l => px (lamb p lon l)) lat (- (k * rad_meridian a f (lat * D2R) * sin gamma) * D2R) /\
    is_derive (fun l => py (lamb p lon l)) lat (k * rad_meridian a f (lat * D2R) * cos gamma * D2R) /\
    is_derive (fun l => px (lamb p l lat)) lon (k * rad_parallel a f (lat * D2R) * cos gamma * D2R) /\
    is_derive (fun l => py (lamb p l lat)) lon (k * rad_parallel a f (lat * D2R) * sin gamma * D2R) /\
    (lat = pha \/ lat = phb -> k = 1) /\ (lon = lon0 -> gamma = 0).
Proof.
  intros H Hin Hlat Hlon. destruct (lambert_made _ _ _ _ _ _ H) as (e & N & F & G & He & Em & _ & HN & HNF & _ & Ka & Kb). pose proof (good_k e G) as Hk. pose proof D2R_pos as DP.
  destruct (setup_ecc _ _ _ _ _ He Hin) as [Ea Ee]. set (r0 := EQ_RAD e * F * exp (N * Lf (ECC e) (lat0 * D2R))) in *. set (k := ECC e) in *. set (l := lat * D2R).
  assert (I : inside l) by (apply inside_deg; lra). pose proof (cos_pos l I) as Cp. pose proof (kk_bound k Hk l) as [B1 B2].
  set (gamma := N * (lon - lon0) * D2R). set (sc := N * F * exp (N * Lf k l) / exp (Kf k l)).
  exists (Origin lat0 lon0 rot), (Lambert e lon0 N F r0), sc, gamma. split; [exact Em|]. split.
  { unfold sc. apply Rdiv_lt_0_compat; [apply Rmult_lt_0_compat; [exact HNF|apply exp_pos]|apply exp_pos]. }
  set (rho := fun x => EQ_RAD e * F * exp (N * Lf k (x * D2R))).
  assert (W : forall x, -180 <= x - lon0 <= 180 -> wrap lon0 x = x) by (intros x; apply wrap_spec).
  assert (Ex : forall x m, off_pole x -> -180 <= m - lon0 <= 180 -> lamb (Lambert e lon0 N F r0) m x = Some (rho x * sin (N * (m - lon0) * D2R), r0 - rho x * cos (N * (m - lon0) * D2R))).
  { intros x m Hx Hm. rewrite lamb_ok by assumption. cbv zeta. rewrite (W m Hm). reflexivity. }
  assert (NearLat : locally lat off_pole).
  { pose proof (Rmin_l (lat + 90) (90 - 1 / 10 ^ 7 - lat)) as M1. pose proof (Rmin_r (lat + 90) (90 - 1 / 10 ^ 7 - lat)) as M2. assert (Hp : 0 < Rmin (lat + 90) (90 - 1 / 10 ^ 7 - lat)) by (apply Rmin_pos; lra). set (eps := Rmin _ _) in *. clearbody eps. exists (mkposreal _ Hp). intros x Hx. unfold ball in Hx; cbn in Hx. unfold AbsRing_ball, abs, minus, plus, opp in Hx; cbn in Hx.
    apply Rabs_def2 in Hx. unfold off_pole. lra. }
  assert (NearLon : locally lon (fun m => -180 <= m - lon0 <= 180)).
  { pose proof (Rmin_l (lon - lon0 + 180) (180 - (lon - lon0))) as M1. pose proof (Rmin_r (lon - lon0 + 180) (180 - (lon - lon0))) as M2. assert (Hp : 0 < Rmin (lon - lon0 + 180) (180 - (lon - lon0))) by (apply Rmin_pos; lra). set (eps := Rmin _ _) in *. clearbody eps. exists (mkposreal _ Hp). intros x Hx. unfold ball in Hx; cbn in Hx. unfold AbsRing_ball, abs, minus, plus, opp in Hx; cbn in Hx.
    apply Rabs_def2 in Hx. lra. }
  assert (Drho : is_derive rho lat (EQ_RAD e * F * (N * dL k l) * exp (N * Lf k l) * D2R)).
  { unfold rho. pose proof (derive_Lf k Hk l I) as D. auto_derive.
    - exists (dL k l). exact D.
    - replace (Derive (fun x : R => Lf k x) (lat * D2R)) with (dL k l) by (symmetry; apply is_derive_unique; exact D). fold l. ring. }
  pose proof (exp_pos (N * Lf k l)) as X1. pose proof (exp_pos (Kf k l)) as X2.
  assert (Em' : sc * rad_meridian a f l = - (EQ_RAD e * F * (N * dL k l) * exp (N * Lf k l))).
  { unfold sc, rad_meridian, dL. rewrite exp_Kf by assumption. rewrite <- Ea, <- Ee.
    assert (S : 0 < sqrt (1 - k * k * (sin l * sin l))) by (apply sqrt_lt_R0; lra). field. repeat apply conj; lra. }
  assert (Ep' : sc * rad_parallel a f l = N * (EQ_RAD e * F * exp (N * Lf k l))).
  { unfold sc, rad_parallel. rewrite exp_Kf by assumption. rewrite <- Ea, <- Ee.
    assert (S : 0 < sqrt (1 - k * k * (sin l * sin l))) by (apply sqrt_lt_R0; lra). field. repeat apply conj; lra. }
  split; [|split; [|split; [|split; [|split]]]].
  - apply (is_derive_ext_loc (fun x => rho x * sin gamma)).
    { revert NearLat. apply filter_imp. intros x Hx. rewrite Ex by (assumption || lra). reflexivity. }
    fold l. rewrite Em'. replace (- (- (EQ_RAD e * F * (N * dL k l) * exp (N * Lf k l)) * sin gamma) * D2R) with ((EQ_RAD e * F * (N * dL k l) * exp (N * Lf k l) * D2R) * sin gamma) by ring.
    apply (is_derive_ext (fun x => sin gamma * rho x)); [intros; apply Rmult_comm|]. rewrite (Rmult_comm _ (sin gamma)). apply is_derive_scal. exact Drho.
  - apply (is_derive_ext_loc (fun x => r0 - rho x * cos gamma)).
    { revert NearLat. apply filter_imp. intros x Hx. rewrite Ex by (assumption || lra). reflexivity. }
    fold l. rewrite Em'. auto_derive.
    + exists (EQ_RAD e * F * (N * dL k l) * exp (N * Lf k l) * D2R). exact Drho.
    + replace (Derive (fun x : R => rho x) lat) with (EQ_RAD e * F * (N * dL k l) * exp (N * Lf k l) * D2R) by (symmetry; apply is_derive_unique; exact Drho). ring.
  - apply (is_derive_ext_loc (fun m => rho lat * sin (N * (m - lon0) * D2R))).
    { revert NearLon. apply filter_imp. intros m Hm. rewrite Ex by (assumption || unfold off_pole; lra). reflexivity. }
    fold l. rewrite Ep'. auto_derive; [exact Logic.I|]. unfold gamma, rho. fold l. replace (lon + - lon0) with (lon - lon0) by ring. ring.
  - apply (is_derive_ext_loc (fun m => r0 - rho lat * cos (N * (m - lon0) * D2R))).
    { revert NearLon. apply filter_imp. intros m Hm. rewrite Ex by (assumption || unfold off_pole; lra). reflexivity. }
    fold l. rewrite Ep'. auto_derive; [exact Logic.I|]. unfold gamma, rho. fold l. replace (lon + - lon0) with (lon - lon0) by ring. ring.
  - intros [El|El]; unfold sc, l; rewrite El; [rewrite Ka|rewrite Kb]; field; apply Rgt_not_eq, exp_pos.
  - intros ->. unfold gamma. ring.
Qed.
Print Assumptions C80_lambert_conformal.

(** ** Azimuthal equidistant *)
Lemma degToRad_D2R x : degToRad x = x * D2R. Proof. unfold degToRad, D2R. field. Qed.
Lemma made_azeq name lat0 lon0 rot : In name (map fst ellipse) -> -90 <= lat0 <= 90 -> -180 <= lon0 <= 180 -> -360 <= rot <= 360 -> exists e,
  map_setup_proxy name = Some e /\ good e /\ make_proj KAzeq name lat0 lon0 rot = Some (Origin lat0 lon0 rot, PAzeq (Azeq e lon0 lat0 (sin (lat0 * D2R)) (cos (lat0 * D2R)))).
Proof.
  intros Hn H0 H1 H2. apply C80_names in Hn as [e He]. exists e. split; [exact He|]. split; [apply (setup_good name); exact He|].
  unfold make_proj. rewrite check_ok by assumption. cbn [obind]. unfold vazeqdist. rewrite He. reflexivity.
Qed.
(** cos and sin of the arc between two points, its direction *)
Lemma arc_parts f1 f2 d : let cc := sin f1 * sin f2 + cos f1 * cos f2 * cos d in
  cc * cc + (cos f2 * sin d) * (cos f2 * sin d) + (cos f1 * sin f2 - sin f1 * cos f2 * cos d) * (cos f1 * sin f2 - sin f1 * cos f2 * cos d) = 1.
Proof.
  cbv zeta. pose proof (sin2_cos2 f1) as U1. pose proof (sin2_cos2 f2) as U2. pose proof (sin2_cos2 d) as U3. unfold Rsqr in *.
  transitivity ((sin f1 * sin f1 + cos f1 * cos f1) * (sin f2 * sin f2 + cos f2 * cos f2 * (cos d * cos d)) + cos f2 * cos f2 * (sin d * sin d)); [ring|].
  rewrite U1. transitivity (sin f2 * sin f2 + cos f2 * cos f2 * (sin d * sin d + cos d * cos d)); [ring|]. rewrite U3. lra.
Qed.
Section Azeq.
  Variables (e : ellip) (lon0 lat0 lon lat : R).
  Hypothesis (Ha : 0 < EQ_RAD e).
  Let p := Azeq e lon0 lat0 (sin (lat0 * D2R)) (cos (lat0 * D2R)).
  Let d := (wrap lon0 lon - lon0) * D2R.
  Let f := lat * D2R.
  Let f0 := lat0 * D2R.
  Let cc := sin f0 * sin f + cos f0 * cos f * cos d.
  Let X := cos f * sin d.
  Let Y := cos f0 * sin f - sin f0 * cos f * cos d.
  Lemma azeq_parts : cc * cc + X * X + Y * Y = 1. Proof using. apply arc_parts. Qed.
  Lemma cc_bound : -1 <= cc <= 1.
  Proof using.
    pose proof azeq_parts as E. pose proof (Rle_0_sqr X) as S1. pose proof (Rle_0_sqr Y) as S2. unfold Rsqr in S1, S2. 
    split; apply Rnot_lt_le; intros L; [assert (1 * 1 < (- cc) * (- cc)) by (apply Rmult_le_0_lt_compat; lra)|assert (1 * 1 < cc * cc) by (apply Rmult_le_0_lt_compat; lra)]; lra.
  Qed.
  Lemma azeq_forward : -1 < cc < 1 -> exists c, 0 < c < PI /\ cos c = cc /\ 0 < sin c /\ X * X + Y * Y = sin c * sin c /\
    azeqdist p lon lat = Some (EQ_RAD e * c / sin c * X, EQ_RAD e * c / sin c * Y).
  Proof using.
    intros B. exists (acos cc). pose proof (cos_acos cc ltac:(lra)) as Ec. pose proof (acos_bound cc) as Bc.
    assert (0 < acos cc < PI) as Bc'.
    { split; [destruct (Rle_lt_or_eq_dec _ _ (proj1 Bc)) as [L|L]; [exact L|rewrite <- L, cos_0 in Ec; lra]|].
      destruct (Rle_lt_or_eq_dec _ _ (proj2 Bc)) as [L|L]; [exact L|rewrite L, cos_PI in Ec; lra]. }
    assert (Sp : 0 < sin (acos cc)) by (apply sin_gt_0; lra). split; [exact Bc'|]. split; [exact Ec|]. split; [exact Sp|]. split.
    { pose proof (sin2_cos2 (acos cc)) as U. unfold Rsqr in U. rewrite Ec in U. pose proof azeq_parts. lra. }
    unfold azeqdist, p. cbn [z_e z_cm z_sinp z_cosp]. cbv zeta. fold d f f0 cc. destruct (Rle_dec 1 (Rabs cc)) as [L|L].
    { assert (Rabs cc < 1) by (apply Rabs_def1; lra). lra. }
    rewrite div_ok by lra. cbn [obind]. unfold X, Y. do 2 f_equal. ring.
  Qed.
  Lemma azeq_back : -90 <= lat0 <= 90 -> -90 < lat < 90 -> -1 < cc -> exists x y lon', azeqdist p lon lat = Some (x, y) /\ iazeqdist p x y = Some (lon', lat) /\ same_angle lon' lon.
  Proof using Ha.
    intros H0 Hl Hc. pose proof D2R_pos as DP. pose proof D2R_R2D as DR. destruct (wrap_spec lon0 lon) as (Sw & Bw & _).
    assert (If : inside f) by (apply inside_deg; exact Hl). pose proof (cos_pos f If) as Cf. pose proof azeq_parts as E1.
    destruct (Req_dec cc 1) as [Ec|Ec].
    - (* the origin *)
      assert (Zx : X = 0) by (pose proof (Rle_0_sqr X) as S1; pose proof (Rle_0_sqr Y) as S2; unfold Rsqr in S1, S2; rewrite Ec in E1; destruct (Rmult_integral X X) as [Z|Z]; lra).
      assert (Zy : Y = 0) by (pose proof (Rle_0_sqr X) as S1; pose proof (Rle_0_sqr Y) as S2; unfold Rsqr in S1, S2; rewrite Ec in E1; destruct (Rmult_integral Y Y) as [Z|Z]; lra).
      assert (Esin : sin f = sin f0).
      { transitivity (sin f0 * cc + cos f0 * Y); [|rewrite Ec, Zy; ring]. unfold cc, Y. pose proof (sin2_cos2 f0) as U. unfold Rsqr in U. transitivity ((sin f0 * sin f0 + cos f0 * cos f0) * sin f); [rewrite U; ring|ring]. }
      assert (Ef : f0 = f).
      { assert (Bf0 : - (PI / 2) <= f0 <= PI / 2). { unfold f0. rewrite <- deg90. split; [rewrite <- Ropp_mult_distr_l_reverse|]; apply Rmult_le_compat_r; lra. }
        destruct (Rtotal_order f0 f) as [L|[L|L]]; [|exact L|]; exfalso; [pose proof (sin_increasing_1 f0 f)|pose proof (sin_increasing_1 f f0)]; unfold inside in If; lra. }
      assert (Elat : lat0 = lat) by (apply (Rmult_eq_reg_r D2R); [exact Ef|lra]).
      assert (Ed : d = 0).
      { assert (Sd : sin d = 0) by (unfold X in Zx; apply Rmult_integral in Zx as [Z|Z]; [lra|exact Z]).
        assert (Cd : cos d = 1). { pose proof (sin2_cos2 f) as U. unfold Rsqr in U. unfold cc in Ec. rewrite Ef in Ec. apply (Rmult_eq_reg_l (cos f * cos f)); [|apply Rgt_not_eq, Rmult_lt_0_compat; exact Cf]. lra. }
        pose proof (sin2_cos2 d). apply (angle_unique d 0); [|rewrite sin_0; exact Sd|rewrite cos_0; exact Cd]. pose proof PI_RGT_0. unfold d. replace (2 * PI) with (360 * D2R) by (unfold D2R; field).
        rewrite Rminus_0_r. split; [rewrite <- Ropp_mult_distr_l_reverse|]; apply Rmult_lt_compat_r; lra. }
      exists 0, 0, lon0. repeat apply conj.
      + unfold azeqdist, p. cbn [z_e z_cm z_sinp z_cosp]. cbv zeta. fold d f f0 cc. rewrite Ec, Rabs_R1. destruct (Rle_dec 1 1) as [_|L]; [reflexivity|lra].
      + unfold iazeqdist, p. cbn [z_e z_cm z_pole z_sinp z_cosp]. cbv zeta. replace (0 * 0 + 0 * 0) with 0 by ring. rewrite sqrt_0. destruct (Req_EM_T 0 0) as [_|K]; [rewrite Elat; reflexivity|contradiction].
      + destruct Sw as [j Hj]. exists j. unfold d in Ed. assert (wrap lon0 lon - lon0 = 0) by (apply (Rmult_eq_reg_r D2R); lra). lra.
    - pose proof cc_bound as Bc. destruct azeq_forward as (c & Hc1 & Hc2 & Hc3 & Hc4 & E); [lra|].
      set (K := EQ_RAD e * c / sin c) in *. assert (HK : 0 < K) by (apply Rdiv_lt_0_compat; [apply Rmult_lt_0_compat; lra|exact Hc3]).
      assert (Erho : sqrt (K * X * (K * X) + K * Y * (K * Y)) = EQ_RAD e * c).
      { replace (K * X * (K * X) + K * Y * (K * Y)) with (Rsqr (EQ_RAD e * c)); [apply sqrt_Rsqr; apply Rmult_le_pos; lra|].
        unfold Rsqr. transitivity (K * K * (sin c * sin c)); [unfold K; field; lra|rewrite <- Hc4; ring]. }
      assert (Elat : cos c * sin f0 + K * Y * sin c * cos f0 / (EQ_RAD e * c) = sin f).
      { transitivity (cos c * sin f0 + Y * cos f0); [unfold K; field; lra|]. rewrite Hc2. unfold cc, Y. pose proof (sin2_cos2 f0) as U. unfold Rsqr in U. transitivity ((sin f0 * sin f0 + cos f0 * cos f0) * sin f); [ring|rewrite U; ring]. }
      assert (Ey : EQ_RAD e * c * cos f0 * cos c - K * Y * sin f0 * sin c = EQ_RAD e * c * cos f * cos d).
      { transitivity (EQ_RAD e * c * (cos f0 * cos c - Y * sin f0)); [unfold K; field; lra|]. rewrite Hc2. unfold cc, Y. pose proof (sin2_cos2 f0) as U. unfold Rsqr in U.
        transitivity (EQ_RAD e * c * ((sin f0 * sin f0 + cos f0 * cos f0) * cos f * cos d)); [ring|rewrite U; ring]. }
      assert (Ex : K * X * sin c = EQ_RAD e * c * cos f * sin d) by (unfold X, K; field; lra).
      assert (At : forall r, 0 < r -> exists j : Z, lon0 + R2D * atan2 (r * sin d) (r * cos d) = lon0 + (wrap lon0 lon - lon0) + 360 * IZR j).
      { intros r Hr. destruct (Req_dec (wrap lon0 lon - lon0) (-180)) as [Z|Z].
        - exists 1%Z. assert (Ed : d = - PI) by (unfold d; rewrite Z; unfold D2R; field). rewrite Z. replace (atan2 (r * sin d) (r * cos d)) with PI.
          2: { symmetry. rewrite Ed, sin_neg, cos_neg, sin_PI. replace (r * - 0) with (r * sin PI) by (rewrite sin_PI; ring). apply atan2_of_polar; [exact Hr|]. pose proof PI_RGT_0. lra. }
          unfold R2D. field. apply Rgt_not_eq, PI_RGT_0.
        - exists 0%Z. rewrite atan2_of_polar; [|exact Hr|].
          + unfold d. transitivity (lon0 + (wrap lon0 lon - lon0) * (D2R * R2D)); [ring|rewrite DR; ring].
          + unfold d. replace PI with (180 * D2R) by (unfold D2R; field). split; [rewrite <- Ropp_mult_distr_l_reverse; apply Rmult_lt_compat_r; lra|apply Rmult_le_compat_r; lra]. }
      exists (K * X), (K * Y). unfold iazeqdist, p. cbn [z_e z_cm z_pole z_sinp z_cosp]. cbv zeta. fold f0. rewrite Erho. 
      destruct (Req_EM_T (EQ_RAD e * c) 0) as [Z|_]. { exfalso. assert (0 < EQ_RAD e * c) by (apply Rmult_lt_0_compat; lra). lra. }
      replace (EQ_RAD e * c / EQ_RAD e) with c by (field; lra). rewrite Elat. rewrite asin_sin by (unfold inside in If; lra).
      replace (f * R2D) with lat by (unfold f; rewrite Rmult_assoc, DR; ring).
      set (L0 := if Req_EM_T lat0 90 then _ else _).
      assert (EL : exists j : Z, L0 = lon0 + (wrap lon0 lon - lon0) + 360 * IZR j).
      { unfold L0. destruct (Req_EM_T lat0 90) as [Z|Z]; [|destruct (Req_EM_T lat0 (-90)) as [Z'|Z']].
        - assert (S0 : sin f0 = 1) by (unfold f0; rewrite Z, deg90; apply sin_PI2). assert (C0 : cos f0 = 0) by (unfold f0; rewrite Z, deg90; apply cos_PI2).
          destruct (At (K * cos f)) as (j & Ej); [apply Rmult_lt_0_compat; assumption|]. exists j. rewrite <- Ej. do 3 f_equal; unfold X, Y; rewrite ?S0, ?C0; ring.
        - assert (S0 : sin f0 = -1) by (unfold f0; rewrite Z'; replace (-90 * D2R) with (- (PI / 2)) by (unfold D2R; field); rewrite sin_neg, sin_PI2; ring).
          assert (C0 : cos f0 = 0) by (unfold f0; rewrite Z'; replace (-90 * D2R) with (- (PI / 2)) by (unfold D2R; field); rewrite cos_neg; apply cos_PI2).
          destruct (At (K * cos f)) as (j & Ej); [apply Rmult_lt_0_compat; assumption|]. exists j. rewrite <- Ej. do 3 f_equal; unfold X, Y; rewrite ?S0, ?C0; ring.
        - rewrite Ex, Ey. apply At. repeat apply Rmult_lt_0_compat; lra. }
      exists (if Rle_dec L0 (-180) then L0 + 360 else L0). split; [exact E|]. split; [reflexivity|].
      destruct EL as [j Hj], Sw as [i Hi]. destruct (Rle_dec L0 (-180)) as [L|L].
      + exists (i + j + 1)%Z. rewrite !plus_IZR. lra.
      + exists (i + j)%Z. rewrite !plus_IZR. lra.
  Qed.
End Azeq.
Lemma wrap_trig lon0 lon : sin ((wrap lon0 lon - lon0) * D2R) = sin ((lon - lon0) * D2R) /\ cos ((wrap lon0 lon - lon0) * D2R) = cos ((lon - lon0) * D2R).
Proof.
  destruct (wrap_spec lon0 lon) as [[j Hj] _]. assert (S : same_angle (wrap lon0 lon - lon0) (lon - lon0)) by (exists j; lra).
  pose proof (same_angle_trig _ _ S) as [E1 E2]. rewrite !degToRad_D2R in E1, E2. split; assumption.
Qed.
(** Every point but the one opposite of the origin comes back exactly *)
Definition opposite (lat0 lon0 lat lon : R) : Prop := dot (unit_vec lat0 lon0) (unit_vec lat lon) = -1.
Lemma dot_cc lat0 lon0 lat lon : dot (unit_vec lat0 lon0) (unit_vec lat lon) =
  sin (lat0 * D2R) * sin (lat * D2R) + cos (lat0 * D2R) * cos (lat * D2R) * cos ((wrap lon0 lon - lon0) * D2R).
Proof.
  rewrite (proj2 (wrap_trig lon0 lon)). unfold dot, unit_vec. rewrite !degToRad_D2R. replace ((lon - lon0) * D2R) with (lon * D2R - lon0 * D2R) by ring. rewrite cos_minus. ring.
Qed.
Theorem C80_azeq_back name lat0 lon0 rot lat lon : In name (map fst ellipse) -> -90 <= lat0 <= 90 -> -180 <= lon0 <= 180 -> -360 <= rot <= 360 ->
  -90 < lat < 90 -> ~ opposite lat0 lon0 lat lon ->
  exists tr x y, make_proj KAzeq name lat0 lon0 rot = Some tr /\ proj_from tr lat lon = Some (x, y) /\ proj_to tr x y = Some (lat, normalizeLon lon).
Proof.
  intros Hn H0 H1 H2 Hl Ho. destruct (made_azeq name lat0 lon0 rot Hn H0 H1 H2) as (e & He & G & Em). unfold opposite in Ho. rewrite dot_cc in Ho.
  pose proof (cc_bound lon0 lat0 lon lat) as B. destruct (azeq_back e lon0 lat0 lon lat (proj1 G) H0 Hl ltac:(lra)) as (x & y & lon' & Ef & Ei & Es).
  destruct (grid_back (Origin lat0 lon0 rot) (PAzeq (Azeq e lon0 lat0 (sin (lat0 * D2R)) (cos (lat0 * D2R)))) lat lon x y lon' lat Ef Ei Es) as (u & v & E1 & E2).
  eexists _, u, v. split; [exact Em|]. split; [exact E1|exact E2].
Qed.
Print Assumptions C80_azeq_back.
(** The opposite point is put on the origin *)
Theorem C80_azeq_opposite_refuted : exists tr, make_proj KAzeq "WGS-84" 0 0 0 = Some tr /\ proj_from tr 0 180 = Some (0, 0) /\ proj_to tr 0 0 = Some (0, 0).
Proof.
  destruct (made_azeq "WGS-84" 0 0 0) as (e & He & G & Em); [cbn; tauto|lra..|]. eexists. split; [exact Em|]. split.
  - unfold proj_from. cbn [snd forward]. unfold azeqdist. cbn [z_e z_cm z_sinp z_cosp]. cbv zeta. rewrite (proj2 (proj2 (wrap_spec 0 180))) by lra.
    rewrite Rmult_0_l, sin_0, cos_0. replace ((180 - 0) * D2R) with PI by (unfold D2R; field). rewrite cos_PI. replace (0 * 0 + 1 * 1 * -1) with (-1) by ring.
    rewrite Rabs_left by lra. destruct (Rle_dec 1 (- -1)) as [_|L]; [|lra]. cbn [obind fst snd]. unfold rotate. cbn [fst snd]. do 2 f_equal; field.
  - unfold proj_to. cbn [fst snd inverse]. unfold inverseRotate. cbn [fst snd]. cbv zeta. unfold iazeqdist. cbn [z_e z_cm z_pole z_sinp z_cosp]. cbv zeta.
    replace (_ * _ + _ * _) with 0 by ring. rewrite sqrt_0. destruct (Req_EM_T 0 0) as [_|K]; [|contradiction]. cbn [obind fst snd]. rewrite C21_lon_in_range by lra. reflexivity.
Qed.
Print Assumptions C80_azeq_opposite_refuted.
(** The plane shows the true arc from the origin in the true direction *)
Theorem C80_azeq_polar name lat0 lon0 rot a b f lat lon : In (name, (a, b, f)) ellipse -> -90 <= lat0 <= 90 -> -180 <= lon0 <= 180 -> -360 <= rot <= 360 ->
  -90 <= lat <= 90 -> ~ opposite lat0 lon0 lat lon -> ~ same_place lat0 lon0 lat lon ->
  exists o p, make_proj KAzeq name lat0 lon0 rot = Some (o, PAzeq p) /\
    let r := a * angular_distance lat0 lon0 lat lon in let az := azimuth lat0 lon0 lat lon in
    azeqdist p lon lat = Some (r * sin az, r * cos az) /\
    proj_from (o, PAzeq p) lat lon = Some (r / 1000 * sin (az + degToRad rot), r / 1000 * cos (az + degToRad rot)).
Proof.
  intros Hin H0 H1 H2 Hl Ho Hs. assert (Hn : In name (map fst ellipse)) by (apply (in_map fst) in Hin; exact Hin).
  destruct (made_azeq name lat0 lon0 rot Hn H0 H1 H2) as (e & He & G & Em). destruct (setup_ecc _ _ _ _ _ He Hin) as [Ea _].
  exists (Origin lat0 lon0 rot), (Azeq e lon0 lat0 (sin (lat0 * D2R)) (cos (lat0 * D2R))). split; [exact Em|]. cbv zeta.
  destruct (C23_great_circle lat0 lon0 lat lon H0 Hl Hs) as [BD ED]. set (D := angular_distance lat0 lon0 lat lon) in *. set (az := azimuth lat0 lon0 lat lon).
  unfold opposite in Ho. rewrite dot_cc in Ho, ED. pose proof (cc_bound lon0 lat0 lon lat) as B.
  assert (Ef : azeqdist (Azeq e lon0 lat0 (sin (lat0 * D2R)) (cos (lat0 * D2R))) lon lat = Some (a * D * sin az, a * D * cos az)).
  { destruct (Req_dec (cos D) 1) as [E1|E1].
    - assert (D = 0) as ->. { apply angle_unique; [pose proof PI_RGT_0; lra| |rewrite cos_0; exact E1]. rewrite sin_0. pose proof (sin2_cos2 D) as U. unfold Rsqr in U. rewrite E1 in U. destruct (Rmult_integral (sin D) (sin D)); lra. }
      rewrite E1 in ED. unfold azeqdist. cbn [z_e z_cm z_sinp z_cosp]. cbv zeta. rewrite <- ED, Rabs_R1. destruct (Rle_dec 1 1) as [_|L]; [|lra]. do 2 f_equal; ring.
    - destruct (azeq_forward e lon0 lat0 lon lat) as (c & Hc & Cc & Sc & Er & E); [lra|]. rewrite E. rewrite <- ED in Cc.
      assert (D = c) as <-. { destruct (Rtotal_order D c) as [L|[L|L]]; [|exact L|]; exfalso; [pose proof (cos_decreasing_1 D c)|pose proof (cos_decreasing_1 c D)]; lra. }
      rewrite Ea. destruct (wrap_trig lon0 lon) as [W1 W2]. rewrite W1, W2 in *.
      assert (Eaz : az = atan2 (cos (lat * D2R) * sin ((lon - lon0) * D2R)) (cos (lat0 * D2R) * sin (lat * D2R) - sin (lat0 * D2R) * cos (lat * D2R) * cos ((lon - lon0) * D2R))).
      { unfold az, azimuth. destruct (same_place_dec lat0 lon0 lat lon) as [K|_]; [contradiction|]. cbv zeta. rewrite !degToRad_D2R. f_equal. ring. }
      set (X := cos (lat * D2R) * sin ((lon - lon0) * D2R)) in *. set (Y := cos (lat0 * D2R) * sin (lat * D2R) - sin (lat0 * D2R) * cos (lat * D2R) * cos ((lon - lon0) * D2R)) in *.
      destruct (atan2_polar X Y) as (_ & HY & HX).
      { destruct (Req_dec Y 0) as [Zy|Zy]; [|left; exact Zy]. right. intros Zx. rewrite Zx, Zy in Er. assert (0 < sin D * sin D) by (apply Rmult_lt_0_compat; exact Sc). lra. }
      rewrite <- Eaz in HX, HY. replace (sqrt (square Y + square X)) with (sin D) in HX, HY.
      2: { unfold square. replace (Y * Y + X * X) with (Rsqr (sin D)) by (unfold Rsqr; lra). symmetry. apply sqrt_Rsqr. lra. }
      rewrite HX, HY. do 2 f_equal; field; lra. }
  split; [exact Ef|]. unfold proj_from. cbn [fst snd forward]. rewrite Ef. cbn [obind fst snd]. f_equal.
  pose proof (C52_azimuth (Origin lat0 lon0 rot) (a * D / 1000) (radToDeg az)) as R. cbn [o_rot] in R.
  assert (Erd : forall x, degToRad (radToDeg x) = x) by (intros x; unfold degToRad, radToDeg; field; apply Rgt_not_eq, PI_RGT_0).
  rewrite degToRad_plus, Erd in R. rewrite <- R. do 2 f_equal; field.
Qed.
Print Assumptions C80_azeq_polar.

(** ** Transverse Mercator *)
Lemma tm_dlon_small cm lon : Rabs (lon - cm) <= 180 -> tm_dlon cm lon = lon - cm.
Proof. intros H. unfold tm_dlon. cbv zeta. destruct (Rlt_dec 360 _); [lra|]. destruct (Rlt_dec 180 _); [lra|reflexivity]. Qed.
Theorem C80_tm_longitude cm lon : Rabs (lon - cm) <= 720 -> same_angle (cm + tm_dlon cm lon) lon /\ -180 <= tm_dlon cm lon <= 180.
Proof.
  intros H. unfold tm_dlon, copysign. cbv zeta. set (d := lon - cm) in *. replace lon with (cm + d) by (unfold d; ring). clearbody d.
  assert (S : forall x, Rabs x <= 360 -> exists z : Z, (if Rlt_dec 180 (Rabs x) then if Rlt_dec (- x) 0 then - Rabs (360 - Rabs x) else Rabs (360 - Rabs x) else x) = x + 360 * IZR z /\
     -180 <= (if Rlt_dec 180 (Rabs x) then if Rlt_dec (- x) 0 then - Rabs (360 - Rabs x) else Rabs (360 - Rabs x) else x) <= 180).
  { intros x Hx. destruct (Rlt_dec 180 (Rabs x)) as [L|L].
    - rewrite (Rabs_pos_eq (360 - Rabs x)) by lra. destruct (Rlt_dec (- x) 0) as [L'|L'].
      + rewrite (Rabs_pos_eq x) in * by lra. exists (-1)%Z. lra.
      + rewrite (Rabs_left1 x) in * by lra. exists 1%Z. lra.
    - exists 0%Z. split; [ring|]. apply Rabs_le_between. lra. }
  destruct (Rlt_dec 360 (Rabs d)) as [L|L].
  - rewrite (Rabs_pos_eq 360) by lra. destruct (Rlt_dec (- d) 0) as [L'|L'].
    + rewrite (Rabs_pos_eq d) in * by lra. destruct (S (d + Ropp 360)) as (z & E & B); [apply Rabs_le; lra|]. split; [exists (z - 1)%Z; rewrite minus_IZR, E; ring|exact B].
    + rewrite (Rabs_left1 d) in * by lra. destruct (S (d + 360)) as (z & E & B); [apply Rabs_le; lra|]. split; [exists (z + 1)%Z; rewrite plus_IZR, E; ring|exact B].
  - destruct (S d) as (z & E & B); [lra|]. split; [exists z; rewrite E; ring|exact B].
Qed.
Print Assumptions C80_tm_longitude.
Lemma tm_dlon_odd cm d : tm_dlon cm (cm - d) = - tm_dlon cm (cm + d).
Proof.
  unfold tm_dlon. cbv zeta. replace (cm - d - cm) with (- d) by ring. replace (cm + d - cm) with d by ring.
  assert (C : forall x s, s <> 0 -> copysign x (- s) = - copysign x s) by (intros x s Hs; unfold copysign; destruct (Rlt_dec s 0), (Rlt_dec (- s) 0); lra).
  assert (Z : forall x, 180 < Rabs x -> x <> 0) by (intros x H ->; rewrite Rabs_R0 in H; lra).
  assert (S : forall x, (if Rlt_dec 180 (Rabs (- x)) then copysign (360 - Rabs (- x)) (- - x) else - x) = - (if Rlt_dec 180 (Rabs x) then copysign (360 - Rabs x) (- x) else x)).
  { intros x. rewrite Rabs_Ropp. destruct (Rlt_dec 180 (Rabs x)) as [L|L]; [|reflexivity]. apply C. specialize (Z x L). lra. }
  rewrite Rabs_Ropp. destruct (Rlt_dec 360 (Rabs d)) as [L|L]; [|apply S].
  rewrite C by (specialize (Z d); lra). replace (- d + - copysign 360 (- d)) with (- (d + copysign 360 (- d))) by ring. apply S.
Qed.
(** East and west of the central meridian are each other's mirror *)
Theorem C80_tm_mirror k name lat0 lon0 rot o p d lat : make_proj k name lat0 lon0 rot = Some (o, PTransmerc p) ->
  tm p (lon0 - d) lat = match tm p (lon0 + d) lat with Some (x, y) => Some ((if t_use_easting p then 2 * t_easting p else 0) - x, y) | None => None end.
Proof.
  intros Em. assert (Ecm : t_cm p = lon0).
  { unfold make_proj in Em. destruct (check_origin _) as [o'|]; [|discriminate]. cbn [obind] in Em. destruct k as [pha phb|use ea sc|].
    - repeat (destruct (Rlt_dec _ _); [discriminate|]). destruct (vlamb _ _ _ _ _); discriminate.
    - unfold vtm in Em. destruct (map_setup_proxy name) as [e|]; [|discriminate]. cbn [obind] in Em. destruct (div_ _ _) as [e1|]; [|discriminate]. cbn [obind] in Em. destruct (div_ _ _) as [e2|]; [|discriminate]. cbn [obind] in Em. cbv zeta in Em.
      destruct (tm _ _ _) as [xy|]; [|discriminate]. cbn [obind] in Em. injection Em as _ <-. reflexivity.
    - destruct (vazeqdist _ _ _); discriminate. }
  unfold tm. cbv zeta. rewrite Ecm, tm_dlon_odd. set (D := tm_dlon lon0 (lon0 + d)). clearbody D.
  destruct (Req_EM_T _ _).
  - cbn [obind fst snd]. destruct (t_use_easting p); do 2 f_equal; ring.
  - destruct (div_ _ _) as [N|]; [|reflexivity]. cbn [obind]. destruct (tan_ _) as [t|]; [|reflexivity]. cbn [obind fst snd]. destruct (t_use_easting p); do 2 f_equal; ring.
Qed.
Print Assumptions C80_tm_mirror.
Theorem C80_tm_back_mirror p x y lon lat : let c := if t_use_easting p then t_easting p else 0 in
  itm p (c + x) y = Some (lon, lat) -> itm p (c - x) y = Some (2 * t_cm p - lon, lat) /\ (x = 0 -> lon = t_cm p).
Proof.
  cbv zeta. unfold itm. cbv zeta. generalize (16666666666666666667 / 10 ^ 20) (833333333333333333 / 10 ^ 20) (4166666666666666667 / 10 ^ 20) (138888888888888889 / 10 ^ 20). intros c3 c5 c4 c6.
  replace (if t_use_easting p then (if t_use_easting p then t_easting p else 0) + x - t_easting p else (if t_use_easting p then t_easting p else 0) + x) with x by (destruct (t_use_easting p); ring).
  replace (if t_use_easting p then (if t_use_easting p then t_easting p else 0) - x - t_easting p else (if t_use_easting p then t_easting p else 0) - x) with (- x) by (destruct (t_use_easting p); ring).
  destruct (div_ (y + t_y0 p) _) as [M|]; [|discriminate]. cbn [obind]. destruct (div_ M _) as [mu|]; [|discriminate]. cbn [obind].
  set (phi1 := mu + _ + _ + _ + _). clearbody phi1. destruct (tan_ phi1) as [t|]; [|discriminate]. cbn [obind].
  set (tmp := 1 - _ * _). clearbody tmp. destruct (div_ (EQ_RAD (t_el p)) (d_sqrt tmp)) as [N1|]; [|discriminate]. cbn [obind].
  destruct (div_ _ (tmp * d_sqrt tmp)) as [R1|]; [|discriminate]. cbn [obind].
  unfold div_ at 1 4. destruct (Req_EM_T (N1 * t_scale p) 0) as [|Hn]; [discriminate|]. cbn [obind]. set (D := x / (N1 * t_scale p)).
  replace (- x / (N1 * t_scale p)) with (- D) by (unfold D, Rdiv; ring).
  unfold div_. destruct (Req_EM_T (cos phi1) 0) as [|Hc]; [discriminate|]. cbn [obind]. destruct (Req_EM_T R1 0) as [|Hr]; [discriminate|]. cbn [obind].
  intros H. injection H as <- <-. split.
  - apply f_equal, f_equal2; unfold Rdiv; ring.
  - intros E0. replace D with 0 by (unfold D; rewrite E0; unfold Rdiv; ring). unfold Rdiv. ring.
Qed.
Print Assumptions C80_tm_back_mirror.
(** 1/(1-u)^{3/2} and its series *)
Lemma series_bound u : 0 <= u <= 7 / 1000 -> let T := 1 + 3 / 2 * u + 15 / 8 * (u * u) + 35 / 16 * (u * u * u) in let S := / (sqrt (1 - u) * (1 - u)) in T <= S <= T + 3 * (u * u * u * u).
Proof.
  intros Hu T S. assert (V : 0 < 1 - u) by lra. pose proof (sqrt_lt_R0 _ V) as Q. pose proof (sqrt_sqrt (1 - u) ltac:(lra)) as QQ. set (q := sqrt (1 - u)) in *.
  assert (U2 : 0 <= u * u <= 7 / 1000 * u) by (split; [apply Rmult_le_pos; lra|apply Rmult_le_compat_r; lra]).
  assert (U3 : 0 <= u * u * u <= 7 / 1000 * (u * u)) by (split; [apply Rmult_le_pos; lra|rewrite Rmult_comm; apply Rmult_le_compat_r; lra]).
  assert (U4 : 0 <= u * u * u * u <= 7 / 1000 * (u * u * u)) by (split; [apply Rmult_le_pos; lra|rewrite Rmult_comm; apply Rmult_le_compat_r; lra]).
  assert (TP : 1 <= T) by (unfold T; lra). assert (P : 0 < q * (1 - u)) by (apply Rmult_lt_0_compat; assumption).
  assert (Sq : forall X, (X * (q * (1 - u))) * (X * (q * (1 - u))) = X * X * ((1 - u) * (1 - u) * (1 - u))) by (intros X; transitivity (X * X * (q * q) * ((1 - u) * (1 - u))); [ring|rewrite QQ; ring]).
  set (v := u * u * u * u) in *.
  assert (Lo : T * T * ((1 - u) * (1 - u) * (1 - u)) <= 1).
  { replace (T * T * ((1 - u) * (1 - u) * (1 - u))) with (1 - v * (315 / 64 - 63 / 32 * u - 105 / 256 * (u * u) - 45 / 256 * (u * u * u) - 1575 / 256 * v + 1225 / 256 * (u * v))) by (unfold v, T; field).
    assert (0 <= u * v) by (apply Rmult_le_pos; lra). assert (0 <= v * (315 / 64 - 63 / 32 * u - 105 / 256 * (u * u) - 45 / 256 * (u * u * u) - 1575 / 256 * v + 1225 / 256 * (u * v))) by (apply Rmult_le_pos; lra). lra. }
  assert (Hi : 1 <= (T + 3 * v) * (T + 3 * v) * ((1 - u) * (1 - u) * (1 - u))).
  { replace ((T + 3 * v) * (T + 3 * v) * ((1 - u) * (1 - u) * (1 - u))) with (1 + v * (69 / 64 - 225 / 32 * u + 681 / 256 * (u * u) + 141 / 256 * (u * u * u) + 135 / 256 * v - 937 / 256 * (u * v) + 111 / 8 * (u * u * v) - 9 * (u * u * u * v))) by (unfold v, T; field).
    assert (0 <= u * v <= 7 / 1000 * v) by (split; [apply Rmult_le_pos; lra|apply Rmult_le_compat_r; lra]). assert (0 <= u * u * v) by (apply Rmult_le_pos; lra). assert (0 <= u * u * u * v <= 1 * v) by (split; [apply Rmult_le_pos; lra|apply Rmult_le_compat_r; lra]).
    assert (0 <= v * (69 / 64 - 225 / 32 * u + 681 / 256 * (u * u) + 141 / 256 * (u * u * u) + 135 / 256 * v - 937 / 256 * (u * v) + 111 / 8 * (u * u * v) - 9 * (u * u * u * v))) by (apply Rmult_le_pos; lra). lra. }
  assert (L1 : forall X, 0 <= X -> X * X <= 1 -> X <= 1). { intros X HX K. apply Rnot_lt_le. intros C. assert (1 * 1 < X * X) by (apply Rmult_le_0_lt_compat; lra). lra. }
  assert (L2 : forall X, 0 <= X -> 1 <= X * X -> 1 <= X). { intros X HX K. apply Rnot_lt_le. intros C. assert (X * X < 1 * 1) by (apply Rmult_le_0_lt_compat; lra). lra. }
  rewrite <- Sq in Lo, Hi. apply L1 in Lo; [|apply Rmult_le_pos; lra]. apply L2 in Hi; [|apply Rmult_le_pos; lra].
  unfold S. split; (apply (Rmult_le_reg_r (q * (1 - u))); [exact P|]); rewrite Rinv_l by lra; assumption.
Qed.
Lemma cos_4 x : cos (4 * x) = 1 - 8 * (sin x * sin x) + 8 * ((sin x * sin x) * (sin x * sin x)).
Proof. replace (4 * x) with (2 * (2 * x)) by ring. rewrite cos_2a_sin, sin_2a. pose proof (sin2_cos2 x) as U. unfold Rsqr in U. assert (C : cos x * cos x = 1 - sin x * sin x) by lra. replace (2 * (2 * sin x * cos x) * (2 * sin x * cos x)) with (8 * (sin x * sin x) * (cos x * cos x)) by ring. rewrite C. ring. Qed.
Lemma cos_6 x : cos (6 * x) = 1 - 18 * (sin x * sin x) + 48 * ((sin x * sin x) * (sin x * sin x)) - 32 * ((sin x * sin x) * (sin x * sin x) * (sin x * sin x)).
Proof.
  replace (6 * x) with (4 * x + 2 * x) by ring. rewrite cos_plus, cos_4, cos_2a_sin. replace (4 * x) with (2 * (2 * x)) by ring. rewrite (sin_2a (2 * x)), cos_2a_sin, sin_2a.
  pose proof (sin2_cos2 x) as U. unfold Rsqr in U. assert (C : cos x * cos x = 1 - sin x * sin x) by lra.
  replace (2 * (2 * sin x * cos x) * (1 - 2 * sin x * sin x) * (2 * sin x * cos x)) with (8 * (sin x * sin x) * (cos x * cos x) * (1 - 2 * (sin x * sin x))) by ring. rewrite C. ring.
Qed.
Lemma meridian_series E l : 0 <= E < 7 / 1000 ->
  Rabs ((1 - 1 / 4 * E - 3 * (E * E) / 64 - 5 * (E * E * E) / 256) - 2 * (3 * E / 8 + 3 * (E * E) / 32 + 45 * (E * E * E) / 1024) * cos (2 * l)
     + 4 * (15 * (E * E) / 256 + 45 * (E * E * E) / 1024) * cos (4 * l) - 6 * (35 * (E * E * E) / 3072) * cos (6 * l)
     - (1 - E) / (sqrt (1 - E * (sin l * sin l)) * (1 - E * (sin l * sin l)))) <= 1 / 10 ^ 8.
Proof.
  intros HE. pose proof (sin2_cos2 l) as U. unfold Rsqr in U. pose proof (Rle_0_sqr (cos l)) as C0. pose proof (Rle_0_sqr (sin l)) as S0. unfold Rsqr in C0, S0.
  rewrite cos_4, cos_6, cos_2a_sin. replace (2 * sin l * sin l) with (2 * (sin l * sin l)) by ring. set (z := sin l * sin l) in *. assert (Hz : 0 <= z <= 1) by lra.
  assert (Hu : 0 <= E * z <= 7 / 1000). { split; [apply Rmult_le_pos; lra|]. assert (E * z <= 7 / 1000 * 1) by (apply Rmult_le_compat; lra). lra. }
  destruct (series_bound (E * z) Hu) as [B1 B2]. change ((1 - E) / (sqrt (1 - E * z) * (1 - E * z))) with ((1 - E) * / (sqrt (1 - E * z) * (1 - E * z))). set (S := / (sqrt (1 - E * z) * (1 - E * z))) in *. clearbody S.
  set (T := 1 + 3 / 2 * (E * z) + 15 / 8 * (E * z * (E * z)) + 35 / 16 * (E * z * (E * z) * (E * z))) in *.
  assert (Z3 : 0 <= z * z * z <= 1). { split; [apply Rmult_le_pos; [apply Rmult_le_pos|]; lra|]. assert (z * z <= 1 * 1) by (apply Rmult_le_compat; lra). assert (0 <= z * z) by (apply Rmult_le_pos; lra). assert (z * z * z <= 1 * 1) by (apply Rmult_le_compat; lra). lra. }
  assert (E4 : 0 <= E * E * E * E <= 7 / 1000 * (7 / 1000) * (7 / 1000) * (7 / 1000)).
  { assert (0 <= E * E) by (apply Rmult_le_pos; lra). assert (0 <= E * E * E) by (apply Rmult_le_pos; lra). split; [apply Rmult_le_pos; lra|]. repeat (apply Rmult_le_compat; try lra). }
  assert (K1 : 0 <= E * E * E * E * (z * z * z) <= E * E * E * E). { split; [apply Rmult_le_pos; lra|]. assert (E * E * E * E * (z * z * z) <= E * E * E * E * 1) by (apply Rmult_le_compat_l; lra). lra. }
  assert (K2 : 0 <= E * z * (E * z) * (E * z) * (E * z) <= 7 / 1000 * (7 / 1000) * (7 / 1000) * (7 / 1000)).
  { assert (0 <= E * z * (E * z)) by (apply Rmult_le_pos; lra). assert (0 <= E * z * (E * z) * (E * z)) by (apply Rmult_le_pos; lra). split; [apply Rmult_le_pos; lra|]. repeat (apply Rmult_le_compat; try lra). }
  assert (K3 : 0 <= (1 - E) * (S - T) <= 3 * (E * z * (E * z) * (E * z) * (E * z))).
  { split; [apply Rmult_le_pos; lra|]. assert ((1 - E) * (S - T) <= 1 * (3 * (E * z * (E * z) * (E * z) * (E * z)))) by (apply Rmult_le_compat; lra). lra. }
  match goal with |- Rabs ?x <= _ => replace x with (35 / 16 * (E * E * E * E * (z * z * z)) - (1 - E) * (S - T)) end.
  - apply Rabs_le. lra.
  - unfold T. field.
Qed.

(** The central meridian is a vertical line at the false easting, with the lengths of the meridian times the
    scale factor up to 10 nanometres for each metre; there the map is conformal to the same precision *)
Theorem C80_tm_meridian name use easting scale lat0 lon0 rot a b f : In (name, (a, b, f)) ellipse -> -90 <= lat0 <= 90 -> -180 <= lon0 <= 180 -> -360 <= rot <= 360 ->
  exists o p (m : R -> R), make_proj (KTransmerc use easting scale) name lat0 lon0 rot = Some (o, PTransmerc p) /\ m lat0 = 0 /\
    (forall lat, -90 <= lat <= 90 -> tm p lon0 lat = Some ((if use then easting else 0), scale * m lat)) /\
    (forall lat, exists r, is_derive m lat (r * D2R) /\ Rabs (r - rad_meridian a f (lat * D2R)) <= a / 10 ^ 8) /\
    (forall lat, -90 < lat < 90 -> is_derive (fun l => px (tm p l lat)) lon0 (scale * rad_parallel a f (lat * D2R) * D2R) /\ is_derive (fun l => py (tm p l lat)) lon0 0).
Proof.
  intros Hin H0 H1 H2. pose proof D2R_pos as DP. assert (Hn : In name (map fst ellipse)) by (apply (in_map fst) in Hin; exact Hin).
  apply C80_names in Hn as [e He]. pose proof (setup_good name e He) as G. destruct (setup_ecc _ _ _ _ _ He Hin) as [Ea Ee]. destruct G as (Ga & Ge & G2 & GB & G4 & G6).
  rewrite <- G2 in Ee. assert (E0 : 0 <= ECC2 e) by (rewrite G2; apply Rmult_le_pos; lra).
  set (p y0 := Transmerc e use easting scale lon0 y0 (ECC2 e / (1 - ECC2 e))
    (1 - 1 / 4 * ECC2 e - 3 * ECC4 e / 64 - 5 * ECC6 e / 256) (3 * ECC2 e / 8 + 3 * ECC4 e / 32 + 45 * ECC6 e / 1024) (15 * ECC4 e / 256 + 45 * ECC6 e / 1024) (35 * ECC6 e / 3072)
    (3 / 2 * ((1 - d_sqrt (1 - ECC2 e)) / (1 + d_sqrt (1 - ECC2 e))) - 27 * pow3 ((1 - d_sqrt (1 - ECC2 e)) / (1 + d_sqrt (1 - ECC2 e))) / 32)
    (21 * ((1 - d_sqrt (1 - ECC2 e)) / (1 + d_sqrt (1 - ECC2 e))) * ((1 - d_sqrt (1 - ECC2 e)) / (1 + d_sqrt (1 - ECC2 e))) / 16 - 55 * pow4 ((1 - d_sqrt (1 - ECC2 e)) / (1 + d_sqrt (1 - ECC2 e))) / 32)
    (151 * pow3 ((1 - d_sqrt (1 - ECC2 e)) / (1 + d_sqrt (1 - ECC2 e))) / 96) (1097 * pow4 ((1 - d_sqrt (1 - ECC2 e)) / (1 + d_sqrt (1 - ECC2 e))) / 512)).
  set (M l := EQ_RAD e * ((1 - 1 / 4 * ECC2 e - 3 * ECC4 e / 64 - 5 * ECC6 e / 256) * l - (3 * ECC2 e / 8 + 3 * ECC4 e / 32 + 45 * ECC6 e / 1024) * sin (2 * l)
     + (15 * ECC4 e / 256 + 45 * ECC6 e / 1024) * sin (4 * l) - 35 * ECC6 e / 3072 * sin (6 * l))).
  assert (EM : forall y0 l, tm_M (p y0) l = M l) by reflexivity.
  assert (D0 : tm_dlon lon0 lon0 = 0) by (rewrite tm_dlon_small; replace (lon0 - lon0) with 0 by ring; [reflexivity|rewrite Rabs_R0; lra]).
  assert (Bz : forall l, 0 < 1 - ECC2 e * (sin l * sin l)).
  { intros l. pose proof (sin2_cos2 l) as U. pose proof (Rle_0_sqr (cos l)) as C0. pose proof (Rle_0_sqr (sin l)) as S0. unfold Rsqr in *. assert (ECC2 e * (sin l * sin l) <= 7 / 1000 * 1) by (apply Rmult_le_compat; lra). lra. }
  assert (Dq : forall l, d_sqrt (1 - ECC2 e * (sin l * sin l)) = sqrt (1 - ECC2 e * (sin l * sin l))) by (intros l; unfold d_sqrt; specialize (Bz l); destruct (Rlt_dec _ _); [lra|reflexivity]).
  assert (Par : forall y0 lat, -90 < lat < 90 -> exists c3 c5 c2 c4 c6, forall lon, let A := tm_dlon lon0 lon * D2R * cos (lat * D2R) in let N := EQ_RAD e / sqrt (1 - ECC2 e * (sin (lat * D2R) * sin (lat * D2R))) in
     tm (p y0) lon lat = Some ((if use then easting else 0) + scale * N * (A + c3 * (A * A * A) + c5 * (A * A * A * (A * A))), scale * M (lat * D2R) - y0 + (c2 * (A * A) + c4 * (A * A * A * A) + c6 * (A * A * A * (A * A) * A)))).
  { intros y0 lat Hl. assert (I : inside (lat * D2R)) by (apply inside_deg; lra). pose proof (cos_pos _ I) as Cp. assert (Hpi : Rabs (lat * D2R) <> PI / 2).
    { destruct I. apply Rlt_not_eq. apply Rabs_def1; lra. }
    set (t := tan (lat * D2R)). set (C := ECC2 e / (1 - ECC2 e) * cos (lat * D2R) * cos (lat * D2R)). set (N := EQ_RAD e / sqrt (1 - ECC2 e * (sin (lat * D2R) * sin (lat * D2R)))).
    exists ((1 - t * t + C) * (16666666666666666667 / 10 ^ 20)), ((5 - 18 * (t * t) + t * t * (t * t) + 72 * C - 58 * (ECC2 e / (1 - ECC2 e))) * (833333333333333333 / 10 ^ 20)),
      (scale * (N * t * (1 / 2))), (scale * (N * t * ((5 - t * t + 9 * C + 4 * C * C) * (4166666666666666667 / 10 ^ 20)))), (scale * (N * t * ((61 - 58 * (t * t) + t * t * (t * t) + 600 * C - 330 * (ECC2 e / (1 - ECC2 e))) * (138888888888888889 / 10 ^ 20)))).
    intros lon A. cbv zeta. unfold tm. cbv zeta. rewrite EM. destruct (Req_EM_T _ _) as [K|_]; [contradiction|]. change (t_el (p y0)) with e. rewrite Dq.
    unfold div_. destruct (Req_EM_T _ 0) as [K|_]; [pose proof (sqrt_lt_R0 _ (Bz (lat * D2R))); lra|]. cbn [obind]. unfold tan_. destruct (Req_EM_T (cos _) 0) as [K|_]; [lra|]. cbn [obind fst snd].
    change (t_e2 (p y0)) with (ECC2 e / (1 - ECC2 e)). change (t_cm (p y0)) with lon0. change (t_scale (p y0)) with scale. change (t_use_easting (p y0)) with use. change (t_easting (p y0)) with easting. change (t_y0 (p y0)) with y0.
    fold t N A. fold C. generalize (16666666666666666667 / 10 ^ 20) (833333333333333333 / 10 ^ 20) (4166666666666666667 / 10 ^ 20) (138888888888888889 / 10 ^ 20). intros k3 k5 k4 k6.
    apply f_equal, f_equal2; [destruct use|]; ring. }
  assert (Mer : forall y0 lat, -90 <= lat <= 90 -> tm (p y0) lon0 lat = Some ((if use then easting else 0), scale * M (lat * D2R) - y0)).
  { intros y0 lat Hl. destruct (Req_EM_T (Rabs (lat * D2R)) (PI / 2)) as [K|K].
    - unfold tm. cbv zeta. destruct (Req_EM_T _ _) as [_|K']; [|contradiction]. cbn [obind fst snd]. rewrite EM. cbn [p t_use_easting t_easting t_scale t_y0]. apply f_equal, f_equal2; [destruct use; ring|reflexivity].
    - assert (Hl' : -90 < lat < 90). { assert (PI / 2 = 90 * D2R) as E9 by (unfold D2R; field). rewrite E9 in K. split; [destruct (Req_dec lat (-90)) as [->|]|destruct (Req_dec lat 90) as [->|]]; try lra; exfalso; apply K; [rewrite Rabs_left|rewrite Rabs_pos_eq]; lra. }
      destruct (Par y0 lat Hl') as (c3 & c5 & c2 & c4 & c6 & E). rewrite E. cbv zeta. rewrite D0. apply f_equal, f_equal2; ring. }
  exists (Origin lat0 lon0 rot), (p (scale * M (lat0 * D2R))), (fun lat => M (lat * D2R) - M (lat0 * D2R)). split; [|split; [|split; [|split]]].
  - unfold make_proj. rewrite check_ok by assumption. cbn [obind]. unfold vtm. rewrite He. cbn [obind].
    assert (P1 : 0 < 1 + d_sqrt (1 - ECC2 e)) by (unfold d_sqrt; destruct (Rlt_dec _ _); [lra|]; pose proof (sqrt_pos (1 - ECC2 e)); lra).
    unfold div_ at 1. destruct (Req_EM_T _ 0) as [K|_]; [lra|]. cbn [obind]. unfold div_ at 1. destruct (Req_EM_T _ 0) as [K|_]; [lra|]. cbn [obind]. cbv zeta.
    change (xy <- tm (p 0) lon0 lat0;; Some (p (snd xy))) with (xy <- tm (p 0) lon0 lat0;; Some (p (snd xy))).
    match goal with |- obind (obind (tm ?q _ _) ?k) _ = _ => change q with (p 0); change k with (fun xy : R * R => Some (p (snd xy))) end.
    rewrite (Mer 0 lat0 H0). cbn [obind snd]. rewrite Rminus_0_r. reflexivity.
  - ring.
  - intros lat Hl. rewrite (Mer _ lat Hl). apply f_equal, f_equal2; [reflexivity|ring].
  - intros lat. set (l := lat * D2R). exists (EQ_RAD e * ((1 - 1 / 4 * ECC2 e - 3 * ECC4 e / 64 - 5 * ECC6 e / 256) - 2 * (3 * ECC2 e / 8 + 3 * ECC4 e / 32 + 45 * ECC6 e / 1024) * cos (2 * l)
     + 4 * (15 * ECC4 e / 256 + 45 * ECC6 e / 1024) * cos (4 * l) - 6 * (35 * ECC6 e / 3072) * cos (6 * l))). split.
    + unfold M. generalize (1 - 1 / 4 * ECC2 e - 3 * ECC4 e / 64 - 5 * ECC6 e / 256) (3 * ECC2 e / 8 + 3 * ECC4 e / 32 + 45 * ECC6 e / 1024) (15 * ECC4 e / 256 + 45 * ECC6 e / 1024) (35 * ECC6 e / 3072). intros c1 c2 c3 c4.
      auto_derive; [exact Logic.I|]. fold l. ring.
    + rewrite G4, G6. unfold rad_meridian. rewrite <- Ea, <- Ee. pose proof (meridian_series (ECC2 e) l ltac:(lra)) as B. cbv beta.
      match goal with |- Rabs (EQ_RAD e * ?x - _) <= _ => set (X := x) in * end. match type of B with Rabs ?b <= _ => set (Y := b) in * end.
      replace (EQ_RAD e * X - EQ_RAD e * (1 - ECC2 e) / (sqrt (1 - ECC2 e * (sin l * sin l)) * (1 - ECC2 e * (sin l * sin l)))) with (EQ_RAD e * Y) by (unfold Y; try unfold X; unfold Rdiv; ring).
      rewrite Rabs_mult, (Rabs_pos_eq (EQ_RAD e)) by lra. replace (EQ_RAD e / 10 ^ 8) with (EQ_RAD e * (1 / 10 ^ 8)) by (unfold Rdiv; ring). apply Rmult_le_compat_l; lra.
  - intros lat Hl. destruct (Par (scale * M (lat0 * D2R)) lat Hl) as (c3 & c5 & c2 & c4 & c6 & E). cbv zeta in E.
    assert (Near : locally lon0 (fun m => tm_dlon lon0 m = m - lon0)).
    { exists (mkposreal 1 Rlt_0_1). intros x Hx. unfold ball in Hx; cbn in Hx. unfold AbsRing_ball, abs, minus, plus, opp in Hx; cbn in Hx. apply tm_dlon_small. unfold Rminus. lra. }
    unfold rad_parallel. rewrite <- Ea, <- Ee. set (l := lat * D2R) in *. set (N := EQ_RAD e / sqrt (1 - ECC2 e * (sin l * sin l))) in *.
    replace (EQ_RAD e * cos l / sqrt (1 - ECC2 e * (sin l * sin l))) with (N * cos l) by (unfold N, Rdiv; ring). clearbody N. set (q := cos l) in *. clearbody q.
    split.
    + apply (is_derive_ext_loc (fun m => (if use then easting else 0) + scale * N * ((m - lon0) * D2R * q + c3 * ((m - lon0) * D2R * q * ((m - lon0) * D2R * q) * ((m - lon0) * D2R * q)) + c5 * ((m - lon0) * D2R * q * ((m - lon0) * D2R * q) * ((m - lon0) * D2R * q) * ((m - lon0) * D2R * q * ((m - lon0) * D2R * q)))))).
      { revert Near. apply filter_imp. intros m Hm. rewrite E, Hm. reflexivity. }
      auto_derive; [exact Logic.I|]. ring.
    + apply (is_derive_ext_loc (fun m => scale * M l - scale * M (lat0 * D2R) + (c2 * ((m - lon0) * D2R * q * ((m - lon0) * D2R * q)) + c4 * ((m - lon0) * D2R * q * ((m - lon0) * D2R * q) * ((m - lon0) * D2R * q) * ((m - lon0) * D2R * q)) + c6 * ((m - lon0) * D2R * q * ((m - lon0) * D2R * q) * ((m - lon0) * D2R * q) * ((m - lon0) * D2R * q * ((m - lon0) * D2R * q)) * ((m - lon0) * D2R * q))))).
      { revert Near. apply filter_imp. intros m Hm. rewrite E, Hm. reflexivity. }
      generalize (scale * M l - scale * M (lat0 * D2R)). intros y. auto_derive; [exact Logic.I|]. ring.
Qed.
Print Assumptions C80_tm_meridian.
(** The parameters of a transform that was made *)
Lemma made_tm name use easting scale lat0 lon0 rot a b f : In (name, (a, b, f)) ellipse -> -90 <= lat0 <= 90 -> -180 <= lon0 <= 180 -> -360 <= rot <= 360 ->
  exists e p, make_proj (KTransmerc use easting scale) name lat0 lon0 rot = Some (Origin lat0 lon0 rot, PTransmerc p) /\ good e /\ EQ_RAD e = a /\ ECC2 e = ecc2 f /\
    t_el p = e /\ t_use_easting p = use /\ t_easting p = easting /\ t_scale p = scale /\ t_cm p = lon0 /\ t_c1 p = 1 - 1 / 4 * ECC2 e - 3 * ECC4 e / 64 - 5 * ECC6 e / 256 /\
    (f = 0 -> t_c2 p = 0 /\ t_c3 p = 0 /\ t_c4 p = 0 /\ t_ic1 p = 0 /\ t_ic2 p = 0 /\ t_ic3 p = 0 /\ t_ic4 p = 0).
Proof.
  intros Hin H0 H1 H2. assert (Hn : In name (map fst ellipse)) by (apply (in_map fst) in Hin; exact Hin).
  destruct (C80_tm_meridian name use easting scale lat0 lon0 rot a b f Hin H0 H1 H2) as (o & p & _ & Em & _).
  apply C80_names in Hn as [e He]. pose proof (setup_good name e He) as G. destruct (setup_ecc _ _ _ _ _ He Hin) as [Ea Ee]. exists e, p.
  unfold make_proj in Em |- *. rewrite check_ok in Em |- * by assumption. cbn [obind] in Em |- *. unfold vtm in Em |- *. rewrite He in Em |- *. cbn [obind] in Em |- *.
  destruct (div_ (1 - _) _) as [e1|] eqn:E1; [|discriminate]. cbn [obind] in Em |- *. destruct (div_ (ECC2 e) _) as [e2|]; [|discriminate]. cbn [obind] in Em |- *. cbv zeta in Em |- *.
  destruct (tm _ lon0 lat0) as [xy|]; [|discriminate]. cbn [obind] in Em |- *. injection Em as <- Ep. rewrite Ep. split; [reflexivity|]. rewrite <- Ep. destruct G as (Ga & Ge & G2 & GB & G4 & G6).
  split; [unfold good; tauto|]. split; [exact Ea|]. split; [rewrite G2; exact Ee|]. do 6 (split; [reflexivity|]). intros ->.
  assert (Z2 : ECC2 e = 0) by (rewrite G2, Ee; unfold ecc2; ring). assert (Z1 : e1 = 0).
  { unfold div_ in E1. destruct (Req_EM_T _ 0); [discriminate|]. injection E1 as <-. rewrite Z2. unfold d_sqrt. destruct (Rlt_dec _ 0); [lra|]. rewrite Rminus_0_r, sqrt_1. field. }
  cbn [t_c2 t_c3 t_c4 t_ic1 t_ic2 t_ic3 t_ic4]. rewrite G4, G6, Z2, Z1. unfold pow3, pow4, Rdiv. split; [ring|]. split; [ring|]. split; [ring|]. split; [ring|]. split; [ring|]. split; ring.
Qed.
(** Of the inverse: whatever latitude is found on the central meridian, a small step aside of it is divided by the
    length of its parallel and by the scale factor, and does not change the latitude *)
Theorem C80_tm_back_near name use easting scale lat0 lon0 rot a b f y lat : In (name, (a, b, f)) ellipse -> -90 <= lat0 <= 90 -> -180 <= lon0 <= 180 -> -360 <= rot <= 360 ->
  exists o p, make_proj (KTransmerc use easting scale) name lat0 lon0 rot = Some (o, PTransmerc p) /\
    let c := if use then easting else 0 in
    (itm p c y = Some (lon0, lat) -> is_derive (fun x => px (itm p x y)) c (/ (scale * rad_parallel a f (lat * D2R) * D2R)) /\ is_derive (fun x => py (itm p x y)) c 0).
Proof.
  intros Hin H0 H1 H2. destruct (made_tm name use easting scale lat0 lon0 rot a b f Hin H0 H1 H2) as (e & p & Em & G & Ea & Ee & T1 & T2 & T3 & T4 & T5 & T6 & _).
  exists (Origin lat0 lon0 rot), p. split; [exact Em|]. cbv zeta. set (c := if use then easting else 0). unfold itm. cbv zeta. rewrite T1, T2, T3, T4, T5.
  generalize (16666666666666666667 / 10 ^ 20) (833333333333333333 / 10 ^ 20) (4166666666666666667 / 10 ^ 20) (138888888888888889 / 10 ^ 20). intros c3 c5 c4 c6.
  destruct (div_ (y + _) _) as [M|]; [|discriminate]. cbn [obind]. destruct (div_ M _) as [mu|]; [|discriminate]. cbn [obind].
  set (phi1 := mu + _ + _ + _ + _). clearbody phi1. unfold tan_. destruct (Req_EM_T (cos phi1) 0) as [|Hc]; [discriminate|]. cbn [obind]. set (t := tan phi1). clearbody t.
  assert (Es : 1 - ECC2 e * (1 - cos phi1 * cos phi1) = 1 - ecc2 f * (sin phi1 * sin phi1)) by (pose proof (sin2_cos2 phi1) as U; unfold Rsqr in U; rewrite <- Ee; replace (sin phi1 * sin phi1) with (1 - cos phi1 * cos phi1) by lra; reflexivity).
  rewrite Es. set (tmp := 1 - ecc2 f * _) in *. try unfold div_. destruct (Req_EM_T (d_sqrt tmp) 0) as [|Hq]; [discriminate|]. cbn [obind]. try unfold div_. destruct (Req_EM_T (tmp * d_sqrt tmp) 0) as [|Hq2]; [discriminate|]. cbn [obind].
  assert (Q : d_sqrt tmp = sqrt tmp) by (unfold d_sqrt in Hq |- *; destruct (Rlt_dec tmp 0); [lra|reflexivity]). rewrite Q in *.
  set (R1 := EQ_RAD e * _ / _) in *. clearbody R1. set (N1 := EQ_RAD e / sqrt tmp) in *. try unfold div_. destruct (Req_EM_T (N1 * scale) 0) as [|Hn]; [discriminate|]. cbn [obind].
  destruct (Req_EM_T (cos phi1) 0) as [|_]; [contradiction|]. cbn [obind]. destruct (Req_EM_T R1 0) as [|Hr]; [discriminate|]. cbn [obind].
  replace (if use then c - easting else c) with 0 by (unfold c; destruct use; ring). intros H.
  assert (El : lat * D2R = phi1).
  { match type of H with Some (_, ?v * R2D) = _ => assert (Ev : lat = v * R2D) by congruence; replace v with phi1 in Ev by (unfold Rdiv; ring) end. rewrite Ev. unfold R2D, D2R. field. apply Rgt_not_eq, PI_RGT_0. }
  clear H. rewrite El. assert (Rp : rad_parallel a f phi1 = N1 * cos phi1) by (unfold rad_parallel, N1; fold tmp; rewrite <- Ea; unfold Rdiv; ring).
  rewrite Rp. clearbody N1. set (q := cos phi1) in *. assert (Hs : N1 <> 0 /\ scale <> 0) by (split; intros K; apply Hn; rewrite K; ring). destruct Hs as [Hs1 Hs2].
  cbn [px py].
  set (C := t_e2 p * q * q). set (e2 := t_e2 p). assert (Ex : forall x, (if use then x - easting else x) = x - c) by (intros x; unfold c; destruct use; ring).
  split.
  - apply (is_derive_ext (fun x => lon0 + R2D * ((x - c) / (N1 * scale) - (1 + 2 * (t * t) + C) * ((x - c) / (N1 * scale) * ((x - c) / (N1 * scale)) * ((x - c) / (N1 * scale)) * c3) +
       (5 - 2 * C + 28 * (t * t) - 3 * (C * C) + 8 * e2 + 24 * (t * t * (t * t))) * ((x - c) / (N1 * scale) * ((x - c) / (N1 * scale)) * ((x - c) / (N1 * scale)) * ((x - c) / (N1 * scale) * ((x - c) / (N1 * scale))) * c5)) / q)).
    { intros x. rewrite Ex. reflexivity. }
    auto_derive; [exact Logic.I|]. unfold R2D, D2R. field. split; [apply Rgt_not_eq, PI_RGT_0|]. tauto.
  - apply (is_derive_ext (fun x => (phi1 - N1 * t / R1 * (1 / 2 * ((x - c) / (N1 * scale) * ((x - c) / (N1 * scale))) - (5 + 3 * (t * t) + 10 * C - 4 * (C * C) - 9 * e2) * ((x - c) / (N1 * scale) * ((x - c) / (N1 * scale)) * ((x - c) / (N1 * scale)) * ((x - c) / (N1 * scale)) * c4) +
       (61 + 90 * (t * t) + 298 * C + 45 * (t * t * (t * t)) - 252 * e2 - 3 * (C * C)) * ((x - c) / (N1 * scale) * ((x - c) / (N1 * scale)) * ((x - c) / (N1 * scale)) * ((x - c) / (N1 * scale) * ((x - c) / (N1 * scale))) * ((x - c) / (N1 * scale)) * c6))) * R2D)).
    { intros x. rewrite Ex. reflexivity. }
    auto_derive; [exact Logic.I|]. unfold Rdiv. ring.
Qed.
Print Assumptions C80_tm_back_near.
(** On the sphere the central meridian comes back exactly *)
Theorem C80_tm_sphere_back use easting scale lat0 lon0 rot lat : scale <> 0 -> -90 <= lat0 <= 90 -> -180 <= lon0 <= 180 -> -360 <= rot <= 360 -> -90 < lat < 90 ->
  exists o p x y, make_proj (KTransmerc use easting scale) "Sphere" lat0 lon0 rot = Some (o, PTransmerc p) /\ tm p lon0 lat = Some (x, y) /\ itm p x y = Some (lon0, lat).
Proof.
  intros Hs H0 H1 H2 Hl. assert (Hin : exists a b, In ("Sphere"%string, (a, b, 0)) ellipse) by (do 2 eexists; unfold ellipse; cbn [In]; do 12 right; left; reflexivity).
  destruct Hin as (a & b & Hin). destruct (C80_tm_meridian "Sphere" use easting scale lat0 lon0 rot a b 0 Hin H0 H1 H2) as (o & p & m & Em & _ & Mer & _).
  destruct (made_tm "Sphere" use easting scale lat0 lon0 rot a b 0 Hin H0 H1 H2) as (e & p' & Em' & G & Ea & Ee & T1 & T2 & T3 & T4 & T5 & T6 & Z).
  rewrite Em in Em'. injection Em' as _ <-. destruct (Z eq_refl) as (Z2 & Z3 & Z4 & I1 & I2 & I3 & I4). assert (E0 : ECC2 e = 0) by (rewrite Ee; unfold ecc2; ring). destruct G as (Ga & _ & _ & _ & G4 & G6).
  pose proof (Mer lat ltac:(lra)) as E. exists o, p, (if use then easting else 0), (scale * m lat). split; [exact Em|]. split; [exact E|].
  assert (Ey : scale * m lat = scale * (EQ_RAD e * (lat * D2R)) - t_y0 p).
  { unfold tm in E. cbv zeta in E. rewrite T1, T5 in E. assert (D0 : tm_dlon lon0 lon0 = 0) by (rewrite tm_dlon_small; replace (lon0 - lon0) with 0 by ring; [reflexivity|rewrite Rabs_R0; lra]). rewrite D0 in E.
    assert (EM : tm_M p (lat * D2R) = EQ_RAD e * (lat * D2R)) by (unfold tm_M; rewrite T1, Z2, Z3, Z4, T6, G4, G6, E0; unfold Rdiv; ring). rewrite EM in E.
    revert E. generalize (4166666666666666667 / 10 ^ 20) (138888888888888889 / 10 ^ 20) (16666666666666666667 / 10 ^ 20) (833333333333333333 / 10 ^ 20). intros c4 c6 c3 c5.
    destruct (Req_EM_T _ _); [|destruct (div_ _ _); [|discriminate]; cbn [obind]; destruct (tan_ _); [|discriminate]]; cbn [obind fst snd]; rewrite T4; intros E; injection E as _ <-; ring. }
  rewrite Ey. unfold itm. cbv zeta. replace (scale * (EQ_RAD e * (lat * D2R)) - t_y0 p + t_y0 p) with (scale * (EQ_RAD e * (lat * D2R))) by ring. rewrite T1, T2, T3, T4, T5, I1, I2, I3, I4, T6, G4, G6, E0.
  generalize (16666666666666666667 / 10 ^ 20) (833333333333333333 / 10 ^ 20) (4166666666666666667 / 10 ^ 20) (138888888888888889 / 10 ^ 20). intros c3 c5 c4 c6.
  unfold div_ at 1. destruct (Req_EM_T scale 0) as [|_]; [contradiction|]. cbn [obind]. replace (1 - 1 / 4 * 0 - 3 * (0 * 0) / 64 - 5 * (0 * 0 * 0) / 256) with 1 by field. rewrite Rmult_1_r.
  unfold div_ at 1. destruct (Req_EM_T (EQ_RAD e) 0) as [|_]; [lra|]. cbn [obind]. replace (scale * (EQ_RAD e * (lat * D2R)) / scale / EQ_RAD e) with (lat * D2R) by (field; lra).
  replace (lat * D2R + 0 * _ + 0 * _ + 0 * _ + 0 * _) with (lat * D2R) by ring.
  assert (I : inside (lat * D2R)) by (apply inside_deg; lra). pose proof (cos_pos _ I) as Cp. unfold tan_. destruct (Req_EM_T (cos _) 0) as [|_]; [lra|]. cbn [obind].
  replace (1 - 0 * _) with 1 by ring. assert (Q : d_sqrt 1 = 1) by (unfold d_sqrt; destruct (Rlt_dec 1 0); [lra|apply sqrt_1]). rewrite Q.
  replace (if use then (if use then easting else 0) - easting else if use then easting else 0) with 0 by (destruct use; ring).
  rewrite !Rminus_0_r, !Rmult_1_r.
  unfold div_. destruct (Req_EM_T 1 0) as [|_]; [lra|]. cbn [obind]. destruct (Req_EM_T (EQ_RAD e / 1 * scale) 0) as [K|_]; [exfalso; apply Rmult_integral in K; lra|]. cbn [obind]. destruct (Req_EM_T (cos _) 0) as [|_]; [lra|]. cbn [obind].
  destruct (Req_EM_T (EQ_RAD e / 1) 0) as [|_]; [lra|]. cbn [obind]. apply f_equal, f_equal2; [unfold Rdiv; ring|]. unfold R2D, D2R. field. pose proof PI_RGT_0. repeat split; lra.
Qed.
Print Assumptions C80_tm_sphere_back.

(** ** Cases that meet the hypotheses *)
Example switzerland : lambert_header "WGS-84" (465 / 10) (825 / 100) 30 45 48 /\ off_pole 46 /\ within 90 (825 / 100) 7.
Proof. split; [split; try lra; cbn; tauto|]. split; [unfold off_pole; lra|]. exists 0%Z. rewrite Rabs_le_between'. lra. Qed.
Example southern : lambert_header "International" (-30) 170 0 (-25) (-35) /\ off_pole (-28) /\ within 90 170 (-175).
Proof. split; [split; try lra; cbn; tauto|]. split; [unfold off_pole; lra|]. exists (-1)%Z. apply Rabs_le. lra. Qed.
Example quarter : ~ opposite 0 0 0 90 /\ ~ same_place 0 0 0 90 /\ angular_distance 0 0 0 90 = PI / 2.
Proof.
  assert (S : ~ same_place 0 0 0 90) by (intros (_ & K); rewrite degToRad_D2R in K; apply Rabs_def2 in K; pose proof PI2_1; unfold D2R in K; lra).
  assert (C : cos (degToRad 0) = 1 /\ sin (degToRad 0) = 0 /\ cos (degToRad 90) = 0) by (rewrite !degToRad_D2R, Rmult_0_l, cos_0, sin_0; replace (90 * D2R) with (PI / 2) by (unfold D2R; field); rewrite cos_PI2; tauto). destruct C as (C1 & C2 & C3).
  assert (E : dot (unit_vec 0 0) (unit_vec 0 90) = 0) by (unfold dot, unit_vec; rewrite C1, C2, C3; ring).
  split; [unfold opposite; rewrite E; lra|]. split; [exact S|]. destruct (C23_great_circle 0 0 0 90) as [B D]; [unfold valid_lat; lra|unfold valid_lat; lra|exact S|]. rewrite E in D. apply cos_inj; [lra|pose proof PI_RGT_0; lra|rewrite D, cos_PI2; reflexivity].
Qed.
Example utm_row : In ("WGS-84"%string, (6378137, 63567521 / 10, 1 / (298254 / 1000))) ellipse.
Proof. unfold ellipse. cbn [In]. left. reflexivity. Qed.
