(** C92: the values of a grid between its nodes in double precision. *)
From Coq Require Import ZArith Reals Lra Psatz.
From Flocq Require Import Core BinarySingleNaN Relative.
From stdpp Require Import numbers list.
From Verif Require Import GridFile_Model GridCell_Model GridCell_Props Double_Model Double_Props XCorrD_Model XCorrD_Props GridD_Model.
Local Open Scope R_scope.
Local Instance p53 : Prec_gt_0 53 := prec53.
Local Instance flt_valid : Valid_exp (FLT_exp (-1074) 53) := FLT_exp_valid (-1074) 53.
Local Instance flt_mono : Monotone_exp (FLT_exp (-1074) 53) := FLT_exp_monotone (-1074) 53.

(** * Specification *)
Definition pos (n : N) : R := IZR (Z.of_N n).
(** An axis with a positive step, not more than 2^40 nodes and not further than 2^40 steps from 0 *)
Record good_axis (a : daxis) (o h : R) : Prop := {
  ga_orig : val (n_orig a) o; ga_step : val (n_step a) h;
  ga_num : (2 ≤ n_num a ≤ 2 ^ 40)%N; ga_size : b2 (-500) <= h <= b2 500; ga_far : Rabs o <= b2 40 * h }.
(** The exact position of the last node *)
Definition last_node (a : daxis) (o h : R) : R := o + (pos (n_num a) - 1) * h.

(** * Proofs *)
Lemma err x : Rabs (rnd x - x) <= u * Rabs x + b2 (-1075).
Proof.
  destruct (error_N_FLT radix2 (-1074) 53 ltac:(lia) (λ x, negb (Z.even x)) x) as (eps & eta & H1 & H2 & _ & E).
  rewrite E. replace (x * (1 + eps) + eta - x) with (x * eps + eta) by ring.
  eapply Rle_trans; [apply Rabs_triang|]. rewrite Rabs_mult. apply Rplus_le_compat.
  - rewrite Rmult_comm. apply Rmult_le_compat_r; [apply Rabs_pos|]. eapply Rle_trans; [exact H1|]. unfold u. simpl. lra.
  - eapply Rle_trans; [exact H2|]. change (-1075)%Z with (-1 + -1074)%Z. rewrite bpow_plus. apply Req_le. f_equal.
Qed.
Lemma rnd_format x : generic_format radix2 (FLT_exp (-1074) 53) x → rnd x = x.
Proof. intros H. apply round_generic; [apply valid_rnd_N|exact H]. Qed.
Lemma val_format x r : val x r → generic_format radix2 (FLT_exp (-1074) 53) r.
Proof. intros [_ <-]. apply (generic_format_B2R 53 1024). Qed.
Lemma format_minus x k : generic_format radix2 (FLT_exp (-1074) 53) x → (0 ≤ k)%Z → IZR k <= x → x < b2 52 →
  generic_format radix2 (FLT_exp (-1074) 53) (x - IZR k).
Proof.
  intros H Hk Hle Hlt. apply FLT_format_generic in H as [f E Hn He]; [|apply prec53]. destruct f as [m e]. cbn in *.
  destruct (Z_le_gt_dec 0 e) as [He0|He0].
  - assert (x = IZR (m * 2 ^ e)) as Ex.
    { rewrite E. unfold F2R. cbn [Fnum Fexp]. rewrite mult_IZR. f_equal. rewrite <- IZR_Zpower by lia. reflexivity. }
    apply generic_format_FLT. exists (Float radix2 (m * 2 ^ e - k) 0); [|cbn|cbn; lia].
    + unfold F2R. cbn. rewrite Ex, minus_IZR. ring.
    + rewrite Ex in Hle, Hlt. apply le_IZR in Hle. change (b2 52) with (IZR (2 ^ 52)) in Hlt. apply lt_IZR in Hlt.
      change (Z.pow_pos 2 53) with (2 ^ 53)%Z. lia.
  - apply generic_format_FLT. exists (Float radix2 (m - k * 2 ^ (- e)) e); [|cbn|cbn; lia].
    + rewrite E. unfold F2R. cbn [Fnum Fexp]. rewrite minus_IZR, mult_IZR.
      assert (IZR (2 ^ (- e)) * b2 e = 1) as K.
      { change 2%Z with (radix_val radix2). rewrite IZR_Zpower by lia. rewrite <- bpow_plus. replace (- e + e)%Z with 0%Z by lia. reflexivity. }
      rewrite Rmult_minus_distr_r, Rmult_assoc, K. ring.
    + assert (0 <= IZR (m - k * 2 ^ (- e))) as Hp.
      { rewrite minus_IZR, mult_IZR. assert (IZR k * IZR (2 ^ (- e)) <= IZR m); [|lra].
        assert (IZR m = x * IZR (2 ^ (- e))) as ->.
        { rewrite E. unfold F2R. cbn [Fnum Fexp]. change 2%Z with (radix_val radix2). rewrite IZR_Zpower by lia. rewrite Rmult_assoc, <- bpow_plus.
          replace (e + - e)%Z with 0%Z by lia. cbn. ring. }
        apply Rmult_le_compat_r; [|exact Hle]. apply IZR_le. lia. }
      apply le_IZR in Hp. assert (0 <= k * 2 ^ (- e))%Z by (apply Z.mul_nonneg_nonneg; lia). lia.
Qed.
Lemma Rlt_bool_false_le x y : Rlt_bool x y = false → y <= x.
Proof. intros H. destruct (Rlt_bool_spec x y); [done|done]. Qed.
Lemma ltb_val x y a b : val x a → val y b → Bltb x y = Rlt_bool a b.
Proof. intros [Fx <-] [Fy <-]. by apply (Bltb_correct 53 1024). Qed.
Lemma u_pos : 0 < u <= / 1000000000000000.
Proof. unfold u. lra. Qed.
Lemma tiny : 0 < b2 (-1075) <= b2 (-1000).
Proof. split; [apply bpow_gt_0|apply bpow_le; lia]. Qed.

Section axis.
Variables (a : daxis) (o h : R).
Hypothesis Hg : good_axis a o h.
Let M := pos (n_num a) - 1.
Lemma M_range : 1 <= M <= b2 40 ∧ pred64 (n_num a) = (n_num a - 1)%N ∧ pos (n_num a - 1) = M.
Proof using Hg.
  destruct (ga_num _ _ _ Hg) as [H1 H2]. unfold M, pos. split; [split|split].
  - assert (IZR 2 <= IZR (Z.of_N (n_num a))) by (apply IZR_le; lia). lra.
  - assert (IZR (Z.of_N (n_num a)) <= IZR (2 ^ 40)) by (apply IZR_le; lia). change (b2 40) with (IZR (2 ^ 40)). lra.
  - apply pred64_pos. lia.
  - rewrite N2Z.inj_sub by lia. rewrite minus_IZR. done.
Qed.
Lemma h_pos : 0 < h.
Proof using Hg. destruct (ga_size _ _ _ Hg) as [H _]. pose proof (bpow_gt_0 radix2 (-500)). lra. Qed.
(** the computed end of the axis *)
Lemma d_max_val : ∃ m, val (d_max a) m ∧ Rabs (m - last_node a o h) <= 3 * u * (Rabs o + M * h) ∧ m = rnd (o + rnd (M * h)).
Proof using Hg.
  destruct M_range as ([M1 M2] & Ep & EM). pose proof h_pos as Hh. destruct (ga_size _ _ _ Hg) as [S1 S2].
  pose proof u_pos as U. pose proof tiny as T.
  assert (val (of_Z (Z.of_N (pred64 (n_num a)))) M) as VM.
  { rewrite Ep, <- EM. apply of_Z_val. destruct (ga_num _ _ _ Hg). lia. }
  assert (0 < M * h <= b2 540) as Hb.
  { split; [nra|]. change 540%Z with (40 + 500)%Z. rewrite bpow_plus. apply Rmult_le_compat; lra. }
  assert (b2 540 <= b2 999 ∧ b2 1000 = 2 * b2 999) as [B1 B2].
  { split; [apply bpow_le; lia|]. change 1000%Z with (1 + 999)%Z. by rewrite bpow_plus. }
  assert (h >= b2 (-500) ∧ b2 (-1075) <= u * b2 (-500)) as [_ Tiny].
  { split; [lra|]. assert (u = b2 (-53)) as -> by (unfold u; simpl; lra). rewrite <- bpow_plus. apply bpow_le. lia. }
  pose proof (mul_val _ _ _ _ VM (ga_step _ _ _ Hg) ltac:(rewrite Rabs_right; lra)) as V1.
  pose proof (err (M * h)) as E1. rewrite (Rabs_right (M * h)) in E1 by lra.
  assert (b2 (-1075) <= u * (M * h)) as T1. { eapply Rle_trans; [exact Tiny|]. apply Rmult_le_compat_l; [lra|]. nra. }
  (* the product of normal numbers: use the relative error *)
  pose proof (rel (M * h) ltac:(right; rewrite Rabs_right by lra; eapply Rle_trans; [apply (bpow_le radix2 _ (-500)); lia|nra])) as R1.
  rewrite (Rabs_right (M * h)) in R1 by lra. set (p := rnd (M * h)) in *.
  assert (Rabs p <= M * h * (1 + u)) as Ap.
  { replace p with ((p - M * h) + M * h) by ring. eapply Rle_trans; [apply Rabs_triang|]. rewrite (Rabs_right (M * h)) by lra. lra. }
  assert (Rabs o <= b2 540) as Ho.
  { eapply Rle_trans; [apply (ga_far _ _ _ Hg)|]. change 540%Z with (40 + 500)%Z. rewrite bpow_plus. apply Rmult_le_compat_l; [apply bpow_ge_0|lra]. }
  assert (Rabs (o + p) <= Rabs o + M * h * (1 + u)) as As by (eapply Rle_trans; [apply Rabs_triang|lra]).
  pose proof (add_val _ _ _ _ (ga_orig _ _ _ Hg) V1) as V2. fold p in V2.
  assert (M * h * (1 + u) <= 2 * (M * h)) as K2 by nra.
  assert (Rabs (o + p) <= b2 1000) as K3.
  { assert (b2 540 <= b2 900) by (apply bpow_le; lia). assert (4 * b2 900 <= b2 1000).
    { replace 1000%Z with (100 + 900)%Z by lia. rewrite bpow_plus. apply Rmult_le_compat_r; [apply bpow_ge_0|]. change 4 with (b2 2). apply bpow_le. lia. }
    lra. }
  specialize (V2 K3). exists (rnd (o + p)). split; [exact V2|]. split; [|reflexivity].
  pose proof (err (o + p)) as E2. unfold last_node. fold M.
  replace (rnd (o + p) - (o + M * h)) with ((rnd (o + p) - (o + p)) + (p - M * h)) by ring.
  eapply Rle_trans; [apply Rabs_triang|].
  assert (u * Rabs (o + p) <= u * (Rabs o + M * h * (1 + u))) as K4 by (apply Rmult_le_compat_l; lra).
  assert (b2 (-1075) <= u * u * (M * h)) as T2.
  { assert (u * u = b2 (-106)) as -> by (unfold u; simpl; lra). eapply Rle_trans; [|apply Rmult_le_compat_l; [apply bpow_ge_0|]; apply Rle_trans with (1 * h); [rewrite Rmult_1_l; exact S1|apply Rmult_le_compat_r; lra]].
    rewrite <- bpow_plus. apply bpow_le. lia. }
  assert (0 <= Rabs o) by apply Rabs_pos. assert (u * u <= u * / 1000) as K5 by nra. nra.
Qed.

(** C92: a location is inside the axis up to rounding of its last node. *)
Theorem C92_outside l L : val l L →
  (doutside a l = true → L < o ∨ last_node a o h - 3 * u * (Rabs o + M * h) < L) ∧
  (doutside a l = false → o <= L <= last_node a o h + 3 * u * (Rabs o + M * h)).
Proof using Hg.
  intros Hl. destruct d_max_val as (m & Vm & Em & _). apply Rabs_le_inv in Em. unfold doutside, d_min.
  rewrite (ltb_val _ _ _ _ Hl (ga_orig _ _ _ Hg)), (ltb_val _ _ _ _ Vm Hl).
  split; intros H.
  - apply orb_true_iff in H as [H|H].
    + left. by destruct (Rlt_bool_spec L o).
    + right. destruct (Rlt_bool_spec m L) as [K|K]; [lra|done].
  - apply orb_false_iff in H as [H1%Rlt_bool_false_le H2%Rlt_bool_false_le]. lra.
Qed.
Lemma u_b2 : u = b2 (-53).
Proof. unfold u. simpl. lra. Qed.
(** how far a location inside is from the first node, in steps *)
Lemma steps l L : val l L → doutside a l = false → 0 <= (L - o) / h <= M + / 1000.
Proof using Hg.
  intros Hl H. apply (proj2 (C92_outside l L Hl)) in H as [H1 H2]. destruct M_range as ([M1 M2] & _). pose proof h_pos as Hh.
  split; [apply Rmult_le_pos; [lra|left; by apply Rinv_0_lt_compat]|].
  apply (Rmult_le_reg_r h); [exact Hh|]. replace ((L - o) / h * h) with (L - o) by (field; lra). unfold last_node in H2. fold M in H2.
  pose proof (ga_far _ _ _ Hg) as Ho.
  assert (3 * u * (Rabs o + M * h) <= / 1000 * h); [|lra].
  assert (Rabs o + M * h <= b2 41 * h) as K.
  { change 41%Z with (1 + 40)%Z. rewrite bpow_plus. change (b2 1) with 2. nra. }
  apply Rle_trans with (3 * u * (b2 41 * h)); [apply Rmult_le_compat_l; [|exact K]; pose proof u_pos; lra|].
  replace (3 * u * (b2 41 * h)) with (3 * (u * b2 41) * h) by ring. apply Rmult_le_compat_r; [lra|].
  rewrite u_b2, <- bpow_plus. change (-53 + 41)%Z with (-12)%Z. simpl. lra.
Qed.
Lemma offset l L : val l L → doutside a l = false →
  ∃ q, val (ddiv (dsub l (n_orig a)) (n_step a)) q ∧ 0 <= q ∧ Rabs (q - (L - o) / h) <= 3 * u * pos (n_num a).
Proof using Hg.
  intros Hl H. pose proof (steps l L Hl H) as [W1 W2]. destruct M_range as ([M1 M2] & _). pose proof h_pos as Hh.
  destruct (ga_size _ _ _ Hg) as [S1 S2]. pose proof u_pos as U.
  set (w := (L - o) / h) in *. assert (L - o = w * h) as Ew by (unfold w; field; lra).
  assert (0 <= w * h <= b2 541) as Hb.
  { split; [nra|]. change 541%Z with (1 + 40 + 500)%Z. rewrite !bpow_plus. change (b2 1) with 2. apply Rmult_le_compat; lra. }
  assert (b2 541 <= b2 1000) as B1 by (apply bpow_le; lia).
  pose proof (sub_val _ _ _ _ Hl (ga_orig _ _ _ Hg) ltac:(rewrite Ew, Rabs_right; lra)) as V1. rewrite Ew in V1.
  pose proof (err (w * h)) as E1. rewrite (Rabs_right (w * h)) in E1 by lra. pose proof (rnd_pos (w * h) ltac:(lra)) as P1.
  set (x := rnd (w * h)) in *.
  assert (b2 (-1075) <= b2 (-575) * h) as T1.
  { change (-1075)%Z with (-575 + -500)%Z. rewrite bpow_plus. apply Rmult_le_compat_l; [apply bpow_ge_0|exact S1]. }
  assert (0 <= x / h) as Q0 by (apply Rmult_le_pos; [exact P1|left; by apply Rinv_0_lt_compat]).
  assert (Rabs (x / h - w) <= u * w + b2 (-575)) as E2.
  { replace (x / h - w) with ((x - w * h) / h) by (field; lra). unfold Rdiv. rewrite Rabs_mult, (Rabs_right (/ h)) by (left; by apply Rinv_0_lt_compat).
    apply (Rmult_le_reg_r h); [exact Hh|]. rewrite Rmult_assoc, Rinv_l by lra. rewrite Rmult_1_r, Rmult_plus_distr_r. lra. }
  assert (b2 (-575) <= / 1000000 ∧ b2 (-1075) <= b2 (-575)) as [T2 T3].
  { split; [|apply bpow_le; lia]. eapply Rle_trans; [apply (bpow_le radix2 _ (-20)); lia|]. simpl. lra. }
  apply Rabs_le_inv in E2 as E2'.
  assert (x / h <= b2 42) as Q1.
  { assert (b2 42 = 4 * b2 40) as -> by (change 42%Z with (2 + 40)%Z; by rewrite bpow_plus). nra. }
  pose proof (div_val _ _ _ _ V1 (ga_step _ _ _ Hg) ltac:(lra)) as V2. rewrite Rabs_right in V2 by lra.
  specialize (V2 ltac:(eapply Rle_trans; [exact Q1|apply bpow_le; lia])).
  exists (rnd (x / h)). split; [exact V2|]. split; [by apply rnd_pos|].
  pose proof (err (x / h)) as E3. rewrite (Rabs_right (x / h)) in E3 by lra.
  replace (rnd (x / h) - w) with ((rnd (x / h) - x / h) + (x / h - w)) by ring. eapply Rle_trans; [apply Rabs_triang|].
  replace (pos (n_num a)) with (M + 1) by (unfold M; ring).
  assert (u * (x / h) <= u * (w + u * w + b2 (-575))) as K1 by (apply Rmult_le_compat_l; lra).
  assert (b2 (-575) <= u * / 1000) as K2.
  { rewrite u_b2. apply Rle_trans with (b2 (-53) * b2 (-10)); [rewrite <- bpow_plus; apply bpow_le; lia|]. apply Rmult_le_compat_l; [apply bpow_ge_0|]. simpl. lra. }
  assert (u * w <= u * (M + / 1000)) as K3 by (apply Rmult_le_compat_l; lra).
  assert (0 <= u * w) by nra. assert (u * (u * w) <= / 1000 * (u * w)) by nra. nra.
Qed.
(** C92: a location inside is between two neighbouring nodes of the axis, and its position between
    them is as exact as the number of nodes allows. *)
Theorem C92_cell l L : val l L → doutside a l = false →
  ∃ i d D, dcell a l = Some (i, (i + 1)%N, d) ∧ (i + 1 < n_num a)%N ∧ val d D ∧ 0 <= D <= 1 + / 500 ∧
    Rabs (pos i + D - (L - o) / h) <= 3 * u * pos (n_num a).
Proof using Hg.
  intros Hl H. pose proof (steps l L Hl H) as [W1 W2]. destruct M_range as ([M1 M2] & Ep & EM). destruct (offset l L Hl H) as (q & Vq & Hq & Eq).
  unfold dcell, dto_u64. destruct Vq as [Fq Bq]. set (off := ddiv _ _) in *. rewrite Fq.
  assert (Btrunc off = Zfloor q) as Et.
  { pose proof (Btrunc_correct 53 1024 emax1024 off) as C. rewrite Bq in C. rewrite round_FIX_IZR in C. apply eq_IZR in C. rewrite C.
    by apply Ztrunc_floor. }
  rewrite Et. set (i := Zfloor q). pose proof (Zfloor_lb q) as I1. pose proof (Zfloor_ub q) as I2. fold i in I1, I2.
  apply Rabs_le_inv in Eq as Eq'. pose proof u_pos as U.
  assert (3 * u * pos (n_num a) <= / 1000) as K1.
  { replace (pos (n_num a)) with (M + 1) by (unfold M; ring). apply Rle_trans with (3 * u * b2 41).
    - apply Rmult_le_compat_l; [lra|]. change 41%Z with (1 + 40)%Z. rewrite bpow_plus. change (b2 1) with 2. lra.
    - rewrite u_b2, Rmult_assoc, <- bpow_plus. change (-53 + 41)%Z with (-12)%Z. simpl. lra. }
  assert (0 ≤ i)%Z as I0 by (apply Zfloor_lub; exact Hq).
  set (n := n_num a) in *. destruct (ga_num _ _ _ Hg) as [N1 N2]. fold n in N1, N2.
  assert (i < Z.of_N n)%Z as I3.
  { apply lt_IZR. change (IZR (Z.of_N n)) with (pos n). assert (pos n = M + 1) by (unfold M; ring). lra. }
  assert ((0 <=? i)%Z = true) as -> by by apply Z.leb_le. assert ((i <? 2 ^ 64)%Z = true) as -> by (apply Z.ltb_lt; lia). cbn [andb].
  rewrite Ep.
  set (i0 := if bool_decide (Z.to_N i = (n - 1)%N) then pred64 (Z.to_N i) else Z.to_N i).
  assert ((i0 + 1 < n)%N ∧ pos i0 <= q <= pos i0 + 1 + / 500) as [J1 J2].
  { unfold i0. case_bool_decide as Hi.
    - rewrite pred64_pos by lia. split; [lia|]. assert (pos (Z.to_N i - 1) = IZR i - 1) as ->.
      { unfold pos. rewrite N2Z.inj_sub by lia. rewrite Z2N.id by lia. by rewrite minus_IZR. }
      assert (IZR i = M) as EiM. { rewrite <- EM. unfold pos. f_equal. lia. }
      lra.
    - split; [lia|]. assert (pos (Z.to_N i) = IZR i) as -> by (unfold pos; by rewrite Z2N.id by lia). lra. }
  rewrite succ64_small by lia.
  assert (val off q) as Vq by done.
  assert (val (of_Z (Z.of_N i0)) (pos i0)) as Vi by (apply of_Z_val; lia).
  assert (q < b2 52) as Hq52.
  { apply Rlt_le_trans with (IZR i + 1); [exact I2|]. rewrite <- plus_IZR. change (b2 52) with (IZR (2 ^ 52)). apply IZR_le. lia. }
  pose proof (sub_val _ _ _ _ Vq Vi) as Vd. rewrite Rabs_right in Vd by lra.
  specialize (Vd ltac:(apply Rle_trans with (b2 1); [change (b2 1) with 2; lra|apply bpow_le; lia])).
  rewrite rnd_format in Vd by (apply format_minus; [by apply val_format in Vq|lia|apply J2|exact Hq52]).
  exists i0, (dsub off (of_Z (Z.of_N i0))), (q - pos i0). split; [done|]. split; [done|]. split; [done|]. split; [lra|].
  replace (pos i0 + (q - pos i0) - (L - o) / h) with (q - (L - o) / h) by ring. exact Eq.
Qed.
(** C92: the nodes of the axis are inside it, the last one included, if they are numbers in double precision. *)
Theorem C92_node_inside k l : (k < n_num a)%N → generic_format radix2 (FLT_exp (-1074) 53) (pos k * h) → val l (o + pos k * h) →
  doutside a l = false.
Proof using Hg.
  intros Hk Hf Hl. destruct d_max_val as (m & Vm & _ & ->). destruct M_range as ([M1 M2] & Ep & EM). pose proof h_pos as Hh.
  assert (0 <= pos k <= M) as Hp.
  { rewrite <- EM. unfold pos. split; [apply (IZR_le 0)|apply IZR_le]; lia. }
  unfold doutside, d_min. rewrite (ltb_val _ _ _ _ Hl (ga_orig _ _ _ Hg)), (ltb_val _ _ _ _ Vm Hl).
  rewrite Rlt_bool_false by nra. apply Rlt_bool_false. rewrite <- (rnd_format (o + pos k * h)) at 1 by by apply val_format in Hl.
  apply round_le; [apply flt_valid|apply valid_rnd_N|]. apply Rplus_le_compat_l. rewrite <- (rnd_format (pos k * h)) by done.
  apply round_le; [apply flt_valid|apply valid_rnd_N|]. apply Rmult_le_compat_r; lra.
Qed.
(** the cell of a node: the position in it is 0, or 1 for the last node *)
Lemma cell_node k l : (k < n_num a)%N → generic_format radix2 (FLT_exp (-1074) 53) (pos k * h) → val l (o + pos k * h) →
  ∃ i d, dcell a l = Some (i, (i + 1)%N, d) ∧ (((k + 1 < n_num a)%N ∧ i = k ∧ val d 0) ∨ ((k + 1 = n_num a)%N ∧ (i + 1)%N = k ∧ val d 1)).
Proof using Hg.
  intros Hk Hf Hl. pose proof h_pos as Hh. destruct M_range as ([M1 M2] & Ep & EM). destruct (ga_num _ _ _ Hg) as [N1 N2].
  destruct (ga_size _ _ _ Hg) as [S1 S2].
  assert (0 <= pos k <= b2 40) as Hp.
  { unfold pos. change (b2 40) with (IZR (2 ^ 40)). split; [apply (IZR_le 0)|apply IZR_le]; lia. }
  assert (o + pos k * h - o = pos k * h) as E0 by ring.
  assert (0 <= pos k * h <= b2 1000) as Hb.
  { split; [apply Rmult_le_pos; lra|]. apply Rle_trans with (b2 40 * b2 500); [apply Rmult_le_compat; lra|]. rewrite <- bpow_plus. apply bpow_le. lia. }
  pose proof (sub_val _ _ _ _ Hl (ga_orig _ _ _ Hg) ltac:(rewrite E0, Rabs_right; lra)) as V1. rewrite E0, rnd_format in V1 by done.
  assert (pos k * h / h = pos k) as E1 by (field; lra).
  assert (b2 40 <= b2 1000) as B1 by (apply bpow_le; lia).
  pose proof (div_val _ _ _ _ V1 (ga_step _ _ _ Hg) ltac:(lra) ltac:(rewrite E1, Rabs_right; lra)) as V2. rewrite E1 in V2.
  assert (val (of_Z (Z.of_N k)) (pos k)) as Vk by (apply of_Z_val; lia).
  rewrite rnd_format in V2 by by apply val_format in Vk.
  unfold dcell, dto_u64. destruct V2 as [F2 B2]. set (off := ddiv _ _) in *. rewrite F2.
  assert (Btrunc off = Z.of_N k) as Et.
  { pose proof (Btrunc_correct 53 1024 emax1024 off) as C. rewrite B2 in C. rewrite round_FIX_IZR in C. apply eq_IZR in C. rewrite C. unfold pos. by rewrite Ztrunc_IZR. }
  rewrite Et. assert ((0 <=? Z.of_N k)%Z = true) as -> by (apply Z.leb_le; lia). assert ((Z.of_N k <? 2 ^ 64)%Z = true) as -> by (apply Z.ltb_lt; lia).
  cbn [andb]. rewrite Ep, N2Z.id. case_bool_decide as Hd.
  - rewrite pred64_pos by lia. rewrite succ64_small by lia. eexists _, _. split; [reflexivity|]. right. split; [lia|]. split; [lia|].
    assert (val (of_Z (Z.of_N (k - 1))) (pos (k - 1))) as Vj by (apply of_Z_val; lia).
    assert (pos k - pos (k - 1) = 1) as E2. { unfold pos. rewrite <- minus_IZR. apply (f_equal IZR). lia. }
    pose proof (sub_val off _ _ _ (conj F2 B2) Vj ltac:(rewrite E2, Rabs_R1; apply (bpow_le radix2 0); lia)) as V3. rewrite E2 in V3.
    rewrite rnd_format in V3; [done|]. change 1 with (b2 0). apply generic_format_bpow. unfold FLT_exp. lia.
  - rewrite succ64_small by lia. eexists _, _. split; [reflexivity|]. left. split; [lia|]. split; [done|].
    pose proof (sub_val off _ _ _ (conj F2 B2) Vk ltac:(rewrite Rminus_eq_0, Rabs_R0; apply bpow_ge_0)) as V3. rewrite Rminus_eq_0 in V3.
    rewrite rnd_format in V3; [done|]. apply generic_format_0.
Qed.
End axis.

(** ** Interpolation *)
Lemma Rabs_le3 x y : Rabs x <= y ↔ - y <= x <= y.
Proof. split; [apply Rabs_le_inv|apply Rabs_le]. Qed.
Lemma lerp_bound A B T K : Rabs A <= K → Rabs B <= K → 0 <= T <= 1 + / 500 → Rabs (A + T * (B - A)) <= (1 + / 250) * K.
Proof.
  intros HA HB HT. replace (A + T * (B - A)) with ((1 - T) * A + T * B) by ring.
  eapply Rle_trans; [apply Rabs_triang|]. rewrite !Rabs_mult. assert (0 <= K) by (eapply Rle_trans; [apply Rabs_pos|exact HA]).
  rewrite (Rabs_right T) by lra. destruct (Rle_dec T 1) as [H1|H1].
  - rewrite (Rabs_right (1 - T)) by lra. assert ((1 - T) * Rabs A <= (1 - T) * K) by (apply Rmult_le_compat_l; lra).
    assert (T * Rabs B <= T * K) by (apply Rmult_le_compat_l; lra). nra.
  - rewrite (Rabs_left (1 - T)) by lra. assert (- (1 - T) * Rabs A <= - (1 - T) * K) by (apply Rmult_le_compat_l; lra).
    assert (T * Rabs B <= T * K) by (apply Rmult_le_compat_l; lra). nra.
Qed.
Lemma dlerp_val a b t A B T K : val a A → val b B → val t T → Rabs A <= K → Rabs B <= K → 0 <= T <= 1 + / 500 → b2 (-900) <= K <= b2 900 →
  ∃ r, val (dlerp a b t) r ∧ Rabs (r - (A + T * (B - A))) <= 6 * u * K.
Proof.
  intros Va Vb Vt HA HB HT [K1 K2]. pose proof u_pos as U.
  assert (b2 (-1075) <= / 1000 * (u * K)) as Ty.
  { apply Rle_trans with (b2 (-10) * (b2 (-53) * b2 (-900))); [rewrite <- !bpow_plus; apply bpow_le; lia|].
    rewrite u_b2. apply Rmult_le_compat; [apply bpow_ge_0|apply Rmult_le_pos; apply bpow_ge_0|simpl; lra|].
    apply Rmult_le_compat_l; [apply bpow_ge_0|exact K1]. }
  assert (0 < K) as Kp by (pose proof (bpow_gt_0 radix2 (-900)); lra).
  assert (10 * K <= b2 1000) as K3.
  { apply Rle_trans with (b2 10 * b2 900); [|rewrite <- bpow_plus; apply bpow_le; lia]. apply Rmult_le_compat; [lra|lra|simpl; lra|exact K2]. }
  assert (0 < u * K) as UK by (apply Rmult_lt_0_compat; lra).
  assert (u * K <= / 1000 * K) as UK2 by (apply Rmult_le_compat_r; lra).
  assert (Rabs (B - A) <= 2 * K) as D0. { eapply Rle_trans; [apply Rabs_triang|]. rewrite Rabs_Ropp. lra. }
  pose proof (sub_val _ _ _ _ Vb Va ltac:(lra)) as V1. pose proof (err (B - A)) as E1. set (y := rnd (B - A)) in *.
  assert (u * Rabs (B - A) <= 2 * (u * K)) as D1. { replace (2 * (u * K)) with (u * (2 * K)) by ring. apply Rmult_le_compat_l; lra. }
  assert (Rabs (y - (B - A)) <= (2 + / 1000) * (u * K)) as F1 by lra.
  assert (Rabs y <= (2 + / 200) * K) as Ay.
  { replace y with ((y - (B - A)) + (B - A)) by ring. eapply Rle_trans; [apply Rabs_triang|]. lra. }
  assert (Rabs (T * y) <= (2 + / 50) * K) as Aty.
  { rewrite Rabs_mult, (Rabs_right T) by lra. apply Rle_trans with ((1 + / 500) * ((2 + / 200) * K)); [apply Rmult_le_compat; [lra|apply Rabs_pos|lra|exact Ay]|]. lra. }
  pose proof (mul_val _ _ _ _ Vt V1 ltac:(lra)) as V2. pose proof (err (T * y)) as E2. set (p := rnd (T * y)) in *.
  assert (u * Rabs (T * y) <= (2 + / 50) * (u * K)) as D2. { replace ((2 + / 50) * (u * K)) with (u * ((2 + / 50) * K)) by ring. apply Rmult_le_compat_l; lra. }
  assert (Rabs (T * (y - (B - A))) <= (2 + / 100) * (u * K)) as D3.
  { rewrite Rabs_mult, (Rabs_right T) by lra. apply Rle_trans with ((1 + / 500) * ((2 + / 1000) * (u * K))); [apply Rmult_le_compat; [lra|apply Rabs_pos|lra|exact F1]|]. lra. }
  assert (Rabs (p - T * (B - A)) <= (4 + / 10) * (u * K)) as F2.
  { replace (p - T * (B - A)) with ((p - T * y) + T * (y - (B - A))) by ring. eapply Rle_trans; [apply Rabs_triang|]. lra. }
  pose proof (lerp_bound A B T K HA HB HT) as L0.
  assert (Rabs (A + p) <= (1 + / 100) * K) as As.
  { replace (A + p) with ((p - T * (B - A)) + (A + T * (B - A))) by ring. eapply Rle_trans; [apply Rabs_triang|]. lra. }
  pose proof (add_val _ _ _ _ Va V2 ltac:(lra)) as V3. pose proof (err (A + p)) as E3.
  assert (u * Rabs (A + p) <= (1 + / 100) * (u * K)) as D4. { replace ((1 + / 100) * (u * K)) with (u * ((1 + / 100) * K)) by ring. apply Rmult_le_compat_l; lra. }
  exists (rnd (A + p)). split; [exact V3|].
  replace (rnd (A + p) - (A + T * (B - A))) with ((rnd (A + p) - (A + p)) + (p - T * (B - A))) by ring. eapply Rle_trans; [apply Rabs_triang|].
  replace (6 * u * K) with (6 * (u * K)) by ring. lra.
Qed.
(** values that are known up to an error *)
Lemma dlerp_near a b t A B A' B' T K e : val a A' → val b B' → val t T → Rabs (A' - A) <= e → Rabs (B' - B) <= e →
  Rabs A' <= K → Rabs B' <= K → 0 <= T <= 1 + / 500 → b2 (-900) <= K <= b2 900 →
  ∃ r, val (dlerp a b t) r ∧ Rabs (r - (A + T * (B - A))) <= 6 * u * K + (1 + / 250) * e ∧ Rabs r <= (1 + / 200) * K.
Proof.
  intros Va Vb Vt HA HB KA KB HT HK. destruct (dlerp_val a b t A' B' T K Va Vb Vt KA KB HT HK) as (r & Vr & Er).
  exists r. split; [exact Vr|]. split.
  - replace (r - (A + T * (B - A))) with ((r - (A' + T * (B' - A'))) + ((A' - A) + T * ((B' - B) - (A' - A)))) by ring.
    eapply Rle_trans; [apply Rabs_triang|]. apply Rplus_le_compat; [exact Er|]. by apply lerp_bound.
  - replace r with ((r - (A' + T * (B' - A'))) + (A' + T * (B' - A'))) by ring. eapply Rle_trans; [apply Rabs_triang|].
    pose proof (lerp_bound A' B' T K KA KB HT). pose proof u_pos. assert (0 < K) by (pose proof (bpow_gt_0 radix2 (-900)); lra).
    assert (6 * u * K <= / 1000 * K) by (apply Rmult_le_compat_r; lra). lra.
Qed.

(** The exact interpolation: weighted sums of the values at the corners *)
Definition bilinear_at (s t : R) (v : bool → bool → R) : R :=
  (1 - s) * (1 - t) * v false false + (1 - s) * t * v false true + s * (1 - t) * v true false + s * t * v true true.
Definition trilinear_at (r s t : R) (v : bool → bool → bool → R) : R :=
  (1 - r) * bilinear_at s t (v false) + r * bilinear_at s t (v true).

Lemma scale_K K : b2 (-899) <= K <= b2 899 → (b2 (-900) <= K <= b2 900) ∧ (b2 (-900) <= (1 + / 200) * K <= b2 900) ∧
  (b2 (-900) <= (1 + / 200) * ((1 + / 200) * K) <= b2 900) ∧ 0 < K.
Proof.
  intros [H1 H2]. pose proof (bpow_gt_0 radix2 (-899)). assert (b2 (-900) <= b2 (-899)) by (apply bpow_le; lia).
  assert (2 * b2 899 = b2 900) by (change 900%Z with (1 + 899)%Z; by rewrite bpow_plus). lra.
Qed.
(** C92: the computed interpolation is the exact one up to a few roundings of the largest value. *)
Theorem C92_bilinear s t v00 v01 v10 v11 S T (V : bool → bool → R) K :
  val s S → val t T → val v00 (V false false) → val v01 (V false true) → val v10 (V true false) → val v11 (V true true) →
  0 <= S <= 1 + / 500 → 0 <= T <= 1 + / 500 → (∀ i j, Rabs (V i j) <= K) → b2 (-899) <= K <= b2 899 →
  ∃ r, val (dbilinear s t v00 v01 v10 v11) r ∧ Rabs (r - bilinear_at S T V) <= 13 * u * K ∧ Rabs r <= (1 + / 50) * K.
Proof.
  intros Vs Vt V0 V1 V2 V3 HS HT HV HK. destruct (scale_K K HK) as (K0 & K1 & _ & Kp). pose proof u_pos as U.
  destruct (dlerp_near v00 v01 t _ _ _ _ T K 0 V0 V1 Vt ltac:(rewrite Rminus_eq_0, Rabs_R0; lra) ltac:(rewrite Rminus_eq_0, Rabs_R0; lra) (HV _ _) (HV _ _) HT K0) as (z0 & Z0 & E0 & B0).
  destruct (dlerp_near v10 v11 t _ _ _ _ T K 0 V2 V3 Vt ltac:(rewrite Rminus_eq_0, Rabs_R0; lra) ltac:(rewrite Rminus_eq_0, Rabs_R0; lra) (HV _ _) (HV _ _) HT K0) as (z1 & Z1 & E1 & B1).
  destruct (dlerp_near _ _ s _ _ _ _ S _ _ Z0 Z1 Vs E0 E1 B0 B1 HS K1) as (r & Vr & Er & Br).
  exists r. split; [exact Vr|]. split; [|lra]. unfold bilinear_at.
  eapply Rle_trans; [|eapply Rle_trans; [exact Er|]]; [apply Req_le; f_equal; ring|]. assert (0 < u * K) by (apply Rmult_lt_0_compat; lra). lra.
Qed.
Theorem C92_trilinear q s t v000 v001 v010 v011 v100 v101 v110 v111 Q S T (V : bool → bool → bool → R) K :
  val q Q → val s S → val t T →
  val v000 (V false false false) → val v001 (V false false true) → val v010 (V false true false) → val v011 (V false true true) →
  val v100 (V true false false) → val v101 (V true false true) → val v110 (V true true false) → val v111 (V true true true) →
  0 <= Q <= 1 + / 500 → 0 <= S <= 1 + / 500 → 0 <= T <= 1 + / 500 → (∀ i j k, Rabs (V i j k) <= K) → b2 (-899) <= K <= b2 899 →
  ∃ r, val (dtrilinear q s t v000 v001 v010 v011 v100 v101 v110 v111) r ∧ Rabs (r - trilinear_at Q S T V) <= 19 * u * K ∧ Rabs r <= (1 + / 50) * K.
Proof.
  intros Vq Vs Vt V0 V1 V2 V3 V4 V5 V6 V7 HQ HS HT HV HK. destruct (scale_K K HK) as (K0 & K1 & K2 & Kp). pose proof u_pos as U.
  assert (∀ x, Rabs (x - x) <= 0) as Z by (intros x; rewrite Rminus_eq_0, Rabs_R0; lra).
  destruct (dlerp_near v000 v001 t _ _ _ _ T K 0 V0 V1 Vt (Z _) (Z _) (HV _ _ _) (HV _ _ _) HT K0) as (z0 & Z0 & E0 & B0).
  destruct (dlerp_near v010 v011 t _ _ _ _ T K 0 V2 V3 Vt (Z _) (Z _) (HV _ _ _) (HV _ _ _) HT K0) as (z1 & Z1 & E1 & B1).
  destruct (dlerp_near v100 v101 t _ _ _ _ T K 0 V4 V5 Vt (Z _) (Z _) (HV _ _ _) (HV _ _ _) HT K0) as (z2 & Z2 & E2 & B2).
  destruct (dlerp_near v110 v111 t _ _ _ _ T K 0 V6 V7 Vt (Z _) (Z _) (HV _ _ _) (HV _ _ _) HT K0) as (z3 & Z3 & E3 & B3).
  destruct (dlerp_near _ _ s _ _ _ _ S _ _ Z0 Z1 Vs E0 E1 B0 B1 HS K1) as (y0 & Y0 & F0 & C0).
  destruct (dlerp_near _ _ s _ _ _ _ S _ _ Z2 Z3 Vs E2 E3 B2 B3 HS K1) as (y1 & Y1 & F1 & C1).
  destruct (dlerp_near _ _ q _ _ _ _ Q _ _ Y0 Y1 Vq F0 F1 C0 C1 HQ K2) as (r & Vr & Er & Br).
  exists r. split; [exact Vr|]. split; [|lra]. unfold trilinear_at, bilinear_at.
  eapply Rle_trans; [|eapply Rle_trans; [exact Er|]]; [apply Req_le; f_equal; ring|]. assert (0 < u * K) by (apply Rmult_lt_0_compat; lra). lra.
Qed.

(** ** Single precision *)
Local Instance p24 : Prec_gt_0 24 := prec24.
Local Instance flt24_valid : Valid_exp (FLT_exp (-149) 24) := FLT_exp_valid (-149) 24.
(** the numbers of a float *)
Definition single_format (r : R) : Prop := generic_format radix2 (FLT_exp (-149) 24) r.
Definition rnd24 (x : R) : R := round radix2 (FLT_exp (-149) 24) ZnearestE x.
Lemma err24 x : Rabs (rnd24 x - x) <= b2 (-24) * Rabs x + b2 (-150).
Proof.
  destruct (error_N_FLT radix2 (-149) 24 ltac:(lia) (λ x, negb (Z.even x)) x) as (eps & eta & H1 & H2 & _ & E).
  unfold rnd24. rewrite E. replace (x * (1 + eps) + eta - x) with (x * eps + eta) by ring.
  eapply Rle_trans; [apply Rabs_triang|]. rewrite Rabs_mult. apply Rplus_le_compat.
  - rewrite Rmult_comm. apply Rmult_le_compat_r; [apply Rabs_pos|]. eapply Rle_trans; [exact H1|]. simpl. lra.
  - eapply Rle_trans; [exact H2|]. change (-150)%Z with (-1 + -149)%Z. rewrite bpow_plus. apply Req_le. f_equal.
Qed.
Lemma single_incl r : single_format r → generic_format radix2 (FLT_exp (-1074) 53) r.
Proof. apply generic_inclusion_mag. intros _. unfold FLT_exp. lia. Qed.
Lemma rnd24_bound x : Rabs x <= b2 101 → Rabs (rnd24 x) <= b2 102.
Proof.
  intros H. pose proof (err24 x) as E. replace (rnd24 x) with ((rnd24 x - x) + x) by ring. eapply Rle_trans; [apply Rabs_triang|].
  assert (b2 (-24) <= / 10) by (simpl; lra). assert (b2 (-150) <= b2 101) by (apply bpow_le; lia).
  assert (b2 102 = 2 * b2 101) as -> by (change 102%Z with (1 + 101)%Z; by rewrite bpow_plus).
  assert (b2 (-24) * Rabs x <= / 10 * b2 101) by (apply Rmult_le_compat; [apply bpow_ge_0|apply Rabs_pos|lra|lra]).
  assert (b2 (-150) <= / 10 * b2 101); [|lra].
  apply Rle_trans with (b2 (-10) * b2 101); [rewrite <- bpow_plus; apply bpow_le; lia|]. apply Rmult_le_compat_r; [apply bpow_ge_0|]. simpl. lra.
Qed.
Lemma stored_single x r : val x r → Rabs r <= b2 101 → val (stored true x) (rnd24 r).
Proof.
  intros [F E] H. unfold stored. assert (is_finite (to_single x) = true ∧ B2R (to_single x) = rnd24 r) as [F1 E1].
  { destruct x as [s| | |s m e He]; try done.
    - cbn in *. subst r. split; [done|]. unfold rnd24. by rewrite round_0 by apply valid_rnd_N.
    - cbn [to_single]. pose proof (binary_normalize_correct 24 128 prec24 emax128 mode_NE (cond_Zopp s (Zpos m)) e s) as C. cbv zeta in C.
      change (F2R _) with (B2R (B754_finite s m e He)) in C. rewrite E in C. change (round radix2 _ _ r) with (rnd24 r) in C.
      rewrite Rlt_bool_true in C by (eapply Rle_lt_trans; [by apply rnd24_bound|apply bpow_lt; lia]). destruct C as (C1 & C2 & _). done. }
  assert (single_format (rnd24 r)) as G by (apply generic_format_round; [apply flt24_valid|apply valid_rnd_N]).
  assert (Rabs (rnd24 r) <= b2 102) as B by by apply rnd24_bound.
  destruct (to_single x) as [s| | |s m e He]; try done.
  cbn [of_single]. pose proof (binary_normalize_correct 53 1024 prec53 emax1024 mode_NE (cond_Zopp s (Zpos m)) e s) as C. cbv zeta in C.
  change (F2R _) with (B2R (B754_finite s m e He)) in C. rewrite E1 in C. change (round radix2 _ _ (rnd24 r)) with (rnd (rnd24 r)) in C.
  rewrite rnd_format in C by by apply single_incl.
  rewrite Rlt_bool_true in C by (eapply Rle_lt_trans; [exact B|apply bpow_lt; lia]). destruct C as (C1 & C2 & _). done.
Qed.
(** the relative error of the type of the grid *)
Definition eps (single : bool) : R := if single then (1 + / 40) * b2 (-24) else 0.
Lemma stored_val single x r K : val x r → Rabs r <= (1 + / 50) * K → b2 (-100) <= K <= b2 100 →
  ∃ s, val (stored single x) s ∧ Rabs (s - r) <= eps single * K.
Proof.
  intros V H [K1 K2]. destruct single; cbn [eps].
  - exists (rnd24 r). split.
    + apply stored_single; [done|]. assert (b2 101 = 2 * b2 100) as -> by (change 101%Z with (1 + 100)%Z; by rewrite bpow_plus). pose proof (bpow_gt_0 radix2 100). lra.
    + eapply Rle_trans; [apply err24|].
      pose proof (bpow_gt_0 radix2 (-24)). assert (b2 (-24) * Rabs r <= b2 (-24) * ((1 + / 50) * K)) by (apply Rmult_le_compat_l; lra).
      assert (b2 (-150) <= / 1000 * (b2 (-24) * K)); [|pose proof (bpow_gt_0 radix2 (-100)); nra].
      apply Rle_trans with (b2 (-10) * (b2 (-24) * b2 (-100))); [rewrite <- !bpow_plus; apply bpow_le; lia|].
      apply Rmult_le_compat; [apply bpow_ge_0|apply Rmult_le_pos; apply bpow_ge_0|simpl; lra|]. apply Rmult_le_compat_l; lra.
  - exists r. split; [done|]. rewrite Rminus_eq_0, Rabs_R0. lra.
Qed.

(** ** The value of a grid *)
Lemma neg_val v r : val v r → 0 <= r → dneg v = false.
Proof. intros V H. unfold dneg. rewrite (ltb_val v zero r 0 V (conj eq_refl eq_refl)). by apply Rlt_bool_false. Qed.
(** The nodes of the grid can be read and have values between 0 and K *)
Definition readable (rd : N → N → N → result double) (nx ny nz : N) (W : N → N → N → R) (K : R) : Prop :=
  ∀ i j k, (i < nx)%N → (j < ny)%N → (k < nz)%N → ∃ v, rd i j k = Val v ∧ val v (W i j k) ∧ 0 <= W i j k <= K.
(** [i] and [d]: the cell of an axis and the position in it *)
Definition located (a : daxis) (o h L : R) (i : N) (d : R) : Prop :=
  (i + 1 < n_num a)%N ∧ 0 <= d <= 1 + / 500 ∧ Rabs (pos i + d - (L - o) / h) <= 3 * u * pos (n_num a).
Definition next (i : N) (b : bool) : N := if b then (i + 1)%N else i.
Lemma wide_K K : b2 (-100) <= K <= b2 100 → b2 (-899) <= K <= b2 899.
Proof. intros [H1 H2]. split; eapply Rle_trans; try eassumption; apply bpow_le; lia. Qed.
Lemma abs_nonneg x K : 0 <= x <= K → Rabs x <= K.
Proof. intros H. rewrite Rabs_right; lra. Qed.
(** C92: the value inside a 3D grid *)
Theorem C92_value3D single rd ax ay az ox oy oz hx hy hz x y z X Y Z W K :
  good_axis ax ox hx → good_axis ay oy hy → good_axis az oz hz → val x X → val y Y → val z Z →
  doutside ax x = false → doutside ay y = false → doutside az z = false →
  readable rd (n_num ax) (n_num ay) (n_num az) W K → b2 (-100) <= K <= b2 100 →
  ∃ r s i j k p q t, dvalue3D single rd ax ay az x y z = Val r ∧ val r s ∧
    located ax ox hx X i p ∧ located ay oy hy Y j q ∧ located az oz hz Z k t ∧
    Rabs (s - trilinear_at p q t (λ a b c, W (next i a) (next j b) (next k c))) <= (19 * u + eps single) * K.
Proof.
  intros Gx Gy Gz Vx Vy Vz Ox Oy Oz HW HK. unfold dvalue3D. rewrite Ox, Oy, Oz. cbn [orb].
  destruct (C92_cell _ _ _ Gx _ _ Vx Ox) as (i & dx & p & -> & Lx & Vp & Px & Ex).
  destruct (C92_cell _ _ _ Gy _ _ Vy Oy) as (j & dy & q & -> & Ly & Vq & Py & Ey).
  destruct (C92_cell _ _ _ Gz _ _ Vz Oz) as (k & dz & t & -> & Lz & Vt & Pz & Ez).
  destruct (HW i j k ltac:(lia) ltac:(lia) ltac:(lia)) as (v000 & -> & V0 & B0).
  destruct (HW i j (k + 1)%N ltac:(lia) ltac:(lia) ltac:(lia)) as (v001 & -> & V1 & B1).
  destruct (HW i (j + 1)%N k ltac:(lia) ltac:(lia) ltac:(lia)) as (v010 & -> & V2 & B2).
  destruct (HW i (j + 1)%N (k + 1)%N ltac:(lia) ltac:(lia) ltac:(lia)) as (v011 & -> & V3 & B3).
  destruct (HW (i + 1)%N j k ltac:(lia) ltac:(lia) ltac:(lia)) as (v100 & -> & V4 & B4).
  destruct (HW (i + 1)%N j (k + 1)%N ltac:(lia) ltac:(lia) ltac:(lia)) as (v101 & -> & V5 & B5).
  destruct (HW (i + 1)%N (j + 1)%N k ltac:(lia) ltac:(lia) ltac:(lia)) as (v110 & -> & V6 & B6).
  destruct (HW (i + 1)%N (j + 1)%N (k + 1)%N ltac:(lia) ltac:(lia) ltac:(lia)) as (v111 & -> & V7 & B7).
  cbn [bind]. unfold dinterp3.
  rewrite (neg_val _ _ V0 ltac:(lra)), (neg_val _ _ V1 ltac:(lra)), (neg_val _ _ V2 ltac:(lra)), (neg_val _ _ V3 ltac:(lra)),
    (neg_val _ _ V4 ltac:(lra)), (neg_val _ _ V5 ltac:(lra)), (neg_val _ _ V6 ltac:(lra)), (neg_val _ _ V7 ltac:(lra)). cbn [orb].
  destruct (C92_trilinear dx dy dz v000 v001 v010 v011 v100 v101 v110 v111 p q t (λ a b c, W (next i a) (next j b) (next k c)) K
    Vp Vq Vt V0 V1 V2 V3 V4 V5 V6 V7 Px Py Pz) as (r & Vr & Er & Br).
  { intros [] [] []; cbn [next]; by apply abs_nonneg. }
  { by apply wide_K. }
  destruct (stored_val single _ _ K Vr Br HK) as (s & Vs & Es).
  eexists _, s, i, j, k, p, q, t. split; [reflexivity|]. split; [exact Vs|].
  split; [done|]. split; [done|]. split; [done|].
  set (e := trilinear_at _ _ _ _) in *. replace (s - e) with ((s - r) + (r - e)) by ring. eapply Rle_trans; [apply Rabs_triang|]. lra.
Qed.
Lemma orig_inside a o h : val (n_orig a) o → val (n_step a) h → (1 ≤ n_num a ≤ 2 ^ 40)%N → 0 <= h <= b2 500 → Rabs o <= b2 500 →
  doutside a (n_orig a) = false.
Proof.
  intros Vo Vh Hn Hh Ho. unfold doutside, d_min, d_max. rewrite pred64_pos by lia.
  assert (val (of_Z (Z.of_N (n_num a - 1))) (pos (n_num a - 1))) as Vn by (apply of_Z_val; lia).
  assert (0 <= pos (n_num a - 1) <= b2 40) as Hp.
  { unfold pos. change (b2 40) with (IZR (2 ^ 40)). split; [apply (IZR_le 0)|apply IZR_le]; lia. }
  assert (0 <= pos (n_num a - 1) * h <= b2 540) as Hm.
  { split; [apply Rmult_le_pos; lra|]. change 540%Z with (40 + 500)%Z. rewrite bpow_plus. apply Rmult_le_compat; lra. }
  assert (b2 540 <= b2 541 ∧ b2 541 <= b2 1000 ∧ b2 541 = 2 * b2 540 ∧ b2 500 <= b2 540) as (B1 & B2 & B3 & B4).
  { split; [apply bpow_le; lia|]. split; [apply bpow_le; lia|]. split; [change 541%Z with (1 + 540)%Z; by rewrite bpow_plus|apply bpow_le; lia]. }
  pose proof (mul_val _ _ _ _ Vn Vh ltac:(rewrite Rabs_right; lra)) as V1. set (m := rnd _) in V1.
  assert (0 <= m <= b2 541) as Hm2.
  { split; [apply rnd_pos; lra|]. pose proof (err (pos (n_num a - 1) * h)) as E. rewrite (Rabs_right (pos _ * h)) in E by lra. fold m in E.
    apply Rabs_le_inv in E. pose proof u_pos. assert (b2 (-1075) <= / 2 * b2 540); [|nra].
    apply Rle_trans with (b2 (-1) * b2 540); [rewrite <- bpow_plus; apply bpow_le; lia|simpl; lra]. }
  assert (Rabs (o + m) <= b2 1000) as A.
  { eapply Rle_trans; [apply Rabs_triang|]. rewrite (Rabs_right m) by lra. apply Rle_trans with (b2 1 * b2 541); [change (b2 1) with 2; lra|]. rewrite <- bpow_plus. apply bpow_le; lia. }
  pose proof (add_val _ _ _ _ Vo V1 A) as V2. rewrite (ltb_val _ _ _ _ Vo Vo), (ltb_val _ _ _ _ V2 Vo).
  rewrite Rlt_bool_false by lra. apply Rlt_bool_false. rewrite <- (rnd_format o) at 1 by by apply val_format in Vo.
  apply round_le; [apply flt_valid|apply valid_rnd_N|]. lra.
Qed.
(** C92: the value inside a 2D grid, whose first axis is not used *)
Theorem C92_value2D single rd ax ay az ox oy oz hx hy hz y z Y Z W K :
  val (n_orig ax) ox → val (n_step ax) hx → (1 ≤ n_num ax ≤ 2 ^ 40)%N → 0 <= hx <= b2 500 → Rabs ox <= b2 500 →
  good_axis ay oy hy → good_axis az oz hz → val y Y → val z Z → doutside ay y = false → doutside az z = false →
  readable rd (n_num ax) (n_num ay) (n_num az) W K → b2 (-100) <= K <= b2 100 →
  ∃ r s j k q t, dvalue2D single rd ax ay az y z = Val r ∧ val r s ∧
    located ay oy hy Y j q ∧ located az oz hz Z k t ∧
    Rabs (s - bilinear_at q t (λ b c, W 0%N (next j b) (next k c))) <= (13 * u + eps single) * K.
Proof.
  intros Vo Vh Nx Hh Ho Gy Gz Vy Vz Oy Oz HW HK. pose proof (orig_inside _ _ _ Vo Vh Nx Hh Ho) as Ox. unfold dvalue2D. rewrite Ox, Oy, Oz. cbn [orb].
  destruct (C92_cell _ _ _ Gy _ _ Vy Oy) as (j & dy & q & -> & Ly & Vq & Py & Ey).
  destruct (C92_cell _ _ _ Gz _ _ Vz Oz) as (k & dz & t & -> & Lz & Vt & Pz & Ez).
  destruct (HW 0%N j k ltac:(lia) ltac:(lia) ltac:(lia)) as (v00 & -> & V0 & B0).
  destruct (HW 0%N j (k + 1)%N ltac:(lia) ltac:(lia) ltac:(lia)) as (v01 & -> & V1 & B1).
  destruct (HW 0%N (j + 1)%N k ltac:(lia) ltac:(lia) ltac:(lia)) as (v10 & -> & V2 & B2).
  destruct (HW 0%N (j + 1)%N (k + 1)%N ltac:(lia) ltac:(lia) ltac:(lia)) as (v11 & -> & V3 & B3).
  cbn [bind]. unfold dinterp2.
  rewrite (neg_val _ _ V0 ltac:(lra)), (neg_val _ _ V1 ltac:(lra)), (neg_val _ _ V2 ltac:(lra)), (neg_val _ _ V3 ltac:(lra)). cbn [orb].
  destruct (C92_bilinear dy dz v00 v01 v10 v11 q t (λ b c, W 0%N (next j b) (next k c)) K Vq Vt V0 V1 V2 V3 Py Pz) as (r & Vr & Er & Br).
  { intros [] []; cbn [next]; by apply abs_nonneg. }
  { by apply wide_K. }
  destruct (stored_val single _ _ K Vr Br HK) as (s & Vs & Es).
  eexists _, s, j, k, q, t. split; [reflexivity|]. split; [exact Vs|]. split; [done|]. split; [done|].
  set (e := bilinear_at _ _ _) in *. replace (s - e) with ((s - r) + (r - e)) by ring. eapply Rle_trans; [apply Rabs_triang|]. lra.
Qed.

(** ** The nodes *)
Lemma rnd_0 : rnd 0 = 0.
Proof. apply rnd_format, generic_format_0. Qed.
Lemma dlerp_0 a b t A B K : val a A → val b B → val t 0 → 0 <= A <= K → 0 <= B <= K → K <= b2 100 → val (dlerp a b t) A.
Proof.
  intros Va Vb Vt HA HB HK. assert (b2 100 <= b2 1000) by (apply bpow_le; lia).
  pose proof (sub_val _ _ _ _ Vb Va ltac:(apply Rabs_le; lra)) as V1.
  pose proof (mul_val _ _ _ _ Vt V1 ltac:(rewrite Rmult_0_l, Rabs_R0; apply bpow_ge_0)) as V2. rewrite Rmult_0_l, rnd_0 in V2.
  pose proof (add_val _ _ _ _ Va V2 ltac:(rewrite Rplus_0_r; apply Rabs_le; lra)) as V3. rewrite Rplus_0_r, rnd_format in V3 by by apply val_format in Va.
  exact V3.
Qed.
Lemma stored_node single x r : val x r → 0 <= r <= b2 100 → (single = true → single_format r) → val (stored single x) r.
Proof.
  intros V H F. destruct single; [|done]. assert (rnd24 r = r) as E by (apply round_generic; [apply valid_rnd_N|by apply F]).
  rewrite <- E. apply stored_single; [done|]. rewrite Rabs_right by lra. eapply Rle_trans; [apply H|]. apply bpow_le. lia.
Qed.
(** a node that is a number in double precision and not the last one *)
Definition at_node (a : daxis) (o h : R) (k : N) (l : double) : Prop :=
  (k + 1 < n_num a)%N ∧ generic_format radix2 (FLT_exp (-1074) 53) (pos k * h) ∧ val l (o + pos k * h).
Lemma at_node_cell a o h k l : good_axis a o h → at_node a o h k l → doutside a l = false ∧ ∃ d, dcell a l = Some (k, (k + 1)%N, d) ∧ val d 0.
Proof.
  intros G (H1 & H2 & H3). split; [apply (C92_node_inside a o h G k l); [lia|done|done]|].
  destruct (cell_node _ _ _ G k l ltac:(lia) H2 H3) as (i & d & E & [(_ & -> & V)|(H4 & _)]); [eauto|lia].
Qed.
(** C92: the value at a node that is not at the far border is exactly the value of the file, in both types of grid. *)
Theorem C92_node3D single rd ax ay az ox oy oz hx hy hz x y z i j k W K :
  good_axis ax ox hx → good_axis ay oy hy → good_axis az oz hz →
  at_node ax ox hx i x → at_node ay oy hy j y → at_node az oz hz k z →
  readable rd (n_num ax) (n_num ay) (n_num az) W K → K <= b2 100 → (single = true → single_format (W i j k)) →
  ∃ r, dvalue3D single rd ax ay az x y z = Val r ∧ val r (W i j k).
Proof.
  intros Gx Gy Gz Nx Ny Nz HW HK HF.
  destruct (at_node_cell _ _ _ _ _ Gx Nx) as (Ox & dx & Ex & Vx). destruct (at_node_cell _ _ _ _ _ Gy Ny) as (Oy & dy & Ey & Vy).
  destruct (at_node_cell _ _ _ _ _ Gz Nz) as (Oz & dz & Ez & Vz). destruct Nx as [Lx _], Ny as [Ly _], Nz as [Lz _].
  unfold dvalue3D. rewrite Ox, Oy, Oz, Ex, Ey, Ez. cbn [orb].
  destruct (HW i j k ltac:(lia) ltac:(lia) ltac:(lia)) as (v000 & -> & V0 & B0).
  destruct (HW i j (k + 1)%N ltac:(lia) ltac:(lia) ltac:(lia)) as (v001 & -> & V1 & B1).
  destruct (HW i (j + 1)%N k ltac:(lia) ltac:(lia) ltac:(lia)) as (v010 & -> & V2 & B2).
  destruct (HW i (j + 1)%N (k + 1)%N ltac:(lia) ltac:(lia) ltac:(lia)) as (v011 & -> & V3 & B3).
  destruct (HW (i + 1)%N j k ltac:(lia) ltac:(lia) ltac:(lia)) as (v100 & -> & V4 & B4).
  destruct (HW (i + 1)%N j (k + 1)%N ltac:(lia) ltac:(lia) ltac:(lia)) as (v101 & -> & V5 & B5).
  destruct (HW (i + 1)%N (j + 1)%N k ltac:(lia) ltac:(lia) ltac:(lia)) as (v110 & -> & V6 & B6).
  destruct (HW (i + 1)%N (j + 1)%N (k + 1)%N ltac:(lia) ltac:(lia) ltac:(lia)) as (v111 & -> & V7 & B7).
  cbn [bind]. unfold dinterp3.
  rewrite (neg_val _ _ V0 ltac:(lra)), (neg_val _ _ V1 ltac:(lra)), (neg_val _ _ V2 ltac:(lra)), (neg_val _ _ V3 ltac:(lra)),
    (neg_val _ _ V4 ltac:(lra)), (neg_val _ _ V5 ltac:(lra)), (neg_val _ _ V6 ltac:(lra)), (neg_val _ _ V7 ltac:(lra)). cbn [orb].
  eexists. split; [reflexivity|]. apply stored_node; [|lra|exact HF]. unfold dtrilinear.
  pose proof (dlerp_0 _ _ _ _ _ K V0 V1 Vz B0 B1 HK) as Z0. pose proof (dlerp_0 _ _ _ _ _ K V2 V3 Vz B2 B3 HK) as Z1.
  pose proof (dlerp_0 _ _ _ _ _ K V4 V5 Vz B4 B5 HK) as Z2. pose proof (dlerp_0 _ _ _ _ _ K V6 V7 Vz B6 B7 HK) as Z3.
  pose proof (dlerp_0 _ _ _ _ _ K Z0 Z1 Vy B0 B2 HK) as Y0. pose proof (dlerp_0 _ _ _ _ _ K Z2 Z3 Vy B4 B6 HK) as Y1.
  apply (dlerp_0 _ _ _ _ _ K Y0 Y1 Vx B0 B4 HK).
Qed.
Theorem C92_node2D single rd ax ay az ox oy oz hx hy hz y z j k W K :
  val (n_orig ax) ox → val (n_step ax) hx → (1 ≤ n_num ax ≤ 2 ^ 40)%N → 0 <= hx <= b2 500 → Rabs ox <= b2 500 →
  good_axis ay oy hy → good_axis az oz hz → at_node ay oy hy j y → at_node az oz hz k z →
  readable rd (n_num ax) (n_num ay) (n_num az) W K → K <= b2 100 → (single = true → single_format (W 0%N j k)) →
  ∃ r, dvalue2D single rd ax ay az y z = Val r ∧ val r (W 0%N j k).
Proof.
  intros Vo Vh Mx Hh Ho Gy Gz Ny Nz HW HK HF. pose proof (orig_inside _ _ _ Vo Vh Mx Hh Ho) as Ox.
  destruct (at_node_cell _ _ _ _ _ Gy Ny) as (Oy & dy & Ey & Vy).
  destruct (at_node_cell _ _ _ _ _ Gz Nz) as (Oz & dz & Ez & Vz). destruct Ny as [Ly _], Nz as [Lz _].
  unfold dvalue2D. rewrite Ox, Oy, Oz, Ey, Ez. cbn [orb].
  destruct (HW 0%N j k ltac:(lia) ltac:(lia) ltac:(lia)) as (v00 & -> & V0 & B0).
  destruct (HW 0%N j (k + 1)%N ltac:(lia) ltac:(lia) ltac:(lia)) as (v01 & -> & V1 & B1).
  destruct (HW 0%N (j + 1)%N k ltac:(lia) ltac:(lia) ltac:(lia)) as (v10 & -> & V2 & B2).
  destruct (HW 0%N (j + 1)%N (k + 1)%N ltac:(lia) ltac:(lia) ltac:(lia)) as (v11 & -> & V3 & B3).
  cbn [bind]. unfold dinterp2.
  rewrite (neg_val _ _ V0 ltac:(lra)), (neg_val _ _ V1 ltac:(lra)), (neg_val _ _ V2 ltac:(lra)), (neg_val _ _ V3 ltac:(lra)). cbn [orb].
  eexists. split; [reflexivity|]. apply stored_node; [|lra|exact HF]. unfold dbilinear.
  pose proof (dlerp_0 _ _ _ _ _ K V0 V1 Vz B0 B1 HK) as Z0. pose proof (dlerp_0 _ _ _ _ _ K V2 V3 Vz B2 B3 HK) as Z1.
  apply (dlerp_0 _ _ _ _ _ K Z0 Z1 Vy B0 B2 HK).
Qed.

(** ** The time of a grid *)
(** C92: a time grid is a 3D grid if its first axis has more than one node. *)
Theorem C92_time single rd ax ay az ox hx x y dist depth :
  (good_axis ax ox hx → dtime single rd ax ay az x y dist depth = dvalue3D single rd ax ay az x y depth) ∧
  (n_num ax = 1%N → dtime single rd ax ay az x y dist depth = dvalue2D single rd ax ay az dist depth).
Proof.
  unfold dtime. split.
  - intros G. destruct (ga_num _ _ _ G) as [H _]. assert ((1 <? n_num ax)%N = true) as -> by (apply N.ltb_lt; lia). done.
  - intros ->. done.
Qed.

(** ** What is false *)
Definition dec (n d : Z) : double := ddiv (of_Z n) (of_Z d).
Definition unit_axis (n : N) : daxis := DAxis n zero (of_Z 1).
Lemma unit_good n : (2 ≤ n ≤ 2 ^ 40)%N → good_axis (unit_axis n) 0 1.
Proof.
  intros H. split; cbn [unit_axis n_num n_orig n_step].
  - by split.
  - apply (of_Z_val 1). lia.
  - done.
  - split; [apply (bpow_le radix2 _ 0); lia|apply (bpow_le radix2 0); lia].
  - rewrite Rabs_R0. apply Rmult_le_pos; [apply bpow_ge_0|lra].
Qed.
Lemma val_test (R : result double) (f : double → bool) : (match R with Val r => f r | _ => false end) = true → ∃ r, R = Val r ∧ f r = true.
Proof. destruct R; eauto; done. Qed.
(** C92 (refuted): the value at the last node of an axis is the value of the file. lerp(6, 0.4, 1) is not 0.4 *)
Definition last_rd (_ _ k : N) : result double := Val (if (k =? 0)%N then of_Z 6 else dec 4 10).
Theorem C92_last_node_refuted : ∃ rd ay az y z r v,
  good_axis ay 0 1 ∧ good_axis az 0 1 ∧ val y 0 ∧ val z 1 ∧ n_num az = 2%N ∧
  dvalue2D false rd (DAxis 1 zero (of_Z 1)) ay az y z = Val r ∧ rd 0%N 0%N 1%N = Val v ∧ Beqb r v = false.
Proof.
  destruct (val_test (dvalue2D false last_rd (DAxis 1 zero (of_Z 1)) (unit_axis 2) (unit_axis 2) zero (of_Z 1)) (λ r, negb (Beqb r (dec 4 10))))
    as (r & E & H%negb_true_iff); [vm_compute; reflexivity|].
  exists last_rd, (unit_axis 2), (unit_axis 2), zero, (of_Z 1), r, (dec 4 10).
  split; [apply unit_good; lia|]. split; [apply unit_good; lia|]. split; [by split|]. split; [apply (of_Z_val 1); lia|]. split; [reflexivity|].
  split; [exact E|]. split; [reflexivity|exact H].
Qed.
(** C92 (refuted): a grid without negative times has no negative time. An axis of 3 nodes from -3 in steps of 0.1: at the
    far border the position in the last cell is more than 1 *)
Definition border_axis : daxis := DAxis 3 (of_Z (-3)) (dec 1 10).
Definition border_rd (_ _ k : N) : result double := Val (if (k =? 2)%N then zero else of_Z 1).
Theorem C92_negative_refuted : ∃ rd az ay z r, (∀ i j k, rd i j k = Val zero ∨ rd i j k = Val (of_Z 1)) ∧
  doutside az z = false ∧ dtime false rd (DAxis 1 zero (of_Z 1)) ay az zero zero zero z = Val r ∧ Bltb r zero = true.
Proof.
  destruct (val_test (dtime false border_rd (DAxis 1 zero (of_Z 1)) (unit_axis 2) border_axis zero zero zero (d_max border_axis)) (λ r, Bltb r zero))
    as (r & E & H); [vm_compute; reflexivity|].
  exists border_rd, border_axis, (unit_axis 2), (d_max border_axis), r.
  split. { intros i j k. unfold border_rd. destruct (k =? 2)%N; auto. }
  split; [vm_compute; reflexivity|]. split; [exact E|exact H].
Qed.
(** C92 (refuted): the cell of a location inside is a cell of the grid, however far the grid is. The origin is 2^54 + 4, the
    step 2, there are 2 nodes *)
Theorem C92_far_refuted : ∃ a l i j d, val (n_step a) 2 ∧ n_num a = 2%N ∧ doutside a l = false ∧ dcell a l = Some (i, j, d) ∧ (n_num a ≤ i)%N.
Proof.
  set (a := DAxis 2 (of_Z (2 ^ 54 + 4)) (of_Z 2)). set (l := of_Z (2 ^ 54 + 8)).
  assert (match dcell a l with Some (i, _, _) => (i =? 2)%N | None => false end = true) as H by (vm_compute; reflexivity).
  destruct (dcell a l) as [[[i j] d]|] eqn:E; [|done]. apply N.eqb_eq in H as ->. exists a, l, 2%N, j, d.
  split; [apply (of_Z_val 2); lia|]. split; [reflexivity|]. split; [vm_compute; reflexivity|]. split; [exact E|]. cbn [n_num a]. lia.
Qed.
(** C92: a location that is not a number passes the check of the borders; its conversion to an index is not defined. *)
Theorem C92_nan single rd ax ay az x y z : doutside ax x = false → doutside ay y = false →
  dcell ax x ≠ None → dcell ay y ≠ None → z = B754_nan → dvalue3D single rd ax ay az x y z = UB.
Proof.
  intros Ox Oy Cx Cy ->. unfold dvalue3D. rewrite Ox, Oy.
  assert (doutside az B754_nan = false) as -> by (unfold doutside; destruct (d_max az), (d_min az); done).
  cbn [orb]. destruct (dcell ax x) as [[[??]?]|]; [|done]. destruct (dcell ay y) as [[[??]?]|]; [|done].
  assert (dcell az B754_nan = None) as ->; [|done]. unfold dcell. destruct (n_orig az), (n_step az); done.
Qed.

(** ** A case: steps of 0.5 from -2, three axes of 5 nodes, the location (-1.3, -0.2, -2) *)
Definition half_axis : daxis := DAxis 5 (of_Z (-2)) (dec 1 2).
Lemma half_val : val (dec 1 2) (/ 2).
Proof.
  unfold dec. replace (/ 2) with (rnd (1 / 2)).
  - apply div_val; [by apply (of_Z_val 1)|by apply (of_Z_val 2)|lra|]. rewrite Rabs_right by lra. apply Rle_trans with (b2 0); [simpl; lra|apply bpow_le; lia].
  - rewrite rnd_format; [lra|]. replace (1 / 2) with (b2 (-1)) by (simpl; lra). apply generic_format_bpow. unfold FLT_exp. lia.
Qed.
Lemma half_good : good_axis half_axis (-2) (/ 2).
Proof.
  split; cbn [half_axis n_num n_orig n_step].
  - by apply (of_Z_val (-2)).
  - apply half_val.
  - done.
  - replace (/ 2) with (b2 (-1)) by (simpl; lra). split; apply bpow_le; lia.
  - rewrite Rabs_left by lra. assert (b2 3 <= b2 40) by (apply bpow_le; lia). change (b2 3) with 8 in *. lra.
Qed.
Definition sum_rd (i j k : N) : result double := Val (of_Z (Z.of_N (i + j + k))).
Lemma sum_readable : readable sum_rd 5 5 5 (λ i j k, pos (i + j + k)) 12.
Proof.
  intros i j k Hi Hj Hk. eexists. split; [reflexivity|]. split; [apply of_Z_val; lia|]. unfold pos.
  split; [apply (IZR_le 0)|apply IZR_le]; lia.
Qed.
Example value_case : ∃ r s i j k p q t, dvalue3D true sum_rd half_axis half_axis half_axis (dec (-13) 10) (dec (-2) 10) (of_Z (-2)) = Val r ∧ val r s ∧
  located half_axis (-2) (/ 2) (B2R (dec (-13) 10)) i p ∧ located half_axis (-2) (/ 2) (B2R (dec (-2) 10)) j q ∧ located half_axis (-2) (/ 2) (-2) k t ∧
  Rabs (s - trilinear_at p q t (λ a b c, pos (next i a + next j b + next k c))) <= (19 * u + eps true) * 12.
Proof.
  apply (C92_value3D true sum_rd _ _ _ _ _ _ _ _ _ _ _ _ _ _ _ (λ i j k, pos (i + j + k)) 12 half_good half_good half_good).
  - by split.
  - by split.
  - by apply (of_Z_val (-2)).
  - vm_compute. reflexivity.
  - vm_compute. reflexivity.
  - vm_compute. reflexivity.
  - apply sum_readable.
  - split.
    + apply Rle_trans with (b2 0); [apply bpow_le; lia|simpl; lra].
    + apply Rle_trans with (b2 4); [simpl; lra|apply bpow_le; lia].
Qed.
Example node_case : ∃ r, dvalue3D true sum_rd half_axis half_axis half_axis (of_Z (-1)) (dec (-1) 2) (of_Z (-2)) = Val r ∧ val r 5.
Proof.
  assert (∀ k l, (k + 1 < 5)%N → val l (-2 + IZR (Z.of_N k) * / 2) → at_node half_axis (-2) (/ 2) k l) as H.
  { intros k l Hk V. split; [done|]. split; [|exact V].
    apply generic_format_FLT. exists (Float radix2 (Z.of_N k) (-1)); cbn; [reflexivity|lia|lia]. }
  apply (C92_node3D true sum_rd half_axis half_axis half_axis _ _ _ _ _ _ _ _ _ 2%N 3%N 0%N (λ i j k, pos (i + j + k)) 12 half_good half_good half_good).
  - apply H; [lia|]. replace (-2 + _) with (IZR (-1)) by (cbn; lra). apply of_Z_val. lia.
  - apply H; [lia|]. split; [vm_compute; reflexivity|]. unfold dec. assert (-2 + IZR (Z.of_N 3) * / 2 = rnd (-1 / 2)) as ->.
    { rewrite rnd_format; [cbn; lra|]. replace (-1 / 2) with (- b2 (-1)) by (simpl; lra). apply generic_format_opp, generic_format_bpow. unfold FLT_exp. lia. }
    apply div_val; [by apply (of_Z_val (-1))|by apply (of_Z_val 2)|lra|]. rewrite Rabs_left by lra. apply Rle_trans with (b2 0); [simpl; lra|apply bpow_le; lia].
  - apply H; [lia|]. replace (-2 + _) with (IZR (-2)) by (cbn; lra). apply of_Z_val. lia.
  - apply sum_readable.
  - apply Rle_trans with (b2 4); [simpl; lra|apply bpow_le; lia].
  - intros _. apply generic_format_FLT. exists (Float radix2 5 0); [unfold F2R; change (b2 (Fexp _)) with 1; rewrite Rmult_1_r; reflexivity|cbn; lia|cbn; lia].
Qed.

Print Assumptions C92_outside.
Print Assumptions C92_cell.
Print Assumptions C92_node_inside.
Print Assumptions C92_bilinear.
Print Assumptions C92_trilinear.
Print Assumptions C92_value3D.
Print Assumptions C92_value2D.
Print Assumptions C92_node3D.
Print Assumptions C92_node2D.
Print Assumptions C92_time.
Print Assumptions C92_last_node_refuted.
Print Assumptions C92_negative_refuted.
Print Assumptions C92_far_refuted.
Print Assumptions C92_nan.
