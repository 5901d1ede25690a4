(** Times and cut traces in double precision (C85). *)
From Coq Require Import ZArith Reals List Bool Lia Lra Psatz.
From Flocq Require Import Core BinarySingleNaN Relative.
From Verif Require Import TimeWindow_Model Double_Model.
Import ListNotations.
Local Open Scope R_scope.

Notation rnd := (round radix2 (FLT_exp (-1074) 53) ZnearestE).
Lemma fexp_eq : SpecFloat.fexp 53 1024 = FLT_exp (-1074) 53.
Proof. reflexivity. Qed.
Local Instance p53 : Prec_gt_0 53 := prec53.
Local Instance flt_valid : Valid_exp (FLT_exp (-1074) 53) := FLT_exp_valid (-1074) 53.
Local Instance flt_mono : Monotone_exp (FLT_exp (-1074) 53) := FLT_exp_monotone (-1074) 53.

(** ** Rounding *)
Definition u : R := / 9007199254740992.
Lemma rnd_rel x : x = 0 \/ / 1000000000000 <= Rabs x -> Rabs (rnd x - x) <= u * Rabs x.
Proof.
  intros [->|H].
  - rewrite round_0 by apply valid_rnd_N. rewrite Rminus_0_r, Rabs_R0. lra.
  - assert (bpow radix2 (-1074 + 53 - 1) <= Rabs x) as K.
    { eapply Rle_trans; [|exact H]. eapply Rle_trans; [apply (bpow_le radix2 _ (-40)); lia|]. simpl. lra. }
    pose proof (relative_error_N_FLT radix2 (-1074) 53 prec53 (fun x => negb (Z.even x)) x K) as E. change (-53 + 1)%Z with (-52)%Z in E. simpl bpow in E. unfold u. eapply Rle_trans; [exact E|].
    change (Z.pow_pos 2 52) with 4503599627370496%Z. apply Req_le. field.
Qed.
(** below a power of two *)
Lemma rnd_abs x e : (-1000 <= e)%Z -> Rabs x < bpow radix2 e -> Rabs (rnd x - x) <= bpow radix2 (e - 54).
Proof.
  intros He H. destruct (Req_dec x 0) as [->|Hx].
  { rewrite round_0 by apply valid_rnd_N. rewrite Rminus_0_r, Rabs_R0. apply bpow_ge_0. }
  eapply Rle_trans; [apply error_le_half_ulp; apply flt_valid|]. rewrite ulp_neq_0 by exact Hx.
  assert (cexp radix2 (FLT_exp (-1074) 53) x <= e - 53)%Z as C.
  { unfold cexp, FLT_exp. pose proof (mag_le_bpow radix2 x e Hx H). lia. }
  replace (e - 54)%Z with (-1 + (e - 53))%Z by lia. rewrite bpow_plus. change (bpow radix2 (-1)) with (/ 2). apply Rmult_le_compat_l; [lra|]. apply bpow_le. exact C.
Qed.

(** ** The operations *)
Definition val (x : double) (r : R) : Prop := is_finite x = true /\ B2R x = r.
Lemma small_rnd v : Rabs v <= bpow radix2 100 -> Rlt_bool (Rabs (rnd v)) (bpow radix2 1024) = true.
Proof.
  intros H. apply Rlt_bool_true. assert (Rabs v < bpow radix2 101) as K by (eapply Rle_lt_trans; [exact H|apply bpow_lt; lia]).
  pose proof (rnd_abs v 101 ltac:(lia) K) as E. assert (Rabs (rnd v) <= Rabs (rnd v - v) + Rabs v) as T.
  { replace (rnd v) with ((rnd v - v) + v) at 1 by ring. apply Rabs_triang. }
  assert (bpow radix2 (101 - 54) <= bpow radix2 100) by (apply bpow_le; lia). assert (bpow radix2 101 < bpow radix2 1024) by (apply bpow_lt; lia).
  assert (bpow radix2 101 = 2 * bpow radix2 100) by (change 101%Z with (1 + 100)%Z; rewrite bpow_plus; reflexivity). lra.
Qed.
Lemma dmul_val x y a b : val x a -> val y b -> Rabs (a * b) <= bpow radix2 100 -> val (dmul x y) (rnd (a * b)).
Proof.
  intros [Fx <-] [Fy <-] H. pose proof (Bmult_correct 53 1024 prec53 emax1024 mode_NE x y) as C. change (round_mode mode_NE) with ZnearestE in C. rewrite fexp_eq in C. rewrite small_rnd in C by exact H.
  destruct C as (C1 & C2 & _). split; [|exact C1]. unfold dmul. rewrite C2, Fx, Fy. reflexivity.
Qed.
Lemma ddiv_val x y a b : val x a -> val y b -> b <> 0 -> Rabs (a / b) <= bpow radix2 100 -> val (ddiv x y) (rnd (a / b)).
Proof.
  intros [Fx <-] [Fy <-] Hb H. pose proof (Bdiv_correct 53 1024 prec53 emax1024 mode_NE x y Hb) as C. change (round_mode mode_NE) with ZnearestE in C. rewrite fexp_eq in C. rewrite small_rnd in C by exact H.
  destruct C as (C1 & C2 & _). split; [|exact C1]. unfold ddiv. rewrite C2, Fx. reflexivity.
Qed.
Lemma of_Z_val z : (Z.abs z < 2 ^ 53)%Z -> val (of_Z z) (IZR z).
Proof.
  intros H. pose proof (binary_normalize_correct 53 1024 prec53 emax1024 mode_NE z 0 false) as C. cbv zeta in C. change (round_mode mode_NE) with ZnearestE in C. rewrite fexp_eq in C.
  assert (F2R (Float radix2 z 0) = IZR z) as E by (unfold F2R; simpl; ring). rewrite E in C.
  assert (rnd (IZR z) = IZR z) as Er.
  { apply round_generic; [apply valid_rnd_N|]. apply generic_format_FLT. exists (Float radix2 z 0); [symmetry; exact E|exact H|simpl; lia]. }
  rewrite Er in C. rewrite Rlt_bool_true in C.
  - destruct C as (C1 & C2 & _). split; [exact C2|exact C1].
  - rewrite <- abs_IZR. apply Rlt_le_trans with (IZR (2 ^ 53)); [apply IZR_lt; exact H|]. change (IZR (2 ^ 53)) with (bpow radix2 53). apply bpow_le. lia.
Qed.
Lemma nearby_val md x r : val x r -> val (Bnearbyint (prec_lt_emax_ := emax1024) md x) (IZR (round_mode md r)) /\ Btrunc (Bnearbyint (prec_lt_emax_ := emax1024) md x) = round_mode md r.
Proof.
  intros [F E]. pose proof (Bnearbyint_correct 53 1024 emax1024 md x) as (C1 & C2 & _). rewrite E in C1. rewrite round_FIX_IZR in C1. split; [split; [rewrite C2; exact F|exact C1]|].
  apply eq_IZR. rewrite Btrunc_correct by exact emax1024. rewrite C1, round_FIX_IZR. apply f_equal. apply Ztrunc_IZR.
Qed.
Lemma to_int64_val x z : val x (IZR z) -> (Z.abs z < 2 ^ 63)%Z -> to_int64 x = Some z.
Proof.
  intros [F E] H. assert (Btrunc x = z) as T. { apply eq_IZR. rewrite Btrunc_correct by exact emax1024. rewrite E, round_FIX_IZR. apply f_equal, Ztrunc_IZR. }
  unfold to_int64. rewrite F, T. replace (- 2 ^ 63 <=? z)%Z with true by (symmetry; apply Z.leb_le; lia). replace (z <? 2 ^ 63)%Z with true by (symmetry; apply Z.ltb_lt; lia). reflexivity.
Qed.
Lemma round_away x z : Rabs (x - IZR z) < / 2 -> ZnearestA x = z.
Proof. intros H. apply Znearest_imp. exact H. Qed.

(** ** The conversions of times *)
(** In the way of secToDur the product is rounded to the nearest integer *)
Lemma million : val (of_Z 1000000) 1000000.
Proof. apply (of_Z_val 1000000). reflexivity. Qed.
Lemma secToDur_val x s : val x s -> Rabs s < bpow radix2 42 -> exists y, Rabs (y - s * 1000000) <= bpow radix2 8 /\ y = rnd (s * 1000000) /\ secToDur x = Some (ZnearestA y) /\ Rabs (y - IZR (ZnearestA y)) <= / 2.
Proof.
  intros V H. assert (Rabs (s * 1000000) < bpow radix2 62) as K.
  { rewrite Rabs_mult, (Rabs_pos_eq 1000000) by lra. apply Rlt_le_trans with (bpow radix2 42 * 1000000); [apply Rmult_lt_compat_r; [lra|exact H]|].
    change 62%Z with (42 + 20)%Z. rewrite bpow_plus. apply Rmult_le_compat_l; [apply bpow_ge_0|]. simpl. lra. }
  exists (rnd (s * 1000000)). pose proof (rnd_abs _ 62 ltac:(lia) K) as E. change (62 - 54)%Z with 8%Z in E. split; [exact E|]. split; [reflexivity|].
  assert (Rabs (rnd (s * 1000000) - IZR (ZnearestA (rnd (s * 1000000)))) <= / 2) as N by apply Znearest_half. split; [|exact N].
  assert (val (dmul x (of_Z 1000000)) (rnd (s * 1000000))) as M.
  { apply dmul_val; [exact V|exact million|]. left. eapply Rlt_trans; [exact K|]. apply bpow_lt. lia. }
  unfold secToDur, dround. destruct (nearby_val mode_NA _ _ M) as [M1 M2]. change (round_mode mode_NA) with ZnearestA in *. apply to_int64_val; [exact M1|].
  apply lt_IZR. rewrite abs_IZR. set (y := rnd _) in *. set (z := ZnearestA y) in *. change (IZR (2 ^ 63)) with (bpow radix2 63).
  assert (Rabs (IZR z) <= Rabs (y - IZR z) + Rabs (y - s * 1000000) + Rabs (s * 1000000)).
  { replace (IZR z) with (- (y - IZR z) + (y - s * 1000000) + s * 1000000) at 1 by ring. eapply Rle_trans; [apply Rabs_triang|]. apply Rplus_le_compat_r. eapply Rle_trans; [apply Rabs_triang|]. rewrite Rabs_Ropp. lra. }
  assert (bpow radix2 63 = 2 * bpow radix2 62) by (change 63%Z with (1 + 62)%Z; rewrite bpow_plus; reflexivity). assert (bpow radix2 8 < bpow radix2 60) by (apply bpow_lt; lia).
  assert (bpow radix2 62 = 4 * bpow radix2 60) by (change 62%Z with (2 + 60)%Z; rewrite bpow_plus; reflexivity). assert (1 < bpow radix2 60) by (change 1 with (bpow radix2 0); apply bpow_lt; lia). lra.
Qed.
Lemma abs_IZR_lt d n : (Z.abs d < n)%Z -> Rabs (IZR d) < IZR n.
Proof. intros H. rewrite <- abs_IZR. apply IZR_lt. exact H. Qed.
Lemma durToSec_val d : (Z.abs d < 2 ^ 53)%Z -> val (durToSec d) (rnd (IZR d / 1000000)).
Proof.
  intros H. unfold durToSec. apply ddiv_val; [apply of_Z_val; exact H|exact million|lra|]. apply abs_IZR_lt in H. unfold Rdiv. rewrite Rabs_mult, (Rabs_pos_eq (/ 1000000)) by lra.
  apply Rle_trans with (bpow radix2 53); [|apply bpow_le; lia]. change (IZR (2 ^ 53)) with (bpow radix2 53) in H. pose proof (Rabs_pos (IZR d)). lra.
Qed.
(** C85: a duration converted to seconds and back is the same, up to 2^32 seconds: for times
    since 1970 this is all of the years 1834 to 2105. *)
Theorem C85_round_trip d : (Z.abs d < 2 ^ 32 * 1000000)%Z -> secToDur (durToSec d) = Some d.
Proof.
  intros H. assert (Z.abs d < 2 ^ 53)%Z as H53 by lia. pose proof (durToSec_val d H53) as V. apply abs_IZR_lt in H. rewrite mult_IZR in H. change (IZR (2 ^ 32)) with (bpow radix2 32) in H.
  set (a := IZR d / 1000000) in *. assert (Rabs a < bpow radix2 32) as Ha. { unfold a, Rdiv. rewrite Rabs_mult, (Rabs_pos_eq (/ 1000000)) by lra. lra. }
  pose proof (rnd_abs a 32 ltac:(lia) Ha) as E. change (32 - 54)%Z with (-22)%Z in E.
  assert (bpow radix2 (-22) = / 4194304) as B by reflexivity. rewrite B in E.
  assert (bpow radix2 32 = 4294967296) as B32 by reflexivity. rewrite B32 in *.
  assert (Rabs (rnd a) <= 4294967297) as Hx. { replace (rnd a) with ((rnd a - a) + a) by ring. eapply Rle_trans; [apply Rabs_triang|]. lra. }
  destruct (secToDur_val _ _ V) as (y & _ & Ey & -> & _). { eapply Rle_lt_trans; [exact Hx|]. simpl. lra. }
  f_equal. apply round_away. assert (Rabs (rnd a * 1000000) < bpow radix2 52) as K. { rewrite Rabs_mult, (Rabs_pos_eq 1000000) by lra. simpl. change (IZR (Z.pow_pos 2 52)) with 4503599627370496. lra. }
  pose proof (rnd_abs _ 52 ltac:(lia) K) as E2. change (52 - 54)%Z with (-2)%Z in E2. assert (bpow radix2 (-2) = / 4) as B2 by reflexivity. rewrite B2 in E2. rewrite <- Ey in E2.
  assert (IZR d = a * 1000000) as Ed by (unfold a; field). apply Rabs_le_inv in E, E2. apply Rabs_lt. rewrite Ed. lra.
Qed.
(** C85: after that it can be off by a microsecond (in the year 2106). *)
Theorem C85_round_trip_refuted : exists d, (Z.abs d < 2 ^ 52)%Z /\ secToDur (durToSec d) = Some (d + 1)%Z.
Proof. exists 4294967296000011%Z. split; vm_compute; reflexivity. Qed.
(** C85: seconds are converted to the nearest microsecond, with a deviation that grows with
    the value: less than a ten thousandth of a microsecond up to 2^20 seconds (12 days). *)
Theorem C85_nearest x e : is_finite x = true -> (0 <= e <= 42)%Z -> Rabs (B2R x) < bpow radix2 e ->
  exists d, secToDur x = Some d /\ Rabs (IZR d - B2R x * 1000000) <= / 2 + bpow radix2 (e - 34).
Proof.
  intros F He H. destruct (secToDur_val x (B2R x) (conj F eq_refl)) as (y & _ & Ey & E & N). { eapply Rlt_le_trans; [exact H|]. apply bpow_le. lia. }
  exists (ZnearestA y). split; [exact E|]. assert (Rabs (B2R x * 1000000) < bpow radix2 (e + 20)) as K.
  { rewrite Rabs_mult, (Rabs_pos_eq 1000000) by lra. apply Rlt_le_trans with (bpow radix2 e * 1000000); [apply Rmult_lt_compat_r; [lra|exact H]|]. rewrite bpow_plus. apply Rmult_le_compat_l; [apply bpow_ge_0|]. simpl. lra. }
  pose proof (rnd_abs _ (e + 20) ltac:(lia) K) as E2. rewrite <- Ey in E2. replace (e + 20 - 54)%Z with (e - 34)%Z in E2 by lia.
  replace (IZR (ZnearestA y) - B2R x * 1000000) with (- (y - IZR (ZnearestA y)) + (y - B2R x * 1000000)) by ring. eapply Rle_trans; [apply Rabs_triang|]. rewrite Rabs_Ropp. lra.
Qed.
(** C85: both conversions keep the order. *)
Theorem C85_order d d' : (Z.abs d < 2 ^ 53)%Z -> (Z.abs d' < 2 ^ 53)%Z -> (d <= d')%Z -> Bleb (durToSec d) (durToSec d') = true.
Proof.
  intros H H' L. destruct (durToSec_val d H) as [F E], (durToSec_val d' H') as [F' E']. rewrite Bleb_correct by assumption. apply Rle_bool_true. rewrite E, E'.
  apply round_le; [apply flt_valid|apply valid_rnd_N|]. apply IZR_le in L. lra.
Qed.
Theorem C85_order_back x x' : is_finite x = true -> is_finite x' = true -> Rabs (B2R x) < bpow radix2 42 -> Rabs (B2R x') < bpow radix2 42 -> Bleb x x' = true ->
  exists d d', secToDur x = Some d /\ secToDur x' = Some d' /\ (d <= d')%Z.
Proof.
  intros F F' H H' L. rewrite Bleb_correct in L by assumption. destruct (Rle_bool_spec (B2R x) (B2R x')) as [K|]; [|discriminate]. clear L.
  destruct (secToDur_val x _ (conj F eq_refl) H) as (y & _ & Ey & E & _). destruct (secToDur_val x' _ (conj F' eq_refl) H') as (y' & _ & Ey' & E' & _).
  exists (ZnearestA y), (ZnearestA y'). split; [exact E|]. split; [exact E'|]. apply (@Zrnd_le ZnearestA (valid_rnd_N _)). rewrite Ey, Ey'. apply round_le; [apply flt_valid|apply valid_rnd_N|]. lra.
Qed.

(** ** Cutting a trace *)
(** Two operations in a row *)
Lemma rnd_pos x : 0 <= x -> 0 <= rnd x.
Proof. intros H. rewrite <- (round_0 radix2 (FLT_exp (-1074) 53) ZnearestE). apply round_le; [apply flt_valid|apply valid_rnd_N|exact H]. Qed.
Lemma two_rnd a f : a = 0 \/ / 10000000 <= a -> 1 <= f -> 0 <= rnd (rnd a * f) /\ Rabs (rnd (rnd a * f) - a * f) <= 3 * u * (a * f).
Proof.
  intros Ha Hf. destruct Ha as [->|Ha].
  { rewrite round_0 by apply valid_rnd_N. rewrite Rmult_0_l, round_0 by apply valid_rnd_N. split; [lra|]. rewrite Rminus_0_r, Rabs_R0. lra. }
  assert (0 < u < / 1000) as Hu by (unfold u; lra).
  pose proof (rnd_rel a ltac:(right; rewrite Rabs_pos_eq; lra)) as E1. rewrite (Rabs_pos_eq a) in E1 by lra. set (x := rnd a) in *.
  apply Rabs_le_inv in E1. assert (/ 20000000 <= x) as Hx by nra. assert (/ 20000000 <= x * f) as Hxf by nra.
  pose proof (rnd_rel (x * f) ltac:(right; rewrite Rabs_pos_eq; lra)) as E2. rewrite (Rabs_pos_eq (x * f)) in E2 by lra. split; [apply rnd_pos; lra|].
  set (y := rnd (x * f)) in *. apply Rabs_le_inv in E2. apply Rabs_le.
  assert (- (u * a) * f <= (x - a) * f <= u * a * f) as D by (split; apply Rmult_le_compat_r; lra).
  assert (x * f <= (1 + u) * (a * f)) by nra. assert (u * (x * f) <= u * (1 + u) * (a * f)) by nra. assert (0 < a * f) by nra. assert (u * (1 + u) * (a * f) <= 2 * u * (a * f)) by nra. split; nra.
Qed.
Section slice.
Context {A : Type}.
Implicit Types t : ftrace A.
Variable F : Z.
Hypothesis HF : (1 <= F <= 2 ^ 20)%Z.
Let period : R := 1000000 / IZR F.
Lemma HFr : 1 <= IZR F <= 1048576.
Proof using HF. destruct HF as [H1 H2]. apply IZR_le in H1, H2. change (IZR (2 ^ 20)) with 1048576 in H2. lra. Qed.
(** The index of a time, and its distance from the exact one *)
Lemma index_val t time : val (f_freq t) (IZR F) -> (0 <= time - f_start t < 2 ^ 41)%Z -> ((time - f_start t) * F <= 2 ^ 31 * 1000000)%Z ->
  exists y, val (index t time) y /\ 0 <= y /\ Rabs (y - IZR ((time - f_start t) * F) / 1000000) < / 1000000.
Proof using HF.
  intros VF Hd Hq. set (d := (time - f_start t)%Z) in *. pose proof HFr as Fr. pose proof (durToSec_val d ltac:(lia)) as V. set (a := IZR d / 1000000) in *.
  assert (0 <= IZR d) as Hd0 by (apply IZR_le; lia). assert (IZR d * IZR F <= 2147483648000000) as Hq' by (rewrite <- mult_IZR; apply IZR_le; lia).
  assert (a * IZR F <= 2147483648) as Haf by (unfold a; lra). assert (0 <= a) as Ha0 by (unfold a; lra).
  assert (a = 0 \/ / 10000000 <= a) as Ha. { destruct (Z.eq_dec d 0) as [->|Hne]; [left; unfold a; lra|right]. assert (1 <= IZR d) by (apply IZR_le; lia). unfold a. lra. }
  destruct (two_rnd a (IZR F) Ha ltac:(lra)) as [P E]. exists (rnd (rnd a * IZR F)). split.
  { unfold index. apply dmul_val; [exact V|exact VF|]. assert (Rabs (rnd a) <= 2147483649) as Hx.
    { pose proof (rnd_rel a) as R1. rewrite Rabs_pos_eq by (apply rnd_pos; exact Ha0). assert (a <= 2147483648) by nra. assert (Rabs (rnd a - a) <= u * Rabs a) as R2 by (apply R1; destruct Ha; [left; lra|right; rewrite Rabs_pos_eq; lra]).
      rewrite (Rabs_pos_eq a) in R2 by lra. apply Rabs_le_inv in R2. unfold u in R2. lra. }
    rewrite Rabs_mult, (Rabs_pos_eq (IZR F)) by lra. apply Rle_trans with (2147483649 * 1048576); [apply Rmult_le_compat; try lra; apply Rabs_pos|]. apply Rle_trans with (bpow radix2 60); [simpl; change (IZR (Z.pow_pos 2 60)) with 1152921504606846976; lra|apply bpow_le; lia]. }
  split; [exact P|]. replace (IZR (d * F) / 1000000) with (a * IZR F) by (unfold a; rewrite mult_IZR; field). eapply Rle_lt_trans; [exact E|]. unfold u. lra.
Qed.
(** The time of a sample *)
Lemma shift_val x f i : val f (IZR F) -> val x (IZR i) -> (0 <= i)%Z -> (i * 1000000 <= 2 ^ 40 * F)%Z ->
  exists d, secToDur (ddiv x f) = Some d /\ Rabs (IZR d - IZR i * period) <= / 2 + / 1000 /\
    (forall m, IZR i * period <= IZR m -> (d <= m)%Z) /\ (forall m, IZR m <= IZR i * period -> (m <= d)%Z).
Proof using HF.
  intros VF Vx Hi Hb. pose proof HFr as Fr. assert (0 <= IZR i) as Hi0 by (apply IZR_le; exact Hi). set (a := IZR i / IZR F).
  assert (0 <= a) as Ha0 by (unfold a; apply Rle_mult_inv_pos; lra).
  assert (IZR i * 1000000 <= 1099511627776 * IZR F) as Hb'. { rewrite <- !mult_IZR. apply IZR_le. lia. }
  assert (IZR i = a * IZR F) as Ei by (unfold a; field; lra). assert (a * 1000000 <= 1099511627776) as Ha.
  { apply Rmult_le_reg_r with (IZR F); [lra|]. rewrite Ei in Hb'. lra. }
  assert (a = 0 \/ / 10000000 <= a) as Hz. { destruct (Z.eq_dec i 0) as [->|Hne]; [left; unfold a; lra|right]. assert (1 <= IZR i) by (apply IZR_le; lia). apply Rmult_le_reg_r with (IZR F); [lra|]. rewrite <- Ei. lra. }
  assert (val (ddiv x f) (rnd a)) as V. { apply ddiv_val; [exact Vx|exact VF|lra|]. change (IZR i / IZR F) with a. rewrite Rabs_pos_eq by exact Ha0. apply Rle_trans with (bpow radix2 40); [simpl; change (IZR (Z.pow_pos 2 40)) with 1099511627776; lra|apply bpow_le; lia]. }
  destruct (two_rnd a 1000000 Hz ltac:(lra)) as [P E].
  assert (Rabs (rnd a) < bpow radix2 42) as Hx. { rewrite Rabs_pos_eq by (apply rnd_pos; exact Ha0). assert (Rabs (rnd a - a) <= u * Rabs a) as R2 by (apply rnd_rel; destruct Hz; [left; lra|right; rewrite Rabs_pos_eq; lra]).
    rewrite (Rabs_pos_eq a) in R2 by lra. apply Rabs_le_inv in R2. unfold u in R2. simpl. change (IZR (Z.pow_pos 2 42)) with 4398046511104. lra. }
  destruct (secToDur_val _ _ V Hx) as (y & _ & Ey & Es & N). exists (ZnearestA y). split; [exact Es|].
  replace (IZR i * period) with (a * 1000000) by (unfold a, period; field; lra). rewrite <- Ey in E.
  assert (Rabs (y - a * 1000000) <= / 1000) as E'. { eapply Rle_trans; [exact E|]. unfold u. lra. }
  apply Rabs_le_inv in E', N. split; [apply Rabs_le; lra|]. split; intros m Hm.
  - apply Z.lt_succ_r. apply lt_IZR. rewrite succ_IZR. lra.
  - apply Z.lt_succ_r. apply lt_IZR. rewrite succ_IZR. lra.
Qed.
(** The samples that are kept *)
Definition kept (X Y i j : Z) : Prop := (0 <= i <= j)%Z /\ (i * 1000000 <= X <= (i + 1) * 1000000)%Z /\ (Y <= j * 1000000 <= Y + 1000000)%Z.
Lemma offsets t w : val (f_freq t) (IZR F) -> (f_start t <= w_start w <= w_end w)%Z -> (w_end w - f_start t < 2 ^ 41)%Z -> ((w_end w - f_start t) * F <= 2 ^ 31 * 1000000)%Z ->
  exists i j, val (dfloor (index t (w_start w))) (IZR i) /\ val (dceil (index t (w_end w))) (IZR j) /\ kept ((w_start w - f_start t) * F) ((w_end w - f_start t) * F) i j.
Proof using HF.
  intros VF Hw Hlen Hq. destruct (index_val t (w_start w) VF ltac:(lia) ltac:(nia)) as (y & Vy & Py & Ey). destruct (index_val t (w_end w) VF ltac:(lia) Hq) as (z & Vz & Pz & Ez).
  destruct (nearby_val mode_DN _ _ Vy) as [Fy _]. destruct (nearby_val mode_UP _ _ Vz) as [Cz _]. change (round_mode mode_DN) with Zfloor in Fy. change (round_mode mode_UP) with Zceil in Cz.
  exists (Zfloor y), (Zceil z). split; [exact Fy|]. split; [exact Cz|].
  set (X := ((w_start w - f_start t) * F)%Z) in *. set (Y := ((w_end w - f_start t) * F)%Z) in *. assert (X <= Y)%Z as XY by (unfold X, Y; nia).
  apply Rabs_lt_inv in Ey, Ez. pose proof (Zfloor_lb y). pose proof (Zfloor_ub y). pose proof (Zceil_ub z). pose proof (Zceil_lb z) as Clb.
  assert (Zfloor y * 1000000 <= X)%Z as K1 by (apply Z.lt_succ_r, lt_IZR; rewrite succ_IZR, mult_IZR; lra).
  assert (X <= (Zfloor y + 1) * 1000000)%Z as K2 by (apply Z.lt_succ_r, lt_IZR; rewrite succ_IZR, mult_IZR, plus_IZR; lra).
  assert (Y <= Zceil z * 1000000)%Z as K3 by (apply Z.lt_succ_r, lt_IZR; rewrite succ_IZR, mult_IZR; lra).
  assert (Zceil z * 1000000 <= Y + 1000000)%Z as K4 by (apply Z.lt_succ_r, lt_IZR; rewrite succ_IZR, mult_IZR, plus_IZR; lra).
  assert (0 <= Zfloor y)%Z as K5 by (apply Zfloor_lub; exact Py). unfold kept. lia.
Qed.
Definition sized t : Prop := (1 <= count t <= 2 ^ 31)%Z /\ ((count t - 1) * 1000000 < 2 ^ 40 * F)%Z.
Lemma end_val t : val (f_freq t) (IZR F) -> sized t -> exists d, end_time t = Some (f_start t + d)%Z /\ (0 <= d)%Z /\ Rabs (IZR d - IZR (count t - 1) * period) <= / 2 + / 1000 /\
   (forall m, (m * F <= (count t - 1) * 1000000)%Z -> (m <= d)%Z).
Proof using HF.
  intros VF [[H1 H2] H3]. pose proof HFr as Fr. destruct (shift_val (of_Z (count t - 1)) (f_freq t) (count t - 1) VF (of_Z_val (count t - 1) ltac:(lia)) ltac:(lia) ltac:(lia)) as (d & Ed & D1 & D2 & D3).
  exists d. unfold end_time. destruct (f_data t) eqn:E. { exfalso. unfold count in H1. rewrite E in H1. simpl in H1. lia. }
  rewrite Ed. split; [reflexivity|]. assert (forall m, (m * F <= (count t - 1) * 1000000)%Z -> (m <= d)%Z) as D4.
  { intros m Hm. apply D3. unfold period. apply IZR_le in Hm. rewrite !mult_IZR in Hm. apply Rmult_le_reg_r with (IZR F); [lra|]. replace (IZR (count t - 1) * (1000000 / IZR F) * IZR F) with (IZR (count t - 1) * 1000000) by (field; lra). exact Hm. }
  split; [apply D4; nia|]. split; [exact D1|exact D4].
Qed.
Lemma end_upper t d : sized t -> Rabs (IZR d - IZR (count t - 1) * period) <= / 2 + / 1000 -> (d * F <= count t * 1000000)%Z /\ ((count t - 1) * 1000000 <= d * F + 1000000)%Z.
Proof using HF.
  intros _ D. pose proof HFr as Fr. apply Rabs_le_inv in D. assert (IZR (count t - 1) * period * IZR F = IZR (count t - 1) * 1000000) as E by (unfold period; field; lra). rewrite minus_IZR in E, D.
  split; apply le_IZR; rewrite ?plus_IZR, !mult_IZR, ?minus_IZR.
  - assert (IZR d * IZR F <= ((IZR (count t) - 1) * period + (/ 2 + / 1000)) * IZR F) by (apply Rmult_le_compat_r; lra). nra.
  - assert (((IZR (count t) - 1) * period - (/ 2 + / 1000)) * IZR F <= IZR d * IZR F) by (apply Rmult_le_compat_r; lra). nra.
Qed.
(** C85: with a whole number of samples per second nothing is undefined, and a window that
    ends before the last sample is always cut out: the samples kept begin at most one sample
    before the window and end at most one sample after it; a sample more than needed is kept
    only if the border of the window is on a sample. The new start time is that of the first
    sample kept, rounded to the microsecond. Only a window that ends on the last sample can
    fail. *)
Theorem C85_slice t w : val (f_freq t) (IZR F) -> sized t -> (f_start t <= w_start w <= w_end w)%Z -> ((w_end w - f_start t) * F <= (count t - 1) * 1000000)%Z ->
  (slice t w = FFalse /\ ((w_end w - f_start t) * F = (count t - 1) * 1000000)%Z) \/
  exists t' i j, slice t w = FTrue t' /\ (j < count t)%Z /\ kept ((w_start w - f_start t) * F) ((w_end w - f_start t) * F) i j /\
    f_freq t' = f_freq t /\ f_data t' = firstn (Z.to_nat (j - i + 1)) (skipn (Z.to_nat i) (f_data t)) /\
    Rabs (IZR (f_start t' - f_start t) - IZR i * (1000000 / IZR F)) <= / 2 + / 1000.
Proof using HF.
  intros VF HS Hw Hend. destruct (end_val t VF HS) as (d & Ee & D0 & D1 & D2). destruct (end_upper t d HS D1) as [U1 U2]. pose proof HFr as Fr. destruct HS as [[S1 S2] S3].
  unfold slice. rewrite Ee. assert (mk_tw 0 (f_start t) (f_start t + d) = Tw (f_start t) (f_start t + d)) as Etw.
  { unfold mk_tw, set_end. simpl. destruct (Z.ltb_spec (f_start t + d) (f_start t)); [lia|reflexivity]. }
  rewrite Etw. cbn [w_start w_end]. destruct ((f_start t =? w_start w)%Z && (f_start t + d =? w_end w)%Z) eqn:Eq.
  { apply andb_true_iff in Eq as [E1 E2]. apply Z.eqb_eq in E1, E2. right. exists t, 0%Z, (count t - 1)%Z. split; [reflexivity|]. split; [lia|]. split.
    { unfold kept. rewrite <- E1, <- E2 in *. replace (f_start t + d - f_start t)%Z with d in * by lia. rewrite Z.sub_diag in *. lia. }
    split; [reflexivity|]. split; [|rewrite Z.sub_diag; rewrite Rmult_0_l, Rminus_0_r, Rabs_R0; lra].
    change (Z.to_nat 0) with 0%nat. cbn [skipn]. symmetry. apply firstn_all2. unfold count in *. lia. }
  assert (w_end w - f_start t <= d)%Z as Hd by (apply D2; exact Hend).
  assert (w_contains {| w_start := f_start t; w_end := (f_start t + d)%Z |} w = true) as Ec. { unfold w_contains. cbn [w_start w_end]. apply andb_true_iff. rewrite !Z.leb_le. lia. }
  rewrite Ec. cbn [negb]. assert (d < 2 ^ 41)%Z as Hd41 by nia.
  destruct (offsets t w VF Hw ltac:(lia) ltac:(nia)) as (i & j & [Fi Vi] & [Fj Vj] & K).
  destruct (of_Z_val 0 eq_refl) as [F0 V0]. destruct (of_Z_val (count t) ltac:(lia)) as [Fc Vc].
  rewrite Bltb_correct, Vi, V0 by assumption. rewrite Rlt_bool_false by (apply IZR_le; unfold kept in K; lia).
  rewrite Bleb_correct, Vj, Vc by assumption. destruct (Rle_bool_spec (IZR (count t)) (IZR j)) as [L|L].
  { apply le_IZR in L. left. split; [reflexivity|]. unfold kept in K. lia. }
  apply lt_IZR in L. right. rewrite (to_int64_val _ i (conj Fi Vi)) by (unfold kept in K; lia). rewrite (to_int64_val _ j (conj Fj Vj)) by (unfold kept in K; lia).
  destruct (shift_val (dfloor (index t (w_start w))) (f_freq t) i VF (conj Fi Vi)) as (sh & Esh & Sh1 & _); [unfold kept in K; lia|unfold kept in K; lia|].
  rewrite Esh. unfold sub_vector. replace ((0 <=? i)%Z && (i <=? j + 1)%Z && (j + 1 <=? Z.of_nat (length (f_data t)))%Z) with true.
  2: { symmetry. unfold kept in K. unfold count in L. rewrite !andb_true_iff, !Z.leb_le. lia. }
  eexists _, i, j. split; [reflexivity|]. split; [exact L|]. split; [exact K|]. split; [reflexivity|]. cbn [f_data f_start]. split; [f_equal; lia|].
  replace (f_start t + sh - f_start t)%Z with sh by lia. exact Sh1.
Qed.
Theorem C85_defined t w : val (f_freq t) (IZR F) -> sized t -> (w_start w <= w_end w)%Z -> slice t w <> FUndef.
Proof using HF.
  intros VF HS Hw. destruct (end_val t VF HS) as (d & Ee & D0 & D1 & D2). destruct (end_upper t d HS D1) as [U1 U2]. pose proof HFr as Fr. destruct HS as [[S1 S2] S3].
  unfold slice. rewrite Ee. assert (mk_tw 0 (f_start t) (f_start t + d) = Tw (f_start t) (f_start t + d)) as Etw.
  { unfold mk_tw, set_end. simpl. destruct (Z.ltb_spec (f_start t + d) (f_start t)); [lia|reflexivity]. }
  rewrite Etw. cbn [w_start w_end]. destruct ((f_start t =? w_start w)%Z && (f_start t + d =? w_end w)%Z); [discriminate|].
  destruct (w_contains _ w) eqn:Ec; [|discriminate]. cbn [negb]. unfold w_contains in Ec. cbn [w_start w_end] in Ec. apply andb_true_iff in Ec as [C1 C2]. apply Z.leb_le in C1, C2.
  assert (d < 2 ^ 41)%Z as Hd41 by nia. destruct (offsets t w VF ltac:(lia) ltac:(lia) ltac:(nia)) as (i & j & [Fi Vi] & [Fj Vj] & K).
  destruct (of_Z_val 0 eq_refl) as [F0 V0]. destruct (of_Z_val (count t) ltac:(lia)) as [Fc Vc].
  rewrite Bltb_correct, Vi, V0 by assumption. rewrite Rlt_bool_false by (apply IZR_le; unfold kept in K; lia).
  rewrite Bleb_correct, Vj, Vc by assumption. destruct (Rle_bool_spec (IZR (count t)) (IZR j)) as [L|L]; [discriminate|]. apply lt_IZR in L.
  rewrite (to_int64_val _ i (conj Fi Vi)) by (unfold kept in K; lia). rewrite (to_int64_val _ j (conj Fj Vj)) by (unfold kept in K; lia).
  destruct (shift_val (dfloor (index t (w_start w))) (f_freq t) i VF (conj Fi Vi)) as (sh & Esh & Sh1 & _); [unfold kept in K; lia|unfold kept in K; lia|].
  rewrite Esh. unfold sub_vector. replace ((0 <=? i)%Z && (i <=? j + 1)%Z && (j + 1 <=? Z.of_nat (length (f_data t)))%Z) with true; [discriminate|].
  symmetry. unfold kept in K. unfold count in L. rewrite !andb_true_iff, !Z.leb_le. lia.
Qed.
End slice.
(** C85: the failure happens. Eight samples at 100 Hz, and a window from the second to the
    last sample: 0.07 s times 100 is more than 7 in double precision. *)
Theorem C85_last_sample_refuted : exists (t : ftrace nat) w, val (f_freq t) 100 /\ sized 100 t /\ (f_start t <= w_start w <= w_end w)%Z /\
  end_time t = Some (w_end w) /\ slice t w = FFalse.
Proof.
  exists (FTrace 0 (of_Z 100) [0; 1; 2; 3; 4; 5; 6; 7]%nat), (Tw 10000 70000). split; [apply (of_Z_val 100); reflexivity|].
  split; [unfold sized, count; cbn; lia|]. split; [cbn; lia|]. split; vm_compute; reflexivity.
Qed.
(** Two cuts of the same trace: borders between samples, and borders on samples *)
Definition shown (r : @fslice nat) : option (Z * list nat) := match r with FTrue t => Some (f_start t, f_data t) | _ => None end.
Definition eight : ftrace nat := FTrace 0 (of_Z 100) [0; 1; 2; 3; 4; 5; 6; 7]%nat.
Example eight_between : shown (slice eight (Tw 15000 42000)) = Some (10000%Z, [1; 2; 3; 4; 5]%nat).
Proof. vm_compute. reflexivity. Qed.
Example eight_on : shown (slice eight (Tw 10000 40000)) = Some (10000%Z, [1; 2; 3; 4]%nat).
Proof. vm_compute. reflexivity. Qed.
Example eight_outside : slice eight (Tw (-1) 40000) = FFalse.
Proof. vm_compute. reflexivity. Qed.
Example eight_applies : exists t' i j, slice eight (Tw 15000 42000) = FTrue t' /\ (j < 8)%Z /\ kept (15000 * 100) (42000 * 100) i j.
Proof.
  destruct (C85_slice 100 ltac:(lia) eight (Tw 15000 42000)) as [[_ H]|(t' & i & j & H1 & H2 & H3 & _)].
  - apply (of_Z_val 100). reflexivity.
  - unfold sized, count; cbn; lia.
  - cbn; lia.
  - unfold count; cbn; lia.
  - exfalso. unfold count in H. cbn in H. lia.
  - exists t', i, j. auto.
Qed.

Print Assumptions C85_round_trip.
Print Assumptions C85_round_trip_refuted.
Print Assumptions C85_nearest.
Print Assumptions C85_order.
Print Assumptions C85_order_back.
Print Assumptions C85_slice.
Print Assumptions C85_defined.
Print Assumptions C85_last_sample_refuted.
