(** C68: resampling. *)
From Coq Require Import Reals List ZArith Lra Lia.
From Verif Require Import Geo_Model Resample_Model.
Import ListNotations.
Local Open Scope R_scope.

(** ** Specification *)
Fixpoint Rsum (l : list R) : R := match l with [] => 0 | a :: r => a + Rsum r end.
(** The windowed sinc low pass at distance [t] (in old samples): cutoff [f], width [w], unit sampling. *)
Definition sinc (t : R) : R := if Req_EM_T t 0 then 1 else sin t / t.
Definition lowpass (f w t : R) : R := 2 * f * (cos (PI * t / w) * cos (PI * t / w)) * sinc (2 * PI * f * t).
(** the sum over the samples number [lo] to [hi] (excluded), as far as they exist *)
Definition filtered (data : list R) (f w x : R) (lo hi : Z) : R :=
  Rsum (map (fun j => if ((lo <=? Z.of_nat j) && (Z.of_nat j <? hi))%Z%bool then lowpass f w (INR j - x) * nth j data 0 else 0)
            (seq 0 (length data))).

(** ** Conversions *)
Lemma Int_part_bound x : IZR (Int_part x) <= x < IZR (Int_part x) + 1.
Proof. pose proof (base_Int_part x). lra. Qed.
Lemma Int_part_unique x z : IZR z <= x < IZR z + 1 -> Int_part x = z.
Proof.
  intros H. pose proof (Int_part_bound x) as B.
  assert (IZR (Int_part x) < IZR (z + 1)) as H1 by (rewrite plus_IZR; lra). apply lt_IZR in H1.
  assert (IZR z < IZR (Int_part x + 1)) as H2 by (rewrite plus_IZR; lra). apply lt_IZR in H2. lia.
Qed.
Lemma trunc_nonneg x : 0 <= x -> IZR (trunc x) <= x < IZR (trunc x) + 1.
Proof. intros H. unfold trunc. destruct (Rle_dec 0 x); [apply Int_part_bound|lra]. Qed.
Lemma trunc_IZR z : trunc (IZR z) = z.
Proof.
  unfold trunc. destruct (Rle_dec 0 (IZR z)); [apply Int_part_unique; lra|].
  rewrite <- opp_IZR. rewrite (Int_part_unique _ (- z)%Z); [lia|lra].
Qed.
Lemma half_down L : (0 <= L)%Z -> trunc (- (IZR L / 2)) = (- (L / 2))%Z.
Proof.
  intros HL. pose proof (Z.div_mod L 2 ltac:(lia)) as E. pose proof (Z.mod_pos_bound L 2 ltac:(lia)) as M.
  set (q := (L / 2)%Z) in *. set (m := (L mod 2)%Z) in *.
  assert (IZR L = 2 * IZR q + IZR m) as ER by (rewrite E at 1; rewrite plus_IZR, mult_IZR; lra).
  assert (0 <= IZR m <= 1) as MR. { split; apply IZR_le; lia. }
  assert (0 <= IZR q) as QR. { apply IZR_le. unfold q. apply Z.div_pos; lia. }
  unfold trunc. destruct (Rle_dec 0 (- (IZR L / 2))) as [H|H].
  - assert (IZR q = 0 /\ IZR m = 0) as [Eq Em] by lra. apply eq_IZR in Eq, Em. rewrite Eq.
    apply Int_part_unique. rewrite ER, Eq, Em. change (IZR (- 0)) with 0. lra.
  - f_equal. rewrite Ropp_involutive. apply Int_part_unique. lra.
Qed.
Lemma cond_iff L i : (0 <= L)%Z -> IZR i < IZR L - IZR L / 2 <-> (i < L - L / 2)%Z.
Proof.
  intros HL. pose proof (Z.div_mod L 2 ltac:(lia)) as E. pose proof (Z.mod_pos_bound L 2 ltac:(lia)) as M.
  set (q := (L / 2)%Z) in *. set (m := (L mod 2)%Z) in *.
  assert (IZR L = 2 * IZR q + IZR m) as ER by (rewrite E at 1; rewrite plus_IZR, mult_IZR; lra).
  split; intros H.
  - assert (IZR (2 * i) < IZR (2 * q + m)) as H1.
    { rewrite mult_IZR, plus_IZR, mult_IZR. lra. }
    apply lt_IZR in H1. lia.
  - assert (2 * i < 2 * q + m)%Z as H1 by lia. apply IZR_lt in H1. rewrite mult_IZR, plus_IZR, mult_IZR in H1. lra.
Qed.

Section sample.
Variable data : list R.
Variables data_sf x fmax : R.
Variable L : Z.
Hypothesis HL : (0 < L)%Z.
Hypothesis Hsf : 0 < data_sf.
Hypothesis Hx : 0 <= x.

Notation body := (win_body data data_sf x fmax L).
Notation loop := (win_loop data data_sf x fmax L).
Definition zr (a : Z) (c : nat) : list Z := map (fun k => (a + Z.of_nat k)%Z) (seq 0 c).
Lemma zr_S a c : zr a (S c) = a :: zr (a + 1) c.
Proof.
  unfold zr. cbn [seq map]. f_equal; [lia|]. rewrite <- seq_shift, map_map. apply map_ext. intros k. lia.
Qed.
Lemma zr_S' a c : zr a (S c) = zr a c ++ [(a + Z.of_nat c)%Z].
Proof. unfold zr. rewrite seq_S, map_app. reflexivity. Qed.
Lemma loop_fold c : forall fuel i acc, (c < fuel)%nat -> (i + Z.of_nat c = L - L / 2)%Z ->
  loop fuel i acc = fold_left (fun a w => body w a) (zr i c) acc.
Proof using HL.
  induction c as [|c IH]; intros fuel i acc Hf Hi; (destruct fuel as [|fuel]; [lia|]); cbn [win_loop].
  - destruct (Rlt_dec (IZR i) (IZR L - IZR L / 2)) as [H|H]; [|reflexivity]. apply cond_iff in H; lia.
  - destruct (Rlt_dec (IZR i) (IZR L - IZR L / 2)) as [H|H]; [|exfalso; apply H; apply cond_iff; lia].
    rewrite zr_S. cbn [fold_left]. apply IH; lia.
Qed.
(** the term of one input sample; zero if it does not exist *)
Definition g (z : Z) : R := match readz data z with Some d => factor_of data_sf fmax L (IZR z - x) * d | None => 0 end.
Lemma body_g w acc : body w acc = acc + g (trunc (x + IZR w)).
Proof using. unfold win_body, g. destruct (readz data _); lra. Qed.
Lemma fold_g l : forall acc, fold_left (fun a w => body w a) l acc = acc + Rsum (map (fun w => g (trunc (x + IZR w))) l).
Proof using.
  induction l as [|w l IH]; intros acc; cbn [fold_left map Rsum]; [lra|]. rewrite IH, body_g. lra.
Qed.
(** C68: the loop ends by its condition; it runs over the window of [L] places. *)
Theorem C68_loop : new_sample data data_sf x fmax L = Rsum (map (fun w => g (trunc (x + IZR w))) (zr (- (L / 2)) (Z.to_nat L))).
Proof using HL.
  unfold new_sample. rewrite half_down by lia.
  rewrite (loop_fold (Z.to_nat L)); [rewrite fold_g; lra|lia|lia].
Qed.

Notation X := (Int_part x).
Lemma X_nonneg : (0 <= X)%Z.
Proof using Hx. pose proof (Int_part_bound x) as B. assert (IZR (-1) < IZR X) as H by lra. apply lt_IZR in H. lia. Qed.
Definition broken : Prop := IZR X <> x.
Lemma g_neg z : (z < 0)%Z -> g z = 0.
Proof using. intros H. unfold g, readz. destruct (Z.leb_spec 0 z); [lia|reflexivity]. Qed.
Lemma g_big z : (Z.of_nat (length data) <= z)%Z -> g z = 0.
Proof using.
  intros H. unfold g, readz. destruct (Z.leb_spec 0 z); [|reflexivity].
  replace (nth_error data (Z.to_nat z)) with (@None R); [reflexivity|]. symmetry. apply nth_error_None. lia.
Qed.
Lemma term_exact w : IZR X = x -> g (trunc (x + IZR w)) = g (X + w)%Z.
Proof using. intros E. replace (x + IZR w) with (IZR (X + w)) by (rewrite plus_IZR; lra). rewrite trunc_IZR. reflexivity. Qed.
Lemma term_broken w : broken -> g (trunc (x + IZR w)) = g (X + w)%Z + (if Z.eq_dec w (- 1 - X) then g 0%Z else 0).
Proof using Hx.
  intros Hb. unfold broken in Hb. pose proof (Int_part_bound x) as B.
  destruct (Z.eq_dec w (- 1 - X)) as [->|Hn].
  - rewrite (g_neg (X + (-1 - X))) by lia. replace (x + IZR (-1 - X)) with (x - IZR X - 1) by (rewrite minus_IZR; lra).
    replace (trunc _) with 0%Z; [lra|]. unfold trunc. destruct (Rle_dec 0 (x - IZR X - 1)); [lra|].
    symmetry. rewrite (Int_part_unique _ 0%Z); [reflexivity|]. lra.
  - rewrite Rplus_0_r. destruct (Z_lt_le_dec (X + w) 0) as [Hl|Hl].
    + rewrite (g_neg (X + w)%Z) by lia. apply g_neg.
      assert (IZR (X + w) <= IZR (-2)) as H2 by (apply IZR_le; lia). rewrite plus_IZR in H2.
      unfold trunc. destruct (Rle_dec 0 (x + IZR w)); [lra|].
      pose proof (Int_part_bound (- (x + IZR w))) as B2.
      assert (IZR 0 < IZR (Int_part (- (x + IZR w)))) as H3 by (change (IZR 0) with 0; lra). apply lt_IZR in H3. lia.
    + f_equal. apply IZR_le in Hl. rewrite plus_IZR in Hl. unfold trunc. destruct (Rle_dec 0 (x + IZR w)) as [?|?]; [|lra].
      apply Int_part_unique. rewrite plus_IZR. lra.
Qed.
Lemma Rsum_app a b : Rsum (a ++ b) = Rsum a + Rsum b.
Proof using. induction a as [|y a IH]; cbn; [lra|]. rewrite IH. lra. Qed.
Lemma Rsum_add {A} (f h : A -> R) l : Rsum (map (fun a => f a + h a) l) = Rsum (map f l) + Rsum (map h l).
Proof using. induction l as [|y l IH]; cbn; [lra|]. rewrite IH. lra. Qed.
Lemma Rsum_one a c z v : Rsum (map (fun w => if Z.eq_dec w z then v else 0) (zr a c)) = if ((a <=? z) && (z <? a + Z.of_nat c))%Z%bool then v else 0.
Proof using.
  revert a. induction c as [|c IH]; intros a.
  - cbn. destruct (Z.leb_spec a z), (Z.ltb_spec z (a + 0)); cbn; try lra; lia.
  - rewrite zr_S. cbn [map Rsum]. rewrite IH.
    destruct (Z.eq_dec a z), (Z.leb_spec a z), (Z.leb_spec (a + 1) z), (Z.ltb_spec z (a + Z.of_nat (S c))), (Z.ltb_spec z (a + 1 + Z.of_nat c)); cbn; try lra; lia.
Qed.
Lemma Rsum_range a c : Rsum (map g (zr a c)) =
  Rsum (map (fun j => if ((a <=? Z.of_nat j) && (Z.of_nat j <? a + Z.of_nat c))%Z%bool then g (Z.of_nat j) else 0) (seq 0 (length data))).
Proof using.
  induction c as [|c IH].
  - cbn [zr seq map Rsum]. symmetry.
    transitivity (Rsum (map (fun _ => 0) (seq 0 (length data)))).
    + f_equal. apply map_ext. intros j. destruct (Z.leb_spec a (Z.of_nat j)), (Z.ltb_spec (Z.of_nat j) (a + Z.of_nat 0)); cbn; try reflexivity. lia.
    + induction (seq 0 (length data)) as [|j l IHl]; cbn; [reflexivity|]. rewrite IHl. lra.
  - rewrite zr_S', map_app, Rsum_app, IH. cbn [map Rsum]. rewrite Rplus_0_r.
    set (z := (a + Z.of_nat c)%Z).
    assert (g z = Rsum (map (fun w => if Z.eq_dec w z then g z else 0) (zr 0 (length data)))) as ->.
    { rewrite Rsum_one. destruct (Z.leb_spec 0 z), (Z.ltb_spec z (0 + Z.of_nat (length data))); cbn; try reflexivity; [apply g_big; lia| |]; apply g_neg; lia. }
    unfold zr. rewrite map_map, <- Rsum_add. f_equal. apply map_ext. intros j. rewrite Z.add_0_l.
    destruct (Z.eq_dec (Z.of_nat j) z) as [E|E].
    + rewrite E. destruct (Z.leb_spec a z), (Z.ltb_spec z z), (Z.ltb_spec z (a + Z.of_nat (S c))); cbn; try lra; lia.
    + unfold z in E. destruct (Z.leb_spec a (Z.of_nat j)), (Z.ltb_spec (Z.of_nat j) z), (Z.ltb_spec (Z.of_nat j) (a + Z.of_nat (S c))); cbn; try lra; lia.
Qed.
Lemma factor_lowpass t : factor_of data_sf fmax L t = lowpass (fmax / data_sf) (IZR L) t.
Proof using HL Hsf.
  assert (IZR L <> 0) as HL0 by (apply not_0_IZR; lia).
  unfold factor_of, lowpass, sinc, square.
  replace (PI * (1 / 2 + t / IZR L)) with (PI / 2 + PI * t / IZR L) by (field; assumption). rewrite <- cos_sin.
  replace (2 * PI * t * fmax / data_sf) with (2 * PI * (fmax / data_sf) * t) by (field; lra).
  replace (2 * fmax / data_sf) with (2 * (fmax / data_sf)) by (field; lra).
  reflexivity.
Qed.
Lemma g_index j : (j < length data)%nat -> g (Z.of_nat j) = lowpass (fmax / data_sf) (IZR L) (INR j - x) * nth j data 0.
Proof using HL Hsf.
  intros Hj. unfold g, readz. destruct (Z.leb_spec 0 (Z.of_nat j)); [|lia]. rewrite Nat2Z.id.
  rewrite (nth_error_nth' data 0 Hj), factor_lowpass, <- INR_IZR_INZ. reflexivity.
Qed.
Lemma sum_filtered a c : Rsum (map g (zr a c)) = filtered data (fmax / data_sf) (IZR L) x a (a + Z.of_nat c).
Proof using HL Hsf.
  rewrite Rsum_range. unfold filtered. f_equal. apply map_ext_in. intros j Hj. apply in_seq in Hj.
  rewrite g_index by lia. reflexivity.
Qed.

(** C68: a new sample is the low pass filter over the [L] samples around it, plus, if its window
    starts before the first sample and it falls between two samples, the first sample once more. *)
Theorem C68_value : let X := Int_part x in
  new_sample data data_sf x fmax L =
    filtered data (fmax / data_sf) (IZR L) x (X - L / 2) (X - L / 2 + L) +
    (if Req_EM_T (IZR X) x then 0
     else if Z_lt_le_dec X (L / 2) then lowpass (fmax / data_sf) (IZR L) (- x) * nth 0 data 0 else 0).
Proof using All.
  intros X. rewrite C68_loop. pose proof X_nonneg as HX. fold X in HX.
  assert (Rsum (map (fun w => g (X + w)%Z) (zr (- (L / 2)) (Z.to_nat L))) = filtered data (fmax / data_sf) (IZR L) x (X - L / 2) (X - L / 2 + L)) as E.
  { replace (map (fun w => g (X + w)%Z) (zr (- (L / 2)) (Z.to_nat L))) with (map g (zr (X - L / 2) (Z.to_nat L))).
    - rewrite sum_filtered. f_equal. lia.
    - unfold zr. rewrite !map_map. apply map_ext. intros k. f_equal. lia. }
  destruct (Req_EM_T (IZR X) x) as [Ex|Ex].
  - rewrite Rplus_0_r, <- E. f_equal. apply map_ext. intros w. now apply term_exact.
  - rewrite <- E. rewrite (map_ext _ _ (fun w => term_broken w Ex)), Rsum_add. f_equal. rewrite Rsum_one. fold X.
    pose proof (Z.div_mod L 2 ltac:(lia)). pose proof (Z.mod_pos_bound L 2 ltac:(lia)).
    assert (0 <= L / 2)%Z by (apply Z.div_pos; lia).
    assert (g 0%Z = lowpass (fmax / data_sf) (IZR L) (- x) * nth 0 data 0) as Eg.
    { destruct data as [|d ds] eqn:Ed.
      - cbn [nth]. rewrite Rmult_0_r. apply g_big. rewrite Ed. cbn. lia.
      - rewrite <- Ed in *. change 0%Z with (Z.of_nat 0). rewrite g_index; [|rewrite Ed; cbn; lia]. cbn [INR]. do 2 f_equal. lra. }
    destruct (Z_lt_le_dec X (L / 2)) as [Hl|Hl].
    + destruct (Z.leb_spec (- (L / 2)) (-1 - X)), (Z.ltb_spec (-1 - X) (- (L / 2) + Z.of_nat (Z.to_nat L))); cbn; try lia. exact Eg.
    + destruct (Z.leb_spec (- (L / 2)) (-1 - X)); cbn; [lia|reflexivity].
Qed.
End sample.

(** ** The whole trace *)
Lemma win_positive data_sf new_sf : 0 < data_sf -> 0 < new_sf -> (120 <= win_length data_sf new_sf)%Z.
Proof.
  intros Hd Hn. unfold win_length, rceil.
  assert (0 < Rmin new_sf data_sf <= data_sf) as [Hm Hm2]. { split; [now apply Rmin_glb_lt|apply Rmin_r]. }
  set (m := Rmin new_sf data_sf) in *.
  assert (598 / 5 <= 598 / 100 * data_sf / (m / 2 * (10 / 100))) as H.
  { apply (Rmult_le_reg_r m); [assumption|]. replace (598 / 100 * data_sf / (m / 2 * (10 / 100)) * m) with (598 / 5 * data_sf) by (field; lra). lra. }
  set (v := 598 / 100 * data_sf / (m / 2 * (10 / 100))) in *.
  pose proof (Int_part_bound (- v)) as B.
  assert (IZR (Int_part (- v)) < IZR (-119)) as H1 by lra. apply lt_IZR in H1. lia.
Qed.

Section trace.
Variable data : list R.
Variables data_sf new_sf : R.
Hypothesis Hd : 0 < data_sf.
Hypothesis Hn : 0 < new_sf.
Hypothesis Hne : data_sf <> new_sf.
Notation factor := (new_sf / data_sf).

Lemma factor_pos : 0 < factor.
Proof using Hd Hn. now apply Rdiv_lt_0_compat. Qed.
Lemma resample_eq : resample data data_sf new_sf =
  (map (fun i => new_sample data data_sf (INR i / factor) (Rmin new_sf data_sf / 2) (win_length data_sf new_sf))
       (seq 0 (Z.to_nat (trunc (INR (length data) * factor)))), new_sf).
Proof using Hn Hne.
  unfold resample. destruct (Rle_dec new_sf 0); [lra|]. destruct (Req_EM_T data_sf new_sf); [contradiction|reflexivity].
Qed.
(** C68: the new trace spans the old one, up to less than one new sample, never beyond. *)
Theorem C68_span : let out := fst (resample data data_sf new_sf) in
  snd (resample data data_sf new_sf) = new_sf /\
  0 <= INR (length data) / data_sf - INR (length out) / new_sf < 1 / new_sf.
Proof using All.
  rewrite resample_eq. cbn [fst snd]. split; [reflexivity|]. rewrite map_length, seq_length.
  pose proof factor_pos as Hf. pose proof (pos_INR (length data)) as Hp.
  assert (0 <= INR (length data) * factor) as H0 by (apply Rmult_le_pos; lra).
  pose proof (trunc_nonneg _ H0) as B. set (t := trunc (INR (length data) * factor)) in *.
  assert (0 <= t)%Z as Ht. { assert (IZR (-1) < IZR t) as H by lra. apply lt_IZR in H. lia. }
  rewrite (INR_IZR_INZ (Z.to_nat t)), Z2Nat.id by lia.
  replace (INR (length data) / data_sf - IZR t / new_sf) with ((INR (length data) * factor - IZR t) * / new_sf) by (field; lra). assert (0 < / new_sf) as Hi by (now apply Rinv_0_lt_compat).
  split; [apply Rmult_le_pos; lra|]. unfold Rdiv. apply Rmult_lt_compat_r; lra.
Qed.
(** C68: sample [i] of the new trace, taken at the same time as place [i / factor] of the old one. *)
Theorem C68_samples i : (i < length (fst (resample data data_sf new_sf)))%nat ->
  let x := INR i / factor in let L := win_length data_sf new_sf in let X := Int_part x in
  let f := Rmin new_sf data_sf / 2 / data_sf in
  x / data_sf = INR i / new_sf /\
  nth i (fst (resample data data_sf new_sf)) 0 =
    filtered data f (IZR L) x (X - L / 2) (X - L / 2 + L) +
    (if Req_EM_T (IZR X) x then 0 else if Z_lt_le_dec X (L / 2) then lowpass f (IZR L) (- x) * nth 0 data 0 else 0).
Proof using All.
  intros Hi x L X f. split; [unfold x; field; lra|].
  rewrite resample_eq in Hi |- *. cbn [fst] in *. rewrite map_length, seq_length in Hi.
  rewrite (nth_indep _ 0 (new_sample data data_sf (INR 0 / factor) (Rmin new_sf data_sf / 2) (win_length data_sf new_sf))) by (rewrite map_length, seq_length; exact Hi).
  rewrite (map_nth (fun i => new_sample data data_sf (INR i / factor) (Rmin new_sf data_sf / 2) (win_length data_sf new_sf))), seq_nth by exact Hi.
  cbn [plus]. pose proof (win_positive data_sf new_sf Hd Hn) as HL. apply C68_value; [lia|assumption|].
  apply Rmult_le_pos; [apply pos_INR|]. left. apply Rinv_0_lt_compat. apply factor_pos.
Qed.

Lemma filtered_linear a b (d1 d2 : list R) f w x lo hi : length d1 = length d2 ->
  filtered (map (fun p => a * fst p + b * snd p) (combine d1 d2)) f w x lo hi = a * filtered d1 f w x lo hi + b * filtered d2 f w x lo hi.
Proof using.
  intros El. unfold filtered. rewrite map_length, combine_length, <- El, Nat.min_id.
  assert (forall l, (forall j, In j l -> (j < length d1)%nat) ->
    Rsum (map (fun j => if ((lo <=? Z.of_nat j) && (Z.of_nat j <? hi))%Z%bool then lowpass f w (INR j - x) * nth j (map (fun p => a * fst p + b * snd p) (combine d1 d2)) 0 else 0) l) =
    a * Rsum (map (fun j => if ((lo <=? Z.of_nat j) && (Z.of_nat j <? hi))%Z%bool then lowpass f w (INR j - x) * nth j d1 0 else 0) l) +
    b * Rsum (map (fun j => if ((lo <=? Z.of_nat j) && (Z.of_nat j <? hi))%Z%bool then lowpass f w (INR j - x) * nth j d2 0 else 0) l)) as H.
  { induction l as [|j l IH]; intros Hl; cbn [map Rsum]; [lra|]. rewrite IH by (intros; apply Hl; now right).
    assert (nth j (map (fun p => a * fst p + b * snd p) (combine d1 d2)) 0 = a * nth j d1 0 + b * nth j d2 0) as ->.
    { specialize (Hl j (or_introl eq_refl)).
      rewrite (nth_indep _ 0 ((fun p => a * fst p + b * snd p) (0, 0))) by (rewrite map_length, combine_length; lia).
      rewrite (map_nth (fun p => a * fst p + b * snd p)), combine_nth by assumption. reflexivity. }
    destruct ((lo <=? Z.of_nat j) && (Z.of_nat j <? hi))%Z%bool; lra. }
  apply H. intros j Hj. apply in_seq in Hj. lia.
Qed.
End trace.

(** C68: resampling a sum of signals gives the sum of the resampled signals. *)
Theorem C68_linear a b d1 d2 data_sf new_sf : 0 < data_sf -> 0 < new_sf -> data_sf <> new_sf -> length d1 = length d2 ->
  let mix := fun l1 l2 => map (fun p => a * fst p + b * snd p) (combine l1 l2) in
  fst (resample (mix d1 d2) data_sf new_sf) = mix (fst (resample d1 data_sf new_sf)) (fst (resample d2 data_sf new_sf)).
Proof.
  intros Hd Hn Hne El mix.
  assert (length (mix d1 d2) = length d1) as Em by (unfold mix; rewrite map_length, combine_length; lia).
  assert (forall d, length d = length d1 -> length (fst (resample d data_sf new_sf)) = Z.to_nat (trunc (INR (length d1) * (new_sf / data_sf)))) as Elen.
  { intros d E. rewrite resample_eq by assumption. cbn [fst]. rewrite map_length, seq_length, E. reflexivity. }
  assert (forall l1 l2 j, length l1 = length l2 -> nth j (mix l1 l2) 0 = a * nth j l1 0 + b * nth j l2 0) as Hmix.
  { unfold mix. induction l1 as [|u1 r1 IH]; intros [|u2 r2] j E; try discriminate; [destruct j; cbn; lra|].
    destruct j as [|j]; [reflexivity|]. cbn [nth combine map]. apply IH. now injection E. }
  apply (nth_ext _ _ 0 0).
  - unfold mix at 2. rewrite map_length, combine_length, !Elen by lia. lia.
  - intros i Hi. pose proof Hi as Hi'. rewrite Elen in Hi' by assumption.
    destruct (C68_samples (mix d1 d2) data_sf new_sf Hd Hn Hne i Hi) as [_ ->].
    rewrite (Hmix (fst (resample d1 data_sf new_sf))) by (rewrite !Elen by lia; reflexivity).
    destruct (C68_samples d1 data_sf new_sf Hd Hn Hne i ltac:(rewrite Elen by lia; assumption)) as [_ ->].
    destruct (C68_samples d2 data_sf new_sf Hd Hn Hne i ltac:(rewrite Elen by lia; assumption)) as [_ ->].
    unfold mix at 1. rewrite filtered_linear by assumption.
    rewrite (Hmix d1 d2 0%nat El).
    destruct (Req_EM_T _ _); [lra|]. destruct (Z_lt_le_dec _ _); lra.
Qed.

Lemma sin_int_PI z : sin (IZR z * PI) = 0.
Proof. apply sin_eq_0_1. exists z. reflexivity. Qed.
(** the low pass of full band is 1 at its centre and zero at the other samples *)
Lemma lowpass_samples w z : lowpass (1 / 2) w (IZR z) = if Z.eq_dec z 0 then 1 else 0.
Proof.
  unfold lowpass, sinc. replace (2 * PI * (1 / 2) * IZR z) with (IZR z * PI) by lra.
  destruct (Z.eq_dec z 0) as [->|Hz].
  - change (IZR 0) with 0. rewrite !Rmult_0_l, Rmult_0_r. unfold Rdiv. rewrite Rmult_0_l, cos_0.
    destruct (Req_EM_T 0 0); lra.
  - pose proof PI_RGT_0. assert (IZR z <> 0) by (now apply not_0_IZR).
    destruct (Req_EM_T (IZR z * PI) 0) as [E|E]; [apply Rmult_integral in E as [?|?]; [contradiction|lra]|].
    rewrite sin_int_PI. unfold Rdiv. lra.
Qed.
(** C68: at a higher frequency the old samples are kept exactly at their times. *)
Theorem C68_upsampling_keeps data data_sf new_sf i k : 0 < data_sf < new_sf -> (k < length data)%nat ->
  INR i / new_sf = INR k / data_sf ->
  (i < length (fst (resample data data_sf new_sf)))%nat /\
  nth i (fst (resample data data_sf new_sf)) 0 = nth k data 0.
Proof.
  intros [Hd Hn] Hk E. assert (0 < new_sf) as Hn0 by lra. assert (data_sf <> new_sf) as Hne by lra.
  assert (0 < new_sf / data_sf) as Hf by (now apply Rdiv_lt_0_compat).
  assert (INR i = INR k * (new_sf / data_sf)) as Ei.
  { replace (INR i) with (INR i / new_sf * new_sf) by (field; lra). rewrite E. field. lra. }
  assert (1 < new_sf / data_sf) as Hf1. { apply (Rmult_lt_reg_r data_sf); [assumption|]. unfold Rdiv. rewrite Rmult_assoc, Rinv_l by lra. lra. }
  assert (i < length (fst (resample data data_sf new_sf)))%nat as Hi.
  { rewrite resample_eq by assumption. cbn [fst]. rewrite map_length, seq_length.
    pose proof (pos_INR (length data)). assert (0 <= INR (length data) * (new_sf / data_sf)) as H0 by (apply Rmult_le_pos; lra).
    pose proof (trunc_nonneg _ H0) as B. set (t := trunc _) in *.
    assert (INR k + 1 <= INR (length data)) as Hk1. { rewrite <- S_INR. apply le_INR. lia. }
    assert ((INR k + 1) * (new_sf / data_sf) <= INR (length data) * (new_sf / data_sf)) as H1 by (apply Rmult_le_compat_r; lra).
    assert (IZR (Z.of_nat i) < IZR t) as H2. { rewrite <- INR_IZR_INZ, Ei. lra. }
    apply lt_IZR in H2. lia. }
  split; [exact Hi|].
  destruct (C68_samples data data_sf new_sf Hd Hn0 Hne i Hi) as [_ ->].
  assert (INR i / (new_sf / data_sf) = INR k) as -> by (rewrite Ei; field; lra).
  assert (Int_part (INR k) = Z.of_nat k) as -> by (apply Int_part_unique; rewrite <- INR_IZR_INZ; lra).
  destruct (Req_EM_T (IZR (Z.of_nat k)) (INR k)) as [_|Hc]; [|exfalso; apply Hc; symmetry; apply INR_IZR_INZ].
  rewrite Rplus_0_r, Rmin_right by lra. replace (data_sf / 2 / data_sf) with (1 / 2) by (field; lra).
  pose proof (win_positive data_sf new_sf Hd Hn0) as HL. set (L := win_length data_sf new_sf) in *. clearbody L.
  assert (0 < L / 2 < L)%Z as HL2. { split; [apply Z.div_str_pos; lia|]. apply Z.div_lt; lia. }
  unfold filtered.
  transitivity (Rsum (map (fun w => if Z.eq_dec w (Z.of_nat k) then nth k data 0 else 0) (zr 0 (length data)))).
  - unfold zr. rewrite map_map. f_equal. apply map_ext. intros j. rewrite Z.add_0_l.
    replace (INR j - INR k) with (IZR (Z.of_nat j - Z.of_nat k)) by (rewrite minus_IZR, <- !INR_IZR_INZ; reflexivity).
    rewrite lowpass_samples. destruct (Z.eq_dec (Z.of_nat j) (Z.of_nat k)) as [Ej|Ej].
    + apply Nat2Z.inj in Ej as ->. rewrite Z.sub_diag. destruct (Z.eq_dec 0 0); [|lia].
      destruct (Z.leb_spec (Z.of_nat k - L / 2) (Z.of_nat k)), (Z.ltb_spec (Z.of_nat k) (Z.of_nat k - L / 2 + L)); cbn; try lia. lra.
    + destruct (Z.eq_dec (Z.of_nat j - Z.of_nat k) 0); [lia|]. destruct (_ && _)%bool; lra.
  - rewrite Rsum_one. destruct (Z.leb_spec 0 (Z.of_nat k)), (Z.ltb_spec (Z.of_nat k) (0 + Z.of_nat (length data))); cbn; try lia. reflexivity.
Qed.
Example C68_upsampling_example : 0 < 1 < 2 /\ (1 < length [5; 7; 9])%nat /\ INR 2 / 2 = INR 1 / 1.
Proof. split; [lra|]. split; [cbn; lia|]. cbn. lra. Qed.

(** Nothing to do. *)
Theorem C68_same data data_sf new_sf : new_sf <= 0 \/ new_sf = data_sf -> resample data data_sf new_sf = (data, data_sf).
Proof.
  intros H. unfold resample. destruct (Rle_dec new_sf 0); [reflexivity|]. destruct (Req_EM_T data_sf new_sf); [reflexivity|]. destruct H; [contradiction|]. congruence.
Qed.

(** Near the start of a trace the new samples between two old ones are not those of the filter: a
    trace of one sample 1 at 1 Hz resampled to 2 Hz has its second sample doubled. *)
Theorem C68_first_sample_refuted : exists data data_sf new_sf i,
  let x := INR i / (new_sf / data_sf) in let L := win_length data_sf new_sf in
  (i < length (fst (resample data data_sf new_sf)))%nat /\
  0 <> filtered data (1 / 2) (IZR L) x (Int_part x - L / 2) (Int_part x - L / 2 + L) /\
  nth i (fst (resample data data_sf new_sf)) 0 = 2 * filtered data (1 / 2) (IZR L) x (Int_part x - L / 2) (Int_part x - L / 2 + L).
Proof.
  exists [1], 1, 2, 1%nat. cbv zeta.
  assert (1%nat < length (fst (resample [1%R] 1%R 2%R)))%nat as Hi.
  { rewrite resample_eq by lra. cbn [fst]. rewrite map_length, seq_length. replace (INR (length [1]) * (2 / 1)) with (IZR 2) by (cbn; lra).
    rewrite trunc_IZR. cbn. lia. }
  split; [exact Hi|].
  destruct (C68_samples [1] 1 2 ltac:(lra) ltac:(lra) ltac:(lra) 1 Hi) as [_ ->].
  replace (INR 1 / (2 / 1)) with (1 / 2) by (cbn; lra). rewrite Rmin_right by lra. replace (1 / 2 / 1) with (1 / 2) by lra.
  replace (Int_part (1 / 2)) with 0%Z by (symmetry; apply Int_part_unique; lra).
  pose proof (win_positive 1 2 ltac:(lra) ltac:(lra)) as HL. set (L := win_length 1 2) in *. clearbody L.
  assert (0 < L / 2 < L)%Z as HL2. { split; [apply Z.div_str_pos; lia|]. apply Z.div_lt; lia. }
  destruct (Req_EM_T (IZR 0) (1 / 2)) as [E|_]; [lra|]. destruct (Z_lt_le_dec 0 (L / 2)) as [_|?]; [|lia].
  unfold filtered. cbn [length seq map Rsum nth Z.of_nat INR].
  destruct (Z.leb_spec (0 - L / 2) 0), (Z.ltb_spec 0 (0 - L / 2 + L)); cbn [andb]; try lia.
  replace (0 - 1 / 2) with (- (1 / 2)) by lra. rewrite !Rmult_1_r, Rplus_0_r. split; [|lra].
  assert (0 < lowpass (1 / 2) (IZR L) (- (1 / 2))) as Hp; [|lra].
  unfold lowpass, sinc. pose proof PI_RGT_0 as HPI.
  destruct (Req_EM_T (2 * PI * (1 / 2) * - (1 / 2)) 0) as [E|_]; [lra|].
  replace (2 * PI * (1 / 2) * - (1 / 2)) with (- (PI / 2)) by lra. rewrite sin_neg, sin_PI2.
  assert (0 < cos (PI * - (1 / 2) / IZR L)) as Hc.
  { assert (1 < IZR L) as H1 by (apply IZR_lt; lia).
    assert (0 < / IZR L < 1) as [I1 I2]. { split; [apply Rinv_0_lt_compat; lra|]. rewrite <- Rinv_1. apply Rinv_lt_contravar; lra. }
    apply cos_gt_0; unfold Rdiv; nra. }
  assert (0 < - (1) / - (PI / 2)) as H3. { replace (- (1) / - (PI / 2)) with (2 / PI) by (field; lra). apply Rdiv_lt_0_compat; lra. }
  apply Rmult_lt_0_compat; [|exact H3]. apply Rmult_lt_0_compat; [lra|]. now apply Rmult_lt_0_compat.
Qed.

Print Assumptions C68_value.
Print Assumptions C68_span.
Print Assumptions C68_samples.
Print Assumptions C68_linear.
Print Assumptions C68_upsampling_keeps.
Print Assumptions C68_same.
Print Assumptions C68_first_sample_refuted.
