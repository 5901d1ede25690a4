(** C75: loading and processing waveforms. *)
From Coq Require Import Ascii ZArith QArith Qround Qabs Reals Qreals Lra Lqa Qfield.
From stdpp Require Import numbers list.
From Verif Require Import TimeWindow_Model TimeWindow_Props Time_Model Trace_Model Trace_Props WaveCache_Model Resample_Model Resample_Props
  Rotate_Model Rotate_Props XcorrWindow_Model XcorrWindow_Props WaveProc_Model.

(** ** Slices of traces whose sampling period is a whole number of microseconds *)
Section exact.
Context {N A : Type}.
Implicit Types t : trace N A.
Local Open Scope Z_scope.
Definition period t (P : positive) : Prop := (t_freq t == 1000000 # P)%Q.

Lemma qround_int k : qround (inject_Z k) = k.
Proof using. apply Z.le_antisymm; [apply qround_le|apply qround_ge]; apply Qle_refl. Qed.
Lemma qround_comp (x y : Q) : (x == y)%Q -> qround x = qround y.
Proof using. intros E. apply Z.le_antisymm; apply qround_mono; rewrite E; apply Qle_refl. Qed.
Lemma exact_dur t P k : period t P -> secToDur (inject_Z k / t_freq t) = k * Zpos P.
Proof using.
  intros H. unfold period in H. unfold secToDur. rewrite <- (qround_int (k * Zpos P)). apply qround_comp. rewrite H. rewrite inject_Z_mult.
  rewrite (Qmake_Qdiv 1000000 P). field. unfold Qeq; cbn; lia.
Qed.
Lemma exact_index t P z : period t P -> (index t z == (z - t_start t) # P)%Q.
Proof using.
  intros H. unfold period in H. unfold index, durToSec. rewrite H. rewrite !Qmake_Qdiv. field. unfold Qeq; cbn; lia.
Qed.
Lemma exact_end t P : period t P -> t_data t <> [] -> end_time t = t_start t + (sample_count t - 1) * Zpos P.
Proof using.
  intros H Hd. unfold end_time. rewrite decide_False by (destruct (t_data t); [done|cbn; lia]). by rewrite (exact_dur t P).
Qed.
(** The number of the last sample not after, and of the first not before a time *)
Definition not_after t (P : positive) (z : Z) : Z := (z - t_start t) / Zpos P.
Definition not_before t (P : positive) (z : Z) : Z := - ((t_start t - z) / Zpos P).
Lemma slice_exact t w P : period t P -> t_data t <> [] -> w_start w <= w_end w ->
  slice t w = if decide (t_start t <= w_start w /\ w_end w <= t_start t + (sample_count t - 1) * Zpos P)
    then SlTrue (MkTrace (t_id t) (t_start t + not_after t P (w_start w) * Zpos P) (t_freq t)
                   (take (Z.to_nat (not_before t P (w_end w) + 1 - not_after t P (w_start w))) (drop (Z.to_nat (not_after t P (w_start w))) (t_data t))))
    else SlFalse t.
Proof using.
  intros HP Hd Hw. assert (0 < sample_count t) as Hn by (unfold sample_count; destruct (t_data t); [done|cbn; lia]).
  assert (Qfloor (index t (w_start w)) = not_after t P (w_start w)) as EF by (unfold not_after; rewrite (exact_index _ P _ HP); reflexivity).
  assert (Qceiling (index t (w_end w)) = not_before t P (w_end w)) as EC.
  { unfold not_before. rewrite (exact_index _ P _ HP). unfold Qceiling. cbn [Qopp Qnum Qden Qfloor]. f_equal. f_equal. lia. }
  assert (time_window t = Tw (t_start t) (t_start t + (sample_count t - 1) * Zpos P)) as EW.
  { unfold time_window, mk_tw, set_end. cbn [w_start w_end]. rewrite (exact_end _ P) by done. destruct (_ <? _) eqn:L; [apply Z.ltb_lt in L; nia|done]. }
  unfold slice. rewrite EF, EC, EW, (exact_dur _ P) by done. destruct (tw_eqb _ w) eqn:ET.
  - apply andb_true_iff in ET as [E1 E2]. cbn [w_start w_end] in E1, E2. apply Z.eqb_eq in E1, E2. rewrite decide_True by lia.
    assert (not_after t P (w_start w) = 0) as -> by (unfold not_after; rewrite <- E1, Z.sub_diag; reflexivity).
    assert (not_before t P (w_end w) = sample_count t - 1) as ->.
    { unfold not_before. rewrite <- E2. replace (t_start t - _) with (- (sample_count t - 1) * Zpos P) by lia. rewrite Z.div_mul by lia. lia. }
    destruct t as [i s f d]; unfold sample_count in *; cbn [t_id t_start t_freq t_data] in *. f_equal. f_equal; [lia|].
    replace (Z.to_nat (_ - 1 + 1 - 0)) with (length d) by lia. cbn [drop]. by rewrite take_ge.
  - clear ET. unfold w_contains. cbn [w_start w_end]. case_decide as HI.
    + destruct HI as [H1 H2]. apply Z.leb_le in H1 as L1. apply Z.leb_le in H2 as L2. rewrite L1, L2. cbn [andb negb].
      assert (0 <= not_after t P (w_start w)) as A0 by (apply Z.div_pos; lia).
      assert (not_before t P (w_end w) < sample_count t) as B0.
      { unfold not_before. assert (- (sample_count t - 1) <= (t_start t - w_end w) / Zpos P) as K; [|lia]. apply Z.div_le_lower_bound; lia. }
      assert (not_after t P (w_start w) <= not_before t P (w_end w)) as AB.
      { unfold not_after, not_before. pose proof (Z.mul_div_le (w_start w - t_start t) (Zpos P) ltac:(lia)). pose proof (Z.mul_div_le (t_start t - w_end w) (Zpos P) ltac:(lia)). nia. }
      destruct (_ <? 0) eqn:X; [apply Z.ltb_lt in X; lia|]. destruct (sample_count t <=? _) eqn:Y; [apply Z.leb_le in Y; lia|].
      unfold sub_vector. unfold sample_count in B0. rewrite decide_True by lia. done.
    + destruct (_ <=? w_start w) eqn:L1; [|done]. destruct (w_end w <=? _) eqn:L2; [|done]. apply Z.leb_le in L1, L2. lia.
Qed.
(** A slice of a slice is the slice. *)
Lemma slice_slice t w W T P : period t P -> t_data t <> [] -> w_start w <= w_end w -> w_start W <= w_start w -> w_end w <= w_end W ->
  slice t W = SlTrue T -> exists t', slice t w = SlTrue t' /\ slice T w = SlTrue t'.
Proof using.
  intros HP Hd Hw H1 H2 E. rewrite (slice_exact _ _ P) in E by (done || lia). case_decide as HI; [|done]. destruct HI as [I1 I2].
  injection E as E. rewrite (slice_exact _ _ P) by done. rewrite decide_True by lia. eexists. split; [reflexivity|].
  set (a := not_after t P (w_start w)). set (b := not_before t P (w_end w)). set (A' := not_after t P (w_start W)) in *. set (B' := not_before t P (w_end W)) in *.
  assert (0 <= A') as A0 by (apply Z.div_pos; lia).
  assert (A' <= a) as Aa by (apply Z.div_le_mono; lia).
  assert (b <= B') as Bb by (unfold b, B', not_before; pose proof (Z.div_le_mono (t_start t - w_end W) (t_start t - w_end w) (Zpos P) ltac:(lia) ltac:(lia)); lia).
  assert (B' < sample_count t) as B0.
  { unfold B', not_before. assert (- (sample_count t - 1) <= (t_start t - w_end W) / Zpos P) as K; [|lia]. apply Z.div_le_lower_bound; lia. }
  assert (a <= b) as ab.
  { unfold a, b, not_after, not_before. pose proof (Z.mul_div_le (w_start w - t_start t) (Zpos P) ltac:(lia)). pose proof (Z.mul_div_le (t_start t - w_end w) (Zpos P) ltac:(lia)). nia. }
  assert (length (t_data T) = Z.to_nat (B' + 1 - A')) as LT.
  { rewrite <- E. cbn [t_data]. rewrite take_length, drop_length. unfold sample_count in B0. lia. }
  assert (t_start T = t_start t + A' * Zpos P) as ST by (by rewrite <- E).
  assert (not_after T P (w_start w) = a - A') as EA.
  { unfold not_after. rewrite ST. replace (w_start w - _) with (w_start w - t_start t + (- A') * Zpos P) by lia. rewrite Z.div_add by lia. unfold a, not_after. lia. }
  assert (not_before T P (w_end w) = b - A') as EB.
  { unfold not_before. rewrite ST. replace (_ - w_end w) with (t_start t - w_end w + A' * Zpos P) by lia. rewrite Z.div_add by lia. unfold b, not_before. lia. }
  rewrite (slice_exact _ _ P).
  2: { unfold period. by rewrite <- E. }
  2: { intros X. rewrite X in LT. cbn in LT. lia. }
  2: { done. }
  rewrite decide_True.
  2: { unfold sample_count. rewrite LT, ST. rewrite Z2Nat.id by lia. unfold A', B', not_after, not_before in *.
       pose proof (Z.mul_div_le (w_start W - t_start t) (Zpos P) ltac:(lia)). pose proof (Z.mul_div_le (t_start t - w_end W) (Zpos P) ltac:(lia)). nia. }
  f_equal. rewrite EA, EB, ST. rewrite <- E. cbn [t_id t_freq t_data]. f_equal; [lia|].
  rewrite skipn_firstn_comm, drop_drop, take_take. f_equal; [lia|]. f_equal. lia.
Qed.
End exact.

(** ** Specification *)
Definition shift (c : R) (t : wtrace) : wtrace := MkTrace (t_id t) (t_start t) (t_freq t) ((λ x, (x + c)%R) <$> t_data t).
Definition scale (a : R) (t : wtrace) : wtrace := MkTrace (t_id t) (t_start t) (t_freq t) ((λ x, (a * x)%R) <$> t_data t).
(** A loader that cuts the windows out of recordings *)
Definition recorder (rec : stream → option wtrace) : loader := λ w s _,
  match rec s with
  | Some r => match slice r w with SlTrue t => Some t | _ => None end
  | None => None
  end.
(** The channels a request needs *)
Definition channels (info : stream → Z → option comps_info) (s : stream) (pick : Z) (trans : transform) (c : text) : Prop :=
  match trans with
  | TNone => c = s_cha s
  | TL2 => ∃ ci, info s pick = Some ci ∧ (c = ci_h1 ci ∨ c = ci_h2 ci)
  | _ => ∃ ci, info s pick = Some ci ∧ (c = ci_v ci ∨ c = ci_h1 ci ∨ c = ci_h2 ci)
  end.

(** ** Loading more than needed *)
Theorem C75_extra_transparent rec before after w s pick r P : (w_start w <= w_end w)%Z -> (0 <= w_start w)%Z -> (0 <= pick - secToDur before)%Z ->
  rec s = Some r -> t_data r <> [] -> period r P ->
  forall W, window_to_load before after w pick = ROk W -> recorder rec W s pick <> None ->
  recorder rec w s pick <> None /\ extra_get before after (recorder rec) w s pick = ROk (recorder rec w s pick).
Proof.
  intros Hw H0 H1 Er Hd HP W EW HL. destruct (C47_window_to_load_partial before after w pick) as (W' & EW' & [I1 I2] & _); [done|done|exact H1|].
  rewrite EW in EW'. injection EW' as <-. unfold extra_get. rewrite EW. unfold recorder in *. rewrite Er in *.
  destruct (slice r W) as [| |T] eqn:ES; [done|done|]. destruct (slice_slice r w W T P HP Hd Hw I1 I2 ES) as (t' & E1 & E2). rewrite E1. split; [done|].
  destruct (tw_eqb W w) eqn:EQ; cbn [negb]; [|by rewrite E2].
  apply andb_true_iff in EQ as [Q1 Q2]. apply Z.eqb_eq in Q1, Q2. destruct W as [W1 W2], w as [w1 w2]. cbn [w_start w_end] in *. subst. rewrite ES in E1. by injection E1 as ->.
Qed.
(** With a period that is no whole number of microseconds the detour can give other samples
    than the direct way: here 3 Hz, and the trace begins a sample earlier. *)
Theorem C75_extra_rounding_refuted : exists rec before after w s pick r W t t',
  (0 <= w_start w <= w_end w)%Z /\ (0 <= pick - secToDur before)%Z /\ rec s = Some r /\ t_data r <> [] /\ (0 < t_freq r)%Q /\
  window_to_load before after w pick = ROk W /\ recorder rec W s pick <> None /\
  recorder rec w s pick = Some t /\ extra_get before after (recorder rec) w s pick = ROk (Some t') /\
  (length (t_data t) = 4 /\ length (t_data t') = 4 /\ t_start t = 2333333%Z /\ t_start t' = 2000000%Z)%nat.
Proof.
  pose (r := MkTrace (Stream [] [] [] []) 1333333 3 (replicate 10 0%R) : wtrace).
  exists (λ _, Some r), 0%Q, 0%Q, (Tw 2333333 3000000), (Stream [] [] [] []), 2500000%Z, r, (Tw 2000000 3000000).
  eexists. eexists. split; [cbn; lia|]. split; [vm_compute; done|]. split; [done|]. split; [done|]. split; [done|].
  split; [vm_compute; reflexivity|]. split; [vm_compute; done|]. split; [vm_compute; reflexivity|]. split; [vm_compute; reflexivity|]. vm_compute. done.
Qed.
(** And a recording without the longer window is not used, though it has the window needed. *)
Theorem C75_extra_unavailable_refuted : exists rec before after w s pick r,
  (0 <= w_start w <= w_end w)%Z /\ (0 <= pick - secToDur before)%Z /\ rec s = Some r /\ t_data r <> [] /\ period r 10000 /\
  recorder rec w s pick <> None /\ extra_get before after (recorder rec) w s pick = ROk None.
Proof.
  pose (r := MkTrace (Stream [] [] [] []) 1500000 100 (replicate 20 0%R) : wtrace).
  exists (λ _, Some r), 0%Q, 0%Q, (Tw 1510000 1600000), (Stream [] [] [] []), 1550000%Z, r.
  split; [cbn; lia|]. split; [vm_compute; done|]. split; [done|]. split; [done|]. split; [done|]. split; vm_compute; done.
Qed.

(** ** Processing *)
Local Open Scope R_scope.
Lemma sum_shift c l : foldr Rplus 0 ((λ x, x + c) <$> l) = foldr Rplus 0 l + INR (length l) * c.
Proof. induction l as [|x l IH]; [cbn; Lra.lra|]. rewrite fmap_cons. cbn [foldr length]. rewrite S_INR, IH. Lra.lra. Qed.
Lemma demean_shift c l : demean ((λ x, x + c) <$> l) = demean l.
Proof.
  unfold demean. rewrite fmap_length, sum_shift. destruct (decide (length l = 0%nat)) as [E|E]; [apply length_zero_iff_nil in E; by subst|].
  assert (INR (length l) <> 0) by (by apply not_0_INR). rewrite <- list_fmap_compose. apply list_fmap_ext. intros _ x _. unfold compose. field. done.
Qed.
Lemma sum_scale a l : foldr Rplus 0 ((λ x, a * x) <$> l) = a * foldr Rplus 0 l.
Proof. induction l as [|x l IH]; [cbn; Lra.lra|]. rewrite fmap_cons. cbn [foldr]. rewrite IH. Lra.lra. Qed.
Lemma demean_scale a l : demean ((λ x, a * x) <$> l) = (λ x, a * x) <$> demean l.
Proof. unfold demean. rewrite fmap_length, sum_scale, <- !list_fmap_compose. apply list_fmap_ext. intros _ x _. unfold compose, Rdiv. ring. Qed.
(** The mean is removed. *)
Theorem C75_mean l : l <> [] -> foldr Rplus 0 (demean l) = 0.
Proof.
  intros H. unfold demean. set (m := foldr Rplus 0 l / INR (length l)).
  assert ((λ x, x - m) <$> l = (λ x, x + - m) <$> l) as -> by (apply list_fmap_ext; intros _ x _; unfold Rminus; done).
  rewrite sum_shift. unfold m. field. apply not_0_INR. by destruct l.
Qed.

Section proc.
Variable extra : Q.
Variable info : stream → Z → option comps_info.
Variable flt : text → wtrace → option (list R).
Implicit Types load : loader.

(** An offset of the recordings changes nothing, whatever it is on each channel. *)
Theorem C75_offset load load' off w s pick evLat evLon staLat staLon fs g trans :
  (forall W s' p, load' W s' p = shift (off s') <$> load W s' p) ->
  get load' extra info flt w s pick evLat evLon staLat staLon fs g trans = get load extra info flt w s pick evLat evLon staLat staLon fs g trans.
Proof using.
  intros H. assert (forall c, load_and_process load' extra flt w s pick c fs g = load_and_process load extra flt w s pick c fs g) as E.
  { intros c. unfold load_and_process. rewrite H. destruct (load _ _ _) as [t|]; [|done]. cbn [fmap option_fmap option_map].
    assert (filter_trace flt fs g (shift (off (set_cha s c)) t) = filter_trace flt fs g t) as ->; [|done].
    unfold filter_trace, shift, set_data. cbn [t_id t_start t_freq t_data]. by rewrite demean_shift. }
  unfold get. rewrite !E. destruct trans; [done|..]; (destruct (info s pick) as [ci|]; [|done]); by rewrite !E.
Qed.

(** The loader is asked for the channels and the extended window only. *)
Theorem C75_loads load load' w s pick evLat evLon staLat staLon fs g trans :
  (forall c, channels info s pick trans c ->
     load' (w_extend w (secToDur extra) (secToDur extra)) (set_cha s c) pick = load (w_extend w (secToDur extra) (secToDur extra)) (set_cha s c) pick) ->
  get load' extra info flt w s pick evLat evLon staLat staLon fs g trans = get load extra info flt w s pick evLat evLon staLat staLon fs g trans.
Proof using.
  intros H. assert (forall c, channels info s pick trans c -> load_and_process load' extra flt w s pick c fs g = load_and_process load extra flt w s pick c fs g) as E.
  { intros c Hc. unfold load_and_process. by rewrite (H c Hc). }
  unfold get. unfold channels in E. destruct trans; [by apply E|..]; (destruct (info s pick) as [ci|]; [|done]).
  all: rewrite !E by (exists ci; split; [done|]; tauto); done.
Qed.

(** *** Gain *)
Lemma slice_scale a (t : wtrace) w : slice (scale a t) w = match slice t w with SlUB => SlUB | SlFalse u => SlFalse (scale a u) | SlTrue u => SlTrue (scale a u) end.
Proof using.
  assert (length (t_data (scale a t)) = length (t_data t)) as EL by (cbn [scale t_data]; apply fmap_length).
  assert (time_window (scale a t) = time_window t) as EW by (unfold time_window, end_time, sample_count; by rewrite EL).
  unfold slice. rewrite EW. change (index (scale a t)) with (index t). unfold sample_count. rewrite EL.
  destruct (tw_eqb _ _); [done|]. destruct (negb _); [done|]. destruct (_ <? 0)%Z; [done|]. destruct (_ <=? _)%Z; [done|].
  unfold sub_vector. rewrite EL. case_decide; [|done]. unfold scale. cbn [t_id t_start t_freq t_data]. by rewrite fmap_take, fmap_drop.
Qed.
Lemma Q2R_nonpos (g : Q) : Qle_bool g 0 = false -> 0 < Q2R g.
Proof using.
  intros H. assert (0 < g)%Q as K. { apply Qnot_le_lt. intros K. apply Qle_bool_iff in K. congruence. }
  apply Qlt_Rlt in K. by rewrite RMicromega.Q2R_0 in K.
Qed.
Lemma Q2R_neq (f g : Q) : Qeq_bool f g = false -> Q2R f <> Q2R g.
Proof using. intros H K. apply eqR_Qeq in K. apply Qeq_bool_iff in K. congruence. Qed.
Lemma mix_map a (l : list R) : map (fun p => a * p.1 + 0 * p.2) (combine l l) = (λ x, a * x) <$> l.
Proof using. induction l as [|x l IH]; [done|]. cbn [combine map fst snd]. rewrite fmap_cons, <- IH. f_equal. ring. Qed.
Lemma resample_scale a d f g : 0 < f -> 0 < g -> f <> g -> (resample ((λ x, a * x) <$> d) f g).1 = (λ x, a * x) <$> (resample d f g).1.
Proof using.
  intros Hf Hg Hne. pose proof (C68_linear a 0 d d f g Hf Hg Hne eq_refl) as H. cbn zeta beta in H. by rewrite !mix_map in H.
Qed.
(** The filters: scaling the input scales the output. *)
Definition homogeneous (a : R) : Prop := forall fs t, flt fs (scale a t) = (λ d : list R, (λ x, a * x) <$> d) <$> flt fs t.
Lemma filter_trace_scale a fs g t : homogeneous a -> (0 < t_freq t)%Q -> filter_trace flt fs g (scale a t) = scale a <$> filter_trace flt fs g t.
Proof using.
  intros HF Hf. unfold filter_trace.
  assert (set_data (scale a t) (t_freq (scale a t)) (demean (t_data (scale a t))) = scale a (set_data t (t_freq t) (demean (t_data t)))) as ->.
  { unfold set_data, scale. cbn [t_id t_start t_freq t_data]. by rewrite demean_scale. }
  set (u := set_data t (t_freq t) (demean (t_data t))).
  assert (resample_trace g (scale a u) = scale a (resample_trace g u)) as ->.
  { unfold resample_trace. destruct (Qle_bool g 0) eqn:E1; [done|]. cbn [scale t_freq]. destruct (Qeq_bool (t_freq u) g) eqn:E2; [done|].
    unfold set_data, scale. cbn [t_id t_start t_freq t_data]. f_equal. apply resample_scale; [|by apply Q2R_nonpos|by apply Q2R_neq].
    apply Qlt_Rlt in Hf. by rewrite RMicromega.Q2R_0 in Hf. }
  destruct fs; [done|]. rewrite HF. destruct (flt _ _); [|done]. done.
Qed.
Lemma nth_scale a i l : nth i ((λ x, a * x) <$> l) 0 = a * nth i l 0.
Proof using. revert i. induction l as [|x l IH]; intros [|i]; rewrite ?fmap_nil, ?fmap_cons; cbn [nth]; [ring|ring|done|apply IH]. Qed.
Lemma end_time_scale a (t : wtrace) : end_time (scale a t) = end_time t.
Proof using. unfold end_time, sample_count. by replace (length (t_data (scale a t))) with (length (t_data t)) by (cbn [scale t_data]; by rewrite fmap_length). Qed.
Lemma first_sample_scale a (t : wtrace) start c : first_sample (scale a t) start c = first_sample t start c.
Proof using. unfold first_sample, sample_count. by replace (length (t_data (scale a t))) with (length (t_data t)) by (cbn [scale t_data]; by rewrite fmap_length). Qed.
Lemma l2_scale a id (t1 t2 : wtrace) : transform_l2 id (scale a t1) (scale a t2) =
  match transform_l2 id t1 t2 with OUndefined => OUndefined | ONull => ONull | OTrace u => OTrace (scale (Rabs a) u) end.
Proof using.
  unfold transform_l2. rewrite !end_time_scale. cbn [scale t_start t_freq]. destruct (negb _); [done|]. destruct (common_count _ _ _) as [c|]; [|done].
  case_decide; [done|]. rewrite !first_sample_scale. destruct (first_sample t1 _ _) as [h1|]; [|done]. destruct (first_sample t2 _ _) as [h2|]; [|done].
  f_equal. unfold scale. cbn [t_id t_start t_freq t_data]. f_equal. rewrite <- list_fmap_compose. apply list_fmap_ext. intros _ i _. unfold compose. rewrite !nth_scale. unfold Geo_Model.square.
  set (x := nth _ _ _). set (y := nth _ _ _). replace (a * x * (a * x) + a * y * (a * y)) with (Rsqr a * (x * x + y * y)) by (unfold Rsqr; ring).
  rewrite R_sqrt.sqrt_mult; [|apply Rle_0_sqr|apply Rplus_le_le_0_compat; apply Rle_0_sqr]. by rewrite sqrt_Rsqr_abs.
Qed.
Lemma rt_scale a id tc x1 x2 x3 x4 what (tv t1 t2 : wtrace) : transform_rt id tc x1 x2 x3 x4 what (scale a tv) (scale a t1) (scale a t2) =
  match transform_rt id tc x1 x2 x3 x4 what tv t1 t2 with OUndefined => OUndefined | ONull => ONull | OTrace u => OTrace (scale a u) end.
Proof using.
  unfold transform_rt. rewrite !end_time_scale. cbn [scale t_start t_freq]. destruct (_ || _); [done|]. destruct (common_count _ _ _) as [c|]; [|done].
  case_decide; [done|]. rewrite !first_sample_scale. destruct (first_sample t1 _ _) as [h1|]; [|done]. destruct (first_sample t2 _ _) as [h2|]; [|done]. destruct (first_sample tv _ _) as [v|]; [|done].
  f_equal. unfold scale. cbn [t_id t_start t_freq t_data]. f_equal. rewrite <- list_fmap_compose. apply list_fmap_ext. intros _ i _. unfold compose. rewrite !nth_scale.
  unfold rt_sample. ring.
Qed.

(** The gain of the recordings is the gain of the result (its absolute value with L2). *)
Theorem C75_gain load load' a w s pick evLat evLon staLat staLon fs g trans :
  homogeneous a -> (forall W s' p t, load W s' p = Some t -> (0 < t_freq t)%Q) -> (forall W s' p, load' W s' p = scale a <$> load W s' p) ->
  get load' extra info flt w s pick evLat evLon staLat staLon fs g trans =
  match get load extra info flt w s pick evLat evLon staLat staLon fs g trans with
  | ROk (Some t) => ROk (Some (scale (match trans with TL2 => Rabs a | _ => a end) t))
  | r => r
  end.
Proof using.
  intros HF Hf H. assert (forall c, load_and_process load' extra flt w s pick c fs g =
    match load_and_process load extra flt w s pick c fs g with ROk (Some t) => ROk (Some (scale a t)) | r => r end) as E.
  { intros c. unfold load_and_process. rewrite H. destruct (load _ _ _) as [t|] eqn:EL; [|done]. cbn [fmap option_fmap option_map].
    rewrite filter_trace_scale; [|done|by eapply Hf]. destruct (filter_trace flt fs g t) as [u|]; [|done]. cbn [fmap option_fmap option_map].
    rewrite slice_scale. destruct (slice u w); done. }
  assert (forall c, load_and_process load extra flt w s pick c fs g = RThrow \/ load_and_process load extra flt w s pick c fs g = RBad \/
    load_and_process load extra flt w s pick c fs g = ROk None \/ exists t, load_and_process load extra flt w s pick c fs g = ROk (Some t)) as D.
  { intros c. destruct (load_and_process _ _ _ _ _ _ _ _ _) as [[t|]| |]; eauto. }
  unfold get. destruct trans.
  - apply E.
  - destruct (info s pick) as [ci|]; [|done]. rewrite !E.
    destruct (D (ci_h1 ci)) as [-> | [-> | [-> | [h1 ->]]]]; destruct (D (ci_h2 ci)) as [-> | [-> | [-> | [h2 ->]]]]; cbn [bind]; try done.
    rewrite l2_scale. destruct (transform_l2 _ h1 h2); done.
  - destruct (info s pick) as [ci|]; [|done]. rewrite !E.
    destruct (D (ci_v ci)) as [-> | [-> | [-> | [v ->]]]]; destruct (D (ci_h1 ci)) as [-> | [-> | [-> | [h1 ->]]]]; destruct (D (ci_h2 ci)) as [-> | [-> | [-> | [h2 ->]]]]; cbn [bind]; try done.
    rewrite rt_scale. destruct (transform_rt _ _ _ _ _ _ _ v h1 h2); done.
  - destruct (info s pick) as [ci|]; [|done]. rewrite !E.
    destruct (D (ci_v ci)) as [-> | [-> | [-> | [v ->]]]]; destruct (D (ci_h1 ci)) as [-> | [-> | [-> | [h1 ->]]]]; destruct (D (ci_h2 ci)) as [-> | [-> | [-> | [h2 ->]]]]; cbn [bind]; try done.
    rewrite rt_scale. destruct (transform_rt _ _ _ _ _ _ _ v h1 h2); done.
Qed.

(** *** What the result covers *)
Local Open Scope Q_scope.
(** The trace covers the window and exceeds it by less than a sample and a microsecond on either side. *)
Definition covers (t : wtrace) (w : tw) : Prop :=
  (t_start t <= w_start w)%Z /\ (w_end w <= end_time t)%Z /\
  inject_Z (w_start w) - inject_Z (t_start t) < 1 / t_freq t * inject_Z 1000000 + 1 /\
  inject_Z (end_time t) - inject_Z (w_end w) < 1 / t_freq t * inject_Z 1000000 + 1.
Lemma inv_pos (f : Q) : 0 < f -> 0 < 1 / f * inject_Z 1000000.
Proof using. intros H. apply (Qmult_lt_0_compat _ _); [|done]. unfold Qdiv. rewrite Qmult_1_l. by apply Qinv_lt_0_compat. Qed.
Lemma slice_covers (t t' : wtrace) w : 0 < t_freq t -> (w_start w <= w_end w)%Z -> slice t w = SlTrue t' -> covers t' w /\ t_id t' = t_id t /\ t_freq t' = t_freq t.
Proof using.
  intros Hf Hw E. destruct (decide (t_data t = [])) as [Hd|Hd].
  - unfold slice, sample_count in E. assert (time_window t = Tw (t_start t) (t_start t)) as EW.
    { unfold time_window, end_time. rewrite Hd. cbn [length]. rewrite decide_True by done. unfold mk_tw, set_end. cbn [w_start w_end]. by rewrite Z.ltb_irrefl. }
    rewrite EW in E. destruct (tw_eqb _ _) eqn:EQ.
    + injection E as <-. apply andb_true_iff in EQ as [Q1 Q2]. cbn [w_start w_end] in Q1, Q2. apply Z.eqb_eq in Q1, Q2.
      assert (end_time t = t_start t) as EE by (unfold end_time; rewrite Hd; by rewrite decide_True). pose proof (inv_pos _ Hf).
      split; [|done]. unfold covers. rewrite EE, <- Q1, <- Q2. split; [lia|]. split; [lia|]. split; Lqa.lra.
    + destruct (w_contains _ _) eqn:EC; [|done]. apply andb_true_iff in EC as [Q1 Q2]. cbn [w_start w_end] in Q1, Q2. apply Z.leb_le in Q1, Q2.
      unfold tw_eqb in EQ. cbn [w_start w_end] in EQ. assert (t_start t = w_start w) as E1 by lia. assert (t_start t = w_end w) as E2 by lia. rewrite <- E1, <- E2, Z.eqb_refl in EQ. done.
  - destruct (C48_slice _ _ _ Hf Hw Hd E) as (E1 & E2 & _ & (C1 & C2 & C3 & C4) & _). split; [|done]. unfold covers. rewrite E2. done.
Qed.
(** What comes out of a channel: the sampling frequency asked for, or that of the recording. *)
Definition frequency (g : Q) (t : wtrace) : Q := if Qlt_le_dec 0 g then g else t_freq t.
Lemma filter_trace_head fs g t u : filter_trace flt fs g t = Some u -> t_id u = t_id t /\ t_start u = t_start t /\ t_freq u == frequency g t.
Proof using.
  unfold filter_trace, frequency. set (v := set_data t (t_freq t) (demean (t_data t))).
  assert (t_id (resample_trace g v) = t_id t /\ t_start (resample_trace g v) = t_start t /\ t_freq (resample_trace g v) == (if Qlt_le_dec 0 g then g else t_freq t)) as H.
  { unfold resample_trace. destruct (Qle_bool g 0) eqn:E1.
    - apply Qle_bool_iff in E1. destruct (Qlt_le_dec 0 g); [Lqa.lra|]. done.
    - destruct (Qlt_le_dec 0 g) as [|K]; [|apply Qle_bool_iff in K; congruence]. destruct (Qeq_bool _ g) eqn:E2; [apply Qeq_bool_iff in E2|]; done. }
  destruct fs; [by intros [= <-]|]. destruct (flt _ _); [|done]. by intros [= <-].
Qed.
Lemma frequency_pos g t : 0 < t_freq t -> 0 < frequency g t.
Proof using. intros H. unfold frequency. destruct (Qlt_le_dec 0 g); done. Qed.
Lemma channel_result load w s pick c fs g r :
  (w_start w <= w_end w)%Z -> (forall W s' p t, load W s' p = Some t -> 0 < t_freq t) ->
  load_and_process load extra flt w s pick c fs g = r ->
  r = ROk None \/ exists t t', r = ROk (Some t') /\ load (w_extend w (secToDur extra) (secToDur extra)) (set_cha s c) pick = Some t /\
    covers t' w /\ t_id t' = t_id t /\ t_freq t' == frequency g t /\ 0 < t_freq t'.
Proof using.
  intros Hw Hf. unfold load_and_process. destruct (load _ _ _) as [t|] eqn:EL; [|by left]. specialize (Hf _ _ _ _ EL).
  destruct (filter_trace flt fs g t) as [u|] eqn:EF; [|by left]. destruct (filter_trace_head _ _ _ _ EF) as (E1 & _ & E3).
  assert (0 < t_freq u) as Hu by (rewrite E3; by apply frequency_pos).
  destruct (C48_defined u w Hu Hw) as [HU _]. destruct (slice u w) as [| |t'] eqn:ES; [done|by left|]. intros <-. right. exists t, t'.
  destruct (slice_covers _ _ _ Hu Hw ES) as (C & I1 & I2). rewrite I1, I2. done.
Qed.

(** The codes of the result *)
Definition new_codes (s : stream) (letter : ascii) : stream :=
  Stream (s_net s) (s_sta s) (s_loc s) ((if decide (2 <= length (s_cha s))%nat then take 2 (s_cha s) else []) ++ [letter]).
(** The trace of one channel covers the window and has the frequency asked for. *)
Theorem C75_single_channel load w s pick a b c d fs g t' :
  (w_start w <= w_end w)%Z -> (forall W s' p t, load W s' p = Some t -> 0 < t_freq t) ->
  get load extra info flt w s pick a b c d fs g TNone = ROk (Some t') ->
  exists t, load (w_extend w (secToDur extra) (secToDur extra)) s pick = Some t /\
    covers t' w /\ t_id t' = t_id t /\ t_freq t' == frequency g t.
Proof using.
  intros Hw Hf E. destruct (channel_result _ _ _ _ _ _ _ _ Hw Hf E) as [E'|(t & u & EU & EL & C & I & F & _)]; [done|]. injection EU as <-. exists t.
  split; [|done]. destruct s. exact EL.
Qed.
(** The L2 norm: from the start of the window at the latest to within a sample of its end. *)
Theorem C75_l2 load w s pick a b c d fs g t' :
  (w_start w <= w_end w)%Z -> (forall W s' p t, load W s' p = Some t -> 0 < t_freq t) ->
  get load extra info flt w s pick a b c d fs g TL2 = ROk (Some t') ->
  exists ci t, info s pick = Some ci /\ load (w_extend w (secToDur extra) (secToDur extra)) (set_cha s (ci_h1 ci)) pick = Some t /\
    t_id t' = new_codes s "L"%char /\ t_freq t' == frequency g t /\
    (t_start t' <= w_start w)%Z /\ inject_Z (w_end w) < sample_time t' (length (t_data t')) /\
    (forall x, x ∈ t_data t' -> (0 <= x)%R).
Proof using.
  intros Hw Hf. unfold get. destruct (info s pick) as [ci|] eqn:EI; [|done]. intros E. exists ci.
  destruct (channel_result load w s pick (ci_h1 ci) fs g _ Hw Hf eq_refl) as [E1|(t1 & h1 & E1 & L1 & C1 & _ & F1 & P1)]; rewrite E1 in E; cbn [bind] in E.
  { destruct (channel_result load w s pick (ci_h2 ci) fs g _ Hw Hf eq_refl) as [E2|(t2 & h2 & E2 & L2 & C2 & _ & F2 & P2)]; rewrite E2 in E; cbn [bind] in E; done. }
  destruct (channel_result load w s pick (ci_h2 ci) fs g _ Hw Hf eq_refl) as [E2|(t2 & h2 & E2 & L2 & C2 & _ & F2 & P2)]; rewrite E2 in E; cbn [bind] in E; [done|].
  exists t1. split; [done|]. split; [done|]. destruct (transform_l2 _ h1 h2) as [| |u] eqn:EX; [done|done|]. cbn [of_outcome] in E. injection E as <-.
  destruct (C49_l2 _ _ _ _ P1 EX) as (S & F & Hl & _ & HE & k1 & k2 & _ & _ & HV). destruct C1 as (C11 & C12 & _), C2 as (C21 & C22 & _).
  split. { unfold transform_l2 in EX. destruct (negb _); [done|]. destruct (common_count _ _ _); [|done]. case_decide; [done|].
           destruct (first_sample h1 _ _); [|done]. destruct (first_sample h2 _ _); [|done]. injection EX as <-. done. }
  split; [by rewrite F|]. split; [lia|]. split.
  - unfold sample_time. rewrite F. rewrite S. set (start := Z.max _ _) in *. assert (w_end w <= start + (Z.min (end_time h1) (end_time h2) - start))%Z as K by lia.
    rewrite Zle_Qle, inject_Z_plus in K. Lqa.lra.
  - intros x Hx. apply elem_of_list_lookup in Hx as [i Hi]. destruct (HV _ _ Hi) as (x1 & x2 & _ & _ & ->). apply R_sqrt.sqrt_pos.
Qed.

(** Radial and transversal: the same, with a start time that may be too early. *)
Theorem C75_rt_partial load w s pick a b c d fs g trans t' : trans = TTransversal \/ trans = TRadial ->
  (w_start w <= w_end w)%Z -> (forall W s' p t, load W s' p = Some t -> 0 < t_freq t) ->
  get load extra info flt w s pick a b c d fs g trans = ROk (Some t') ->
  exists ci t start, info s pick = Some ci /\ load (w_extend w (secToDur extra) (secToDur extra)) (set_cha s (ci_h1 ci)) pick = Some t /\
    t_id t' = new_codes s (match trans with TRadial => "R"%char | _ => "T"%char end) /\ t_freq t' == frequency g t /\
    (t_start t' <= start <= w_start w)%Z /\
    inject_Z (w_end w) < inject_Z start + inject_Z (Z.of_nat (length (t_data t'))) / t_freq t' * inject_Z 1000000 /\
    inject_Z start - inject_Z (t_start t') < 1 / t_freq t' * inject_Z 1000000 + 1.
Proof using.
  intros HT Hw Hf.
  assert (get load extra info flt w s pick a b c d fs g trans =
    match info s pick with None => ROk None | Some ci =>
      bind (load_and_process load extra flt w s pick (ci_v ci) fs g) (λ v, bind (load_and_process load extra flt w s pick (ci_h1 ci) fs g) (λ h1,
      bind (load_and_process load extra flt w s pick (ci_h2 ci) fs g) (λ h2, match h1, h2, v with
      | Some h1, Some h2, Some v => of_outcome (transform_rt (set_cha s (id_channel (s_cha s) trans)) (ci_or ci) a b c d (match trans with TTransversal => Transversal | _ => Radial end) v h1 h2)
      | _, _, _ => ROk None end))) end) as -> by (by destruct HT as [-> | ->]).
  destruct (info s pick) as [ci|] eqn:EI; [|done]. intros E. exists ci.
  destruct (channel_result load w s pick (ci_v ci) fs g _ Hw Hf eq_refl) as [E0|(t0 & v & E0 & L0 & C0 & _ & F0 & P0)]; rewrite E0 in E; cbn [bind] in E;
  (destruct (channel_result load w s pick (ci_h1 ci) fs g _ Hw Hf eq_refl) as [E1|(t1 & h1 & E1 & L1 & C1 & _ & F1 & P1)]; rewrite E1 in E; cbn [bind] in E);
  (destruct (channel_result load w s pick (ci_h2 ci) fs g _ Hw Hf eq_refl) as [E2|(t2 & h2 & E2 & L2 & C2 & _ & F2 & P2)]; rewrite E2 in E; cbn [bind] in E); try done.
  destruct (transform_rt _ _ _ _ _ _ _ v h1 h2) as [| |u] eqn:EX; [done|done|]. cbn [of_outcome] in E. injection E as <-.
  destruct (C49_rt_partial _ _ _ _ _ _ _ _ _ _ _ P1 EX) as (S & F & Hl & _ & HE & _). destruct C0 as (C01 & C02 & _), C1 as (C11 & C12 & C13 & _), C2 as (C21 & C22 & _).
  exists t1, (Z.max (Z.max (t_start h1) (t_start h2)) (t_start v)). split; [done|]. split; [done|].
  split. { unfold transform_rt in EX. destruct (_ || _); [done|]. destruct (common_count _ _ _); [|done]. case_decide; [done|].
           destruct (first_sample h1 _ _); [|done]. destruct (first_sample h2 _ _); [|done]. destruct (first_sample v _ _); [|done]. injection EX as <-. by destruct HT as [-> | ->]. }
  split; [by rewrite F|]. rewrite S, F. split; [lia|]. set (start := Z.max _ _) in *. split.
  - set (stop := Z.min _ _) in *. assert (w_end w <= start + (stop - start))%Z as K by lia. rewrite Zle_Qle, inject_Z_plus in K. Lqa.lra.
  - assert (start <= w_start w)%Z as K by lia. rewrite Zle_Qle in K. Lqa.lra.
Qed.
(** The samples are the norms of, or the rotated (C49), simultaneous samples of the channels
    named by the component information, each processed like a single channel. *)
Theorem C75_samples load w s pick a b c d fs g trans t' : trans <> TNone ->
  (w_start w <= w_end w)%Z -> (forall W s' p t, load W s' p = Some t -> 0 < t_freq t) ->
  get load extra info flt w s pick a b c d fs g trans = ROk (Some t') ->
  let single cha := get load extra info flt w (set_cha s cha) pick a b c d fs g TNone in
  exists ci h1 h2 k1 k2 start, info s pick = Some ci /\ single (ci_h1 ci) = ROk (Some h1) /\ single (ci_h2 ci) = ROk (Some h2) /\
    aligned h1 start (length (t_data t')) k1 /\ aligned h2 start (length (t_data t')) k2 /\ (0 < length (t_data t'))%nat /\
    match trans with
    | TNone => False
    | TL2 => forall i x, t_data t' !! i = Some x -> exists x1 x2, t_data h1 !! (k1 + i)%nat = Some x1 /\ t_data h2 !! (k2 + i)%nat = Some x2 /\ x = R_sqrt.sqrt (x1 * x1 + x2 * x2)%R
    | TRadial | TTransversal => exists v kv, single (ci_v ci) = ROk (Some v) /\ aligned v start (length (t_data t')) kv /\
        forall i x, t_data t' !! i = Some x -> exists x1 x2 xv, t_data h1 !! (k1 + i)%nat = Some x1 /\ t_data h2 !! (k2 + i)%nat = Some x2 /\ t_data v !! (kv + i)%nat = Some xv /\
          x = rt_sample (transformation (ci_or ci) a b c d) (match trans with TRadial => Radial | _ => Transversal end) x2 x1 xv
    end.
Proof using.
  intros HN Hw Hf E single.
  assert (forall cha r, single cha = r <-> load_and_process load extra flt w s pick cha fs g = r) as HS by done.
  destruct trans; [done| | |].
  1: { unfold get in E. destruct (info s pick) as [ci|] eqn:EI; [|done].
    destruct (channel_result load w s pick (ci_h1 ci) fs g _ Hw Hf eq_refl) as [E1|(t1 & h1 & E1 & L1 & C1 & _ & F1 & P1)]; rewrite E1 in E; cbn [bind] in E;
    (destruct (channel_result load w s pick (ci_h2 ci) fs g _ Hw Hf eq_refl) as [E2|(t2 & h2 & E2 & L2 & C2 & _ & F2 & P2)]; rewrite E2 in E; cbn [bind] in E); try done.
    destruct (transform_l2 _ h1 h2) as [| |u] eqn:EX; [done|done|]. cbn [of_outcome] in E. injection E as <-.
    destruct (C49_l2 _ _ _ _ P1 EX) as (S & F & Hl & _ & HE & k1 & k2 & A1 & A2 & HV). exists ci, h1, h2, k1, k2, (Z.max (t_start h1) (t_start h2)).
    split; [done|]. split; [done|]. split; [done|]. split; [done|]. split; [done|]. split; [done|]. intros i x Hx. exact (HV i x Hx). }
  all: unfold get in E; destruct (info s pick) as [ci|] eqn:EI; [|done];
    (destruct (channel_result load w s pick (ci_v ci) fs g _ Hw Hf eq_refl) as [E0|(t0 & v & E0 & L0 & C0 & _ & F0 & P0)]; rewrite E0 in E; cbn [bind] in E);
    (destruct (channel_result load w s pick (ci_h1 ci) fs g _ Hw Hf eq_refl) as [E1|(t1 & h1 & E1 & L1 & C1 & _ & F1 & P1)]; rewrite E1 in E; cbn [bind] in E);
    (destruct (channel_result load w s pick (ci_h2 ci) fs g _ Hw Hf eq_refl) as [E2|(t2 & h2 & E2 & L2 & C2 & _ & F2 & P2)]; rewrite E2 in E; cbn [bind] in E); try done;
    (destruct (transform_rt _ _ _ _ _ _ _ v h1 h2) as [| |u] eqn:EX; [done|done|]); cbn [of_outcome] in E; injection E as <-;
    destruct (C49_rt_partial _ _ _ _ _ _ _ _ _ _ _ P1 EX) as (S & F & Hl & _ & HE & k1 & k2 & kv & A1 & A2 & A3 & HV);
    exists ci, h1, h2, k1, k2, (Z.max (Z.max (t_start h1) (t_start h2)) (t_start v));
    (split; [done|]); (split; [done|]); (split; [done|]); (split; [done|]); (split; [done|]); (split; [done|]); exists v, kv; (split; [done|]); (split; [done|]); exact HV.
Qed.
(** Nothing undefined happens and no exception is thrown. *)
Theorem C75_defined load w s pick a b c d fs g trans :
  (w_start w <= w_end w)%Z -> (forall W s' p t, load W s' p = Some t -> 0 < t_freq t) ->
  exists r, get load extra info flt w s pick a b c d fs g trans = ROk r.
Proof using.
  intros Hw Hf.
  assert (forall s e f, 0 < f -> (s <= e)%Z -> exists n, common_count s e f = Some n) as HC.
  { intros x y f Pf L. unfold common_count. rewrite decide_False; [by eexists|]. assert (0 <= Qfloor (durToSec (y - x) * f))%Z as K; [|lia].
    replace 0%Z with (Qfloor 0) by done. apply Qfloor_resp_le. apply Qmult_le_0_compat; [|by apply Qlt_le_weak]. unfold durToSec. apply Qle_shift_div_l; [done|].
    rewrite Qmult_0_l. change 0 with (inject_Z 0). rewrite <- Zle_Qle. lia. }
  unfold get. destruct trans.
  - destruct (channel_result load w s pick (s_cha s) fs g _ Hw Hf eq_refl) as [-> |(t & t' & -> & _)]; by eexists.
  - destruct (info s pick) as [ci|]; [|by eexists].
    destruct (channel_result load w s pick (ci_h1 ci) fs g _ Hw Hf eq_refl) as [-> |(t1 & h1 & -> & _ & C1 & _ & _ & P1)];
    destruct (channel_result load w s pick (ci_h2 ci) fs g _ Hw Hf eq_refl) as [-> |(t2 & h2 & -> & _ & C2 & _ & _ & P2)]; cbn [bind]; try by eexists.
    destruct C1 as (C11 & C12 & _), C2 as (C21 & C22 & _). unfold transform_l2. destruct (negb _); [by eexists|].
    destruct (HC (Z.max (t_start h1) (t_start h2)) (Z.min (end_time h1) (end_time h2)) (t_freq h1) P1 ltac:(lia)) as [n ->].
    case_decide; [by eexists|]. destruct (first_sample h1 _ _); [|by eexists]. destruct (first_sample h2 _ _); by eexists.
  - destruct (info s pick) as [ci|]; [|by eexists].
    destruct (channel_result load w s pick (ci_v ci) fs g _ Hw Hf eq_refl) as [-> |(t0 & v & -> & _ & C0 & _ & _ & P0)];
    destruct (channel_result load w s pick (ci_h1 ci) fs g _ Hw Hf eq_refl) as [-> |(t1 & h1 & -> & _ & C1 & _ & _ & P1)];
    destruct (channel_result load w s pick (ci_h2 ci) fs g _ Hw Hf eq_refl) as [-> |(t2 & h2 & -> & _ & C2 & _ & _ & P2)]; cbn [bind]; try by eexists.
    destruct C0 as (C01 & C02 & _), C1 as (C11 & C12 & _), C2 as (C21 & C22 & _). unfold transform_rt. destruct (_ || _); [by eexists|].
    destruct (HC (Z.max (Z.max (t_start h1) (t_start h2)) (t_start v)) (Z.min (Z.min (end_time h1) (end_time h2)) (end_time v)) (t_freq h1) P1 ltac:(lia)) as [n ->].
    case_decide; [by eexists|]. destruct (first_sample h1 _ _); [|by eexists]. destruct (first_sample h2 _ _); [|by eexists]. destruct (first_sample v _ _); by eexists.
  - destruct (info s pick) as [ci|]; [|by eexists].
    destruct (channel_result load w s pick (ci_v ci) fs g _ Hw Hf eq_refl) as [-> |(t0 & v & -> & _ & C0 & _ & _ & P0)];
    destruct (channel_result load w s pick (ci_h1 ci) fs g _ Hw Hf eq_refl) as [-> |(t1 & h1 & -> & _ & C1 & _ & _ & P1)];
    destruct (channel_result load w s pick (ci_h2 ci) fs g _ Hw Hf eq_refl) as [-> |(t2 & h2 & -> & _ & C2 & _ & _ & P2)]; cbn [bind]; try by eexists.
    destruct C0 as (C01 & C02 & _), C1 as (C11 & C12 & _), C2 as (C21 & C22 & _). unfold transform_rt. destruct (_ || _); [by eexists|].
    destruct (HC (Z.max (Z.max (t_start h1) (t_start h2)) (t_start v)) (Z.min (Z.min (end_time h1) (end_time h2)) (end_time v)) (t_freq h1) P1 ltac:(lia)) as [n ->].
    case_decide; [by eexists|]. destruct (first_sample h1 _ _); [|by eexists]. destruct (first_sample h2 _ _); [|by eexists]. destruct (first_sample v _ _); by eexists.
Qed.

(** *** When there is a result *)
(** The filters work and keep the number of samples. *)
Definition filters_work : Prop := forall fs u, exists d, flt fs u = Some d /\ length d = length (t_data u).
Lemma resample_span (f g : Q) (d : list R) : 0 < f -> 0 < g -> Qeq_bool f g = false ->
  inject_Z (Z.of_nat (length d)) / f - 1 / g < inject_Z (Z.of_nat (length (resample d (Q2R f) (Q2R g)).1)) / g.
Proof using.
  intros Hf Hg Hne. apply Qlt_Rlt in Hf as Rf. apply Qlt_Rlt in Hg as Rg. rewrite RMicromega.Q2R_0 in Rf, Rg.
  destruct (C68_span d (Q2R f) (Q2R g) Rf Rg (Q2R_neq _ _ Hne)) as (_ & _ & K). apply Rlt_Qlt.
  rewrite Q2R_minus, !Q2R_div by Lqa.lra. unfold inject_Z, Q2R at 1 5. unfold Q2R at 2. cbn [Qnum Qden].
  rewrite <- !INR_IZR_INZ. rewrite Rinv_1, !Rmult_1_r. unfold Rdiv in *. Lra.lra.
Qed.
Theorem C75_succeeds load w s pick a b c d fs g t : let e := secToDur extra in
  (w_start w <= w_end w)%Z -> filters_work -> load (w_extend w e e) s pick = Some t -> 0 < t_freq t -> t_data t <> [] ->
  (t_start t <= w_start w - e)%Z -> inject_Z (w_end w + e) <= sample_time t (length (t_data t) - 1) ->
  (0 <= e)%Z -> (0 < g -> 2 / g * inject_Z 1000000 <= inject_Z e) ->
  exists t', get load extra info flt w s pick a b c d fs g TNone = ROk (Some t').
Proof using.
  intros e Hw HF EL Hf Hd H1 H2 He Hg. unfold get, load_and_process. fold e. replace (set_cha s (s_cha s)) with s by (by destruct s). rewrite EL.
  assert (0 < length (t_data t))%nat as Hn by (destruct (t_data t); [done|cbn; lia]).
  set (v := set_data t (t_freq t) (demean (t_data t))). assert (length (t_data v) = length (t_data t)) as Lv by (unfold v, demean; cbn [set_data t_data]; apply fmap_length).
  assert (0 < t_freq (resample_trace g v) /\ t_start (resample_trace g v) = t_start t /\ t_data (resample_trace g v) <> [] /\
    inject_Z (w_end w) <= sample_time (resample_trace g v) (length (t_data (resample_trace g v)) - 1)) as (R1 & R2 & R3 & R4).
  { assert (t_data v <> []) as Hv by (intros X; rewrite X in Lv; cbn in Lv; lia).
    assert (inject_Z (w_end w) <= sample_time v (length (t_data v) - 1)) as Hs.
    { rewrite Lv. change (sample_time v) with (sample_time t). rewrite inject_Z_plus in H2. rewrite Zle_Qle in He. change (inject_Z 0) with 0 in He. Lqa.lra. }
    unfold resample_trace. destruct (Qle_bool g 0) eqn:E1; [done|]. destruct (Qeq_bool (t_freq v) g) eqn:E2; [done|]. clear Hs.
    assert (0 < g) as Pg. { apply Qnot_le_lt. intros K. apply Qle_bool_iff in K. congruence. }
    specialize (Hg Pg). change (t_freq v) with (t_freq t) in *. pose proof (resample_span (t_freq t) g (t_data v) Hf Pg E2) as SP. rewrite Lv in SP.
    cbn [set_data t_freq t_start t_data]. set (out := (resample (t_data v) (Q2R (t_freq t)) (Q2R g)).1) in *.
    assert (inject_Z (Z.of_nat (length (t_data t))) == inject_Z (Z.of_nat (length (t_data t) - 1)) + 1) as EN.
    { change 1 with (inject_Z 1). rewrite <- inject_Z_plus. replace (Z.of_nat (length (t_data t) - 1) + 1)%Z with (Z.of_nat (length (t_data t))) by lia. reflexivity. }
    assert (0 < 1 / t_freq t) as If by (unfold Qdiv; rewrite Qmult_1_l; by apply Qinv_lt_0_compat).
    assert (inject_Z (Z.of_nat (length (t_data t))) / t_freq t == inject_Z (Z.of_nat (length (t_data t) - 1)) / t_freq t + 1 / t_freq t) as EN' by (rewrite EN; field; Lqa.lra).
    unfold sample_time in H2. rewrite inject_Z_plus in H2. set (X := inject_Z (Z.of_nat (length (t_data t) - 1)) / t_freq t) in *.
    assert (inject_Z (t_start t) + inject_Z e <= inject_Z (w_start w)) as H1' by (rewrite <- inject_Z_plus, <- Zle_Qle; lia).
    rewrite Zle_Qle in Hw. rewrite Zle_Qle in He. change (inject_Z 0) with 0 in He.
    assert (2 / g == 1 / g + 1 / g) as EG by (field; Lqa.lra). change (inject_Z 1000000) with 1000000 in *.
    assert (0 < 1 / g) as Ig by (unfold Qdiv; rewrite Qmult_1_l; by apply Qinv_lt_0_compat).
    assert (out <> []) as Ho. { intros EO. rewrite EO in SP. assert (inject_Z (Z.of_nat (@length R [])) / g == 0) as E0 by (change (Z.of_nat (@length R [])) with 0%Z; field; Lqa.lra).
      rewrite EN', E0 in SP. rewrite EG in Hg. generalize dependent (1 / g). generalize dependent (1 / t_freq t). intros. Lqa.lra. }
    split; [done|]. split; [done|]. split; [done|]. unfold sample_time. cbn [set_data t_freq t_start].
    assert (inject_Z (Z.of_nat (length out - 1)) / g == inject_Z (Z.of_nat (length out)) / g - 1 / g) as EM.
    { assert (inject_Z (Z.of_nat (length out)) == inject_Z (Z.of_nat (length out - 1)) + 1) as EM.
      { change 1 with (inject_Z 1). rewrite <- inject_Z_plus. assert (0 < length out)%nat by (destruct out; [done|cbn; lia]). replace (Z.of_nat (length out - 1) + 1)%Z with (Z.of_nat (length out)) by lia. reflexivity. }
      rewrite EM. field. Lqa.lra. }
    change (t_start v) with (t_start t). change (inject_Z 1000000) with 1000000. rewrite EM. rewrite EN' in SP. rewrite EG in Hg.
    set (Y := inject_Z (Z.of_nat (length out)) / g) in *. set (G := 1 / g) in *. set (F := 1 / t_freq t) in *. clearbody X Y G F. Lqa.lra. }
  assert (exists u, filter_trace flt fs g t = Some u /\ t_start u = t_start (resample_trace g v) /\ t_freq u = t_freq (resample_trace g v) /\ length (t_data u) = length (t_data (resample_trace g v))) as (u & -> & U1 & U2 & U3).
  { unfold filter_trace. fold v. destruct fs as [|f0 fs]; [by eexists|]. destruct (HF (f0 :: fs) (resample_trace g v)) as (d' & -> & Ld). by eexists. }
  destruct (C48_succeeds u w) as [t' ->].
  - by rewrite U2.
  - rewrite U1, R2. lia.
  - intros X. rewrite X in U3. destruct (t_data (resample_trace g v)); done.
  - rewrite U3. unfold sample_time in *. by rewrite U1, U2.
  - by eexists.
Qed.

(** *** Components with the same samples in time *)
Definition same_shape (t u : wtrace) : Prop := t_start t = t_start u /\ t_freq t = t_freq u /\ length (t_data t) = length (t_data u).
Lemma slice_shape (t u t' : wtrace) w : same_shape t u -> slice t w = SlTrue t' -> exists u', slice u w = SlTrue u' /\ same_shape t' u'.
Proof using.
  intros (E1 & E2 & E3). assert (time_window t = time_window u) as EW by (unfold time_window, end_time, sample_count; by rewrite E1, E2, E3).
  unfold slice. rewrite EW. destruct (tw_eqb _ _); [intros [= <-]; by eexists|]. destruct (negb _); [done|].
  assert (forall z, index t z = index u z) as EI by (intros z; unfold index; by rewrite E1, E2). rewrite !EI. unfold sample_count. rewrite E3.
  destruct (_ <? 0)%Z; [done|]. destruct (_ <=? _)%Z; [done|]. unfold sub_vector. rewrite E3. case_decide; [|done]. intros [= <-]. eexists. split; [done|].
  unfold same_shape. cbn [t_start t_freq t_data]. rewrite E1, E2, !take_length, !drop_length, E3. done.
Qed.
Lemma filter_shape fs g t u t' : filters_work -> same_shape t u -> filter_trace flt fs g t = Some t' -> exists u', filter_trace flt fs g u = Some u' /\ same_shape t' u'.
Proof using.
  intros HF (E1 & E2 & E3). unfold filter_trace.
  set (v1 := set_data t _ _). set (v2 := set_data u _ _).
  assert (same_shape v1 v2) as (V1 & V2 & V3) by (unfold same_shape, v1, v2, demean, set_data; cbn [t_start t_freq t_data]; rewrite !fmap_length; done).
  assert (same_shape (resample_trace g v1) (resample_trace g v2)) as (W1 & W2 & W3).
  { unfold resample_trace. destruct (Qle_bool g 0); [done|]. rewrite V2. destruct (Qeq_bool _ g); [done|].
    unfold same_shape, set_data. cbn [t_start t_freq t_data]. split; [done|]. split; [done|]. unfold resample. destruct (Rle_dec _ _); [done|]. destruct (Req_EM_T _ _); [done|].
    cbn [fst]. by rewrite !map_length, !seq_length, V3. }
  destruct fs as [|f0 fs]; [intros [= <-]; by eexists|].
  destruct (HF (f0 :: fs) (resample_trace g v1)) as (d1 & -> & L1). destruct (HF (f0 :: fs) (resample_trace g v2)) as (d2 & -> & L2). intros [= <-]. eexists. split; [done|].
  unfold same_shape, set_data. cbn [t_start t_freq t_data]. rewrite L1, L2. done.
Qed.
Lemma exact_count (t : wtrace) P : period t P -> t_data t <> [] -> common_count (t_start t) (end_time t) (t_freq t) = Some (length (t_data t)).
Proof using.
  intros HP Hd. assert (0 < length (t_data t))%nat as Hn by (destruct (t_data t); [done|cbn; lia]).
  unfold common_count. assert (Qfloor (durToSec (end_time t - t_start t) * t_freq t) = Z.of_nat (length (t_data t)) - 1)%Z as ->.
  { rewrite <- (Qfloor_Z (Z.of_nat (length (t_data t)) - 1)). apply Qfloor_comp. change (durToSec (end_time t - t_start t) * t_freq t) with (index t (end_time t)).
    rewrite (exact_index _ P) by done. rewrite (exact_end _ P) by done. unfold sample_count. unfold Qeq, inject_Z. cbn [Qnum Qden]. lia. }
  rewrite decide_False by lia. f_equal. lia.
Qed.
Lemma end_shape (t u : wtrace) : same_shape t u -> end_time t = end_time u.
Proof using. intros (E1 & E2 & E3). unfold end_time, sample_count. by rewrite E1, E2, E3. Qed.
(** Recordings of the horizontal components (and the vertical one) with the same start,
    sampling frequency and number of samples, the period being whole microseconds: the
    result covers the window like that of a single channel. *)
Theorem C75_aligned load w s pick a b c d fs g trans ci t1 t' P : let W := w_extend w (secToDur extra) (secToDur extra) in
  trans <> TNone -> filters_work -> (w_start w < w_end w)%Z -> (forall W' s' p u, load W' s' p = Some u -> 0 < t_freq u) ->
  info s pick = Some ci -> load W (set_cha s (ci_h1 ci)) pick = Some t1 ->
  (forall c' u, channels info s pick trans c' -> load W (set_cha s c') pick = Some u -> same_shape t1 u) ->
  frequency g t1 == 1000000 # P ->
  get load extra info flt w s pick a b c d fs g trans = ROk (Some t') -> covers t' w.
Proof using.
  intros W Hnt HF Hw Hf EI L1 HS HP.
  assert (forall c' h1 h2, channels info s pick trans c' -> load_and_process load extra flt w s pick (ci_h1 ci) fs g = ROk (Some h1) ->
    load_and_process load extra flt w s pick c' fs g = ROk (Some h2) -> same_shape h1 h2) as HSS.
  { intros c' h1 h2 Hc. unfold load_and_process. fold W. rewrite L1. destruct (load W (set_cha s c') pick) as [t2|] eqn:L2; [|done]. pose proof (HS _ _ Hc L2) as SH.
    destruct (filter_trace flt fs g t1) as [u1|] eqn:F1; [|done]. destruct (filter_shape _ _ _ _ _ HF SH F1) as (u2 & -> & SU).
    destruct (slice u1 w) as [| |s1] eqn:S1; [done|done|]. destruct (slice_shape _ _ _ _ SU S1) as (s2 & -> & SS). cbn [of_slice]. intros [= <-] [= <-]. done. }
  assert (forall h1, load_and_process load extra flt w s pick (ci_h1 ci) fs g = ROk (Some h1) -> covers h1 w /\ period h1 P /\ t_data h1 <> [] /\ 0 < t_freq h1) as H1.
  { intros h1 E1. destruct (channel_result load w s pick (ci_h1 ci) fs g _ ltac:(lia) Hf E1) as [X|(t & u & EU & EL & C & _ & F & P')]; [done|]. injection EU as <-.
    fold W in EL. rewrite L1 in EL. injection EL as <-. split; [done|]. split; [unfold period; by rewrite F|]. split; [|done].
    intros X. destruct C as (C1 & C2 & _). unfold end_time in C2. rewrite X in C2. rewrite decide_True in C2 by done. lia. }
  unfold get. rewrite EI. destruct trans; [done|..].
  - destruct (load_and_process _ _ _ _ _ _ (ci_h1 ci) _ _) as [[h1|]| |] eqn:E1; try done; [|cbn [bind]; by destruct (load_and_process _ _ _ _ _ _ (ci_h2 ci) _ _)].
    destruct (load_and_process _ _ _ _ _ _ (ci_h2 ci) _ _) as [[h2|]| |] eqn:E2; cbn [bind]; try done.
    destruct (H1 _ eq_refl) as (C & HP1 & Hd & Pf). pose proof (HSS (ci_h2 ci) h1 h2 ltac:(exists ci; tauto) eq_refl E2) as SH.
    unfold transform_l2. pose proof (end_shape _ _ SH) as EE. destruct SH as (S1 & S2 & S3). rewrite <- EE, <- S1, <- S2, Z.max_id, Z.min_id.
    rewrite (exact_count _ P) by done. destruct (negb _); [done|]. case_decide; [done|].
    destruct (first_sample h1 _ _); [|done]. destruct (first_sample h2 _ _); [|done]. cbn [of_outcome]. intros [= <-].
    unfold covers, end_time, sample_count in *. cbn [t_start t_freq t_data]. by rewrite fmap_length, seq_length.
  - destruct (load_and_process _ _ _ _ _ _ (ci_v ci) _ _) as [[v|]| |] eqn:E0; cbn [bind]; try done;
    destruct (load_and_process _ _ _ _ _ _ (ci_h1 ci) _ _) as [[h1|]| |] eqn:E1; cbn [bind]; try done;
    destruct (load_and_process _ _ _ _ _ _ (ci_h2 ci) _ _) as [[h2|]| |] eqn:E2; cbn [bind]; try done.
    destruct (H1 _ eq_refl) as (C & HP1 & Hd & Pf). pose proof (HSS (ci_h2 ci) h1 h2 ltac:(exists ci; tauto) eq_refl E2) as SH. pose proof (HSS (ci_v ci) h1 v ltac:(exists ci; tauto) eq_refl E0) as SV.
    unfold transform_rt. pose proof (end_shape _ _ SH) as EE. pose proof (end_shape _ _ SV) as EV. destruct SH as (S1 & S2 & S3), SV as (V1 & V2 & V3). rewrite <- EE, <- EV, <- S1, <- S2, <- V1, <- V2, !Z.max_id, !Z.min_id.
    rewrite (exact_count _ P) by done. destruct (_ || _); [done|]. case_decide; [done|].
    destruct (first_sample h1 _ _); [|done]. destruct (first_sample h2 _ _); [|done]. destruct (first_sample v _ _); [|done]. cbn [of_outcome]. intros [= <-].
    unfold covers, end_time, sample_count in *. cbn [t_start t_freq t_data]. by rewrite fmap_length, seq_length.
  - destruct (load_and_process _ _ _ _ _ _ (ci_v ci) _ _) as [[v|]| |] eqn:E0; cbn [bind]; try done;
    destruct (load_and_process _ _ _ _ _ _ (ci_h1 ci) _ _) as [[h1|]| |] eqn:E1; cbn [bind]; try done;
    destruct (load_and_process _ _ _ _ _ _ (ci_h2 ci) _ _) as [[h2|]| |] eqn:E2; cbn [bind]; try done.
    destruct (H1 _ eq_refl) as (C & HP1 & Hd & Pf). pose proof (HSS (ci_h2 ci) h1 h2 ltac:(exists ci; tauto) eq_refl E2) as SH. pose proof (HSS (ci_v ci) h1 v ltac:(exists ci; tauto) eq_refl E0) as SV.
    unfold transform_rt. pose proof (end_shape _ _ SH) as EE. pose proof (end_shape _ _ SV) as EV. destruct SH as (S1 & S2 & S3), SV as (V1 & V2 & V3). rewrite <- EE, <- EV, <- S1, <- S2, <- V1, <- V2, !Z.max_id, !Z.min_id.
    rewrite (exact_count _ P) by done. destruct (_ || _); [done|]. case_decide; [done|].
    destruct (first_sample h1 _ _); [|done]. destruct (first_sample h2 _ _); [|done]. destruct (first_sample v _ _); [|done]. cbn [of_outcome]. intros [= <-].
    unfold covers, end_time, sample_count in *. cbn [t_start t_freq t_data]. by rewrite fmap_length, seq_length.
Qed.
End proc.

(** *** Where it fails *)
Module Cases.
Definition s0 : stream := Stream ["C"; "H"]%char ["A"]%char [] ["H"; "H"; "Z"]%char.
Definition ci0 : comps_info := Info ["H"; "H"; "Z"]%char ["H"; "H"; "N"]%char ["H"; "H"; "E"]%char
  (Comps (Comp 0 (-90)) (Comp 0 0) (Comp 90 0)).
Definition info0 : stream → Z → option comps_info := λ _ _, Some ci0.
Definition flt0 : text → wtrace → option (list R) := λ _ t, Some ((λ x, (2 * x)%R) <$> t_data t).
(** Every channel recorded from 0 with [n] samples at [f] Hz *)
Definition load0 (f : Q) (n : nat) : loader := λ _ s _, Some (MkTrace s 0 f ((λ i, INR i) <$> seq 0 n)).
End Cases.
Import Cases.
(** A period that is no whole number of microseconds: the samples are counted between times
    rounded to microseconds, and the last one can get lost. *)
Theorem C75_short_refuted : exists w t', (w_start w < w_end w)%Z /\
  get (load0 3 4) 0 info0 flt0 w s0 0 0 0 0 0 [] 0 TL2 = ROk (Some t') /\ (end_time t' < w_end w)%Z.
Proof.
  exists (Tw 0 333333). eexists. split; [cbn; lia|]. split; [lazy -[R_sqrt.sqrt Rdiv INR Rplus Rminus]; reflexivity|]. vm_compute. done.
Qed.
(** Without enough of a margin a resampled trace is too short: one second at 10 Hz becomes
    less than one second at 7 Hz, and there is no result. *)
Theorem C75_margin_refuted : exists w t, (w_start w < w_end w)%Z /\ load0 10 11 w s0 0%Z = Some t /\ (t_start t <= w_start w)%Z /\ (w_end w <= end_time t)%Z /\
  get (load0 10 11) 0 info0 flt0 w s0 0 0 0 0 0 [] 7 TNone = ROk None /\
  (exists t', get (load0 10 11) 0 info0 flt0 w s0 0 0 0 0 0 [] 0 TNone = ROk (Some t')).
Proof.
  exists (Tw 0 1000000). eexists. split; [cbn; lia|]. split; [reflexivity|]. split; [cbn; lia|]. split; [vm_compute; done|]. split.
  2: { eexists. lazy -[R_sqrt.sqrt Rdiv INR Rplus Rminus]; reflexivity. }
  unfold get, load_and_process, load0, filter_trace. cbn [s_cha set_cha s0].
  set (v := set_data _ _ _). assert (length (t_data v) = 11%nat) as Lv by done. assert (t_freq v = 10%Q) as Fv by done. assert (t_start v = 0%Z) as Sv by done.
  unfold resample_trace. rewrite Fv. change (Qle_bool 7 0) with false. change (Qeq_bool 10 7) with false. cbn iota.
  set (out := (resample (t_data v) (Q2R 10) (Q2R 7)).1).
  assert (length out = 7%nat) as Lo.
  { unfold out. rewrite resample_eq; [|unfold Q2R; cbn; Lra.lra|intros K; unfold Q2R in K; cbn in K; Lra.lra].
    cbn [fst]. rewrite map_length, seq_length, Lv. assert (Q2R 7 / Q2R 10 = 7 / 10)%R as -> by (unfold Q2R; cbn [Qnum Qden]; field).
    assert (INR 11 * (7 / 10) = 77 / 10)%R as -> by (rewrite INR_IZR_INZ; cbn [Z.of_nat Pos.of_succ_nat Pos.succ]; field).
    unfold trunc. destruct (Rle_dec _ _) as [_|K]; [|Lra.lra]. rewrite (Int_part_unique _ 7) by (split; Lra.lra). done. }
  destruct (slice (set_data v 7 out) (Tw 0 1000000)) as [| |u] eqn:ES; [|done|].
  - exfalso. apply (C48_defined (set_data v 7 out) (Tw 0 1000000)); [done|cbn; lia|done].
  - exfalso. unfold slice in ES. assert (time_window (set_data v 7 out) = Tw 0 857143) as EW.
    { unfold time_window, end_time, sample_count. cbn [set_data t_data t_start t_freq]. rewrite Lo, Sv. reflexivity. }
    rewrite EW in ES. done.
Qed.

(** *** Examples *)
(** C75_extra_transparent: 100 Hz, four seconds; two windows are loaded by the second. *)
Example C75_example_extra : exists W t, window_to_load (1 # 2) 1 (Tw 1234567 2345678) 1700000 = ROk W /\ W <> Tw 1234567 2345678 /\
  recorder (λ s, load0 100 401 W s 0%Z) W s0 1700000 <> None /\
  extra_get (1 # 2) 1 (recorder (λ s, load0 100 401 W s 0%Z)) (Tw 1234567 2345678) s0 1700000 = ROk (Some t) /\ t_start t = 1230000%Z /\ length (t_data t) = 113%nat.
Proof.
  exists (Tw 1000000 3000000). eexists. split; [vm_compute; reflexivity|]. split; [done|].
  pose (r := MkTrace s0 0 100 ((λ i, INR i) <$> seq 0 401) : wtrace).
  assert (period r 10000) as HP by done. assert (t_data r <> []) as Hd by (intros X; apply (f_equal length) in X; unfold r in X; cbn [t_data] in X; rewrite fmap_length, seq_length in X; done).
  assert (sample_count r = 401%Z) as Hn by (unfold sample_count, r; cbn [t_data]; by rewrite fmap_length, seq_length).
  assert (exists T, slice r (Tw 1000000 3000000) = SlTrue T) as [T ET].
  { rewrite (slice_exact _ _ 10000 HP Hd) by (cbn; lia). rewrite Hn. rewrite decide_True by (cbn; lia). by eexists. }
  destruct (C75_extra_transparent (λ s, load0 100 401 (Tw 1000000 3000000) s 0%Z) (1 # 2) 1 (Tw 1234567 2345678) s0 1700000 r 10000) with (W := Tw 1000000 3000000) as [H1 H2];
    [cbn; lia|cbn; lia|vm_compute; done|done|done|done|vm_compute; reflexivity|unfold recorder; cbn [load0]; fold r; by rewrite ET|].
  assert (recorder (λ s, load0 100 401 (Tw 1000000 3000000) s 0%Z) (Tw 1234567 2345678) s0 1700000 = Some (MkTrace s0 1230000 100 (take 113 (drop 123 (t_data r))))) as E.
  { unfold recorder. cbn [load0]. fold r. rewrite (slice_exact _ _ 10000 HP Hd) by (cbn; lia). rewrite Hn. rewrite decide_True by (cbn; lia). reflexivity. }
  split; [unfold recorder; cbn [load0]; fold r; by rewrite ET|]. rewrite H2, E. split; [reflexivity|]. split; [reflexivity|].
  change (length (take 113 (drop 123 (t_data r))) = 113%nat). rewrite take_length, drop_length. unfold sample_count in Hn. assert (length (t_data r) = 401%nat) as -> by lia. done.
Qed.
Example C75_example_flt : homogeneous flt0 3 /\ filters_work flt0.
Proof.
  split.
  - intros fs t. unfold flt0. cbn [scale t_data fmap option_fmap option_map]. f_equal. rewrite <- !list_fmap_compose. apply list_fmap_ext. intros _ x _. unfold compose. ring.
  - intros fs u. eexists. split; [reflexivity|]. apply fmap_length.
Qed.
(** C75_succeeds, C75_single_channel: six seconds at 100 Hz, the middle two, resampled to 200 Hz. *)
Example C75_example_single : exists t', get (load0 100 601) 1 info0 flt0 (Tw 2000000 4000000) s0 0 0 0 0 0 ["x"%char] 200 TNone = ROk (Some t') /\ covers t' (Tw 2000000 4000000) /\ (t_freq t' == 200)%Q.
Proof.
  destruct (C75_succeeds 1 info0 flt0 (load0 100 601) (Tw 2000000 4000000) s0 0 0 0 0 0 ["x"%char] 200 (MkTrace s0 0 100 ((λ i, INR i) <$> seq 0 601))) as [t' E].
  - cbn. lia.
  - apply C75_example_flt.
  - reflexivity.
  - done.
  - intros X. apply (f_equal length) in X. cbn [t_data] in X. rewrite fmap_length, seq_length in X. done.
  - vm_compute. done.
  - cbn [t_data]. rewrite fmap_length, seq_length. vm_compute. done.
  - vm_compute. done.
  - intros _. vm_compute. done.
  - exists t'. split; [exact E|]. edestruct (C75_single_channel 1 info0 flt0 (load0 100 601) (Tw 2000000 4000000)) as (t & EL & C & _ & F); [cbn; lia|by intros W s' p t [= <-]|exact E|].
    split; [done|]. injection EL as <-. exact F.
Qed.
(** C75_aligned: the radial component of one second at 10 Hz. *)
Example C75_example_radial : exists t', get (load0 10 11) 0 info0 flt0 (Tw 200000 500000) s0 0 10 0 0 10 [] 0 TRadial = ROk (Some t') /\ covers t' (Tw 200000 500000) /\ t_id t' = new_codes s0 "R".
Proof.
  eexists. split; [|split].
  - lazy -[R_sqrt.sqrt Rdiv INR Rplus Rminus Rmult rt_sample transformation]. reflexivity.
  - unfold covers. cbn [t_start]. split; [cbn; lia|]. split; [vm_compute; done|]. split; vm_compute; done.
  - reflexivity.
Qed.

Print Assumptions C75_extra_transparent.
Print Assumptions C75_extra_rounding_refuted.
Print Assumptions C75_extra_unavailable_refuted.
Print Assumptions C75_mean.
Print Assumptions C75_offset.
Print Assumptions C75_loads.
Print Assumptions C75_gain.
Print Assumptions C75_single_channel.
Print Assumptions C75_l2.
Print Assumptions C75_rt_partial.
Print Assumptions C75_samples.
Print Assumptions C75_defined.
Print Assumptions C75_succeeds.
Print Assumptions C75_aligned.
Print Assumptions C75_short_refuted.
Print Assumptions C75_margin_refuted.
