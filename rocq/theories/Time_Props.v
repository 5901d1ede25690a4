(** Properties C09 (text round trip) and C10 (calendar). *)
From Coq Require Import ZArith Bool List Ascii String Lia.
From Verif Require Import Time_Model Time_Proofs.
Import ListNotations.
Local Open Scope Z_scope.

(** ** C10 *)

(** The calendar: day 0 is 1970-01-01, every date is valid and followed by the
    next date of the Gregorian calendar ([next_date] and [month_len] are the
    specification), and the day number is recovered from the date. *)
Theorem C10_calendar_is_gregorian (n : Z) :
  date_of 0 = (1970, 1, 1) /\ valid_date (date_of n) /\
  date_of (n + 1) = next_date (date_of n) /\
  (let '(y, m, d) := date_of n in days_of y m d = n).
Proof.
  destruct (calendar_day n) as (H1 & H2 & H3).
  split; [reflexivity|]. split; [exact H2|]. split; [exact H3|exact H1].
Qed.
Print Assumptions C10_calendar_is_gregorian.

(** toDate then fromDate gives the time back, for every time point except the
    two seconds around -1 s where fromDate takes timegm's -1 for an error. *)
Theorem C10_date_roundtrip (t : Z) :
  ~ (-2000000 < t <= -1000000) -> from_date (to_date t) = ROk t.
Proof.
  intros Ht. unfold from_date, to_date. cbn [f_year f_mon f_day f_hour f_min f_sec f_usec].
  rewrite gmtime_timegm. destruct (Z.eqb_spec (to_time_t t) (-1)) as [E|E].
  - exfalso. unfold to_time_t in E. apply Ht. Z.quot_rem_to_equations. lia.
  - cbn [andb]. f_equal. ring.
Qed.
Print Assumptions C10_date_roundtrip.

Theorem C10_date_roundtrip_refuted (t : Z) :
  -2000000 < t <= -1000000 -> from_date (to_date t) = RThrow.
Proof.
  intros Ht. unfold from_date, to_date. cbn [f_year f_mon f_day f_hour f_min f_sec f_usec].
  rewrite gmtime_timegm. assert (to_time_t t = -1) as ->.
  { unfold to_time_t. Z.quot_rem_to_equations. lia. }
  reflexivity.
Qed.
Print Assumptions C10_date_roundtrip_refuted.

(** Fields are in their calendar ranges for times from 1970 on. *)
Theorem C10_field_ranges (t : Z) :
  0 <= t ->
  let f := to_date t in
  1970 <= f_year f /\
  1 <= f_mon f <= 12 /\ 1 <= f_day f <= month_len (f_year f) (f_mon f) /\
  0 <= f_hour f <= 23 /\ 0 <= f_min f <= 59 /\ 0 <= f_sec f <= 59 /\ 0 <= f_usec f <= 999999.
Proof.
  intros Ht f. subst f. unfold to_date. cbn [f_year f_mon f_day f_hour f_min f_sec f_usec].
  pose proof (gmtime_ranges (to_time_t t)) as H. cbv zeta in H.
  assert (Htt : 0 <= to_time_t t) by (unfold to_time_t; Z.quot_rem_to_equations; lia).
  split.
  { unfold gmtime. assert (Hd : 0 <= to_time_t t / 86400) by (apply Z.div_pos; lia).
    revert Hd. generalize (to_time_t t / 86400) as n. intros n Hn.
    assert (date_of n = date_of 0 \/ date_lt (date_of 0) (date_of n)) as D.
    { destruct (Z.eq_dec n 0) as [->|]; [now left|]. right. apply date_of_mono. lia. }
    change (date_of 0) with (1970, 1, 1) in D.
    destruct (date_of n) as [[y m] d]. cbn [f_year].
    destruct D as [D|D]; [injection D; lia|]. unfold date_lt in D. lia. }
  repeat (split; [apply H|]). unfold from_time_t, to_time_t. Z.quot_rem_to_equations. lia.
Qed.
Print Assumptions C10_field_ranges.

(** Lexicographic order of the fields is the order of time (from 1970 on). *)
Definition fields_lt (a b : fields) : Prop :=
  date_lt (f_year a, f_mon a, f_day a) (f_year b, f_mon b, f_day b) \/
  ((f_year a, f_mon a, f_day a) = (f_year b, f_mon b, f_day b) /\
   (f_hour a < f_hour b \/ (f_hour a = f_hour b /\
   (f_min a < f_min b \/ (f_min a = f_min b /\
   (f_sec a < f_sec b \/ (f_sec a = f_sec b /\ f_usec a < f_usec b))))))).

Theorem C10_field_order_is_time_order (t t' : Z) :
  0 <= t -> 0 <= t' -> (t < t' <-> fields_lt (to_date t) (to_date t')).
Proof.
  assert (forall t t', 0 <= t -> t < t' -> fields_lt (to_date t) (to_date t')) as Hm.
  { clear t t'. intros t t' Ht Hlt. unfold fields_lt, to_date, gmtime, from_time_t, to_time_t.
    destruct (date_of (Z.quot t 1000000 / 86400)) as [[y m] d] eqn:E.
    destruct (date_of (Z.quot t' 1000000 / 86400)) as [[y' m'] d'] eqn:E'.
    cbn [f_year f_mon f_day f_hour f_min f_sec f_usec].
    destruct (Z.lt_trichotomy (Z.quot t 1000000 / 86400) (Z.quot t' 1000000 / 86400)) as [H|[H|H]].
    - left. rewrite <- E, <- E'. now apply date_of_mono.
    - right. split; [congruence|]. clear E E'. Z.quot_rem_to_equations. Z.div_mod_to_equations. lia.
    - exfalso. clear E E'. Z.quot_rem_to_equations. Z.div_mod_to_equations. lia. }
  intros Ht Ht'. split; [now apply Hm|]. intros H.
  destruct (Z.lt_trichotomy t t') as [L|[->|L]]; [exact L| |]; exfalso.
  - destruct (to_date t'). unfold fields_lt, date_lt in H. cbn in H. lia.
  - pose proof (Hm t' t Ht' L) as H'. clear Hm L Ht Ht'.
    destruct (to_date t) as [y m d h mi s u], (to_date t') as [y' m' d' h' mi' s' u'].
    unfold fields_lt, date_lt in *. cbn in H, H'.
    assert (H1 : y < y' \/ y = y' /\ (m < m' \/ m = m' /\ (d < d' \/ d = d' /\
        (h < h' \/ h = h' /\ (mi < mi' \/ mi = mi' /\ (s < s' \/ s = s' /\ u < u')))))).
    { destruct H as [H|[E H]]; [lia|injection E as -> -> ->; lia]. }
    assert (H2 : y' < y \/ y' = y /\ (m' < m \/ m' = m /\ (d' < d \/ d' = d /\
        (h' < h \/ h' = h /\ (mi' < mi \/ mi' = mi /\ (s' < s \/ s' = s /\ u' < u)))))).
    { clear H1 H. destruct H' as [H|[E H]]; [lia|injection E as -> -> ->; lia]. }
    clear H H'. lia.
Qed.
Print Assumptions C10_field_order_is_time_order.

(** The order of the printed text is not the order of time: trailing zeros are
    dropped, and the terminating Z sorts after the digits. *)
Theorem C10_text_order_refuted :
  exists t t', 0 <= t /\ t < t' /\ text_lt (to_string t') (to_string t) = true.
Proof. exists 500000, 510000. split; [lia|]. split; [lia|]. vm_compute. reflexivity. Qed.
Print Assumptions C10_text_order_refuted.

(** ** C09 *)

(** First moment of the year 10000. *)
Definition year_10000 : Z := 1000000 * 86400 * days_of 10000 1 1.

Lemma text_roundtrip_gen (t : Z) :
  0 <= f_year (to_date t) <= 9999 -> 0 <= f_usec (to_date t) <= 999999 ->
  ~ (-2000000 < t <= -1000000) -> from_string (to_string t) = ROk t.
Proof.
  intros R0 R6 Hbad.
  pose proof (gmtime_ranges (to_time_t t)) as R. cbv zeta in R.
  change (f_mon (gmtime (to_time_t t))) with (f_mon (to_date t)) in R.
  change (f_day (gmtime (to_time_t t))) with (f_day (to_date t)) in R.
  change (f_year (gmtime (to_time_t t))) with (f_year (to_date t)) in R.
  change (f_hour (gmtime (to_time_t t))) with (f_hour (to_date t)) in R.
  change (f_min (gmtime (to_time_t t))) with (f_min (to_date t)) in R.
  change (f_sec (gmtime (to_time_t t))) with (f_sec (to_date t)) in R.
  destruct R as (R1 & R2 & R3 & R4 & R5).
  pose proof (month_len_31 (f_year (to_date t)) (f_mon (to_date t))) as M31.
  unfold from_string, to_string. set (f := to_date t) in *.
  destruct (fmt_spec 4 (f_year f) ltac:(lia) ltac:(change (10 ^ Z.of_nat 4) with 10000; lia)) as (Ly & Dy & Vy).
  destruct (fmt_spec 2 (f_mon f) ltac:(lia) ltac:(change (10 ^ Z.of_nat 2) with 100; lia)) as (Lm & Dm & Vm).
  destruct (fmt_spec 2 (f_day f) ltac:(lia) ltac:(change (10 ^ Z.of_nat 2) with 100; lia)) as (Ld & Dd & Vd).
  destruct (fmt_spec 2 (f_hour f) ltac:(lia) ltac:(change (10 ^ Z.of_nat 2) with 100; lia)) as (Lh & Dh & Vh).
  destruct (fmt_spec 2 (f_min f) ltac:(lia) ltac:(change (10 ^ Z.of_nat 2) with 100; lia)) as (Lmi & Dmi & Vmi).
  destruct (fmt_spec 2 (f_sec f) ltac:(lia) ltac:(change (10 ^ Z.of_nat 2) with 100; lia)) as (Ls & Ds & Vs).
  destruct (usec_str_spec (f_usec f) ltac:(lia)) as (Un & Du & Uv & Us).
  rewrite match_re_ok by assumption.
  cbv zeta. rewrite Vy, Vm, Vd, Vh, Vmi, Vs, Us.
  destruct (Z.leb_spec (2 ^ 31) (value (usec_str (f_usec f)))); [lia|].
  replace ((f_mon f <? 1) || (12 <? f_mon f)) with false
    by (symmetry; apply orb_false_iff; split; apply Z.ltb_ge; lia).
  replace ((f_day f <? 1) || (31 <? f_day f)) with false
    by (symmetry; apply orb_false_iff; split; apply Z.ltb_ge; lia).
  replace ((f_hour f <? 0) || (23 <? f_hour f)) with false
    by (symmetry; apply orb_false_iff; split; apply Z.ltb_ge; lia).
  replace ((f_min f <? 0) || (59 <? f_min f)) with false
    by (symmetry; apply orb_false_iff; split; apply Z.ltb_ge; lia).
  replace ((f_sec f <? 0) || (59 <? f_sec f)) with false
    by (symmetry; apply orb_false_iff; split; apply Z.ltb_ge; lia).
  replace (Fields (f_year f) (f_mon f) (f_day f) (f_hour f) (f_min f) (f_sec f) (f_usec f)) with f
    by (destruct f; reflexivity).
  now apply C10_date_roundtrip.
Qed.
Lemma year_upper (t : Z) : to_time_t t < 86400 * days_of 10000 1 1 -> f_year (to_date t) <= 9999.
Proof.
  intros Hy. unfold to_date, gmtime. cbn [f_year].
  assert (Hn : to_time_t t / 86400 < days_of 10000 1 1) by (apply Z.div_lt_upper_bound; lia).
  revert Hn. generalize (to_time_t t / 86400) as n. intros n Hn.
  pose proof (date_of_mono n (days_of 10000 1 1) Hn) as D.
  replace (date_of (days_of 10000 1 1)) with (10000, 1, 1) in D by reflexivity.
  pose proof (calendar_day n) as (_ & V & _).
  destruct (date_of n) as [[y m] d]. cbn [f_year]. unfold date_lt in D. unfold valid_date in V. lia.
Qed.
Lemma year_lower (t : Z) : 86400 * days_of 0 1 1 <= to_time_t t -> 0 <= f_year (to_date t).
Proof.
  intros Hy. unfold to_date, gmtime. cbn [f_year].
  assert (Hn : days_of 0 1 1 <= to_time_t t / 86400) by (apply Z.div_le_lower_bound; lia).
  revert Hn. generalize (to_time_t t / 86400) as n. intros n Hn.
  destruct (Z.eq_dec n (days_of 0 1 1)) as [->|Hne].
  { replace (date_of (days_of 0 1 1)) with (0, 1, 1) by reflexivity. cbn [f_year]. lia. }
  pose proof (date_of_mono (days_of 0 1 1) n ltac:(lia)) as D.
  replace (date_of (days_of 0 1 1)) with (0, 1, 1) in D by reflexivity.
  destruct (date_of n) as [[y m] d]. cbn [f_year]. unfold date_lt in D. lia.
Qed.

(** Round trip for all times from 1970 to the end of the year 9999. *)
Theorem C09_text_roundtrip (t : Z) :
  0 <= t < year_10000 -> from_string (to_string t) = ROk t.
Proof.
  intros [Ht Hy]. pose proof (C10_field_ranges t Ht) as R. cbv zeta in R.
  apply text_roundtrip_gen; [split; [lia|]|lia|lia].
  apply year_upper. unfold year_10000 in Hy. unfold to_time_t. Z.quot_rem_to_equations. lia.
Qed.
Print Assumptions C09_text_roundtrip.

(** Before 1970 (from the year 0 on) exactly the whole seconds other than -1 s
    make the round trip. *)
Theorem C09_text_roundtrip_before_1970 (k : Z) :
  86400 * days_of 0 1 1 <= k < 0 -> k <> -1 -> from_string (to_string (1000000 * k)) = ROk (1000000 * k).
Proof.
  intros Hk Hne. assert (E : to_time_t (1000000 * k) = k).
  { unfold to_time_t. rewrite Z.mul_comm. apply Z.quot_mul. lia. }
  apply text_roundtrip_gen.
  - split; [apply year_lower; lia|]. apply year_upper. rewrite E.
    assert (0 < days_of 10000 1 1) by reflexivity. lia.
  - unfold to_date. cbn [f_usec]. rewrite E. unfold from_time_t. lia.
  - lia.
Qed.
Print Assumptions C09_text_roundtrip_before_1970.

(** Before 1970 the text of a time with a fraction cannot be parsed, nor can the
    text of the last second of 1969. *)
Theorem C09_text_roundtrip_refuted :
  from_string (to_string (-500000)) = RThrow /\ from_string (to_string (-1000000)) = RThrow.
Proof. split; vm_compute; reflexivity. Qed.
Print Assumptions C09_text_roundtrip_refuted.

(** A text that matches the pattern but has a long fraction is not handled: the
    fraction is converted to an int before it is shortened. *)
Theorem C09_long_fraction_refuted :
  exists s, match_re s <> None /\ from_string s = RBad.
Proof.
  exists (list_ascii_of_string "2020-01-01T00:00:00.2147483648Z"%string).
  split; [vm_compute; discriminate|vm_compute; reflexivity].
Qed.
Print Assumptions C09_long_fraction_refuted.

(** Non-trivial instances: a leap day with a fraction. *)
Example time_text_ex :
  to_string 1582934400123400 = list_ascii_of_string "2020-02-29T00:00:00.1234Z"%string.
Proof. vm_compute. reflexivity. Qed.
Example time_range_ex : 0 <= 1582934400123400 < year_10000.
Proof. split; reflexivity || discriminate. Qed.
