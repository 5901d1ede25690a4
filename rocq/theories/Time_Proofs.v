(** Proofs about the calendar and the text form of time points. *)
From Coq Require Import ZArith Bool List Ascii Lia.
From Verif Require Import Time_Model.
Import ListNotations.
Local Open Scope Z_scope.

(** ** Calendar specification: successor of a date *)
Definition month_len (y m : Z) : Z :=
  if m =? 2 then (if leap y then 29 else 28)
  else if (m =? 4) || (m =? 6) || (m =? 9) || (m =? 11) then 30 else 31.
Definition next_date (x : Z * Z * Z) : Z * Z * Z :=
  let '(y, m, d) := x in
  if d <? month_len y m then (y, m, d + 1)
  else if m <? 12 then (y, m + 1, 1) else (y + 1, 1, 1).
Definition valid_date (x : Z * Z * Z) : Prop :=
  let '(y, m, d) := x in 1 <= m <= 12 /\ 1 <= d <= month_len y m.

Definition shift_date (k : Z) (x : Z * Z * Z) : Z * Z * Z := let '(y, m, d) := x in (y + 400 * k, m, d).

Lemma date_of_shift n k : date_of (n + 146097 * k) = shift_date k (date_of n).
Proof.
  unfold date_of, shift_date.
  replace (n + 146097 * k + 719468) with ((n + 719468) + k * 146097) by ring.
  rewrite Z.div_add, Z.mod_add by lia. f_equal. f_equal. ring.
Qed.
Lemma leap_shift y k : leap (y + 400 * k) = leap y.
Proof.
  unfold leap.
  replace (y + 400 * k) with (y + (100 * k) * 4) by ring. rewrite Z.mod_add by lia.
  replace (y + 100 * k * 4) with (y + (4 * k) * 100) by ring. rewrite Z.mod_add by lia.
  replace (y + 4 * k * 100) with (y + k * 400) by ring. rewrite Z.mod_add by lia. reflexivity.
Qed.
Lemma month_len_shift y m k : month_len (y + 400 * k) m = month_len y m.
Proof. unfold month_len. now rewrite leap_shift. Qed.
(** ** Arithmetic of the calendar *)
Definition ldays (y : Z) : Z := y / 4 - y / 100 + y / 400.
Lemma ldays_step y : ldays y = ldays (y - 1) + (if leap y then 1 else 0).
Proof.
  unfold ldays, leap.
  assert (forall q, 0 < q -> y / q = (y - 1) / q + (if y mod q =? 0 then 1 else 0)) as H.
  { intros q Hq. pose proof (Z.div_mod y q ltac:(lia)) as E. pose proof (Z.mod_pos_bound y q Hq) as B.
    destruct (Z.eqb_spec (y mod q) 0) as [E0|N0].
    - assert ((y - 1) / q = y / q - 1); [|lia].
      symmetry. apply (Z.div_unique_pos _ _ _ (q - 1)); [lia|]. lia.
    - assert ((y - 1) / q = y / q); [|lia].
      symmetry. apply (Z.div_unique_pos _ _ _ (y mod q - 1)); lia. }
  rewrite (H 4), (H 100), (H 400) by lia.
  assert (y mod 400 = 0 -> y mod 100 = 0) by (Z.div_mod_to_equations; lia).
  assert (y mod 100 = 0 -> y mod 4 = 0) by (Z.div_mod_to_equations; lia).
  destruct (Z.eqb_spec (y mod 4) 0), (Z.eqb_spec (y mod 100) 0), (Z.eqb_spec (y mod 400) 0);
    cbn [andb orb negb]; lia.
Qed.
Lemma days_of_ldays y m d :
  days_of y m d = 365 * y + ldays (y - 1) + cum_days m + (if (2 <? m) && leap y then 1 else 0) + d - 719528.
Proof.
  unfold days_of, ldays.
  replace (y - 1969) with ((y - 1) + (-492) * 4) by ring. rewrite Z.div_add by lia.
  replace (y - 1901) with ((y - 1) + (-19) * 100) by ring. rewrite Z.div_add by lia.
  replace (y - 1601) with ((y - 1) + (-4) * 400) by ring. rewrite Z.div_add by lia. lia.
Qed.

Ltac months m := 
  assert (m=1\/m=2\/m=3\/m=4\/m=5\/m=6\/m=7\/m=8\/m=9\/m=10\/m=11\/m=12) as HM by lia;
  repeat destruct HM as [->|HM]; [..|subst m].

Lemma days_of_next x : valid_date x ->
  valid_date (next_date x) /\
  (let '(y, m, d) := next_date x in days_of y m d) = (let '(y, m, d) := x in days_of y m d + 1).
Proof.
  destruct x as [[y m] d]. intros [Hm Hd]. unfold next_date, valid_date.
  destruct (Z.ltb_spec d (month_len y m)) as [L|L].
  - split; [lia|]. rewrite !days_of_ldays. lia.
  - assert (d = month_len y m) by lia. subst d. clear Hd L.
    destruct (Z.ltb_spec m 12) as [L|L].
    + split; [split; [lia|]; unfold month_len; destruct (_ =? 2); [destruct (leap y)|destruct (_ || _)%bool]; lia|].
      rewrite !days_of_ldays. revert L. months m; intros L; try lia; unfold month_len; cbn;
        destruct (leap y); lia.
    + assert (m = 12) by lia. subst m. split; [split; [lia|]; cbn; lia|].
      rewrite !days_of_ldays. pose proof (ldays_step y).
      replace (y + 1 - 1) with y by ring. change (2 <? 1) with false. change (2 <? 12) with true.
      change (month_len y 12) with 31. change (cum_days 1) with 0. change (cum_days 12) with 334.
      cbn [andb]. destruct (leap y); lia.
Qed.

(** A valid date lies within its year, and within its month. *)
Lemma ldays_mono y k : 0 <= k -> ldays y <= ldays (y + k).
Proof.
  intros Hk. rewrite <- (Z2Nat.id k Hk). induction (Z.to_nat k) as [|n IH]; [rewrite Z.add_0_r; lia|].
  pose proof (ldays_step (y + Z.of_nat (S n))) as H.
  replace (y + Z.of_nat (S n) - 1) with (y + Z.of_nat n) in H by lia. destruct (leap _); lia.
Qed.
Lemma days_of_bounds y m d : valid_date (y, m, d) ->
  365 * y + ldays (y - 1) < days_of y m d + 719528 <= 365 * y + ldays y + 365.
Proof.
  intros [Hm Hd]. rewrite days_of_ldays. pose proof (ldays_step y) as E. revert Hd.
  months m; unfold month_len; cbn; destruct (leap y); lia.
Qed.
Lemma days_of_mono x x' : valid_date x -> valid_date x' -> 
  (let '(y, m, d) := x in let '(y', m', d') := x' in
   y < y' \/ (y = y' /\ (m < m' \/ (m = m' /\ d < d')))) ->
  (let '(y, m, d) := x in days_of y m d) < (let '(y, m, d) := x' in days_of y m d).
Proof.
  destruct x as [[y m] d], x' as [[y' m'] d']. intros V V' [L|[<- [L|[<- L]]]].
  - pose proof (days_of_bounds _ _ _ V). pose proof (days_of_bounds _ _ _ V').
    pose proof (ldays_mono y (y' - 1 - y) ltac:(lia)) as H1.
    replace (y + (y' - 1 - y)) with (y' - 1) in H1 by lia. lia.
  - destruct V as [Hm Hd], V' as [Hm' Hd']. rewrite !days_of_ldays.
    assert (cum_days m + (if (2 <? m) && leap y then 1 else 0) + month_len y m
            <= cum_days m' + (if (2 <? m') && leap y then 1 else 0)); [|lia].
    clear Hd Hd'. revert Hm' L. months m; intros Hm' L; 
      (assert (m'=2\/m'=3\/m'=4\/m'=5\/m'=6\/m'=7\/m'=8\/m'=9\/m'=10\/m'=11\/m'=12) as HM' by lia);
      repeat destruct HM' as [->|HM']; try subst m'; try lia; unfold month_len; cbn; destruct (leap y); lia.
  - rewrite !days_of_ldays. lia.
Qed.
Lemma days_of_inj x x' : valid_date x -> valid_date x' ->
  (let '(y, m, d) := x in days_of y m d) = (let '(y, m, d) := x' in days_of y m d) -> x = x'.
Proof.
  intros V V' E. pose proof (days_of_mono x x' V V') as H1. pose proof (days_of_mono x' x V' V) as H2.
  destruct x as [[y m] d], x' as [[y' m'] d'].
  destruct (Z.lt_trichotomy y y') as [L|[<-|L]]; [lia| |lia].
  destruct (Z.lt_trichotomy m m') as [L|[<-|L]]; [lia| |lia].
  destruct (Z.lt_trichotomy d d') as [L|[<-|L]]; [lia|reflexivity|lia].
Qed.

(** ** date_of inverts days_of *)
(** Year of the 400 year period: the quotient is monotone, so it is enough to
    compute it at the first and the last day of each of the 400 years. *)
Definition yoe_num (doe : Z) : Z := doe - doe / 1460 + doe / 36524 - doe / 146096.
Definition year_start (y : Z) : Z := 365 * y + y / 4 - y / 100.
Definition year_check (y : Z) : bool :=
  (yoe_num (year_start y) / 365 =? y) &&
  (yoe_num (if y =? 399 then 146096 else year_start (y + 1) - 1) / 365 =? y).
Lemma year_checks : forallb (fun n => year_check (Z.of_nat n)) (seq 0 400) = true.
Proof. vm_compute. reflexivity. Qed.
Lemma year_check_ok y : 0 <= y < 400 -> year_check y = true.
Proof.
  intros H. pose proof year_checks as C. rewrite forallb_forall in C.
  rewrite <- (Z2Nat.id y) by lia. apply C, in_seq. lia.
Qed.
Lemma yoe_num_mono a k : 0 <= a -> 0 <= k -> a + k < 146097 -> yoe_num a <= yoe_num (a + k).
Proof.
  intros Ha Hk. rewrite <- (Z2Nat.id k Hk). induction (Z.to_nat k) as [|n IH]; intros Hb;
    [rewrite Z.add_0_r; lia|].
  etransitivity; [apply IH; lia|].
  replace (a + Z.of_nat (S n)) with (a + Z.of_nat n + 1) in * by lia.
  assert (0 <= a + Z.of_nat n) as H0 by lia. revert Hb H0. generalize (a + Z.of_nat n). clear. intros z Hz H0.
  destruct (Z.eq_dec z 146095) as [->|]; [vm_compute; discriminate|].
  unfold yoe_num.
  assert ((z + 1) / 1460 <= z / 1460 + 1) by (Z.div_mod_to_equations; lia).
  assert (z / 36524 <= (z + 1) / 36524) by (Z.div_mod_to_equations; lia).
  destruct (Z.eq_dec z 146096) as [->|]; [lia|].
  rewrite (Z.div_small (z + 1) 146096), (Z.div_small z 146096) by lia. lia.
Qed.
Lemma yoe_spec doe : 0 <= doe < 146097 ->
  let y := yoe_num doe / 365 in 0 <= y < 400 /\ 
  year_start y <= doe /\ doe <= (if y =? 399 then 146096 else year_start (y + 1) - 1).
Proof.
  intros Hd. 
  assert (forall n : nat, (n <= 399)%nat -> doe <= (if Z.of_nat n =? 399 then 146096 else year_start (Z.of_nat n + 1) - 1) ->
    exists y, 0 <= y < 400 /\ year_start y <= doe /\ doe <= (if y =? 399 then 146096 else year_start (y + 1) - 1)) as H.
  { induction n as [|n IH]; intros Hn Hb.
    - exists 0. change (year_start 0) with 0. change (Z.of_nat 0) with 0 in Hb. lia.
    - destruct (Z_le_gt_dec (year_start (Z.of_nat (S n))) doe) as [L|L].
      + exists (Z.of_nat (S n)). split; [lia|]. split; [exact L|exact Hb].
      + apply IH; [lia|]. destruct (Z.eqb_spec (Z.of_nat n) 399); [lia|].
        replace (Z.of_nat n + 1) with (Z.of_nat (S n)) by lia. lia. }
  destruct (H 399%nat (Nat.le_refl _)) as (y & Hy & H1 & H2); [change (Z.of_nat 399 =? 399) with true; cbn iota; lia|].
  assert (yoe_num doe / 365 = y) as E.
  { pose proof (year_check_ok y Hy) as C. unfold year_check in C.
    apply andb_true_iff in C as [C1 C2]. apply Z.eqb_eq in C1, C2.
    set (e := if y =? 399 then 146096 else year_start (y + 1) - 1) in *.
    assert (e < 146097) as He.
    { subst e. destruct (Z.eqb_spec y 399); [lia|]. unfold year_start. Z.div_mod_to_equations; lia. }
    assert (0 <= year_start y) as Hs. { unfold year_start. Z.div_mod_to_equations; lia. }
    pose proof (yoe_num_mono (year_start y) (doe - year_start y) Hs ltac:(lia) ltac:(lia)) as M1.
    pose proof (yoe_num_mono doe (e - doe) ltac:(lia) ltac:(lia) ltac:(lia)) as M2.
    replace (year_start y + (doe - year_start y)) with doe in M1 by ring.
    replace (doe + (e - doe)) with e in M2 by ring.
    apply (Z.div_le_mono _ _ 365) in M1, M2; lia. }
  rewrite E. split; [exact Hy|]. split; [exact H1|exact H2].
Qed.

(** Month and day from the day of a year that begins on March 1st. *)
Definition md (doy : Z) : Z * Z :=
  let mp := (5 * doy + 2) / 153 in
  let d := doy - (153 * mp + 2) / 5 + 1 in
  let m := if mp <? 10 then mp + 3 else mp - 9 in (m, d).
Definition md_check (doy : Z) : bool :=
  let '(m, d) := md doy in
  (1 <=? m) && (m <=? 12) && (1 <=? d) &&
  (if 2 <? m then (d <=? month_len 1 m) && (cum_days m + d =? doy + 60)
   else (d <=? (if m =? 2 then (if doy =? 365 then 29 else 28) else 31)) && (cum_days m + d =? doy - 305)).
Lemma md_checks : forallb (fun n => md_check (Z.of_nat n)) (seq 0 366) = true.
Proof. vm_compute. reflexivity. Qed.
Lemma md_check_ok doy : 0 <= doy < 366 -> md_check doy = true.
Proof.
  intros H. pose proof md_checks as C. rewrite forallb_forall in C.
  rewrite <- (Z2Nat.id doy) by lia. apply C, in_seq. lia.
Qed.

Lemma date_of_ok n :
  (let '(y, m, d) := date_of n in days_of y m d) = n /\ valid_date (date_of n).
Proof.
  unfold date_of. set (z := n + 719468). 
  pose proof (Z.mod_pos_bound z 146097 ltac:(lia)) as Hdoe.
  pose proof (Z.div_mod z 146097 ltac:(lia)) as Hz.
  set (doe := z mod 146097) in *. set (era := z / 146097) in *. clearbody doe era.
  change (doe - doe / 1460 + doe / 36524 - doe / 146096) with (yoe_num doe).
  destruct (yoe_spec doe Hdoe) as (Hy & H1 & H2). set (yoe := yoe_num doe / 365) in *. clearbody yoe.
  set (doy := doe - (365 * yoe + yoe / 4 - yoe / 100)). fold (year_start yoe) in doy.
  set (Y := yoe + 400 * era).
  assert (ldays Y = yoe / 4 - yoe / 100 + 97 * era) as HL.
  { unfold ldays, Y. replace (yoe + 400 * era) with (yoe + (100 * era) * 4) by ring. rewrite Z.div_add by lia.
    replace (yoe + 100 * era * 4) with (yoe + (4 * era) * 100) by ring. rewrite Z.div_add by lia.
    replace (yoe + 4 * era * 100) with (yoe + era * 400) by ring. rewrite Z.div_add by lia.
    rewrite (Z.div_small yoe 400) by lia. ring. }
  assert (0 <= doy /\ doy <= 364 + (if leap (Y + 1) then 1 else 0)) as [Hlo Hhi].
  { split; [lia|]. unfold Y. replace (yoe + 400 * era + 1) with (yoe + 1 + 400 * era) by ring. rewrite leap_shift.
    destruct (Z.eqb_spec yoe 399) as [E|E].
    - clear -E H2. subst yoe. change (leap (399 + 1)) with true. unfold doy.
      change (year_start 399) with 145731. lia.
    - pose proof (ldays_step (yoe + 1)) as HS. replace (yoe + 1 - 1) with yoe in HS by ring.
      unfold ldays in HS. rewrite (Z.div_small yoe 400), (Z.div_small (yoe + 1) 400) in HS by lia.
      unfold doy. unfold year_start in *. destruct (leap (yoe + 1)); lia. }
  assert (doy < 366) as Hlt by (destruct (leap (Y + 1)); lia).
  pose proof (md_check_ok doy ltac:(lia)) as C. unfold md_check in C.
  change (let '(m, d) := md doy in
     (let '(y, m0, d0) := (Y + (if m <=? 2 then 1 else 0), m, d) in days_of y m0 d0) = n /\ 
     valid_date (Y + (if m <=? 2 then 1 else 0), m, d)).
  destruct (md doy) as [m d]. 
  assert (n = 365 * Y + ldays Y + doy - 719468) as Hn.
  { rewrite HL. unfold doy, year_start, Y. lia. }
  rewrite !andb_true_iff, !Z.leb_le in C. destruct C as [[[C1 C2] C3] C4].
  unfold valid_date. rewrite days_of_ldays.
  destruct (Z.ltb_spec 2 m) as [L|L].
  - destruct (Z.leb_spec m 2); [lia|]. rewrite Z.add_0_r. cbn [andb].
    apply andb_true_iff in C4 as [C4 C5]. apply Z.leb_le in C4. apply Z.eqb_eq in C5.
    pose proof (ldays_step Y). split; [lia|]. split; [lia|]. split; [lia|].
    unfold month_len in *. destruct (Z.eqb_spec m 2); [lia|]. exact C4.
  - destruct (Z.leb_spec m 2); [|lia]. cbn [andb]. replace (Y + 1 - 1) with Y by ring.
    apply andb_true_iff in C4 as [C4 C5]. apply Z.leb_le in C4. apply Z.eqb_eq in C5.
    split; [lia|]. split; [lia|]. split; [lia|].
    unfold month_len. destruct (Z.eqb_spec m 2) as [->|].
    + destruct (leap (Y + 1)); destruct (Z.eqb_spec doy 365); lia.
    + assert (m = 1) by lia. subst m. cbn. exact C4.
Qed.

Lemma calendar_day n :
  (let '(y, m, d) := date_of n in days_of y m d = n) /\ valid_date (date_of n) /\
  date_of (n + 1) = next_date (date_of n).
Proof.
  destruct (date_of_ok n) as [H1 H2]. destruct (date_of_ok (n + 1)) as [H3 H4].
  destruct (days_of_next _ H2) as [H5 H6].
  split; [destruct (date_of n) as [[y m] d]; exact H1|]. split; [exact H2|].
  apply days_of_inj; [exact H4|exact H5|]. rewrite H3, H6.
  destruct (date_of n) as [[y m] d]. lia.
Qed.

(** ** Order *)
Definition date_lt (a b : Z * Z * Z) : Prop :=
  let '(y, m, d) := a in let '(y', m', d') := b in
  y < y' \/ (y = y' /\ (m < m' \/ (m = m' /\ d < d'))).
Lemma next_lt x : date_lt x (next_date x).
Proof.
  destruct x as [[y m] d]. unfold next_date.
  destruct (d <? month_len y m); [simpl; lia|]. destruct (m <? 12); simpl; lia.
Qed.
Lemma date_lt_trans a b c : date_lt a b -> date_lt b c -> date_lt a c.
Proof.
  destruct a as [[? ?] ?], b as [[? ?] ?], c as [[? ?] ?]. unfold date_lt. lia.
Qed.
Lemma date_of_mono n n' : n < n' -> date_lt (date_of n) (date_of n').
Proof.
  intros H. replace n' with (n + 1 + Z.of_nat (Z.to_nat (n' - n - 1))) by lia.
  induction (Z.to_nat (n' - n - 1)) as [|k IH].
  - replace (n + 1 + Z.of_nat 0) with (n + 1) by lia.
    destruct (calendar_day n) as (_ & _ & ->). apply next_lt.
  - eapply date_lt_trans; [exact IH|].
    replace (n + 1 + Z.of_nat (S k)) with ((n + 1 + Z.of_nat k) + 1) by lia.
    destruct (calendar_day (n + 1 + Z.of_nat k)) as (_ & _ & ->). apply next_lt.
Qed.

(** ** Seconds of the day *)
Lemma gmtime_timegm tt :
  timegm (f_year (gmtime tt)) (f_mon (gmtime tt)) (f_day (gmtime tt)) (f_hour (gmtime tt))
         (f_min (gmtime tt)) (f_sec (gmtime tt)) = tt.
Proof.
  unfold gmtime, timegm. destruct (calendar_day (tt / 86400)) as (H & _ & _).
  destruct (date_of (tt / 86400)) as [[y m] d]. cbn [f_year f_mon f_day f_hour f_min f_sec].
  rewrite H. Z.div_mod_to_equations. lia.
Qed.

Lemma gmtime_ranges tt :
  let g := gmtime tt in
  1 <= f_mon g <= 12 /\ 1 <= f_day g <= month_len (f_year g) (f_mon g) /\
  0 <= f_hour g <= 23 /\ 0 <= f_min g <= 59 /\ 0 <= f_sec g <= 59.
Proof.
  unfold gmtime. destruct (calendar_day (tt / 86400)) as (_ & H & _).
  destruct (date_of (tt / 86400)) as [[y m] d]. cbn. unfold valid_date in H.
  repeat (split; [try apply H|]); Z.div_mod_to_equations; lia.
Qed.
Lemma month_len_31 y m : month_len y m <= 31.
Proof. unfold month_len. destruct (m =? 2); [destruct (leap y); lia|]. destruct (_ || _)%bool; lia. Qed.

(** ** Digits *)
Lemma dig_ok n : 0 <= n < 10 -> is_dig (dig n) = true /\ dval (dig n) = n.
Proof.
  intros H. assert (n=0\/n=1\/n=2\/n=3\/n=4\/n=5\/n=6\/n=7\/n=8\/n=9) as D by lia.
  repeat destruct D as [->|D]; try (split; reflexivity). subst. split; reflexivity.
Qed.
Lemma value_app a b : value (a ++ b) = value a * 10 ^ Z.of_nat (length b) + value b.
Proof.
  unfold value. rewrite fold_left_app. generalize (fold_left (fun a c => 10 * a + dval c) a 0) as z.
  induction b as [|c b IH] using rev_ind; intros z; [simpl; lia|].
  rewrite !fold_left_app, app_length. cbn [fold_left length]. rewrite IH.
  replace (Z.of_nat (length b + 1)) with (Z.of_nat (length b) + 1) by lia.
  rewrite Z.pow_add_r by lia. ring.
Qed.
Lemma value_cons c b : value (c :: b) = dval c * 10 ^ Z.of_nat (length b) + value b.
Proof. change (c :: b) with ([c] ++ b). rewrite value_app. unfold value at 1. simpl fold_left. ring. Qed.

Lemma dec_aux_spec fuel n acc :
  0 <= n -> (Z.to_nat n < fuel)%nat ->
  exists p, dec_aux fuel n acc = p ++ acc /\ value p = n /\ forallb is_dig p = true /\
    (1 <= length p)%nat /\ (n < 10 ^ Z.of_nat (length p)) /\
    (forall w, (1 <= w)%nat -> n < 10 ^ Z.of_nat w -> (length p <= w)%nat).
Proof.
  revert n acc. induction fuel as [|f IH]; intros n acc Hn Hf; [lia|].
  cbn [dec_aux]. destruct (Z.ltb_spec n 10) as [H10|H10].
  - exists [dig n]. destruct (dig_ok n) as [D1 D2]; [lia|].
    split; [reflexivity|]. split; [unfold value; cbn [fold_left]; lia|].
    split; [cbn [forallb]; now rewrite D1|].
    split; [cbn [length]; lia|]. split; [cbn [length]; change (10 ^ Z.of_nat 1) with 10; lia|].
    intros w Hw _. cbn [length]. lia.
  - assert (Hq : 0 <= n / 10) by (apply Z.div_pos; lia).
    assert (Hlt : n / 10 < n) by (apply Z.div_lt; lia).
    destruct (IH (n / 10) (dig (n mod 10) :: acc)) as (p & E & Hv & Hd & Hl & Hb & Hw); [lia|lia|].
    pose proof (Z.mod_pos_bound n 10 ltac:(lia)) as Hm.
    destruct (dig_ok (n mod 10) Hm) as [D1 D2].
    exists (p ++ [dig (n mod 10)]). rewrite app_length. cbn [length].
    replace (Z.of_nat (length p + 1)) with (Z.of_nat (length p) + 1) by lia.
    split; [rewrite E, <- app_assoc; reflexivity|].
    split; [rewrite value_app; cbn [length]; rewrite Hv; unfold value; cbn [fold_left]; rewrite D2;
            change (Z.of_nat 1) with 1; pose proof (Z.div_mod n 10); lia|].
    split; [rewrite forallb_app, Hd; cbn [forallb]; now rewrite D1|].

    split; [lia|]. split.
    + rewrite Z.pow_add_r by lia. pose proof (Z.div_mod n 10 ltac:(lia)). lia.
    + intros w Hw1 Hnw. destruct w as [|[|w]]; [lia| |].
      * change (10 ^ Z.of_nat 1) with 10 in Hnw. lia.
      * specialize (Hw (S w) ltac:(lia)).
        replace (Z.of_nat (S (S w))) with (Z.of_nat (S w) + 1) in Hnw by lia.
        rewrite Z.pow_add_r in Hnw by lia.
        assert (n / 10 < 10 ^ Z.of_nat (S w)) by (apply Z.div_lt_upper_bound; lia). lia.
Qed.

Lemma value_repeat0 k : value (repeat "0"%char k) = 0.
Proof. induction k as [|k IH]; [reflexivity|]. cbn [repeat]. rewrite value_cons, IH. reflexivity. Qed.
Lemma forallb_repeat0 k : forallb is_dig (repeat "0"%char k) = true.
Proof. induction k; [reflexivity|]. simpl. exact IHk. Qed.

Lemma fmt_spec w n :
  (1 <= w)%nat -> 0 <= n < 10 ^ Z.of_nat w ->
  length (fmt w n) = w /\ forallb is_dig (fmt w n) = true /\ value (fmt w n) = n.
Proof.
  intros Hw Hn. unfold fmt. destruct (Z.ltb_spec n 0); [lia|].
  destruct (dec_aux_spec (S (Z.to_nat n)) n [] ltac:(lia) ltac:(lia)) as (p & E & Hv & Hd & Hl & Hb & Hlw).
  unfold dec. rewrite E, app_nil_r. specialize (Hlw w Hw ltac:(lia)).
  unfold zpad. split; [|split].
  - rewrite app_length, repeat_length. lia.
  - now rewrite forallb_app, forallb_repeat0, Hd.
  - rewrite value_app, value_repeat0. lia.
Qed.

(** ** Parsing what was printed *)
Lemma take_digs_app d r : forallb is_dig d = true -> take_digs (length d) (d ++ r) = Some (d, r).
Proof.
  induction d as [|c d IH]; intros H; [reflexivity|]. simpl in H. apply andb_true_iff in H as [Hc H].
  cbn [length take_digs app]. now rewrite Hc, (IH H).
Qed.
Lemma take_digs_app' k d r :
  length d = k -> forallb is_dig d = true -> take_digs k (d ++ r) = Some (d, r).
Proof. intros <-. apply take_digs_app. Qed.
Lemma span_digs_app d c r :
  forallb is_dig d = true -> is_dig c = false -> span_digs (d ++ c :: r) = (d, c :: r).
Proof.
  intros H Hc. induction d as [|a d IH]; simpl; [now rewrite Hc|].
  simpl in H. apply andb_true_iff in H as [Ha H]. now rewrite Ha, (IH H).
Qed.
Lemma expect_app c r : expect c (c :: r) = Some r.
Proof. unfold expect. destruct (ascii_dec c c); [reflexivity|contradiction]. Qed.

Lemma match_re_ok y mo d h mi se u :
  length y = 4%nat -> length mo = 2%nat -> length d = 2%nat -> length h = 2%nat ->
  length mi = 2%nat -> length se = 2%nat -> u <> [] ->
  forallb is_dig y = true -> forallb is_dig mo = true -> forallb is_dig d = true ->
  forallb is_dig h = true -> forallb is_dig mi = true -> forallb is_dig se = true ->
  forallb is_dig u = true ->
  match_re (y ++ ["-"%char] ++ mo ++ ["-"%char] ++ d ++ ["T"%char] ++ h ++ [":"%char] ++ mi ++
            [":"%char] ++ se ++ ["."%char] ++ u ++ ["Z"%char]) = Some (y, mo, d, h, mi, se, u).
Proof.
  intros L1 L2 L3 L4 L5 L6 L7 D1 D2 D3 D4 D5 D6 D7. unfold match_re.
  cbn [app].
  rewrite (take_digs_app' 4 y) by assumption. rewrite expect_app.
  rewrite (take_digs_app' 2 mo) by assumption. rewrite expect_app.
  rewrite (take_digs_app' 2 d) by assumption. rewrite expect_app.
  rewrite (take_digs_app' 2 h) by assumption. rewrite expect_app.
  rewrite (take_digs_app' 2 mi) by assumption. rewrite expect_app.
  rewrite (take_digs_app' 2 se) by assumption. rewrite expect_app.
  rewrite (span_digs_app u "Z" []) by (assumption || reflexivity).
  destruct u; [contradiction|]. reflexivity.
Qed.

(** ** Fractions *)
Lemma drop_zeros_spec s : exists k, s = repeat "0"%char k ++ drop_zeros s /\
  match drop_zeros s with c :: _ => c <> "0"%char | [] => True end.
Proof.
  induction s as [|c s (k & E & H)]; [exists O; split; [reflexivity|exact I]|].
  simpl. destruct (ascii_dec c "0") as [->|Hc].
  - exists (S k). split; [simpl; now rewrite <- E|exact H].
  - exists O. split; [reflexivity|exact Hc].
Qed.
Lemma rev_repeat (c : ascii) k : rev (repeat c k) = repeat c k.
Proof.
  induction k as [|k IH]; [reflexivity|]. simpl. rewrite IH.
  clear. induction k; [reflexivity|]. simpl. now rewrite IHk.
Qed.
Lemma strip0_spec s : exists k, s = strip0 s ++ repeat "0"%char k.
Proof.
  unfold strip0. destruct (drop_zeros_spec (rev s)) as (k & E & _). exists k.
  rewrite <- (rev_involutive s) at 1. rewrite E at 1. rewrite rev_app_distr, rev_repeat. reflexivity.
Qed.
Lemma mul10_eq k v : mul10 k v = v * 10 ^ Z.of_nat k.
Proof.
  revert v. induction k as [|k IH]; intros v; [simpl; lia|].
  cbn [mul10]. rewrite IH. replace (Z.of_nat (S k)) with (1 + Z.of_nat k) by lia.
  rewrite Z.pow_add_r by lia. ring.
Qed.

Lemma usec_str_spec u :
  0 <= u < 1000000 ->
  usec_str u <> [] /\ forallb is_dig (usec_str u) = true /\ value (usec_str u) < 2 ^ 31 /\
  scale6 (length (usec_str u)) (value (usec_str u)) = u.
Proof.
  intros Hu. unfold usec_str. destruct (Z.eqb_spec u 0) as [->|Hne].
  { split; [discriminate|]. split; [reflexivity|]. split; reflexivity. }
  destruct (fmt_spec 6 u ltac:(lia) ltac:(simpl; lia)) as (Hl & Hd & Hv).
  destruct (strip0_spec (fmt 6 u)) as (k & E). set (s := strip0 (fmt 6 u)) in *.
  assert (Hls : (length s + k = 6)%nat).
  { rewrite E in Hl. rewrite app_length, repeat_length in Hl. exact Hl. }
  assert (Hval : value s * 10 ^ Z.of_nat k = u).
  { rewrite E, value_app, value_repeat0, repeat_length in Hv. lia. }
  assert (Hds : forallb is_dig s = true).
  { rewrite E, forallb_app in Hd. apply andb_true_iff in Hd. apply Hd. }
  assert (0 < 10 ^ Z.of_nat k) by (apply Z.pow_pos_nonneg; lia).
  split.
  { intros Hnil. rewrite Hnil in Hval. unfold value in Hval. simpl in Hval. lia. }
  split; [exact Hds|]. split.
  { assert (value s <= u) by nia. change (2 ^ 31) with 2147483648. lia. }
  unfold scale6. replace (length s - 6)%nat with O by lia. cbn [div10].
  rewrite mul10_eq. replace (6 - length s)%nat with k by lia. exact Hval.
Qed.
