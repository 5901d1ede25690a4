(** Proofs about printed and parsed numbers. *)
From Coq Require Import ZArith Reals Lra Psatz Ascii.
From Flocq Require Import Core BinarySingleNaN Relative Round_odd.
From stdpp Require Import numbers list strings.
From Verif Require Import Csv_Model Table_Model Table_Proofs Double_Model Double_Props XCorrD_Props GridD_Props Decimal_Model.
From Verif Require Time_Model.
Local Open Scope Z_scope.
Local Instance p53 : Prec_gt_0 53 := prec53.
Local Instance flt_valid : Valid_exp (FLT_exp (-1074) 53) := FLT_exp_valid (-1074) 53.
Local Instance flt_mono : Monotone_exp (FLT_exp (-1074) 53) := FLT_exp_monotone (-1074) 53.

(** * Specification *)
Definition r10 : radix := Build_radix 10 eq_refl.
Notation b10 := (bpow r10).
Definition digits (t : text) : Prop := ∀ c, c ∈ t → (48 ≤ nat_of_ascii c ≤ 57)%nat.
(** The number written with some digits *)
Fixpoint dsum (t : text) : Z :=
  match t with
  | [] => 0
  | c :: r => (Z.of_nat (nat_of_ascii c) - 48) * 10 ^ Z.of_nat (length r) + dsum r
  end.
(** The text is the decimal notation of m * 10^e with the sign s *)
Definition denotes (t : text) (s : bool) (m e : Z) : Prop :=
  ∃ ip fp pt ex x, t = (if s then tx "-" else []) ++ ip ++ pt ++ ex ∧ digits ip ∧ ip ≠ [] ∧ digits fp ∧
    (pt = [] ∧ fp = [] ∨ pt = tx "." ++ fp) ∧
    (ex = [] ∧ x = 0 ∨
     ∃ d, digits d ∧ d ≠ [] ∧ (ex = tx "e-" ++ d ∧ x = - dsum d ∨ ex = tx "e+" ++ d ∧ x = dsum d)) ∧
    m = dsum (ip ++ fp) ∧ e = x - Z.of_nat (length fp).

(** * Digits *)
Lemma digit_code d : 0 ≤ d < 10 → nat_of_ascii (digit d) = (48 + Z.to_nat d)%nat.
Proof. intros H. unfold digit. apply nat_ascii_embedding. lia. Qed.
Lemma digits_app a b : digits (a ++ b) ↔ digits a ∧ digits b.
Proof. unfold digits. setoid_rewrite elem_of_app. naive_solver. Qed.
Lemma dsum_app a b : dsum (a ++ b) = dsum a * 10 ^ Z.of_nat (length b) + dsum b.
Proof.
  induction a as [|c a IH]; [done|]. cbn [app dsum]. rewrite IH, app_length, Nat2Z.inj_add, Z.pow_add_r by lia. ring.
Qed.
Lemma dsum_nonneg t : digits t → 0 ≤ dsum t.
Proof.
  induction t as [|c t IH]; intros H; [done|]. cbn [dsum]. pose proof (H c ltac:(by left)).
  assert (0 ≤ dsum t) by (apply IH; intros ??; apply H; by right).
  assert (0 < 10 ^ Z.of_nat (length t)) by (apply Z.pow_pos_nonneg; lia). nia.
Qed.
Lemma put_digits_length w n : length (put_digits w n) = w.
Proof. revert n. induction w as [|w IH]; intros n; [done|]. cbn [put_digits]. rewrite app_length, IH. simpl. lia. Qed.
Lemma put_digits_digits w n : digits (put_digits w n).
Proof.
  revert n. induction w as [|w IH]; intros n; [intros c H; by apply elem_of_nil in H|]. cbn [put_digits].
  apply digits_app. split; [apply IH|]. intros c Hc%elem_of_list_singleton. subst c.
  pose proof (Z.mod_pos_bound n 10 ltac:(lia)). rewrite digit_code by done. lia.
Qed.
Lemma put_digits_dsum w n : 0 ≤ n → dsum (put_digits w n) = n mod 10 ^ Z.of_nat w.
Proof.
  revert n. induction w as [|w IH]; intros n Hn; [by rewrite Z.mod_1_r|]. cbn [put_digits].
  rewrite dsum_app, IH by (apply Z.div_pos; lia). cbn [length dsum]. pose proof (Z.mod_pos_bound n 10 ltac:(lia)).
  rewrite digit_code by done. replace (10 ^ Z.of_nat (S w)) with (10 * 10 ^ Z.of_nat w) by (rewrite Nat2Z.inj_succ, Z.pow_succ_r by lia; done).
  assert (0 < 10 ^ Z.of_nat w) by (apply Z.pow_pos_nonneg; lia).
  rewrite (Z.rem_mul_r n) by lia. change (10 ^ Z.of_nat 0) with 1. change (10 ^ Z.of_nat 1) with 10. lia.
Qed.
Lemma ndig_aux_spec f n : 0 ≤ n < 2 ^ (Z.of_nat f + 1) →
  (1 ≤ ndig_aux f n)%nat ∧ n < 10 ^ Z.of_nat (ndig_aux f n) ∧ (0 < n → 10 ^ (Z.of_nat (ndig_aux f n) - 1) ≤ n).
Proof.
  revert n. induction f as [|f IH]; intros n Hn.
  - cbn [ndig_aux]. change (2 ^ (Z.of_nat 0 + 1)) with 2 in Hn. change (10 ^ Z.of_nat 1) with 10.
    change (10 ^ (Z.of_nat 1 - 1)) with 1. lia.
  - cbn [ndig_aux]. destruct (Z.ltb_spec n 10) as [L|L].
    + change (10 ^ Z.of_nat 1) with 10. change (10 ^ (Z.of_nat 1 - 1)) with 1. lia.
    + assert (0 ≤ n / 10 < 2 ^ (Z.of_nat f + 1)) as Hq.
      { split; [apply Z.div_pos; lia|]. apply Z.div_lt_upper_bound; [lia|].
        replace (Z.of_nat (S f) + 1) with (Z.succ (Z.of_nat f + 1)) in Hn by lia. rewrite Z.pow_succ_r in Hn by lia. lia. }
      destruct (IH _ Hq) as (H1 & H2 & H3). specialize (H3 ltac:(apply Z.div_str_pos; lia)). set (k := ndig_aux f (n / 10)) in *.
      rewrite Nat2Z.inj_succ. split; [lia|]. split.
      * rewrite Z.pow_succ_r by lia. pose proof (Z.div_mod n 10 ltac:(lia)). pose proof (Z.mod_pos_bound n 10 ltac:(lia)). lia.
      * intros _. replace (Z.succ (Z.of_nat k) - 1) with (Z.succ (Z.of_nat k - 1)) by lia. rewrite Z.pow_succ_r by lia.
        pose proof (Z.div_mod n 10 ltac:(lia)). pose proof (Z.mod_pos_bound n 10 ltac:(lia)). lia.
Qed.
Lemma ndig_spec n : 0 ≤ n → (1 ≤ ndig n)%nat ∧ n < 10 ^ Z.of_nat (ndig n) ∧ (0 < n → 10 ^ (Z.of_nat (ndig n) - 1) ≤ n).
Proof.
  intros Hn. apply ndig_aux_spec. split; [done|]. pose proof (Z.log2_nonneg n). rewrite Z2Nat.id by done.
  destruct (decide (n = 0)) as [->|D]; [done|]. destruct (Z.log2_spec n) as [_ H']; [lia|]. by rewrite Z.add_1_r.
Qed.
Lemma put_int_spec n : 0 ≤ n → digits (put_int n) ∧ put_int n ≠ [] ∧ dsum (put_int n) = n.
Proof.
  intros Hn. unfold put_int. destruct (ndig_spec n Hn) as (H1 & H2 & _). split; [apply put_digits_digits|]. split.
  - intros E. apply (f_equal length) in E. rewrite put_digits_length in E. simpl in E. lia.
  - rewrite put_digits_dsum by done. apply Z.mod_small. lia.
Qed.

(** * The texts denote the numbers *)
Lemma fixed_parts n k : 0 ≤ k → ∃ ip fp pt, fixed n k = ip ++ pt ∧ digits ip ∧ ip ≠ [] ∧ digits fp ∧
  (pt = [] ∧ fp = [] ∨ pt = tx "." ++ fp) ∧ length fp = n ∧ dsum (ip ++ fp) = k.
Proof.
  intros Hk. destruct n as [|n].
  - destruct (put_int_spec k Hk) as (H1 & H2 & H3). exists (put_int k), [], []. rewrite !app_nil_r.
    split; [done|]. split; [done|]. split; [done|]. split; [intros c Hc; by apply elem_of_nil in Hc|]. split; [by left|]. done.
  - set (P := 10 ^ Z.of_nat (S n)). assert (0 < P) by (apply Z.pow_pos_nonneg; lia).
    destruct (put_int_spec (k / P)) as (H1 & H2 & H3); [apply Z.div_pos; lia|].
    exists (put_int (k / P)), (put_digits (S n) (k mod P)), (tx "." ++ put_digits (S n) (k mod P)).
    split; [done|]. split; [done|]. split; [done|]. split; [apply put_digits_digits|]. split; [by right|].
    split; [apply put_digits_length|]. pose proof (Z.mod_pos_bound k P ltac:(lia)).
    rewrite dsum_app, H3, put_digits_length, put_digits_dsum by lia. fold P. rewrite (Z.mod_small (k mod P)) by lia.
    rewrite (Z.div_mod k P) at 3 by lia. ring.
Qed.
Definition sgn (s : bool) : text := if s then tx "-" else [].
Lemma fixed_denotes s n k : 0 ≤ k → denotes (sgn s ++ fixed n k) s k (- Z.of_nat n).
Proof.
  intros Hk. destruct (fixed_parts n k Hk) as (ip & fp & pt & E & H1 & H2 & H3 & H4 & H5 & H6).
  exists ip, fp, pt, [], 0. rewrite app_nil_r. split; [by rewrite E|]. split; [done|]. split; [done|]. split; [done|].
  split; [done|]. split; [by left|]. split; [done|]. lia.
Qed.
(** Without the zeros at the end *)
Lemma short_parts n k : 0 ≤ k → ∃ n' k', (n' ≤ n)%nat ∧ 0 ≤ k' ∧ short n k = fixed n' k' ∧
  k = k' * 10 ^ (Z.of_nat n - Z.of_nat n') ∧ (n' = 0%nat ∨ k' mod 10 ≠ 0).
Proof.
  revert k. induction n as [|n IH]; intros k Hk.
  - exists 0%nat, k. split; [done|]. split; [done|]. split; [done|]. split; [|by left].
    change (10 ^ (Z.of_nat 0 - Z.of_nat 0)) with 1. lia.
  - cbn [short]. destruct (Z.eqb_spec (k mod 10) 0) as [E|E].
    + destruct (IH (k / 10) ltac:(apply Z.div_pos; lia)) as (n' & k' & H1 & H2 & H3 & H4 & H5). exists n', k'.
      split; [lia|]. split; [done|]. split; [done|]. split; [|done].
      replace (Z.of_nat (S n) - Z.of_nat n') with (Z.succ (Z.of_nat n - Z.of_nat n')) by lia. rewrite Z.pow_succ_r by lia.
      pose proof (Z.div_mod k 10 ltac:(lia)). lia.
    + exists (S n), k. split; [lia|]. split; [done|]. split; [done|]. split; [|by right].
      rewrite Z.sub_diag. lia.
Qed.

(** * Reading a text *)
Lemma is_dig_true c : Time_Model.is_dig c = true ↔ (48 ≤ nat_of_ascii c ≤ 57)%nat.
Proof. unfold Time_Model.is_dig. rewrite andb_true_iff, !Nat.leb_le. done. Qed.
Lemma span_digs_app d r : digits d → (∀ c r', r = c :: r' → Time_Model.is_dig c = false) → Time_Model.span_digs (d ++ r) = (d, r).
Proof.
  intros Hd Hr. induction d as [|c d IH].
  - destruct r as [|c r]; [done|]. simpl. by rewrite (Hr c r eq_refl).
  - cbn [app Time_Model.span_digs]. rewrite (proj2 (is_dig_true c)) by (apply Hd; by left).
    rewrite IH by (intros ??; apply Hd; by right). done.
Qed.
Lemma value_dsum t : Time_Model.value t = dsum t.
Proof.
  unfold Time_Model.value. enough (∀ a, fold_left (λ a c, 10 * a + Time_Model.dval c) t a = a * 10 ^ Z.of_nat (length t) + dsum t) as E by (rewrite E; lia).
  induction t as [|c t IH]; intros a; [simpl; lia|]. cbn [fold_left length dsum]. rewrite IH, Nat2Z.inj_succ, Z.pow_succ_r by lia.
  unfold Time_Model.dval. ring.
Qed.
Lemma code_inj (c : ascii) (n : nat) (a : ascii) : nat_of_ascii c = n → n ≠ nat_of_ascii a → c ≠ a.
Proof. intros <- H ->. done. Qed.
Ltac other := apply (code_inj _ _ _ eq_refl); vm_compute; lia.
Lemma dig_ne c a : (48 ≤ nat_of_ascii c ≤ 57)%nat → (nat_of_ascii a < 48 ∨ 57 < nat_of_ascii a)%nat → c ≠ a.
Proof. intros H H' ->. lia. Qed.
Lemma dig_lower c : (48 ≤ nat_of_ascii c ≤ 57)%nat → lower c = c.
Proof. intros H. unfold lower. destruct (Nat.leb_spec 65 (nat_of_ascii c)); [lia|done]. Qed.
Lemma dig_space c : (48 ≤ nat_of_ascii c ≤ 57)%nat → is_space c = false.
Proof.
  intros H. unfold is_space. destruct (Nat.eqb_spec (nat_of_ascii c) 32); [lia|].
  destruct (Nat.leb_spec (nat_of_ascii c) 13); [lia|]. by rewrite andb_false_r.
Qed.
Lemma starts_dig w a c t : (57 < nat_of_ascii a)%nat → (48 ≤ nat_of_ascii c ≤ 57)%nat → starts (a :: w) (c :: t) = false.
Proof.
  intros Ha Hc. unfold starts. apply bool_decide_eq_false. simpl. rewrite dig_lower by done. intros E. injection E as -> _. lia.
Qed.
Lemma get_sign_dig c t : (48 ≤ nat_of_ascii c ≤ 57)%nat → get_sign (c :: t) = (false, c :: t).
Proof. intros H. unfold get_sign. rewrite !decide_False; [done|..]; apply dig_ne; try done; vm_compute; lia. Qed.

Lemma denotes_stod t s m e : denotes t s m e → stod t = of_decimal s m e.
Proof.
  intros (ip & fp & pt & ex & x & -> & Hi & Ni & Hf & Hp & He & -> & ->).
  destruct ip as [|c ip]; [done|]. pose proof (Hi c ltac:(by left)) as Hc.
  assert (∀ a r', ex = a :: r' → a = "e"%char) as Hex.
  { intros a r' E. destruct He as [[-> _]|(d & _ & _ & [[-> _]|[-> _]])]; [done|..]; by injection E. }
  assert (get_exp ex = x) as Ex.
  { destruct He as [[-> ->]|(d & Hd & Nd & He)]; [done|]. destruct d as [|b d]; [done|].
    assert (Time_Model.span_digs (b :: d) = (b :: d, [])) as E by (rewrite <-(app_nil_r (b :: d)) at 1; by apply span_digs_app).
    assert (∀ g n r, get_sign (g :: r) = (n, r) → get_exp ("e"%char :: g :: r) =
      if n then - Time_Model.value (fst (Time_Model.span_digs r)) else Time_Model.value (fst (Time_Model.span_digs r))) as G.
    { intros g n r Hg. unfold get_exp. rewrite decide_True by done. by rewrite Hg. }
    destruct He as [[-> ->]|[-> ->]].
    - change (tx "e-" ++ b :: d) with ("e"%char :: "-"%char :: b :: d). by rewrite (G "-"%char true (b :: d) eq_refl), E, value_dsum.
    - change (tx "e+" ++ b :: d) with ("e"%char :: "+"%char :: b :: d). by rewrite (G "+"%char false (b :: d) eq_refl), E, value_dsum. }
  assert (get_sign (skip_space ((if s then tx "-" else []) ++ (c :: ip) ++ pt ++ ex)) = (s, (c :: ip) ++ pt ++ ex)) as E1.
  { destruct s.
    - reflexivity.
    - cbn [app skip_space]. rewrite dig_space by done. by apply get_sign_dig. }
  unfold stod. rewrite E1. cbn [app].
  rewrite (starts_dig (tx "nf") "i"%char) by (try done; vm_compute; lia).
  rewrite (starts_dig (tx "an") "n"%char) by (try done; vm_compute; lia).
  change (c :: ip ++ pt ++ ex) with ((c :: ip) ++ pt ++ ex).
  rewrite span_digs_app; [|done|].
  2: { intros a r' E. destruct Hp as [[-> _]| ->].
    - cbn [app] in E. apply Hex in E as ->. done.
    - by injection E as <- _. }
  cbv beta iota. assert (get_decimals (pt ++ ex) = (fp, ex)) as ->.
  { destruct Hp as [[-> ->]| ->].
    - cbn [app]. destruct ex as [|a ex]; [done|]. unfold get_decimals. rewrite decide_False; [done|]. by rewrite (Hex a ex eq_refl).
    - change (get_decimals _) with (Time_Model.span_digs (fp ++ ex)). apply span_digs_app; [done|]. intros a r' E. by rewrite (Hex a r' E). }
  rewrite Ex. cbn [app]. f_equal. by rewrite value_dsum.
Qed.

(** * Rounding to an integer *)
Local Open Scope R_scope.
(** An integer next to a number, even if there are two *)
Definition nearest_int (v : R) (k : Z) : Prop := Rabs (v - IZR k) <= / 2 ∧ (Rabs (v - IZR k) = / 2 → Z.even k = true).
Lemma nearest_int_unique v k k' : nearest_int v k → nearest_int v k' → k = k'.
Proof.
  assert (∀ k k', nearest_int v k → nearest_int v k' → (k < k')%Z → False) as H.
  { clear k k'. intros k k' [H1 H2] [H3 H4] L. assert (IZR k + 1 <= IZR k') as L'. { rewrite <-plus_IZR. apply IZR_le. lia. }
    apply Rabs_le_inv in H1. apply Rabs_le_inv in H3.
    assert (v - IZR k = / 2 ∧ v - IZR k' = - / 2 ∧ IZR k' = IZR k + 1) as (E1 & E2 & E3) by lra.
    rewrite <-plus_IZR in E3. apply eq_IZR in E3. subst k'.
    assert (Z.even k = true) as T1 by (apply H2; rewrite E1; apply Rabs_pos_eq; lra).
    assert (Z.even (k + 1) = true) as T2 by (apply H4; rewrite E2, Rabs_Ropp; apply Rabs_pos_eq; lra).
    rewrite Z.even_add in T2. rewrite T1 in T2. discriminate. }
  intros H1 H2. destruct (Z.lt_total k k') as [L|[E|L]]; [|exact E|]; exfalso; eauto.
Qed.
Lemma near_spec num den : (0 < den)%Z → nearest_int (IZR num / IZR den) (near num den).
Proof.
  intros Hd. pose proof (Z.div_mod num den ltac:(lia)) as E. pose proof (Z.mod_pos_bound num den Hd) as B.
  set (q := (num / den)%Z) in *. set (r := (num mod den)%Z) in *. assert (0 < IZR den) as Hd' by (apply IZR_lt; lia).
  assert (IZR num / IZR den = IZR q + IZR r / IZR den) as ->.
  { rewrite E, plus_IZR, mult_IZR. field. lra. }
  assert (0 <= IZR r / IZR den < 1) as [F1 F2].
  { split; [apply Rmult_le_pos; [apply IZR_le; lia|apply Rlt_le, Rinv_0_lt_compat; lra]|].
    apply (Rmult_lt_reg_r (IZR den)); [lra|]. unfold Rdiv. rewrite Rmult_assoc, Rinv_l by lra.
    rewrite Rmult_1_r, Rmult_1_l. apply IZR_lt. lia. }
  assert (∀ c : R, IZR r / IZR den = c ↔ IZR r = c * IZR den) as G.
  { intros c. split; [intros <-; field; lra|intros ->; field; lra]. }
  assert (∀ c : R, IZR r / IZR den < c ↔ IZR r < c * IZR den) as G'.
  { intros c. split; intros H.
    - apply (Rmult_lt_compat_r (IZR den)) in H; [|lra]. unfold Rdiv in H. rewrite Rmult_assoc, Rinv_l, Rmult_1_r in H by lra. exact H.
    - apply (Rmult_lt_reg_r (IZR den)); [lra|]. unfold Rdiv. rewrite Rmult_assoc, Rinv_l, Rmult_1_r by lra. exact H. }
  unfold near. fold q r. set (f := IZR r / IZR den) in *. unfold nearest_int. clearbody f.
  destruct (Z.ltb_spec (2 * r) den) as [L|L].
  - assert (f < / 2) as Hf. { apply G'. apply IZR_lt in L. rewrite mult_IZR in L. lra. }
    replace (IZR q + f - IZR q) with f by ring. rewrite Rabs_pos_eq by lra. split; lra.
  - destruct (Z.ltb_spec den (2 * r)) as [L'|L'].
    + assert (/ 2 < f) as Hf.
      { apply Rnot_le_lt. intros [H|H]; [apply G' in H|apply G in H]; apply IZR_lt in L'; rewrite mult_IZR in L'; lra. }
      rewrite plus_IZR. replace (IZR q + f - (IZR q + 1)) with (- (1 - f)) by ring. rewrite Rabs_Ropp, Rabs_pos_eq by lra. split; lra.
    + assert (2 * r = den)%Z as Er by lia. assert (f = / 2) as ->.
      { apply G. rewrite <-Er, mult_IZR. lra. }
      destruct (Z.even q) eqn:Ev.
      * replace (IZR q + / 2 - IZR q) with (/ 2) by ring. rewrite Rabs_pos_eq by lra. split; [lra|intros _; exact Ev].
      * rewrite plus_IZR. replace (IZR q + / 2 - (IZR q + 1)) with (- / 2) by field. rewrite Rabs_Ropp, Rabs_pos_eq by lra.
        split; [lra|]. intros _. rewrite Z.even_add, Ev. reflexivity.
Qed.
Lemma near_nonneg num den : (0 ≤ num)%Z → (0 < den)%Z → (0 ≤ near num den)%Z.
Proof.
  intros Hn Hd. assert (0 ≤ num / den)%Z by (apply Z.div_pos; lia). unfold near. repeat case_match; lia.
Qed.

(** * Powers *)
Lemma b10_Z k : (0 ≤ k)%Z → IZR (10 ^ k) = b10 k.
Proof. intros H. exact (IZR_Zpower r10 k H). Qed.
Lemma b2_Z k : (0 ≤ k)%Z → IZR (2 ^ k) = b2 k.
Proof. intros H. exact (IZR_Zpower radix2 k H). Qed.
Lemma pow_frac (b : radix) e : IZR (Zpower b (Z.max 0 e)) / IZR (Zpower b (Z.max 0 (- e))) = bpow b e.
Proof.
  rewrite !IZR_Zpower by lia. unfold Rdiv. rewrite <-bpow_opp, <-bpow_plus. f_equal. lia.
Qed.
Lemma frac_spec (x : double) : is_finite x = true → let '(num, den) := frac x in
  (0 ≤ num)%Z ∧ (0 < den)%Z ∧ Rabs (B2R x) = IZR num / IZR den ∧ (B2R x ≠ 0 → (0 < num)%Z).
Proof.
  intros F. destruct x as [s| | |s m e B]; try discriminate.
  - simpl. split; [lia|]. split; [lia|]. split; [rewrite Rabs_R0; field|]. intros H. exfalso. by apply H.
  - unfold frac. assert (0 < 2 ^ Z.max 0 e)%Z by (apply Z.pow_pos_nonneg; lia). assert (0 < 2 ^ Z.max 0 (- e))%Z by (apply Z.pow_pos_nonneg; lia).
    split; [lia|]. split; [lia|]. split; [|lia].
    cbn [B2R]. rewrite <-F2R_Zabs, abs_cond_Zopp. unfold F2R. cbn [Fnum Fexp Z.abs]. rewrite <-(pow_frac radix2), mult_IZR. unfold Rdiv.
    change (Zpower radix2 (Z.max 0 e)) with (2 ^ Z.max 0 e)%Z. change (Zpower radix2 (Z.max 0 (- e))) with (2 ^ Z.max 0 (- e))%Z. change (Z.abs (Z.pos m)) with (Z.pos m). ring.
Qed.

(** * Rounding to a double *)
Local Instance fix_ne : Exists_NE radix2 (FIX_exp (-1201)).
Proof. right. intros e. unfold FIX_exp. split; intros; lia. Qed.
Local Instance flt_ne : Exists_NE radix2 (FLT_exp (-1074) 53).
Proof. apply exists_NE_FLT. right. reflexivity. Qed.
Lemma cond_rnd s x : rnd (cond_Ropp s x) = cond_Ropp s (rnd x).
Proof. destruct s; [apply round_NE_opp|reflexivity]. Qed.
Lemma nearest_double_spec s num den : (0 ≤ num)%Z → (0 < den)%Z →
  let v := rnd (IZR num / IZR den) in let y := nearest_double s num den in
  if Rlt_bool (Rabs v) (b2 1024) then is_finite y = true ∧ B2R y = cond_Ropp s v ∧ Bsign y = s else is_finite y = false.
Proof.
  intros Hn Hd. cbv zeta. unfold nearest_double. set (f := (num * 2 ^ 1201 / den)%Z). set (r := ((num * 2 ^ 1201) mod den)%Z).
  set (f' := if (r =? 0)%Z then f else _). assert (0 < IZR den) as Hd' by (apply IZR_lt; lia).
  pose proof (Z.div_mod (num * 2 ^ 1201) den ltac:(lia)) as E. pose proof (Z.mod_pos_bound (num * 2 ^ 1201) den Hd) as B. fold f r in E, B.
  assert (0 < 2 ^ 1201)%Z as P by (apply Z.pow_pos_nonneg; lia).
  assert (0 ≤ f)%Z as Hf by (apply Z.div_pos; nia).
  assert (0 ≤ f')%Z as Hf' by (unfold f'; repeat case_match; lia).
  assert (F2R (Float radix2 f' (-1201)) = round radix2 (FIX_exp (-1201)) Zrnd_odd (IZR num / IZR den)) as Ef.
  { unfold round, scaled_mantissa, cexp, FIX_exp. f_equal. f_equal.
    assert (IZR num / IZR den * b2 (- -1201) = IZR (num * 2 ^ 1201) / IZR den) as ->.
    { change (- -1201)%Z with 1201%Z. rewrite <-(b2_Z 1201) by lia. rewrite mult_IZR. field. lra. }
    unfold Zrnd_odd. rewrite Zfloor_div by lia. fold f.
    assert (IZR (num * 2 ^ 1201) / IZR den = IZR f ↔ r = 0%Z) as Hz.
    { split.
      - intros H. assert (IZR (num * 2 ^ 1201) = IZR (f * den)) as H'. { rewrite (mult_IZR f), <-H. field. lra. }
        apply eq_IZR in H'. lia.
      - intros H. rewrite E, H, Z.add_0_r, mult_IZR. field. lra. }
    destruct (Req_EM_T _ _) as [Q|Q].
    - apply Hz in Q. unfold f'. rewrite (proj2 (Z.eqb_eq r 0) Q). reflexivity.
    - rewrite (Zceil_floor_neq (IZR (num * 2 ^ 1201) / IZR den)).
      + rewrite Zfloor_div by lia. fold f. unfold f'. destruct (Z.eqb_spec r 0) as [R0|R0]; [exfalso; apply Q, Hz, R0|]. reflexivity.
      + rewrite Zfloor_div by lia. fold f. intros H. apply Q. symmetry. exact H. }
  assert (rnd (F2R (Float radix2 f' (-1201))) = rnd (IZR num / IZR den)) as Er.
  { rewrite Ef. apply round_N_odd; try typeclasses eauto; [reflexivity|]. intros e. unfold FIX_exp, FLT_exp. lia. }
  assert (∀ z, F2R (Float radix2 (if s then - z else z) (-1201)) = cond_Ropp s (F2R (Float radix2 z (-1201)))) as Es.
  { intros z. destruct s; [apply F2R_Zopp|reflexivity]. }
  pose proof (binary_normalize_correct 53 1024 prec53 emax1024 mode_NE (if s then - f' else f')%Z (-1201) s) as C. cbv zeta in C.
  rewrite fexp_eq in C. change (round_mode mode_NE) with ZnearestE in C. rewrite Es, cond_rnd, Er, abs_cond_Ropp in C.
  destruct (Rlt_bool _ _).
  - destruct C as (C1 & C2 & C3). split; [exact C2|]. split; [exact C1|]. rewrite C3. clear - Hf'.
    assert (0 <= F2R (Float radix2 f' (-1201))) as H by (apply F2R_ge_0; exact Hf').
    destruct (Rcompare_spec (cond_Ropp s (F2R (Float radix2 f' (-1201)))) 0) as [L|L|L]; [|reflexivity|]; destruct s; simpl in L; try reflexivity; lra.
  - set (y := binary_normalize _ _ _ _ _ _ _ _) in *. clearbody y. destruct y; try reflexivity; simpl in C; destruct (Rlt_bool _ _); discriminate.
Qed.

Notation format := (generic_format radix2 (FLT_exp (-1074) 53)).
Lemma rnd_best D g : format g → Rabs (rnd D - D) <= Rabs (g - D).
Proof. intros Hg. destruct (round_N_pt radix2 (FLT_exp (-1074) 53) (λ x, negb (Z.even x)) D) as [_ H]. exact (H g Hg). Qed.
Lemma of_decimal_spec s m e : (0 < m)%Z → let v := IZR m * b10 e in
  (v < b2 (-1022) → of_decimal s m e = None) ∧
  (b2 1024 <= rnd v → of_decimal s m e = None) ∧
  (b2 (-1022) <= v → rnd v < b2 1024 →
   ∃ y, of_decimal s m e = Some y ∧ is_finite y = true ∧ B2R y = cond_Ropp s (rnd v) ∧ Bsign y = s).
Proof.
  intros Hm. cbv zeta. set (v := IZR m * b10 e). unfold of_decimal. destruct (Z.eqb_spec m 0) as [->|_]; [lia|].
  set (num := (m * 10 ^ Z.max 0 e)%Z). set (den := (10 ^ Z.max 0 (- e))%Z).
  assert (0 < 10 ^ Z.max 0 e)%Z by (apply Z.pow_pos_nonneg; lia). assert (0 < den)%Z as Hd by (apply Z.pow_pos_nonneg; lia).
  assert (0 < num)%Z as Hn by (unfold num; lia). assert (0 < IZR den) as Hd' by (apply IZR_lt; lia).
  assert (v = IZR num / IZR den) as Ev.
  { unfold v, num, den. rewrite <-(pow_frac r10 e), mult_IZR. unfold Rdiv.
    change (Zpower r10 (Z.max 0 e)) with (10 ^ Z.max 0 e)%Z. change (Zpower r10 (Z.max 0 (- e))) with (10 ^ Z.max 0 (- e))%Z. ring. }
  assert (v < b2 (-1022) ↔ (num * 2 ^ 1022 < den)%Z) as Hu.
  { rewrite Ev. change (-1022)%Z with (- (1022))%Z. rewrite bpow_opp. pose proof (bpow_gt_0 radix2 1022) as P.
    split; intros H0.
    - apply lt_IZR. rewrite mult_IZR, b2_Z by lia. apply (Rmult_lt_compat_r (IZR den * b2 1022)) in H0; [|apply Rmult_lt_0_compat; lra].
      replace (IZR num / IZR den * (IZR den * b2 1022)) with (IZR num * b2 1022) in H0 by (field; lra).
      replace (/ b2 1022 * (IZR den * b2 1022)) with (IZR den) in H0 by (field; lra). exact H0.
    - apply IZR_lt in H0. rewrite mult_IZR, b2_Z in H0 by lia. apply (Rmult_lt_reg_r (IZR den * b2 1022)); [apply Rmult_lt_0_compat; lra|].
      replace (IZR num / IZR den * (IZR den * b2 1022)) with (IZR num * b2 1022) by (field; lra).
      replace (/ b2 1022 * (IZR den * b2 1022)) with (IZR den) by (field; lra). exact H0. }
  assert (0 < v) as Hv by (rewrite Ev; apply Rdiv_lt_0_compat; [apply IZR_lt; lia|lra]).
  assert (0 <= rnd v) as Hr by (apply rnd_pos; lra).
  pose proof (nearest_double_spec s num den ltac:(lia) Hd) as N. cbv zeta in N. rewrite <-Ev in N. rewrite (Rabs_pos_eq _ Hr) in N.
  split; [|split].
  - intros L%Hu. apply Z.ltb_lt in L. rewrite L. reflexivity.
  - intros L. rewrite Rlt_bool_false in N by exact L. rewrite N. destruct (_ <? _)%Z; reflexivity.
  - intros L1 L2. destruct (Z.ltb_spec (num * 2 ^ 1022) den) as [L|_]; [apply Hu in L; lra|].
    rewrite Rlt_bool_true in N by exact L2. destruct N as (N1 & N2 & N3). rewrite N1.
    exists (nearest_double s num den). split; [reflexivity|]. split; [exact N1|]. split; [exact N2|exact N3].
Qed.

(** * Fixed decimals *)
Definition fixed_int (n : nat) (x : double) : Z := let '(num, den) := frac x in near (num * 10 ^ Z.of_nat n) den.
Lemma print_f_finite n (x : double) : is_finite x = true → print_f n x = sgn (Bsign x) ++ fixed n (fixed_int n x).
Proof. intros F. destruct x; try discriminate F; reflexivity. Qed.
Lemma fixed_int_spec n (x : double) : is_finite x = true →
  (0 ≤ fixed_int n x)%Z ∧ nearest_int (Rabs (B2R x) * b10 (Z.of_nat n)) (fixed_int n x).
Proof.
  intros F. unfold fixed_int. pose proof (frac_spec x F) as H. destruct (frac x) as [num den]. destruct H as (H1 & H2 & -> & _).
  assert (0 < 10 ^ Z.of_nat n)%Z by (apply Z.pow_pos_nonneg; lia). split; [apply near_nonneg; nia|].
  pose proof (near_spec (num * 10 ^ Z.of_nat n) den H2) as S. rewrite mult_IZR, b10_Z in S by lia.
  replace (IZR num / IZR den * b10 (Z.of_nat n)) with (IZR num * b10 (Z.of_nat n) / IZR den); [exact S|].
  assert (0 < IZR den) by (apply IZR_lt; lia). field. lra.
Qed.
Lemma b10_b2 : b2 (-1022) <= b10 (-300).
Proof.
  change (-1022)%Z with (- (1022))%Z. change (-300)%Z with (- (300))%Z. rewrite !bpow_opp. apply Rinv_le; [apply bpow_gt_0|].
  rewrite <-b2_Z, <-b10_Z by lia. apply IZR_le. vm_compute. discriminate.
Qed.
Lemma double_max (x : double) : Rabs (B2R x) <= b2 1024 - b2 971.
Proof. exact (abs_B2R_le_emax_minus_prec 53 1024 prec53 x). Qed.
Lemma b2_971 : 1 < b2 971.
Proof. change 1 with (b2 0). apply bpow_lt. lia. Qed.
Section fixed.
Context (n : nat) (x : double) (F : is_finite x = true) (Hn : (n ≤ 300)%nat).
Let K := fixed_int n x.
Let D := IZR K * b10 (- Z.of_nat n).
Lemma fixed_dist : Rabs (Rabs (B2R x) - D) <= / 2 * b10 (- Z.of_nat n).
Proof using F.
  destruct (fixed_int_spec n x F) as (_ & H & _). fold K in H. pose proof (bpow_gt_0 r10 (- Z.of_nat n)) as P.
  apply (Rmult_le_compat_r (b10 (- Z.of_nat n))) in H; [|lra]. rewrite <-(Rabs_pos_eq (b10 (- Z.of_nat n))) in H at 1 by lra.
  rewrite <-Rabs_mult in H. unfold D. replace ((Rabs (B2R x) * b10 (Z.of_nat n) - IZR K) * b10 (- Z.of_nat n)) with
    (Rabs (B2R x) * (b10 (Z.of_nat n) * b10 (- Z.of_nat n)) - IZR K * b10 (- Z.of_nat n)) in H by ring.
  rewrite <-bpow_plus, Z.add_opp_diag_r in H. change (b10 0) with 1 in H. rewrite Rmult_1_r in H. exact H.
Qed.
Lemma format_abs : format (Rabs (B2R x)).
Proof using. apply generic_format_abs, (generic_format_B2R 53 1024). Qed.
Lemma fixed_read : ∃ y, stod (print_f n x) = Some y ∧ is_finite y = true ∧ Bsign y = Bsign x ∧ B2R y = cond_Ropp (Bsign x) (rnd D).
Proof using F Hn.
  destruct (fixed_int_spec n x F) as (HK & _). fold K in HK.
  rewrite print_f_finite by exact F. fold K. rewrite (denotes_stod _ (Bsign x) K (- Z.of_nat n)) by (apply fixed_denotes; exact HK).
  destruct (Z.eq_dec K 0%Z) as [E|NE].
  - unfold D. rewrite E. exists (B754_zero (Bsign x)). split; [reflexivity|]. split; [reflexivity|]. split; [reflexivity|].
    rewrite Rmult_0_l, rnd_0. cbn [B2R]. destruct (Bsign x); simpl; ring.
  - destruct (of_decimal_spec (Bsign x) K (- Z.of_nat n) ltac:(lia)) as (_ & _ & H). cbv zeta in H. fold D in H.
    assert (b10 (- Z.of_nat n) <= D) as HD.
    { unfold D. pose proof (bpow_gt_0 r10 (- Z.of_nat n)). assert (1 <= IZR K) by (apply IZR_le; lia). nra. }
    assert (b10 (-300) <= b10 (- Z.of_nat n)) by (apply bpow_le; lia). pose proof b10_b2.
    assert (b10 (- Z.of_nat n) <= 1) as Hle by (change 1 with (b10 0); apply bpow_le; lia).
    pose proof (rnd_best D _ format_abs) as B. pose proof fixed_dist as FD. pose proof (double_max x). pose proof b2_971.
    destruct H as (y & Ey & Fy & Vy & Sy).
    + lra.
    + apply Rabs_le_inv in FD. assert (Rabs (rnd D - D) <= / 2) as B' by (eapply Rle_trans; [exact B|]; apply Rabs_le; lra).
      apply Rabs_le_inv in B'. lra.
    + exists y. split; [exact Ey|]. split; [exact Fy|]. split; [exact Sy|exact Vy].
Qed.
Lemma fixed_again y : is_finite y = true → Bsign y = Bsign x → B2R y = cond_Ropp (Bsign x) (rnd D) → print_f n y = print_f n x.
Proof using F.
  intros Fy Sy Vy. rewrite !print_f_finite by assumption. rewrite Sy. f_equal. f_equal. fold K.
  destruct (fixed_int_spec n x F) as (HK & H1 & H2). fold K in HK, H1, H2.
  eapply nearest_int_unique; [apply fixed_int_spec; exact Fy|].
  assert (0 <= D) as HD. { unfold D. apply Rmult_le_pos; [apply IZR_le; exact HK|apply bpow_ge_0]. }
  assert (Rabs (B2R y) = rnd D) as ->. { rewrite Vy, abs_cond_Ropp. apply Rabs_pos_eq, rnd_pos, HD. }
  pose proof (bpow_gt_0 r10 (Z.of_nat n)) as P.
  assert (∀ a, Rabs (a * b10 (Z.of_nat n) - IZR K) = Rabs (a - D) * b10 (Z.of_nat n)) as S.
  { intros a. rewrite <-(Rabs_pos_eq (b10 (Z.of_nat n))) at 2 by lra. rewrite <-Rabs_mult. f_equal. unfold D.
    replace ((a - IZR K * b10 (- Z.of_nat n)) * b10 (Z.of_nat n)) with (a * b10 (Z.of_nat n) - IZR K * (b10 (- Z.of_nat n) * b10 (Z.of_nat n))) by ring.
    rewrite <-bpow_plus, Z.add_opp_diag_l. change (b10 0) with 1. ring. }
  pose proof (rnd_best D _ format_abs) as B. apply (Rmult_le_compat_r (b10 (Z.of_nat n))) in B; [|lra].
  rewrite S in H1, H2. split; rewrite S.
  - lra.
  - intros E. apply H2. lra.
Qed.
End fixed.

(** * Six significant digits *)
Lemma exp10_spec num den : (0 < num)%Z → (0 < den)%Z → b10 (exp10 num den) <= IZR num / IZR den < b10 (exp10 num den + 1).
Proof.
  intros Hn Hd. assert (0 < IZR den) as Hd' by (apply IZR_lt; lia). assert (0 < IZR num) as Hn' by (apply IZR_lt; lia).
  unfold exp10. destruct (Z.leb_spec den num) as [L|L].
  - assert (0 < num / den)%Z as Hq by (apply Z.div_str_pos; lia). destruct (ndig_spec (num / den) ltac:(lia)) as (K1 & K2 & K3).
    specialize (K3 Hq). set (k := Z.of_nat (ndig (num / den))) in *. assert (1 ≤ k)%Z by lia.
    pose proof (Z.div_mod num den ltac:(lia)) as E. pose proof (Z.mod_pos_bound num den Hd) as B. set (q := (num / den)%Z) in *.
    rewrite Z.sub_add. rewrite <-!b10_Z by lia. split.
    + apply (Rmult_le_reg_r (IZR den)); [lra|]. replace (IZR num / IZR den * IZR den) with (IZR num) by (field; lra).
      rewrite <-mult_IZR. apply IZR_le. nia.
    + apply (Rmult_lt_reg_r (IZR den)); [lra|]. replace (IZR num / IZR den * IZR den) with (IZR num) by (field; lra).
      rewrite <-mult_IZR. apply IZR_lt. nia.
  - assert (0 < (den - 1) / num)%Z as Hq by (apply Z.div_str_pos; lia). destruct (ndig_spec ((den - 1) / num) ltac:(lia)) as (K1 & K2 & K3).
    specialize (K3 Hq). set (k := Z.of_nat (ndig ((den - 1) / num))) in *. assert (1 ≤ k)%Z by lia.
    pose proof (Z.div_mod (den - 1) num ltac:(lia)) as E. pose proof (Z.mod_pos_bound (den - 1) num Hn) as B. set (q := ((den - 1) / num)%Z) in *.
    replace (- k + 1)%Z with (- (k - 1))%Z by lia. rewrite !bpow_opp, <-!b10_Z by lia.
    assert (0 < 10 ^ k)%Z by (apply Z.pow_pos_nonneg; lia). assert (0 < 10 ^ (k - 1))%Z by (apply Z.pow_pos_nonneg; lia).
    assert (0 < IZR (10 ^ k)) by (apply IZR_lt; lia). assert (0 < IZR (10 ^ (k - 1))) by (apply IZR_lt; lia). split.
    + apply (Rmult_le_reg_r (IZR den * IZR (10 ^ k))); [apply Rmult_lt_0_compat; lra|].
      replace (/ IZR (10 ^ k) * (IZR den * IZR (10 ^ k))) with (IZR den) by (field; lra).
      replace (IZR num / IZR den * (IZR den * IZR (10 ^ k))) with (IZR num * IZR (10 ^ k)) by (field; lra).
      rewrite <-mult_IZR. apply IZR_le. nia.
    + apply (Rmult_lt_reg_r (IZR den * IZR (10 ^ (k - 1)))); [apply Rmult_lt_0_compat; lra|].
      replace (/ IZR (10 ^ (k - 1)) * (IZR den * IZR (10 ^ (k - 1)))) with (IZR den) by (field; lra).
      replace (IZR num / IZR den * (IZR den * IZR (10 ^ (k - 1)))) with (IZR num * IZR (10 ^ (k - 1))) by (field; lra).
      rewrite <-mult_IZR. apply IZR_lt. nia.
Qed.
Lemma exp10_unique num den X : (0 < num)%Z → (0 < den)%Z → b10 X <= IZR num / IZR den < b10 (X + 1) → exp10 num den = X.
Proof.
  intros Hn Hd [H1 H2]. destruct (exp10_spec num den Hn Hd) as [H3 H4].
  assert (exp10 num den < X + 1)%Z by (apply (lt_bpow r10); lra).
  assert (X < exp10 num den + 1)%Z by (apply (lt_bpow r10); lra). lia.
Qed.
Section six.
Context (num den : Z) (Hn : (0 < num)%Z) (Hd : (0 < den)%Z).
Let v := IZR num / IZR den.
Definition first6 (X : Z) : Z := near (num * 10 ^ Z.max 0 (5 - X)) (den * 10 ^ Z.max 0 (X - 5)).
Lemma first6_spec X : nearest_int (v * b10 (5 - X)) (first6 X).
Proof using Hd.
  assert (0 < 10 ^ Z.max 0 (X - 5))%Z by (apply Z.pow_pos_nonneg; lia).
  pose proof (near_spec (num * 10 ^ Z.max 0 (5 - X)) (den * 10 ^ Z.max 0 (X - 5)) ltac:(nia)) as S. unfold first6, v.
  rewrite <-(pow_frac r10). replace (- (5 - X))%Z with (X - 5)%Z by lia.
  change (Zpower r10 (Z.max 0 (5 - X))) with (10 ^ Z.max 0 (5 - X))%Z. change (Zpower r10 (Z.max 0 (X - 5))) with (10 ^ Z.max 0 (X - 5))%Z.
  rewrite !mult_IZR in S. assert (0 < IZR den) by (apply IZR_lt; lia). assert (0 < IZR (10 ^ Z.max 0 (X - 5))) by (apply IZR_lt; lia).
  replace (IZR num / IZR den * (IZR (10 ^ Z.max 0 (5 - X)) / IZR (10 ^ Z.max 0 (X - 5)))) with
    (IZR num * IZR (10 ^ Z.max 0 (5 - X)) / (IZR den * IZR (10 ^ Z.max 0 (X - 5)))); [exact S|]. field. lra.
Qed.
Lemma six_spec : let '(d, X) := six num den in ∃ X0 d0,
  (100000 ≤ d < 1000000)%Z ∧ b10 X0 <= v < b10 (X0 + 1) ∧ nearest_int (v * b10 (5 - X0)) d0 ∧
  IZR d * b10 (X - 5) = IZR d0 * b10 (X0 - 5) ∧ (d0 ≤ 1000000)%Z.
Proof using Hn Hd.
  destruct (exp10_spec num den Hn Hd) as [E1 E2]. fold v in E1, E2. set (X0 := exp10 num den) in *.
  pose proof (first6_spec X0) as S. unfold six. fold X0. fold (first6 X0). set (d0 := first6 X0) in *.
  pose proof (bpow_gt_0 r10 (5 - X0)) as P.
  assert (100000 <= v * b10 (5 - X0) < 1000000) as [V1 V2].
  { split.
    - change 100000 with (b10 5). replace 5%Z with (X0 + (5 - X0))%Z at 1 by lia. rewrite bpow_plus. apply Rmult_le_compat_r; lra.
    - change 1000000 with (b10 6). replace 6%Z with (X0 + 1 + (5 - X0))%Z by lia. rewrite bpow_plus. apply Rmult_lt_compat_r; lra. }
  assert (100000 ≤ d0 ≤ 1000000)%Z as Hd0.
  { destruct S as [S _]. apply Rabs_le_inv in S. split.
    - assert (99999 < d0)%Z; [|lia]. apply lt_IZR. lra.
    - assert (d0 < 1000001)%Z; [|lia]. apply lt_IZR. lra. }
  destruct (Z.eqb_spec d0 (10 ^ 6)) as [E|NE].
  - exists X0, d0. split; [lia|]. split; [lra|]. split; [exact S|]. split; [|lia].
    rewrite E. change (10 ^ 5)%Z with 100000%Z. change (10 ^ 6)%Z with 1000000%Z. change (IZR 100000) with (b10 5). change (IZR 1000000) with (b10 6).
    rewrite <-!bpow_plus. f_equal. lia.
  - exists X0, d0. split; [change (10 ^ 6)%Z with 1000000%Z in NE; lia|]. split; [lra|]. split; [exact S|]. split; [reflexivity|lia].
Qed.
(** A number very close to six digits *)
Lemma six_unique d X : (100000 ≤ d < 1000000)%Z → Rabs (v - IZR d * b10 (X - 5)) < / 2 * b10 (X - 6) → six num den = (d, X).
Proof using Hn Hd.
  intros Hdd H. set (D := IZR d * b10 (X - 5)) in *. pose proof (bpow_gt_0 r10 (X - 6)) as P.
  assert (b10 (X - 5) = 10 * b10 (X - 6)) as E5. { replace (X - 5)%Z with (1 + (X - 6))%Z by lia. rewrite bpow_plus. reflexivity. }
  assert (b10 X = 1000000 * b10 (X - 6)) as E0. { replace X with (6 + (X - 6))%Z at 1 by lia. rewrite bpow_plus. reflexivity. }
  assert (b10 (X + 1) = 10000000 * b10 (X - 6)) as E1. { replace (X + 1)%Z with (7 + (X - 6))%Z by lia. rewrite bpow_plus. reflexivity. }
  assert (b10 (X - 1) = 100000 * b10 (X - 6)) as E'. { replace (X - 1)%Z with (5 + (X - 6))%Z by lia. rewrite bpow_plus. reflexivity. }
  assert (100000 <= IZR d <= 999999) as [D1 D2] by (split; apply IZR_le; lia).
  apply Rabs_lt_inv in H. unfold D in H. rewrite E5 in H. set (p := b10 (X - 6)) in *.
  destruct (Rle_or_lt (b10 X) v) as [L|L].
  - assert (exp10 num den = X) as Ex. { apply exp10_unique; try assumption. fold v. split; [exact L|]. rewrite E1. nra. }
    unfold six. rewrite Ex. fold (first6 X).
    assert (first6 X = d) as ->.
    { eapply nearest_int_unique; [apply first6_spec|]. assert (b10 (5 - X) = / (10 * p)) as ->.
      { replace (5 - X)%Z with (- (X - 5))%Z by lia. rewrite bpow_opp, E5. reflexivity. }
      assert (Rabs (v * / (10 * p) - IZR d) < / 2) as Q.
      { replace (v * / (10 * p) - IZR d) with ((v - IZR d * (10 * p)) * / (10 * p)) by (field; lra).
        rewrite Rabs_mult, (Rabs_pos_eq (/ _)) by (apply Rlt_le, Rinv_0_lt_compat; lra).
        apply (Rmult_lt_reg_r (10 * p)); [lra|]. rewrite Rmult_assoc, Rinv_l, Rmult_1_r by lra. apply Rabs_lt. lra. }
      split; lra. }
    destruct (Z.eqb_spec d (10 ^ 6)) as [E|_]; [change (10 ^ 6)%Z with 1000000%Z in E; lia|]. reflexivity.
  - assert (d = 100000)%Z as ->.
    { assert (d < 100001)%Z; [|lia]. apply lt_IZR. apply Rnot_le_lt. intros Q. rewrite E0 in L. nra. }
    assert (exp10 num den = X - 1)%Z as Ex. { apply exp10_unique; try assumption. fold v. rewrite Z.sub_add. split; [|exact L]. rewrite E'. lra. }
    unfold six. rewrite Ex. fold (first6 (X - 1)).
    assert (first6 (X - 1) = 1000000)%Z as ->.
    { eapply nearest_int_unique; [apply first6_spec|]. assert (b10 (5 - (X - 1)) = / p) as ->.
      { replace (5 - (X - 1))%Z with (- (X - 6))%Z by lia. rewrite bpow_opp. reflexivity. }
      assert (Rabs (v * / p - 1000000) < / 2) as Q.
      { replace (v * / p - 1000000) with ((v - 1000000 * p) * / p) by (field; lra).
        rewrite Rabs_mult, (Rabs_pos_eq (/ _)) by (apply Rlt_le, Rinv_0_lt_compat; lra).
        apply (Rmult_lt_reg_r p); [lra|]. rewrite Rmult_assoc, Rinv_l, Rmult_1_r by lra. apply Rabs_lt. lra. }
      split; lra. }
    rewrite Z.sub_add. reflexivity.
Qed.
(** The digits are not too large *)
Lemma six_max : v < b2 1024 → let '(d, X) := six num den in IZR d * b10 (X - 5) <= 179769 * b10 303.
Proof using Hn Hd.
  intros Hv. pose proof six_spec as S. destruct (six num den) as [d X]. destruct S as (X0 & d0 & _ & [V1 V2] & [S _] & -> & Hd0).
  assert (b2 1024 < 1797694 * b10 302) as M. { rewrite <-b2_Z, <-b10_Z, <-mult_IZR by lia. apply IZR_lt. vm_compute. reflexivity. }
  assert (X0 < 309)%Z as HX. { apply (lt_bpow r10). change (b10 309) with (b10 (7 + 302)). rewrite bpow_plus. change (b10 7) with 10000000.
    pose proof (bpow_gt_0 r10 302). lra. }
  destruct (Z.eq_dec X0 308%Z) as [->|NE].
  - change (308 - 5)%Z with 303%Z. apply Rmult_le_compat_r; [apply bpow_ge_0|]. apply IZR_le.
    assert (d0 < 179770)%Z; [|lia]. apply lt_IZR. apply Rabs_le_inv in S. change (5 - 308)%Z with (- (303))%Z in S.
    assert (b10 303 = 10 * b10 302) as E by (change (b10 303) with (b10 (1 + 302)); rewrite bpow_plus; reflexivity).
    pose proof (bpow_gt_0 r10 302) as P. set (p := b10 302) in *.
    assert (v * b10 (- (303)) < 179769.4) as Q.
    { rewrite bpow_opp, E. apply (Rmult_lt_reg_r (10 * p)); [lra|]. rewrite Rmult_assoc, Rinv_l, Rmult_1_r by lra. lra. }
    lra.
  - assert (IZR d0 <= 1000000) as H by (apply IZR_le; lia). assert (b10 (X0 - 5) <= b10 302) as H' by (apply bpow_le; lia).
    pose proof (bpow_gt_0 r10 302) as P. pose proof (bpow_gt_0 r10 (X0 - 5)) as P'.
    assert (b10 303 = 10 * b10 302) as E by (change (b10 303) with (b10 (1 + 302)); rewrite bpow_plus; reflexivity).
    rewrite E. eapply Rle_trans; [apply Rmult_le_compat_r; [lra|exact H]|]. lra.
Qed.
End six.

Definition g_text (d X : Z) : text :=
  if (-4 <=? X)%Z && (X <? 6)%Z then short (Z.to_nat (5 - X)) d
  else short 5 d ++ tx "e" ++ (if (X <? 0)%Z then tx "-" else tx "+") ++ put_digits (Nat.max 2 (ndig (Z.abs X))) (Z.abs X).
Lemma g_denotes s d X : (0 < d)%Z →
  ∃ m e, denotes (sgn s ++ g_text d X) s m e ∧ (0 < m ≤ d)%Z ∧ IZR m * b10 e = IZR d * b10 (X - 5).
Proof.
  intros Hd. unfold g_text. destruct (Z.leb_spec (-4) X) as [L1|L1]; [destruct (Z.ltb_spec X 6) as [L2|L2]|]; cbn [andb].
  1: { destruct (short_parts (Z.to_nat (5 - X)) d ltac:(lia)) as (n' & k' & H1 & H2 & -> & H4 & _).
    assert (0 < 10 ^ (Z.of_nat (Z.to_nat (5 - X)) - Z.of_nat n'))%Z by (apply Z.pow_pos_nonneg; lia).
    exists k', (- Z.of_nat n')%Z. split; [apply fixed_denotes; exact H2|]. split; [nia|].
    rewrite H4, mult_IZR, b10_Z, Rmult_assoc, <-bpow_plus by lia. f_equal. f_equal. lia. }
  all: destruct (short_parts 5 d ltac:(lia)) as (n' & k' & H1 & H2 & -> & H4 & _).
  all: assert (0 < 10 ^ (Z.of_nat 5 - Z.of_nat n'))%Z by (apply Z.pow_pos_nonneg; lia).
  all: exists k', (X - Z.of_nat n')%Z.
  all: (split; [|split; [nia|rewrite H4, mult_IZR, b10_Z, Rmult_assoc, <-bpow_plus by lia; f_equal; f_equal; lia]]).
  all: destruct (fixed_parts n' k' H2) as (ip & fp & pt & E & G1 & G2 & G3 & G4 & G5 & G6); rewrite E.
  all: destruct (ndig_spec (Z.abs X) ltac:(lia)) as (N1 & N2 & _).
  all: assert (10 ^ Z.of_nat (ndig (Z.abs X)) ≤ 10 ^ Z.of_nat (2 `max` ndig (Z.abs X)))%Z by (apply Z.pow_le_mono_r; lia).
  all: assert (dsum (put_digits (2 `max` ndig (Z.abs X)) (Z.abs X)) = Z.abs X) as DX by (rewrite put_digits_dsum by lia; apply Z.mod_small; lia).
  all: set (pd := put_digits _ _) in *.
  all: assert (digits pd) by apply put_digits_digits.
  all: assert (pd ≠ []) by (intros Q; apply (f_equal length) in Q; unfold pd in Q; rewrite put_digits_length in Q; simpl in Q; lia).
  all: destruct (Z.ltb_spec X 0) as [L|L]; try lia.
  - exists ip, fp, pt, (tx "e+" ++ pd), X. unfold sgn. split; [rewrite <-!app_assoc; reflexivity|]. split; [exact G1|]. split; [exact G2|].
    split; [exact G3|]. split; [exact G4|]. split; [|split; [symmetry; exact G6|rewrite G5; reflexivity]].
    right. exists pd. split; [assumption|]. split; [assumption|]. right. split; [reflexivity|]. lia.
  - exists ip, fp, pt, (tx "e-" ++ pd), X. unfold sgn. split; [rewrite <-!app_assoc; reflexivity|]. split; [exact G1|]. split; [exact G2|].
    split; [exact G3|]. split; [exact G4|]. split; [|split; [symmetry; exact G6|rewrite G5; reflexivity]].
    right. exists pd. split; [assumption|]. split; [assumption|]. left. split; [reflexivity|]. lia.
Qed.
Lemma print_g_finite (x : double) : is_finite x = true → B2R x ≠ 0 →
  print_g x = sgn (Bsign x) ++ let '(num, den) := frac x in let '(d, X) := six num den in g_text d X.
Proof.
  intros F N. destruct x as [s| | |s m e B]; try discriminate F; [exfalso; apply N; reflexivity|].
  unfold print_g. destruct (frac _) as [num den]. destruct (six num den) as [d X]. reflexivity.
Qed.
Lemma b2_1022 D : b2 (-1022) <= D → Rabs (rnd D - D) <= b2 (-53) * D.
Proof.
  intros H. pose proof (bpow_gt_0 radix2 (-1022)). pose proof (relative_error_N_FLT radix2 (-1074) 53 ltac:(lia) (λ x, negb (Z.even x)) D) as E.
  rewrite (Rabs_pos_eq D) in E by lra. specialize (E H). eapply Rle_trans; [exact E|]. apply Rmult_le_compat_r; [lra|].
  rewrite bpow_plus. change (b2 1) with 2. change (- (53))%Z with (-53)%Z. lra.
Qed.
Lemma max_format : format (b2 1024 - b2 971).
Proof.
  replace (b2 1024 - b2 971) with (F2R (Float radix2 (2 ^ 53 - 1) 971)).
  - apply generic_format_F2R. intros _. unfold cexp, FLT_exp.
    assert (mag radix2 (F2R (Float radix2 (2 ^ 53 - 1) 971)) ≤ 1024)%Z; [|lia].
    apply mag_le_bpow; [apply Rgt_not_eq, F2R_gt_0; reflexivity|]. rewrite Rabs_pos_eq by (apply F2R_ge_0; vm_compute; discriminate).
    unfold F2R. cbn [Fnum Fexp]. change 1024%Z with (53 + 971)%Z. rewrite bpow_plus. apply Rmult_lt_compat_r; [apply bpow_gt_0|].
    rewrite <-b2_Z by lia. apply IZR_lt. reflexivity.
  - unfold F2R. cbn [Fnum Fexp]. rewrite minus_IZR, b2_Z by lia. change (b2 1024) with (b2 (53 + 971)). rewrite bpow_plus. ring.
Qed.
Section general.
Context (x : double) (F : is_finite x = true) (HX : b2 (-1021) <= Rabs (B2R x)).
Lemma gen_nonzero : B2R x ≠ 0.
Proof using HX. intros E. rewrite E, Rabs_R0 in HX. pose proof (bpow_gt_0 radix2 (-1021)). lra. Qed.
(** What is printed for x, what is read and what is printed for it *)
Lemma gen_spec : ∃ m e y, denotes (print_g x) (Bsign x) m e ∧ (0 < m < 1000000)%Z ∧
  Rabs (Rabs (B2R x) - IZR m * b10 e) <= 5 / 1000000 * Rabs (B2R x) ∧
  stod (print_g x) = Some y ∧ is_finite y = true ∧ Bsign y = Bsign x ∧ B2R y = cond_Ropp (Bsign x) (rnd (IZR m * b10 e)) ∧
  print_g y = print_g x.
Proof using F HX.
  pose proof gen_nonzero as NZ. rewrite print_g_finite by assumption. pose proof (frac_spec x F) as FS. destruct (frac x) as [num den] eqn:EF.
  destruct FS as (_ & Hd & Ev & Hn). specialize (Hn NZ).
  pose proof (six_spec num den Hn Hd) as S. pose proof (six_max num den Hn Hd) as M. rewrite <-Ev in S, M. 
  assert (Rabs (B2R x) < b2 1024) as HM by (pose proof (double_max x); pose proof (bpow_gt_0 radix2 971); lra). specialize (M HM).
  destruct (six num den) as [d X]. destruct S as (X0 & d0 & HD & [V1 V2] & [S _] & ED & Hd0).
  destruct (g_denotes (Bsign x) d X ltac:(lia)) as (m & e & Hden & Hm & EM). set (D := IZR m * b10 e) in *. set (v := Rabs (B2R x)) in *.
  pose proof (bpow_gt_0 r10 (X0 - 5)) as P.
  assert (b10 X0 = 100000 * b10 (X0 - 5)) as E0. { replace X0 with (5 + (X0 - 5))%Z at 1 by lia. rewrite bpow_plus. reflexivity. }
  assert (Rabs (v - D) <= / 2 * b10 (X0 - 5)) as DD.
  { rewrite EM, ED. apply (Rmult_le_compat_r (b10 (X0 - 5))) in S; [|lra]. rewrite <-(Rabs_pos_eq (b10 (X0 - 5))) in S at 1 by lra.
    rewrite <-Rabs_mult in S. replace ((v * b10 (5 - X0) - IZR d0) * b10 (X0 - 5)) with (v * (b10 (5 - X0) * b10 (X0 - 5)) - IZR d0 * b10 (X0 - 5)) in S by ring.
    rewrite <-bpow_plus in S. replace (5 - X0 + (X0 - 5))%Z with 0%Z in S by lia. change (b10 0) with 1 in S. rewrite Rmult_1_r in S. exact S. }
  assert (Rabs (v - D) <= 5 / 1000000 * v) as DV by lra.
  assert (b2 (-1022) <= D) as DL.
  { apply Rabs_le_inv in DV. assert (b2 (-1021) = 2 * b2 (-1022)) as E2 by (change (b2 (-1021)) with (b2 (1 + -1022)); rewrite bpow_plus; reflexivity).
    pose proof (bpow_gt_0 radix2 (-1022)). lra. }
  pose proof (b2_1022 D DL) as RD.
  assert (rnd D <= b2 1024 - b2 971) as RM.
  { rewrite <-(rnd_format _ max_format). apply round_le; [apply flt_valid|apply valid_rnd_N|]. rewrite EM. eapply Rle_trans; [exact M|].
    rewrite <-!b2_Z, <-b10_Z, <-mult_IZR, <-minus_IZR by lia. apply IZR_le. vm_compute. discriminate. }
  destruct (of_decimal_spec (Bsign x) m e ltac:(lia)) as (_ & _ & H). cbv zeta in H. fold D in H.
  destruct H as (y & Ey & Fy & Vy & Sy); [exact DL|pose proof (bpow_gt_0 radix2 971); lra|].
  assert (0 < b2 (-53) < / 1000000000) as [U0 U1].
  { split; [apply bpow_gt_0|]. change (b2 (-53)) with (/ IZR (2 ^ 53)). apply Rinv_lt_contravar; [|apply IZR_lt; reflexivity].
    apply Rmult_lt_0_compat; apply IZR_lt; reflexivity. }
  assert (0 < D) as DP by (pose proof (bpow_gt_0 radix2 (-1022)); lra).
  assert (0 < rnd D) as RP. { apply Rabs_le_inv in RD. nra. }
  exists m, e, y. split; [exact Hden|]. split; [lia|]. split; [exact DV|]. split; [rewrite (denotes_stod _ _ _ _ Hden); exact Ey|].
  split; [exact Fy|]. split; [exact Sy|]. split; [exact Vy|].
  assert (Rabs (B2R y) = rnd D) as AY by (rewrite Vy, abs_cond_Ropp; apply Rabs_pos_eq; lra).
  assert (B2R y ≠ 0) as NY. { intros Q. rewrite Q, Rabs_R0 in AY. lra. }
  rewrite print_g_finite by assumption. rewrite Sy. f_equal.
  pose proof (frac_spec y Fy) as FS. destruct (frac y) as [num' den']. destruct FS as (_ & Hd' & Ev' & Hn'). specialize (Hn' NY).
  rewrite (six_unique num' den' Hn' Hd' d X); [reflexivity|lia|]. rewrite <-Ev', AY, <-EM.
  eapply Rle_lt_trans; [exact RD|]. assert (D < 1000000 * b10 (X - 5)) as DU.
  { rewrite EM. apply Rmult_lt_compat_r; [apply bpow_gt_0|]. apply IZR_lt. lia. }
  assert (b10 (X - 5) = 10 * b10 (X - 6)) as E5. { replace (X - 5)%Z with (1 + (X - 6))%Z by lia. rewrite bpow_plus. reflexivity. }
  rewrite E5 in DU. pose proof (bpow_gt_0 r10 (X - 6)). set (p := b10 (X - 6)) in *. clearbody p D. clear - U0 U1 DU DP H. nra.
Qed.
End general.
