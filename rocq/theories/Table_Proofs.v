(** Reading back unquoted tables. *)
From Coq Require Import Ascii.
From stdpp Require Import gmap list strings.
From Verif Require Import Csv_Model Csv_Props Table_Model.
From Verif Require Time_Model Time_Proofs.
Local Open Scope nat_scope.

(** Text that survives unquoted: no comma, quote or newline. *)
Definition plain (t : text) : Prop := comma ∉ t ∧ quote ∉ t ∧ nl ∉ t.
(** The last field of a line must also not end in CR. *)
Definition plain_last (t : text) : Prop := plain t ∧ last t ≠ Some cr.
Definition plain_row (r : list text) : Prop := r ≠ [] ∧ Forall plain r ∧ ∀ t, last r = Some t → last t ≠ Some cr.
Global Instance plain_dec t : Decision (plain t).
Proof. unfold plain. apply _. Defined.

Lemma csv_join_put r : csv_join r = put_row (Plain <$> r).
Proof.
  induction r as [|f r IH]; [done|]. destruct r as [|f' r]; [done|].
  change (f ++ comma :: csv_join (f' :: r) = f ++ comma :: put_row (Plain <$> (f' :: r))). by rewrite IH.
Qed.
Lemma plain_row_ok r : plain_row r → row_ok [nl] (Plain <$> r).
Proof.
  intros (Hne & Hf & Hl). split; [by destruct r|]. split.
  - apply Forall_fmap. eapply Forall_impl; [exact Hf|]. done.
  - intros _ t Ht. rewrite fmap_last in Ht. destruct (last r) eqn:E; simplify_eq/=. by apply Hl.
Qed.
Lemma csv_read_lines rows : Forall plain_row rows → csv_read (csv_lines rows) = rows.
Proof.
  intros H. assert (csv_lines rows = put_table [nl] ((λ r : list text, Plain <$> r) <$> rows)) as ->.
  { unfold csv_lines, put_table. f_equal. rewrite <-list_fmap_compose. apply list_fmap_ext.
    intros _ r _. unfold csv_line. simpl. by rewrite csv_join_put. }
  rewrite C12_csv_roundtrip; [|by left|].
  - rewrite <-list_fmap_compose. rewrite <-(list_fmap_id rows) at 2. apply list_fmap_ext. intros _ r _. simpl.
    change (map content (Plain <$> r)) with (content <$> (Plain <$> r)).
    rewrite <-list_fmap_compose. rewrite <-(list_fmap_id r) at 2. by apply list_fmap_ext.
  - apply Forall_fmap. eapply Forall_impl; [exact H|]. intros r Hr. by apply plain_row_ok.
Qed.
Lemma read_back header rows :
  Forall plain_row (header :: rows) →
  read_with_header (csv_lines (header :: rows)) = Some (format_row header <$> rows).
Proof. intros H. unfold read_with_header. by rewrite csv_read_lines. Qed.

Lemma format_row_at header r j h :
  NoDup header → header !! j = Some h → format_row header r !! h = Some (nth j r []).
Proof.
  intros Hn Hj.
  rewrite format_row_lookup.
  destruct (list_find (λ h0, h0 = h) (rev header)) as [[k x]|] eqn:E.
  - apply list_find_Some in E as (Hk & -> & _).
    pose proof (lookup_lt_Some _ _ _ Hk) as Hlt. rewrite rev_length in Hlt.
    rewrite rev_lookup in Hk by done.
    assert (length header - S k = j) as <- by (by eapply NoDup_lookup).
    f_equal. f_equal. lia.
  - exfalso. apply list_find_None in E. rewrite Forall_forall in E.
    apply (E h); [|done]. apply elem_of_list_In, in_rev. rewrite rev_involutive. apply elem_of_list_In.
    by eapply elem_of_list_lookup_2.
Qed.
Lemma format_row_none header r h : h ∉ header → format_row header r !! h = None.
Proof.
  intros Hh. rewrite format_row_lookup.
  destruct (list_find (λ h0, h0 = h) (rev header)) as [[k x]|] eqn:E; [|done].
  exfalso. apply list_find_Some in E as (Hk & -> & _). apply Hh.
  apply elem_of_list_lookup_2, elem_of_list_In, in_rev, elem_of_list_In in Hk. done.
Qed.

(** Decimal numbers *)
Lemma is_dig_range c : Time_Model.is_dig c = true → 48 ≤ nat_of_ascii c ≤ 57.
Proof. unfold Time_Model.is_dig. rewrite andb_true_iff, !Nat.leb_le. done. Qed.
Lemma digits_plain d : forallb Time_Model.is_dig d = true → plain_last d.
Proof.
  intros H. rewrite forallb_forall in H.
  assert (∀ c, c ∈ d → 48 ≤ nat_of_ascii c ≤ 57) as Hd.
  { intros c Hc. apply is_dig_range, H. by apply elem_of_list_In. }
  assert (∀ c, nat_of_ascii c < 48 → c ∉ d) as Hn. { intros c Hc Hin. apply Hd in Hin. lia. }
  split; [split; [|split]; apply Hn; vm_compute; lia|].
  intros E. apply (Hn cr); [vm_compute; lia|]. by apply last_Some_elem_of.
Qed.
Lemma put_u_spec n : ∃ d, put_u n = d ∧ Time_Model.value d = Z.of_N n ∧ forallb Time_Model.is_dig d = true ∧ d ≠ [].
Proof.
  unfold put_u, Time_Model.dec.
  destruct (Time_Proofs.dec_aux_spec (S (Z.to_nat (Z.of_N n))) (Z.of_N n) []) as (p & E & Hv & Hd & Hl & _); [lia|lia|].
  exists p. rewrite E, app_nil_r. split; [done|]. split; [done|]. split; [done|]. by destruct p; [simpl in Hl; lia|].
Qed.
Lemma span_digs_all d : forallb Time_Model.is_dig d = true → Time_Model.span_digs d = (d, []).
Proof. induction d as [|c d IH]; [done|]. simpl. intros [H1 H2]%andb_true_iff. by rewrite H1, IH. Qed.
Lemma stoul_put_u n : (n < 2 ^ 64)%N → stoul (put_u n) = Some n.
Proof.
  intros Hn. destruct (put_u_spec n) as (d & -> & Hv & Hd & Hne). unfold stoul.
  destruct d as [|c d]; [done|].
  assert (48 ≤ nat_of_ascii c ≤ 57) as Hc.
  { simpl in Hd. apply andb_true_iff in Hd as [Hc _]. by apply is_dig_range. }
  assert (is_space c = false) as Hs.
  { unfold is_space. destruct (nat_of_ascii c =? 32) eqn:E1; [apply Nat.eqb_eq in E1; lia|].
    destruct (nat_of_ascii c <=? 13) eqn:E2; [apply Nat.leb_le in E2; lia|]. by rewrite andb_false_r. }
  cbn [skip_space]. rewrite Hs.
  rewrite decide_False by (intros ->; vm_compute in Hc; lia).
  rewrite decide_False by (intros ->; vm_compute in Hc; lia).
  rewrite span_digs_all by done. cbn [fst]. rewrite Hv, N2Z.id.
  by rewrite decide_False by lia.
Qed.
Lemma put_u_plain n : plain_last (put_u n).
Proof. destruct (put_u_spec n) as (d & -> & _ & Hd & _). by apply digits_plain. Qed.
