(** Properties C12 and C13: CSV reading. *)
From Coq Require Import Ascii.
From stdpp Require Import gmap list strings.
From Verif Require Import Csv_Model.

(** Specification: how a table is written.  A field is either plain or quoted
    with inner quotes doubled; records are ended by LF or CRLF. *)
Inductive field := Plain (t : text) | Quote (t : text).
Definition content (f : field) : text := match f with Plain t | Quote t => t end.
Fixpoint double_quotes (t : text) : text :=
  match t with
  | [] => []
  | c :: t' => if decide (c = quote) then quote :: quote :: double_quotes t' else c :: double_quotes t'
  end.
Definition put_field (f : field) : text :=
  match f with Plain t => t | Quote t => quote :: double_quotes t ++ [quote] end.
Fixpoint put_row (fs : list field) : text :=
  match fs with
  | [] => []
  | [f] => put_field f
  | f :: fs' => put_field f ++ comma :: put_row fs'
  end.
Definition put_table (eol : text) (rows : list (list field)) : text :=
  concat ((λ r, put_row r ++ eol) <$> rows).

(** Which fields may be written plainly. *)
Definition field_ok (f : field) : Prop :=
  match f with
  | Plain t => comma ∉ t ∧ quote ∉ t ∧ nl ∉ t
  | Quote t => nl ∉ t
  end.
(** With LF line ends a plain last field must not end in CR. *)
Definition row_ok (eol : text) (r : list field) : Prop :=
  r ≠ [] ∧ Forall field_ok r ∧ (eol = [nl] → ∀ t, last r = Some (Plain t) → last t ≠ Some cr).

Lemma scan_plain t done cur :
  comma ∉ t → quote ∉ t → fold_left csv_char t (Unquoted, done, cur) = (Unquoted, done, rev t ++ cur).
Proof.
  revert cur. induction t as [|c t IH]; intros cur Hc Hq; [done|].
  cbn [fold_left csv_char]. rewrite decide_False by set_solver. rewrite decide_False by set_solver.
  rewrite IH by set_solver. simpl. by rewrite <-app_assoc.
Qed.
Lemma scan_doubled t done cur :
  fold_left csv_char (double_quotes t) (Quoted, done, cur) = (Quoted, done, rev t ++ cur).
Proof.
  revert cur. induction t as [|c t IH]; intros cur; [done|]. simpl.
  destruct (decide (c = quote)) as [->|Hne]; cbn [fold_left csv_char].
  - change (fold_left csv_char (double_quotes t) (Quoted, done, quote :: cur) =
      (Quoted, done, (rev t ++ [quote]) ++ cur)). rewrite IH. by rewrite <-app_assoc.
  - rewrite decide_False by done. rewrite IH. by rewrite <-app_assoc.
Qed.
Lemma scan_field f done :
  field_ok f →
  ∃ st, fold_left csv_char (put_field f) (Unquoted, done, []) = (st, done, rev (content f)) ∧
    (st = Unquoted ∨ st = QuotedQuote).
Proof.
  destruct f as [t|t]; simpl; intros Hok.
  - destruct Hok as (?&?&?). exists Unquoted. rewrite scan_plain, app_nil_r by done. auto.
  - exists QuotedQuote. split; [|auto].
    change (fold_left csv_char (double_quotes t ++ [quote]) (Quoted, done, []) = (QuotedQuote, done, rev t)).
    rewrite fold_left_app, scan_doubled, app_nil_r. done.
Qed.
Lemma scan_row r done :
  r ≠ [] → Forall field_ok r →
  ∃ st cur done', fold_left csv_char (put_row r) (Unquoted, done, []) = (st, done', cur) ∧
    rev cur :: done' = rev (content <$> r) ++ done.
Proof.
  revert done. induction r as [|f r IH]; intros don Hne Hok; [done|].
  apply Forall_cons in Hok as [Hf Hr].
  destruct (scan_field f don Hf) as (st & Hs & Hst).
  destruct r as [|f' r].
  - simpl. exists st, (rev (content f)), don. split; [done|]. by rewrite rev_involutive.
  - change (put_row (f :: f' :: r)) with (put_field f ++ comma :: put_row (f' :: r)).
    rewrite fold_left_app, Hs. cbn [fold_left].
    assert (csv_char (st, don, rev (content f)) comma = (Unquoted, content f :: don, [])) as ->.
    { destruct Hst as [-> | ->]; simpl; by rewrite rev_involutive. }
    destruct (IH (content f :: don)) as (st' & cur & done' & H1 & H2); [done|done|].
    exists st', cur, done'. split; [done|]. rewrite H2. rewrite (fmap_cons content f).
    cbn [rev]. by rewrite <-app_assoc.
Qed.
Lemma read_row_put r : r ≠ [] → Forall field_ok r → read_row (put_row r) = content <$> r.
Proof.
  intros Hne Hok. unfold read_row.
  destruct (scan_row r [] Hne Hok) as (st & cur & don & H1 & H2). rewrite H1.
  rewrite H2, app_nil_r. apply rev_involutive.
Qed.

Lemma lines_from_app cur t s :
  nl ∉ t → lines_from cur (t ++ nl :: s) = (rev cur ++ t) :: lines_from [] s.
Proof.
  revert cur. induction t as [|c t IH]; intros cur Hn; simpl.
  - by rewrite app_nil_r.
  - rewrite decide_False by set_solver. rewrite IH by set_solver. simpl. by rewrite <-app_assoc.
Qed.
Lemma nl_double t : nl ∉ t → nl ∉ double_quotes t.
Proof.
  induction t as [|c t IH]; simpl; [done|]. intros H. destruct (decide (c = quote)).
  - apply not_elem_of_cons in H as [_ H]. repeat (apply not_elem_of_cons; split; [done|]). auto.
  - apply not_elem_of_cons in H as [? H]. apply not_elem_of_cons. auto.
Qed.
Lemma nl_field f : field_ok f → nl ∉ put_field f.
Proof.
  destruct f as [t|t]; simpl; [tauto|]. intros H. apply not_elem_of_cons. split; [done|].
  rewrite elem_of_app. intros [Hn|Hn]; [by apply nl_double in Hn|].
  apply elem_of_list_singleton in Hn. done.
Qed.
Lemma nl_row r : Forall field_ok r → nl ∉ put_row r.
Proof.
  induction r as [|f r IH]; intros H; [by apply not_elem_of_nil|].
  apply Forall_cons in H as [Hf Hr]. destruct r as [|f' r]; [by apply nl_field|].
  change (put_row (f :: f' :: r)) with (put_field f ++ comma :: put_row (f' :: r)).
  rewrite elem_of_app, elem_of_cons. intros [?|[?|?]]; [by eapply nl_field|done|by apply IH].
Qed.
Lemma chop_cr_app t : chop_cr (t ++ [cr]) = t.
Proof. unfold chop_cr. rewrite rev_app_distr. simpl. apply rev_involutive. Qed.
Lemma chop_cr_id t : last t ≠ Some cr → chop_cr t = t.
Proof.
  intros H. unfold chop_cr. destruct (rev t) as [|c r] eqn:E; [done|].
  case_decide as Hc; [|done]. exfalso. apply H. subst c.
  rewrite <-(rev_involutive t), E. simpl. by rewrite last_snoc.
Qed.
Lemma last_put_field f :
  last (put_field f) = match f with Plain t => last t | Quote _ => Some quote end.
Proof. destruct f as [t|t]; simpl; [done|]. by rewrite app_comm_cons, last_snoc. Qed.

Lemma last_put_row eol r :
  row_ok eol r → eol = [nl] → last (put_row r) ≠ Some cr.
Proof.
  intros (Hne & _ & Hl) Heol. specialize (Hl Heol). clear Heol.
  induction r as [|f r IH]; [done|]. destruct r as [|f' r].
  - simpl. rewrite last_put_field. destruct f as [t|t]; [by apply Hl|done].
  - change (put_row (f :: f' :: r)) with (put_field f ++ comma :: put_row (f' :: r)).
    rewrite last_app_cons, last_cons.
    assert (last (put_row (f' :: r)) ≠ Some cr) as H.
    { apply IH; [done|]. intros t Ht. apply Hl. by rewrite last_cons_cons. }
    destruct (last (put_row (f' :: r))); [done|]. done.
Qed.

(** C12. Reading gives back exactly the fields, for both line ends and any mix of
    quoted and plain fields. *)
Theorem C12_csv_roundtrip (eol : text) (rows : list (list field)) :
  eol = [nl] ∨ eol = [cr; nl] → Forall (row_ok eol) rows →
  csv_read (put_table eol rows) = map content <$> rows.
Proof.
  intros Heol Hok. unfold csv_read, lines, put_table.
  induction Hok as [|r rows Hr Hok IH]; [done|].
  rewrite !fmap_cons. cbn [concat].
  destruct Hr as (Hne & Hf & Hl) eqn:EHr.
  assert (∃ t, nl ∉ t ∧ put_row r ++ eol = t ++ [nl] ∧ chop_cr t = put_row r) as (t & H1 & H2 & H3).
  { destruct Heol as [-> | ->].
    - exists (put_row r). split; [by apply nl_row|]. split; [done|].
      apply chop_cr_id. by apply (last_put_row [nl]).
    - exists (put_row r ++ [cr]). split.
      + rewrite elem_of_app. intros [H|H]; [by apply nl_row in H|]. apply elem_of_list_singleton in H. done.
      + split; [by rewrite <-app_assoc|]. apply chop_cr_app. }
  rewrite H2, <-app_assoc. simpl app. rewrite lines_from_app by done. cbn [rev app].
  rewrite fmap_cons, IH, H3. f_equal. by apply read_row_put.
Qed.
Print Assumptions C12_csv_roundtrip.

(** The last record may lack its line end, unless it is a single empty plain field. *)
Theorem C12_csv_roundtrip_no_final_eol (eol : text) (rows : list (list field)) (r : list field) :
  eol = [nl] ∨ eol = [cr; nl] → Forall (row_ok eol) rows → row_ok [nl] r → put_row r ≠ [] →
  csv_read (put_table eol rows ++ put_row r) = (map content <$> rows) ++ [map content r].
Proof.
  intros Heol Hok Hr Hne.
  assert (csv_read (put_row r) = [map content r]) as Hlast.
  { destruct Hr as (H1 & H2 & H3) eqn:E. unfold csv_read, lines.
    assert (∀ cur t, nl ∉ t → rev cur ++ t ≠ [] → lines_from cur t = [rev cur ++ t]) as HL.
    { intros cur t. revert cur. induction t as [|c t IH]; intros cur Hn Hx; simpl.
      - rewrite app_nil_r in *. destruct cur; done.
      - rewrite decide_False by set_solver. rewrite IH; simpl; [by rewrite <-app_assoc|set_solver|].
        rewrite <-app_assoc. destruct (rev cur); done. }
    rewrite HL; [|by apply nl_row|done]. simpl. rewrite chop_cr_id.
    - f_equal. by apply read_row_put.
    - by apply (last_put_row [nl]). }
  unfold csv_read, lines, put_table in *.
  induction Hok as [|x rows Hx Hok IH]; [done|].
  rewrite !fmap_cons. cbn [concat].
  destruct Hx as (Hxne & Hf & Hl) eqn:EHr.
  assert (∃ t, nl ∉ t ∧ put_row x ++ eol = t ++ [nl] ∧ chop_cr t = put_row x) as (t & H1 & H2 & H3).
  { destruct Heol as [-> | ->].
    - exists (put_row x). split; [by apply nl_row|]. split; [done|].
      apply chop_cr_id. by apply (last_put_row [nl]).
    - exists (put_row x ++ [cr]). split.
      + rewrite elem_of_app. intros [H|H]; [by apply nl_row in H|]. apply elem_of_list_singleton in H. done.
      + split; [by rewrite <-app_assoc|]. apply chop_cr_app. }
  rewrite H2, <-!app_assoc. simpl app. rewrite lines_from_app by done. cbn [rev app].
  rewrite fmap_cons, IH, H3. f_equal. by apply read_row_put.
Qed.
Print Assumptions C12_csv_roundtrip_no_final_eol.

(** Two readings that a user might not expect: a character right after a closing
    quote is dropped, and a field containing a newline cannot be read. *)
Theorem C12_char_after_quote_dropped_refuted :
  ∃ a c b, c ≠ comma ∧ c ≠ quote ∧ c ≠ nl ∧ csv_read (quote :: a ++ quote :: c :: b ++ [nl]) = [[a ++ b]].
Proof.
  exists ["x"%char], "y"%char, ["z"%char]. repeat (split; [discriminate|]). vm_compute. reflexivity.
Qed.
Theorem C12_embedded_newline_refuted :
  ∃ t, csv_read (put_field (Quote t) ++ [nl]) ≠ [[t]].
Proof. exists ["x"%char; nl]. vm_compute. discriminate. Qed.
Print Assumptions C12_char_after_quote_dropped_refuted.
Print Assumptions C12_embedded_newline_refuted.

(** ** C13 *)
Lemma rev_lookup {A} (l : list A) i : i < length l → rev l !! i = l !! (length l - S i).
Proof. intros H. rewrite rev_alt. by apply reverse_lookup. Qed.
Lemma format_row_lookup header columns name :
  format_row header columns !! name =
    match list_find (λ h, h = name) (rev header) with
    | Some (k, _) => Some (nth (length header - 1 - k) columns [])
    | None => None
    end.
Proof.
  unfold format_row.
  assert (∀ l o (m : gmap text text), fold_left (λ m '(i, h), <[h := nth i columns []]> m)
       (zip (seq o (length l)) l) m !! name =
     match list_find (λ h, h = name) (rev l) with
     | Some (k, _) => Some (nth (o + (length l - 1 - k)) columns [])
     | None => m !! name end) as H; [|by rewrite (H header 0 ∅), lookup_empty].
  induction l as [|h l IH] using rev_ind; intros o m; [done|].
  rewrite rev_app_distr. simpl rev. rewrite app_length. simpl length.
  rewrite seq_app. rewrite zip_with_app by (by rewrite seq_length).
  rewrite fold_left_app. simpl. destruct (decide (h = name)) as [->|Hne].
  - rewrite lookup_insert. f_equal. f_equal. lia.
  - rewrite lookup_insert_ne by done. rewrite IH.
    destruct (list_find (λ h0, h0 = name) (rev l)) as [[k x]|] eqn:E; simpl; [|done].
    f_equal. f_equal.
    apply list_find_Some in E as (Hk & _). apply lookup_lt_Some in Hk. rewrite rev_length in Hk. lia.
Qed.

(** C13. Row i of the result comes from line i+1; column name [h] (its last
    occurrence at position j) gives field j, or the empty text if the line is
    shorter; other names are not bound. *)
Theorem C13_csv_header_mapping (s : text) (res : list (gmap text text)) :
  read_with_header s = Some res →
  ∃ header rows, csv_read s = header :: rows ∧ length res = length rows ∧
    ∀ i m cols, res !! i = Some m → rows !! i = Some cols →
      (∀ j h, header !! j = Some h → (∀ j', header !! j' = Some h → j' ≤ j) →
         m !! h = Some (nth j cols [])) ∧
      (∀ h, h ∉ header → m !! h = None).
Proof.
  unfold read_with_header. destruct (csv_read s) as [|header rows]; [done|]. intros [= <-].
  exists header, rows. split; [done|]. split; [by rewrite fmap_length|].
  intros i m cols Hm Hc. rewrite list_lookup_fmap, Hc in Hm. injection Hm as <-. split.
  - intros j h Hj Hmax. rewrite format_row_lookup.
    destruct (list_find (λ h0, h0 = h) (rev header)) as [[k x]|] eqn:E.
    + apply list_find_Some in E as (Hk & -> & Hfirst).
      pose proof (lookup_lt_Some _ _ _ Hk) as Hlt. rewrite rev_length in Hlt.
      rewrite rev_lookup in Hk by lia.
      assert (length header - S k ≤ j) as H1 by (by apply Hmax).
      assert (¬ (length header - S k < j)) as H2.
      { intros Hlt2. apply lookup_lt_Some in Hj as Hjl.
        refine (Hfirst (length header - S j) h _ _ eq_refl); [|lia].
        rewrite rev_lookup by lia. replace (length header - S (length header - S j)) with j by lia. done. }
      f_equal. f_equal. lia.
    + exfalso. apply list_find_None in E. rewrite Forall_forall in E.
      apply (E h); [|done]. apply elem_of_list_In, in_rev.
      rewrite rev_involutive. apply elem_of_list_In. by eapply elem_of_list_lookup_2.
  - intros h Hh. rewrite format_row_lookup.
    destruct (list_find (λ h0, h0 = h) (rev header)) as [[k x]|] eqn:E; [|done].
    exfalso. apply list_find_Some in E as (Hk & -> & _). apply Hh.
    apply elem_of_list_lookup_2, elem_of_list_In, in_rev, elem_of_list_In in Hk. done.
Qed.
Print Assumptions C13_csv_header_mapping.

(** Reading with a header is defined exactly for files that are not empty. *)
Theorem C13_csv_header_defined (s : text) : s ≠ [] → is_Some (read_with_header s).
Proof.
  intros Hs. unfold read_with_header, csv_read, lines.
  assert (∀ cur t, rev cur ++ t ≠ [] → lines_from cur t ≠ []) as H.
  { intros cur t. revert cur. induction t as [|c t IH]; intros cur Hx; simpl.
    - rewrite app_nil_r in Hx. by destruct cur.
    - case_decide; [done|]. apply IH. simpl. rewrite <-app_assoc. by destruct (rev cur). }
  specialize (H [] s Hs). destruct (lines_from [] s); [done|]. simpl. by eexists.
Qed.
Print Assumptions C13_csv_header_defined.
Theorem C13_empty_file_refuted : ∃ s, read_with_header s = None.
Proof. by exists []. Qed.
Print Assumptions C13_empty_file_refuted.

(** Non-trivial instance: quotes, commas and CR inside fields. *)
Definition tx (s : string) : text := String.list_ascii_of_string s.
Example csv_ex : Forall (row_ok [nl]) [[Quote (tx "a,""b"); Plain (tx "c d"); Plain []]; [Quote [cr]]] ∧
  csv_read (put_table [nl] [[Quote (tx "a,""b"); Plain (tx "c d"); Plain []]; [Quote [cr]]])
   = [[tx "a,""b"; tx "c d"; []]; [[cr]]].
Proof.
  split; [|vm_compute; reflexivity].
  apply Forall_cons; split; [|apply Forall_cons; split; [|constructor]];
    (split; [done|]; split; [|intros _ t Ht; simpl in Ht; by simplify_eq]);
    repeat (apply Forall_cons; split); try (apply (bool_decide_unpack _); vm_compute; exact I); constructor.
Qed.
