(** C95: files of the cross-correlation cache. *)
From Coq Require Import ZArith Reals Ascii.
From Flocq Require Import Core BinarySingleNaN.
From stdpp Require Import gmap list strings.
From Verif Require Import Index_Model Csv_Model Csv_Props Table_Model Table_Proofs Catalog_Model Catalog_Props CatalogFile_Model CatalogFile_Props Neighbours_Model.
From Verif Require Import Double_Model Decimal_Model Decimal_Proofs Decimal_Props XCorrCache_Model XCorrCache_Props XCorrFile_Model.
Local Open Scope R_scope.
Local Notation tx := Table_Model.tx.

(** * Specification *)
(** What a cache answers *)
Notation get := (xc_get (C := double) (L := double) Bopp).
(** The same entry, up to six decimals *)
Definition same_entry (e e' : entry double double) : Prop :=
  e_valid e' = e_valid e ∧ close 6 (e_coeff e) (e_coeff e') ∧ close 6 (e_lag e) (e_lag e').
(** A text that can be a field of a file *)
Definition field (t : text) : Prop := plain t ∧ zero ∉ t.
(** The pairs the cache knows can be written: their events have ids of 32 bits, their stations are in the catalog and
    no code and no type of a phase has a character of the format *)
Definition storable {V} (c : catalog V) (m : cache double double) : Prop :=
  ∀ a b s p, is_Some (get m a b s p) →
    (a < 2 ^ 32)%N ∧ (b < 2 ^ 32)%N ∧ field (tx p) ∧
    ∃ sta, c_sta c !! tx s = Some sta ∧ field (s_net sta) ∧ field (s_sta sta) ∧ field (s_loc sta).
(** What a row says: the fields it must have and the addition it stands for *)
Definition says {V} (c : catalog V) (row : gmap text text) (o : xop double double) : Prop :=
  ∃ a b net sta loc ph valid coeff lag n1 n2 x y s,
    row !! tx "eventId1" = Some a ∧ row !! tx "eventId2" = Some b ∧ row !! tx "networkCode" = Some net ∧
    row !! tx "stationCode" = Some sta ∧ row !! tx "locationCode" = Some loc ∧ row !! tx "phaseType" = Some ph ∧
    row !! tx "valid" = Some valid ∧ row !! tx "coefficient" = Some coeff ∧ row !! tx "lag" = Some lag ∧
    stoul a = Some n1 ∧ stoul b = Some n2 ∧ stod coeff = Some x ∧ stod lag = Some y ∧
    c_sta c !! (net ++ tx "." ++ sta ++ tx "." ++ loc) = Some s ∧
    o = XAdd (n1 mod 2 ^ 32) (n2 mod 2 ^ 32) (str (s_id s)) (str ph)
             (Entry (bool_decide (valid ∈ [tx "1"; tx "true"; tx "True"; tx "TRUE"])) x y).

(** A row that names a station that is not in the catalog *)
Definition unknown {V} (c : catalog V) (row : gmap text text) : Prop :=
  ∃ net sta loc, row !! tx "networkCode" = Some net ∧ row !! tx "stationCode" = Some sta ∧ row !! tx "locationCode" = Some loc ∧
    c_sta c !! (net ++ tx "." ++ sta ++ tx "." ++ loc) = None.

(** * Caches *)
Lemma NoDup_bind {A B} (f : A → list B) (l : list A) :
  (∀ x y z, x ∈ l → y ∈ l → z ∈ f x → z ∈ f y → x = y) → (∀ x, x ∈ l → NoDup (f x)) → NoDup l → NoDup (l ≫= f).
Proof.
  intros H1 H2 N. induction N as [|x l Hx N IH]; [constructor|]. rewrite bind_cons. apply NoDup_app. split; [|split].
  - apply H2. by left.
  - intros z Hz Hz'. apply elem_of_list_bind in Hz' as (y & Hy & Hl). apply Hx.
    rewrite (H1 x y z); [done|by left|by right|done|done].
  - apply IH; [intros x' y z ??; apply H1; by right|]. intros y Hy. apply H2. by right.
Qed.
Section cache.
Context {C L : Type} (neg : L → L).
Implicit Types m : cache C L.
Lemma at4_erase m a s p b a' s' p' b' :
  at4 (erase4 m a s p b) a' s' p' b' = if decide (a' = a ∧ s' = s ∧ p' = p ∧ b' = b) then None else at4 m a' s' p' b'.
Proof. rewrite at4_erase4. repeat case_decide; naive_solver. Qed.
Lemma at4_set m a s p b e a' s' p' b' :
  at4 (set4 m a s p b e) a' s' p' b' = if decide (a' = a ∧ s' = s ∧ p' = p ∧ b' = b) then Some e else at4 m a' s' p' b'.
Proof. rewrite at4_set4. repeat case_decide; naive_solver. Qed.
Lemma at4_add m a b s p e a' s' p' b' :
  at4 (xc_add m a b s p e) a' s' p' b' =
  if decide (a' = b ∧ s' = s ∧ p' = p ∧ b' = a) then None
  else if decide (a' = a ∧ s' = s ∧ p' = p ∧ b' = b) then Some e else at4 m a' s' p' b'.
Proof. unfold xc_add. rewrite at4_erase, at4_set. done. Qed.

(** Adding the entries of a list without contradictions to an empty cache gives a cache with these entries *)
Definition consistent (l : list (quint C L)) : Prop :=
  (∀ a b s p e e', (a, b, s, p, e) ∈ l → (a, b, s, p, e') ∈ l → e = e') ∧
  (∀ a b s p e e', (a, b, s, p, e) ∈ l → (b, a, s, p, e') ∉ l).
Lemma merge_at4 (l : list (quint C L)) : consistent l →
  ∀ a b s p e, at4 (xc_merge ∅ l) a s p b = Some e ↔ (a, b, s, p, e) ∈ l.
Proof.
  induction l as [|[[[[a' b'] s'] p'] e'] l IH] using rev_ind; intros [H1 H2] a b s p e.
  - unfold xc_merge, at4. simpl. rewrite lookup_empty. simpl. rewrite elem_of_nil. done.
  - unfold xc_merge. rewrite fold_left_app. simpl. fold (xc_merge (∅ : cache C L) l). rewrite at4_add.
    assert (consistent l) as Cl.
    { split; intros *; [intros Ha Hb; eapply H1; apply elem_of_app; left; eauto|].
      intros Ha Hb. eapply H2; apply elem_of_app; left; eauto. }
    rewrite elem_of_app, elem_of_list_singleton.
    case_decide as D1.
    + destruct D1 as (-> & -> & -> & ->). split; [done|]. intros Hin. exfalso.
      eapply (H2 b' a' s' p' e e'); apply elem_of_app; [|right; by apply elem_of_list_singleton].
      rewrite elem_of_list_singleton. done.
    + case_decide as D2.
      * destruct D2 as (-> & -> & -> & ->). split; [intros [= ->]; by right|].
        intros [Hin|[= ->]]; [|done]. f_equal. eapply (H1 a' b' s' p'); apply elem_of_app; [right|left; done].
        by apply elem_of_list_singleton.
      * rewrite (IH Cl). split; [by left|]. intros [?|[= -> -> -> -> ->]]; [done|]. naive_solver.
Qed.
Lemma anti_consistent m : Anti m → consistent (xc_entries m).
Proof.
  intros A. split; intros a b s p e e'; rewrite !elem_xc_entries; [congruence|].
  intros Ha Hb. rewrite (A a b s p) in Hb by eauto. done.
Qed.
Lemma consistent_perm (l l' : list (quint C L)) : l ≡ₚ l' → consistent l' → consistent l.
Proof.
  intros P [H1 H2]. split; intros *; rewrite !P; [apply H1|apply H2].
Qed.
Lemma entries_NoDup m : NoDup (xc_entries m).
Proof.
  unfold xc_entries. apply NoDup_bind; [|intros [a m1] H|apply NoDup_map_to_list].
  - intros [a1 m1] [a2 m2] x H1 H2 I1 I2.
    apply elem_of_list_bind in I1 as ([s1 n1] & I1 & J1). apply elem_of_list_bind in I1 as ([p1 q1] & I1 & K1).
    apply elem_of_list_bind in I1 as ([b1 e1] & I1 & L1). apply elem_of_list_singleton in I1 as ->. simpl in *.
    apply elem_of_list_bind in I2 as ([s2 n2] & I2 & J2). apply elem_of_list_bind in I2 as ([p2 q2] & I2 & K2).
    apply elem_of_list_bind in I2 as ([b2 e2] & I2 & L2). apply elem_of_list_singleton in I2. simpl in *. simplify_eq.
    apply elem_of_map_to_list in H1, H2. congruence.
  - simpl. clear H. apply NoDup_bind; [|intros [s m2] H|apply NoDup_map_to_list].
    + intros [s1 n1] [s2 n2] x H1 H2 I1 I2. apply elem_of_list_bind in I1 as ([p1 q1] & I1 & K1).
      apply elem_of_list_bind in I1 as ([b1 e1] & I1 & L1). apply elem_of_list_singleton in I1 as ->. simpl in *.
      apply elem_of_list_bind in I2 as ([p2 q2] & I2 & K2).
      apply elem_of_list_bind in I2 as ([b2 e2] & I2 & L2). apply elem_of_list_singleton in I2. simpl in *. simplify_eq.
      apply elem_of_map_to_list in H1, H2. congruence.
    + simpl. clear H. apply NoDup_bind; [|intros [p m3] H|apply NoDup_map_to_list].
      * intros [p1 q1] [p2 q2] x H1 H2 I1 I2.
        apply elem_of_list_bind in I1 as ([b1 e1] & I1 & L1). apply elem_of_list_singleton in I1 as ->. simpl in *.
        apply elem_of_list_bind in I2 as ([b2 e2] & I2 & L2). apply elem_of_list_singleton in I2. simpl in *. simplify_eq.
        apply elem_of_map_to_list in H1, H2. congruence.
      * simpl. clear H. apply NoDup_bind; [|intros [b e] H; apply NoDup_singleton|apply NoDup_map_to_list].
        intros [b1 e1] [b2 e2] x H1 H2 I1 I2. apply elem_of_list_singleton in I1 as ->.
        apply elem_of_list_singleton in I2. simpl in *. simplify_eq. done.
Qed.
End cache.

(** * Rows *)
Section files.
Context {V : Type}.
Implicit Types c : catalog V.

Lemma xc_rows_spec c order :
  let '(rs, ok) := xc_rows c order in
  (ok = true → Forall2 (λ q r, xc_row c q = Some r) order rs) ∧
  (ok = false → ∃ pre q post, order = pre ++ q :: post ∧ xc_rows c pre = (rs, true) ∧ xc_row c q = None).
Proof.
  induction order as [|q order IH]; simpl; [split; [constructor|done]|].
  destruct (xc_row c q) as [r|] eqn:E.
  - destruct (xc_rows c order) as [rs ok]. destruct IH as [I1 I2]. split.
    + intros K. constructor; [done|]. auto.
    + intros K. destruct (I2 K) as (pre & q' & post & -> & J & N). exists (q :: pre), q', post.
      split; [done|]. split; [|done]. simpl. by rewrite E, J.
  - split; [done|]. intros _. exists [], q, order. done.
Qed.
Lemma rows_of_Forall2 c order rs : Forall2 (λ q r, xc_row c q = Some r) order rs → xc_rows c order = (rs, true).
Proof. induction 1 as [|q r order rs H _ IH]; simpl; [done|]. by rewrite H, IH. Qed.

(** C95: the file holds the header and a line for every pair; the function throws exactly if a pair of an unknown station
    comes up, and then the file ends before this pair *)
Theorem C95_write c (m : cache double double) (order : list (quint double double)) : order ≡ₚ xc_entries m →
  ((xc_write c order).2 = false ↔ ∃ a b s p, is_Some (get m a b s p) ∧ c_sta c !! tx s = None) ∧
  ((xc_write c order).2 = false → ∃ pre a b s p e post, order = pre ++ (a, b, s, p, e) :: post ∧ c_sta c !! tx s = None ∧
     xc_write c pre = ((xc_write c order).1, true)).
Proof.
  intros P. unfold xc_write. pose proof (xc_rows_spec c order) as H.
  destruct (xc_rows c order) as [rs ok]. destruct H as [H1 H2]. cbn [snd fst].
  assert (∀ a b s p e, xc_row c (a, b, s, p, e) = None ↔ c_sta c !! tx s = None) as Hr.
  { intros a b s p e. unfold xc_row. destruct (c_sta c !! tx s); cbn [mbind option_bind]; split; intros H; discriminate H || reflexivity. }
  split; [split|].
  - intros ->. destruct (H2 eq_refl) as (pre & [[[[a b] s] p] e] & post & -> & _ & N). apply Hr in N.
    exists a, b, s, p. split; [|done]. assert ((a, b, s, p, e) ∈ xc_entries m) as I.
    { rewrite <-P. apply elem_of_app. right. by left. }
    apply elem_xc_entries in I. unfold xc_get. rewrite I. eauto.
  - intros (a & b & s & p & [e He] & N). destruct ok; [|done]. exfalso.
    assert (∃ a b e, (a, b, s, p, e) ∈ order) as (a' & b' & e' & I).
    { setoid_rewrite P. setoid_rewrite elem_xc_entries. unfold xc_get in He.
      destruct (at4 m a s p b) eqn:E1; [eauto|]. destruct (at4 m b s p a) eqn:E2; [eauto|done]. }
    apply elem_of_list_lookup in I as [i I]. specialize (H1 eq_refl).
    destruct (Forall2_lookup_l _ _ _ _ _ H1 I) as (r & _ & E). apply (Hr a' b' s p e') in N. congruence.
  - intros ->. destruct (H2 eq_refl) as (pre & [[[[a b] s] p] e] & post & -> & J & N). apply Hr in N.
    exists pre, a, b, s, p, e, post. rewrite J. done.
Qed.

Lemma xc_header_plain : plain_row xc_header.
Proof.
  split; [done|]. split; [|intros t [= <-]; vm_compute; discriminate].
  unfold xc_header. repeat (apply Forall_cons; split); try constructor;
    apply (bool_decide_unpack _); vm_compute; exact I.
Qed.
Lemma xc_header_NoDup : NoDup xc_header.
Proof. apply (bool_decide_unpack _). vm_compute. exact I. Qed.
Lemma str_tx s : str (tx s) = s.
Proof. apply String.string_of_list_ascii_of_string. Qed.
Lemma tx_str t : tx (str t) = t.
Proof. apply String.list_ascii_of_string_of_list_ascii. Qed.

(** What is read for an entry *)
Definition round_entry (e : entry double double) : entry double double :=
  Entry (e_valid e) (rf 6 (e_coeff e)) (rf 6 (e_lag e)).
Definition round_quint (q : quint double double) : quint double double :=
  let '(a, b, s, p, e) := q in (a, b, s, p, round_entry e).
Definition can_store c (q : quint double double) : Prop :=
  let '(a, b, s, p, e) := q in
  (a < 2 ^ 32)%N ∧ (b < 2 ^ 32)%N ∧ field (tx p) ∧
  ∃ sta, c_sta c !! tx s = Some sta ∧ field (s_net sta) ∧ field (s_sta sta) ∧ field (s_loc sta).

Lemma rf6 x : stod (print_f 6 x) = Some (rf 6 x) ∧ close 6 x (rf 6 x) ∧ print_f 6 (rf 6 x) = print_f 6 x.
Proof. apply (rf_spec 6). lia. Qed.

Lemma read_row_of c m q r : integrity c → can_store c q → xc_row c q = Some r →
  plain_row r ∧ xc_read_row c m (format_row xc_header r) = ROk (xc_merge m [round_quint q]).
Proof.
  destruct q as [[[[a b] s] p] e]. intros I (Ha & Hb & [Fp Zp] & sta & Es & [F1 Z1] & [F2 Z2] & [F3 Z3]).
  unfold xc_row. rewrite Es. cbn [mbind option_bind].
  rewrite !c_str_good by done. intros H. apply (inj Some) in H. subst r. split.
  - split; [done|]. split.
    + repeat (apply Forall_cons; split; [first [done|apply put_u_plain|apply print_f_plain|idtac]|]); [|constructor].
      destruct (e_valid e); apply (bool_decide_unpack _); vm_compute; exact Logic.I.
    + cbn [last]. intros t Ht. apply (inj Some) in Ht. subst t. apply print_f_plain.
  - unfold xc_read_row, cell.
    rewrite (format_row_at xc_header _ 0 _ xc_header_NoDup eq_refl).
    rewrite (format_row_at xc_header _ 1 _ xc_header_NoDup eq_refl).
    rewrite (format_row_at xc_header _ 2 _ xc_header_NoDup eq_refl).
    rewrite (format_row_at xc_header _ 3 _ xc_header_NoDup eq_refl).
    rewrite (format_row_at xc_header _ 4 _ xc_header_NoDup eq_refl).
    rewrite (format_row_at xc_header _ 5 _ xc_header_NoDup eq_refl).
    rewrite (format_row_at xc_header _ 6 _ xc_header_NoDup eq_refl).
    rewrite (format_row_at xc_header _ 7 _ xc_header_NoDup eq_refl).
    rewrite (format_row_at xc_header _ 8 _ xc_header_NoDup eq_refl).
    cbn [nth mbind option_bind]. rewrite !stoul_put_u by lia.
    rewrite (proj1 (rf6 (e_coeff e))), (proj1 (rf6 (e_lag e))).
    destruct (in_sta _ I _ _ Es) as [S1 S2]. unfold search_station. fold (sta_id sta). rewrite S2, Es, S1.
    unfold u32. rewrite !N.mod_small by lia. rewrite !str_tx. unfold xc_merge, round_quint, round_entry. simpl.
    do 2 f_equal. by destruct (e_valid e).
Qed.

Lemma read_rows_of c order rs m : integrity c → Forall (can_store c) order → Forall2 (λ q r, xc_row c q = Some r) order rs →
  Forall plain_row rs ∧ xc_read_rows c m (format_row xc_header <$> rs) = ROk (xc_merge m (round_quint <$> order)).
Proof.
  intros I F H. revert m F. induction H as [|q r order rs Hq H IH]; intros m F; [split; [constructor|done]|].
  apply Forall_cons in F as [Fq F]. destruct (read_row_of c m q r I Fq Hq) as [P R].
  destruct (IH (xc_merge m [round_quint q]) F) as [P' R']. split; [by constructor|].
  rewrite !fmap_cons. cbn [xc_read_rows]. rewrite R, R'. done.
Qed.

Lemma storable_order c m order : storable c m → order ≡ₚ xc_entries m → Forall (can_store c) order.
Proof.
  intros S P. rewrite Forall_forall. intros [[[[a b] s] p] e] Hq. rewrite P in Hq. apply elem_xc_entries in Hq.
  apply (S a b s p). unfold xc_get. rewrite Hq. eauto.
Qed.
Lemma write_read c m order : Anti m → integrity c → storable c m → order ≡ₚ xc_entries m →
  ∃ rs m', Forall2 (λ q r, xc_row c q = Some r) order rs ∧
    xc_write c order = (csv_lines (xc_header :: rs), true) ∧ xc_read c (csv_lines (xc_header :: rs)) = ROk m' ∧
    (∀ a b s p, at4 m' a s p b = round_entry <$> at4 m a s p b) ∧ xc_entries m' ≡ₚ round_quint <$> order.
Proof.
  intros A I S P. pose proof (storable_order _ _ _ S P) as F. pose proof (xc_rows_spec c order) as H.
  unfold xc_write. destruct (xc_rows c order) as [rs ok] eqn:Ers. destruct H as [H1 H2].
  assert (ok = true) as ->.
  { destruct ok; [done|]. destruct (H2 eq_refl) as (pre & [[[[a b] s] p] e] & post & -> & _ & N).
    rewrite Forall_app, Forall_cons in F. destruct F as (_ & (_ & _ & _ & sta & Es & _) & _).
    unfold xc_row in N. rewrite Es in N. done. }
  specialize (H1 eq_refl). destruct (read_rows_of c order rs ∅ I F H1) as [Pl R].
  exists rs, (xc_merge ∅ (round_quint <$> order)). split; [done|]. split; [done|]. split.
  { unfold xc_read. rewrite read_back by (constructor; [apply xc_header_plain|done]). done. }
  assert (∀ a b s p e, (a, b, s, p, e) ∈ round_quint <$> order ↔ ∃ e0, at4 m a s p b = Some e0 ∧ e = round_entry e0) as Hin.
  { intros a b s p e. rewrite elem_of_list_fmap. split.
    - intros ([[[[a0 b0] s0] p0] e0] & E & Hq). unfold round_quint in E. rewrite P in Hq.
      apply elem_xc_entries in Hq. apply pair_equal_spec in E as [E ->].
      apply pair_equal_spec in E as [E ->]. apply pair_equal_spec in E as [E ->]. apply pair_equal_spec in E as [-> ->].
      eauto.
    - intros (e0 & Hq & ->). exists (a, b, s, p, e0). split; [done|]. rewrite P. by apply elem_xc_entries. }
  assert (consistent (round_quint <$> order)) as Cs.
  { split; intros a b s p e e'; rewrite !Hin; intros (e0 & E0 & ->).
    - intros (e1 & E1 & ->). congruence.
    - intros (e1 & E1 & _). rewrite (A a b s p) in E1 by eauto. done. }
  assert (∀ a b s p, at4 (xc_merge ∅ (round_quint <$> order)) a s p b = round_entry <$> at4 m a s p b) as Hat.
  { intros a b s p. destruct (at4 m a s p b) as [e|] eqn:E.
    - apply (merge_at4 _ Cs), Hin. eauto.
    - destruct (at4 (xc_merge ∅ (round_quint <$> order)) a s p b) as [e'|] eqn:E'; [|done].
      apply (merge_at4 _ Cs), Hin in E' as (e0 & E0 & _). congruence. }
  split; [done|].
  apply NoDup_Permutation.
  - apply entries_NoDup.
  - apply NoDup_fmap_2_strong; [|rewrite P; apply entries_NoDup].
    intros [[[[a b] s] p] e] [[[[a' b'] s'] p'] e'] H3 H4 E. rewrite P in H3. rewrite P in H4.
    apply elem_xc_entries in H3, H4. unfold round_quint in E. apply pair_equal_spec in E as [E _].
    apply pair_equal_spec in E as [E ->]. apply pair_equal_spec in E as [E ->]. apply pair_equal_spec in E as [-> ->].
    rewrite H3 in H4. apply (inj Some) in H4. by subst.
  - intros [[[[a b] s] p] e]. etrans; [apply elem_xc_entries|]. rewrite Hat. etrans; [|symmetry; apply Hin]. apply fmap_Some.
Qed.

Lemma close_opp n x y : close n x y → close n (Bopp x) (Bopp y).
Proof.
  unfold close. rewrite is_finite_Bopp. destruct (is_finite x) eqn:F.
  - intros (Fy & Sy & E). rewrite is_finite_Bopp, !B2R_Bopp. split; [done|]. split.
    + destruct x, y; try done; cbn in *; congruence.
    + replace (- B2R y - - B2R x) with (- (B2R y - B2R x)) by ring. by rewrite Rabs_Ropp.
  - intros ->. done.
Qed.

(** C95: reading a written file gives a cache with the same answers, the numbers up to six decimals *)
Theorem C95_roundtrip c (os : list (xop double double)) (order : list (quint double double)) :
  integrity c → storable c (xc_run os) → order ≡ₚ xc_entries (xc_run os) →
  ∃ file m', xc_write c order = (file, true) ∧ xc_read c file = ROk m' ∧
    ∀ a b s p, option_Forall2 same_entry (get (xc_run os) a b s p) (get m' a b s p).
Proof.
  intros I S P. destruct (write_read c _ order (anti_run os) I S P) as (rs & m' & _ & W & R & H & _).
  exists (csv_lines (xc_header :: rs)), m'. split; [done|]. split; [done|]. intros a b s p. unfold xc_get. rewrite !H.
  assert (∀ e, same_entry e (round_entry e)) as He.
  { intros e. split; [done|]. split; apply rf6. }
  destruct (at4 (xc_run os) a s p b) as [e|]; [constructor; apply He|].
  destruct (at4 (xc_run os) b s p a) as [e|]; constructor.
  destruct (He e) as (E1 & E2 & E3). split; [done|]. split; [done|]. by apply close_opp.
Qed.

(** C95: and writing this cache gives the same lines again *)
Theorem C95_rewrite c (os : list (xop double double)) (order order' : list (quint double double)) file m' :
  integrity c → storable c (xc_run os) → order ≡ₚ xc_entries (xc_run os) →
  xc_write c order = (file, true) → xc_read c file = ROk m' → order' ≡ₚ xc_entries m' →
  ∃ lines lines', file = csv_lines (xc_header :: lines) ∧
    xc_write c order' = (csv_lines (xc_header :: lines'), true) ∧ lines' ≡ₚ lines ∧ length lines = length order.
Proof.
  intros I S P W R P'. destruct (write_read c _ order (anti_run os) I S P) as (rs & m1 & F & W1 & R1 & H & E).
  rewrite W in W1. apply pair_equal_spec in W1 as [-> _]. rewrite R in R1. injection R1 as <-.
  assert (Forall2 (λ q r, xc_row c q = Some r) (round_quint <$> order) rs) as F'.
  { apply Forall2_fmap_l. eapply Forall2_impl; [exact F|]. intros [[[[a b] s] p] e] r Hr. unfold compose. rewrite <-Hr.
    unfold xc_row, round_quint, round_entry. cbn [e_valid e_coeff e_lag].
    by rewrite (proj2 (proj2 (rf6 (e_coeff e)))), (proj2 (proj2 (rf6 (e_lag e)))). }
  rewrite E in P'. symmetry in P'. destruct (Permutation_Forall2 P' F') as (rs' & P2 & F2).
  exists rs, rs'. split; [done|]. split; [|split].
  - unfold xc_write. rewrite (rows_of_Forall2 _ _ _ F2). done.
  - done.
  - symmetry. eapply Forall2_length; exact F.
Qed.

(** C95: any file that is read says what the cache answers: of the rows of a pair, in either order, the last one counts *)
Theorem C95_read c (file : text) m : xc_read c file = ROk m →
  ∃ rows os, read_with_header file = Some rows ∧ Forall2 (says c) rows os ∧
    ∀ a b s p, get m a b s p = (if decide (a = b) then None else last_written Bopp os a b s p) ∧
      get m b a s p = flip Bopp <$> get m a b s p.
Proof.
  unfold xc_read. destruct (read_with_header file) as [rows|]; [|done]. intros H.
  assert (∀ rows m0, xc_read_rows c m0 rows = ROk m → ∃ os, Forall2 (says c) rows os ∧ m = fold_left xc_step os m0) as G.
  { clear. induction rows as [|row rows IH]; intros m0 H; simpl in H.
    - injection H as <-. exists []. split; [constructor|done].
    - destruct (xc_read_row c m0 row) as [m1| |] eqn:E; try done. destruct (IH m1 H) as (os & F & ->).
      unfold xc_read_row, cell in E.
      destruct (row !! tx "eventId1") as [a|] eqn:E1; [|done]. cbn [mbind option_bind] in E. destruct (stoul a) as [n1|] eqn:E2; [|done].
      destruct (row !! tx "eventId2") as [b|] eqn:E3; [|done]. cbn [mbind option_bind] in E. destruct (stoul b) as [n2|] eqn:E4; [|done].
      destruct (row !! tx "networkCode") as [net|] eqn:E5; [|done]. destruct (row !! tx "stationCode") as [sta|] eqn:E6; [|done].
      destruct (row !! tx "locationCode") as [loc|] eqn:E7; [|done]. destruct (row !! tx "phaseType") as [ph|] eqn:E8; [|done].
      destruct (row !! tx "valid") as [valid|] eqn:E9; [|done].
      destruct (row !! tx "coefficient") as [co|] eqn:E10; [|done]. cbn [mbind option_bind] in E. destruct (stod co) as [x|] eqn:E11; [|done].
      destruct (row !! tx "lag") as [la|] eqn:E12; [|done]. cbn [mbind option_bind] in E. destruct (stod la) as [y|] eqn:E13; [|done].
      destruct (search_station c net sta loc) as [s|] eqn:E14; [|done]. injection E as <-.
      eexists (XAdd _ _ _ _ _ :: os). split; [|simpl; reflexivity]. constructor; [|done].
      exists a, b, net, sta, loc, ph, valid, co, la, n1, n2, x, y, s. repeat (split; [done|]).
      unfold u32. f_equal. f_equal. unfold str_to_bool. symmetry.
      rewrite <-!bool_decide_or. apply bool_decide_ext. rewrite !elem_of_cons, elem_of_nil. tauto. }
  destruct (G rows ∅ H) as (os & F & ->). exists rows, os. split; [done|]. split; [done|]. intros a b s p.
  fold (xc_run os). split.
  - case_decide as D; [subst; apply C05_xcorrcache_no_self_pair|by apply C05_xcorrcache_last_write_wins].
  - apply C05_xcorrcache_antisymmetric. intros x. apply Bopp_involutive.
Qed.

(** C95: if all stations are in the catalog, reading returns or throws *)
Theorem C95_defined c (file : text) rows : read_with_header file = Some rows → (∀ row, row ∈ rows → ¬ unknown c row) →
  xc_read c file ≠ RUB.
Proof.
  intros E H. unfold xc_read. rewrite E. clear E. generalize (∅ : cache double double).
  induction rows as [|row rows IH]; intros m; simpl; [done|].
  destruct (xc_read_row c m row) as [m'| |] eqn:Er; [|done|].
  - apply IH. intros r Hr. apply H. by right.
  - intros _. apply (H row); [by left|]. unfold xc_read_row, cell in Er.
    destruct (s1 ← row !! tx "eventId1"; stoul s1); [|done]. destruct (s1 ← row !! tx "eventId2"; stoul s1); [|done].
    destruct (row !! tx "networkCode") as [net|] eqn:E5; [|done]. destruct (row !! tx "stationCode") as [sta|] eqn:E6; [|done].
    destruct (row !! tx "locationCode") as [loc|] eqn:E7; [|done]. destruct (row !! tx "phaseType"); [|done].
    destruct (row !! tx "valid"); [|done]. destruct (s1 ← row !! tx "coefficient"; stod s1); [|done].
    destruct (s1 ← row !! tx "lag"; stod s1); [|done].
    destruct (search_station c net sta loc) eqn:Es; [done|].
    exists net, sta, loc. done.
Qed.
End files.
Print Assumptions C95_write.
Print Assumptions C95_roundtrip.
Print Assumptions C95_rewrite.
Print Assumptions C95_read.
Print Assumptions C95_defined.

(** * Counterexamples and instances *)
Definition half : double := num 1 2.
Definition ex_os : list (xop double double) :=
  [XAdd 5 7 "N.A." "P" (Entry true (num 9 10) (num (-1) 3)); XAdd 7 5 "N.B.00" "S" (Entry false B754_nan (num 1 8));
   XAdd 9 5 "N.A." "P" (Entry true half half); XRemove 5 9 "N.A." "P"].
Local Notation ex_m := (xc_run ex_os).
Lemma ex_get a b s p : is_Some (get ex_m a b s p) →
  (a = 5 ∧ b = 7 ∨ a = 7 ∧ b = 5)%N ∧ (s = "N.A."%string ∧ p = "P"%string ∨ s = "N.B.00"%string ∧ p = "S"%string).
Proof.
  destruct (decide (a = b)) as [->|D]; [rewrite C05_xcorrcache_no_self_pair; by intros [? ?]|].
  rewrite C05_xcorrcache_last_write_wins by done. unfold last_written, ex_os. cbn [fold_left last1].
  generalize (Entry true (num 9 10) (num (-1) 3)) (Entry false (B754_nan : double) (num 1 8)) (Entry true half half).
  intros e1 e2 e3 [e He]. case_decide as D0; [discriminate He|].
  case_decide as D1; [tauto|]. case_decide as D2; [tauto|]. clear D0 D1 D2.
  case_decide as D3; [destruct D3 as (-> & -> & -> & ->); tauto|]. case_decide as D4; [destruct D4 as (-> & -> & -> & ->); tauto|].
  case_decide as D5; [destruct D5 as (-> & -> & -> & ->); tauto|]. case_decide as D6; [destruct D6 as (-> & -> & -> & ->); tauto|].
  discriminate He.
Qed.
Example ex_storable : storable ex_c1 ex_m.
Proof.
  intros a b s p H. apply ex_get in H as [H1 H2]. split; [naive_solver lia|]. split; [naive_solver lia|].
  assert (∀ t, bool_decide (plain t) && bool_decide (zero ∉ t) = true → field t) as Hf.
  { intros t Ht. apply andb_prop in Ht as [A B]. split; eapply bool_decide_eq_true_1; eassumption. }
  destruct H2 as [[-> ->]|[-> ->]].
  - split; [apply Hf; vm_compute; reflexivity|]. eexists. split; [vm_compute; reflexivity|]. repeat split; apply Hf; vm_compute; reflexivity.
  - split; [apply Hf; vm_compute; reflexivity|]. eexists. split; [vm_compute; reflexivity|]. repeat split; apply Hf; vm_compute; reflexivity.
Qed.
(** The file of a cache with a pair that has a NaN *)
Definition ex_order : list (quint double double) :=
  [(7, 5, "N.B.00"%string, "S"%string, Entry false B754_nan (num 1 8)); (5, 7, "N.A."%string, "P"%string, Entry true (num 9 10) (num (-1) 3))]%N.
Example ex_text : xc_write ex_c1 ex_order =
  (csv_lines [xc_header;
              [tx "7"; tx "5"; tx "N"; tx "B"; tx "00"; tx "S"; tx "false"; tx "nan"; tx "0.125000"];
              [tx "5"; tx "7"; tx "N"; tx "A"; tx ""; tx "P"; tx "true"; tx "0.900000"; tx "-0.333333"]], true).
Proof. vm_compute. reflexivity. Qed.
Example ex_order_ok : ex_order ≡ₚ xc_entries ex_m.
Proof.
  apply NoDup_Permutation; [|apply entries_NoDup|].
  - apply NoDup_cons. split; [|apply NoDup_singleton]. rewrite elem_of_list_singleton. intros H.
    apply pair_equal_spec in H as [H _]. discriminate H.
  - intros [[[[a b] s] p] e]. etrans; [|symmetry; apply elem_xc_entries].
    unfold xc_run, ex_os. cbn [fold_left xc_step]. unfold xc_remove. rewrite !at4_erase, !at4_add.
    unfold ex_order. rewrite elem_of_cons, elem_of_list_singleton.
    assert (at4 (∅ : cache double double) a s p b = None) as E by (unfold at4; by rewrite lookup_empty).
    rewrite E. generalize (Entry true (num 9 10) (num (-1) 3)) (Entry false (B754_nan : double) (num 1 8)) (Entry true half half).
    clear E. intros e1 e2 e3.
    case_decide as D1; [destruct D1 as (-> & -> & -> & ->); split; [intros [H|H]; discriminate H|intros H; discriminate H]|].
    case_decide as D2; [destruct D2 as (-> & -> & -> & ->); split; [intros [H|H]; discriminate H|intros H; discriminate H]|].
    clear D1 D2.
    case_decide as D3; [destruct D3 as (-> & -> & -> & ->); split; [intros [H|H]; discriminate H|intros H; discriminate H]|].
    case_decide as D4.
    { destruct D4 as (-> & -> & -> & ->). split; [intros [H|H]; [|discriminate H]; f_equal; symmetry; exact (f_equal snd H)|].
      intros H. apply (inj Some) in H. subst. by left. }
    case_decide as D5; [destruct D5 as (-> & -> & -> & ->); split; [intros [H|H]; discriminate H|intros H; discriminate H]|].
    case_decide as D6.
    { destruct D6 as (-> & -> & -> & ->). split; [intros [H|H]; [discriminate H|]; f_equal; symmetry; exact (f_equal snd H)|].
      intros H. apply (inj Some) in H. subst. by right. }
    split; [|intros H; discriminate H]. intros [H|H]; apply pair_equal_spec in H as [H _];
      apply pair_equal_spec in H as [H ->]; apply pair_equal_spec in H as [H ->]; apply pair_equal_spec in H as [-> ->]; tauto.
Qed.
Example ex_roundtrip : ∃ file m', xc_write ex_c1 ex_order = (file, true) ∧ xc_read ex_c1 file = ROk m' ∧
  ∀ a b s p, option_Forall2 same_entry (get ex_m a b s p) (get m' a b s p).
Proof.
  refine (C95_roundtrip ex_c1 ex_os ex_order _ ex_storable ex_order_ok).
  exact (C14_catalog_integrity _ ins0_any _ ex_c1_built).
Qed.

(** A file that was written for one catalog and is read for another one without one of the stations *)
Theorem C95_unknown_refuted : ∃ (c c' : catalog Z) (os : list (xop double double)) order file,
  integrity c ∧ integrity c' ∧ storable c (xc_run os) ∧ order ≡ₚ xc_entries (xc_run os) ∧
  xc_write c order = (file, true) ∧ xc_read c' file = RUB.
Proof.
  exists ex_c1, empty_cat, ex_os, ex_order, (xc_write ex_c1 ex_order).1.
  split; [exact (C14_catalog_integrity _ ins0_any _ ex_c1_built)|]. split; [apply integrity_empty|].
  split; [exact ex_storable|]. split; [exact ex_order_ok|]. split; [by rewrite ex_text|].
  rewrite ex_text. cbn [fst]. vm_compute. reflexivity.
Qed.
Print Assumptions C95_unknown_refuted.
(** A cache with a station that the catalog does not have: the file is left without the pair *)
Example ex_throws : xc_write ex_c1 (take 1 ex_order ++ [(5, 7, "N.C."%string, "P"%string, Entry true half half)]%N) =
  ((xc_write ex_c1 (take 1 ex_order)).1, false).
Proof. vm_compute. reflexivity. Qed.
