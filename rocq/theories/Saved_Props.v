(** C96: files saved for inspection. *)
From Coq Require Import ZArith Ascii.
From Flocq Require Import Core BinarySingleNaN.
From stdpp Require Import gmap list strings.
From Verif Require Import Cluster_Model SelectCatalog_Model XCorrCache_Model.
From Verif Require Import Index_Model Csv_Model Table_Model Table_Proofs Catalog_Model Catalog_Props CatalogFile_Model CatalogFile_Props Solver_Model Reloc_Model Neighbours_Model.
From Verif Require Import SingleEvent_Model MultiEvent_Model Double_Model Decimal_Model Decimal_Proofs Decimal_Props Saved_Model.
From Verif Require Commands_Proofs Reloc_Props SingleEvent_Props MultiEvent_Props.
From Verif Require Logger_Model Logger_Props Time_Model Time_Proofs Time_Props.
Local Open Scope nat_scope.
Local Notation tx := Table_Model.tx.

(** * Specification *)
(** The names of the files that are written, in this order, and the content at the end of a name *)
Definition names (l : list eff) : list text := omap (λ e, match e with EFile f _ => Some f | _ => None end) l.
Definition holds (l : list eff) (f c : text) : Prop := ∃ l1 l2, l = l1 ++ EFile f c :: l2 ∧ f ∉ names l2.
(** What the logger is told, with any messages in between *)
Definition tells (l : list eff) : list Logger_Model.lop :=
  omap (λ e, match e with
             | EOpen f => Some (Logger_Model.LAdd (String.string_of_list_ascii f) Logger_Model.Info true)
             | EClose f => Some (Logger_Model.LRemove (String.string_of_list_ascii f))
             | _ => None end) l.
Definition message (o : Logger_Model.lop) : bool :=
  match o with Logger_Model.LLog _ _ | Logger_Model.LLogF _ _ => true | _ => false end.
Definition with_messages (l : list eff) (h : list Logger_Model.lop) : Prop := filter (λ o, message o = false) h = tells l.
(** The file loggers after a history *)
Definition open_logs (h : list Logger_Model.lop) : gmap string Logger_Model.level := Logger_Model.lg_files (Logger_Model.run h).
Definition log_text (h : list Logger_Model.lop) (f : text) : list (Logger_Model.level * string) :=
  default [] (Logger_Model.lg_out (Logger_Model.run h) !! String.string_of_list_ascii f).
(** A line of the file of double-differences says what the difference is *)
Definition says_dd {V} (c : catalog V) (d : ddiff) (row : @gmap text _ (@list_countable ascii _ stdpp.strings.ascii_countable) text) : Prop :=
  ∃ s a b w x r k, c_sta c !! d_sta d = Some s ∧
    row !! tx "eventId1" = Some a ∧ stoul a = Some (d_ev1 d) ∧ row !! tx "eventId2" = Some b ∧ stoul b = Some (d_ev2 d) ∧
    row !! tx "networkCode" = Some (s_net s) ∧ row !! tx "stationCode" = Some (s_sta s) ∧
    row !! tx "locationCode" = Some (s_loc s) ∧ row !! tx "phaseType" = Some (d_phase d) ∧
    row !! tx "xcorrUsed" = Some (if d_xused d then tx "true" else tx "false") ∧
    row !! tx "weight" = Some w ∧ (∃ y, stod w = Some y ∧ close6 (d_weight d) y) ∧
    row !! tx "xcorrCoefficient" = Some x ∧ (∃ y, stod x = Some y ∧ close6 (d_xcoeff d) y) ∧
    row !! tx "doubleDifferenceResidual" = Some r ∧ (∃ y, stod r = Some y ∧ close6 (d_res d) y) ∧
    row !! tx "interEventDistance" = Some k ∧ (∃ y, stod k = Some y ∧ close6 (d_dist d) y).
Definition field (t : text) : Prop := plain t ∧ zero ∉ t.

(** * The file of double-differences *)
Section dd.
Context {V : Type}.
Implicit Types c : catalog V.
Lemma dd_rows_spec c l :
  let '(rs, ok) := dd_rows c l in
  (ok = true → Forall2 (λ d r, dd_row c d = Some r) l rs) ∧ (ok = false ↔ ∃ d, d ∈ l ∧ c_sta c !! d_sta d = None).
Proof.
  induction l as [|d l IH]; cbn [dd_rows].
  { split; [constructor|]. split; [done|]. intros (d & Hd & _). by apply elem_of_nil in Hd. }
  destruct (dd_row c d) as [r|] eqn:E; unfold dd_row in E; destruct (c_sta c !! d_sta d) as [s|] eqn:Es; try discriminate E.
  - destruct (dd_rows c l) as [rs ok]. destruct IH as [I1 I2]. split.
    + intros K. constructor; [unfold dd_row; by rewrite Es|auto].
    + rewrite I2. split; intros (d' & H & N).
      * exists d'. split; [by right|done].
      * apply elem_of_cons in H as [->|H]; [congruence|eauto].
  - split; [done|]. split; [|done]. intros _. exists d. split; [by left|done].
Qed.
Lemma dd_header_plain : plain_row dd_header.
Proof.
  split; [done|]. split; [|intros t [= <-]; vm_compute; discriminate].
  unfold dd_header. repeat (apply Forall_cons; split); try constructor; apply (bool_decide_unpack _); vm_compute; exact I.
Qed.
Lemma dd_header_NoDup : NoDup dd_header.
Proof. apply (bool_decide_unpack _). vm_compute. exact I. Qed.

(** C96: the file has one line for each double-difference, in their order, that says what it is, the numbers up to six
    digits; the function throws exactly if a station is unknown *)
Theorem C96_dd_file c (l : list ddiff) :
  ((dd_file c l).2 = false ↔ ∃ d, d ∈ l ∧ c_sta c !! d_sta d = None) ∧
  ((∀ d, d ∈ l → (d_ev1 d < 2 ^ 32)%N ∧ (d_ev2 d < 2 ^ 32)%N ∧ field (d_phase d) ∧
      (not_tiny (d_weight d) ∧ not_tiny (d_xcoeff d) ∧ not_tiny (d_res d) ∧ not_tiny (d_dist d)) ∧
      ∃ s, c_sta c !! d_sta d = Some s ∧ field (s_net s) ∧ field (s_sta s) ∧ field (s_loc s)) →
   ∃ rows, read_with_header (dd_file c l).1 = Some rows ∧ Forall2 (says_dd c) l rows).
Proof.
  unfold dd_file. pose proof (dd_rows_spec c l) as H. destruct (dd_rows c l) as [rs ok]. destruct H as [H1 H2].
  cbn [fst snd]. split; [done|]. intros Hd.
  assert (ok = true) as ->.
  { destruct ok; [done|]. destruct (proj1 H2 eq_refl) as (d & Hin & N). destruct (Hd d Hin) as (_ & _ & _ & _ & s & E & _). congruence. }
  specialize (H1 eq_refl). clear H2.
  assert (Forall plain_row rs ∧ Forall2 (says_dd c) l (format_row dd_header <$> rs)) as [Pl Sy].
  { induction H1 as [|d r l rs Hr H1 IH]; [split; constructor|].
    destruct IH as [I1 I2]; [intros d' Hd'; apply Hd; by right|].
    destruct (Hd d) as (Ha & Hb & [Pp Zp] & (T1 & T2 & T3 & T4) & s & Es & [P1 Z1] & [P2 Z2] & [P3 Z3]); [by left|].
    unfold dd_row in Hr. rewrite Es in Hr. cbn [mbind option_bind] in Hr. rewrite !c_str_good in Hr by done.
    apply (inj Some) in Hr. subst r. split.
    - constructor; [|done]. split; [done|]. split.
      + repeat (apply Forall_cons; split; [first [done|apply put_u_plain|apply print_g_plain|idtac]|]); [|constructor].
        destruct (d_xused d); apply (bool_decide_unpack _); vm_compute; exact Logic.I.
      + cbn [last]. intros t Ht. apply (inj Some) in Ht. subst t. apply print_g_plain.
    - rewrite fmap_cons. constructor; [|done].
      match goal with |- says_dd _ _ (_ ?r) => set (row := r) end.
      exists s, (put_u (d_ev1 d)), (put_u (d_ev2 d)), (print_g (d_weight d)), (print_g (d_xcoeff d)), (print_g (d_res d)), (print_g (d_dist d)).
      split; [done|].
      assert (∀ x, not_tiny x → ∃ y, stod (print_g x) = Some y ∧ close6 x y) as G.
      { intros x Hx. destruct (rg_spec x Hx) as (A & B & _). eauto. }
      assert (∀ i k v, dd_header !! i = Some k → nth i row [] = v → format_row dd_header row !! k = Some v) as At.
      { intros i k v Hk <-. by apply format_row_at; [apply dd_header_NoDup|]. }
      split; [by apply (At 0)|]. split; [apply stoul_put_u; lia|]. split; [by apply (At 1)|]. split; [apply stoul_put_u; lia|].
      split; [by apply (At 2)|]. split; [by apply (At 3)|]. split; [by apply (At 4)|]. split; [by apply (At 5)|].
      split; [by apply (At 7)|].
      split; [by apply (At 6)|]. split; [by apply G|]. split; [by apply (At 8)|]. split; [by apply G|].
      split; [by apply (At 9)|]. split; [by apply G|]. split; [by apply (At 10)|]. by apply G. }
  exists (format_row dd_header <$> rs). split; [|done].
  apply read_back. constructor; [apply dd_header_plain|done].
Qed.
End dd.
Print Assumptions C96_dd_file.

(** * The working directory *)
Section dir.
Local Open Scope Z_scope.
Lemma same_width (a b c d : text) : length a = length b → a ++ c = b ++ d → a = b ∧ c = d.
Proof. intros L E. by apply app_inj_1. Qed.

(** C96: the directory did not exist when it was asked for, all names tried before did *)
Theorem C96_dir_free rand prefix now there (fuel : nat) d : choose_dir rand prefix now there fuel 0 = Some d →
  ∃ k, (k < fuel)%nat ∧ d = work_dir rand prefix (now k) ∧ there k d = false ∧
    ∀ j, (j < k)%nat → there j (work_dir rand prefix (now j)) = true.
Proof.
  assert (∀ fuel i, choose_dir rand prefix now there fuel i = Some d → ∃ k, (i ≤ k < i + fuel)%nat ∧
    d = work_dir rand prefix (now k) ∧ there k d = false ∧ ∀ j, (i ≤ j < k)%nat → there j (work_dir rand prefix (now j)) = true) as H.
  { clear fuel. induction fuel as [|fuel IH]; intros i E; cbn [choose_dir] in E; [discriminate E|].
    destruct (there i (work_dir rand prefix (now i))) eqn:T.
    - destruct (IH _ E) as (k & K1 & K2 & K3 & K4). exists k. split; [lia|]. split; [done|]. split; [done|].
      intros j Hj. destruct (decide (j = i)) as [->|]; [done|]. apply K4. lia.
    - apply (inj Some) in E. subst d. exists i. split; [lia|]. split; [done|]. split; [done|]. intros j Hj. lia. }
  intros E. destruct (H fuel 0%nat E) as (k & K1 & K2 & K3 & K4). exists k. split; [lia|]. split; [done|]. split; [done|].
  intros j Hj. apply K4. lia.
Qed.

(** C96: names of different seconds differ *)
Theorem C96_dir_seconds rand prefix t t' :
  0 <= t → 0 <= t' → Time_Model.f_year (Time_Model.to_date t) <= 9999 → Time_Model.f_year (Time_Model.to_date t') <= 9999 →
  (work_dir rand prefix t = work_dir rand prefix t' ↔ t / 1000000 = t' / 1000000).
Proof.
  intros H H' Y Y'. split.
  - intros E. unfold work_dir in E. apply app_inv_head in E. apply app_inv_head in E.
    pose proof (Time_Props.C10_field_ranges t H) as R. pose proof (Time_Props.C10_field_ranges t' H') as R'. cbv zeta in R, R'.
    assert (∀ t, Time_Proofs.month_len (Time_Model.f_year (Time_Model.to_date t)) (Time_Model.f_mon (Time_Model.to_date t)) <= 31) as ML.
    { intros x. unfold Time_Proofs.month_len. repeat case_match; lia. }
    pose proof (ML t) as M. pose proof (ML t') as M'. clear ML.
    pose proof (Time_Proofs.gmtime_timegm (Time_Model.to_time_t t)) as G.
    pose proof (Time_Proofs.gmtime_timegm (Time_Model.to_time_t t')) as G'.
    change (Time_Model.f_year (Time_Model.gmtime (Time_Model.to_time_t t))) with (Time_Model.f_year (Time_Model.to_date t)) in G.
    change (Time_Model.f_mon (Time_Model.gmtime (Time_Model.to_time_t t))) with (Time_Model.f_mon (Time_Model.to_date t)) in G.
    change (Time_Model.f_day (Time_Model.gmtime (Time_Model.to_time_t t))) with (Time_Model.f_day (Time_Model.to_date t)) in G.
    change (Time_Model.f_hour (Time_Model.gmtime (Time_Model.to_time_t t))) with (Time_Model.f_hour (Time_Model.to_date t)) in G.
    change (Time_Model.f_min (Time_Model.gmtime (Time_Model.to_time_t t))) with (Time_Model.f_min (Time_Model.to_date t)) in G.
    change (Time_Model.f_sec (Time_Model.gmtime (Time_Model.to_time_t t))) with (Time_Model.f_sec (Time_Model.to_date t)) in G.
    change (Time_Model.f_year (Time_Model.gmtime (Time_Model.to_time_t t'))) with (Time_Model.f_year (Time_Model.to_date t')) in G'.
    change (Time_Model.f_mon (Time_Model.gmtime (Time_Model.to_time_t t'))) with (Time_Model.f_mon (Time_Model.to_date t')) in G'.
    change (Time_Model.f_day (Time_Model.gmtime (Time_Model.to_time_t t'))) with (Time_Model.f_day (Time_Model.to_date t')) in G'.
    change (Time_Model.f_hour (Time_Model.gmtime (Time_Model.to_time_t t'))) with (Time_Model.f_hour (Time_Model.to_date t')) in G'.
    change (Time_Model.f_min (Time_Model.gmtime (Time_Model.to_time_t t'))) with (Time_Model.f_min (Time_Model.to_date t')) in G'.
    change (Time_Model.f_sec (Time_Model.gmtime (Time_Model.to_time_t t'))) with (Time_Model.f_sec (Time_Model.to_date t')) in G'.
    destruct (Time_Model.to_date t) as [y mo d h mi s us], (Time_Model.to_date t') as [y' mo' d' h' mi' s' us'].
    cbn [Time_Model.f_year Time_Model.f_mon Time_Model.f_day Time_Model.f_hour Time_Model.f_min Time_Model.f_sec Time_Model.f_usec] in *.
    assert (∀ w n n' (r r' : text), (1 ≤ w)%nat → 0 <= n < 10 ^ Z.of_nat w → 0 <= n' < 10 ^ Z.of_nat w →
      Time_Model.fmt w n ++ r = Time_Model.fmt w n' ++ r' → n = n' ∧ r = r') as Hf.
    { intros w n n' r r' Hw Hn Hn' Ef. destruct (Time_Proofs.fmt_spec w n Hw Hn) as (L & _ & Vn).
      destruct (Time_Proofs.fmt_spec w n' Hw Hn') as (L' & _ & Vn'). apply same_width in Ef as [Ef ->]; [|congruence].
      split; [|done]. rewrite Ef in Vn. congruence. }
    apply Hf in E as [-> E]; [|lia|change (10 ^ Z.of_nat 4) with 10000; lia|change (10 ^ Z.of_nat 4) with 10000; lia].
    apply Hf in E as [-> E]; [|lia|change (10 ^ Z.of_nat 2) with 100; lia|change (10 ^ Z.of_nat 2) with 100; lia].
    apply Hf in E as [-> E]; [|lia|change (10 ^ Z.of_nat 2) with 100; lia|change (10 ^ Z.of_nat 2) with 100; lia].
    apply Hf in E as [-> E]; [|lia|change (10 ^ Z.of_nat 2) with 100; lia|change (10 ^ Z.of_nat 2) with 100; lia].
    apply Hf in E as [-> E]; [|lia|change (10 ^ Z.of_nat 2) with 100; lia|change (10 ^ Z.of_nat 2) with 100; lia].
    apply Hf in E as [-> E]; [|lia|change (10 ^ Z.of_nat 2) with 100; lia|change (10 ^ Z.of_nat 2) with 100; lia].
    rewrite G in G'. unfold Time_Model.to_time_t in G'. rewrite !Z.quot_div_nonneg in G' by lia. done.
  - intros E.
    assert (Time_Model.to_time_t t = Time_Model.to_time_t t') as Et.
    { unfold Time_Model.to_time_t. rewrite !Z.quot_div_nonneg by lia. done. }
    assert (seed t = seed t') as Es by exact Et.
    unfold work_dir. rewrite Es. unfold Time_Model.to_date. rewrite Et. cbn [Time_Model.f_year Time_Model.f_mon Time_Model.f_day Time_Model.f_hour Time_Model.f_min Time_Model.f_sec]. done.
Qed.
End dir.
Print Assumptions C96_dir_free.
Print Assumptions C96_dir_seconds.

(** * Effects *)
Local Notation str := String.string_of_list_ascii.
Lemma tbind_Ok {A B} (m : tr A) (f : A → tr B) l b : tbind m f = (l, Ok b) →
  ∃ l1 l2 a, m = (l1, Ok a) ∧ f a = (l2, Ok b) ∧ l = l1 ++ l2.
Proof.
  destruct m as [l1 [a| |]]; unfold tbind; cbn [fst snd]; intros E; try discriminate E.
  apply pair_equal_spec in E as [E1 E2]. exists l1, (f a).1, a. split; [done|]. split; [|done]. rewrite <-E2. by destruct (f a).
Qed.
Lemma tbind_res {A B} (m : tr A) (f : A → tr B) : (tbind m f).2 = rbind m.2 (λ a, (f a).2).
Proof. unfold tbind. by destruct m as [l [a| |]]. Qed.
Lemma tell_Ok l l' u : tell l = (l', Ok u) → l' = l.
Proof. intros E. apply pair_equal_spec in E as [-> _]. done. Qed.
Lemma tlift_Ok {A} (r : res A) l a : tlift r = (l, Ok a) → l = [] ∧ r = Ok a.
Proof. intros E. apply pair_equal_spec in E as [<- ->]. done. Qed.
Lemma tret_Ok {A} (a b : A) l : tret a = (l, Ok b) → l = [] ∧ b = a.
Proof. intros E. apply pair_equal_spec in E as [<- E]. injection E as ->. done. Qed.
Lemma tfile_Ok f c l u : tfile f c = (l, Ok u) → l = [EFile f c.1] ∧ c.2 = true.
Proof. intros E. apply pair_equal_spec in E as [<- E]. destruct c.2; [done|discriminate E]. Qed.

(** Names *)
Definition sub {A} (m : tr A) (L : list text) : Prop := names m.1 `sublist_of` L.
Lemma names_app l l' : names (l ++ l') = names l ++ names l'.
Proof. apply omap_app. Qed.
Lemma sub_bind {A B} (m : tr A) (f : A → tr B) L1 L2 : sub m L1 → (∀ a, sub (f a) L2) → sub (tbind m f) (L1 ++ L2).
Proof.
  intros H1 H2. unfold sub, tbind in *. destruct m.2 as [a| |]; cbn [fst].
  - rewrite names_app. apply sublist_app; [done|apply H2].
  - by apply sublist_inserts_r.
  - by apply sublist_inserts_r.
Qed.
Lemma sub_bind0 {A B} (m : tr A) (f : A → tr B) L : names m.1 = [] → (∀ a, sub (f a) L) → sub (tbind m f) L.
Proof. intros H1 H2. apply (sub_bind m f [] L); [unfold sub; by rewrite H1|done]. Qed.
Lemma sub_none {A} (m : tr A) L : names m.1 = [] → sub m L.
Proof. intros H. unfold sub. rewrite H. apply sublist_nil_l. Qed.
Lemma sub_when b m L : sub m L → sub (twhen b m) L.
Proof. destruct b; [done|]. intros _. by apply sub_none. Qed.
Lemma sub_tell l : sub (tell l) (names l).
Proof. unfold sub. done. Qed.
Lemma sub_file f c : sub (tfile f c) [f].
Proof. unfold sub, tfile. cbn. done. Qed.

Lemma names_elem l f : f ∈ names l ↔ ∃ c, EFile f c ∈ l.
Proof.
  unfold names. rewrite elem_of_list_omap. split.
  - intros ([] & H & E); try discriminate E. injection E as <-. eauto.
  - intros (c & H). exists (EFile f c). done.
Qed.
Lemma holds_elem l f c : NoDup (names l) → EFile f c ∈ l → holds l f c.
Proof.
  intros N H. apply elem_of_list_split in H as (l1 & l2 & ->). exists l1, l2. split; [done|].
  rewrite names_app in N. apply NoDup_app in N as (_ & _ & N). cbn in N. by apply NoDup_cons in N as [N _].
Qed.

(** Loggers *)
Local Notation logs := (gmap string Logger_Model.level).
Definition after1 (m : logs) (e : eff) : logs :=
  match e with
  | EOpen f => match m !! str f with Some _ => m | None => <[str f := Logger_Model.Info]> m end
  | EClose f => delete (str f) m
  | _ => m
  end.
Definition after (m : logs) (l : list eff) : logs := fold_left after1 l m.
Lemma after_app m l l' : after m (l ++ l') = after (after m l) l'.
Proof. apply fold_left_app. Qed.
Lemma open_after (h h' : list Logger_Model.lop) l : with_messages l h' → open_logs (h ++ h') = after (open_logs h) l.
Proof.
  unfold with_messages, open_logs. intros E.
  assert (Logger_Model.lg_files (Logger_Model.run (h ++ h')) =
          fold_left (λ m o, match o with
             | Logger_Model.LAdd f min true => match m !! f with Some _ => m | None => <[f := min]> m end
             | Logger_Model.LRemove f => delete f m | _ => m end) (filter (λ o, message o = false) h') (Logger_Model.lg_files (Logger_Model.run h))) as ->.
  { clear E. induction h' as [|o h' IH] using rev_ind; [by rewrite app_nil_r|].
    rewrite app_assoc, Logger_Props.run_snoc, filter_app, fold_left_app, <-IH.
    set (s := Logger_Model.run (h ++ h')). destruct o as [lv|u| |f min b|f|lv m|lv m]; unfold filter; cbn [list_filter message Logger_Model.step]; case_decide as D; try discriminate D; try done; cbn [fold_left].
    - by destruct (Logger_Model.lg_user s).
    - destruct b; destruct (Logger_Model.lg_files s !! f) eqn:El; try done; cbn [Logger_Model.lg_files]; by rewrite El.
    - apply Logger_Props.log_keeps.
    - case_decide as D2; [discriminate D2|]. apply Logger_Props.log_keeps. }
  rewrite E. generalize (Logger_Model.lg_files (Logger_Model.run h)). clear. unfold after, tells.
  induction l as [|e l IH]; intros m; [done|]. destruct e; cbn; apply IH.
Qed.
(** A logger that is open gets the messages *)
Lemma open_gets (h : list Logger_Model.lop) f lv m : open_logs h !! str f = Some Logger_Model.Info → Logger_Model.lev Logger_Model.Info ≤ Logger_Model.lev lv →
  log_text (h ++ [Logger_Model.LLog lv m]) f = log_text h f ++ [(lv, m)].
Proof.
  intros O L. unfold log_text. rewrite Logger_Props.run_snoc. cbn [Logger_Model.step].
  rewrite (proj2 (proj2 (proj2 (Logger_Props.log_keeps lv m (Logger_Model.run h))))).
  rewrite Logger_Props.log_to_file_out. unfold open_logs in O. rewrite O. rewrite decide_True by done. done.
Qed.

Lemma inj_str a b : str a = str b → a = b.
Proof.
  intros E. rewrite <-(String.list_ascii_of_string_of_list_ascii a), <-(String.list_ascii_of_string_of_list_ascii b).
  by rewrite E.
Qed.
Lemma keeps_open f l m : EClose f ∉ l → m !! str f = Some Logger_Model.Info → after m l !! str f = Some Logger_Model.Info.
Proof.
  revert m. induction l as [|e l IH]; intros m N H; [done|]. apply not_elem_of_cons in N as [N1 N2]. cbn. apply IH; [done|].
  destruct e as [d|g c|g|g]; cbn; try done.
  - destruct (m !! str g) eqn:F; [done|]. rewrite lookup_insert_ne; [done|]. congruence.
  - rewrite lookup_delete_ne; [done|]. intros X. apply N1. by rewrite (inj_str _ _ X).
Qed.

Lemma join_inj d a b : join d a = join d b → a = b.
Proof.
  unfold join. destruct d as [|c d]; [done|]. case_decide.
  - apply app_inv_head.
  - intros E. apply app_inv_head in E. by injection E.
Qed.
Lemma join_ne d a : a ≠ [] → join d a ≠ [].
Proof. unfold join. destruct d as [|c d]; [done|]. case_decide; done. Qed.
Lemma tx_inj s s' : tx s = tx s' → s = s'.
Proof.
  intros E. rewrite <-(String.string_of_list_ascii_of_string s), <-(String.string_of_list_ascii_of_string s').
  unfold tx in E. by rewrite E.
Qed.
Lemma sublist_elem {A} (l k : list A) x : l `sublist_of` k → x ∈ l → x ∈ k.
Proof. induction 1; rewrite ?elem_of_cons; naive_solver. Qed.
Lemma sublist_nodup {A} (l k : list A) : l `sublist_of` k → NoDup k → NoDup l.
Proof.
  induction 1 as [|x l k H IH|x l k H IH]; [done| |]; rewrite ?NoDup_cons; intros [N D]; [|auto].
  split; [|auto]. intros X. apply N. by eapply sublist_elem.
Qed.
Ltac here := solve [repeat (first [apply elem_of_list_here | apply elem_of_list_further])].
(** The file is in the directory and its name is not a path *)
Definition inside (d f : text) : Prop := ∃ base, f = join d base ∧ slash ∉ base.

Section single.
Context {V : Type}.
Notation hypo := (V * V * V * Z)%type.
Notation delta := (V * V * V * V)%type.
Variable ins : list (phase V) → phase V → list (phase V).
Variable move : hypo → delta → hypo.
Variable weight : phase V → V.
Variables vp vs : list Csv_Model.text.
Variable bg : catalog V.
Variables wsta wev wph : catalog V → text.
Variable wpair : catalog V → neigh → text * bool.
Variable dds : list (catalog V * sol V) → list ddiff * list ddiff.
Variable en : env.
Notation trace := (single_trace ins move weight vp vs bg wsta wev wph wpair dds en).
Notation plain_result := (relocate_single ins move weight vp vs bg).
(** The selection found enough neighbours *)
Definition enough (manual : bool) (st : step V) (single : catalog V) : Prop :=
  let c1 := fill_proc ins weight (if manual then SrcManual else SrcAutomatic) vp vs single in
  ∀ e es n, sorted_events (c_ev c1) = e :: es → st_sel st c1 e = Ok n → st_min st ≤ n_amount n.

Lemma cat_files_ne c fs fe fp : fs ≠ [] → cat_files wsta wev wph c fs fe fp = [EFile fe (wev c); EFile fp (wph c); EFile fs (wsta c)].
Proof. unfold cat_files. by destruct fs. Qed.
Lemma cat_files_nil c fe fp : cat_files wsta wev wph c [] fe fp = [EFile fe (wev c); EFile fp (wph c)].
Proof. done. Qed.
Lemma file_ne dir (s : string) : s ≠ EmptyString → join dir (tx s) ≠ [].
Proof. intros H. apply join_ne. by destruct s. Qed.

Definition single_names : list string :=
  ["single-event.csv"; "single-event-phase.csv"; "single-event-station.csv"; "input-event.csv"; "input-phase.csv";
   "input-station.csv"; "pair.csv"; "initial-double-difference.csv"; "final-double-difference.csv"; "reloc-event.csv";
   "reloc-phase.csv"]%string.
Lemma in_dir dir (ss : list string) : NoDup ss → Forall (λ s, slash ∉ tx s) ss →
  NoDup ((λ s, join dir (tx s)) <$> ss) ∧ ∀ f, f ∈ (λ s, join dir (tx s)) <$> ss → inside dir f.
Proof.
  intros N F. split.
  - apply NoDup_fmap_2; [|done]. intros s s' E. by apply tx_inj, (join_inj dir).
  - intros f Hf. apply elem_of_list_fmap in Hf as (s & -> & Hs). rewrite Forall_forall in F. exists (tx s). auto.
Qed.
Lemma single_names_ok dir : NoDup ((λ s, join dir (tx s)) <$> single_names) ∧ ∀ f, f ∈ (λ s, join dir (tx s)) <$> single_names → inside dir f.
Proof.
  apply in_dir; [apply (bool_decide_unpack _); vm_compute; exact I|].
  unfold single_names. repeat (apply Forall_cons; split); try constructor; apply (bool_decide_unpack _); vm_compute; exact I.
Qed.

Lemma trace_names save dir manual st single : sub (trace save dir manual st single) ((λ s, join dir (tx s)) <$> single_names).
Proof.
  unfold single_trace, single_names. cbn [fmap list_fmap].
  set (f1 := join dir (tx "single-event.csv")). set (f2 := join dir (tx "single-event-phase.csv")).
  set (f3 := join dir (tx "single-event-station.csv")). set (f4 := join dir (tx "input-event.csv")).
  set (f5 := join dir (tx "input-phase.csv")). set (f6 := join dir (tx "input-station.csv")).
  set (f7 := join dir (tx "pair.csv")). set (f8 := join dir (tx "initial-double-difference.csv")).
  set (f9 := join dir (tx "final-double-difference.csv")). set (f10 := join dir (tx "reloc-event.csv")).
  set (f11 := join dir (tx "reloc-phase.csv")).
  assert (f3 ≠ []) as N3 by (by apply file_ne). assert (f6 ≠ []) as N6 by (by apply file_ne).
  clearbody f1 f2 f3 f4 f5 f6 f7 f8 f9 f10 f11.
  apply (sub_bind _ _ [f1; f2; f3] [f4; f5; f6; f7; f8; f9; f10; f11]).
  { apply sub_when, sub_bind0; [unfold make_dir; by repeat case_match|]. intros _.
    rewrite cat_files_ne by done. apply sub_tell. }
  intros _. apply sub_bind0; [unfold twhen, add_log; by repeat case_match|]. intros _.
  destruct (sorted_events _) as [|e es]; [by apply sub_none|].
  apply sub_bind0; [done|]. intros n. case_decide; [case_decide; by apply sub_none|].
  apply sub_bind0; [done|]. intros [c2 u2]. apply sub_bind0; [done|]. intros [c3 new].
  apply (sub_bind _ _ [f4; f5; f6] [f7; f8; f9; f10; f11]).
  { apply sub_when. rewrite cat_files_ne by done. apply sub_tell. }
  intros _. apply (sub_bind _ _ [f7] [f8; f9; f10; f11]); [apply sub_when, sub_file|]. intros _.
  apply sub_bind0; [done|]. intros [out log].
  apply (sub_bind _ _ [f8; f9; f10; f11] []).
  { apply sub_when. apply (sub_bind _ _ [f8] [f9; f10; f11]); [apply sub_file|]. intros _.
    apply (sub_bind _ _ [f9] [f10; f11]); [apply sub_file|]. intros _. apply sub_tell. }
  intros _. apply sub_bind0; [done|]. intros _. by apply sub_none.
Qed.

(** C96: without the option nothing is written, and the result is that of the relocation *)
Theorem C96_single_off dir manual st single : let t := trace false dir manual st single in
  t.2 = plain_result manual st single ∧ (∀ e, e ∈ t.1 → e = EClose (join dir (tx "relocation.log"))).
Proof.
  cbv zeta. unfold single_trace, relocate_single, twhen, tbind, tell, tret, tlift, of_cres, rbind.
  cbn [fst snd app]. destruct (sorted_events _) as [|e es]; [split; [done|]; intros x Hx; by apply elem_of_nil in Hx|].
  cbn [fst snd app].
  destruct (st_sel st _ e) as [n| |]; cbn [fst snd app]; try (split; [done|]; intros x Hx; by apply elem_of_nil in Hx).
  case_decide; [case_decide; cbn [fst snd app]; (split; [done|]; intros x Hx; by apply elem_of_nil in Hx)|].
  destruct (to_catalog ins n bg false) as [c2 u2| |]; cbn [fst snd app]; try (split; [done|]; intros x Hx; by apply elem_of_nil in Hx).
  destruct (add_from ins c2 _ _ false) as [c3 new| |]; cbn [fst snd app]; try (split; [done|]; intros x Hx; by apply elem_of_nil in Hx).
  destruct (relocate ins move _ _ _ c3) as [[out log]| |]; cbn [fst snd app]; try (split; [done|]; intros x Hx; by apply elem_of_nil in Hx).
  split; [done|]. intros x Hx. by apply elem_of_list_singleton in Hx.
Qed.

(** The trace of a call that returns *)
Lemma trace_Ok dir manual st single l out new log : trace true dir manual st single = (l, Ok (out, new, log)) →
  plain_result manual st single = Ok (out, new, log) ∧
  ((enough manual st single ∧ ∃ l0 c3 p, relocate ins move (st_world st) [(new, new)] (st_iter st) c3 = Ok (out, log) ∧ (l0 = [] ∨ l0 = [EDir dir]) ∧ l = l0 ++
     [EFile (join dir (tx "single-event.csv")) (wev single); EFile (join dir (tx "single-event-phase.csv")) (wph single);
      EFile (join dir (tx "single-event-station.csv")) (wsta single); EOpen (join dir (tx "relocation.log"));
      EFile (join dir (tx "input-event.csv")) (wev c3); EFile (join dir (tx "input-phase.csv")) (wph c3);
      EFile (join dir (tx "input-station.csv")) (wsta c3); EFile (join dir (tx "pair.csv")) p;
      EFile (join dir (tx "initial-double-difference.csv")) (dd_file c3 (dds log).1).1;
      EFile (join dir (tx "final-double-difference.csv")) (dd_file c3 (dds log).2).1;
      EFile (join dir (tx "reloc-event.csv")) (wev out); EFile (join dir (tx "reloc-phase.csv")) (wph out);
      EClose (join dir (tx "relocation.log"))]) ∨
   (¬ enough manual st single ∧ out = empty_cat ∧ ∃ l0, (l0 = [] ∨ l0 = [EDir dir]) ∧ l = l0 ++
     [EFile (join dir (tx "single-event.csv")) (wev single); EFile (join dir (tx "single-event-phase.csv")) (wph single);
      EFile (join dir (tx "single-event-station.csv")) (wsta single); EOpen (join dir (tx "relocation.log"))])).
Proof.
  unfold single_trace, relocate_single, enough. cbn [twhen].
  rewrite (cat_files_ne _ (join dir (tx "single-event-station.csv"))) by (by apply file_ne).
  intros E. apply tbind_Ok in E as (l1 & l2 & [] & E1 & E & ->).
  apply tbind_Ok in E1 as (l0 & l1' & [] & E0 & E1 & ->). apply tell_Ok in E1 as ->.
  assert (l0 = [] ∨ l0 = [EDir dir]) as H0.
  { unfold make_dir in E0. repeat case_match; apply pair_equal_spec in E0 as [<- ?]; auto. }
  apply tbind_Ok in E as (l1 & l3 & [] & E1 & E & ->).
  assert (l1 = [EOpen (join dir (tx "relocation.log"))]) as ->.
  { unfold add_log in E1. destruct (en_open en _); [by apply tell_Ok in E1|discriminate E1]. }
  destruct (sorted_events _) as [|e es] eqn:Es; [discriminate E|].
  apply tbind_Ok in E as (l4 & l5 & n & E4 & E & ->). apply tlift_Ok in E4 as [-> Sel]. rewrite Sel. cbn [rbind].
  case_decide as D.
  - case_decide as D2; [|discriminate E]. apply tret_Ok in E as [-> E]. injection E as -> -> ->.
    split; [done|]. right. split; [|split; [done|]].
    + intros En. specialize (En e es n eq_refl Sel). lia.
    + exists l0. split; [done|]. by rewrite <-app_assoc.
  - apply tbind_Ok in E as (l6 & l7 & [c2 u2] & E6 & E & ->). apply tlift_Ok in E6 as [-> E6].
    destruct (to_catalog ins n bg false) as [c2' u2'| |]; cbn [of_cres] in E6; try discriminate E6. injection E6 as -> ->.
    apply tbind_Ok in E as (l6 & l8 & [c3 new'] & E6 & E & ->). apply tlift_Ok in E6 as [-> E6].
    destruct (add_from ins c2 (e_id e) _ false) as [c3' new0| |]; cbn [of_cres] in E6; try discriminate E6. injection E6 as -> ->.
    rewrite (cat_files_ne _ (join dir (tx "input-station.csv"))) in E by (by apply file_ne).
    apply tbind_Ok in E as (l6 & l9 & [] & E6 & E & ->). apply tell_Ok in E6 as ->.
    apply tbind_Ok in E as (l6 & l10 & [] & E6 & E & ->). apply tfile_Ok in E6 as [-> _].
    apply tbind_Ok in E as (l6 & l11 & [out' log'] & E6 & E & ->). apply tlift_Ok in E6 as [-> E6]. rewrite E6. cbn [rbind].
    apply tbind_Ok in E as (l6 & l12 & [] & E7 & E & ->).
    apply tbind_Ok in E7 as (l13 & l14 & [] & E7 & E8 & ->). apply tfile_Ok in E7 as [-> _].
    apply tbind_Ok in E8 as (l15 & l16 & [] & E7 & E8 & ->). apply tfile_Ok in E7 as [-> _]. apply tell_Ok in E8 as ->.
    apply tbind_Ok in E as (l17 & l18 & [] & E7 & E & ->). apply tell_Ok in E7 as ->. apply tret_Ok in E as [-> E].
    injection E as -> -> ->. split; [done|]. left. split.
    + intros e' es' n' Ee Sel'. injection Ee as <- <-. rewrite Sel in Sel'. injection Sel' as <-. lia.
    + exists l0, c3, (wpair c3 (Neigh new' (n_map n))).1. split; [done|]. split; [done|]. rewrite <-!app_assoc. done.
Qed.

Lemma names_dir l0 l (dir : text) : l0 = [] ∨ l0 = [EDir dir] → names (l0 ++ l) = names l.
Proof. by intros [->| ->]. Qed.

(** C96: saving files changes the result of the relocation to an exception, or not at all *)
Theorem C96_single_result dir manual st single : let t := trace true dir manual st single in
  t.2 = plain_result manual st single ∨ t.2 = Exc.
Proof.
  cbv zeta. unfold single_trace, relocate_single. cbn [twhen]. rewrite tbind_res.
  assert (∀ (u : res unit) (k : unit → res (catalog V * N * list (catalog V * sol V))) r, u ≠ Bad → k tt = r ∨ k tt = Exc →
    rbind u k = r ∨ rbind u k = Exc) as Step.
  { intros u k r N H. destruct u as [[]| |]; cbn [rbind]; auto; done. }
  apply Step. { rewrite tbind_res. unfold make_dir. by repeat case_match. }
  rewrite tbind_res. apply Step. { unfold add_log. by destruct (en_open en _). }
  destruct (sorted_events _) as [|e es]; [by left|].
  rewrite tbind_res. change (tlift (st_sel st ?a ?b)).2 with (st_sel st a b).
  destruct (st_sel st _ e) as [n| |]; cbn [rbind]; [|by left|by left].
  case_decide; [case_decide; by left|].
  rewrite tbind_res. destruct (to_catalog ins n bg false) as [c2 u2| |]; cbn [of_cres tlift snd rbind]; [|by left|by left].
  rewrite tbind_res. destruct (add_from ins c2 _ _ false) as [c3 new| |]; cbn [of_cres tlift snd rbind]; [|by left|by left].
  rewrite tbind_res. apply Step; [done|]. rewrite tbind_res. apply Step; [unfold tfile; cbn [snd]; by destruct (wpair _ _).2|].
  rewrite tbind_res. destruct (relocate ins move _ _ _ c3) as [[out log]| |]; cbn [tlift snd rbind]; [|by left|by left].
  rewrite tbind_res. apply Step; [|by left].
  unfold tbind, tfile, tell. cbn [fst snd]. destruct (dd_file c3 (dds log).1).2, (dd_file c3 (dds log).2).2; done.
Qed.

(** C96: no file is written twice in one call, all are in the directory *)
Theorem C96_single_names save dir manual st single : let t := trace save dir manual st single in
  NoDup (names t.1) ∧ ∀ f, f ∈ names t.1 → inside dir f.
Proof.
  cbv zeta. pose proof (trace_names save dir manual st single) as S. unfold sub in S.
  destruct (single_names_ok dir) as [N I]. split.
  - by eapply sublist_nodup.
  - intros f Hf. apply I. by eapply sublist_elem.
Qed.

(** C96: a call that returns leaves the event it was given and, if there were enough neighbours, the events it returns, and
    the double-differences before and after *)
Theorem C96_single_files dir manual st single l out new log :
  trace true dir manual st single = (l, Ok (out, new, log)) →
  plain_result manual st single = Ok (out, new, log) ∧
  holds l (join dir (tx "single-event.csv")) (wev single) ∧ holds l (join dir (tx "single-event-phase.csv")) (wph single) ∧
  holds l (join dir (tx "single-event-station.csv")) (wsta single) ∧
  (enough manual st single →
   holds l (join dir (tx "reloc-event.csv")) (wev out) ∧ holds l (join dir (tx "reloc-phase.csv")) (wph out) ∧
   ∃ c3, holds l (join dir (tx "input-event.csv")) (wev c3) ∧ holds l (join dir (tx "input-phase.csv")) (wph c3) ∧
     holds l (join dir (tx "input-station.csv")) (wsta c3) ∧
     holds l (join dir (tx "initial-double-difference.csv")) (dd_file c3 (dds log).1).1 ∧
     holds l (join dir (tx "final-double-difference.csv")) (dd_file c3 (dds log).2).1 ∧
     relocate ins move (st_world st) [(new, new)] (st_iter st) c3 = Ok (out, log)) ∧
  (¬ enough manual st single → out = empty_cat ∧ join dir (tx "reloc-event.csv") ∉ names l).
Proof.
  intros E. pose proof (proj1 (C96_single_names true dir manual st single)) as N. rewrite E in N. cbn [fst] in N.
  destruct (trace_Ok _ _ _ _ _ _ _ _ E) as [R [(En & l0 & c3 & p & Rl & H0 & El)|(En & -> & l0 & H0 & El)]].
  - split; [done|].
    assert (∀ f c, EFile f c ∈ l → holds l f c) as H by (intros; by apply holds_elem).
    split; [apply H; rewrite El; apply elem_of_app; right; here|]. split; [apply H; rewrite El; apply elem_of_app; right; here|]. split; [apply H; rewrite El; apply elem_of_app; right; here|].
    split; [|done]. intros _. split; [apply H; rewrite El; apply elem_of_app; right; here|]. split; [apply H; rewrite El; apply elem_of_app; right; here|].
    exists c3. do 5 (split; [apply H; rewrite El; apply elem_of_app; right; here|]). done.
  - split; [done|].
    assert (∀ f c, EFile f c ∈ l → holds l f c) as H by (intros; by apply holds_elem).
    split; [apply H; rewrite El; apply elem_of_app; right; here|]. split; [apply H; rewrite El; apply elem_of_app; right; here|]. split; [apply H; rewrite El; apply elem_of_app; right; here|].
    split; [done|]. intros _. split; [done|]. subst l. rewrite (names_dir _ _ dir) by done. unfold names. cbn [omap list_omap].
    rewrite !not_elem_of_cons. repeat split; try (intros F; apply join_inj, tx_inj in F; discriminate F). apply not_elem_of_nil.
Qed.

(** C96: a call that returns with enough neighbours closes its log file *)
Theorem C96_single_log_closed dir manual st single l r h h' :
  trace true dir manual st single = (l, Ok r) → enough manual st single → with_messages l h' →
  open_logs (h ++ h') = delete (str (join dir (tx "relocation.log"))) (open_logs h).
Proof.
  destruct r as [[out new] log]. intros E En W. rewrite (open_after _ _ _ W).
  destruct (trace_Ok _ _ _ _ _ _ _ _ E) as [_ [(_ & l0 & c3 & p & Rl & H0 & ->)|(N & _)]]; [|done].
  assert (after (open_logs h) l0 = open_logs h) as Hl by (by destruct H0 as [->| ->]).
  rewrite after_app, Hl. unfold after. cbn [fold_left after1].
  destruct (open_logs h !! str (join dir (tx "relocation.log"))) eqn:O; [done|]. apply delete_insert_delete.
Qed.
(** C96: a call that returns with too few neighbours does not: its file gets what is said later *)
Theorem C96_single_log_left dir manual st single l r h h' :
  trace true dir manual st single = (l, Ok r) → ¬ enough manual st single → with_messages l h' →
  open_logs h !! str (join dir (tx "relocation.log")) = None →
  open_logs (h ++ h') = <[str (join dir (tx "relocation.log")) := Logger_Model.Info]> (open_logs h) ∧
  ∀ l2 h2 lv m, with_messages l2 h2 → EClose (join dir (tx "relocation.log")) ∉ l2 → Logger_Model.lev Logger_Model.Info ≤ Logger_Model.lev lv →
    log_text (h ++ h' ++ h2 ++ [Logger_Model.LLog lv m]) (join dir (tx "relocation.log")) =
    log_text (h ++ h' ++ h2) (join dir (tx "relocation.log")) ++ [(lv, m)].
Proof.
  destruct r as [[out new] log]. intros E En W O.
  assert (open_logs (h ++ h') = <[str (join dir (tx "relocation.log")) := Logger_Model.Info]> (open_logs h)) as E1.
  { rewrite (open_after _ _ _ W). destruct (trace_Ok _ _ _ _ _ _ _ _ E) as [_ [(En' & _)|(_ & _ & l0 & H0 & ->)]]; [done|].
    assert (after (open_logs h) l0 = open_logs h) as Hl by (by destruct H0 as [->| ->]).
    rewrite after_app, Hl. unfold after. cbn [fold_left after1]. by rewrite O. }
  split; [done|]. intros l2 h2 lv m W2 NC Hl.
  replace (h ++ h' ++ h2 ++ [Logger_Model.LLog lv m]) with ((h ++ h' ++ h2) ++ [Logger_Model.LLog lv m]) by (by rewrite <-!app_assoc).
  apply open_gets; [|done]. rewrite app_assoc, (open_after _ _ _ W2), E1.
  apply keeps_open; [done|]. apply lookup_insert.
Qed.
End single.

(** Effects that satisfy a predicate *)
Definition only {A} (P : eff → Prop) (m : tr A) : Prop := ∀ e, e ∈ m.1 → P e.
Lemma only_bind {A B} P (m : tr A) (f : A → tr B) : only P m → (∀ a, only P (f a)) → only P (tbind m f).
Proof.
  intros H1 H2 e. unfold tbind. destruct m.2 as [a| |]; cbn [fst]; [|apply H1|apply H1].
  rewrite elem_of_app. intros [H|H]; [by apply H1|by apply (H2 a)].
Qed.
Lemma only_nil {A} P (m : tr A) : m.1 = [] → only P m.
Proof. intros H e He. rewrite H in He. by apply elem_of_nil in He. Qed.
Lemma only_when P b m : only P m → only P (twhen b m).
Proof. destruct b; [done|]. intros _. by apply only_nil. Qed.
Lemma only_tell (P : eff → Prop) l : (∀ e, e ∈ l → P e) → only P (tell l).
Proof. done. Qed.
Lemma only_file (P : eff → Prop) f c : (∀ c, P (EFile f c)) → only P (tfile f c).
Proof. intros H e He. apply elem_of_list_singleton in He as ->. apply H. Qed.
Lemma only_loop {S B} P (f : S → B → tr S) l s : (∀ s x, only P (f s x)) → only P (tloop f l s).
Proof. intros H. revert s. induction l as [|x l IH]; intros s; cbn [tloop]; [by apply only_nil|]. by apply only_bind. Qed.
(** Not the end of the log [g] *)
Definition not_close (g : text) (e : eff) : Prop := e ≠ EClose g.
Lemma only_cat_files {V} g (wsta wev wph : catalog V → text) c fs fe fp : only (not_close g) (tell (cat_files wsta wev wph c fs fe fp)).
Proof.
  apply only_tell. intros e He. unfold cat_files in He. destruct fs; cbn [app] in He;
    repeat (apply elem_of_cons in He as [->|He]; [discriminate|]); by apply elem_of_nil in He.
Qed.
Lemma tbind_stop {A B} P (m : tr A) (f : A → tr B) : only P m → (∀ l a, m = (l, Ok a) → (f a).2 = (tbind m f).2 → only P (f a)) → only P (tbind m f).
Proof.
  intros H1 H2 e. unfold tbind in *. destruct m as [l [a| |]]; cbn [fst snd] in *; [|apply H1|apply H1].
  rewrite elem_of_app. intros [H|H]; [by apply H1|]. by apply (H2 l a).
Qed.

Lemma digits_first a b x y : forallb Time_Model.is_dig a = true → forallb Time_Model.is_dig b = true → a ++ "-"%char :: x = b ++ "-"%char :: y → a = b ∧ x = y.
Proof.
  revert b. induction a as [|c a IH]; intros [|d b] Ha Hb E.
  - injection E as ->. done.
  - injection E as <- _. discriminate Hb.
  - injection E as -> _. discriminate Ha.
  - injection E as -> E. cbn [forallb] in Ha, Hb. apply andb_prop in Ha as [_ Ha]. apply andb_prop in Hb as [_ Hb].
    by destruct (IH b Ha Hb E) as [-> ->].
Qed.
Lemma prefix_inj i j x y : prefix i ++ "-"%char :: x = prefix j ++ "-"%char :: y → i = j ∧ x = y.
Proof.
  unfold prefix. rewrite <-!app_assoc. intros E. apply app_inv_head in E.
  destruct (put_u_spec i) as (a & Ea & Va & Da & _). destruct (put_u_spec j) as (b & Eb & Vb & Db & _).
  rewrite Ea, Eb in E. apply digits_first in E as [-> ->]; [|done|done]. split; [|done]. lia.
Qed.
Lemma put_u_noslash i : slash ∉ put_u i.
Proof.
  destruct (put_u_spec i) as (a & -> & _ & D & _). intros H. rewrite forallb_forall in D.
  specialize (D slash). rewrite <-elem_of_list_In in D. specialize (D H). discriminate D.
Qed.

Section multi.
Context {V P C L : Type}.
Notation hypo := (V * V * V * Z)%type.
Notation delta := (V * V * V * V)%type.
Notation cluster := (gmap N (nb P)).
Notation xcache := (gmap N (gmap string (gmap string (gmap N (entry C L))))).
Variable ins : list (phase V) → phase V → list (phase V).
Variable move : hypo → delta → hypo.
Variable order : cluster → list N.
Variable each : xcache → list (quint C L).
Variable build : cluster → xcache → res xcache.
Variable wd : cluster → xcache → world V.
Variables wsta wev wph : catalog V → text.
Variable wpair : catalog V → cluster → option (text * bool).
Variable wxcorr : catalog V → xcache → text * bool.
Variable dds : list (catalog V * sol V) → list ddiff * list ddiff.
Variable en : env.
Notation ctrace := (cluster_trace ins move order each build wd wsta wev wph wpair dds en).
Notation trace := (multi_trace ins move order each build wd wsta wev wph wpair wxcorr dds en).
Notation one := (one_cluster ins move order each build wd).
Notation plain_result := (relocate_clusters ins move order each build wd).

Definition cluster_file (dir : text) (i : N) (s : string) : text := join dir (prefix i ++ tx s).
Definition cluster_names : list string :=
  ["-pair.csv"; "-event.csv"; "-phase.csv"; "-station.csv"; "-initial-double-difference.csv"; "-final-double-difference.csv";
   "-reloc-event.csv"; "-reloc-phase.csv"]%string.
Fixpoint all_names (dir : text) (i : N) (n : nat) : list text :=
  match n with O => [] | S n' => (cluster_file dir i <$> cluster_names) ++ all_names dir (N.succ i) n' end.

Lemma ctrace_next save dir n bg i s cl l i' s' : ctrace save dir n bg (i, s) cl = (l, Ok (i', s')) → i' = N.succ i.
Proof.
  destruct s as [[acc xd] gs]. unfold cluster_trace. intros E.
  apply tbind_Ok in E as (? & ? & [] & _ & E & _). apply tbind_Ok in E as (? & ? & xc & _ & E & _).
  apply tbind_Ok in E as (? & ? & [out log] & _ & E & _). apply tbind_Ok in E as (? & ? & [acc' u] & _ & E & _).
  apply tbind_Ok in E as (? & ? & [] & _ & E & _). apply tret_Ok in E as [_ E]. by injection E.
Qed.
Lemma ctrace_names save dir n bg i s cl : sub (ctrace save dir n bg (i, s) cl) (cluster_file dir i <$> cluster_names).
Proof.
  destruct s as [[acc xd] gs]. unfold cluster_trace, cluster_names. cbn [fmap list_fmap].
  change (join dir (prefix i ++ tx ?s)) with (cluster_file dir i s).
  assert (cluster_file dir i "-station.csv" ≠ []) as N3 by (by apply join_ne).
  set (f1 := cluster_file dir i "-pair.csv"). set (f2 := cluster_file dir i "-event.csv").
  set (f3 := cluster_file dir i "-phase.csv"). set (f4 := cluster_file dir i "-station.csv") in *.
  set (f5 := cluster_file dir i "-initial-double-difference.csv"). set (f6 := cluster_file dir i "-final-double-difference.csv").
  set (f7 := cluster_file dir i "-reloc-event.csv"). set (f8 := cluster_file dir i "-reloc-phase.csv").
  set (lf := cluster_file dir i "-relocation.log"). clearbody f1 f2 f3 f4 f5 f6 f7 f8 lf.
  apply (sub_bind _ _ [f1; f2; f3; f4] [f5; f6; f7; f8]).
  { apply sub_when, sub_bind0; [unfold add_log; by destruct (en_open en lf)|]. intros _.
    apply (sub_bind _ _ [f1] [f2; f3; f4]); [destruct (wpair bg cl); [apply sub_file|by apply sub_none]|]. intros _.
    apply sub_bind0; [unfold dump_cat, tlift, tbind, tret; by destruct (of_cres _) as [[? ?]| |]|]. intros c.
    rewrite cat_files_ne by done. apply sub_tell. }
  intros _. apply sub_bind0; [done|]. intros xc. apply sub_bind0; [done|]. intros [out log].
  apply sub_bind0; [done|]. intros [acc' u].
  apply (sub_bind _ _ [f5; f6; f7; f8] []); [|intros _; by apply sub_none].
  apply sub_when. apply (sub_bind _ _ [f5] [f6; f7; f8]); [apply sub_file|]. intros _.
  apply (sub_bind _ _ [f6] [f7; f8]); [apply sub_file|]. intros _. apply sub_tell.
Qed.
Lemma sub_bindK {A B} (m : tr A) (f : A → tr B) L1 L2 : sub m L1 → (∀ l a, m = (l, Ok a) → sub (f a) L2) → sub (tbind m f) (L1 ++ L2).
Proof.
  intros H1 H2. unfold sub, tbind in *. destruct m as [l [a| |]]; cbn [fst snd] in *.
  - rewrite names_app. apply sublist_app; [done|by eapply H2].
  - by apply sublist_inserts_r.
  - by apply sublist_inserts_r.
Qed.
Lemma loop_names save dir n bg cls i s : sub (tloop (ctrace save dir n bg) cls (i, s)) (all_names dir i (length cls)).
Proof.
  revert i s. induction cls as [|cl cls IH]; intros i s; cbn [tloop length all_names]; [by apply sub_none|].
  apply sub_bindK; [apply ctrace_names|]. intros l [i' s'] E. apply ctrace_next in E as ->. apply IH.
Qed.
Lemma trace_all_names save dir n bg xd cls : sub (trace save dir n bg xd cls)
  (((λ s, join dir (tx s)) <$> ["input-event.csv"; "input-phase.csv"; "input-station.csv"]%string) ++
   all_names dir 1 (length cls) ++ ((λ s, join dir (tx s)) <$> ["reloc-event.csv"; "reloc-phase.csv"; "xcorr.csv"]%string)).
Proof.
  unfold multi_trace. apply sub_bind.
  { apply sub_when, sub_bind0; [unfold make_dir; by repeat case_match|]. intros _.
    apply sub_bind0; [unfold add_log; by destruct (en_open en _)|]. intros _.
    rewrite cat_files_ne by (by apply file_ne). apply sub_tell. }
  intros _. apply sub_bind; [apply loop_names|]. intros [i s].
  rewrite <-(app_nil_r (_ <$> _)). apply sub_bind; [|intros _; by apply sub_none].
  apply sub_when. cbn [fmap list_fmap]. set (f1 := join dir (tx "reloc-event.csv")). set (f2 := join dir (tx "reloc-phase.csv")).
  set (f3 := join dir (tx "xcorr.csv")). clearbody f1 f2 f3.
  apply (sub_bind _ _ [f1; f2] [f3]); [apply sub_tell|]. intros _.
  apply (sub_bind _ _ [f3] []); [apply sub_file|]. intros _. by apply sub_none.
Qed.
Lemma cluster_names_dash s : s ∈ cluster_names → ∃ x, tx s = "-"%char :: x ∧ slash ∉ tx s.
Proof.
  intros H. unfold cluster_names in H. repeat (apply elem_of_cons in H as [->|H]; [eexists; split; [reflexivity|]; apply (bool_decide_unpack _); vm_compute; exact I|]).
  by apply elem_of_nil in H.
Qed.
Lemma all_names_elem dir i n f : f ∈ all_names dir i n → ∃ j s, (i ≤ j)%N ∧ s ∈ cluster_names ∧ f = cluster_file dir j s.
Proof.
  revert i. induction n as [|n IH]; intros i; cbn [all_names]; [by rewrite elem_of_nil|].
  rewrite elem_of_app. intros [H|H].
  - apply elem_of_list_fmap in H as (s & -> & Hs). exists i, s. done.
  - apply IH in H as (j & s & Hj & Hs & ->). exists j, s. split; [lia|done].
Qed.
Lemma cluster_file_inj dir i j s s' : s ∈ cluster_names → s' ∈ cluster_names → cluster_file dir i s = cluster_file dir j s' → i = j ∧ s = s'.
Proof.
  intros H H' E. apply join_inj in E. destruct (cluster_names_dash s H) as (x & Ex & _). destruct (cluster_names_dash s' H') as (y & Ey & _).
  rewrite Ex, Ey in E. apply prefix_inj in E as [-> ->]. split; [done|]. apply tx_inj. congruence.
Qed.
Lemma all_names_nodup dir i n : NoDup (all_names dir i n).
Proof.
  revert i. induction n as [|n IH]; intros i; cbn [all_names]; [constructor|]. apply NoDup_app. split; [|split; [|apply IH]].
  - assert (NoDup cluster_names) as D by (apply (bool_decide_unpack _); vm_compute; exact I). revert D.
    assert (∀ s, s ∈ cluster_names → s ∈ cluster_names) as A by done. revert A. generalize cluster_names at 1 3 4. intros ns A D.
    induction D as [|s ns Hs D IHn]; [constructor|]. rewrite fmap_cons. constructor.
    + intros H. apply elem_of_list_fmap in H as (s' & E & Hs'). apply cluster_file_inj in E as [_ ->]; [done|apply A; by left|apply A; by right].
    + apply IHn. intros s' Hs'. apply A. by right.
  - intros f H1 H2. apply elem_of_list_fmap in H1 as (s & -> & Hs). apply all_names_elem in H2 as (j & s' & Hj & Hs' & E).
    apply cluster_file_inj in E as [E _]; [lia|done|done].
Qed.
(** A name that does not start like the name of a cluster *)
Lemma not_cluster dir j s s' : String.get 0 s ≠ Some "c"%char → cluster_file dir j s' ≠ join dir (tx s).
Proof.
  intros H E. apply join_inj in E. unfold prefix in E. destruct s as [|c s]; [discriminate E|].
  unfold tx in E. cbn [String.list_ascii_of_string app] in E. injection E as <- _. by apply H.
Qed.

(** C96: no file is written twice, whatever the number of clusters; all are in the directory *)
Theorem C96_multi_names save dir n bg xd cls : let t := trace save dir n bg xd cls in
  NoDup (names t.1) ∧ ∀ f, f ∈ names t.1 → inside dir f.
Proof.
  cbv zeta. pose proof (trace_all_names save dir n bg xd cls) as S. unfold sub in S.
  destruct (in_dir dir ["input-event.csv"; "input-phase.csv"; "input-station.csv"]%string) as [N1 I1].
  { apply (bool_decide_unpack _); vm_compute; exact I. }
  { repeat (apply Forall_cons; split); try constructor; apply (bool_decide_unpack _); vm_compute; exact I. }
  destruct (in_dir dir ["reloc-event.csv"; "reloc-phase.csv"; "xcorr.csv"]%string) as [N2 I2].
  { apply (bool_decide_unpack _); vm_compute; exact I. }
  { repeat (apply Forall_cons; split); try constructor; apply (bool_decide_unpack _); vm_compute; exact I. }
  assert (∀ f, f ∈ all_names dir 1 (length cls) → inside dir f) as I3.
  { intros f Hf. apply all_names_elem in Hf as (j & s & _ & Hs & ->). exists (prefix j ++ tx s). split; [done|].
    rewrite elem_of_app. unfold prefix. rewrite elem_of_app. intros [[H|H]|H].
    - revert H. apply (bool_decide_unpack _); vm_compute; exact I.
    - by apply (put_u_noslash j).
    - by destruct (cluster_names_dash s Hs) as (_ & _ & H'). }
  assert (∀ ss f, Forall (λ s, String.get 0 s ≠ Some "c"%char) ss → f ∈ (λ s, join dir (tx s)) <$> ss → f ∉ all_names dir 1 (length cls)) as D.
  { intros ss f F H1 H2. apply elem_of_list_fmap in H1 as (s & -> & Hs). apply all_names_elem in H2 as (j & s' & _ & _ & E).
    rewrite Forall_forall in F. symmetry in E. revert E. by apply not_cluster, F. }
  split.
  - eapply sublist_nodup; [exact S|]. apply NoDup_app. split; [done|]. split.
    + intros f Hf. rewrite not_elem_of_app. split.
      * revert Hf. apply D. repeat (apply Forall_cons; split); try constructor; discriminate.
      * intros Hf2. apply elem_of_list_fmap in Hf as (s & -> & Hs). apply elem_of_list_fmap in Hf2 as (s' & E & Hs').
        apply join_inj, tx_inj in E. subst s'.
        repeat (apply elem_of_cons in Hs as [->|Hs]; [repeat (apply elem_of_cons in Hs' as [Hs'|Hs']; [discriminate Hs'|]); by apply elem_of_nil in Hs'|]).
        by apply elem_of_nil in Hs.
    + apply NoDup_app. split; [apply all_names_nodup|]. split; [|done].
      intros f Hf Hf2. revert Hf. revert Hf2. apply D. repeat (apply Forall_cons; split); try constructor; discriminate.
  - intros f Hf. apply (sublist_elem _ _ _ S) in Hf. rewrite !elem_of_app in Hf. destruct Hf as [H|[H|H]]; auto.
Qed.

(** ** The result *)
(** The events of a cluster are in the catalog, and its iteration visits each once *)
Definition known (bg : catalog V) (cl : cluster) : Prop := order cl ≡ₚ (map_to_list cl).*1 ∧ ∀ k, is_Some (cl !! k) → is_Some (c_ev bg !! k).
(** The part of a catalog that is a cluster *)
Definition part (bg : catalog V) (cl : cluster) (c : catalog V) : Prop :=
  integrity c ∧ ∀ k, (is_Some (cl !! k) → c_ev c !! k = c_ev bg !! k ∧ phs c k ≡ₚ phs bg k) ∧ (cl !! k = None → c_ev c !! k = None).
Hypothesis Hins : any_place ins.
Lemma dump_ok bg cl : integrity bg → known bg cl → ∃ c, dump_cat ins order bg cl = ([], Ok c) ∧ part bg cl c.
Proof using Hins.
  intros I [O K]. destruct (Commands_Proofs.add_all_ok ins Hins bg I (order cl) empty_cat integrity_empty) as (c & E & Ic & H).
  { rewrite O. apply NoDup_fst_map_to_list. }
  { intros k Hk. split; [|done]. apply K. rewrite O in Hk. apply elem_of_list_fmap in Hk as ([k' x] & -> & Hk). apply elem_of_map_to_list in Hk. cbn. by rewrite Hk. }
  exists c. unfold dump_cat. rewrite E. split; [done|]. split; [done|]. intros k. specialize (H k).
  assert (k ∈ order cl ↔ is_Some (cl !! k)) as Q.
  { rewrite O. rewrite elem_of_list_fmap. split.
    - intros ([k' x] & -> & Hk). apply elem_of_map_to_list in Hk. cbn. by rewrite Hk.
    - intros [x Hx]. exists (k, x). split; [done|]. by apply elem_of_map_to_list. }
  split.
  - intros Hk. rewrite decide_True in H by (by apply Q). done.
  - intros Hk. rewrite decide_False in H; [destruct H as [-> _]; done|]. rewrite Q, Hk. by intros [? ?].
Qed.

Lemma ctrace_res save dir n bg i s cl : (save = true → integrity bg ∧ known bg cl) →
  (ctrace save dir n bg (i, s) cl).2 = rbind (one n bg s cl) (λ s', Ok (N.succ i, s')) ∨
  save = true ∧ (ctrace save dir n bg (i, s) cl).2 = Exc.
Proof using Hins.
  intros HK. destruct s as [[acc xd] gs]. unfold cluster_trace, one_cluster.
  assert (∀ (m : tr unit) (k : unit → tr (N * (catalog V * xcache * list (given V P C L)))) r, (save = true → m.2 ≠ Bad) →
    (k tt).2 = r ∨ save = true ∧ (k tt).2 = Exc →
    (tbind (twhen save m) k).2 = r ∨ save = true ∧ (tbind (twhen save m) k).2 = Exc) as Step.
  { intros m k r N H. rewrite tbind_res. destruct save; cbn [twhen tret snd rbind]; [|done].
    specialize (N eq_refl). destruct m.2 as [[]| |]; cbn [rbind]; auto; done. }
  apply Step.
  { intros ->. destruct HK as [I K]; [done|]. destruct (dump_ok bg cl I K) as (c & -> & _).
    unfold tbind, add_log, tell, tlift, tfile, tret. destruct (en_open en _); cbn [fst snd]; [|done].
    destruct (wpair bg cl) as [[? []]|]; done. }
  rewrite tbind_res. cbn [tlift snd]. destruct (build cl xd) as [xc| |]; cbn [rbind]; [|by left|by left].
  rewrite tbind_res. cbn [tlift snd]. destruct (relocate ins move _ _ n bg) as [[out log]| |]; cbn [rbind]; [|by left|by left].
  rewrite tbind_res. cbn [tlift snd]. destruct (add_cat ins acc out true) as [acc' u| |]; cbn [of_cres rbind]; [|by left|by left].
  apply Step; [|by left].
  intros _. unfold tbind, tfile, tell. cbn [fst snd]. destruct (dd_file bg (dds log).1).2, (dd_file bg (dds log).2).2; done.
Qed.
Lemma loop_res save dir n bg cls i s : (save = true → integrity bg ∧ Forall (known bg) cls) →
  (∃ i', (tloop (ctrace save dir n bg) cls (i, s)).2 = rbind (rloop (one n bg) cls s) (λ s', Ok (i', s'))) ∨
  save = true ∧ (tloop (ctrace save dir n bg) cls (i, s)).2 = Exc.
Proof using Hins.
  revert i s. induction cls as [|cl cls IH]; intros i s HK; cbn [tloop rloop]; [left; by exists i|].
  rewrite tbind_res. destruct (ctrace_res save dir n bg i s cl) as [E|[-> E]].
  { intros ->. destruct HK as [I K]; [done|]. by apply Forall_cons in K as [K _]. }
  - rewrite E. destruct (one n bg s cl) as [s'| |]; cbn [rbind]; [|left; by exists i|left; by exists i].
    apply IH. intros ->. destruct HK as [I K]; [done|]. by apply Forall_cons in K as [_ K].
  - right. split; [done|]. by rewrite E.
Qed.

(** C96: without the option nothing is written and the result is that of the relocation; with it the result is the same or
    an exception *)
Theorem C96_multi_result save dir n bg xd cls : let t := trace save dir n bg xd cls in
  (save = false → t.1 = [] ∧ t.2 = plain_result n bg xd cls) ∧
  (integrity bg → Forall (known bg) cls → t.2 = plain_result n bg xd cls ∨ t.2 = Exc).
Proof using Hins.
  cbv zeta. split.
  - intros ->. split.
    + assert (∀ A (m : tr A), only (λ _, False) m → m.1 = []) as Z.
      { intros A [[|e l] r] H; [done|]. destruct (H e). by left. }
      apply Z. unfold multi_trace. cbn [twhen]. apply only_bind; [by apply only_nil|]. intros _.
      apply only_bind; [|intros [? ?]; apply only_bind; [by apply only_nil|]; intros _; by apply only_nil].
      apply only_loop. intros [i [[acc x] gs]] cl. unfold cluster_trace. cbn [twhen].
      apply only_bind; [by apply only_nil|]. intros _. apply only_bind; [by apply only_nil|]. intros xc.
      apply only_bind; [by apply only_nil|]. intros [out log]. apply only_bind; [by apply only_nil|]. intros [acc' u].
      apply only_bind; [by apply only_nil|]. intros _. by apply only_nil.
    + unfold multi_trace, relocate_clusters. cbn [twhen]. rewrite !tbind_res. cbn [tret snd rbind].
      destruct (loop_res false dir n bg cls 1%N (empty_cat, xd, [])) as [[i' ->]|[? _]]; [done| |done].
      destruct (rloop _ cls _) as [[[? ?] ?]| |]; done.
  - intros I K. unfold multi_trace, relocate_clusters. rewrite tbind_res.
    set (A := (twhen save _).2). assert (A ≠ Bad) as HA.
    { unfold A, twhen, tbind, make_dir, add_log, tell, tlift, tret. destruct save; [|done].
      destruct (en_there en dir); [|destruct (en_mk en dir)]; cbn [fst snd]; try destruct (en_open en _); done. }
    destruct A as [[]| |]; cbn [rbind]; [|by right|done]. clear HA. rewrite tbind_res.
    destruct (loop_res save dir n bg cls 1%N (empty_cat, xd, [])) as [[i' ->]|[_ ->]]; [done| |by right].
    destruct (rloop _ cls _) as [s| |]; cbn [rbind]; [|by left|by left]. rewrite tbind_res.
    destruct save; cbn [twhen]; [|by left]. unfold tbind, tfile, tell. cbn [fst snd]. destruct (wxcorr bg s.1.2).2; cbn; auto.
Qed.

(** ** What the files say *)
(** The files of the cluster with number [i] *)
Definition cluster_has (dir : text) (bg : catalog V) (l : list eff) (i : N) (g : given V P C L) : Prop :=
  (∃ c u, add_all ins empty_cat bg (order (g_cl g)) = CRet c u ∧ EFile (cluster_file dir i "-event.csv") (wev c) ∈ l ∧
     EFile (cluster_file dir i "-phase.csv") (wph c) ∈ l ∧ EFile (cluster_file dir i "-station.csv") (wsta c) ∈ l) ∧
  (∀ w, wpair bg (g_cl g) = Some w → EFile (cluster_file dir i "-pair.csv") w.1 ∈ l) ∧
  EFile (cluster_file dir i "-initial-double-difference.csv") (dd_file bg (dds (g_log g)).1).1 ∈ l ∧
  EFile (cluster_file dir i "-final-double-difference.csv") (dd_file bg (dds (g_log g)).2).1 ∈ l ∧
  EFile (cluster_file dir i "-reloc-event.csv") (wev (g_out g)) ∈ l ∧ EFile (cluster_file dir i "-reloc-phase.csv") (wph (g_out g)) ∈ l.
Lemma ctrace_Ok dir n bg i s cl l i' s' : ctrace true dir n bg (i, s) cl = (l, Ok (i', s')) →
  ∃ g, s'.2 = s.2 ++ [g] ∧ g_cl g = cl ∧ cluster_has dir bg l i g ∧
    ∃ l0, l = EOpen (cluster_file dir i "-relocation.log") :: l0 ++ [EClose (cluster_file dir i "-relocation.log")] ∧
      ∀ e, e ∈ l0 → ∃ f c, e = EFile f c.
Proof.
  destruct s as [[acc xd] gs]. unfold cluster_trace. cbn [twhen]. intros E.
  change (join dir (prefix i ++ tx ?s)) with (cluster_file dir i s) in E.
  apply tbind_Ok in E as (l1 & l2 & [] & E1 & E & ->).
  apply tbind_Ok in E1 as (l3 & l4 & [] & E3 & E1 & ->).
  assert (l3 = [EOpen (cluster_file dir i "-relocation.log")]) as ->.
  { unfold add_log in E3. destruct (en_open en _); [by apply tell_Ok in E3|discriminate E3]. }
  apply tbind_Ok in E1 as (l5 & l6 & [] & E5 & E1 & ->).
  assert ((∀ w, wpair bg cl = Some w → EFile (cluster_file dir i "-pair.csv") w.1 ∈ l5) ∧ ∀ e, e ∈ l5 → ∃ f c, e = EFile f c) as [W5 F5].
  { destruct (wpair bg cl) as [w|].
    - apply tfile_Ok in E5 as [-> _]. split; [intros w' [= <-]; by left|]. intros e He. apply elem_of_list_singleton in He as ->. eauto.
    - apply tret_Ok in E5 as [-> _]. split; [done|]. intros e He. by apply elem_of_nil in He. }
  apply tbind_Ok in E1 as (l7 & l8 & c & E7 & E1 & ->).
  unfold dump_cat in E7. apply tbind_Ok in E7 as (l9 & l10 & [c' u] & E9 & E7 & ->). apply tlift_Ok in E9 as [-> E9].
  apply tret_Ok in E7 as [-> ->].
  destruct (add_all ins empty_cat bg (order cl)) as [c u'| |] eqn:Ea; cbn [of_cres] in E9; try discriminate E9. injection E9 as -> ->.
  rewrite cat_files_ne in E1 by (by apply join_ne). apply tell_Ok in E1 as ->.
  apply tbind_Ok in E as (l1 & l3 & xc & E1 & E & ->). apply tlift_Ok in E1 as [-> _].
  apply tbind_Ok in E as (l1 & l4 & [out log] & E1 & E & ->). apply tlift_Ok in E1 as [-> _].
  apply tbind_Ok in E as (l1 & l6 & [acc' u'] & E1 & E & ->). apply tlift_Ok in E1 as [-> _].
  apply tbind_Ok in E as (l1 & l7 & [] & E1 & E & ->). apply tret_Ok in E as [-> E].
  apply tbind_Ok in E1 as (l8 & l9 & [] & E8 & E1 & ->). apply tfile_Ok in E8 as [-> _].
  apply tbind_Ok in E1 as (l8 & l10 & [] & E8 & E1 & ->). apply tfile_Ok in E8 as [-> _]. apply tell_Ok in E1 as ->.
  apply pair_equal_spec in E as [-> ->].
  exists (Given cl xc out log). split; [done|]. split; [done|].
  set (fe := cluster_file dir i "-event.csv"). set (fp := cluster_file dir i "-phase.csv"). set (fs := cluster_file dir i "-station.csv").
  set (f1 := cluster_file dir i "-initial-double-difference.csv"). set (f2 := cluster_file dir i "-final-double-difference.csv").
  set (f3 := cluster_file dir i "-reloc-event.csv"). set (f4 := cluster_file dir i "-reloc-phase.csv"). set (lf := cluster_file dir i "-relocation.log").
  set (fw := cluster_file dir i "-pair.csv") in *.
  set (l0 := l5 ++ [EFile fe (wev c'); EFile fp (wph c'); EFile fs (wsta c'); EFile f1 (dd_file bg (dds log).1).1; EFile f2 (dd_file bg (dds log).2).1;
                    EFile f3 (wev out); EFile f4 (wph out)]).
  match goal with |- cluster_has _ _ ?l _ _ ∧ _ => assert (l = EOpen lf :: l0 ++ [EClose lf]) as -> end.
  { unfold l0. rewrite <-!app_assoc. cbn [app]. rewrite ?app_nil_r, <-?app_assoc. done. }
  assert (∀ e, e ∈ l0 → e ∈ EOpen lf :: l0 ++ [EClose lf]) as U.
  { intros e He. right. apply elem_of_app. by left. }
  split.
  - split; [exists c', u; split; [done|]|].
    { fold fe fp fs. repeat split; apply U, elem_of_app; right; here. }
    split; [intros w Hw; apply U, elem_of_app; left; by apply W5|].
    fold f1 f2 f3 f4. repeat split; apply U, elem_of_app; right; here.
  - exists l0. split; [done|]. intros e He. apply elem_of_app in He as [He|He]; [auto|].
    repeat (apply elem_of_cons in He as [->|He]; [eauto|]). by apply elem_of_nil in He.
Qed.

Lemma has_mono dir bg l l' i g : (∀ e, e ∈ l → e ∈ l') → cluster_has dir bg l i g → cluster_has dir bg l' i g.
Proof.
  intros U ((c & u & H1 & H2 & H3 & H4) & H5 & H6 & H7 & H8 & H9). split; [exists c, u; auto|]. auto 10.
Qed.
Lemma loop_Ok dir n bg cls i s l i' s' : tloop (ctrace true dir n bg) cls (i, s) = (l, Ok (i', s')) →
  ∃ gs, s'.2 = s.2 ++ gs ∧ g_cl <$> gs = cls ∧ (∀ k g, gs !! k = Some g → cluster_has dir bg l (i + N.of_nat k) g) ∧
    ∀ m : logs, (∀ j, m !! str (cluster_file dir j "-relocation.log") = None) → after m l = m.
Proof.
  revert i s l. induction cls as [|cl cls IH]; intros i s l E; cbn [tloop] in E.
  { apply tret_Ok in E as [-> E]. apply pair_equal_spec in E as [-> ->]. exists []. split; [by rewrite app_nil_r|]. split; [done|]. split; [|done].
    intros k g H. discriminate H. }
  apply tbind_Ok in E as (l1 & l2 & [i1 s1] & E1 & E & ->). pose proof (ctrace_next _ _ _ _ _ _ _ _ _ _ E1) as ->.
  destruct (ctrace_Ok _ _ _ _ _ _ _ _ _ E1) as (g & G1 & G2 & G3 & l0 & El & F0).
  destruct (IH _ _ _ E) as (gs & S1 & S2 & S3 & S4). exists (g :: gs).
  split; [rewrite S1, G1, <-app_assoc; done|]. split; [rewrite fmap_cons; by rewrite G2, S2|]. split.
  - intros [|k] g' H; cbn in H.
    + injection H as <-. replace (i + N.of_nat 0)%N with i by lia. eapply has_mono; [|exact G3]. intros e He. apply elem_of_app. by left.
    + apply S3 in H. replace (i + N.of_nat (S k))%N with (N.succ i + N.of_nat k)%N by lia.
      eapply has_mono; [|exact H]. intros e He. apply elem_of_app. by right.
  - intros m Hm. rewrite after_app.
    assert (after m l1 = m) as Ha; [|rewrite Ha; by apply S4].
    subst l1. specialize (Hm i). set (lf := cluster_file dir i "-relocation.log") in *. clearbody lf.
    change (EOpen lf :: l0 ++ [EClose lf]) with ([EOpen lf] ++ (l0 ++ [EClose lf])). rewrite !after_app.
    assert (∀ m, after m l0 = m) as Z.
    { clear -F0. induction l0 as [|e l0 IH]; intros m; [done|]. destruct (F0 e) as (f & c & ->); [by left|]. cbn.
      apply IH. intros e He. apply F0. by right. }
    rewrite Z. unfold after. cbn [fold_left after1]. rewrite Hm. by apply delete_insert.
Qed.

(** C96: a call that returns leaves the input, the relocated events, the cross-correlations and, for each cluster under its
    number, its events, its double-differences before and after and its relocated events *)
Theorem C96_multi_files dir n bg xd cls l out xf gs : integrity bg → Forall (known bg) cls →
  trace true dir n bg xd cls = (l, Ok (out, xf, gs)) →
  plain_result n bg xd cls = Ok (out, xf, gs) ∧ g_cl <$> gs = cls ∧
  holds l (join dir (tx "input-event.csv")) (wev bg) ∧ holds l (join dir (tx "input-phase.csv")) (wph bg) ∧
  holds l (join dir (tx "input-station.csv")) (wsta bg) ∧
  holds l (join dir (tx "reloc-event.csv")) (wev out) ∧ holds l (join dir (tx "reloc-phase.csv")) (wph out) ∧
  holds l (join dir (tx "xcorr.csv")) (wxcorr bg xf).1 ∧
  ∀ k g, gs !! k = Some g → let file s := join dir (tx "cluster-" ++ put_u (N.of_nat (S k)) ++ tx s) in
    (∃ c, part bg (g_cl g) c ∧ holds l (file "-event.csv"%string) (wev c) ∧ holds l (file "-phase.csv"%string) (wph c) ∧
       holds l (file "-station.csv"%string) (wsta c)) ∧
    (∀ w, wpair bg (g_cl g) = Some w → holds l (file "-pair.csv"%string) w.1) ∧
    holds l (file "-initial-double-difference.csv"%string) (dd_file bg (dds (g_log g)).1).1 ∧
    holds l (file "-final-double-difference.csv"%string) (dd_file bg (dds (g_log g)).2).1 ∧
    holds l (file "-reloc-event.csv"%string) (wev (g_out g)) ∧ holds l (file "-reloc-phase.csv"%string) (wph (g_out g)).
Proof using Hins.
  intros I K E. pose proof (proj1 (C96_multi_names true dir n bg xd cls)) as N. rewrite E in N. cbn [fst] in N.
  pose proof (proj2 (C96_multi_result true dir n bg xd cls) I K) as R. rewrite E in R. cbn [snd] in R.
  destruct R as [R|R]; [|discriminate R]. split; [done|].
  assert (∀ f c, EFile f c ∈ l → holds l f c) as H by (intros; by apply holds_elem).
  unfold multi_trace in E. cbn [twhen] in E.
  apply tbind_Ok in E as (l1 & l2 & [] & E1 & E & El).
  apply tbind_Ok in E1 as (l3 & l4 & [] & E3 & E1 & El1). apply tbind_Ok in E1 as (l5 & l6 & [] & E5 & E1 & El4).
  rewrite cat_files_ne in E1 by (by apply file_ne). apply tell_Ok in E1 as ->.
  apply tbind_Ok in E as (l7 & l8 & [i' s'] & E7 & E & El2).
  apply tbind_Ok in E as (l9 & l10 & [] & E9 & E & El8). apply tret_Ok in E as [-> E].
  apply tbind_Ok in E9 as (l11 & l12 & [] & E11 & E9 & El9). rewrite cat_files_nil in E11. apply tell_Ok in E11 as ->.
  apply tbind_Ok in E9 as (l11 & l13 & [] & E11 & E9 & El12). apply tfile_Ok in E11 as [-> _]. subst s'. cbn [fst snd] in *.
  destruct (loop_Ok _ _ _ _ _ _ _ _ _ E7) as (gs' & S1 & S2 & S3 & _). cbn [snd app] in S1. subst gs'.
  split; [done|].
  assert (∀ e, e ∈ l7 → e ∈ l) as U7. { intros e He. rewrite El, El2. apply elem_of_app; right. apply elem_of_app; by left. }
  assert (∀ e, e ∈ l1 → e ∈ l) as U1. { intros e He. rewrite El. apply elem_of_app; by left. }
  assert (∀ e, e ∈ l9 → e ∈ l) as U9. { intros e He. rewrite El, El2, El8. apply elem_of_app; right. apply elem_of_app; right. apply elem_of_app; by left. }
  rewrite El1, El4 in U1. rewrite El9, El12 in U9.
  split; [apply H, U1; apply elem_of_app; right; apply elem_of_app; right; here|].
  split; [apply H, U1; apply elem_of_app; right; apply elem_of_app; right; here|].
  split; [apply H, U1; apply elem_of_app; right; apply elem_of_app; right; here|].
  split; [apply H, U9; apply elem_of_app; left; here|].
  split; [apply H, U9; apply elem_of_app; left; here|].
  split; [apply H, U9; apply elem_of_app; right; apply elem_of_app; left; here|].
  intros k g Hg. cbv zeta.
  assert (∀ s, join dir (tx "cluster-" ++ put_u (N.of_nat (S k)) ++ tx s) = cluster_file dir (1 + N.of_nat k) s) as Ef.
  { intros s. unfold cluster_file, prefix. rewrite <-app_assoc. do 4 f_equal. lia. }
  rewrite !Ef. destruct (S3 k g Hg) as ((c & u & H1 & H2 & H3 & H4) & H5 & H6 & H7 & H8 & H9).
  assert (known bg (g_cl g)) as Kg.
  { rewrite Forall_forall in K. apply K. rewrite <-S2. apply elem_of_list_fmap. exists g. split; [done|]. by eapply elem_of_list_lookup_2. }
  split.
  { destruct (dump_ok bg (g_cl g) I Kg) as (c' & Ec & Pc). unfold dump_cat in Ec. rewrite H1 in Ec.
    apply pair_equal_spec in Ec as [_ Ec]. cbn in Ec. injection Ec as <-. exists c. auto 10. }
  split; [auto|]. auto 10.
Qed.

(** C96: a call that returns closes its log files: those that were open before are open after *)
Theorem C96_multi_log_closed dir n bg xd cls l r h h' :
  trace true dir n bg xd cls = (l, Ok r) → with_messages l h' →
  (∀ base, open_logs h !! str (join dir base) = None) → open_logs (h ++ h') = open_logs h.
Proof.
  intros E W O. rewrite (open_after _ _ _ W). clear W.
  unfold multi_trace in E. cbn [twhen] in E.
  apply tbind_Ok in E as (l1 & l2 & [] & E1 & E & El).
  apply tbind_Ok in E1 as (l3 & l4 & [] & E3 & E1 & El1). apply tbind_Ok in E1 as (l5 & l6 & [] & E5 & E1 & El4).
  rewrite cat_files_ne in E1 by (by apply file_ne). apply tell_Ok in E1 as ->.
  apply tbind_Ok in E as (l7 & l8 & [i' s'] & E7 & E & El2).
  apply tbind_Ok in E as (l9 & l10 & [] & E9 & E & El8). apply tret_Ok in E as [-> E].
  apply tbind_Ok in E9 as (l11 & l12 & [] & E11 & E9 & El9). rewrite cat_files_nil in E11. apply tell_Ok in E11 as ->.
  apply tbind_Ok in E9 as (l11 & l13 & [] & E11 & E9 & El12). apply tfile_Ok in E11 as [-> _]. apply tell_Ok in E9 as ->.
  destruct (loop_Ok _ _ _ _ _ _ _ _ _ E7) as (gs' & _ & _ & _ & S4).
  assert (l5 = [EOpen (join dir (tx "relocation.log"))]) as ->.
  { unfold add_log in E5. destruct (en_open en _); [by apply tell_Ok in E5|discriminate E5]. }
  assert (l3 = [] ∨ l3 = [EDir dir]) as H0.
  { unfold make_dir in E3. repeat case_match; apply pair_equal_spec in E3 as [<- ?]; auto. }
  set (m := open_logs h) in *. clearbody m.
  assert (∀ l', after m (l3 ++ l') = after m l') as Hl by (by destruct H0 as [->| ->]).
  rewrite El, El1, El4, El2, El8, El9, El12. rewrite <-!app_assoc, Hl, !after_app.
  set (lf := join dir (tx "relocation.log")).
  assert (after m [EOpen lf] = <[str lf := Logger_Model.Info]> m) as ->. { unfold after. cbn [fold_left after1]. unfold lf. by rewrite O. }
  set (m1 := <[str lf := Logger_Model.Info]> m).
  change (after m1 [EFile _ _; EFile _ _; EFile _ _]) with m1.
  rewrite S4. 2: { intros j. unfold m1. rewrite lookup_insert_ne; [apply O|]. intros X. apply inj_str in X. symmetry in X.
    revert X. by apply not_cluster. }
  unfold after. cbn [fold_left after1]. unfold m1. apply delete_insert, O.
Qed.
(** C96: a call that throws after its log file was opened leaves it open *)
Theorem C96_multi_log_left dir n bg xd cls h h' :
  let t := trace true dir n bg xd cls in let lf := join dir (tx "relocation.log") in
  (∀ r, t.2 ≠ Ok r) → EOpen lf ∈ t.1 → with_messages t.1 h' → open_logs h !! str lf = None →
  open_logs (h ++ h') !! str lf = Some Logger_Model.Info ∧
  ∀ lv m, Logger_Model.lev Logger_Model.Info ≤ Logger_Model.lev lv →
    log_text (h ++ h' ++ [Logger_Model.LLog lv m]) lf = log_text (h ++ h') lf ++ [(lv, m)].
Proof.
  cbv zeta. set (lf := join dir (tx "relocation.log")). intros NR Op W O.
  assert (only (not_close lf) (trace true dir n bg xd cls)) as NC.
  { revert NR. unfold multi_trace. cbn [twhen]. fold lf. intros NR. apply tbind_stop.
    { apply only_bind; [unfold make_dir; destruct (en_there en dir); [by apply only_nil|]; destruct (en_mk en dir); [|by apply only_nil];
        apply only_tell; intros e He; by apply elem_of_list_singleton in He as ->|]. intros _.
      apply only_bind; [unfold add_log; destruct (en_open en lf); [|by apply only_nil]; apply only_tell; intros e He; by apply elem_of_list_singleton in He as ->|].
      intros _. apply only_cat_files. }
    intros l [] E1 E2. rewrite <-E2 in NR. clear E1 E2. apply tbind_stop.
    { apply only_loop. intros [i [[acc x] gs]] cl. unfold cluster_trace. cbn [twhen].
      change (join dir (prefix i ++ tx ?s)) with (cluster_file dir i s).
      apply only_bind.
      { apply only_bind; [unfold add_log; destruct (en_open en _); [|by apply only_nil]; apply only_tell; intros e He; by apply elem_of_list_singleton in He as ->|].
        intros _. apply only_bind; [destruct (wpair bg cl); [by apply only_file|by apply only_nil]|]. intros _.
        apply only_bind; [apply only_nil; unfold dump_cat, tlift, tbind, tret; by destruct (of_cres _) as [[? ?]| |]|]. intros c.
        apply only_cat_files. }
      intros _. apply only_bind; [by apply only_nil|]. intros xc. apply only_bind; [by apply only_nil|]. intros [out log].
      apply only_bind; [by apply only_nil|]. intros [acc' u]. apply only_bind; [|intros _; by apply only_nil].
      apply only_bind; [by apply only_file|]. intros _. apply only_bind; [by apply only_file|]. intros _.
      intros e He. apply elem_of_app in He as [He|He]; [exact (only_cat_files lf wsta wev wph _ _ _ _ e He)|].
      apply elem_of_list_singleton in He as ->. intros X. injection X as X. revert X. by apply not_cluster. }
    intros l' [i s] E1 E2. rewrite <-E2 in NR. clear E1 E2. apply tbind_stop.
    { apply tbind_stop; [apply only_cat_files|]. intros l2 [] E1 E2. apply tbind_stop; [by apply only_file|].
      intros l3 [] E3 E4. exfalso. apply tfile_Ok in E3 as [_ E3]. revert NR. unfold tbind, tell, tfile, tret. cbn [fst snd]. rewrite E3. cbn [snd].
      intros NR. by eapply NR. }
    intros l2 [] E1 E2. by apply only_nil. }
  assert (open_logs (h ++ h') !! str lf = Some Logger_Model.Info) as G.
  { rewrite (open_after _ _ _ W). set (l := (trace true dir n bg xd cls).1) in *.
    assert (∀ e, e ∈ l → e ≠ EClose lf) as NC' by exact NC. clear W NC NR. clearbody l.
    apply elem_of_list_split in Op as (a & b & ->). rewrite after_app. change (EOpen lf :: b) with ([EOpen lf] ++ b). rewrite after_app.
    apply keeps_open. { intros X. apply (NC' (EClose lf)); [|done]. apply elem_of_app. right. by right. }
    unfold after at 1. cbn [fold_left after1].
    destruct (after (open_logs h) a !! str lf) as [lv|] eqn:F; [|apply lookup_insert]. rewrite F.
    revert F. generalize O. generalize (open_logs h).
    assert (EClose lf ∉ a) as Na. { intros X. apply (NC' (EClose lf)); [|done]. apply elem_of_app. by left. }
    clear -Na. induction a as [|e a IH]; intros m O F; [cbn in F; congruence|].
    apply not_elem_of_cons in Na as [N1 N2]. change (after (after1 m e) a !! str lf = Some lv) in F. destruct e as [d|g c|g|g]; cbn [after1] in F.
    - by eapply IH.
    - by eapply IH.
    - destruct (m !! str g) eqn:Eg; [by eapply IH|]. destruct (decide (g = lf)) as [->|D].
      + rewrite keeps_open in F; [congruence|done|apply lookup_insert].
      + eapply IH; [done| |exact F]. rewrite lookup_insert_ne; [done|]. intros X. by apply inj_str in X.
    - eapply IH; [done| |exact F]. rewrite lookup_delete_None. by right. }
  split; [done|]. intros lv m Hl. rewrite app_assoc. by apply open_gets.
Qed.
End multi.

(** C96: while the second does not change and the directory exists, the loop goes on *)
Theorem C96_dir_spin rand pre now there (fuel : nat) t : (0 <= t)%Z →
  (∀ i, (i < fuel) → (0 <= now i ∧ now i / 1000000 = t / 1000000)%Z ∧ there i (work_dir rand pre t) = true) →
  choose_dir rand pre now there fuel 0 = None.
Proof.
  intros Ht.
  assert (∀ x, (0 <= x)%Z → (x / 1000000 = t / 1000000)%Z → work_dir rand pre x = work_dir rand pre t) as Same.
  { intros x Hx E. assert (Time_Model.to_time_t x = Time_Model.to_time_t t) as Et.
    { unfold Time_Model.to_time_t. rewrite !Z.quot_div_nonneg by lia. done. }
    assert (seed x = seed t) as Es by exact Et.
    unfold work_dir. rewrite Es. unfold Time_Model.to_date. rewrite Et. done. }
  assert (∀ fuel i, (∀ j, (i ≤ j < i + fuel) → (0 <= now j ∧ now j / 1000000 = t / 1000000)%Z ∧ there j (work_dir rand pre t) = true) →
    choose_dir rand pre now there fuel i = None) as H.
  { clear fuel. induction fuel as [|fuel IH]; intros i Hi; cbn [choose_dir]; [done|].
    destruct (Hi i) as [[H1 H2] H3]; [lia|]. rewrite (Same _ H1 H2), H3. apply IH. intros j Hj. apply Hi. lia. }
  intros Hi. apply H. intros j Hj. apply Hi. lia.
Qed.

(** * Cases *)
Module SavedCases.
Import Reloc_Props.Cases SingleEvent_Props.SCases.
Definition ids (c : catalog Z) : text := concat ((λ e, put_u (e_id e) ++ tx ";") <$> sorted_events (c_ev c)).
Definition en0 : env := Env (λ _, false) (λ _, true) (λ _, true).
Definition go (save : bool) (dir : text) (st : step Z) :=
  single_trace ins mv w0 [tx "Pg"] [tx "Sg"] (bgc [1; 2; 9]%N) (λ _, tx "stations") ids (λ _, tx "phases")
    (λ _ _, (tx "pairs", true)) (λ _, ([], [])) en0 save dir false st one.
Definition good : step Z := stp [1; 2]%N 2 30 [[3]; [3]]%N.
Definition few : step Z := stp [1]%N 2 30 [[3]; [3]]%N.
End SavedCases.
Import SavedCases.
Local Notation rd s := (str s).
Definition shown (e : eff) : string * string :=
  match e with EDir d => ("dir", str d) | EFile f c => (str f, str (firstn 8 c)) | EOpen f => ("open", str f) | EClose f => ("close", str f) end%string.
(** Event 5 is stored as event 3 beside the events 1 and 2 *)
Example C96_single_example :
  (shown <$> (go true (tx "d") good).1) =
  [("dir", "d"); ("d/single-event.csv", "5;"); ("d/single-event-phase.csv", "phases"); ("d/single-event-station.csv", "stations");
   ("open", "d/relocation.log"); ("d/input-event.csv", "1;2;3;"); ("d/input-phase.csv", "phases"); ("d/input-station.csv", "stations");
   ("d/pair.csv", "pairs"); ("d/initial-double-difference.csv", "eventId1"); ("d/final-double-difference.csv", "eventId1");
   ("d/reloc-event.csv", "3;"); ("d/reloc-phase.csv", "phases"); ("close", "d/relocation.log")]%string.
Proof. vm_compute. reflexivity. Qed.
(** C96: the log file of a relocation holds only what was said during the relocation: false, after one with too few
    neighbours; the log of the second relocation is in the file of the first *)
Theorem C96_log_refuted : ∃ (h1 h2 : list Logger_Model.lop) (r1 r2 : res (catalog Z * N * list (catalog Z * sol Z))) l1 l2,
  go true (tx "a") few = (l1, r1) ∧ go true (tx "b") good = (l2, r2) ∧ (∃ x, r1 = Ok x) ∧ (∃ x, r2 = Ok x) ∧
  with_messages l1 h1 ∧ with_messages l2 h2 ∧
  log_text (h1 ++ h2) (tx "a/relocation.log") = [(Logger_Model.Info, "first"%string); (Logger_Model.Info, "second"%string)] ∧
  log_text (h1 ++ h2) (tx "b/relocation.log") = [(Logger_Model.Info, "second"%string)].
Proof.
  exists [Logger_Model.LAdd "a/relocation.log"%string Logger_Model.Info true; Logger_Model.LLog Logger_Model.Info "first"%string],
    [Logger_Model.LAdd "b/relocation.log"%string Logger_Model.Info true; Logger_Model.LLog Logger_Model.Info "second"%string;
     Logger_Model.LRemove "b/relocation.log"%string],
    (go true (tx "a") few).2, (go true (tx "b") good).2, (go true (tx "a") few).1, (go true (tx "b") good).1.
  split; [by destruct (go true (tx "a") few)|]. split; [by destruct (go true (tx "b") good)|].
  split; [vm_compute; eexists; reflexivity|]. split; [vm_compute; eexists; reflexivity|].
  split; [vm_compute; reflexivity|]. split; [vm_compute; reflexivity|]. split; vm_compute; reflexivity.
Qed.
(** C96: without the option the loggers are as before: false, if one was opened under this name *)
Theorem C96_foreign_log_refuted : ∃ (h h' : list Logger_Model.lop) l (r : res (catalog Z * N * list (catalog Z * sol Z))),
  go false (tx "d") good = (l, r) ∧ (∃ x, r = Ok x) ∧ with_messages l h' ∧
  open_logs h !! "d/relocation.log"%string = Some Logger_Model.Debug ∧ open_logs (h ++ h') !! "d/relocation.log"%string = None.
Proof.
  exists [Logger_Model.LAdd "d/relocation.log"%string Logger_Model.Debug true], [Logger_Model.LRemove "d/relocation.log"%string],
    (go false (tx "d") good).1, (go false (tx "d") good).2.
  split; [by destruct (go false (tx "d") good)|]. split; [vm_compute; eexists; reflexivity|]. split; [vm_compute; reflexivity|].
  split; vm_compute; reflexivity.
Qed.
(** Two clusters *)
Module MultiSaved.
Import Reloc_Props.Cases MultiEvent_Props.MultiCases.
Definition cls : list (gmap N (nb unit)) :=
  [ {[ 1%N := sel {[1; 2]}%N 1 ]} ∪ {[ 2%N := sel ∅ 2 ]}; {[ 4%N := sel {[4; 5]}%N 4 ]} ∪ {[ 5%N := sel ∅ 5 ]} ].
Definition mgo (save ok : bool) :=
  multi_trace ins mv order xc_entries build world_of (λ _, tx "stations") ids (λ _, tx "phases")
    (λ _ cl, Some (tx "pairs", true)) (λ _ _, (tx "xcorr", ok)) (λ _, ([], [])) en0 save (tx "d") 2 cat xd cls.
End MultiSaved.
Import MultiSaved.
Example C96_multi_example :
  (shown <$> (mgo true true).1) =
  [("dir", "d"); ("open", "d/relocation.log"); ("d/input-event.csv", "1;2;3;4;"); ("d/input-phase.csv", "phases"); ("d/input-station.csv", "stations");
   ("open", "d/cluster-1-relocation.log"); ("d/cluster-1-pair.csv", "pairs"); ("d/cluster-1-event.csv", "1;2;"); ("d/cluster-1-phase.csv", "phases");
   ("d/cluster-1-station.csv", "stations"); ("d/cluster-1-initial-double-difference.csv", "eventId1");
   ("d/cluster-1-final-double-difference.csv", "eventId1"); ("d/cluster-1-reloc-event.csv", "1;"); ("d/cluster-1-reloc-phase.csv", "phases");
   ("close", "d/cluster-1-relocation.log");
   ("open", "d/cluster-2-relocation.log"); ("d/cluster-2-pair.csv", "pairs"); ("d/cluster-2-event.csv", "4;5;"); ("d/cluster-2-phase.csv", "phases");
   ("d/cluster-2-station.csv", "stations"); ("d/cluster-2-initial-double-difference.csv", "eventId1");
   ("d/cluster-2-final-double-difference.csv", "eventId1"); ("d/cluster-2-reloc-event.csv", "4;5;"); ("d/cluster-2-reloc-phase.csv", "phases");
   ("close", "d/cluster-2-relocation.log");
   ("d/reloc-event.csv", "1;4;5;"); ("d/reloc-phase.csv", "phases"); ("d/xcorr.csv", "xcorr"); ("close", "d/relocation.log")]%string.
Proof. vm_compute. reflexivity. Qed.
(** A station that is unknown when the cross-correlations are written: the log file stays open *)
Example C96_multi_left_example : (∀ r, (mgo true false).2 ≠ Ok r) ∧ EOpen (tx "d/relocation.log") ∈ (mgo true false).1 ∧
  last (mgo true false).1 = Some (EFile (tx "d/xcorr.csv") (tx "xcorr")).
Proof.
  split; [|split].
  - assert (match (mgo true false).2 with Ok _ => false | _ => true end = true) as E by (vm_compute; reflexivity).
    intros r H. rewrite H in E. discriminate E.
  - apply (elem_of_list_lookup_2 _ 1). vm_compute. reflexivity.
  - vm_compute. reflexivity.
Qed.
Import MultiEvent_Props.MultiCases.
Lemma known_cases : integrity cat ∧ Forall (known order cat) cls.
Proof.
  pose proof MultiEvent_Props.MultiCases.hypotheses as (_ & _ & _ & _ & _ & O & I & _). split; [done|].
  assert (∀ cl, order cl ≡ₚ (map_to_list cl).*1) as O'.
  { intros cl. rewrite O. apply NoDup_Permutation; [apply NoDup_elements|apply NoDup_fst_map_to_list|].
    intros k. rewrite elem_of_elements, elem_of_dom, elem_of_list_fmap. split.
    - intros [x Hx]. exists (k, x). split; [done|]. by apply elem_of_map_to_list.
    - intros ([k' x] & -> & Hk). apply elem_of_map_to_list in Hk. cbn. by rewrite Hk. }
  assert (∀ a b (x y : nb unit), is_Some (c_ev cat !! a) → is_Some (c_ev cat !! b) → known order cat ({[a := x]} ∪ {[b := y]})) as K.
  { intros a b x y Ha Hb. split; [apply O'|]. intros k [z Hz]. apply lookup_union_Some_raw in Hz as [Hz|[_ Hz]];
      apply lookup_singleton_Some in Hz as [<- _]; done. }
  unfold cls. repeat (apply Forall_cons; split); [| |constructor]; apply K; vm_compute; eexists; reflexivity.
Qed.
(** A double-difference *)
Example C96_dd_example :
  str (dd_file (Cat {[ tx "CH.ACB." := Sta (tx "CH.ACB.") 0%Z 0%Z 0%Z (tx "CH") (tx "ACB") [] ]} ∅ ∅)
    [DDiff 1 23 (tx "CH.ACB.") (tx "P") (num 1 1) true (num 3 4) (num (-1) 8) (num 5 2)]).1 =
  ("eventId1,eventId2,networkCode,stationCode,locationCode,phaseType,weight,xcorrUsed,xcorrCoefficient,doubleDifferenceResidual,interEventDistance
1,23,CH,ACB,,P,1,true,0.75,-0.125,2.5
")%string.
Proof. vm_compute. reflexivity. Qed.
Print Assumptions C96_dir_spin.
Print Assumptions C96_single_off.
Print Assumptions C96_single_result.
Print Assumptions C96_single_names.
Print Assumptions C96_single_files.
Print Assumptions C96_single_log_closed.
Print Assumptions C96_single_log_left.
Print Assumptions C96_multi_names.
Print Assumptions C96_multi_result.
Print Assumptions C96_multi_files.
Print Assumptions C96_multi_log_closed.
Print Assumptions C96_multi_log_left.
Print Assumptions C96_log_refuted.
Print Assumptions C96_foreign_log_refuted.
