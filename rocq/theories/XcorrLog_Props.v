(** The statistics of the cross-correlations (C88). *)
From Coq Require Import Ascii String Reals Lra.
From stdpp Require Import numbers list gmap countable strings sorting.
From Verif Require Import Csv_Model Catalog_Model Neighbours_Model Neighbours_Props XCorrCache_Model Solver_Model OrderStats_Model OrderStats_Props XcorrBuild_Model XcorrLog_Model.
Local Open Scope R_scope.

Global Instance Rle_total : TotalOrder Rle.
Proof.
  split; [split; [split|]|].
  - intros x. apply Rle_refl.
  - intros x y z. apply Rle_trans.
  - intros x y. apply Rle_antisym.
  - intros x y. unfold strict. destruct (Rtotal_order x y) as [H|[H|H]]; [left|right; left; done|right; right]; (split; [lra|intros K; lra]).
Qed.

Global Instance ptype_eq_dec : EqDecision ptype.
Proof. solve_decision. Defined.

Section props.
Notation xcache := (gmap N (gmap string (gmap string (gmap N (@entry dbl dbl))))).
Notation "'tstr' x" := (string_of_list_ascii x) (at level 9, x at level 9).
Notation ent := (@entry dbl dbl).
Variable validP validS : list text.
Variable min_coef : ptype → option R.
Variable nthe : list R → nat → list R.
Variable elems : neigh → list (text * text * N).
Variable lines_of : gmap text counters → list (text * counters).
Hypothesis Hnth : nthe_spec Rle nthe.
Hypothesis Helems : ∀ n, elems n ≡ₚ n_phases n.
Hypothesis Hlines : ∀ m, lines_of m ≡ₚ map_to_list m.
Variable cluster : list neigh.
Hypothesis Hrefs : NoDup (n_ref <$> cluster).
Variable xc : xcache.

(** ** Specification *)
Definition is_type (t : ptype) (ph : text) : Prop :=
  match t with TP => ph ∈ validP | TS => ph ∉ validP ∧ ph ∈ validS | TNO => False end.
(** What was measured at a station with phases of type t: reference event, neighbour, phase and result *)
Notation meas := (N * N * text * ent)%type.
Definition measured (t : ptype) (sta : text) (x : meas) : Prop :=
  let '(ref, k, ph, e) := x in
  is_type t ph ∧ (∃ n, n ∈ cluster ∧ n_ref n = ref ∧ inn n k sta ph) ∧ xc_get dneg xc ref k (tstr sta) (tstr ph) = Some e.
Definition valid (x : meas) : Prop := e_valid x.2 = true.
Definition failed (x : meas) : Prop := e_valid x.2 = false.
Definition above (m : R) (x : meas) : Prop := valid x ∧ ∃ c, e_coeff x.2 = Num c ∧ m <= Rabs c.
Global Instance valid_dec x : Decision (valid x). Proof. unfold valid. apply _. Defined.
Global Instance failed_dec x : Decision (failed x). Proof. unfold failed. apply _. Defined.
Global Instance above_dec m x : Decision (above m x).
Proof.
  unfold above. apply and_dec; [apply _|]. destruct (e_coeff x.2) as [c|]; [|right; intros (c & ? & _); discriminate].
  destruct (Rle_dec m (Rabs c)) as [H|H]; [left; by exists c|right; intros (c' & [= ->] & ?); done].
Defined.
(** The absolute values of the coefficients of the valid ones *)
Definition coefficients (xs : list meas) : list R :=
  omap (λ x : meas, if e_valid x.2 then match e_coeff x.2 with Num c => Some (Rabs c) | Indet => None end else None) xs.
(** The five numbers of a list *)
Definition five_of (l : list R) (s : @summary R) : Prop :=
  (l = [] → s = Summary 0 0 0 0 0) ∧
  (l ≠ [] → ∀ o, sorted_of Rle l o → let n := length l in
     o !! 0%nat = Some (s_min s) ∧ o !! (n - 1)%nat = Some (s_max s) ∧
     o !! (n / 4)%nat = Some (s_q1 s) ∧ o !! (n / 2)%nat = Some (s_q2 s) ∧ o !! (n / 4 + n / 2)%nat = Some (s_q3 s)).
(** xs are the measurements at a station *)
Definition all_measured (t : ptype) (sta : text) (xs : list meas) : Prop := NoDup xs ∧ ∀ x, x ∈ xs ↔ measured t sta x.

(** ** The tables *)
Notation item := (N * (text * text * N))%type.
Definition items : list item := n ← cluster; (λ x, (n_ref n, x)) <$> elems n.
Definition step (b : tables) (i : item) : res tables := count_phase validP validS min_coef xc i.1 b i.2.
Lemma rloop_fmap {A B C} (f : A → B → res A) (g : C → B) l a : rloop f (g <$> l) a = rloop (λ a x, f a (g x)) l a.
Proof using Type. clear. revert a. induction l as [|x l IH]; intros a; [done|]. cbn. destruct (f a (g x)); cbn; [apply IH|done|done]. Qed.
Lemma rloop_app {A B} (f : A → B → res A) l k a : rloop f (l ++ k) a = rbind (rloop f l a) (rloop f k).
Proof using Type. clear. revert a. induction l as [|x l IH]; intros a; [done|]. cbn. destruct (f a x); cbn; [apply IH|done|done]. Qed.
Lemma rbind_ok {A} (x : res A) : rbind x Ok = x.
Proof using Type. by destruct x. Qed.
Lemma count_all_items : count_all validP validS min_coef elems xc cluster = rloop step items (Tables ∅ ∅).
Proof using Type.
  clear. unfold count_all, items. generalize (Tables ∅ ∅). induction cluster as [|n l IH]; intros b; [done|]. cbn [mbind list_bind rloop]. rewrite rloop_app, rloop_fmap. unfold step at 1. cbn [fst snd].
  destruct (rloop _ (elems n) b); cbn [rbind]; [apply IH|done|done].
Qed.
(** The measurements in a list of items *)
Definition meas_of (t : ptype) (sta : text) (i : item) : option meas :=
  let '(ref, (st, ph, k)) := i in
  if decide (st = sta) then if decide (type_of validP validS ph = t ∧ t ≠ TNO) then (λ e, (ref, k, ph, e)) <$> xc_get dneg xc ref k (tstr sta) (tstr ph) else None else None.
Lemma type_of_spec ph t : type_of validP validS ph = t ∧ t ≠ TNO ↔ is_type t ph.
Proof using Type.
  unfold type_of, is_type. case_bool_decide; [destruct t; naive_solver|]. case_bool_decide; destruct t; naive_solver.
Qed.
Definition tally (m : R) (xs : list meas) : counters :=
  Counters (length (filter valid xs)) (length (filter failed xs)) (length (filter (above m) xs)) (coefficients xs).
Definition tallied (t : ptype) (sta : text) (l : list item) (o : option counters) : Prop :=
  match omap (meas_of t sta) l with
  | [] => o = None
  | xs => ∃ m, (filter valid xs ≠ [] → min_coef t = Some m) ∧ o = Some (tally m xs)
  end.
Lemma filter_snoc {A} (P : A → Prop) `{∀ x, Decision (P x)} l x : filter P (l ++ [x]) = filter P l ++ (if decide (P x) then [x] else []).
Proof using Type. clear. by rewrite filter_app. Qed.
Lemma above_none m xs : filter valid xs = [] → filter (above m) xs = [].
Proof using Type.
  clear. intros H. destruct (filter (above m) xs) as [|x r] eqn:E; [done|]. assert (x ∈ filter (above m) xs) as Hx by (rewrite E; left). apply elem_of_list_filter in Hx as [[V _] Hx].
  assert (x ∈ filter valid xs) as K by (by apply elem_of_list_filter). rewrite H in K. by apply elem_of_nil in K.
Qed.
Lemma tally_m m m' xs : (filter valid xs ≠ [] → m = m') → tally m xs = tally m' xs.
Proof using Type.
  clear. intros H. unfold tally. destruct (decide (filter valid xs = [])) as [E|N]; [by rewrite !above_none|by rewrite H].
Qed.
Lemma tally_snoc t m xs x c' : (filter valid xs ≠ [] → min_coef t = Some m) →
  count min_coef t x.2 (tally m xs) = Ok c' → ∃ m', (filter valid (xs ++ [x]) ≠ [] → min_coef t = Some m') ∧ c' = tally m' (xs ++ [x]).
Proof using Type.
  clear. intros Hm. unfold count. destruct (e_valid x.2) eqn:V.
  - destruct (e_coeff x.2) as [c|] eqn:C; [|discriminate]. destruct (min_coef t) as [m'|] eqn:M; [|discriminate]. rewrite (tally_m m m') by (intros N; specialize (Hm N); congruence). cbn [at_ rbind]. intros [= <-]. exists m'. split; [done|].
    unfold tally, coefficients. cbn [k_performed k_failed k_above k_coeff]. rewrite !filter_snoc, !app_length, omap_app. cbn [omap list_omap].
    rewrite V, C. rewrite decide_True by done. rewrite (decide_False (P := failed x)) by (unfold failed; congruence). cbn [length]. rewrite Nat.add_0_r. f_equal.
    destruct (Rle_dec m' (Rabs c)) as [L|L]; [rewrite decide_True by (split; [done|by exists c]); done|]. rewrite decide_False by (intros (_ & c1 & E & ?); rewrite C in E; injection E as <-; done). cbn. lia.
  - intros [= <-]. exists m. split.
    + rewrite filter_snoc, decide_False by (unfold valid; congruence). rewrite app_nil_r. done.
    + unfold tally, coefficients. cbn [k_performed k_failed k_above k_coeff]. rewrite !filter_snoc, !app_length, omap_app. cbn [omap list_omap]. rewrite V. rewrite decide_False by (unfold valid; congruence). rewrite (decide_True (P := failed x)) by done.
      rewrite decide_False by (intros [K _]; unfold valid in K; congruence). cbn [length]. rewrite !Nat.add_0_r, app_nil_r. done.
Qed.
Lemma tables_ok l b t : rloop step l (Tables ∅ ∅) = Ok b → t ≠ TNO → ∀ sta, tallied t sta l (table b t !! sta).
Proof using Type.
  clear. intros H Ht. revert b H. induction l as [|i l IH] using rev_ind; intros b H sta.
  { injection H as <-. unfold tallied. cbn. by destruct t. }
  rewrite rloop_app in H. destruct (rloop step l _) as [b0| |] eqn:E; cbn [rbind] in H; [|discriminate|discriminate]. specialize (IH b0 eq_refl sta).
  change (rloop step [i] b0) with (rbind (step b0 i) Ok) in H. rewrite rbind_ok in H. destruct i as [ref [[st ph] k]]. unfold step, count_phase in H. cbn [fst snd] in H.
  unfold tallied. rewrite omap_app. set (x := omap (meas_of t sta) [_]).
  assert (∀ o, meas_of t sta (ref, (st, ph, k)) = o → x = match o with Some y => [y] | None => [] end) as Ex by (intros o <-; reflexivity).
  assert (x = [] → table b t !! sta = table b0 t !! sta → match omap (meas_of t sta) l ++ x with [] => table b t !! sta = None | xs => ∃ m, (filter valid xs ≠ [] → min_coef t = Some m) ∧ table b t !! sta = Some (tally m xs) end) as Same.
  { intros -> ->. rewrite app_nil_r. exact IH. }
  unfold meas_of in Ex. destruct (decide (st = sta)) as [->|Nst].
  2: { apply Same; [exact (Ex None eq_refl)|]. destruct (type_of validP validS ph); [| |by injection H as <-]; (destruct (xc_get _ _ _ _ _ _); [|by injection H as <-]); destruct (count _ _ _ _); cbn [rbind] in H; try discriminate; injection H as <-;
       destruct t; cbn [table b_P b_S]; by rewrite ?lookup_insert_ne. }
  destruct (decide (type_of validP validS ph = t ∧ t ≠ TNO)) as [[Et _]|Nt].
  2: { apply Same; [exact (Ex None eq_refl)|]. assert (type_of validP validS ph ≠ t) as Nt' by tauto. destruct (type_of validP validS ph); [| |by injection H as <-]; (destruct (xc_get _ _ _ _ _ _); [|by injection H as <-]); destruct (count _ _ _ _); cbn [rbind] in H; try discriminate; injection H as <-;
       destruct t; cbn [table b_P b_S]; done. }
  rewrite Et in H. destruct (xc_get _ _ _ _ _ _) as [e|]; cbn [fmap option_fmap option_map] in Ex.
  2: { apply Same; [exact (Ex None eq_refl)|]. destruct t; by injection H as <-. }
  rewrite (Ex _ eq_refl).
  assert (∃ c, count min_coef t e (default no_counts (table b0 t !! sta)) = Ok c ∧ table b t !! sta = Some c) as (c & Hc & ->).
  { destruct t; [| |done]; destruct (count _ _ _ _) as [c| |] eqn:Ec; cbn [rbind] in H; try discriminate; injection H as <-; exists c; (split; [done|]); cbn [table b_P b_S]; by rewrite lookup_insert. }
  set (y := (ref, k, ph, e)). unfold tallied in IH. assert (∃ m, (filter valid (omap (meas_of t sta) l) ≠ [] → min_coef t = Some m) ∧ default no_counts (table b0 t !! sta) = tally m (omap (meas_of t sta) l)) as (m & Hm & Em).
  { destruct (omap (meas_of t sta) l) as [|z r] eqn:Eo; [|destruct IH as (m & Hm & ->); by exists m]. rewrite IH. exists 0. done. }
  rewrite Em in Hc. change e with (y.2) in Hc. destruct (tally_snoc t m _ y c Hm Hc) as (m' & Hm' & ->).
  destruct (omap (meas_of t sta) l ++ [y]) as [|z r] eqn:Ez; [by destruct (omap (meas_of t sta) l)|]. exists m'. done.
Qed.
(** The items are the measurements *)
Lemma elem_of_items ref st ph k : (ref, (st, ph, k)) ∈ items ↔ ∃ n, n ∈ cluster ∧ n_ref n = ref ∧ inn n k st ph.
Proof using Helems.
  clear - Helems. unfold items. rewrite elem_of_list_bind. split.
  - intros (n & Hi & Hn). apply elem_of_list_fmap in Hi as (x & [= -> Ex] & Hx). subst x. exists n. split; [done|]. split; [done|]. rewrite Helems in Hx. by apply elem_of_n_phases.
  - intros (n & Hn & <- & Hi). exists n. split; [|done]. apply elem_of_list_fmap. exists (st, ph, k). split; [done|]. rewrite Helems. by apply elem_of_n_phases.
Qed.
Lemma NoDup_items : NoDup items.
Proof using Hrefs Helems.
  clear - Hrefs Helems. unfold items. induction cluster as [|n l IH]; [constructor|]. cbn in Hrefs |- *. apply NoDup_cons in Hrefs as [Hn Hl]. apply NoDup_app. split; [|split; [|by apply IH]].
  - apply NoDup_fmap_2; [intros ? ? [= ->]; done|]. rewrite Helems. apply NoDup_n_phases.
  - intros x Hx Hx'. apply elem_of_list_fmap in Hx as (y & -> & _). apply elem_of_list_bind in Hx' as (n' & Hx' & Hn'). apply elem_of_list_fmap in Hx' as (y' & [= E _] & _). apply Hn. rewrite E. by apply elem_of_list_fmap_1.
Qed.
Lemma all_measured_items t sta : all_measured t sta (omap (meas_of t sta) items).
Proof using Hrefs Helems.
  split.
  - pose proof NoDup_items as ND. clear - ND. induction ND as [|i l Hi ND IH]; [constructor|]. cbn. destruct (meas_of t sta i) as [x|] eqn:E; [|done]. constructor; [|done].
    intros Hx. apply elem_of_list_omap in Hx as (j & Hj & Ej). apply Hi. replace i with j; [done|]. destruct i as [r1 [[s1 p1] k1]], j as [r2 [[s2 p2] k2]]. unfold meas_of in E, Ej.
    destruct (decide (s1 = sta)) as [->|]; [|discriminate]. destruct (decide (s2 = sta)) as [->|]; [|discriminate]. destruct (decide (type_of validP validS p1 = t ∧ _)); [|discriminate]. destruct (decide (type_of validP validS p2 = t ∧ _)); [|discriminate].
    destruct (xc_get _ _ r1 _ _ _); [|discriminate]. destruct (xc_get _ _ r2 _ _ _); [|discriminate]. cbn in E, Ej. injection E as <-. injection Ej as -> -> -> _. done.
  - intros [[[ref k] ph] e]. rewrite elem_of_list_omap. unfold measured. split.
    + intros ([r [[st p] k']] & Hi & E). apply elem_of_items in Hi. unfold meas_of in E. destruct (decide (st = sta)) as [->|]; [|discriminate]. destruct (decide (type_of validP validS p = t ∧ _)) as [D|]; [|discriminate]. apply type_of_spec in D.
      destruct (xc_get _ _ _ _ _ _) eqn:G; [|discriminate]. cbn in E. injection E as -> -> -> ->. done.
    + intros (Ht & Hn & G). exists (ref, (sta, ph, k)). split; [by apply elem_of_items|]. unfold meas_of. rewrite decide_True by done. rewrite decide_True by (by apply type_of_spec). by rewrite G.
Qed.
Lemma all_measured_perm t sta xs ys : all_measured t sta xs → all_measured t sta ys → xs ≡ₚ ys.
Proof using Type. clear. intros [N1 H1] [N2 H2]. apply NoDup_Permutation; [done|done|]. intros x. by rewrite H1, H2. Qed.

(** ** The lines *)
Definition line_ok (x : text * counters) (ln : line) : Prop :=
  five_number Rle 0 nthe (k_coeff x.2) = Some (l_five ln) ∧ l_sta ln = x.1 ∧ l_tot ln = (k_performed x.2 + k_failed x.2)%nat ∧ l_failed ln = k_failed x.2 ∧ l_above ln = k_above x.2.
Lemma lines_ok L ls p f a : rloop (line_step nthe) L ([], (0, 0, 0)%nat) = Ok (ls, (p, f, a)) →
  Forall2 line_ok L ls ∧ (p + f)%nat = sum_list (l_tot <$> ls) ∧ f = sum_list (l_failed <$> ls) ∧ a = sum_list (l_above <$> ls).
Proof using Type.
  clear. revert ls p f a. induction L as [|x L IH] using rev_ind; intros ls p f a H; [injection H as <- <- <- <-; done|].
  rewrite rloop_app in H. destruct (rloop _ L _) as [[ls0 [[p0 f0] a0]]| |]; cbn [rbind] in H; [|discriminate|discriminate]. destruct (IH _ _ _ _ eq_refl) as (K1 & K2 & K3 & K4).
  change (rloop (line_step nthe) [x] ?b) with (rbind (line_step nthe b x) Ok) in H. rewrite rbind_ok in H. unfold line_step in H. destruct (five_number _ _ _ _) as [s|] eqn:E; [|discriminate]. injection H as <- <- <- <-.
  rewrite !fmap_app, !sum_list_with_app. cbn [fmap list_fmap l_tot l_failed l_above sum_list_with]. unfold Datatypes.id in *. split; [|lia]. apply Forall2_app; [done|]. constructor; [|done]. done.
Qed.
Lemma lines_total L ls0 : Forall (λ x : text * counters, is_Some (five_number Rle 0 nthe (k_coeff x.2))) L → ∃ r, rloop (line_step nthe) L ls0 = Ok r.
Proof using Type.
  clear. intros H. revert ls0. induction H as [|x L [s E] _ IH]; intros [ls [[p f] a]]; [by eexists|]. cbn [rloop]. unfold line_step at 1. rewrite E. cbn [rbind]. apply IH.
Qed.
Lemma lines_bad L ls0 x : x ∈ L → five_number Rle 0 nthe (k_coeff x.2) = None → rloop (line_step nthe) L ls0 = Bad.
Proof using Type.
  clear. intros Hx E. revert ls0. induction L as [|y L IH]; [by apply elem_of_nil in Hx|]. intros [ls [[p f] a]]. cbn [rloop]. unfold line_step at 1. apply elem_of_cons in Hx as [<-|Hx]; [by rewrite E|].
  destruct (five_number _ _ _ (k_coeff y.2)); cbn [rbind]; [by apply IH|done].
Qed.
Lemma five_number_spec l s : five_number Rle 0 nthe l = Some s → five_of l s ∧ ¬ (1 ≤ length l ≤ 3)%nat.
Proof using Hnth.
  clear - Hnth. intros E. assert (¬ (1 ≤ length l ≤ 3)%nat) as N by (intros N; rewrite C20_small_refuted in E by done; discriminate). split; [|done]. split; [intros ->; by injection E|].
  intros Hl o Ho. destruct (C20_five_number_partial Rle 0 nthe Hnth l o) as (r & Er & H); [destruct l; [done|]; cbn in *; lia|done|]. rewrite E in Er. injection Er as <-. exact H.
Qed.
Lemma five_number_total l : ¬ (1 ≤ length l ≤ 3)%nat → is_Some (five_number Rle 0 nthe l).
Proof using Hnth.
  clear - Hnth. intros N. destruct (decide (l = [])) as [->|Hl]; [by eexists|]. destruct (C20_five_number_partial Rle 0 nthe Hnth l (merge_sort Rle l)) as (r & Er & _); [destruct l; [done|]; cbn in *; lia| |by eexists].
  apply sorted_exists, _.
Qed.
Lemma coefficients_perm xs ys : xs ≡ₚ ys → coefficients xs ≡ₚ coefficients ys.
Proof using Type. clear. intros H. unfold coefficients. by rewrite H. Qed.
Lemma five_of_perm l l' s : l ≡ₚ l' → five_of l s → five_of l' s.
Proof using Type.
  clear. intros HP [H0 H1]. split; [intros ->; apply H0; by apply Permutation_nil_r|]. intros N o Ho. cbv zeta. rewrite <- (Permutation_length HP). apply H1.
  - intros ->. apply N. by apply Permutation_nil_l in HP.
  - destruct Ho as [P1 S1]. split; [|done]. by rewrite P1, HP.
Qed.

(** ** The properties *)
Notation summary_ := (log_summary validP validS min_coef nthe elems lines_of cluster xc).
Definition choose_part (t : ptype) (r : part * part) : part := match t with TS => r.2 | _ => r.1 end.
(** C88: the statistics are those of the measurements in the cache: one line for each station with
    a measurement of this type, the numbers of measurements, failures and coefficients above the
    threshold, the five numbers of the coefficients of the valid ones; the totals are the sums. *)
Theorem C88_summary r t : summary_ = Ok r → t ≠ TNO →
  let q := choose_part t r in
  min_coef t = Some (p_min q) ∧ NoDup (l_sta <$> p_lines q) ∧
  (p_performed q + p_failed q)%nat = sum_list (l_tot <$> p_lines q) ∧ p_failed q = sum_list (l_failed <$> p_lines q) ∧ p_above q = sum_list (l_above <$> p_lines q) ∧
  ∀ sta xs, all_measured t sta xs →
    (xs = [] → sta ∉ l_sta <$> p_lines q) ∧
    (xs ≠ [] → ∃ ln, ln ∈ p_lines q ∧ l_sta ln = sta ∧ l_tot ln = length xs ∧ l_failed ln = length (filter failed xs) ∧
       l_above ln = length (filter (above (p_min q)) xs) ∧ five_of (coefficients xs) (l_five ln)).
Proof using Hnth Helems Hlines Hrefs.
  intros H Ht q. unfold log_summary in H. rewrite count_all_items in H. destruct (rloop step items _) as [b| |] eqn:Eb; cbn [rbind] in H; [|discriminate|discriminate].
  assert (make_part min_coef nthe lines_of t (table b t) = Ok q) as Hq.
  { destruct (make_part _ _ _ TP _) as [P| |] eqn:EP; cbn [rbind] in H; [|discriminate|discriminate]. destruct (make_part _ _ _ TS _) as [S'| |] eqn:ES; cbn [rbind] in H; [|discriminate|discriminate]. injection H as <-. unfold q. by destruct t. }
  clearbody q. clear H. unfold make_part in Hq. destruct (rloop (line_step nthe) _ _) as [[ls [[p f] a]]| |] eqn:EL; cbn [rbind] in Hq; [|discriminate|discriminate].
  destruct (min_coef t) as [mc|] eqn:Em; cbn [at_ rbind] in Hq; [|discriminate]. injection Hq as <-. cbn [p_lines p_performed p_failed p_above p_min].
  destruct (lines_ok _ _ _ _ _ EL) as (K1 & K2 & K3 & K4). split; [done|].
  assert (l_sta <$> ls = (lines_of (table b t)).*1) as Esta. { clear - K1. induction K1 as [|x ln L ls (_ & E & _) _ IH]; [done|]. cbn. by rewrite E, IH. }
  split; [rewrite Esta, Hlines; apply NoDup_fst_map_to_list|]. split; [done|]. split; [done|]. split; [done|]. intros sta xs Hxs.
  pose proof (tables_ok items b t Eb Ht sta) as T. unfold tallied in T. pose proof (all_measured_perm t sta _ _ Hxs (all_measured_items t sta)) as HP.
  destruct (omap (meas_of t sta) items) as [|y ys] eqn:Eo.
  - assert (xs = []) as -> by (by apply Permutation_nil_r). split; [|done]. intros _. rewrite Esta, Hlines. intros Hs. apply elem_of_list_fmap in Hs as ([s c] & -> & Hs). apply elem_of_map_to_list in Hs. cbn in T. congruence.
  - destruct T as (m & Hm & T). split; [intros ->; apply Permutation_nil_l in HP; discriminate|]. intros _.
    assert ((sta, tally m (y :: ys)) ∈ lines_of (table b t)) as Hin by (rewrite Hlines; by apply elem_of_map_to_list).
    apply elem_of_list_lookup in Hin as [j Hj]. destruct (Forall2_lookup_l _ _ _ _ _ K1 Hj) as (ln & Hln%elem_of_list_lookup_2 & (E5 & Es & E1 & E2 & E3)). cbn [fst snd] in *. exists ln. split; [done|]. split; [done|].
    rewrite (tally_m m mc) in * by (intros N; specialize (Hm N); congruence). unfold tally in *. cbn [k_performed k_failed k_above k_coeff] in *. rewrite E1, E2, E3, (Permutation_length HP), (Permutation_length (filter_Permutation failed _ _ HP)), (Permutation_length (filter_Permutation (above mc) _ _ HP)).
    split; [|split; [done|split; [done|]]].
    + generalize (y :: ys). clear. intros l. induction l as [|x l IH]; [done|]. rewrite !filter_cons. destruct (decide (valid x)) as [V|V], (decide (failed x)) as [F|F]; unfold valid, failed in V, F; [congruence|cbn; lia|cbn; lia|]. by destruct (e_valid x.2).
    + destruct (five_number_spec _ _ E5) as [K _]. eapply five_of_perm; [|exact K]. by apply coefficients_perm.
Qed.
(** C88: the summary is made if the options are complete, every valid measurement has a coefficient,
    and at no station there are one, two or three of them. *)
Theorem C88_defined : is_Some (min_coef TP) → is_Some (min_coef TS) →
  (∀ t sta x, measured t sta x → valid x → e_coeff x.2 ≠ Indet) →
  (∀ t sta xs, all_measured t sta xs → ¬ (1 ≤ length (coefficients xs) ≤ 3)%nat) →
  ∃ r, summary_ = Ok r.
Proof using Hnth Helems Hlines Hrefs.
  intros [mp HmP] [ms HmS] Hv Hc. unfold log_summary. rewrite count_all_items.
  assert (∃ b, rloop step items (Tables ∅ ∅) = Ok b) as [b Eb].
  { assert (∀ i t sta x, i ∈ items → meas_of t sta i = Some x → valid x → e_coeff x.2 ≠ Indet) as Hi.
    { intros i t sta x Hi E. apply (Hv t sta). apply all_measured_items. apply elem_of_list_omap. by exists i. }
    revert Hi. generalize (Tables ∅ ∅). generalize items. clear - HmP HmS. intros l. induction l as [|i l IH]; intros b Hi; [by eexists|]. cbn [rloop].
    assert (∃ b', step b i = Ok b') as [b' ->]; [|cbn [rbind]; apply IH; intros; eapply Hi; [by right|done|done]].
    destruct i as [ref [[sta ph] k]]. unfold step, count_phase. cbn [fst snd]. destruct (type_of validP validS ph) eqn:Et; [| |by eexists].
    all: destruct (xc_get _ _ _ _ _ _) as [e|] eqn:G; [|by eexists]; unfold count; destruct (e_valid e) eqn:V; [|by eexists].
    all: specialize (Hi (ref, (sta, ph, k)) (type_of validP validS ph) sta (ref, k, ph, e) ltac:(left)); unfold meas_of in Hi; rewrite decide_True in Hi by done; rewrite decide_True in Hi by (by rewrite Et); rewrite G in Hi; specialize (Hi eq_refl V); cbn [snd] in Hi.
    all: destruct (e_coeff e); [|done]; rewrite ?HmP, ?HmS; by eexists. }
  rewrite Eb. cbn [rbind].
  assert (∀ t, t ≠ TNO → is_Some (min_coef t) → ∃ q, make_part min_coef nthe lines_of t (table b t) = Ok q) as MP.
  { intros t Ht [m Em]. unfold make_part. destruct (lines_total (lines_of (table b t)) ([], (0, 0, 0)%nat)) as [[ls [[p f] a]] ->]; [|cbn [rbind]; rewrite Em; by eexists].
    apply Forall_forall. intros [sta c] Hx. rewrite Hlines in Hx. apply elem_of_map_to_list in Hx. apply five_number_total. cbn [snd]. pose proof (tables_ok items b t Eb Ht sta) as T. unfold tallied in T.
    pose proof (Hc t sta _ (all_measured_items t sta)) as K. destruct (omap (meas_of t sta) items); [cbn in T; congruence|]. destruct T as (m' & _ & T). rewrite Hx in T. injection T as ->. exact K. }
  destruct (MP TP ltac:(done) ltac:(by exists mp)) as [P HP]. destruct (MP TS ltac:(done) ltac:(by exists ms)) as [S' HS']. cbn [table] in HP, HS'. rewrite HP. cbn [rbind]. rewrite HS'. by eexists.
Qed.
(** C88: one, two or three valid measurements at a station are undefined behaviour. *)
Theorem C88_small t sta xs : is_Some (min_coef TP) → is_Some (min_coef TS) → (∀ t sta x, measured t sta x → valid x → e_coeff x.2 ≠ Indet) →
  t ≠ TNO → all_measured t sta xs → (1 ≤ length (filter valid xs) ≤ 3)%nat → summary_ = Bad.
Proof using Hnth Helems Hlines Hrefs.
  intros HmP HmS Hv Ht Hxs Hl. assert (length (coefficients xs) = length (filter valid xs)) as El.
  { assert (∀ x, x ∈ xs → valid x → e_coeff x.2 ≠ Indet) as K by (intros x Hx; apply (Hv t sta); by apply Hxs). clear - K. induction xs as [|x l IH]; [done|]. specialize (IH ltac:(intros; apply K; [by right|done])).
    specialize (K x ltac:(left)). rewrite filter_cons. unfold coefficients in *. cbn [omap list_omap]. destruct (decide (valid x)) as [V|V]; unfold valid in V; [rewrite V; destruct (e_coeff x.2); [cbn; by rewrite <- IH|by destruct K]|]. by destruct (e_valid x.2). }
  destruct summary_ as [r| |] eqn:E; [| |done].
  - exfalso. destruct (C88_summary r t E Ht) as (_ & _ & _ & _ & _ & H). destruct (H sta xs Hxs) as [_ H1]. destruct H1 as (ln & Hln & Es & _ & _ & _ & _); [intros ->; cbn in Hl; lia|].
    revert E. unfold log_summary. rewrite count_all_items. destruct (rloop step items _) as [b| |] eqn:Eb; cbn [rbind]; [|done|done]. intros E.
    assert (∃ q, make_part min_coef nthe lines_of t (table b t) = Ok q) as [q Hq].
    { destruct (make_part _ _ _ TP _) as [P| |] eqn:EP; cbn [rbind] in E; [|discriminate|discriminate]. destruct (make_part _ _ _ TS _) as [S'| |] eqn:ES; cbn [rbind] in E; [|discriminate|discriminate]. destruct t; [by eexists|by eexists|done]. }
    pose proof (tables_ok items b t Eb Ht sta) as T. unfold tallied in T. pose proof (all_measured_perm t sta _ _ Hxs (all_measured_items t sta)) as HP.
    destruct (omap (meas_of t sta) items) as [|y ys]; [apply Permutation_nil_r in HP; subst xs; cbn in Hl; lia|]. destruct T as (m & _ & T).
    unfold make_part in Hq. rewrite (lines_bad _ _ (sta, tally m (y :: ys))) in Hq; [discriminate|rewrite Hlines; by apply elem_of_map_to_list|].
    cbn [snd tally k_coeff]. apply C20_small_refuted. rewrite <- (coefficients_perm _ _ HP). lia.
  - exfalso. revert E. unfold log_summary. rewrite count_all_items.
    assert (∀ l b, rloop step l b ≠ Exc) as N1.
    { clear - HmP HmS. destruct HmP as [mp HmP], HmS as [ms HmS]. intros l. induction l as [|i l IH]; intros b; [done|]. cbn [rloop]. assert (step b i ≠ Exc) as N; [|destruct (step b i); cbn; [apply IH|done|done]].
      destruct i as [ref [[s' ph] k]]. unfold step, count_phase. cbn [fst snd]. destruct (type_of _ _ _); [| |done]; (destruct (xc_get _ _ _ _ _ _) as [e|]; [|done]); unfold count; (destruct (e_valid e); [|done]); (destruct (e_coeff e); [|done]); by rewrite ?HmP, ?HmS. }
    assert (∀ t m, is_Some (min_coef t) → make_part min_coef nthe lines_of t m ≠ Exc) as N2.
    { clear. intros t m [mc Em]. unfold make_part. assert (∀ L a, rloop (line_step nthe) L a ≠ Exc) as N.
      { intros L. induction L as [|x L IH]; intros [ls [[p f] a]]; [done|]. cbn [rloop]. unfold line_step at 1. destruct (five_number _ _ _ _); cbn [rbind]; [apply IH|done]. }
      specialize (N (lines_of m) ([], (0, 0, 0)%nat)). destruct (rloop _ _ _) as [[ls [[p f] a]]| |]; cbn [rbind]; [by rewrite Em|done|done]. }
    specialize (N1 items (Tables ∅ ∅)). destruct (rloop step items _) as [b| |]; cbn [rbind]; [|done|done]. pose proof (N2 TP (b_P b) HmP) as N3. destruct (make_part _ _ _ TP _); cbn [rbind]; [|done|done].
    pose proof (N2 TS (b_S b) HmS) as N4. destruct (make_part _ _ _ TS _); cbn [rbind]; done.
Qed.
End props.

(** ** The hypotheses are met *)
Definition sort_nth (l : list R) (k : nat) : list R := merge_sort Rle l.
Lemma sort_nth_spec : nthe_spec Rle sort_nth.
Proof.
  intros l k Hk. unfold sort_nth. destruct (sorted_exists Rle l) as [HP HS]. split; [done|]. set (s := merge_sort Rle l) in *. assert (k < length s)%nat as Hk' by (by rewrite HP).
  destruct (lookup_lt_is_Some_2 s k Hk') as [m Hm]. exists (take k s), m, (drop (S k) s). split; [by rewrite take_drop_middle|]. split; [rewrite take_length; lia|].
  rewrite <- (take_drop_middle s k m Hm) in HS. clear -HS. revert HS. generalize (take k s) (drop (S k) s). intros a b. induction a as [|x a IH]; cbn; intros HS; apply StronglySorted_inv in HS as [HS Hf].
  - split; [constructor|]. done.
  - destruct (IH HS) as [H1 H2]. split; [|done]. constructor; [|done]. apply Forall_app in Hf as [_ Hf]. by inversion Hf.
Qed.
Definition ex_A : text := list_ascii_of_string "NET.A.".
Definition ex_P : text := list_ascii_of_string "P".
Definition ex_min (t : ptype) : option R := Some (1 / 2).
Section example.
Variable c : R.
Definition ex_entry : @entry dbl dbl := Entry true (Num c) (Num 0).
(** Events 2 to k + 1 are the neighbours of event 1, and each was correlated with it *)
Definition ex_n (l : list N) : neigh := fold_left (λ n k, n_add n k ex_A ex_P) l (Neigh 1 ∅).
Definition ex_xc (l : list N) : gmap N (gmap string (gmap string (gmap N (@entry dbl dbl)))) := fold_left (λ m k, xc_add m 1%N k "NET.A."%string "P"%string ex_entry) l ∅.
Definition ex_meas (l : list N) : list (N * N * text * @entry dbl dbl) := (λ k, (1%N, k, ex_P, ex_entry)) <$> l.
Lemma ex_measured l t sta x : l = [2; 3; 4; 5]%N ∨ l = [2]%N → measured [ex_P] [] [ex_n l] (ex_xc l) t sta x ↔ t = TP ∧ sta = ex_A ∧ x ∈ ex_meas l.
Proof.
  intros Hl. assert (n_phases (ex_n l) ≡ₚ (λ k, (ex_A, ex_P, k)) <$> l) as Hn.
  { destruct Hl as [->| ->]; [|done]. apply NoDup_Permutation; [apply NoDup_n_phases|apply NoDup_fmap_2; [intros ? ? [= ->]; done|]; repeat constructor; set_solver|]. intros y.
    set (u := n_phases _). vm_compute in u. subst u. set (w := _ <$> _). vm_compute in w. subst w. rewrite !elem_of_cons, elem_of_nil. tauto. }
  assert (∀ k, k ∈ l → xc_get dneg (ex_xc l) 1%N k "NET.A."%string "P"%string = Some ex_entry) as Hx.
  { intros k Hk. destruct Hl as [->| ->]; repeat (apply elem_of_cons in Hk as [->|Hk]; [reflexivity|]); by apply elem_of_nil in Hk. }
  destruct x as [[[ref k] ph] e]. unfold measured, ex_meas. rewrite elem_of_list_fmap. split.
  - intros (Ht & (n & ->%elem_of_list_singleton & Er & Hi) & G). apply elem_of_n_phases in Hi. rewrite Hn in Hi. apply elem_of_list_fmap in Hi as (k' & [= -> -> ->] & Hk).
    assert (ref = 1%N) as -> by (rewrite <- Er; destruct Hl as [->| ->]; reflexivity). change (string_of_list_ascii ex_A) with "NET.A."%string in G. change (string_of_list_ascii ex_P) with "P"%string in G. rewrite Hx in G by done. injection G as <-.
    split; [|split; [done|by exists k']]. destruct t; cbn in Ht; [done| |done]. destruct Ht as [Ht _]. exfalso. apply Ht. left.
  - intros (-> & -> & k' & [= -> -> -> ->] & Hk). split; [left|]. split; [|by apply Hx]. exists (ex_n l). split; [left|]. split; [destruct Hl as [->| ->]; reflexivity|]. apply elem_of_n_phases. rewrite Hn. apply elem_of_list_fmap. by exists k'.
Qed.
Lemma ex_all l : l = [2; 3; 4; 5]%N ∨ l = [2]%N → all_measured [ex_P] [] [ex_n l] (ex_xc l) TP ex_A (ex_meas l).
Proof.
  intros Hl. split; [apply NoDup_fmap_2; [intros ? ? [= ->]; done|]; destruct Hl as [->| ->]; repeat constructor; set_solver|]. intros x. rewrite ex_measured by done. tauto.
Qed.
(** Four correlations at a station *)
Example C88_example : ∃ r ln, log_summary [ex_P] [] ex_min sort_nth n_phases map_to_list [ex_n [2; 3; 4; 5]%N] (ex_xc [2; 3; 4; 5]%N) = Ok r ∧
  ln ∈ p_lines r.1 ∧ l_sta ln = ex_A ∧ l_tot ln = 4%nat ∧ l_failed ln = 0%nat ∧ l_above ln = length (filter (above (1 / 2)) (ex_meas [2; 3; 4; 5]%N)) ∧
  s_min (l_five ln) = Rabs c ∧ s_max (l_five ln) = Rabs c.
Proof.
  set (l := [2; 3; 4; 5]%N). assert (l = [2; 3; 4; 5]%N ∨ l = [2]%N) as Hl by (by left). pose proof (ex_all l Hl) as HA.
  destruct (C88_defined [ex_P] [] ex_min sort_nth n_phases map_to_list sort_nth_spec ltac:(done) ltac:(done) [ex_n l] ltac:(apply NoDup_singleton) (ex_xc l)) as [r Hr]; [by eexists|by eexists| | |].
  - intros t sta x (-> & -> & Hx)%ex_measured _; [|done]. apply elem_of_list_fmap in Hx as (k & -> & _). done.
  - intros t sta xs Hxs. destruct (decide (xs = [])) as [->|Ne]; [cbn; lia|]. destruct xs as [|x xs']; [done|]. assert (t = TP ∧ sta = ex_A) as [-> ->]. { destruct Hxs as [_ Hxs]. destruct (Hxs x) as [K _]. specialize (K ltac:(left)). apply ex_measured in K; [tauto|done]. }
    rewrite (Permutation_length (coefficients_perm _ _ (all_measured_perm _ _ _ _ _ _ _ _ Hxs HA))). cbn. lia.
  - destruct (C88_summary [ex_P] [] ex_min sort_nth n_phases map_to_list sort_nth_spec ltac:(done) ltac:(done) [ex_n l] ltac:(apply NoDup_singleton) (ex_xc l) r TP Hr ltac:(done)) as (Em & _ & _ & _ & _ & H).
    destruct (H ex_A _ HA) as [_ H1]. destruct H1 as (ln & Hln & Es & Et & Ef & Ea & [_ E5]); [done|]. exists r, ln. split; [exact Hr|]. split; [exact Hln|]. split; [done|]. split; [done|]. split; [done|].
    unfold ex_min in Em. injection Em as Em. cbn [choose_part] in *. split; [rewrite Ea, <- Em; done|].
    destruct (E5 ltac:(done) [Rabs c; Rabs c; Rabs c; Rabs c]) as (H0 & H3 & _); [|cbn in H0, H3; split; congruence]. split; [done|]. repeat constructor; apply Rle_refl.
Qed.
(** C88: the full statement is false: a single correlation at a station is undefined behaviour. *)
Theorem C88_single_refuted : log_summary [ex_P] [] ex_min sort_nth n_phases map_to_list [ex_n [2]%N] (ex_xc [2]%N) = Bad.
Proof.
  set (l := [2]%N). assert (l = [2; 3; 4; 5]%N ∨ l = [2]%N) as Hl by (by right). pose proof (ex_all l Hl) as HA.
  eapply (C88_small [ex_P] [] ex_min sort_nth n_phases map_to_list sort_nth_spec ltac:(done) ltac:(done) [ex_n l] ltac:(apply NoDup_singleton) (ex_xc l) TP ex_A); [by eexists|by eexists| |done|exact HA|change (length _) with 1%nat; lia].
  intros t sta x (-> & -> & Hx)%ex_measured _; [|done]. apply elem_of_list_fmap in Hx as (k & -> & _). done.
Qed.
End example.
Print Assumptions C88_summary.
Print Assumptions C88_defined.
Print Assumptions C88_small.
Print Assumptions C88_single_refuted.
