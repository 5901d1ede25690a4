(** C90: dumping the waveforms of a catalog. *)
From Coq Require Import Ascii Lia QArith.
From stdpp Require Import gmap list strings.
From Verif Require Import TimeWindow_Model Trace_Model XcorrWindow_Model WaveCache_Model Csv_Model Table_Model Catalog_Model Solver_Model
  XcorrBuild_Model Dump_Model Table_Proofs.
From Verif Require Catalog_Props.
From Coq Require Import Reals.
Local Open Scope nat_scope.

(** * Specification *)
Section spec.
Context {V I B : Type}.
Notation wave := (@trace I R).
Variable opt : xcorr_opt.
Variable bg : catalog V.
Variable ld : tw → phase V → event V → station V → transform → option wave.

(** What is asked for a component: transversal, radial, the norm of the horizontals, or the
    channel of the same band and instrument *)
Inductive asks (p : phase V) : text → phase V → transform → Prop :=
| ask_t : asks p (tx "T") p TTransversal
| ask_r : asks p (tx "R") p TRadial
| ask_l2 : asks p (tx "L2") p TL2
| ask_channel c p' : c ≠ [] → c ∉ [tx "T"; tx "R"; tx "L2"] →
    p_cha p' = (if decide (2 ≤ length (p_cha p)) then take 2 (p_cha p) else []) ++ c →
    p_ev p' = p_ev p → p_staid p' = p_staid p → p_time p' = p_time p → p_lower p' = p_lower p → p_upper p' = p_upper p →
    p_type p' = p_type p → p_net p' = p_net p → p_sta p' = p_sta p → p_loc p' = p_loc p → p_proc p' = p_proc p → p_reloc p' = p_reloc p →
    asks p c p' TNone.
(** The components of a phase: the configured ones, or the last letter of its channel *)
Definition component_of (o : phase_opt) (p : phase V) (c : text) : Prop :=
  (po_components o ≠ [] ∧ po_components o ≠ [[]] ∧ c ∈ po_components o) ∨
  (po_components o = [] ∨ po_components o = [[]]) ∧ (∃ a b x, p_cha p = [a; b; x] ∧ c = [x] ∨ length (p_cha p) ≠ 3 ∧ c = []).
(** The waveform [t] belongs to the dump, for this event, phase and component *)
Definition wanted (e : event V) (p : phase V) (c : text) (t : wave) : Prop :=
  ∃ k l i o w s p' tr,
    c_ev bg !! k = Some e ∧ c_ph bg !! e_id e = Some l ∧ p ∈ l ∧
    p_proc p = Some i ∧ pr_type i ≠ TNO ∧ xo_phase opt (pr_type i) = Some o ∧ component_of o p c ∧
    window_short (po_win o) (e_time e) (p_time p) = Some w ∧ c_sta bg !! p_staid p = Some s ∧ asks p c p' tr ∧ ld w p' e s tr = Some t.
(** ev<id>.<network>.<station>.<location>.<channel>.<type>.mseed *)
Definition name (e : event V) (p : phase V) (c : text) : text :=
  tx "ev" ++ put_u (e_id e) ++ tx "." ++ p_net p ++ tx "." ++ p_sta p ++ tx "." ++ p_loc p ++ tx "."
  ++ ((if decide (2 ≤ length (p_cha p)) then take 2 (p_cha p) else []) ++ c) ++ tx "." ++ p_type p ++ tx ".mseed".
(** The file of that name in a directory; the empty text is the current directory *)
Inductive in_dir : text → text → text → Prop :=
| in_here f : in_dir [] f f
| in_slash d f : in_dir (d ++ tx "/") f (d ++ tx "/" ++ f)
| in_other d x f : x ≠ "/"%char → in_dir (d ++ [x]) f (d ++ [x] ++ tx "/" ++ f).
(** Nothing is missing for the dump: every phase was classified, and those of type P or S have
    options with a window of some length and a known station *)
Definition ready : Prop :=
  ∀ k e l p, c_ev bg !! k = Some e → c_ph bg !! e_id e = Some l → p ∈ l →
    ∃ i, p_proc p = Some i ∧ (pr_type i ≠ TNO →
      ∃ o, xo_phase opt (pr_type i) = Some o ∧ secToDur (endOffset (po_win o) - startOffset (po_win o))%Q ≠ 0%Z ∧ is_Some (c_sta bg !! p_staid p)).
(** No two waveforms have the same name: codes without dots, events with their ids, and no two
    phases of an event at the same station with the same type *)
Definition no_dot (x : text) : Prop := "."%char ∉ x.
Record distinct : Prop := {
  di_ids : ∀ k e, c_ev bg !! k = Some e → e_id e = k;
  di_codes : ∀ k l p, c_ph bg !! k = Some l → p ∈ l → no_dot (p_net p) ∧ no_dot (p_sta p) ∧ no_dot (p_loc p) ∧ no_dot (p_cha p);
  di_components : ∀ t o c, xo_phase opt t = Some o → c ∈ po_components o → no_dot c;
  di_phases : ∀ k l p q, c_ph bg !! k = Some l → p ∈ l → q ∈ l → p_net p = p_net q → p_sta p = p_sta q → p_loc p = p_loc q → p_type p = p_type q → p = q }.
End spec.

Section proofs.
Context {V I B : Type}.
Notation wave := (@trace I R).
Variable opt : xcorr_opt.
Variable bg : catalog V.
Variable ld : tw → phase V → event V → station V → transform → option wave.
Notation W := (text * wave)%type.
Notation wanted := (wanted opt bg ld). Notation ready := (ready opt bg). Notation distinct := (distinct opt bg).
Notation dump_component := (dump_component bg ld). Notation dump_phase := (dump_phase opt bg ld). Notation dump_event := (dump_event opt bg ld).
Notation dump_waveforms := (dump_waveforms opt bg ld).

Lemma each_sound {A} (f : A → list W * res ()) l x : x ∈ (each f l).1 → ∃ a, a ∈ l ∧ x ∈ (f a).1.
Proof.
  induction l as [|a l IH]; cbn [each]; [by intros H%elem_of_nil|]. unfold obind. destruct ((f a).2) as [u| |] eqn:E; cbn [fst].
  - intros [H|H]%elem_of_app; [exists a; split; [by left|done]|]. destruct (IH H) as (b & Hb & Hx). exists b. split; [by right|done].
  - intros H. exists a. split; [by left|done].
  - intros H. exists a. split; [by left|done].
Qed.
Lemma each_ok {A} (f : A → list W * res ()) l : (∀ a, a ∈ l → (f a).2 = Ok ()) → (each f l).2 = Ok () ∧ ∀ a x, a ∈ l → x ∈ (f a).1 → x ∈ (each f l).1.
Proof.
  induction l as [|a l IH]; intros H; cbn [each]; [split; [done|]; by intros a x Ha%elem_of_nil|]. unfold obind. rewrite (H a) by (by left). cbn [fst snd].
  destruct IH as [I1 I2]; [intros b Hb; apply H; by right|]. split; [done|]. intros b x [->|Hb]%elem_of_cons Hx; apply elem_of_app; [by left|].
  right. by eapply I2.
Qed.
Lemma in_dir_join d f g : in_dir d f g ↔ join_path d f = g.
Proof.
  unfold join_path. split.
  - intros [f'|d' f'|d' x f' Hx]; [done| |].
    + change (tx "/") with ["/"%char]. rewrite last_snoc, decide_True by done. by rewrite <-app_assoc.
    + rewrite last_snoc, decide_False by done. by rewrite <-app_assoc.
  - destruct (last d) as [c|] eqn:E.
    + apply last_Some in E as [d' ->]. intros <-. case_decide as Hc; [subst c|].
      * rewrite <-app_assoc. apply in_slash.
      * rewrite <-app_assoc. by apply in_other.
    + apply last_None in E as ->. intros <-. constructor.
Qed.
Lemma band_spec (cha : text) : @eq (list ascii) (band_and_instrument cha) (if decide (2 ≤ length cha) then take 2 cha else [] : list ascii).
Proof. unfold band_and_instrument. repeat case_decide; try done; lia. Qed.
Lemma asks_request (p : phase V) c p' t : asks p c p' t ↔ request p c = Some (p', t).
Proof.
  unfold request. split.
  - intros [| | |c' q H1 H2 H3 H4 H5 H6 H7 H8 H9 H10 H11 H12 H13 H14]; try reflexivity.
    rewrite decide_False by done.
    rewrite decide_False by (intros ->; apply H2; by left). rewrite decide_False by (intros ->; apply H2; right; by left).
    rewrite decide_False by (intros ->; apply H2; right; right; by left).
    assert (set_channel p (band_and_instrument (p_cha p) ++ c') = q) as ->; [|done].
    unfold set_channel. rewrite band_spec, <-H3. destruct p, q; cbn in *; congruence.
  - intros H. case_decide as E0; [done|]. case_decide as E1; [injection H as <- <-; subst c; apply ask_t|].
    case_decide as E2; [injection H as <- <-; subst c; apply ask_r|]. case_decide as E3; [injection H as <- <-; subst c; apply ask_l2|].
    injection H as <- <-. apply ask_channel; try done. intros Hc. repeat (apply elem_of_cons in Hc as [Hc|Hc]; [done|]). by apply elem_of_nil in Hc.
Qed.
Lemma component_iff o (p : phase V) c : component_of o p c ↔ c ∈ (match po_components o with [] | [[]] => [orientation (p_cha p)] | l => l end).
Proof.
  assert (∀ c, (∃ a b x, p_cha p = [a; b; x] ∧ c = [x] ∨ length (p_cha p) ≠ 3 ∧ c = []) ↔ c ∈ [orientation (p_cha p)]) as O.
  { clear c. intros c. rewrite elem_of_list_singleton. unfold orientation. split.
    - intros (a & b & x & [[E ->]|[E ->]]); [by rewrite E|]. by rewrite decide_False.
    - destruct (p_cha p) as [|a [|b [|x [|y l]]]]; cbn; intros ->; try (by exists "a"%char, "a"%char, "a"%char; right).
      exists a, b, x. by left. }
  unfold component_of. rewrite <-O || idtac.
  destruct (po_components o) as [|h r] eqn:E.
  - rewrite <-O. split; [intros [(N & _)|[_ H]]; [done|exact H]|]. intros H. right. split; [by left|done].
  - destruct h as [|y h]; [destruct r as [|z r]|].
    + rewrite <-O. split; [intros [(_ & N & _)|[_ H]]; [done|exact H]|]. intros H. right. split; [by right|done].
    + split; [intros [(_ & _ & H)|[[N|N] _]]; [done|done|discriminate]|]. intros H. by left.
    + split; [intros [(_ & _ & H)|[[N|N] _]]; [done|done|discriminate]|]. intros H. by left.
Qed.
Lemma path_name dir (e : event V) p c : in_dir dir (name e p c) (waveform_path dir e p (band_and_instrument (p_cha p) ++ c)).
Proof. apply in_dir_join. unfold name, waveform_path. by rewrite band_spec. Qed.
(** All that is written is wanted, however the function ends *)
Lemma dump_sound ex cr dir f t : (f, t) ∈ (dump_waveforms ex cr dir).1 → ∃ e p c, wanted e p c t ∧ in_dir dir (name e p c) f.
Proof.
  unfold Dump_Model.dump_waveforms. destruct (match dir with [] => false | _ => _ end); [by intros H%elem_of_nil|].
  intros (e & He & H)%each_sound. apply Catalog_Props.elem_of_sorted_events in He as [k Hk].
  unfold Dump_Model.dump_event in H. apply each_sound in H as (p & Hp & H). unfold phs in Hp.
  destruct (c_ph bg !! e_id e) as [l|] eqn:El; [|by apply elem_of_nil in Hp]. cbn in Hp.
  unfold Dump_Model.dump_phase, obind, pure, proc in H. destruct (p_proc p) as [i|] eqn:Ei; cbn [fst snd app] in H; [|by apply elem_of_nil in H].
  assert (pr_type i ≠ TNO ∧ (f, t) ∈ (let x := short_window opt e p in match x with Ok w => (match components opt p with Ok l => each (dump_component dir w e p) l | _ => ([], Bad) end).1 | _ => [] end)) as [Ht H2].
  { destruct (pr_type i); [| |by apply elem_of_nil in H]; (split; [done|]); destruct (short_window opt e p); cbn in *; try (by apply elem_of_nil in H);
      destruct (components opt p); cbn in *; try (by apply elem_of_nil in H); done. }
  clear H. cbv zeta in H2. unfold short_window, components, opt_of, proc in H2. rewrite Ei in H2. cbn [rbind] in H2.
  destruct (xo_phase opt (pr_type i)) as [o|] eqn:Eo; cbn [rbind at_] in H2; [|by apply elem_of_nil in H2].
  destruct (window_short _ _ _) as [w|] eqn:Ew; cbn [rbind] in H2; [|by apply elem_of_nil in H2].
  apply each_sound in H2 as (c & Hc & H). apply component_iff in Hc.
  unfold Dump_Model.dump_component, obind, pure, get_waveform in H. destruct (c_sta bg !! p_staid p) as [s|] eqn:Es; cbn [at_ rbind fst snd app] in H; [|by apply elem_of_nil in H].
  destruct (request p c) as [[p' tr]|] eqn:Er; [|by apply elem_of_nil in H]. destruct (ld w p' e s tr) as [t'|] eqn:El'; [|by apply elem_of_nil in H].
  cbn in H. apply elem_of_list_singleton in H. injection H as -> ->. exists e, p, c. split; [|apply path_name].
  exists k, l, i, o, w, s, p', tr. apply asks_request in Er. done.
Qed.
(** If nothing is missing all that is wanted is written *)
Lemma dump_complete ex cr dir : ready → (dir = [] ∨ ex = true ∨ cr = true) →
  (dump_waveforms ex cr dir).2 = Ok () ∧ ∀ e p c t, wanted e p c t → ∃ f, in_dir dir (name e p c) f ∧ (f, t) ∈ (dump_waveforms ex cr dir).1.
Proof.
  intros Rd Hd. unfold Dump_Model.dump_waveforms.
  replace (match dir with [] => false | _ => negb ex && negb cr end) with false by (destruct dir, ex, cr; cbn; try done; naive_solver).
  assert (∀ e p l k, c_ev bg !! k = Some e → c_ph bg !! e_id e = Some l → p ∈ l → (dump_phase dir e p).2 = Ok () ∧
    ∀ c t, wanted e p c t → ∃ f, in_dir dir (name e p c) f ∧ (f, t) ∈ (dump_phase dir e p).1) as P.
  { intros e p l k He El Hp. destruct (Rd k e l p He El Hp) as (i & Ei & R2).
    assert (pr_type i = TNO ∨ pr_type i ≠ TNO) as [E|N] by (destruct (pr_type i); [by right|by right|by left]).
    { unfold Dump_Model.dump_phase, obind, pure, proc. rewrite Ei. cbn [fst snd app]. rewrite E. split; [done|]. intros c t (k' & l' & i' & H). destruct H as (o & w & s & p' & tr & _ & _ & _ & Ei' & N & _). congruence. }
    destruct (R2 N) as (o & Eo & Hw & [s Es]). assert (∃ w, window_short (po_win o) (e_time e) (p_time p) = Some w) as [w Ew].
    { unfold window_short. rewrite decide_False by done. eauto. }
    assert (short_window opt e p = Ok w) as E1. { unfold short_window, opt_of, proc. rewrite Ei. cbn [rbind]. rewrite Eo. cbn [rbind at_]. by rewrite Ew. }
    destruct (components opt p) as [cl| |] eqn:E2; [|unfold components, opt_of, proc in E2; rewrite Ei in E2; cbn [rbind] in E2; rewrite Eo in E2; discriminate..].
    assert (∀ c, component_of o p c ↔ c ∈ cl) as Hc.
    { intros c. rewrite component_iff. unfold components, opt_of, proc in E2. rewrite Ei in E2. cbn [rbind] in E2. rewrite Eo in E2. cbn [rbind at_] in E2. by injection E2 as <-. }
    assert (∀ c, (dump_component dir w e p c).2 = Ok ()) as Hk.
    { intros c. unfold Dump_Model.dump_component, obind, pure, get_waveform. rewrite Es. cbn [at_ rbind fst snd]. destruct (request p c) as [[p' tr]|]; [|done]. by destruct (ld w p' e s tr). }
    destruct (each_ok (dump_component dir w e p) cl (λ c _, Hk c)) as [Eo2 Em].
    assert ((dump_phase dir e p) = each (dump_component dir w e p) cl) as Edp.
    { unfold Dump_Model.dump_phase, obind, pure, proc. rewrite Ei. cbn [fst snd app]. rewrite E1, E2. cbn [fst snd app]. destruct (pr_type i); [| |done]; by destruct (each _ cl). }
    rewrite Edp. split; [done|].
    intros c t (k' & l' & i' & o' & w' & s' & p' & tr & _ & _ & _ & Ei' & _ & Eo' & Hco & Ew' & Es' & Ha & Hl).
    assert (i' = i) as -> by congruence. assert (o' = o) as -> by congruence. assert (w' = w) as -> by congruence. assert (s' = s) as -> by congruence.
    apply Hc in Hco. exists (waveform_path dir e p (band_and_instrument (p_cha p) ++ c)). split; [apply path_name|]. eapply Em; [exact Hco|].
    unfold Dump_Model.dump_component, obind, pure, get_waveform. rewrite Es. cbn [at_ rbind fst snd app]. apply asks_request in Ha. rewrite Ha, Hl. cbn. by left. }
  assert (∀ e, e ∈ sorted_events (c_ev bg) → (dump_event dir e).2 = Ok () ∧ ∀ l p c t, c_ph bg !! e_id e = Some l → p ∈ l → wanted e p c t → ∃ f, in_dir dir (name e p c) f ∧ (f, t) ∈ (dump_event dir e).1) as E.
  { intros e [k He]%Catalog_Props.elem_of_sorted_events. unfold Dump_Model.dump_event, phs. destruct (c_ph bg !! e_id e) as [l|] eqn:El; cbn [default].
    - destruct (each_ok (dump_phase dir e) l) as [E1 E2]; [intros p Hp; by eapply P|]. split; [done|]. intros l' p c t [= <-] Hp Hw.
      destruct (P e p l k He El Hp) as [_ P2]. destruct (P2 c t Hw) as (f & Hf & Hi). exists f. split; [done|]. by eapply E2.
    - split; [done|]. done. }
  destruct (each_ok (dump_event dir) (sorted_events (c_ev bg))) as [E1 E2]; [intros e He; by apply E|]. split; [done|].
  intros e p c t Hw. pose proof Hw as (k & l & _ & _ & _ & _ & _ & _ & He & El & Hp & _).
  assert (e ∈ sorted_events (c_ev bg)) as Hs by (apply Catalog_Props.elem_of_sorted_events; by exists k).
  destruct (proj2 (E e Hs) l p c t El Hp Hw) as (f & Hf & Hi). exists f. split; [done|]. by eapply E2.
Qed.

(** ** Names *)
Lemma no_dot_digits n : no_dot (put_u n).
Proof.
  destruct (put_u_spec n) as (d & -> & _ & Hd & _). intros H. rewrite forallb_forall in Hd. apply elem_of_list_In, Hd in H. discriminate.
Qed.
Lemma dot_split (a b x y : text) : no_dot a → no_dot b → a ++ tx "." ++ x = b ++ tx "." ++ y → a = b ∧ x = y.
Proof.
  revert b. induction a as [|c a IH]; intros b Ha Hb E.
  - destruct b as [|d b]; [by injection E as ->|]. injection E as <- _. destruct Hb. by left.
  - apply not_elem_of_cons in Ha as [Hc Ha]. destruct b as [|d b]; [injection E as -> _; done|]. apply not_elem_of_cons in Hb as [Hd Hb].
    injection E as -> E. destruct (IH b Ha Hb E) as [-> ->]. done.
Qed.
Lemma no_dot_band (cha : text) : no_dot cha → no_dot (if decide (2 ≤ length cha) then take 2 cha else []).
Proof. intros H. case_decide; [|apply not_elem_of_nil]. intros Hi. apply H. rewrite <-(take_drop 2 cha). apply elem_of_app. by left. Qed.
Lemma put_u_inj m n : put_u m = put_u n → m = n.
Proof.
  intros E. destruct (put_u_spec m) as (d & Ed & Vd & _). destruct (put_u_spec n) as (d' & Ed' & Vd' & _). apply N2Z.inj. rewrite <-Vd, <-Vd', <-Ed, <-Ed', E. reflexivity.
Qed.
Lemma wanted_no_dot e p c t : distinct → wanted e p c t → no_dot (p_net p) ∧ no_dot (p_sta p) ∧ no_dot (p_loc p) ∧ no_dot ((if decide (2 ≤ length (p_cha p)) then take 2 (p_cha p) else []) ++ c).
Proof.
  intros D (k & l & i & o & w & s & p' & tr & He & El & Hp & _ & _ & Eo & Hc & _). destruct (di_codes _ _ D _ _ _ El Hp) as (H1 & H2 & H3 & H4).
  split; [done|]. split; [done|]. split; [done|]. intros [H|H]%elem_of_app; [by apply no_dot_band in H|].
  destruct Hc as [(_ & _ & Hc)|[_ (a & b & x & [[E ->]|[_ ->]])]]; [by apply (di_components _ _ D _ _ _ Eo Hc)| |by apply elem_of_nil in H].
  apply H4. rewrite E. apply elem_of_list_singleton in H as ->. right. right. by left.
Qed.
Lemma name_inj e p c t e' p' c' t' : distinct → wanted e p c t → wanted e' p' c' t' → name e p c = name e' p' c' → e = e' ∧ p = p' ∧ c = c'.
Proof.
  intros D W W' E. destruct (wanted_no_dot _ _ _ _ D W) as (A1 & A2 & A3 & A4). destruct (wanted_no_dot _ _ _ _ D W') as (B1 & B2 & B3 & B4).
  unfold name in E. apply app_inv_head in E. apply dot_split in E as [E0 E]; [|apply no_dot_digits..]. apply put_u_inj in E0.
  apply dot_split in E as [E1 E]; [|done..]. apply dot_split in E as [E2 E]; [|done..]. apply dot_split in E as [E3 E]; [|done..].
  apply dot_split in E as [E4 E]; [|done..]. apply app_inv_tail in E.
  destruct W as (k & l & _ & _ & _ & _ & _ & _ & He & El & Hp & _). destruct W' as (k' & l' & _ & _ & _ & _ & _ & _ & He' & El' & Hp' & _).
  pose proof (di_ids _ _ D _ _ He). pose proof (di_ids _ _ D _ _ He'). assert (k = k') as <- by congruence. assert (e = e') as <- by congruence.
  assert (l = l') as <- by congruence. pose proof (di_phases _ _ D _ _ _ _ El Hp Hp' E1 E2 E3 E) as <-. apply app_inv_head in E4. done.
Qed.
Lemma wanted_det e p c t t' : wanted e p c t → wanted e p c t' → t = t'.
Proof.
  intros (k & l & i & o & w & s & p' & tr & _ & _ & _ & Ei & _ & Eo & _ & Ew & Es & Ha & Hl) (k2 & l2 & i2 & o2 & w2 & s2 & p2 & tr2 & _ & _ & _ & Ei2 & _ & Eo2 & _ & Ew2 & Es2 & Ha2 & Hl2).
  assert (i2 = i) as -> by congruence. assert (o2 = o) as -> by congruence. assert (w2 = w) as -> by congruence. assert (s2 = s) as -> by congruence.
  apply asks_request in Ha, Ha2. assert (p2 = p') as -> by congruence. assert (tr2 = tr) as -> by congruence. congruence.
Qed.

(** ** Files *)
Notation fs := (@gmap text _ (@list_countable Ascii.ascii _ stdpp.strings.ascii_countable) (list B)).
Variable write : text → wave → option (list B).
Lemma files_other (d : fs) ws f : (∀ t, (f, t) ∉ ws) → files write d ws !! f = d !! f.
Proof.
  revert d. unfold files. induction ws as [|[g t] ws IH]; intros d H; cbn [fold_left]; [done|].
  rewrite IH by (intros t' Ht; apply (H t'); by right). unfold write_file. cbn [fst snd]. destruct (write g t) as [bs|]; [|done].
  apply lookup_insert_ne. intros ->. apply (H t). by left.
Qed.
Lemma files_same (d : fs) ws f t bs : (f, t) ∈ ws → (∀ t', (f, t') ∈ ws → t' = t) → write f t = Some bs → files write d ws !! f = Some bs.
Proof.
  intros Hin Hu Hw. revert d Hin. unfold files. induction ws as [|[g t'] ws IH]; intros d Hin; [by apply elem_of_nil in Hin|]. cbn [fold_left].
  assert (∀ t', (f, t') ∈ ws → t' = t) as Hu' by (intros t2 H2; apply Hu; by right). specialize (IH Hu').
  destruct (decide (Exists (λ x, x.1 = f) ws)) as [Hex|Hne].
  - apply IH. apply Exists_exists in Hex as ([g2 t2] & H2 & E2). cbn in E2. subst g2. by rewrite <-(Hu' t2 H2).
  - fold (files write (write_file write d (g, t')) ws). rewrite files_other.
    + apply elem_of_cons in Hin as [[= <- <-]|Hin]; [|exfalso; apply Hne, Exists_exists; by exists (f, t)]. unfold write_file. cbn [fst snd]. rewrite Hw. apply lookup_insert.
    + intros t2 H2. apply Hne, Exists_exists. by exists (f, t2).
Qed.

(** * Theorems *)
(** What is handed to writeTrace is wanted, whatever the state of the catalog and of the disk; if
    nothing is missing, all that is wanted, and the function returns. *)
Theorem C90_dump ex cr dir : 
  (∀ f t, (f, t) ∈ (dump_waveforms ex cr dir).1 → ∃ e p c, wanted e p c t ∧ in_dir dir (name e p c) f) ∧
  (ready → dir = [] ∨ ex = true ∨ cr = true →
   (dump_waveforms ex cr dir).2 = Ok () ∧ ∀ e p c t, wanted e p c t → ∃ f, in_dir dir (name e p c) f ∧ (f, t) ∈ (dump_waveforms ex cr dir).1).
Proof. split; [intros f t; apply dump_sound|apply dump_complete]. Qed.
(** Without the directory nothing is written *)
Theorem C90_directory dir : dir ≠ [] → dump_waveforms false false dir = ([], Exc).
Proof. intros H. unfold Dump_Model.dump_waveforms. by destruct dir. Qed.
(** The files afterwards: every waveform is in its own file, unless that file could not be written,
    and all other files are as before *)
Theorem C90_files ex cr dir (d : fs) : ready → distinct → dir = [] ∨ ex = true ∨ cr = true →
  let after := files write d (dump_waveforms ex cr dir).1 in
  (∀ e p c t f bs, wanted e p c t → in_dir dir (name e p c) f → write f t = Some bs → after !! f = Some bs) ∧
  (∀ f, (∀ e p c t, wanted e p c t → ¬ in_dir dir (name e p c) f) → after !! f = d !! f).
Proof.
  intros Rd D Hd after. split.
  - intros e p c t f bs W Hf Hw. destruct (dump_complete ex cr dir Rd Hd) as [_ C]. destruct (C e p c t W) as (f' & Hf' & Hin).
    apply in_dir_join in Hf, Hf'. assert (f' = f) as -> by congruence. eapply files_same; [exact Hin| |done].
    intros t' Hin'. destruct (dump_sound _ _ _ _ _ Hin') as (e' & p' & c' & W' & Hf2). apply in_dir_join in Hf2.
    assert (name e' p' c' = name e p c) as En.
    { rewrite <-Hf in Hf2. unfold join_path in Hf2. destruct (last dir); [|done]. case_decide; [by apply app_inv_head in Hf2|]. by apply app_inv_head, app_inv_head in Hf2. }
    destruct (name_inj _ _ _ _ _ _ _ _ D W' W En) as (-> & -> & ->). by eapply wanted_det.
  - intros f H. apply files_other. intros t Hin. destruct (dump_sound _ _ _ _ _ Hin) as (e & p & c & W & Hf). by eapply H.
Qed.
End proofs.

(** * Cases *)
Definition ex_win : xcorr_cfg := XcorrCfg (-1) 2 1 0.
Definition ex_opt (pc sc : list text) : xcorr_opt :=
  XcorrOpt true 0 0 0 (λ t, match t with TP => Some (PhaseOpt ex_win pc) | TS => Some (PhaseOpt ex_win sc) | TNO => None end).
Definition ex_phase (ty : text) (time : Z) (t : ptype) : phase unit :=
  Pha 7 (tx "CH.ABC.") time tt tt ty (tx "CH") (tx "ABC") [] (tx "HHZ") (Some (Proc t tt SrcCatalog)) None.
Definition ex_event : event unit := Ev 7 0 tt tt tt tt None.
Definition ex_cat (l : list (phase unit)) : catalog unit :=
  Cat {[ tx "CH.ABC." := Sta (tx "CH.ABC.") tt tt tt (tx "CH") (tx "ABC") [] ]} {[ 7%N := ex_event ]} {[ 7%N := l ]}.
(** The waveform of the vertical channel exists, and the transversal one *)
Definition ex_ld : tw → phase unit → event unit → station unit → transform → option (@trace nat R) := λ w p _ _ t,
  match t with
  | TNone => if decide (p_cha p = tx "HHZ") then Some (MkTrace 0%nat (w_start w) 100 []) else None
  | TTransversal => Some (MkTrace 1%nat (w_start w) 100 [])
  | _ => None
  end.
Definition ex_write (f : text) (t : @trace nat R) : option (list Z) := Some [Z.of_nat (t_id t); t_start t].
Definition ex_phases : list (phase unit) := [ex_phase (tx "Pg") 5000000 TP; ex_phase (tx "S") 9000000 TS; ex_phase (tx "AML") 9500000 TNO].
(** P with its own channel, S with the components N and T *)
Notation ex_o := (ex_opt [] [tx "N"; tx "T"]).
Example C90_example :
  ready ex_o (ex_cat ex_phases) ∧ distinct ex_o (ex_cat ex_phases) ∧
  dump_waveforms ex_o (ex_cat ex_phases) ex_ld false true (tx "out") =
    ([ (tx "out/ev7.CH.ABC..HHZ.Pg.mseed", MkTrace 0%nat 4000000 100 []); (tx "out/ev7.CH.ABC..HHT.S.mseed", MkTrace 1%nat 8000000 100 []) ], Ok ()).
Proof.
  assert (∀ k e, c_ev (ex_cat ex_phases) !! k = Some e → k = 7%N ∧ e = ex_event) as He.
  { intros k e H. cbn in H. apply lookup_singleton_Some in H as [<- <-]. done. }
  assert (∀ k l, c_ph (ex_cat ex_phases) !! k = Some l → k = 7%N ∧ l = ex_phases) as Hp.
  { intros k e H. cbn in H. apply lookup_singleton_Some in H as [<- <-]. done. }
  assert (∀ p, p ∈ ex_phases → p = ex_phase (tx "Pg") 5000000 TP ∨ p = ex_phase (tx "S") 9000000 TS ∨ p = ex_phase (tx "AML") 9500000 TNO) as H3.
  { intros p H. repeat (apply elem_of_cons in H as [H|H]; [by auto|]). by apply elem_of_nil in H. }
  split; [|split].
  - intros k e l p [-> ->]%He [_ ->]%Hp [->|[->| ->]]%H3; (eexists; split; [reflexivity|]); cbn [pr_type]; intros Hn.
    + eexists. split; [reflexivity|]. split; [vm_compute; discriminate|]. vm_compute. by eexists.
    + eexists. split; [reflexivity|]. split; [vm_compute; discriminate|]. vm_compute. by eexists.
    + by destruct Hn.
  - assert (∀ x : text, forallb (λ c, negb (bool_decide (c = "."%char))) x = true → no_dot x) as Nd.
    { intros x Hx Hi. rewrite forallb_forall in Hx. apply elem_of_list_In, Hx in Hi. discriminate. }
    constructor.
    + intros k e [-> ->]%He. done.
    + intros k l p [_ ->]%Hp [->|[->| ->]]%H3; (split; [by apply Nd|]; split; [by apply Nd|]; split; by apply Nd).
    + intros t o c Ho Hc. destruct t; cbn in Ho; [| |done]; injection Ho as <-; cbn in Hc; [by apply elem_of_nil in Hc|].
      apply elem_of_cons in Hc as [->|Hc]; [by apply Nd|]. apply elem_of_list_singleton in Hc as ->. by apply Nd.
    + intros k l p q [_ ->]%Hp [->|[->| ->]]%H3 [->|[->| ->]]%H3 _ _ _ Ht; try done.
  - vm_compute. reflexivity.
Qed.
(** Two picks of the same type at one station: the second file replaces the first *)
Theorem C90_overwritten_refuted : ∃ (bg : catalog unit) e p c t f bs,
  ready ex_o bg ∧ wanted ex_o bg ex_ld e p c t ∧ in_dir [] (name e p c) f ∧ ex_write f t = Some bs ∧
  files ex_write ∅ (dump_waveforms ex_o bg ex_ld false false []).1 !! f ≠ Some bs.
Proof.
  set (p1 := ex_phase (tx "P") 5000000 TP). set (p2 := ex_phase (tx "P") 5100000 TP).
  exists (ex_cat [p1; p2]), ex_event, p1, (tx "Z"), (MkTrace 0%nat 4000000 100 []), (tx "ev7.CH.ABC..HHZ.P.mseed"), [0; 4000000]%Z.
  split; [|split; [|split; [|split]]].
  - intros k e l p H1 H2 Hp. cbn in H1, H2. apply lookup_singleton_Some in H1 as [<- <-]. apply lookup_singleton_Some in H2 as [_ <-].
    assert (p = p1 ∨ p = p2) as Hp' by (repeat (apply elem_of_cons in Hp as [Hp|Hp]; [by auto|]); by apply elem_of_nil in Hp).
    destruct Hp' as [->| ->]; (eexists; split; [reflexivity|]; intros _; eexists; split; [reflexivity|]; split; [vm_compute; discriminate|];
      vm_compute; by eexists).
  - exists 7%N, [p1; p2], (Proc TP tt SrcCatalog), (PhaseOpt ex_win []). eexists. eexists. exists p1, TNone.
    split; [vm_compute; reflexivity|]. split; [vm_compute; reflexivity|]. split; [by left|]. split; [done|]. split; [done|]. split; [done|].
    split. { right. split; [by left|]. exists "H"%char, "H"%char, "Z"%char. by left. }
    split; [vm_compute; reflexivity|]. split; [vm_compute; reflexivity|]. split; [|by vm_compute].
    apply ask_channel; try done. vm_compute. intros H. repeat (apply elem_of_cons in H as [H|H]; [discriminate|]). by apply elem_of_nil in H.
  - constructor.
  - done.
  - vm_compute. discriminate.
Qed.

Print Assumptions C90_dump.
Print Assumptions C90_directory.
Print Assumptions C90_files.
Print Assumptions C90_overwritten_refuted.
