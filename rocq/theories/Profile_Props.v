(** C89: the life of a profile. *)
From Coq Require Import Ascii Lia.
From stdpp Require Import gmap list strings.
From Verif Require Import Table_Model Config_Model Solver_Model Profile_Model.
Local Open Scope Z_scope.

(** * Specification *)

(** A text made of words with one or more separators between any two of them; a word contains no
    separator, and only the first and the last word may be empty. *)
Inductive separated (sep : ascii) : list text → text → Prop :=
| sep_one w : sep ∉ w → separated sep [w] w
| sep_more w n ws s : sep ∉ w → head s ≠ Some sep → separated sep ws s →
    separated sep (w :: ws) (w ++ sep :: replicate n sep ++ s).

Section spec.
Context {V C : Type} (stod : text → option V) (is_empty : C → bool) (g : settings V) (none : C).
Notation dd := (dd V C). Notation world := (world V C). Notation act := (act V C). Notation effect := (effect V C).
Notation op := (@op V C).

(** The travel time table a profile asks for *)
Inductive table_for (f : conf) : table V → Prop :=
| tf_nll p m d x s k n a :
    f_type f = tx "Native:NLLGrid" → separated ";" [p; m; d; s; k; a] (f_model f) → stod d = Some x → stoul k = Some n →
    ∀ swap : bool, (swap = true ↔ s = tx "swapBytes") → table_for f (NLLGrid p m x swap (n `mod` 4294967296)%N a)
| tf_homogeneous p s x y :
    f_type f = tx "Native:homogeneous" → separated ";" [p; s] (f_model f) → stod p = Some x → stod s = Some y →
    table_for f (Homogeneous x y)
| tf_plugin :
    f_type f ≠ tx "Native:NLLGrid" → f_type f ≠ tx "Native:homogeneous" → table_for f (Plugin (f_type f) (f_model f)).
(** The catalog a profile asks for: the given one unless it is empty, the one with the ids of a
    file if such a file is configured, the one of the three files *)
Inductive catalog_for (w : world) (f : conf) (alt : C) : C → Prop :=
| cf_given : is_empty alt = false → catalog_for w f alt alt
| cf_ids c : is_empty alt = true → f_ids f ≠ [] → w_ids w (f_ids f) = Ok c → catalog_for w f alt c
| cf_files c : is_empty alt = true → f_ids f = [] → w_csv w (f_sta f) (f_ev f) (f_pha f) = Ok c → catalog_for w f alt c.
(** The DD object a profile asks for, if nothing goes wrong in its making *)
Record described (w : world) (f : conf) (alt : C) (d : dd) : Prop := {
  ds_cat : catalog_for w f alt (d_cat d);
  ds_table : table_for f (d_table d);
  ds_url : d_url d = f_url f;
  ds_cache : if g_cache g then ∃ path, path = g_dir g ++ tx "/" ++ f_name f ++ tx "/wfcache" ∧ d_cache d = Some (path, g_len g) ∧ w_mkdir w path = true
             else d_cache d = None;
  ds_made : w_table w (d_table d) = true ∧ w_proxy w (d_url d) = true ∧ w_dd w (d_cat d) (d_table d) = true }.

(** What was done to the i-th profile, in order *)
Definition history (i : nat) (l : list effect) : list act :=
  omap (λ e, match e with Act j a => if decide (j = i) then Some a else None | Reply _ => None end) l.
(** The DD object in force after these actions: the one loaded last, unless it was unloaded *)
Definition in_force (h : list act) (d : dd) : Prop :=
  ∃ h1 t h2, h = h1 ++ Loaded d t :: h2 ∧ ∀ x, x ∈ h2 → match x with Loaded _ _ | Unloaded _ => False | _ => True end.
Definition idle (h : list act) : Prop := ∀ d, ¬ in_force h d.
Definition time_of (a : act) : option Z :=
  match a with Loaded _ t | Unloaded t | Freed t | Preloaded _ t | Relocated _ t => Some t | Refused => None end.
(** [t] is the time of the last action that has one *)
Definition last_at (h : list act) (t : Z) : Prop := ∃ h1 x h2, h = h1 ++ x :: h2 ∧ time_of x = Some t ∧ ∀ y, y ∈ h2 → time_of y = None.
(** An action that is possible after the actions before it *)
Definition possible (h : list act) (x : act) : Prop :=
  match x with
  | Loaded _ _ | Refused => idle h
  | Unloaded _ => True
  | Freed _ => ∃ d, in_force h d
  | Preloaded d _ | Relocated d _ => in_force h d
  end.

(** What an attempt to load does: a DD object as described, or the profile is unloaded *)
Definition attempt (w : world) (f : conf) (alt : C) (t : Z) (h : list act) : Prop :=
  (∃ d, described w f alt d ∧ h = [Loaded d t]) ∨ (∀ d, ¬ described w f alt d) ∧ h = [Unloaded t].
(** The loading of a profile that is not loaded *)
Definition ensured (w : world) (f : conf) (t : Z) (h h1 : list act) : Prop := ((∃ d, in_force h d) ∧ h1 = []) ∨ idle h ∧ attempt w f none t h1.
(** When the waveforms of a profile are to be released *)
Definition expired (tc : Z) (h : list act) : Prop :=
  0 ≤ g_alive g ∧ (∃ d, in_force h d) ∧ ∃ t, last_at h t ∧ g_alive g * 1000000 < tc - t.
(** The i-th of the profiles is the one with this name: the first, and the name is not empty *)
Definition named (cs : list conf) (name : text) (i : nat) : Prop :=
  name ≠ [] ∧ (∃ f, cs !! i = Some f ∧ f_name f = name) ∧ ∀ j f, (j < i)%nat → cs !! j = Some f → f_name f ≠ name.
(** What an operation does to the i-th profile, [f], after the actions [h] *)
Definition does (cs : list conf) (o : op) (i : nat) (f : conf) (h x : list act) : Prop :=
  match o with
  | Tick ws =>
      let '(w, tl, tc, tf) := ws i in
      ∃ h1 h2, x = h1 ++ h2 ∧ ensured w f tl h h1 ∧ (expired tc (h ++ h1) ∧ h2 = [Freed tf] ∨ ¬ expired tc (h ++ h1) ∧ h2 = [])
  | Reload name now => named cs name i ∧ x = [Unloaded now] ∨ ¬ named cs name i ∧ x = []
  | Load j w alt now =>
      i ≠ j ∧ x = [] ∨ i = j ∧ ((∃ d, in_force h d) ∧ x = [] ∨ idle h ∧ attempt w f alt now x)
  | Preload j now =>
      i ≠ j ∧ x = [] ∨ i = j ∧ ((∃ d, in_force h d ∧ x = [Preloaded d now]) ∨ idle h ∧ x = [Refused])
  | Process j w tl start _ =>
      i ≠ j ∧ x = [] ∨
      i = j ∧ ∃ h1 h2, x = h1 ++ h2 ∧ ensured w f tl h h1 ∧
                       ((∃ d, in_force (h ++ h1) d ∧ h2 = [Relocated d start]) ∨ idle (h ++ h1) ∧ h2 = [Refused])
  end.
(** The replies to the requests: [None] for success *)
Definition replies (l : list effect) : list (option text) := omap (λ e, match e with Reply r => Some r | Act _ _ => None end) l.
Definition answered (cs : list conf) (o : op) (r : list (option text)) : Prop :=
  match o with
  | Reload name _ => (∃ i, named cs name i) ∧ r = [None] ∨
                     (¬ ∃ i, named cs name i) ∧ r = [Some (tx "Unknown profile '" ++ name ++ tx "'")]
  | _ => r = []
  end.
(** The behaviour of the other parts is defined *)
Definition sane (w : world) : Prop := (∀ x, w_ids w x ≠ Bad) ∧ ∀ x y z, w_csv w x y z ≠ Bad.
Definition sane_op (o : op) : Prop :=
  match o with
  | Tick ws => ∀ i, sane (ws i).1.1.1
  | Load _ w _ _ | Process _ w _ _ _ => sane w
  | _ => True
  end.
End spec.
Arguments sane_op {V C}. Arguments sane {V C}.

(** * Words *)
Section words.
Context (sep : ascii).
Lemma split_word a : ∀ cur b s, sep ∉ a → (b = true → cur = [] ∧ a ≠ []) → split_from sep cur b (a ++ s) = split_from sep (rev a ++ cur) (b && bool_decide (a = [])) s.
Proof.
  induction a as [|x a IH]; intros cur b s Hn Hb.
  - cbn [app rev]. rewrite andb_comm. destruct b; [destruct (Hb eq_refl) as [_ []]; done|done].
  - apply not_elem_of_cons in Hn as [Hx Hn]. cbn [app split_from]. destruct (ascii_dec x sep) as [->|_]; [done|].
    rewrite (IH (x :: cur) false) by done. cbn [rev andb]. rewrite andb_false_r. by rewrite <-app_assoc.
Qed.
Lemma split_seps n : ∀ s, split_from sep [] true (replicate n sep ++ s) = split_from sep [] true s.
Proof. induction n as [|n IH]; intros s; [done|]. cbn [replicate app split_from]. by destruct (ascii_dec sep sep). Qed.
Lemma split_start s : head s ≠ Some sep → split_from sep [] true s = split_from sep [] false s.
Proof. destruct s as [|c s]; [done|]. intros H. cbn [split_from]. destruct (ascii_dec c sep) as [->|]; [by destruct H|done]. Qed.
Lemma split_of_separated ws s : separated sep ws s → split_from sep [] false s = ws.
Proof.
  induction 1 as [w Hw|w n ws s Hw Hh _ IH].
  - rewrite <-(app_nil_r w) at 1. rewrite split_word by done. cbn [split_from]. by rewrite app_nil_r, rev_involutive.
  - rewrite split_word by done. cbn [andb split_from]. destruct (ascii_dec sep sep); [|done].
    rewrite split_seps, split_start, IH by done. by rewrite app_nil_r, rev_involutive.
Qed.
Lemma separated_total s : ∃ ws, separated sep ws s.
Proof.
  remember (length s) as n eqn:E. assert (length s ≤ n)%nat as L by lia. clear E. revert s L.
  induction n as [|n IH]; intros s L.
  { exists [[]]. destruct s; [|cbn in L; lia]. constructor. apply not_elem_of_nil. }
  destruct (decide (sep ∈ s)) as [Hin|Hn]; [|exists [s]; by constructor].
  apply elem_of_list_split_l in Hin as (w & s' & -> & Hw).
  assert (∃ k s2, s' = replicate k sep ++ s2 ∧ head s2 ≠ Some sep) as (k & s2 & -> & H2).
  { clear. induction s' as [|c s' (k & s2 & -> & H)]; [exists 0%nat, []; done|].
    destruct (decide (c = sep)) as [->|Hc]; [exists (S k), s2; done|]. exists 0%nat, (c :: replicate k sep ++ s2). split; [done|]. cbn. congruence. }
  destruct (IH s2) as [ws Hs]. { rewrite app_length in L. cbn in L. rewrite app_length, replicate_length in L. lia. }
  exists (w :: ws). by constructor.
Qed.
Lemma split_separated ws s : separated sep ws s ↔ split_from sep [] false s = ws.
Proof.
  split; [apply split_of_separated|]. intros <-. destruct (separated_total s) as [ws Hs]. by rewrite (split_of_separated _ _ Hs).
Qed.
End words.

Section proofs.
Context {V C : Type} (stod : text → option V) (is_empty : C → bool) (g : settings V) (none : C).
Notation dd := (dd V C). Notation world := (world V C). Notation act := (act V C). Notation effect := (effect V C).
Notation state := (state V C). Notation op := (@op V C).
Notation table_for := (table_for stod). Notation catalog_for := (catalog_for is_empty). Notation described := (described stod is_empty g).
Notation load_dd := (load_dd stod is_empty g). Notation attempt := (attempt stod is_empty g).
Notation load := (load stod is_empty g). Notation step := (step stod is_empty g none). Notation runs := (runs stod is_empty g none).
Notation tick := (tick stod is_empty g none).
Notation ensured := (ensured stod is_empty g none). Notation expired := (expired g). Notation does := (does stod is_empty g none).

Lemma choose_iff (f : conf) t : choose_table stod f = Some t ↔ table_for f t.
Proof.
  unfold choose_table, fields. split.
  - intros H. destruct (decide (f_type f = _)) as [H1|H1].
    + destruct (split_from _ _ _ _) as [|p [|m [|d [|s [|k [|a [|]]]]]]] eqn:E; try discriminate.
      apply split_separated in E. destruct (stod d) as [x|] eqn:Ex; [|discriminate]. destruct (stoul k) as [n|] eqn:En; [|discriminate].
      cbn in H. injection H as <-. change (2 ^ 32)%N with 4294967296%N. eapply tf_nll; eauto. apply bool_decide_eq_true.
    + destruct (decide (f_type f = tx "Native:homogeneous")) as [H2|H2].
      * destruct (split_from _ _ _ _) as [|p [|s [|]]] eqn:E; try discriminate. apply split_separated in E.
        destruct (stod p) as [x|] eqn:Ex; [|discriminate]. destruct (stod s) as [y|] eqn:Ey; [|discriminate]. cbn in H. injection H as <-.
        by eapply tf_homogeneous.
      * injection H as <-. by apply tf_plugin.
  - intros [p m d x s k n a H1 E Ex En swap Hs|p s x y H1 E Ex Ey|H1 H2].
    + rewrite decide_True by done. apply split_separated in E. rewrite E, Ex, En. cbn. do 2 f_equal.
      destruct swap; [by rewrite bool_decide_true by (by apply Hs)|]. rewrite bool_decide_false; [done|]. intros F. by apply Hs in F.
    + rewrite decide_False by (rewrite H1; discriminate). rewrite decide_True by done. apply split_separated in E. by rewrite E, Ex, Ey.
    + by rewrite decide_False, decide_False by done.
Qed.
Lemma load_iff w f alt d : load_dd w f alt = Ok d ↔ described w f alt d.
Proof.
  unfold load_dd. split.
  - intros H. destruct (if negb (is_empty alt) then _ else _) as [c| |] eqn:Ec; try discriminate.
    assert (catalog_for w f alt c) as Hc.
    { destruct (is_empty alt) eqn:Ee; cbn [negb] in Ec; [|injection Ec as <-; by constructor].
      unfold given in Ec. destruct (f_ids f) as [|x l] eqn:Ef; [by apply cf_files|]. apply cf_ids; [done|by rewrite Ef|by rewrite Ef]. }
    cbn [rbind] in H. destruct (choose_table stod f) as [t|] eqn:Et; [|discriminate]. apply choose_iff in Et. cbn [at_ rbind] in H. unfold check in H.
    destruct (w_table w t) eqn:Ht; [|discriminate]. destruct (w_proxy w (f_url f)) eqn:Hp; [|discriminate].
    destruct (w_dd w c t) eqn:Hd; [|discriminate]. cbn [rbind] in H. cbv zeta in H.
    destruct (g_cache g) eqn:Eg; [destruct (w_mkdir _ _) eqn:Em; [|discriminate]|]; cbn [rbind] in H; injection H as <-;
      (constructor; cbn [d_cat d_table d_url d_cache]; [done|done|done|rewrite Eg; eauto|done]).
  - intros [Hc Ht Hu Hg (H1 & H2 & H3)]. destruct d as [c t u ca]; cbn [d_cat d_table d_url d_cache] in *. subst u.
    assert ((if negb (is_empty alt) then Ok alt else if given (f_ids f) then w_ids w (f_ids f) else w_csv w (f_sta f) (f_ev f) (f_pha f)) = Ok c) as ->.
    { destruct Hc as [He|c He Hi Hc|c He Hi Hc]; rewrite He; cbn [negb]; [done| |by rewrite Hi]. unfold given. by destruct (f_ids f). }
    apply choose_iff in Ht. rewrite Ht. cbn [rbind at_]. unfold check. rewrite H1, H2, H3. cbn [rbind]. cbv zeta.
    destruct (g_cache g); [|by rewrite Hg]. destruct Hg as (p & -> & -> & Hm). by rewrite Hm.
Qed.
Lemma load_bad w f alt : sane w → load_dd w f alt ≠ Bad.
Proof.
  intros [S1 S2]. unfold load_dd.
  assert (∀ x : res C, x = (if negb (is_empty alt) then Ok alt else if given (f_ids f) then w_ids w (f_ids f) else w_csv w (f_sta f) (f_ev f) (f_pha f)) → x ≠ Bad) as Hc.
  { intros x ->. destruct (negb _); [done|]. destruct (given _); auto. }
  specialize (Hc _ eq_refl). destruct (if negb (is_empty alt) then _ else _) as [c| |]; [|done|done]. cbn [rbind].
  destruct (choose_table stod f) as [t|]; [|done]. cbn [rbind at_]. unfold check. cbv zeta.
  destruct (w_table w t); [|done]. destruct (w_proxy _ _); [|done]. destruct (w_dd _ _ _); [|done]. cbn [rbind].
  destruct (g_cache g); [|done]. by destruct (w_mkdir _ _).
Qed.

(** * Histories of one profile *)
Lemma in_force_nil d : ¬ in_force ([] : list act) d.
Proof. intros (h1 & t & h2 & E & _). by destruct h1. Qed.
Definition changes (x : act) : bool := match x with Loaded _ _ | Unloaded _ => true | _ => false end.
Lemma in_force_snoc h x (d : dd) : in_force (h ++ [x]) d ↔ match x with Loaded d' _ => d' = d | Unloaded _ => False | _ => in_force h d end.
Proof.
  split.
  - intros (h1 & t & h2 & E & F). destruct (decide (h2 = [])) as [->|Hn].
    + apply app_inj_tail in E as [-> ->]. done.
    + destruct (exists_last Hn) as (h3 & y & ->). assert (h ++ [x] = (h1 ++ Loaded d t :: h3) ++ [y]) as E2 by (rewrite E, <-app_assoc; done).
      apply app_inj_tail in E2 as [-> ->]. pose proof (F y ltac:(apply elem_of_app; right; by left)) as Fy.
      assert (in_force (h1 ++ Loaded d t :: h3) d) as I by (exists h1, t, h3; split; [done|]; intros z Hz; apply F; apply elem_of_app; by left).
      by destruct y.
  - intros H. assert (changes x = false → in_force h d → in_force (h ++ [x]) d) as G.
    { intros Hx (h1 & t & h2 & -> & F). exists h1, t, (h2 ++ [x]). split; [by rewrite <-app_assoc|]. intros y [Hy|Hy]%elem_of_app; [by apply F|].
      apply elem_of_list_singleton in Hy as ->. by destruct x. }
    destruct x; try (by apply G). subst. exists h, t, []. split; [done|]. intros y Hy. by apply elem_of_nil in Hy.
Qed.
Lemma last_at_nil t : ¬ last_at ([] : list act) t.
Proof. intros (h1 & x & h2 & E & _). by destruct h1. Qed.
Lemma last_at_snoc h (x : act) t : last_at (h ++ [x]) t ↔ match time_of x with Some t' => t' = t | None => last_at h t end.
Proof.
  split.
  - intros (h1 & y & h2 & E & T & F). destruct (decide (h2 = [])) as [->|Hn].
    + apply app_inj_tail in E as [-> ->]. by rewrite T.
    + destruct (exists_last Hn) as (h3 & z & ->). assert (h ++ [x] = (h1 ++ y :: h3) ++ [z]) as E2 by (rewrite E, <-app_assoc; done).
      apply app_inj_tail in E2 as [-> ->]. rewrite (F z) by (apply elem_of_app; right; by left).
      exists h1, y, h3. split; [done|]. split; [done|]. intros u Hu. apply F. apply elem_of_app. by left.
  - destruct (time_of x) as [t'|] eqn:E.
    + intros <-. exists h, x, []. split; [done|]. split; [done|]. intros y Hy. by apply elem_of_nil in Hy.
    + intros (h1 & y & h2 & -> & T & F). exists h1, y, (h2 ++ [x]). split; [by rewrite <-app_assoc|]. split; [done|].
      intros u [Hu|Hu]%elem_of_app; [by apply F|]. by apply elem_of_list_singleton in Hu as ->.
Qed.
Definition legal (h : list act) : Prop := ∀ h1 x h2, h = h1 ++ x :: h2 → possible h1 x.
Lemma legal_nil : legal [].
Proof. intros h1 x h2 E. by destruct h1. Qed.
Lemma legal_snoc h x : legal h → possible h x → legal (h ++ [x]).
Proof.
  intros L P h1 y h2 E. destruct (decide (h2 = [])) as [->|Hn]; [apply app_inj_tail in E as [-> ->]; done|].
  destruct (exists_last Hn) as (h3 & z & ->). assert (h ++ [x] = (h1 ++ y :: h3) ++ [z]) as E2 by (rewrite E, <-app_assoc; done).
  apply app_inj_tail in E2 as [-> ->]. by eapply L.
Qed.

(** The state of a profile follows from its history *)
Record agrees (st : state) (h : list act) : Prop := {
  ag_legal : legal h;
  ag_loaded : s_loaded st = match s_dd st with Some _ => true | None => false end;
  ag_dd : ∀ d, s_dd st = Some d ↔ in_force h d;
  ag_used : ∀ t, last_at h t → s_used st = t;
  ag_timed : s_loaded st = true → last_at h (s_used st) }.
Lemma agrees_init : agrees (State false None 0) [].
Proof.
  constructor; cbn; [apply legal_nil|done| |by intros t H%last_at_nil|done]. intros d. split; [done|]. by intros H%in_force_nil.
Qed.
Lemma agrees_idle st h : agrees st h → s_loaded st = false → idle h.
Proof. intros [_ L D _ _] E d Hd. apply D in Hd. rewrite Hd, E in L. done. Qed.
Lemma agrees_force st h : agrees st h → s_loaded st = true → ∃ d, s_dd st = Some d ∧ in_force h d.
Proof. intros [_ L D _ _] E. destruct (s_dd st) as [d|] eqn:Ed; [|congruence]. exists d. split; [done|]. by apply D. Qed.
(** A timed action brings the state to agree *)
Lemma agrees_timed st h x o t : agrees st h → possible h x → time_of x = Some t →
  (∀ d, o = Some d ↔ in_force (h ++ [x]) d) → agrees (State (match o with Some _ => true | None => false end) o t) (h ++ [x]).
Proof.
  intros A P T O. constructor; cbn [s_loaded s_dd s_used].
  - apply legal_snoc; [apply A|done].
  - done.
  - done.
  - intros t' H. apply last_at_snoc in H. by rewrite T in H.
  - intros _. apply last_at_snoc. by rewrite T.
Qed.
Lemma unload_ok now st h : agrees st h → agrees (unload now st).1 (h ++ (unload now st).2).
Proof.
  intros A. apply (agrees_timed st h (Unloaded now) None now); [done|done|done|]. intros d. rewrite in_force_snoc. done.
Qed.
Lemma load_ok w f alt now st h st' l : agrees st h → load w f alt now st = Some (st', l) →
  agrees st' (h ++ l) ∧ (s_loaded st = true → l = [] ∧ st' = st) ∧ (s_loaded st = false → attempt w f alt now l).
Proof.
  intros A E. unfold Profile_Model.load in E. destruct (s_loaded st) eqn:L.
  - injection E as <- <-. rewrite app_nil_r. done.
  - pose proof (agrees_idle _ _ A L) as I. destruct (load_dd w f alt) as [d| |] eqn:Ed; [| |discriminate].
    + injection E as <- <-. split; [|split; [done|]].
      * apply (agrees_timed st h (Loaded d now) (Some d) now); [done|done|done|]. intros d'. rewrite in_force_snoc. naive_solver.
      * intros _. left. exists d. by apply load_iff in Ed.
    + injection E as <- <-. split; [by apply (unload_ok now st h)|]. split; [done|]. intros _. right. split; [|done].
      intros d Hd. apply load_iff in Hd. congruence.
Qed.
Lemma free_ok now st h st' l : agrees st h → free now st = Some (st', l) →
  agrees st' (h ++ l) ∧ l = (if s_loaded st then [Freed now] else []).
Proof.
  intros A E. unfold free in E. destruct (s_loaded st) eqn:L; [|injection E as <- <-; rewrite app_nil_r; done].
  destruct (agrees_force _ _ A L) as (d & Hd & F). rewrite Hd in E. cbn in E. injection E as <- <-. split; [|done].
  apply (agrees_timed st h (Freed now) (Some d) now); [done|by exists d|done|]. intros d'. rewrite in_force_snoc. rewrite <-(ag_dd _ _ A). by rewrite Hd.
Qed.
Lemma preload_ok now st h st' l : agrees st h → preload now st = Some (st', l) →
  agrees st' (h ++ l) ∧ (∀ d, in_force h d → l = [Preloaded d now]) ∧ (idle h → l = [Refused]).
Proof.
  intros A E. unfold preload in E. destruct (s_loaded st) eqn:L.
  - destruct (agrees_force _ _ A L) as (d & Hd & F). rewrite Hd in E. cbn in E. injection E as <- <-. split; [|split].
    + apply (agrees_timed st h (Preloaded d now) (Some d) now); [done|done|done|]. intros d'. rewrite in_force_snoc. rewrite <-(ag_dd _ _ A). by rewrite Hd.
    + intros d' F'. apply (ag_dd _ _ A) in F'. congruence.
    + intros I. by apply I in F.
  - injection E as <- <-. pose proof (agrees_idle _ _ A L) as I. split; [|split; [|done]].
    + destruct A as [A1 A2 A3 A4 A5]. constructor; [by apply legal_snoc|done| | |congruence].
      * intros d. by rewrite in_force_snoc.
      * intros t Ht. apply last_at_snoc in Ht. by apply A4.
    + intros d Hd. by apply I in Hd.
Qed.
Lemma relocate_ok now st h st' l : agrees st h → relocate now st = Some (st', l) →
  agrees st' (h ++ l) ∧ (∀ d, in_force h d → l = [Relocated d now]) ∧ (idle h → l = [Refused]).
Proof.
  intros A E. unfold relocate in E. destruct (s_loaded st) eqn:L.
  - destruct (agrees_force _ _ A L) as (d & Hd & F). rewrite Hd in E. cbn in E. injection E as <- <-. split; [|split].
    + apply (agrees_timed st h (Relocated d now) (Some d) now); [done|done|done|]. intros d'. rewrite in_force_snoc. rewrite <-(ag_dd _ _ A). by rewrite Hd.
    + intros d' F'. apply (ag_dd _ _ A) in F'. congruence.
    + intros I. by apply I in F.
  - injection E as <- <-. pose proof (agrees_idle _ _ A L) as I. split; [|split; [|done]].
    + destruct A as [A1 A2 A3 A4 A5]. constructor; [by apply legal_snoc|done| | |congruence].
      * intros d. by rewrite in_force_snoc.
      * intros t Ht. apply last_at_snoc in Ht. by apply A4.
    + intros d Hd. by apply I in Hd.
Qed.
Lemma ensure_ok w f t st h st' l : agrees st h → (if negb (s_loaded st) then load w f none t st else Some (st, [])) = Some (st', l) →
  agrees st' (h ++ l) ∧ ensured w f t h l.
Proof.
  intros A E. destruct (s_loaded st) eqn:L; cbn [negb] in E.
  - injection E as <- <-. rewrite app_nil_r. split; [done|]. left. split; [|done]. destruct (agrees_force _ _ A L) as (d & _ & F). by exists d.
  - destruct (load_ok _ _ _ _ _ _ _ _ A E) as (A' & _ & At). split; [done|]. right. split; [by eapply agrees_idle|by apply At].
Qed.
Lemma last_at_det (h : list act) t t' : last_at h t → last_at h t' → t = t'.
Proof.
  revert t t'. induction h as [|x h IH] using rev_ind; intros t t'; [by intros H%last_at_nil|]. rewrite !last_at_snoc. destruct (time_of x); [congruence|apply IH].
Qed.
Lemma check_ok w f tl tc tf st h st' l : agrees st h → check_status stod is_empty g w f none tl tc tf st = Some (st', l) →
  agrees st' (h ++ l) ∧ ∃ h1 h2, l = h1 ++ h2 ∧ ensured w f tl h h1 ∧ (expired tc (h ++ h1) ∧ h2 = [Freed tf] ∨ ¬ expired tc (h ++ h1) ∧ h2 = []).
Proof.
  intros A E. unfold check_status, and_then in E. destruct (if negb (s_loaded st) then _ else _) as [[st1 l1]|] eqn:E1; [|discriminate].
  destruct (ensure_ok _ _ _ _ _ _ _ A E1) as [A1 En]. clear E1.
  assert (∀ t, last_at (h ++ l1) t → t = s_used st1) as U by (intros t Ht; symmetry; by apply (ag_used _ _ A1)).
  destruct (Z.leb_spec 0 (g_alive g)) as [G|G].
  - destruct (s_loaded st1 && (g_alive g * 1000000 <? tc - s_used st1)) eqn:B.
    + apply andb_true_iff in B as [L B]. apply Z.ltb_lt in B. destruct (free tf st1) as [[st2 l2]|] eqn:Ef; [|discriminate]. injection E as <- <-.
      destruct (free_ok _ _ _ _ _ A1 Ef) as [A2 ->]. rewrite L in *. split; [by rewrite app_assoc|]. exists l1, [Freed tf].
      split; [done|]. split; [done|]. left. split; [|done]. split; [done|]. split.
      * destruct (agrees_force _ _ A1 L) as (d & _ & F). by exists d.
      * exists (s_used st1). split; [|done]. by apply (ag_timed _ _ A1).
    + injection E as <- <-. rewrite app_nil_r. split; [done|]. exists l1, []. rewrite app_nil_r. split; [done|]. split; [done|]. right. split; [|done].
      intros (_ & [d Hd] & t & Ht & Hl). rewrite (U t Ht) in Hl. apply (ag_dd _ _ A1) in Hd. rewrite (ag_loaded _ _ A1), Hd in B. cbn in B.
      apply Z.ltb_ge in B. lia.
  - injection E as <- <-. rewrite app_nil_r. split; [done|]. exists l1, []. rewrite app_nil_r. split; [done|]. split; [done|]. right. split; [|done].
    intros [? _]. lia.
Qed.
Lemma process_ok w f tl t st h st' l : agrees st h → process stod is_empty g w f none tl t st = Some (st', l) →
  agrees st' (h ++ l) ∧ ∃ h1 h2, l = h1 ++ h2 ∧ ensured w f tl h h1 ∧
    ((∃ d, in_force (h ++ h1) d ∧ h2 = [Relocated d t]) ∨ idle (h ++ h1) ∧ h2 = [Refused]).
Proof.
  intros A E. unfold process, and_then in E. destruct (if negb (s_loaded st) then _ else _) as [[st1 l1]|] eqn:E1; [|discriminate].
  destruct (ensure_ok _ _ _ _ _ _ _ A E1) as [A1 En]. clear E1. destruct (relocate t st1) as [[st2 l2]|] eqn:Er; [|discriminate]. injection E as <- <-.
  destruct (relocate_ok _ _ _ _ _ A1 Er) as (A2 & R1 & R2). split; [by rewrite app_assoc|]. exists l1, l2. split; [done|]. split; [done|].
  destruct (s_loaded st1) eqn:L.
  - left. destruct (agrees_force _ _ A1 L) as (d & _ & F). exists d. split; [done|]. by apply R1.
  - right. pose proof (agrees_idle _ _ A1 L) as I. split; [done|]. by apply R2.
Qed.

(** * The program *)
Lemma history_app i (l l' : list effect) : history i (l ++ l') = history i l ++ history i l'.
Proof. apply omap_app. Qed.
Lemma history_same i (h : list act) : history i (Act i <$> h) = h.
Proof. induction h as [|x h IH]; [done|]. cbn. rewrite decide_True by done. by f_equal. Qed.
Lemma history_other i j (h : list act) : i ≠ j → history i (Act j <$> h) = [].
Proof. intros N. induction h as [|x h IH]; [done|]. cbn. by rewrite decide_False. Qed.
Lemma replies_app (l l' : list effect) : replies (l ++ l') = replies l ++ replies l'.
Proof. apply omap_app. Qed.
Lemma replies_act i (h : list act) : replies (Act i <$> h) = [].
Proof. by induction h as [|x h IH]. Qed.

Definition inv (cs : list conf) (a : list (conf * state)) (l : list effect) : Prop :=
  a.*1 = cs ∧ ∀ i c st, a !! i = Some (c, st) → agrees st (history i l).
Lemma inv_lookup cs a l i c : inv cs a l → cs !! i = Some c ↔ ∃ st, a !! i = Some (c, st).
Proof.
  intros [<- _]. rewrite list_lookup_fmap. split.
  - intros ([c' st] & -> & H)%fmap_Some. cbn in H. subst. by exists st.
  - by intros [st ->].
Qed.
Lemma act_inv cs a l i f a' l' : inv cs a l → act_on i f a = Some (a', l') →
  (∀ c st st' h, a !! i = Some (c, st) → f c st = Some (st', h) → agrees st' (history i l ++ h)) →
  inv cs a' (l ++ l') ∧ replies l' = [] ∧ (∀ j, j ≠ i → history j l' = []) ∧
  ∀ c, cs !! i = Some c → ∃ st st' h, a !! i = Some (c, st) ∧ f c st = Some (st', h) ∧ history i l' = h.
Proof.
  intros I E F. unfold act_on in E. destruct (a !! i) as [[c st]|] eqn:Ei.
  - destruct (f c st) as [[st' h]|] eqn:Ef; [|discriminate]. injection E as <- <-. specialize (F _ _ _ _ eq_refl Ef).
    split; [|split; [apply replies_act|split; [intros j Hj; by apply history_other|]]].
    + destruct I as [I1 I2]. split.
      * rewrite list_fmap_insert, list_insert_id; [done|]. rewrite list_lookup_fmap, Ei. done.
      * intros j c2 st2 Hj. rewrite history_app. destruct (decide (j = i)) as [->|N].
        -- rewrite list_lookup_insert in Hj by (by eapply lookup_lt_Some). injection Hj as <- <-. by rewrite history_same.
        -- rewrite list_lookup_insert_ne in Hj by done. rewrite history_other, app_nil_r by done. by eapply I2.
    + intros c2 (st2 & H2)%(inv_lookup _ _ _ _ _ I). rewrite Ei in H2. injection H2 as <- <-. exists st, st', h. split; [done|]. split; [done|]. apply history_same.
  - injection E as <- <-. rewrite app_nil_r. split; [done|]. split; [done|]. split; [done|].
    intros c2 (st2 & H2)%(inv_lookup _ _ _ _ _ I). congruence.
Qed.
Lemma tick_inv cs ws n : ∀ i a l a' l', inv cs a l → tick i n ws a = Some (a', l') →
  inv cs a' (l ++ l') ∧ replies l' = [] ∧ (∀ j, ¬ (i ≤ j < i + n)%nat → history j l' = []) ∧
  ∀ j c, (i ≤ j < i + n)%nat → cs !! j = Some c → does cs (Tick ws) j c (history j l) (history j l').
Proof.
  induction n as [|n IH]; intros i a l a' l' I E; cbn [Profile_Model.tick] in E.
  { injection E as <- <-. rewrite app_nil_r. split; [done|]. split; [done|]. split; [done|]. lia. }
  destruct (ws i) as [[[w tl] tc] tf] eqn:Ew. unfold joined in E.
  destruct (act_on _ _ _) as [[a1 l1]|] eqn:E1; [|discriminate]. destruct (Profile_Model.tick _ _ _ _ (S i) n ws a1) as [[a2 l2]|] eqn:E2; [|discriminate].
  injection E as <- <-.
  destruct (act_inv _ _ _ _ _ _ _ I E1) as (I1 & R1 & O1 & D1).
  { intros c st st' h Hi Hc. eapply check_ok; [|exact Hc]. by eapply I. }
  destruct (IH _ _ _ _ _ I1 E2) as (I2 & R2 & O2 & D2). split; [by rewrite app_assoc|]. split; [by rewrite replies_app, R1, R2|]. split.
  - intros j Hj. rewrite history_app, O1, O2 by lia. done.
  - intros j c Hj Hc. rewrite history_app. destruct (decide (j = i)) as [->|N].
    + rewrite O2 by lia. rewrite app_nil_r. destruct (D1 c Hc) as (st & st' & h & H1 & H2 & ->). unfold does. rewrite Ew.
      eapply check_ok; [|exact H2]. by eapply I.
    + specialize (D2 j c ltac:(lia) Hc). rewrite history_app in D2. rewrite (O1 j N) in *. rewrite app_nil_r in D2. done.
Qed.
Lemma get_named cs a l name : inv cs a l → match get_profile a name with Some i => named cs name i | None => ¬ ∃ i, named cs name i end.
Proof.
  intros I. unfold get_profile. destruct name as [|x name']; [cbn; by intros (i & N & _)|]. set (name := x :: name'). cbn [given].
  destruct (list_find _ a) as [[i [c st]]|] eqn:E; cbn.
  - apply list_find_Some in E as (E1 & E2 & E3). cbn in E2. split; [done|]. split.
    + exists c. split; [|done]. apply (inv_lookup _ _ _ _ _ I). by exists st.
    + intros j f Hj (st2 & H2)%(inv_lookup _ _ _ _ _ I). by specialize (E3 _ _ H2 Hj).
  - apply list_find_None in E. intros (i & _ & (f & (st & H1)%(inv_lookup _ _ _ _ _ I) & H2) & _).
    rewrite Forall_forall in E. by apply (E (f, st) ltac:(by eapply elem_of_list_lookup_2)).
Qed.
Lemma named_det cs name i j : named cs name i → named cs name j → i = j.
Proof.
  intros (_ & (f & F1 & F2) & F3) (_ & (f' & G1 & G2) & G3). destruct (Nat.lt_trichotomy i j) as [H|[H|H]]; [|done|].
  - by destruct (G3 i f H F1).
  - by destruct (F3 j f' H G1).
Qed.
Lemma step_inv cs a l o a' l' : inv cs a l → step a o = Some (a', l') →
  inv cs a' (l ++ l') ∧ answered cs o (replies l') ∧ ∀ i f, cs !! i = Some f → does cs o i f (history i l) (history i l').
Proof.
  intros I E. destruct o as [ws|name now|j w alt now|j now|j w tl start finish]; cbn [Profile_Model.step] in E.
  - destruct (tick_inv _ _ _ _ _ _ _ _ I E) as (I' & R & _ & D). split; [done|]. split; [done|]. intros i f Hf. apply D; [|done].
    apply (inv_lookup _ _ _ _ _ I) in Hf as (st & Hf). apply lookup_lt_Some in Hf. lia.
  - pose proof (get_named _ _ _ name I) as G. destruct (get_profile a name) as [k|].
    + unfold joined in E. destruct (act_on _ _ _) as [[a1 l1]|] eqn:E1; [|discriminate]. injection E as <- <-.
      destruct (act_inv _ _ _ _ _ _ _ I E1) as (I1 & R1 & O1 & D1).
      { intros c st st' h Hi Hc. injection Hc as <- <-. apply (unload_ok now st). by eapply I. }
      split; [|split].
      * destruct I1 as [I1 I2]. split; [done|]. intros i c st Hi. specialize (I2 i c st Hi). rewrite app_assoc, history_app. cbn. by rewrite app_nil_r.
      * left. rewrite replies_app, R1. split; [by exists k|done].
      * intros i f Hf. rewrite history_app. cbn [history omap list_omap]. cbn. rewrite app_nil_r. destruct (decide (i = k)) as [->|N].
        -- left. split; [done|]. destruct (D1 f Hf) as (st & st' & h & _ & H2 & ->). by injection H2 as <- <-.
        -- right. split; [|by apply O1]. intros H. by apply N, (named_det cs name).
    + injection E as <- <-. split; [|split].
      * destruct I as [I1 I2]. split; [done|]. intros i c st Hi. rewrite history_app. cbn. rewrite app_nil_r. by eapply I2.
      * by right.
      * intros i f Hf. right. split; [|done]. intros H. apply G. by exists i.
  - destruct (act_inv _ _ _ _ _ _ _ I E) as (I1 & R1 & O1 & D1).
    { intros c st st' h Hi Hc. eapply load_ok; [|exact Hc]. by eapply I. }
    split; [done|]. split; [done|]. intros i f Hf. destruct (decide (i = j)) as [->|N]; [|left; split; [done|by apply O1]].
    right. split; [done|]. destruct (D1 f Hf) as (st & st' & h & H1 & H2 & ->). assert (agrees st (history j l)) as A by (by eapply I).
    destruct (load_ok _ _ _ _ _ _ _ _ A H2) as (_ & L1 & L2). destruct (s_loaded st) eqn:L.
    + left. destruct (agrees_force _ _ A L) as (d & _ & F). split; [by exists d|by apply L1].
    + right. split; [by eapply agrees_idle|by apply L2].
  - destruct (act_inv _ _ _ _ _ _ _ I E) as (I1 & R1 & O1 & D1).
    { intros c st st' h Hi Hc. eapply preload_ok; [|exact Hc]. by eapply I. }
    split; [done|]. split; [done|]. intros i f Hf. destruct (decide (i = j)) as [->|N]; [|left; split; [done|by apply O1]].
    right. split; [done|]. destruct (D1 f Hf) as (st & st' & h & H1 & H2 & ->). assert (agrees st (history j l)) as A by (by eapply I).
    destruct (preload_ok _ _ _ _ _ A H2) as (_ & L1 & L2). destruct (s_loaded st) eqn:L.
    + left. destruct (agrees_force _ _ A L) as (d & _ & F). exists d. split; [done|by apply L1].
    + right. pose proof (agrees_idle _ _ A L) as Id. split; [done|by apply L2].
  - destruct (act_inv _ _ _ _ _ _ _ I E) as (I1 & R1 & O1 & D1).
    { intros c st st' h Hi Hc. eapply process_ok; [|exact Hc]. by eapply I. }
    split; [done|]. split; [done|]. intros i f Hf. destruct (decide (i = j)) as [->|N]; [|left; split; [done|by apply O1]].
    right. split; [done|]. destruct (D1 f Hf) as (st & st' & h & H1 & H2 & ->). assert (agrees st (history j l)) as A by (by eapply I).
    destruct (process_ok _ _ _ _ _ _ _ _ A H2) as (_ & P). exact P.
Qed.
Lemma start_inv cs : inv cs (start cs) [].
Proof.
  split; [|].
  - unfold start. rewrite <-list_fmap_compose. cbn. rewrite <-(list_fmap_id cs) at 2. done.
  - intros i c st Hi. unfold start in Hi. rewrite list_lookup_fmap in Hi. destruct (cs !! i); [|done]. injection Hi as <- <-. apply agrees_init.
Qed.
Lemma runs_inv cs os : ∀ a l a' l', inv cs a l → runs a os = Some (a', l') → inv cs a' (l ++ l').
Proof.
  induction os as [|o os IH]; intros a l a' l' I E; cbn [Profile_Model.runs] in E.
  - injection E as <- <-. by rewrite app_nil_r.
  - unfold joined in E. destruct (step a o) as [[a1 l1]|] eqn:E1; [|discriminate]. destruct (runs a1 os) as [[a2 l2]|] eqn:E2; [|discriminate].
    injection E as <- <-. apply step_inv with (cs := cs) (l := l) in E1 as (I1 & _); [|done]. rewrite app_assoc. by eapply IH.
Qed.

(** * Theorems *)

(** Whatever has happened, every action of a profile was possible: a relocation and a preloading
    use the DD object loaded last, a profile in force is not loaded again, a relocation is refused
    only by a profile that is not in force. *)
Theorem C89_trace cs os a l i f : cs !! i = Some f → runs (start cs) os = Some (a, l) →
  (∀ h1 x h2, history i l = h1 ++ x :: h2 → possible h1 x) ∧
  ∃ st, a !! i = Some (f, st) ∧ (s_loaded st = true ↔ ∃ d, in_force (history i l) d) ∧ ∀ d, s_dd st = Some d ↔ in_force (history i l) d.
Proof.
  intros Hf E. pose proof (runs_inv cs os _ _ _ _ (start_inv cs) E) as I. cbn [app] in I.
  apply (inv_lookup _ _ _ _ _ I) in Hf as (st & Hi). pose proof (proj2 I _ _ _ Hi) as A. split; [apply A|]. exists st. split; [done|]. split; [|apply A].
  rewrite (ag_loaded _ _ A). split.
  - destruct (s_dd st) as [d|] eqn:Ed; [|done]. intros _. exists d. by apply (ag_dd _ _ A).
  - intros [d Hd]. apply (ag_dd _ _ A) in Hd. by rewrite Hd.
Qed.
(** What the next operation does to each profile, and what is replied *)
Theorem C89_step cs os o a l a' l' : runs (start cs) os = Some (a, l) → step a o = Some (a', l') →
  answered cs o (replies l') ∧ ∀ i f, cs !! i = Some f → does cs o i f (history i l) (history i l').
Proof.
  intros E S. pose proof (runs_inv cs os _ _ _ _ (start_inv cs) E) as I. cbn [app] in I. apply (step_inv cs a l o a' l' I S).
Qed.
(** Nothing undefined happens if nothing undefined happens in the reading of catalogs *)
Lemma ensure_some w f t st h : agrees st h → sane w → ∃ st' l, (if negb (s_loaded st) then load w f none t st else Some (st, [])) = Some (st', l) ∧ agrees st' (h ++ l).
Proof.
  intros A S. destruct (if negb (s_loaded st) then _ else _) as [[st' l]|] eqn:E; [exists st', l; split; [done|]; by eapply ensure_ok|].
  exfalso. destruct (s_loaded st) eqn:L; [discriminate|]. cbn [negb] in E. unfold Profile_Model.load in E. rewrite L in E.
  pose proof (load_bad w f none S) as B. by destruct (load_dd w f none).
Qed.
Lemma check_some w f tl tc tf st h : agrees st h → sane w → check_status stod is_empty g w f none tl tc tf st ≠ None.
Proof.
  intros A S. unfold check_status, and_then. destruct (ensure_some w f tl st h A S) as (st' & l & -> & A').
  destruct (0 <=? g_alive g); [|done]. destruct (s_loaded st') eqn:L; cbn [andb]; [|done]. destruct (_ <? _); [|done].
  unfold free. rewrite L. destruct (agrees_force _ _ A' L) as (d & -> & _). done.
Qed.
Lemma tick_some cs ws n : ∀ i a l, inv cs a l → (∀ i, sane (ws i).1.1.1) → tick i n ws a ≠ None.
Proof.
  induction n as [|n IH]; intros i a l I Sn; cbn [Profile_Model.tick]; [done|]. specialize (Sn i) as Si.
  destruct (ws i) as [[[w tl] tc] tf] eqn:Ew. cbn in Si. unfold joined.
  destruct (act_on _ _ a) as [[a1 l1]|] eqn:E1.
  - destruct (act_inv _ _ _ _ _ _ _ I E1) as (I1 & _).
    { intros c st st' h Hi Hc. eapply check_ok; [|exact Hc]. by eapply I. }
    specialize (IH (S i) a1 (l ++ l1) I1 Sn). by destruct (tick (S i) n ws a1) as [[]|].
  - exfalso. unfold act_on in E1. destruct (a !! i) as [[c st]|] eqn:Ei; [|discriminate].
    pose proof (check_some w c tl tc tf st _ (proj2 I _ _ _ Ei) Si) as N. by destruct (check_status _ _ _ _ _ _ _ _ _ _) as [[]|].
Qed.
Lemma step_some cs a l o : inv cs a l → sane_op o → step a o ≠ None.
Proof.
  intros I S. destruct o as [ws|name now|j w alt now|j now|j w tl t finish]; cbn [Profile_Model.step].
  - by eapply tick_some.
  - destruct (get_profile a name); [|done]. unfold joined, act_on. destruct (a !! n) as [[c st]|]; [|done]. done.
  - unfold act_on. destruct (a !! j) as [[c st]|]; [|done]. unfold Profile_Model.load. destruct (s_loaded st); [done|].
    pose proof (load_bad w c alt S) as B. by destruct (load_dd w c alt).
  - unfold act_on. destruct (a !! j) as [[c st]|] eqn:Ej; [|done]. unfold preload. destruct (s_loaded st) eqn:L; [|done].
    destruct (agrees_force _ _ (proj2 I _ _ _ Ej) L) as (d & -> & _). done.
  - unfold act_on. destruct (a !! j) as [[c st]|] eqn:Ej; [|done]. unfold process, and_then.
    destruct (ensure_some w c tl st _ (proj2 I _ _ _ Ej) S) as (st' & h & -> & A). unfold relocate. destruct (s_loaded st') eqn:L; [|done].
    destruct (agrees_force _ _ A L) as (d & -> & _). done.
Qed.
Theorem C89_defined cs os : Forall sane_op os → ∃ a l, runs (start cs) os = Some (a, l).
Proof.
  intros F. assert (∀ a l, inv cs a l → ∃ a' l', runs a os = Some (a', l')) as G; [|by eapply G, start_inv].
  induction F as [|o os So F IH]; intros a l I; cbn [Profile_Model.runs]; [by exists a, []|]. unfold joined.
  pose proof (step_some cs a l o I So) as N. destruct (step a o) as [[a1 l1]|] eqn:E; [|done].
  apply step_inv with (cs := cs) (l := l) in E as (I1 & _); [|done]. destruct (IH a1 (l ++ l1) I1) as (a2 & l2 & ->). by eexists _, _.
Qed.
(** The table of a profile, and that there is at most one *)
Theorem C89_table f t : table_for f t ↔ choose_table stod f = Some t.
Proof. by rewrite choose_iff. Qed.
Theorem C89_load w f alt d : load_dd w f alt = Ok d ↔ described w f alt d.
Proof. apply load_iff. Qed.
(** With a negative time the waveforms are never released *)
Theorem C89_kept cs os a l i f t : cs !! i = Some f → g_alive g < 0 → runs (start cs) os = Some (a, l) → Freed t ∉ history i l.
Proof.
  intros Ef G E. assert (∀ a l0, inv cs a l0 → ∀ a' l', runs a os = Some (a', l') → Freed t ∉ history i l') as K; [|by eapply K, E; apply start_inv].
  clear E a l. induction os as [|o os IH]; intros a l0 I a' l' E; cbn [Profile_Model.runs] in E; [injection E as <- <-; apply not_elem_of_nil|].
  unfold joined in E. destruct (step a o) as [[a1 l1]|] eqn:E1; [|discriminate]. destruct (runs a1 os) as [[a2 l2]|] eqn:E2; [|discriminate].
  injection E as <- <-. destruct (step_inv _ _ _ _ _ _ I E1) as (I1 & _ & D). rewrite history_app. intros [H|H]%elem_of_app; [|by eapply IH in H].
  specialize (D i f Ef). unfold Profile_Props.does in D.
  assert (∀ w f alt t' x, attempt w f alt t' x → Freed t ∉ x) as At.
  { intros w f0 alt t' x [(d & _ & ->)|[_ ->]] Hx; apply elem_of_list_singleton in Hx; discriminate. }
  assert (∀ w f t' h x, ensured w f t' h x → Freed t ∉ x) as En.
  { intros w f0 t' h x [[_ ->]|[_ Ha]] Hx; [by apply elem_of_nil in Hx|]. by eapply At. }
  destruct o as [ws|name now|j w alt now|j now|j w tl t0 finish].
  + destruct (ws i) as [[[w tl] tc] tf]. destruct D as (h1 & h2 & Ex & He & [[[? _] _]|[_ ->]]); [lia|]. rewrite Ex, app_nil_r in H. by eapply En.
  + destruct D as [[_ Ex]|[_ Ex]]; rewrite Ex in H; [apply elem_of_list_singleton in H; discriminate|by apply elem_of_nil in H].
  + destruct D as [[_ Ex]|[_ [[_ Ex]|[_ Ha]]]]; [rewrite Ex in H; by apply elem_of_nil in H|rewrite Ex in H; by apply elem_of_nil in H|]. by eapply At.
  + destruct D as [[_ Ex]|[_ [(d & _ & Ex)|[_ Ex]]]]; rewrite Ex in H; [by apply elem_of_nil in H| |]; apply elem_of_list_singleton in H; discriminate.
  + destruct D as [[_ Ex]|[_ (h1 & h2 & Ex & He & D)]]; rewrite Ex in H; [by apply elem_of_nil in H|]. apply elem_of_app in H as [H|H]; [by eapply En|].
    destruct D as [(d & _ & ->)|[_ ->]]; apply elem_of_list_singleton in H; discriminate.
Qed.
(** A request to reload a profile is answered with success, and the profile is loaded anew, from
    the files as they are then, by the next timer *)
Theorem C89_reload cs os name now ws i f a l a1 l1 a2 l2 : cs !! i = Some f → named cs name i → runs (start cs) os = Some (a, l) →
  step a (Reload name now) = Some (a1, l1) → step a1 (Tick ws) = Some (a2, l2) →
  replies l1 = [None] ∧ history i l1 = [Unloaded now] ∧
  ∃ h1 h2, history i l2 = h1 ++ h2 ∧ attempt (ws i).1.1.1 f none (ws i).1.1.2 h1 ∧ ∀ x, x ∈ h2 → ∃ t, x = Freed t.
Proof.
  intros Hf N E S1 S2. pose proof (runs_inv cs os _ _ _ _ (start_inv cs) E) as I. cbn [app] in I.
  destruct (step_inv _ _ _ _ _ _ I S1) as (I1 & R1 & D1). destruct (step_inv _ _ _ _ _ _ I1 S2) as (I2 & _ & D2).
  destruct R1 as [[_ R1]|[R1 _]]; [|destruct R1; by exists i]. destruct (D1 i f Hf) as [[_ H1]|[H1 _]]; [|done]. split; [done|]. split; [done|].
  specialize (D2 i f Hf). unfold Profile_Props.does in D2. destruct (ws i) as [[[w tl] tc] tf]. cbn.
  destruct D2 as (h1 & h2 & Ex & En & Hh). exists h1, h2. split; [done|]. rewrite history_app, H1 in En. split.
  - destruct En as [[[d Hd] _]|[_ En]]; [|done]. by apply in_force_snoc in Hd.
  - destruct Hh as [[_ ->]|[_ ->]]; intros x Hx; [apply elem_of_list_singleton in Hx as ->; by exists tf|by apply elem_of_nil in Hx].
Qed.
End proofs.

(** * Cases *)
(** Numbers are lengths of texts, catalogs lists of numbers *)
Definition ex_stod (s : text) : option Z := match s with [] => None | _ => Some (Z.of_nat (length s)) end.
Definition ex_empty (c : list nat) : bool := match c with [] => true | _ => false end.
Definition ex_g (alive : Z) : settings Z := Settings alive true (tx "/cache") 60.
Definition ex_world (c : res (list nat)) : world Z (list nat) := World (λ _, Exc) (λ _ _ _, c) (λ _, true) (λ _, true) (λ _ _, true) (λ _, true).
Definition ex_conf (name ty model : text) : conf := Conf name [] (tx "s.csv") (tx "e.csv") (tx "p.csv") ty model (tx "slink://").
Definition ex_nll := ex_conf (tx "swiss") (tx "Native:NLLGrid") (tx "grids;iasp91;0.1;swapBytes;-1;cached").
Definition ex_hom := ex_conf (tx "flat") (tx "Native:homogeneous") (tx "5.8;;3.36").
Definition ex_dd (c : list nat) : dd Z (list nat) :=
  DD c (NLLGrid (tx "grids") (tx "iasp91") 3 true 4294967295 (tx "cached")) (tx "slink://") (Some (tx "/cache/swiss/wfcache", 60)).
Definition ex_dd2 (c : list nat) : dd Z (list nat) :=
  DD c (Homogeneous 3 4) (tx "slink://") (Some (tx "/cache/flat/wfcache", 60)).
Notation ex_runs alive := (runs ex_stod ex_empty (ex_g alive) []).
Notation ex_step alive := (step ex_stod ex_empty (ex_g alive) []).
Notation ex_op := (@op Z (list nat)).
(** Two profiles; the catalog of the second cannot be read at first. The first is reloaded. *)
Definition ex_ops : list ex_op := [
  Tick (λ i, (ex_world (if decide (i = 0)%nat then Ok [1; 2]%nat else Exc), 1, 2, 3));
  Process 0 (ex_world Exc) 10 11 12;
  Process 1 (ex_world Exc) 13 14 15;
  Reload (tx "swiss") 20;
  Reload (tx "alps") 21;
  Tick (λ _, (ex_world (Ok [7]%nat), 30, 31, 32));
  Tick (λ _, (ex_world Exc, 40, 600 * 1000000 + 31, 50));
  Load 1 (ex_world Exc) [9]%nat 60;
  Process 1 (ex_world Exc) 70 71 72;
  Preload 0 80 ].
Example C89_example : Forall sane_op ex_ops ∧ ∃ a, ex_runs 600 (start [ex_nll; ex_hom]) ex_ops = Some (a,
  [ Act 0 (Loaded (ex_dd [1; 2]%nat) 1); Act 1 (Unloaded 1);
    Act 0 (Relocated (ex_dd [1; 2]%nat) 11);
    Act 1 (Unloaded 13); Act 1 Refused;
    Act 0 (Unloaded 20); Reply None;
    Reply (Some (tx "Unknown profile 'alps'"));
    Act 0 (Loaded (ex_dd [7]%nat) 30); Act 1 (Loaded (ex_dd2 [7]%nat) 30);
    Act 0 (Freed 50); Act 1 (Freed 50);
    Act 1 (Relocated (ex_dd2 [7]%nat) 71);
    Act 0 (Preloaded (ex_dd [7]%nat) 80) ]).
Proof.
  split; [|eexists; vm_compute; reflexivity]. unfold ex_ops. repeat constructor; cbn; try done; intros; try done; by case_decide.
Qed.
Example C89_example_table : table_for ex_stod ex_nll (NLLGrid (tx "grids") (tx "iasp91") 3 true 4294967295 (tx "cached")).
Proof. apply C89_table. vm_compute. reflexivity. Qed.
Example C89_example_named : named [ex_nll; ex_hom] (tx "flat") 1.
Proof.
  split; [done|]. split; [by exists ex_hom|]. intros j f Hj Hf. destruct j; [|lia]. injection Hf as <-. done.
Qed.
Example C89_example_kept : ∃ a l, ex_runs (-1) (start [ex_nll; ex_hom]) ex_ops = Some (a, l) ∧ Act 0 (Relocated (ex_dd [1; 2]%nat) 11) ∈ l.
Proof. eexists _, _. split; [vm_compute; reflexivity|]. right. right. by left. Qed.

(** A reload is answered with success although the profile cannot be loaded any more: the catalog
    it had is lost. *)
Theorem C89_reload_refuted : ∃ (os : list ex_op) o ws a l a1 l1 a2 l2,
  ex_runs 600 (start [ex_nll]) os = Some (a, l) ∧ in_force (history 0 l) (ex_dd [1]%nat) ∧
  ex_step 600 a o = Some (a1, l1) ∧ replies l1 = [None] ∧
  ex_step 600 a1 (Tick ws) = Some (a2, l2) ∧ idle (history 0 (l ++ l1 ++ l2)).
Proof.
  exists [Tick (λ _, (ex_world (Ok [1]%nat), 1, 2, 3))], (Reload (tx "swiss") 4), (λ _, (ex_world Exc, 5, 6, 7)).
  eexists _, _, _, _, _, _. split; [vm_compute; reflexivity|]. split.
  { exists [], 1, []. split; [vm_compute; reflexivity|]. intros x Hx. by apply elem_of_nil in Hx. }
  split; [vm_compute; reflexivity|]. split; [reflexivity|]. split; [vm_compute; reflexivity|].
  intros d. match goal with |- ¬ in_force (history 0 (?l ++ ?l1 ++ ?l2)) d => change (¬ in_force (history 0 ((l ++ l1) ++ l2)) d) end.
  rewrite history_app. match goal with |- ¬ in_force (?h ++ ?h') d => change h' with [Unloaded 5 : act Z (list nat)] end.
  intros H. apply in_force_snoc in H. exact H.
Qed.
(** The waveforms are released although the last relocation ended only a moment ago: the time of
    last usage is the beginning of a relocation. *)
Theorem C89_freed_refuted : ∃ (os : list ex_op) i w tl start_ finish ws a l a' l',
  ex_runs 600 (start [ex_nll]) (os ++ [Process i w tl start_ finish]) = Some (a, l) ∧ ex_step 600 a (Tick ws) = Some (a', l') ∧
  start_ < finish ∧ (ws i).1.2 - finish = 1 ∧ ∃ t, Act i (Freed t) ∈ l'.
Proof.
  exists [Tick (λ _, (ex_world (Ok [1]%nat), 1, 2, 3))], 0%nat, (ex_world Exc), 4, 5, 700000000, (λ _, (ex_world Exc, 5, 700000001, 700000002)).
  eexists _, _, _, _. split; [vm_compute; reflexivity|]. split; [vm_compute; reflexivity|]. split; [done|]. split; [done|]. exists 700000002. by left.
Qed.
(** Six fields with an empty one in the place of "swapBytes" are no valid model: adjacent
    separators count as one. *)
Theorem C89_field_refuted : ∃ p m d k a : text, ∃ f : conf,
  f_type f = tx "Native:NLLGrid" ∧ f_model f = p ++ tx ";" ++ m ++ tx ";" ++ d ++ tx ";" ++ [] ++ tx ";" ++ k ++ tx ";" ++ a ∧
  Forall (λ x : text, x ≠ [] ∧ ";"%char ∉ x) [p; m; d; k; a] ∧ ex_stod d ≠ None ∧ stoul k = Some 100%N ∧ ∀ t, ¬ table_for ex_stod f t.
Proof.
  exists (tx "grids"), (tx "iasp91"), (tx "0.1"), (tx "100"), (tx "cached"), (ex_conf (tx "swiss") (tx "Native:NLLGrid") (tx "grids;iasp91;0.1;;100;cached")).
  split; [done|]. split; [done|]. split.
  { repeat constructor; try done; vm_compute; intros H; repeat (apply elem_of_cons in H as [H|H]; [discriminate|]); by apply elem_of_nil in H. }
  split; [done|]. split; [done|]. intros t. rewrite C89_table. vm_compute. done.
Qed.

Print Assumptions C89_trace.
Print Assumptions C89_step.
Print Assumptions C89_defined.
Print Assumptions C89_table.
Print Assumptions C89_load.
Print Assumptions C89_kept.
Print Assumptions C89_reload.
Print Assumptions C89_reload_refuted.
Print Assumptions C89_freed_refuted.
Print Assumptions C89_field_refuted.
