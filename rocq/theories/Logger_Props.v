(** Theorems about the logger: C62. *)
From stdpp Require Import gmap list strings sorting.
From Verif Require Import Logger_Model.

(** ** Specification, in terms of the history of calls only *)
(** At position [i] the file [f] is open for messages from level [min]: it was opened
    at some earlier position, not closed since, and was not already open then. *)
Definition opened (h : list lop) (j : nat) (f : string) (min : level) : Prop := h !! j = Some (LAdd f min true).
Definition closed_between (h : list lop) (j i : nat) (f : string) : Prop :=
  ∃ r, j < r < i ∧ h !! r = Some (LRemove f).
Definition active (h : list lop) (i : nat) (f : string) (min : level) : Prop :=
  ∃ j, j < i ∧ opened h j f min ∧ ¬ closed_between h j i f ∧
    ∀ a min', a < j → opened h a f min' → closed_between h a j f.
(** The console level at position [i]. *)
Definition level_at (h : list lop) (i : nat) (g : level) : Prop :=
  (∃ j, j < i ∧ h !! j = Some (LSetLevel g) ∧ ∀ r g', j < r < i → h !! r ≠ Some (LSetLevel g')) ∨
  (g = Debug ∧ ∀ r g', r < i → h !! r ≠ Some (LSetLevel g')).
(** The message logged at position [i], if it is meant to be written to [f]. *)
Definition written (h : list lop) (i : nat) (f : string) (x : line) : Prop :=
  ∃ l m min, x = (l, m) ∧ active h i f min ∧ lev min ≤ lev l ∧
    (h !! i = Some (LLog l m) ∨ (h !! i = Some (LLogF l m) ∧ ∃ g, level_at h i g ∧ lev g ≤ lev l)).

(** ** Only the past matters *)
Lemma active_app h t i f min : i ≤ length h → active (h ++ t) i f min ↔ active h i f min.
Proof.
  intros Hi. unfold active, opened, closed_between.
  assert (∀ r, r < i → (h ++ t) !! r = h !! r) as E by (intros r Hr; apply lookup_app_l; lia).
  split; intros (j & Hj & Ho & Hc & Hf); exists j; split; try done.
  - rewrite E in Ho by lia. split; [done|]. split.
    + intros (r & Hr & H). apply Hc. exists r. split; [done|]. rewrite E; [done|lia].
    + intros a m' Ha H. destruct (Hf a m' Ha) as (r & Hr & H'); [rewrite E; [done|lia]|].
      exists r. split; [done|]. rewrite <- E; [done|lia].
  - rewrite E by lia. split; [done|]. split.
    + intros (r & Hr & H). apply Hc. exists r. split; [done|]. rewrite <- E; [done|lia].
    + intros a m' Ha H. destruct (Hf a m' Ha) as (r & Hr & H'); [rewrite <- E; [done|lia]|].
      exists r. split; [done|]. rewrite E; [done|lia].
Qed.
Lemma level_app h t i g : i ≤ length h → level_at (h ++ t) i g ↔ level_at h i g.
Proof.
  intros Hi. unfold level_at.
  assert (∀ r, r < i → (h ++ t) !! r = h !! r) as E by (intros r Hr; apply lookup_app_l; lia).
  split; (intros [(j & Hj & Ho & Hc)|[-> Hc]]; [left; exists j; split; [done|]; split|right; split; [done|]]).
  - rewrite <- E; [done|lia].
  - intros r g' Hr. rewrite <- E; [by apply Hc|lia].
  - intros r g' Hr. rewrite <- E; [by apply Hc|lia].
  - rewrite E; [done|lia].
  - intros r g' Hr. rewrite E; [by apply Hc|lia].
  - intros r g' Hr. rewrite E; [by apply Hc|lia].
Qed.
Lemma written_app h t i f x : i < length h → written (h ++ t) i f x ↔ written h i f x.
Proof.
  intros Hi. unfold written. rewrite lookup_app_l by done.
  split; intros (l & m & min & -> & Ha & Hl & H); exists l, m, min; (split; [done|]);
    (split; [by apply (active_app h t i) in Ha; [|lia] || (apply (active_app h t i); [lia|done])|]); (split; [done|]);
    (destruct H as [H|[H (g & Hg & Hle)]]; [by left|right; split; [done|]; exists g; split; [|done]]).
  - by apply (level_app h t i); [lia|].
  - by apply (level_app h t i); [lia|].
Qed.

Lemma run_snoc h o : run (h ++ [o]) = step (run h) o.
Proof. unfold run. by rewrite fold_left_app. Qed.
Lemma lookup_snoc h (o : lop) : (h ++ [o]) !! length h = Some o.
Proof. rewrite lookup_app_r by lia. by rewrite Nat.sub_diag. Qed.

(** ** The state agrees with the specification *)
Lemma level_step h o g : level_at h (length h) g →
  (∀ g', o ≠ LSetLevel g') → level_at (h ++ [o]) (S (length h)) g.
Proof.
  intros H Ho. apply (level_app h [o]) in H; [|lia]. destruct H as [(j & Hj & H & Hc)|[-> Hc]].
  - left. exists j. split; [lia|]. split; [done|]. intros r g' Hr.
    destruct (decide (r = length h)) as [->|]; [rewrite lookup_snoc; intros [= ?]; by eapply Ho|apply Hc; lia].
  - right. split; [done|]. intros r g' Hr.
    destruct (decide (r = length h)) as [->|]; [rewrite lookup_snoc; intros [= ?]; by eapply Ho|apply Hc; lia].
Qed.
Lemma log_keeps l m s : lg_level (log l m s) = lg_level s ∧ lg_files (log l m s) = lg_files s ∧ lg_user (log l m s) = lg_user s
  ∧ lg_out (log l m s) = lg_out (log_to_file l m s).
Proof. unfold log. destruct (decide _); [destruct (lg_user s)|]; done. Qed.
Lemma run_level h : level_at h (length h) (lg_level (run h)).
Proof.
  induction h as [|o h IH] using rev_ind.
  { right. split; [done|]. intros r g' Hr. simpl in Hr. lia. }
  rewrite run_snoc, app_length. simpl. replace (length h + 1) with (S (length h)) by lia.
  destruct o as [g|u| |f min ok|f|l m|l m]; unfold step;
    try (apply level_step; [done|discriminate]).
  - left. exists (length h). split; [lia|]. split; [apply lookup_snoc|]. intros r g' Hr. lia.
  - destruct (lg_user _); (apply level_step; [done|discriminate]).
  - destruct (_ !! f); [|destruct ok]; (apply level_step; [done|discriminate]).
  - destruct (log_keeps l m (run h)) as (-> & _). apply level_step; [done|discriminate].
  - destruct (decide _); [destruct (log_keeps l m (run h)) as (-> & _)|]; (apply level_step; [done|discriminate]).
Qed.
Lemma level_unique h i g g' : level_at h i g → level_at h i g' → g = g'.
Proof.
  intros [(j & Hj & H & Hc)|[-> Hc]] [(j' & Hj' & H' & Hc')|[-> Hc']]; [| | |done].
  - destruct (decide (j = j')) as [->|D]; [congruence|]. exfalso. destruct (decide (j < j')).
    + eapply Hc; [|exact H']. lia.
    + eapply Hc'; [|exact H]. lia.
  - exfalso. eapply Hc'; [|exact H]. done.
  - exfalso. eapply Hc; [|exact H']. done.
Qed.

Lemma active_step h o f min : (o = LRemove f → False) →
  active h (length h) f min → active (h ++ [o]) (S (length h)) f min.
Proof.
  intros Ho H. apply (active_app h [o]) in H; [|lia]. destruct H as (j & Hj & Ha & Hc & Hf).
  exists j. split; [lia|]. split; [done|]. split; [|done].
  intros (r & Hr & H). destruct (decide (r = length h)) as [->|].
  - rewrite lookup_snoc in H. injection H as ->. by apply Ho.
  - apply Hc. exists r. split; [lia|done].
Qed.
Lemma active_unique h i f m m' : active h i f m → active h i f m' → m = m'.
Proof.
  intros (j & Hj & Ho & Hc & Hf) (j' & Hj' & Ho' & Hc' & Hf').
  destruct (decide (j = j')) as [->|D]; [unfold opened in *; congruence|]. exfalso.
  destruct (decide (j < j')).
  - destruct (Hf' j m) as (r & Hr & H); [done|done|]. apply Hc. exists r. split; [lia|done].
  - destruct (Hf j' m') as (r & Hr & H); [lia|done|]. apply Hc'. exists r. split; [lia|done].
Qed.
Definition all_closed (h : list lop) (f : string) : Prop :=
  ∀ a m, opened h a f m → closed_between h a (length h) f.
Lemma all_closed_step h o f : (∀ m, o ≠ LAdd f m true) → all_closed h f → all_closed (h ++ [o]) f.
Proof.
  intros Ho H a m Ha. destruct (decide (a < length h)) as [L|L].
  - unfold opened in Ha. rewrite lookup_app_l in Ha by done. destruct (H a m Ha) as (r & Hr & H').
    exists r. rewrite app_length. split; [lia|]. rewrite lookup_app_l by lia. done.
  - destruct (decide (a = length h)) as [->|].
    + unfold opened in Ha. rewrite lookup_snoc in Ha. injection Ha as ->. by destruct (Ho m).
    + unfold opened in Ha. apply lookup_lt_Some in Ha. rewrite app_length in Ha. simpl in Ha. lia.
Qed.
Lemma run_files_inv h f :
  match lg_files (run h) !! f with Some min => active h (length h) f min | None => all_closed h f end.
Proof.
  revert f. induction h as [|o h IH] using rev_ind; intros f.
  { change (lg_files (run [])) with (∅ : gmap string level). rewrite lookup_empty.
    intros a m Ha. unfold opened in Ha. by rewrite lookup_nil in Ha. }
  rewrite run_snoc.
  assert (length (h ++ [o]) = S (length h)) as Hlen by (rewrite app_length; simpl; lia).
  specialize (IH f).
  assert ((∀ m', o ≠ LAdd f m' true) → (o ≠ LRemove f) → lg_files (step (run h) o) !! f = lg_files (run h) !! f →
    match lg_files (step (run h) o) !! f with Some min => active (h ++ [o]) (S (length h)) f min | None => all_closed (h ++ [o]) f end) as Hsame.
  { intros N1 N2 ->. destruct (lg_files (run h) !! f); [by apply active_step|by apply all_closed_step]. }
  rewrite Hlen. destruct o as [g|u| |f' min' ok|f'|l m|l m].
  1, 3: by apply Hsame.
  - apply Hsame; [done|done|]; simpl; by destruct (lg_user _).
  - destruct ok; [|apply Hsame; [done|done|]; simpl; by destruct (_ !! f')].
    destruct (decide (f = f')) as [<-|D].
    2: { apply Hsame; [congruence|done|]. simpl. destruct (_ !! f'); [done|]. simpl. by rewrite lookup_insert_ne. }
    simpl. destruct (lg_files (run h) !! f) as [m0|] eqn:E.
    + rewrite E. by apply active_step.
    + simpl. rewrite lookup_insert. exists (length h). split; [lia|]. split; [apply lookup_snoc|]. split.
      * intros (r & Hr & _). lia.
      * intros a m0 Ha Ho. unfold opened in Ho. rewrite lookup_app_l in Ho by done.
        destruct (IH a m0 Ho) as (r & Hr & H). exists r. split; [done|]. rewrite lookup_app_l by lia. done.
  - destruct (decide (f = f')) as [<-|D].
    2: { apply Hsame; [done|congruence|]. simpl. by rewrite lookup_delete_ne. }
    simpl. rewrite lookup_delete. intros a m Ha. exists (length h). split; [|apply lookup_snoc].
    split; [|lia]. unfold opened in Ha. destruct (decide (a = length h)) as [->|]; [by rewrite lookup_snoc in Ha|].
    apply lookup_lt_Some in Ha. lia.
  - apply Hsame; [done|done|]. unfold step. by destruct (log_keeps l m (run h)) as (_ & -> & _).
  - apply Hsame; [done|done|]. unfold step. destruct (decide _); [|done]. by destruct (log_keeps l m (run h)) as (_ & -> & _).
Qed.
Lemma run_files h f min : lg_files (run h) !! f = Some min ↔ active h (length h) f min.
Proof.
  pose proof (run_files_inv h f) as H. split.
  - intros E. by rewrite E in H.
  - intros A. destruct (lg_files (run h) !! f) as [m0|].
    + f_equal. by eapply active_unique.
    + exfalso. destruct A as (j & Hj & Ho & Hc & _). apply Hc. by eapply H.
Qed.

(** ** What is written *)
Lemma log_to_file_out l m s f :
  lg_out (log_to_file l m s) !! f =
    match lg_files s !! f with
    | Some min => if decide (lev min ≤ lev l) then Some (default [] (lg_out s !! f) ++ [(l, m)]) else lg_out s !! f
    | None => lg_out s !! f
    end.
Proof.
  unfold log_to_file. simpl.
  apply (map_fold_ind (λ out files, out !! f = match files !! f with
    | Some min => if decide (lev min ≤ lev l) then Some (default [] (lg_out s !! f) ++ [(l, m)]) else lg_out s !! f
    | None => lg_out s !! f end)); [done|].
  intros f' min files out Hn IH. destruct (decide (f' = f)) as [->|D].
  - rewrite lookup_insert. rewrite Hn in IH. destruct (decide _); [by rewrite lookup_insert, IH|done].
  - rewrite (lookup_insert_ne files) by done. destruct (decide _); [by rewrite lookup_insert_ne|done].
Qed.

(** C62: after any history of calls, the content of a file is exactly the list of the
    messages logged, in order, while the file was open with a minimum level not above
    the message level; for the formatting variants (logInfoF, ...) provided that in
    addition the console level was not above the message level. *)
Theorem C62_file_content_partial (h : list lop) (f : string) :
  ∃ idx : list nat, StronglySorted lt idx ∧
    (∀ i x, written h i f x → i ∈ idx) ∧
    Forall2 (λ i x, written h i f x) idx (default [] (lg_out (run h) !! f)).
Proof.
  induction h as [|o h (idx & Hs & Hc & Hf)] using rev_ind.
  { exists []. split; [constructor|]. split; [|constructor].
    intros i x (l & m & min & _ & (j & _ & Ho & _) & _). unfold opened in Ho. by rewrite lookup_nil in Ho. }
  rewrite run_snoc.
  assert (Forall (λ i, i < length h) idx) as Hlt.
  { clear -Hf. apply Forall_forall. intros i Hi. apply elem_of_list_lookup in Hi as [k Hk].
    destruct (Forall2_lookup_l _ _ _ _ _ Hf Hk) as (x & _ & Hx). destruct Hx as (l & m & min & _ & _ & _ & H).
    destruct H as [H|[H _]]; by apply lookup_lt_Some in H. }
  assert (Forall2 (λ i x, written (h ++ [o]) i f x) idx (default [] (lg_out (run h) !! f))) as Hf'.
  { clear -Hf Hlt. induction Hf as [|i x idx out H1 H2 IH]; [constructor|]. apply Forall_cons in Hlt as [L1 L2].
    constructor; [by apply written_app|by apply IH]. }
  assert (∀ i x, written (h ++ [o]) i f x → i ∈ idx ∨ (i = length h ∧ written (h ++ [o]) (length h) f x)) as Hc'.
  { intros i x H. assert (i < length (h ++ [o])) as L.
    { destruct H as (l & m & min & _ & _ & _ & [H|[H _]]); by apply lookup_lt_Some in H. }
    rewrite app_length in L. simpl in L. destruct (decide (i = length h)) as [->|]; [by right|].
    left. eapply Hc. apply (written_app h [o]); [lia|exact H]. }
  (* either nothing is written or one line *)
  assert ((lg_out (step (run h) o) !! f = lg_out (run h) !! f ∧ ∀ x, ¬ written (h ++ [o]) (length h) f x) ∨
          ∃ x, lg_out (step (run h) o) !! f = Some (default [] (lg_out (run h) !! f) ++ [x]) ∧ written (h ++ [o]) (length h) f x) as Hstep.
  { assert (∀ x l m, (o = LLog l m ∨ o = LLogF l m) → written (h ++ [o]) (length h) f x → x = (l, m) ∧
       ∃ min, lg_files (run h) !! f = Some min ∧ lev min ≤ lev l ∧ (o = LLog l m ∨ lev (lg_level (run h)) ≤ lev l)) as Hw.
    { intros x l m Ho (l' & m' & min & -> & Ha & Hle & H). rewrite lookup_snoc in H.
      apply (active_app h [o]) in Ha; [|lia]. apply run_files in Ha.
      destruct H as [Ho'|[Ho' (g & Hg & Hle')]]; injection Ho' as Ho'.
      - destruct Ho as [Ho|Ho]; [|congruence]. assert (l' = l ∧ m' = m) as [-> ->] by (split; congruence). eauto 8.
      - destruct Ho as [Ho|Ho]; [congruence|]. assert (l' = l ∧ m' = m) as [-> ->] by (split; congruence). split; [done|]. exists min. split; [done|]. split; [done|]. right.
        apply (level_app h [o]) in Hg; [|lia]. by rewrite (level_unique _ _ _ _ (run_level h) Hg). }
    assert (∀ l m, o = LLog l m ∨ (o = LLogF l m ∧ lev (lg_level (run h)) ≤ lev l) → ∀ min, lg_files (run h) !! f = Some min → lev min ≤ lev l →
       written (h ++ [o]) (length h) f (l, m)) as Hw'.
    { intros l m Ho min Hmin Hle. exists l, m, min. split; [done|]. split; [apply active_app; [lia|]; by apply run_files|].
      split; [done|]. rewrite lookup_snoc. destruct Ho as [->|[-> Hg]]; [by left|right]. split; [done|].
      exists (lg_level (run h)). split; [apply level_app; [lia|]; apply run_level|done]. }
    assert ((∀ l m, o ≠ LLog l m) → (∀ l m, o ≠ LLogF l m) → ∀ x, ¬ written (h ++ [o]) (length h) f x) as Hno.
    { intros N1 N2 x (l & m & min & _ & _ & _ & H). rewrite lookup_snoc in H. destruct H as [[= H]|[[= H] _]]; [by eapply N1|by eapply N2]. }
    destruct o as [g|u| |f' min' ok|f'|l m|l m]; unfold step.
    - left. split; [done|by apply Hno].
    - left. split; [by destruct (lg_user _)|by apply Hno].
    - left. split; [done|by apply Hno].
    - left. split; [destruct (_ !! f'); [done|by destruct ok]|by apply Hno].
    - left. split; [done|by apply Hno].
    - destruct (log_keeps l m (run h)) as (_ & _ & _ & ->). rewrite log_to_file_out.
      destruct (lg_files (run h) !! f) as [min|] eqn:E; [destruct (decide _) as [L|L]|].
      + right. exists (l, m). split; [done|]. eapply Hw'; eauto.
      + left. split; [done|]. intros x H. apply (Hw x l m) in H as (_ & min0 & [= <-] & H & _); [done|by left].
      + left. split; [done|]. intros x H. apply (Hw x l m) in H as (_ & min0 & H & _); [done|by left].
    - destruct (decide (lev (lg_level (run h)) ≤ lev l)) as [G|G].
      2: { left. split; [done|]. intros x H. apply (Hw x l m) in H as (_ & min0 & _ & _ & [[=]|H]); [done|by right]. }
      destruct (log_keeps l m (run h)) as (_ & _ & _ & ->). rewrite log_to_file_out.
      destruct (lg_files (run h) !! f) as [min|] eqn:E; [destruct (decide _) as [L|L]|].
      + right. exists (l, m). split; [done|]. eapply Hw'; eauto.
      + left. split; [done|]. intros x H. apply (Hw x l m) in H as (_ & min0 & [= <-] & H & _); [done|by right].
      + left. split; [done|]. intros x H. apply (Hw x l m) in H as (_ & min0 & H & _); [done|by right]. }
  destruct Hstep as [[-> Hn]|(x & -> & Hx)].
  - exists idx. split; [done|]. split; [|done]. intros i x H. destruct (Hc' i x H) as [?|[_ ?]]; [done|]. by destruct (Hn x).
  - exists (idx ++ [length h]). split.
    + clear -Hs Hlt. induction Hs as [|i idx H1 IH H2]; [by repeat constructor|]. apply Forall_cons in Hlt as [L1 L2].
      simpl. constructor; [by apply IH|]. apply Forall_app. split; [done|]. by constructor.
    + split.
      * intros i y H. apply elem_of_app. destruct (Hc' i y H) as [?|[-> _]]; [by left|right; by left].
      * simpl. apply Forall2_app; [done|]. constructor; [done|constructor].
Qed.

(** The property itself fails for the formatting variants: an error logged with
    logErrorF is missing from an open file that accepts every level. *)
Theorem C62_formatted_refuted :
  ∃ h i f min l m, active h i f min ∧ lev min ≤ lev l ∧ h !! i = Some (LLogF l m) ∧ default [] (lg_out (run h) !! f) = [].
Proof.
  exists [LAdd "run.log" Debug true; LSetLevel NoLevel; LLogF Error "lost"], 2, "run.log", Debug, Error, "lost".
  split; [|split; [simpl; lia|by split]].
  exists 0. split; [lia|]. split; [done|]. split.
  - intros (r & Hr & H). assert (r = 1) as -> by lia. done.
  - intros a m Ha. lia.
Qed.

(** A user logger receives what would otherwise go to the console, and the first
    registered one stays until it is cleared. *)
Lemma log_console (s : logger) (l : level) (m : string) :
  (lev (lg_level s) ≤ lev l →
     (∀ u, lg_user s = Some u → lg_calls (log l m s) = lg_calls s ++ [(u, (l, m))] ∧ lg_err (log l m s) = lg_err s) ∧
     (lg_user s = None → lg_calls (log l m s) = lg_calls s ∧ lg_err (log l m s) = lg_err s ++ [(l, m)])) ∧
  (lev l < lev (lg_level s) → lg_calls (log l m s) = lg_calls s ∧ lg_err (log l m s) = lg_err s).
Proof.
  unfold log. split.
  - intros H. rewrite decide_True by done. split.
    + intros u ->. done.
    + intros ->. done.
  - intros H. rewrite decide_False by lia. done.
Qed.

Print Assumptions C62_file_content_partial.
Print Assumptions C62_formatted_refuted.

Definition ex_h : list lop :=
  [LAdd "a" Warning true; LLog Info "1"; LLog Error "2"; LAdd "a" Debug true; LLogF Info "3"; LRemove "a"; LLog Error "4"; LAdd "a" Debug true; LLogF Info "5"].
Example ex_content : default [] (lg_out (run ex_h) !! "a") = [(Error, "2"); (Info, "5")].
Proof. vm_compute. reflexivity. Qed.
