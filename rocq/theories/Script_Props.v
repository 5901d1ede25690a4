(** C98: the script that renews the background catalog. *)
From Coq Require Import Ascii.
From stdpp Require Import gmap list strings sorting.
From Verif Require Import Csv_Model Table_Model Script_Model.
From Verif Require Catalog_Model CatalogFile_Model.
Local Open Scope nat_scope.

(** * Specification *)
(** The events were listed and relocated, and there are relocated events *)
Definition ready (w : world) : Prop :=
  w_mkdir w = true ∧ (w_list w).2 = true ∧ (w_reloc w).2 = true ∧
  ∃ ev ph st, (w_reloc w).1 !! tx "reloc-event.csv" = Some ev ∧ (w_reloc w).1 !! tx "reloc-phase.csv" = Some ph ∧
              (w_reloc w).1 !! tx "reloc-station.csv" = Some st ∧ 2 ≤ count_lines ev.
(** The results: the files of scrtdd and the list of ids *)
Definition results (w : world) (d : dir) : Prop :=
  (∀ f t, (w_reloc w).1 !! f = Some t → d !! f = Some t) ∧
  ((w_reloc w).1 !! tx "catalog-ids.csv" = None → d !! tx "catalog-ids.csv" = Some (w_list w).1) ∧
  (∀ f t, d !! f = Some t → (w_reloc w).1 !! f = Some t ∨ f = tx "catalog-ids.csv").
Definition three : list text := [tx "reloc-station.csv"; tx "reloc-phase.csv"; tx "reloc-event.csv"].
(** A directory in which the three files were replaced and the former ones kept *)
Definition replaced (new before after : dir) : Prop :=
  (∀ f, f ∈ three → after !! f = new !! f) ∧
  (∀ f, f ∈ three → after !! (f ++ tx ".old") = match before !! f with Some t => Some t | None => before !! (f ++ tx ".old") end) ∧
  (∀ f, f ∉ three → f ∉ ((λ f, f ++ tx ".old") <$> three) → after !! f = before !! f).

(** * The beginning *)
Lemma next_next a b d s : next a (next b d) s = next (next a b) d s.
Proof. unfold next. destruct (a s) as [s' []]; [|done]. by destruct (b s') as [s'' []]. Qed.
Definition start (w : world) : part := next (make_dir w) (next (download w) (relocate w)).
Definition finish (c : conf) (w : world) : part :=
  next (when (c_catalog c) (update_catalog w)) (next (when (c_web c) update_web) (next (when (c_db c) import) (back_up w))).
Lemma script_split c w s : script c w s = next (start w) (finish c w) s.
Proof.
  unfold script, start, finish. rewrite (next_next (make_dir w)), (next_next (next (make_dir w) (download w))).
  unfold next. destruct (make_dir w s) as [s' []]; [|done]. destruct (download w s') as [s'' []]; [|done]. done.
Qed.
Lemma there_spec name s d : s_work s = Some d → there name s = bool_decide (is_Some (d !! name)).
Proof. unfold there. by intros ->. Qed.
Definition made (w : world) : dir := (w_reloc w).1 ∪ {[tx "catalog-ids.csv" := (w_list w).1]}.
Lemma made_results w : results w (made w).
Proof.
  unfold results, made. split; [|split].
  - intros f t H. by apply lookup_union_Some_l.
  - intros H. rewrite lookup_union_r by done. apply lookup_singleton.
  - intros f t [H|[_ H]]%lookup_union_Some_raw; [by left|right]. by apply lookup_singleton_Some in H as [-> _].
Qed.
Lemma made_other w f : f ≠ tx "catalog-ids.csv" → made w !! f = (w_reloc w).1 !! f.
Proof. intros N. unfold made. apply option_eq. intros t. rewrite lookup_union_Some_raw, lookup_singleton_ne by done. naive_solver. Qed.
Lemma start_spec w s :
  (∃ d, s_work s = Some d ∧ start w s = (s, false)) ∨
  (s_work s = None ∧ w_mkdir w = false ∧ start w s = (s, false)) ∨
  (s_work s = None ∧ w_mkdir w = true ∧
   start w s = (State (Some {[tx "catalog-ids.csv" := (w_list w).1]}) (s_archive s) (s_bg s) (s_done s ++ [SList]), false) ∧ ¬ ready w) ∨
  (s_work s = None ∧ w_mkdir w = true ∧
   start w s = (State (Some (made w)) (s_archive s) (s_bg s) (s_done s ++ [SList; SReloc]), false) ∧ ¬ ready w) ∨
  (s_work s = None ∧ ready w ∧ start w s = (State (Some (made w)) (s_archive s) (s_bg s) (s_done s ++ [SList; SReloc]), true)).
Proof.
  unfold start, make_dir, download, relocate, stop_if, next, did, set_work. destruct s as [work ar bg dn]. cbn [s_work s_archive s_bg s_done].
  destruct work as [d|].
  { left. exists d. split; done. }
  right. rewrite bool_decide_eq_false_2 by (by intros [? ?]). cbn [negb].
  destruct (w_mkdir w) eqn:M; [|left; done]. right.
  cbn [s_work s_archive s_bg s_done mbind option_bind].
  rewrite (there_spec ids_file _ (<[ids_file:=(w_list w).1]> ∅)) by done. rewrite bool_decide_eq_true_2 by (rewrite lookup_insert; by eexists).
  unfold ready. destruct (w_list w).2 eqn:L; cbn [negb orb].
  2:{ left. split; [done|]. split; [done|]. split; [done|]. by intros (_ & ? & _). }
  right. cbn [s_work s_archive s_bg s_done mbind option_bind].
  rewrite <-app_assoc. cbn [app]. change ((w_reloc w).1 ∪ <[ids_file:=(w_list w).1]> ∅) with (made w).
  set (s1 := State (Some (made w)) _ _ _). rewrite !(there_spec _ s1 (made w)) by done.
  unfold ev_file, ph_file, st_file. rewrite !made_other by done.
  destruct (w_reloc w).2 eqn:R; cbn [negb orb].
  2:{ left. split; [done|]. split; [done|]. split; [done|]. by intros (_ & _ & ? & _). }
  assert (lines_in (tx "reloc-event.csv") s1 = match (w_reloc w).1 !! tx "reloc-event.csv" with Some t => count_lines t | None => 0 end) as ->.
  { unfold lines_in, s1. cbn [s_work]. by rewrite made_other. }
  destruct ((w_reloc w).1 !! tx "reloc-event.csv") as [ev|] eqn:E.
  2:{ left. split; [done|]. split; [done|]. split; [done|]. intros (_ & _ & _ & ? & ? & ? & ? & _). congruence. }
  destruct ((w_reloc w).1 !! tx "reloc-phase.csv") as [ph|] eqn:P.
  2:{ left. split; [done|]. split; [done|]. split; [done|]. intros (_ & _ & _ & ? & ? & ? & ? & ? & _). congruence. }
  destruct ((w_reloc w).1 !! tx "reloc-station.csv") as [st|] eqn:T.
  2:{ left. split; [done|]. split; [done|]. split; [done|]. intros (_ & _ & _ & ? & ? & ? & ? & ? & ? & _). congruence. }
  rewrite !bool_decide_eq_true_2 by by eexists. cbn [negb orb]. destruct (Nat.ltb_spec (count_lines ev) 2) as [C|C]; cbn [negb].
  - left. split; [done|]. split; [done|]. split; [done|]. intros (_ & _ & _ & ? & ? & ? & ? & ? & ? & ?). simplify_eq. lia.
  - right. split; [done|]. split; [|done]. split; [done|]. split; [done|]. split; [done|]. by exists ev, ph, st.
Qed.

(** * The copies *)
Lemma copy_one_spec r name src dst d ok : copy_one r name src dst = (d, ok) →
  ∀ f, f ≠ name → f ≠ old name → d !! f = dst !! f.
Proof.
  unfold copy_one. intros H f N1 N2.
  assert ((match dst !! name with Some t => delete name (<[old name:=t]> dst) | None => dst end) !! f = dst !! f) as E.
  { destruct (dst !! name); [|done]. by rewrite lookup_delete_ne, lookup_insert_ne. }
  destruct (src !! name); [|by injection H as <- _]. destruct r; injection H as <- _; [|done|done]. by rewrite lookup_insert_ne.
Qed.
Lemma old_ne name : old name ≠ name.
Proof. unfold old. intros H. apply (f_equal length) in H. rewrite app_length in H. change (length (tx ".old")) with 4 in H. lia. Qed.
Lemma copy_one_ok r name src dst d : copy_one r name src dst = (d, true) →
  d !! name = src !! name ∧ d !! old name = (match dst !! name with Some t => Some t | None => dst !! old name end).
Proof.
  unfold copy_one. intros H. destruct (src !! name) as [t|]; [|done]. destruct r; try done. injection H as <-.
  rewrite lookup_insert. split; [done|]. rewrite lookup_insert_ne by (intros E; by apply (old_ne name)).
  destruct (dst !! name); [|done]. rewrite lookup_delete_ne by (intros E; by apply (old_ne name)). by rewrite lookup_insert.
Qed.
Lemma copy_three r src dst d : copy_all r [st_file; ph_file; ev_file] src dst = (d, true) → replaced src dst d.
Proof.
  cbn [copy_all]. destruct (copy_one (r st_file) st_file src dst) as [d1 k1] eqn:E1.
  destruct (copy_one (r ph_file) ph_file src d1) as [d2 k2] eqn:E2. destruct (copy_one (r ev_file) ev_file src d2) as [d3 k3] eqn:E3.
  rewrite andb_true_r. intros H. apply pair_equal_spec in H as [<- H]. apply andb_true_iff in H as [-> H]. apply andb_true_iff in H as [-> ->].
  pose proof (copy_one_spec _ _ _ _ _ _ E1) as O1. pose proof (copy_one_spec _ _ _ _ _ _ E2) as O2. pose proof (copy_one_spec _ _ _ _ _ _ E3) as O3.
  destruct (copy_one_ok _ _ _ _ _ E1) as [A1 B1]. destruct (copy_one_ok _ _ _ _ _ E2) as [A2 B2]. destruct (copy_one_ok _ _ _ _ _ E3) as [A3 B3].
  change (tx "reloc-station.csv") with st_file in *. unfold replaced, three.
  change (tx "reloc-station.csv") with st_file. change (tx "reloc-phase.csv") with ph_file. change (tx "reloc-event.csv") with ev_file.
  assert (∀ f, f ++ tx ".old" = old f) as EO by done.
  assert (NoDup [st_file; ph_file; ev_file; old st_file; old ph_file; old ev_file]) as ND by by apply (bool_decide_unpack _).
  rewrite !NoDup_cons, !not_elem_of_cons in ND.
  destruct ND as ((N12 & N13 & N14 & N15 & N16 & _) & (N23 & N24 & N25 & N26 & _) & (N34 & N35 & N36 & _) & (N45 & N46 & _) & (N56 & _) & _).
  split; [|split].
  - intros f Hf. repeat (apply elem_of_cons in Hf as [->|Hf]); [| | |by apply elem_of_nil in Hf].
    + by rewrite O3, O2.
    + by rewrite O3.
    + done.
  - intros f Hf. rewrite !EO. repeat (apply elem_of_cons in Hf as [->|Hf]); [| | |by apply elem_of_nil in Hf].
    + by rewrite O3, O2 by congruence.
    + rewrite O3 by congruence. rewrite B2. by rewrite !O1 by congruence.
    + rewrite B3. by rewrite !O2, !O1 by congruence.
  - intros f Hf Ho. cbn [fmap list_fmap] in Ho. rewrite !EO in Ho. rewrite !not_elem_of_cons in Hf, Ho.
    destruct Hf as (? & ? & ? & _), Ho as (? & ? & ? & _). by rewrite O3, O2, O1.
Qed.

(** * The rest *)
Global Instance step_eq_dec : EqDecision step.
Proof. solve_decision. Defined.
Lemma finish_spec c w s d s' on : s_work s = Some d → finish c w s = (s', on) →
  (∃ l, s_done s' = s_done s ++ l ∧ SList ∉ l ∧ SReloc ∉ l ∧
    (SReload ∈ l → c_catalog c = true ∧ replaced d (s_bg s) (s_bg s')) ∧
    (SCopy ∈ l → c_catalog c = true) ∧ (SWeb ∈ l → c_web c = true) ∧ (SImport ∈ l → c_db c = true) ∧
    (c_catalog c = false → s_bg s' = s_bg s) ∧
    (SRemove ∈ l ∧ SArchive ∈ l ∧ s_archive s' = (if w_tar w then Some d else s_archive s) ∧ s_work s' = w_rm w ∧ on = bool_decide (w_rm w = None) ∧
       (c_catalog c = true → SReload ∈ l) ∧ (c_web c = true → SWeb ∈ l) ∧ (c_db c = true → SImport ∈ l) ∨
     SRemove ∉ l ∧ SArchive ∉ l ∧ SImport ∉ l ∧ s_archive s' = s_archive s ∧ s_work s' = Some d ∧ on = false)).
Proof.
  intros W. unfold finish.
  (* the copy to the catalog *)
  assert (∀ s1 on1, when (c_catalog c) (update_catalog w) s = (s1, on1) →
    s_work s1 = Some d ∧ s_archive s1 = s_archive s ∧ (c_catalog c = false → s_bg s1 = s_bg s) ∧
    ((c_catalog c = false ∧ on1 = true ∧ s_done s1 = s_done s) ∨
     (c_catalog c = true ∧ on1 = false ∧ s_done s1 = s_done s ++ [SCopy]) ∨
     (c_catalog c = true ∧ on1 = true ∧ s_done s1 = s_done s ++ [SCopy; SReload] ∧ replaced d (s_bg s) (s_bg s1)))) as HC.
  { intros s1 on1. unfold when. destruct (c_catalog c); [|intros [= <- <-]; auto 10].
    unfold update_catalog, next. rewrite W. cbn [default].
    destruct (copy_all (w_cp w) _ _ (s_bg s)) as [bg []] eqn:E; intros [= <- <-]; cbn.
    - split; [done|]. split; [done|]. split; [done|]. right. right. split; [done|]. split; [done|]. split; [by rewrite <-app_assoc|].
      by apply (copy_three (w_cp w)).
    - split; [done|]. split; [done|]. split; [done|]. right. left. done. }
  unfold next at 1. destruct (when (c_catalog c) (update_catalog w) s) as [s1 on1]. destruct (HC s1 on1 eq_refl) as (W1 & A1 & B1 & HC1). clear HC.
  assert (∀ (x : step) (l : list step), bool_decide (x ∈ l) = false → x ∉ l) as NI by (intros x l H; by apply bool_decide_eq_false in H).
  assert (∀ (x : step) (l : list step), bool_decide (x ∈ l) = true → x ∈ l) as IN by (intros x l H; by apply bool_decide_eq_true in H).
  Ltac solve_in NI IN := first [done|congruence|solve [auto]|exfalso; eapply (NI _ _); [|eassumption]; reflexivity|apply NI; reflexivity|apply IN; reflexivity].
  destruct on1.
  2:{ intros [= <- <-]. destruct HC1 as [(_ & ? & _)|[(Cc & _ & D)|(_ & ? & _)]]; [done| |done].
      exists [SCopy]. do 8 (split; [try (intros; split); intros; solve_in NI IN|]). right. repeat split; solve_in NI IN. }
  destruct HC1 as [(Cc & _ & D)|[(_ & ? & _)|(Cc & _ & D & RP)]]; [|done|];
    unfold when, update_web, import, stop_if, back_up, next, did, set_work; destruct (c_web c) eqn:Cw, (c_db c) eqn:Cd;
    cbn [s_work s_archive s_bg s_done]; try (destruct (there xml_file _) eqn:X; cbn [negb s_work s_archive s_bg s_done]);
    intros E; apply pair_equal_spec in E as [<- <-]; cbn [s_work s_archive s_bg s_done]; rewrite D, <-?app_assoc; cbn [app];
    eexists; (split; [first [reflexivity|symmetry; apply app_nil_r]|]); rewrite Cc in *;
    do 7 (split; [try (intros; split); intros; solve_in NI IN|]).
  all: first [left; split; [apply IN; reflexivity|]; rewrite W1, A1; repeat split; intros; solve_in NI IN
             |right; rewrite W1, A1; repeat split; intros; solve_in NI IN].
Qed.

(** * Theorems *)
Section run.
Variable c : conf.
Variable w : world.
Variable s s' : state.
Variable on : bool.
Hypothesis fresh : s_done s = [].
Hypothesis ran : script c w s = (s', on).

Lemma run_cases :
  (¬ (s_work s = None ∧ ready w) ∧ on = false ∧ s_archive s' = s_archive s ∧ s_bg s' = s_bg s ∧ Forall (λ x, x = SList ∨ x = SReloc) (s_done s') ∧
     (s_work s ≠ None → s' = s) ∧ (SReloc ∈ s_done s' → s_work s' = Some (made w))) ∨
  (s_work s = None ∧ ready w ∧ ∃ s1, s_work s1 = Some (made w) ∧ s_archive s1 = s_archive s ∧ s_bg s1 = s_bg s ∧ s_done s1 = [SList; SReloc] ∧
     finish c w s1 = (s', on)).
Proof using fresh ran.
  pose proof ran as R. rewrite script_split in R. unfold next in R.
  destruct (start_spec w s) as [(d & W & E)|[(W & M & E)|[(W & M & E & N)|[(W & M & E & N)|(W & G & E)]]]]; rewrite E in R.
  - left. injection R as <- <-. rewrite fresh. split; [intros [? _]; congruence|]. repeat split; try done. intros []%elem_of_nil.
  - left. injection R as <- <-. rewrite fresh. split; [intros (_ & ? & _); congruence|]. repeat split; try done. intros []%elem_of_nil.
  - left. injection R as <- <-. cbn. rewrite fresh. split; [by intros [_ ?]|]. repeat split; try done; [repeat constructor|].
    intros H. apply elem_of_list_singleton in H. done.
  - left. injection R as <- <-. cbn. rewrite fresh. split; [by intros [_ ?]|]. repeat split; try done. constructor; [by left|]. constructor; [by right|constructor].
  - right. split; [done|]. split; [done|]. eexists. split; [|split; [|split; [|split; [|exact R]]]]; try done. cbn. by rewrite fresh.
Qed.
(** Nothing leaves the working directory unless there are relocated events *)
Theorem C98_guard :
  s_bg s' ≠ s_bg s ∨ s_archive s' ≠ s_archive s ∨ (∃ x, x ∈ [SCopy; SReload; SWeb; SImport; SArchive; SRemove] ∧ x ∈ s_done s') →
  s_work s = None ∧ ready w.
Proof using fresh ran.
  destruct run_cases as [(_ & _ & A & B & F & _)|(W & G & _)]; [|done].
  intros [?|[?|(x & H1 & H2)]]; [done|done|]. rewrite Forall_forall in F. specialize (F x H2).
  rewrite !elem_of_cons, elem_of_nil in H1. destruct F; naive_solver.
Qed.
(** The program is told to load the catalog only if the three files were replaced *)
Theorem C98_reload : SReload ∈ s_done s' → c_catalog c = true ∧ replaced (w_reloc w).1 (s_bg s) (s_bg s').
Proof using fresh ran.
  intros H. destruct run_cases as [(_ & _ & _ & _ & F & _)|(W & G & s1 & W1 & A1 & B1 & D1 & R)].
  { rewrite Forall_forall in F. by destruct (F _ H). }
  destruct (finish_spec c w s1 (made w) s' on W1 R) as (l & D & _ & _ & P & _). rewrite D, D1 in H.
  apply elem_of_app in H as [H|H]; [rewrite !elem_of_cons, elem_of_nil in H; naive_solver|]. rewrite <-B1. destruct (P H) as [? [P1 P2]]. split; [done|]. split; [|done].
  intros f Hf. rewrite P1 by done. apply made_other. intros E. rewrite E in Hf. revert Hf. apply (bool_decide_unpack _). vm_compute. exact I.
Qed.
(** What is not configured is left alone *)
Theorem C98_not_configured :
  (c_catalog c = false → s_bg s' = s_bg s ∧ SReload ∉ s_done s') ∧ (c_web c = false → SWeb ∉ s_done s') ∧ (c_db c = false → SImport ∉ s_done s').
Proof using fresh ran.
  destruct run_cases as [(_ & _ & _ & B & F & _)|(W & G & s1 & W1 & A1 & B1 & D1 & R)].
  { rewrite Forall_forall in F. assert (∀ x, x ≠ SList → x ≠ SReloc → x ∉ s_done s') as NF by (intros x ? ? Hx; by destruct (F _ Hx)).
    split; [intros _; split; [done|by apply NF]|]. split; intros _; by apply NF. }
  destruct (finish_spec c w s1 (made w) s' on W1 R) as (l & D & _ & _ & P1 & _ & P2 & P3 & P4 & _). rewrite D, D1.
  rewrite !not_elem_of_app.
  assert (SReload ∉ [SList; SReloc] ∧ SWeb ∉ [SList; SReloc] ∧ SImport ∉ [SList; SReloc]) as (? & ? & ?) by (repeat split; by apply (bool_decide_unpack _)).
  rewrite B1 in P4. split; [intros C; split; [auto|split; [done|]]|split; intros C; (split; [done|])]; intros Hx; [apply P1 in Hx as [? _]|apply P2 in Hx|apply P3 in Hx]; congruence.
Qed.
(** An existing directory is not touched *)
Theorem C98_existing : s_work s ≠ None → s' = s ∧ on = false.
Proof using fresh ran.
  intros H. destruct run_cases as [(_ & O & _ & _ & _ & S & _)|(W & _)]; [|done]. auto.
Qed.
(** A run that stops does not remove anything it made *)
Theorem C98_stopped :
  on = false → w_rm w = None →
  SRemove ∉ s_done s' ∧ SImport ∉ s_done s' ∧ s_archive s' = s_archive s ∧
  (SReloc ∈ s_done s' → ∃ d, s_work s' = Some d ∧ results w d).
Proof using fresh ran.
  intros O RM. destruct run_cases as [(_ & _ & A & _ & F & _ & S)|(W & G & s1 & W1 & A1 & B1 & D1 & R)].
  { rewrite Forall_forall in F. assert (∀ x, x ≠ SList → x ≠ SReloc → x ∉ s_done s') as NF by (intros x ? ? Hx; by destruct (F _ Hx)).
    split; [by apply NF|]. split; [by apply NF|]. split; [done|]. intros H. exists (made w). split; [auto|apply made_results]. }
  destruct (finish_spec c w s1 (made w) s' on W1 R) as (l & D & _ & _ & _ & _ & _ & _ & _ & K).
  destruct K as [(_ & _ & _ & _ & O' & _)|(NR & NA & NI & A & WK & _)]; [rewrite RM, bool_decide_eq_true_2 in O' by done; congruence|].
  rewrite D, D1, !not_elem_of_app.
  assert (SRemove ∉ [SList; SReloc] ∧ SImport ∉ [SList; SReloc]) as (? & ?) by (repeat split; by apply (bool_decide_unpack _)).
  repeat split; try done; [congruence|]. intros _. exists (made w). split; [done|apply made_results].
Qed.
(** A run with exit status 0 has done everything and has archived the results if tar succeeds *)
Theorem C98_succeeded :
  on = true → w_tar w = true →
  ready w ∧ s_work s' = None ∧ (∃ d, s_archive s' = Some d ∧ results w d) ∧
  (c_catalog c = true → SReload ∈ s_done s') ∧ (c_web c = true → SWeb ∈ s_done s') ∧ (c_db c = true → SImport ∈ s_done s').
Proof using fresh ran.
  intros O T. destruct run_cases as [(_ & ? & _)|(W & G & s1 & W1 & A1 & B1 & D1 & R)]; [congruence|].
  destruct (finish_spec c w s1 (made w) s' on W1 R) as (l & D & _ & _ & _ & _ & _ & _ & _ & K).
  destruct K as [(_ & _ & A & WK & O' & K1 & K2 & K3)|(_ & _ & _ & _ & _ & ?)]; [|congruence].
  rewrite O in O'. symmetry in O'. apply bool_decide_eq_true in O'. rewrite T in A. rewrite D, !elem_of_app.
  split; [done|]. split; [congruence|]. split; [exists (made w); split; [done|apply made_results]|]. auto.
Qed.
End run.
(** The test for events: two lines are in the file exactly if there is an event *)
Lemma count_lines_app a b : count_lines (a ++ b) = count_lines a + count_lines b.
Proof. unfold count_lines. by rewrite filter_app, app_length. Qed.
Lemma count_line r : 1 ≤ count_lines (csv_line r).
Proof. unfold csv_line. rewrite count_lines_app. change (count_lines [nl]) with 1. lia. Qed.
Theorem C98_lines {V} (pf8 pf6 pf3 pg : V → text) (cat : Catalog_Model.catalog V) :
  2 ≤ count_lines (CatalogFile_Model.write_events pf8 pf6 pf3 pg cat) ↔ Catalog_Model.c_ev cat ≠ ∅.
Proof.
  unfold CatalogFile_Model.write_events, csv_lines.
  assert (Catalog_Model.c_ev cat = ∅ ∨ ∃ e l, Catalog_Model.sorted_events (Catalog_Model.c_ev cat) = e :: l) as [E|(e & l & E)].
  { destruct (decide (Catalog_Model.c_ev cat = ∅)) as [E|E]; [by left|right]. apply map_choose in E as (k & e & E).
    destruct (Catalog_Model.sorted_events (Catalog_Model.c_ev cat)) as [|e' l] eqn:S; [|by exists e', l]. exfalso.
    assert (e ∈ Catalog_Model.sorted_events (Catalog_Model.c_ev cat)) as H; [|rewrite S in H; by apply elem_of_nil in H].
    unfold Catalog_Model.sorted_events. apply elem_of_list_omap. exists k. split; [|done]. rewrite merge_sort_Permutation. apply elem_of_elements, elem_of_dom. by eexists. }
  - rewrite E. split; [|done]. intros H. exfalso. revert H. apply Nat.lt_nge. unfold CatalogFile_Model.any_reloc. rewrite E.
    change (count_lines (csv_line CatalogFile_Model.ev_header0 ++ []) < 2). vm_compute. lia.
  - split; [intros _ E'|intros _].
    + rewrite E' in E. discriminate E.
    + rewrite E, !fmap_cons. cbn [concat]. rewrite !count_lines_app.
      pose proof (count_line (CatalogFile_Model.ev_header (CatalogFile_Model.any_reloc cat))).
      pose proof (count_line (CatalogFile_Model.ev_row pf8 pf6 pf3 pg (CatalogFile_Model.any_reloc cat) e)). lia.
Qed.

(** * Findings *)
Local Notation two_lines := ([nl] ++ [nl]).
Local Notation results0 := (<[tx "relocated.xml" := tx "x"]> (<[tx "reloc-event.csv" := two_lines]> (<[tx "reloc-phase.csv" := tx "p"]>
  {[tx "reloc-station.csv" := tx "s"]})) : dir).
Local Notation old0 := (<[tx "reloc-event.csv" := tx "E"]> (<[tx "reloc-phase.csv" := tx "P"]> {[tx "reloc-station.csv" := tx "S"]}) : dir).
Lemma ready0 cp im tar rm : ready (World true (tx "ids", true) (results0, true) cp im tar rm).
Proof. split; [done|]. split; [done|]. split; [done|]. exists two_lines, (tx "p"), (tx "s"). repeat split. vm_compute. lia. Qed.
(** What of the state is looked at; no map is computed *)
Local Notation seen r := (r.2, s_done r.1, bool_decide (is_Some (s_work r.1)), bool_decide (is_Some (s_archive r.1))).
Local Notation seen_bg r := (r.2, s_done r.1, s_bg r.1 !! st_file, s_bg r.1 !! ph_file, s_bg r.1 !! ev_file, s_bg r.1 !! old ph_file).
(** If tar fails the results are deleted, with exit status 0 *)
Theorem C98_archive_refuted :
  ∃ c w s s', s_done s = [] ∧ ready w ∧ script c w s = (s', true) ∧ s_work s' = None ∧ s_archive s' = None.
Proof.
  set (c := Conf false false false). set (w := World true (tx "ids", true) (results0, true) (λ _, Whole) true false None).
  set (s := State None None ∅ []).
  assert (seen (script c w s) = (true, [SList; SReloc; SArchive; SRemove], false, false)) as H by (vm_compute; reflexivity).
  destruct (script c w s) as [s' on] eqn:E. cbn [fst snd] in H. injection H as -> _ H1 H2.
  exists c, w, s, s'. split; [reflexivity|]. split; [apply ready0|]. split; [exact E|].
  clear E. split; [destruct (s_work s'); [discriminate H1|reflexivity]|destruct (s_archive s'); [discriminate H2|reflexivity]].
Qed.
(** A failed import is reported as done, with exit status 0 *)
Theorem C98_import_refuted :
  ∃ c w s s', s_done s = [] ∧ ready w ∧ w_import w = false ∧ script c w s = (s', true) ∧ SImportDone ∈ s_done s'.
Proof.
  set (c := Conf false false true). set (w := World true (tx "ids", true) (results0, true) (λ _, Whole) false true None).
  set (s := State None None ∅ []).
  assert (seen (script c w s) = (true, [SList; SReloc; SImport; SImportDone; SArchive; SRemove], false, true)) as H by (vm_compute; reflexivity).
  destruct (script c w s) as [s' on] eqn:E. cbn [fst snd] in H. injection H as -> H _ _.
  exists c, w, s, s'. split; [reflexivity|]. split; [apply ready0|]. split; [reflexivity|]. split; [exact E|]. rewrite H. by apply (bool_decide_unpack _).
Qed.
(** A failed copy leaves files of two catalogs side by side, and the events missing *)
Theorem C98_mixed_refuted :
  ∃ c w s s', s_done s = [] ∧ ready w ∧ script c w s = (s', false) ∧
    s_bg s !! tx "reloc-phase.csv" = Some (tx "P") ∧ s_bg s !! tx "reloc-event.csv" = Some (tx "E") ∧
    (w_reloc w).1 !! tx "reloc-station.csv" = Some (tx "s") ∧ (w_reloc w).1 !! tx "reloc-phase.csv" = Some (tx "p") ∧
    s_bg s' !! tx "reloc-station.csv" = Some (tx "s") ∧ s_bg s' !! tx "reloc-phase.csv" = Some (tx "P") ∧ s_bg s' !! tx "reloc-event.csv" = None.
Proof.
  set (c := Conf true false false).
  set (w := World true (tx "ids", true) (results0, true)
    (λ f, if decide (f = ev_file) then Renamed else if decide (f = ph_file) then Untouched else Whole) true true None).
  set (s := State None None old0 []).
  assert (seen_bg (script c w s) = (false, [SList; SReloc; SCopy], Some (tx "s"), Some (tx "P"), None, None)) as H by (vm_compute; reflexivity).
  destruct (script c w s) as [s' on] eqn:E. cbn [fst snd] in H. injection H as -> _ H1 H2 H3 _.
  exists c, w, s, s'. split; [reflexivity|]. split; [apply ready0|]. split; [exact E|].
  do 4 (split; [vm_compute; reflexivity|]). split; [exact H1|]. split; [exact H2|exact H3].
Qed.
(** * Example: everything is configured and succeeds *)
Example ex_all :
  seen_bg (script (Conf true true true) (World true (tx "ids", true) (results0, true) (λ _, Whole) true true None) (State None None old0 [])) =
  (true, [SList; SReloc; SCopy; SReload; SWeb; SImport; SImportDone; SArchive; SRemove], Some (tx "s"), Some (tx "p"), Some two_lines, Some (tx "P")).
Proof. vm_compute. reflexivity. Qed.
(** It stops: an existing directory; no relocated events *)
Example ex_stop :
  seen (script (Conf true true true) (World true (tx "ids", true) (results0, true) (λ _, Whole) true true None) (State (Some ∅) None old0 [])) =
  (false, [], true, false) ∧
  seen (script (Conf true true true) (World true (tx "ids", true) (<[tx "reloc-event.csv" := [nl]]> results0, true) (λ _, Whole) true true None)
    (State None None old0 [])) = (false, [SList; SReloc], true, false).
Proof. split; vm_compute; reflexivity. Qed.
Print Assumptions C98_guard. Print Assumptions C98_reload. Print Assumptions C98_not_configured. Print Assumptions C98_existing.
Print Assumptions C98_stopped. Print Assumptions C98_succeeded. Print Assumptions C98_lines. Print Assumptions C98_archive_refuted.
Print Assumptions C98_import_refuted. Print Assumptions C98_mixed_refuted.
