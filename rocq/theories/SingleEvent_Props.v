(** C74: relocation of a single event, in one and in two steps. *)
From Coq Require Import Ascii.
From stdpp Require Import gmap list strings.
From Verif Require Import Index_Model Csv_Model Table_Model Catalog_Model Catalog_Props Neighbours_Model Neighbours_Props.
From Verif Require Import Solver_Model Reloc_Model Reloc_Props SingleEvent_Model.

(** ** Specification *)
Section spec.
Context {V : Type}.
(** What the user knows of a pick: everything but the id of the event and what is computed *)
Definition pick (p : phase V) : Csv_Model.text * Z * V * V * Csv_Model.text * (Csv_Model.text * Csv_Model.text * Csv_Model.text * Csv_Model.text) :=
  (p_staid p, p_time p, p_lower p, p_upper p, p_type p, (p_net p, p_sta p, p_loc p, p_cha p)).
Definition unmarked (c : catalog V) : Prop := ∀ k e, c_ev c !! k = Some e → e_reloc e = None.
(** The catalog has the event [k] and no other *)
Definition only (c : catalog V) (k : N) (e : event V) : Prop := c_ev c = {[ k := e ]}.
(** The selection returns events of the background catalog *)
Definition within (sel : catalog V → event V → res neigh) (bg : catalog V) : Prop :=
  ∀ c e n k, sel c e = Ok n → k ∈ n_ids n → is_Some (c_ev bg !! k).
(** Room for one more id (C15) *)
Definition room (c : catalog V) : Prop :=
  ids_ok (c_ev c) ∧ ¬ (is_Some (c_ev c !! (2 ^ 32 - 1)%N) ∧ is_Some (c_ev c !! 0%N)).
(** The type given to a pick of an automatic origin *)
Definition retype (manual : bool) (autoP autoS t : Csv_Model.text) : Csv_Model.text :=
  if manual then t
  else if decide (t = tx "P" ∧ autoP ≠ []) then autoP
  else if decide (t = tx "S" ∧ autoS ≠ []) then autoS
  else t.
Definition retyped (manual : bool) (autoP autoS : Csv_Model.text) (p : phase V) :=
  let '(sta, t, lo, up, ty, codes) := pick p in (sta, t, lo, up, retype manual autoP autoS ty, codes).
(** How a pick is used: the types of the configuration, and the source *)
Definition used_as (weight : phase V → V) (manual : bool) (vp vs : list Csv_Model.text) (p : phase V) : pproc V :=
  Proc (if decide (p_type p ∈ vp) then TP else if decide (p_type p ∈ vs) then TS else TNO) (weight p)
       (if manual then SrcManual else SrcAutomatic).
End spec.

Section proofs.
Context {V : Type}.
Notation hypo := (V * V * V * Z)%type.
Notation delta := (V * V * V * V)%type.
Variable ins : list (phase V) → phase V → list (phase V).
Hypothesis Hins : any_place ins.
Variable move : hypo → delta → hypo.
Variable weight : phase V → V.
Variables vp vs : list Csv_Model.text.
Variable bg : catalog V.
Hypothesis Ibg : integrity bg.
Hypothesis Ubg : unmarked bg.
Hypothesis Rbg : room bg.
Notation relocate_single := (relocate_single ins move weight vp vs bg).
Notation two_steps := (two_steps ins move weight vp vs bg).
Implicit Types (c : catalog V) (e : event V) (st : step V).

Lemma sorted_only c k e : only c k e → sorted_events (c_ev c) = [e].
Proof.
  intros H. unfold only in H. rewrite H. unfold sorted_events. rewrite dom_singleton_L, elements_singleton.
  cbn. by rewrite lookup_singleton.
Qed.
Lemma cat_empty_true c : cat_empty c = true ↔ c = empty_cat.
Proof.
  unfold cat_empty. rewrite bool_decide_eq_true. split; [destruct c; cbn; intros (-> & -> & ->); done|by intros ->].
Qed.
Lemma fill_int sr c : integrity c → integrity (fill_proc ins weight sr vp vs c).
Proof using Hins.
  intros I. destruct (C14_fill_processing_info ins Hins weight sr vp vs c I) as (H1 & H2 & H3). split.
  - rewrite H1. apply (in_ev _ I).
  - rewrite H2. apply (in_sta _ I).
  - intros k p. rewrite H3, H1, H2. intros (q & -> & Hq)%elem_of_list_fmap. apply (in_ph _ I k q Hq).
Qed.

(** Either nothing was collected or some event was *)
Lemma copy_phases_ev src new l : ∀ c c' m, copy_phases ins src c new l = CRet c' m → c_ev c' = c_ev c.
Proof.
  induction l as [|p l IH]; intros c c' m; cbn; [by intros [= -> ->]|].
  destruct (c_sta src !! p_staid p); [|done]. intros H%IH. rewrite H. cbn. unfold add_station. by destruct (c_sta c !! _).
Qed.
Lemma collect_adds cur acc e acc' : collect ins cur acc e = Ok acc' →
  acc' = acc ∨ ∃ k e', c_ev acc' = <[k := e']> (c_ev acc).
Proof.
  unfold collect. destruct (marked e); [|intros [= ->]; by left]. intros E. right.
  unfold add_from in E. destruct (c_ev cur !! e_id e) as [e'|]; [|done].
  destruct (Catalog_Model.add_event acc e' true) as [c1 new| |] eqn:Ea; [|done|done].
  destruct (copy_phases ins cur c1 new (phs cur (e_id e'))) as [c2 m| |] eqn:Ec; [|done|done]. injection E as <-.
  rewrite (copy_phases_ev _ _ _ _ _ _ Ec). unfold Catalog_Model.add_event in Ea. destruct (c_ev acc !! e_id e'); [discriminate|].
  injection Ea as <- <-. cbn. eauto.
Qed.
Lemma collect_none cur l : ∀ acc out, rloop (collect ins cur) l acc = Ok out → out = acc ∨ ∃ k, is_Some (c_ev out !! k).
Proof.
  assert (∀ l acc out k, rloop (collect ins cur) l acc = Ok out → is_Some (c_ev acc !! k) → is_Some (c_ev out !! k)) as Hm.
  { clear l. induction l as [|e l IH]; intros acc out k; cbn; [by intros [= ->]|].
    destruct (collect ins cur acc e) as [acc'| |] eqn:E; cbn; [|done|done]. intros Hr Hk. apply (IH _ _ _ Hr).
    destruct (collect_adds _ _ _ _ E) as [->|(k' & e' & ->)]; [done|].
    destruct (decide (k = k')) as [->|D]; [rewrite lookup_insert; eauto|by rewrite lookup_insert_ne]. }
  induction l as [|e l IH]; intros acc out; cbn; [intros [= ->]; by left|].
  destruct (collect ins cur acc e) as [acc'| |] eqn:E; cbn; [|done|done]. intros Hr.
  destruct (collect_adds _ _ _ _ E) as [->|(k' & e' & He)]; [by apply IH|].
  right. exists k'. eapply Hm; [exact Hr|]. rewrite He, lookup_insert. eauto.
Qed.
Lemma relocate_empty w cl n c out log : relocate ins move w cl n c = Ok (out, log) → (∀ k, c_ev out !! k = None) → out = empty_cat.
Proof.
  unfold relocate. destruct (iterate _ _ _ _ _ _ _ _ _) as [[cur l]| |]; cbn; [|done|done].
  destruct (rloop (collect ins cur) _ empty_cat) as [o| |] eqn:E; cbn; [|done|done]. intros [= -> ->] Hn.
  destruct (collect_none _ _ _ _ E) as [->|[k [e He]]]; [done|]. by rewrite Hn in He.
Qed.

(** The catalog the relocation works on *)
Lemma working (manual : bool) (single : catalog V) k0 e n : integrity single → only single k0 e → (∀ k, k ∈ n_ids n → is_Some (c_ev bg !! k)) →
  let c1 := fill_proc ins weight (if manual then SrcManual else SrcAutomatic) vp vs single in
  ∃ c2 c3 new, to_catalog ins n bg false = CRet c2 tt ∧ add_from ins c2 (e_id e) c1 false = CRet c3 new ∧ integrity c3 ∧
    new ∉ n_ids n ∧ (new < 2 ^ 32)%N ∧ c_ev c3 !! new = Some (set_e_id e new) ∧
    (∀ k, k ≠ new → c_ev c3 !! k = if decide (k ∈ n_ids n) then c_ev bg !! k else None) ∧
    phs c3 new ≡ₚ (λ p, set_p_ev p new) <$> (with_proc weight (if manual then SrcManual else SrcAutomatic) vp vs <$> phs single k0).
Proof using Hins Ibg Ubg Rbg.
  intros I Ho Hn c1.
  destruct (C14_fill_processing_info ins Hins weight (if manual then SrcManual else SrcAutomatic) vp vs single I) as (H1 & H2 & H3). fold c1 in H1, H2, H3.
  assert (c_ev single !! k0 = Some e) as He by (rewrite Ho; apply lookup_singleton).
  pose proof (in_ev _ I _ _ He) as Hid.
  destruct (C34_to_catalog ins n bg false Hins Ibg Hn) as (c2 & E2 & I2 & Hc2); [done|].
  assert (∀ k, c_ev c2 !! k = if decide (k ∈ n_ids n) then c_ev bg !! k else None) as Hc2'.
  { intros k. specialize (Hc2 k). case_decide as D; case_decide as D'; [by destruct Hc2|naive_solver|naive_solver|by destruct Hc2]. }
  destruct (C16_add_new_id ins Hins c2 (e_id e) c1) as (c3 & new & E3 & Hnew & Hlt & Hcp).
  - done.
  - by apply fill_int.
  - rewrite H1, Hid. eauto.
  - destruct Rbg as [R1 _]. intros k [e' H']. apply R1. rewrite Hc2' in H'. case_decide; [eauto|done].
  - destruct Rbg as [_ R2]. intros [Ha Hb]. apply R2. rewrite Hc2' in Ha, Hb.
    destruct (decide ((2 ^ 32 - 1)%N ∈ n_ids n)); [|by destruct Ha]. destruct (decide (0%N ∈ n_ids n)); [done|by destruct Hb].
  - exists c2, c3, new. destruct Hcp as ((e' & He' & Hev) & Hoth & Hph & _). split_and!; try done.
    + eapply integrity_add_from; [exact Hins|exact I2| |left; eauto]. by apply fill_int.
    + intros Hk. rewrite Hc2' in Hnew. rewrite decide_True in Hnew by done. destruct (Hn _ Hk) as [? ?]. congruence.
    + rewrite H1, Hid, He in He'. by injection He' as <-.
    + intros k Hk. by rewrite Hoth.
    + rewrite Hph, H3, Hid. done.
Qed.

(** C74. A call returns an empty catalog, or a catalog with just the event, under the new
    id: same magnitude, marked, moved by changes the solver returned for it, with exactly
    the picks it came with.  The neighbours take part as the background catalog has them. *)
Theorem C74_single_result manual st (single : catalog V) k0 e out new log :
  integrity single → only single k0 e → within (st_sel st) bg →
  relocate_single manual st single = Ok (out, new, log) →
  integrity out ∧
  (∀ i cat so k ek, log !! i = Some (cat, so) → c_ev cat !! k = Some ek → k ≠ new → c_ev bg !! k = Some ek) ∧
  (out = empty_cat ∨
   ∃ e' ds, only out new e' ∧ is_Some (e_reloc e') ∧ e_mag e' = e_mag e ∧ (new < 2 ^ 32)%N ∧
     ds `sublist_of` changes new log ∧ hypo_of e' = fold_left move ds (hypo_of e) ∧
     ((∀ i c, w_ttt (st_world st) i c new = true) → ds = changes new log) ∧
     (e_reloc e = None → ds ≠ []) ∧
     (∀ k, k ≠ new → phs out k = []) ∧
     (λ p, (p_ev p, pick p, p_proc p)) <$> phs out new ≡ₚ
       (λ p, (new, pick p, Some (used_as weight manual vp vs p))) <$> phs single k0).
Proof using Hins Ibg Ubg Rbg.
  intros I Ho Hw E. unfold SingleEvent_Model.relocate_single in E.
  set (sr := if manual then SrcManual else SrcAutomatic) in *.
  change (c_ev (fill_proc ins weight sr vp vs single)) with (c_ev single) in E. rewrite (sorted_only _ _ _ Ho) in E.
  destruct (st_sel st _ e) as [n| |] eqn:Es; cbn [rbind] in E; [|done|done].
  case_decide as D.
  { case_decide; [|done]. injection E as <- <- <-. split; [apply integrity_empty|]. split; [intros i cat so k ek Hi; by rewrite lookup_nil in Hi|by left]. }
  destruct (working manual single k0 e n I Ho (λ k, Hw _ _ _ k Es)) as (c2 & c3 & new' & E2 & E3 & I3 & Hnn & Hlt & Hev & Hoth & Hph).
  fold sr in E3, Hph. rewrite E2, E3 in E.
  destruct (relocate ins move (st_world st) [(new', new')] (st_iter st) c3) as [[o l]| |] eqn:Er; cbn [rbind] in E; [|done|done].
  injection E as -> -> ->.
  assert (cluster_ok c3 [(new, new)]) as Hc.
  { split; [apply NoDup_singleton|]. intros x ->%elem_of_list_singleton. cbn [fst snd]. rewrite Hev. eauto. }
  destruct (C42_output ins Hins move _ _ _ _ _ _ I3 Hc Er) as (Io & _ & Hout). split; [done|].
  assert (∀ k, k ≠ new → k ∉ [(new, new)].*1) as Hk by (intros k Hk; cbn; set_solver).
  split.
  { intros i cat so k ek Hi Hek Hkn. destruct (C42_outside ins Hins move _ _ _ _ _ _ k I3 Hc Er (Hk k Hkn)) as (H & _ & _).
    destruct (H _ _ _ Hi) as [H1 _]. rewrite H1, Hoth in Hek by done. by case_decide. }
  assert (∀ k, k ≠ new → c_ev out !! k = None) as Hno.
  { intros k Hkn. destruct (c_ev out !! k) as [ek|] eqn:Ek; [|done]. exfalso.
    destruct (C42_outside ins Hins move _ _ _ _ _ _ k I3 Hc Er (Hk k Hkn)) as (_ & H & _).
    apply H in Ek as [Ek [r Hr]]. rewrite Hoth in Ek by done. case_decide; [|done]. rewrite (Ubg _ _ Ek) in Hr. done. }
  destruct (c_ev out !! new) as [e'|] eqn:En.
  2: { left. eapply relocate_empty; [exact Er|]. intros k. destruct (decide (k = new)) as [->|]; [done|by apply Hno]. }
  right. destruct (C42_cluster ins Hins move _ _ _ _ _ _ new I3 Hc Er) as (_ & _ & e0 & ds & He0 & Hds & Htt & Hh & Hm); [cbn; set_solver|].
  rewrite Hev in He0. injection He0 as <-.
  destruct (Hout _ _ En) as (Hmk & (e1 & He1 & _ & Hmag) & Hb). rewrite Hev in He1. injection He1 as <-.
  exists e', ds. split_and!; try done.
  - unfold only. apply map_eq. intros k. destruct (decide (k = new)) as [->|Dk]; [by rewrite lookup_singleton|].
    rewrite lookup_singleton_ne by done. by apply Hno.
  - by apply Hh.
  - intros Hu. apply Hm; [by left|]. rewrite En. eauto.
  - intros k Hkn. destruct (phs out k) as [|p l0] eqn:Ep; [done|]. exfalso.
    destruct (in_ph _ Io k p) as (_ & [ek Hek] & _); [rewrite Ep; by left|]. by rewrite Hno in Hek.
  - rewrite Hph in Hb.
    set (f := λ b : N * Csv_Model.text * Z * V * V * Csv_Model.text * (Csv_Model.text * Csv_Model.text * Csv_Model.text * Csv_Model.text) * option (pproc V),
      let '(k, sta, t, lo, up, ty, codes, pr) := b in (k, (sta, t, lo, up, ty, codes), pr)).
    apply (fmap_Permutation f) in Hb. rewrite <-!list_fmap_compose in Hb. exact Hb.
Qed.

(** C74. When the catalog is empty: too few neighbours, or no change for the event. *)
Theorem C74_single_empty manual st (single : catalog V) k0 e out new log :
  integrity single → only single k0 e → within (st_sel st) bg →
  relocate_single manual st single = Ok (out, new, log) →
  ∃ c1 n, c_ev c1 = c_ev single ∧ st_sel st c1 e = Ok n ∧
    (n_amount n < st_min st → out = empty_cat ∧ log = []) ∧
    (st_min st ≤ n_amount n → e_reloc e = None ∨ log ≠ [] → (∀ i c, w_ttt (st_world st) i c new = true) →
       (out = empty_cat ↔ changes new log = [])).
Proof using Hins Ibg Ubg Rbg.
  intros I Ho Hw E. pose proof E as E0. unfold SingleEvent_Model.relocate_single in E.
  set (sr := if manual then SrcManual else SrcAutomatic) in *.
  change (c_ev (fill_proc ins weight sr vp vs single)) with (c_ev single) in E. rewrite (sorted_only _ _ _ Ho) in E.
  destruct (st_sel st _ e) as [n| |] eqn:Es; cbn [rbind] in E; [|done|done].
  eexists _, n. split; [|split; [exact Es|]]; [done|].
  case_decide as D.
  { case_decide; [|done]. injection E as <- <- <-. split; [done|]. intros ?. lia. }
  split; [done|]. intros _ Hu Ht.
  destruct (working manual single k0 e n I Ho (λ k, Hw _ _ _ k Es)) as (c2 & c3 & new' & E2 & E3 & I3 & Hnn & Hlt & Hev & Hoth & Hph).
  fold sr in E3, Hph. rewrite E2, E3 in E.
  destruct (relocate ins move (st_world st) [(new', new')] (st_iter st) c3) as [[o l]| |] eqn:Er; cbn [rbind] in E; [|done|done].
  injection E as -> -> ->.
  assert (cluster_ok c3 [(new, new)]) as Hc.
  { split; [apply NoDup_singleton|]. intros x ->%elem_of_list_singleton. cbn [fst snd]. rewrite Hev. eauto. }
  destruct (C42_cluster ins Hins move _ _ _ _ _ _ new I3 Hc Er) as (_ & _ & e0 & ds & He0 & Hds & Htt & Hh & Hm); [cbn; set_solver|].
  rewrite Hev in He0. injection He0 as <-. rewrite <-(Htt Ht) in *.
  assert (is_Some (c_ev out !! new) ↔ ds ≠ []) as Hm' by (apply Hm; destruct Hu; [by left|by right]).
  split.
  - intros ->. destruct ds; [done|]. destruct (proj2 Hm' ltac:(done)) as [? H]. cbn in H. by rewrite lookup_empty in H.
  - intros Hd. destruct (C74_single_result manual st single k0 e out new log I Ho Hw E0) as (_ & _ & [?|(e' & _ & H & _)]); [done|].
    exfalso. apply (proj1 Hm'); [|done]. rewrite H, lookup_singleton. eauto.
Qed.

(** C74. A call ends: no undefined behaviour with a minimum of at most 34 neighbours. *)
Theorem C74_single_total manual st (single : catalog V) k0 e :
  integrity single → only single k0 e → within (st_sel st) bg → st_min st ≤ 34 → (∀ c e, st_sel st c e ≠ Bad) →
  relocate_single manual st single ≠ Bad ∧
  ((∀ c e, ∃ n, st_sel st c e = Ok n) → (∀ i c, w_prepare (st_world st) i c = true) → ∃ r, relocate_single manual st single = Ok r).
Proof using Hins Ibg Ubg Rbg.
  intros I Ho Hw Hmin Hb. unfold SingleEvent_Model.relocate_single.
  set (sr := if manual then SrcManual else SrcAutomatic).
  change (c_ev (fill_proc ins weight sr vp vs single)) with (c_ev single). rewrite (sorted_only _ _ _ Ho).
  destruct (st_sel st _ e) as [n| |] eqn:Es; cbn [rbind]; [| |by eapply Hb in Es].
  2: { split; [done|]. intros H. match type of Es with st_sel st ?c ?e = _ => destruct (H c e) end. congruence. }
  case_decide as D.
  { rewrite decide_True by (unfold literal_size; lia). split; [done|]. eauto. }
  destruct (working manual single k0 e n I Ho (λ k, Hw _ _ _ k Es)) as (c2 & c3 & new' & E2 & E3 & I3 & Hnn & Hlt & Hev & Hoth & Hph).
  fold sr in E3, Hph. rewrite E2, E3.
  assert (cluster_ok c3 [(new', new')]) as Hc.
  { split; [apply NoDup_singleton|]. intros x ->%elem_of_list_singleton. cbn [fst snd]. rewrite Hev. eauto. }
  destruct (C42_total ins Hins move (st_world st) [(new', new')] (st_iter st) c3 I3 Hc) as [H1 H2]. split.
  - destruct (relocate _ _ _ _ _ _) as [[o l]| |]; [done|done|done].
  - intros _ Hp. destruct (H2 Hp) as (o & l & ->). cbn. eauto.
Qed.

Lemma map_types_spec manual autoP autoS c : integrity c →
  integrity (map_types manual autoP autoS c) ∧ c_ev (map_types manual autoP autoS c) = c_ev c ∧
  ∀ k, pick <$> phs (map_types manual autoP autoS c) k = retyped manual autoP autoS <$> phs c k.
Proof.
  intros I. 
  assert (∀ t, nonempty t = true ↔ t ≠ []) as Hne by (intros [|]; done).
  assert (∀ p : phase V, pick p = (p_staid p, p_time p, p_lower p, p_upper p, p_type p, (p_net p, p_sta p, p_loc p, p_cha p))) as Hpk by done.
  unfold map_types. destruct (negb manual && (nonempty autoP || nonempty autoS)) eqn:E.
  - apply andb_true_iff in E as [E _]. destruct manual; [done|]. cbn [c_ev].
    assert (∀ k, phs (Cat (c_sta c) (c_ev c) ((λ l : list (phase V), map_type autoP autoS <$> l) <$> c_ph c)) k = map_type autoP autoS <$> phs c k) as Hp.
    { intros k. unfold phs. cbn. rewrite lookup_fmap. by destruct (c_ph c !! k). }
    assert (∀ p : phase V, p_ev (map_type autoP autoS p) = p_ev p ∧ p_staid (map_type autoP autoS p) = p_staid p) as Hmt.
    { intros p. unfold map_type. destruct (_ && _); [done|]. by destruct (_ && _). }
    split_and!; [|done|].
    + split; [apply (in_ev _ I)|apply (in_sta _ I)|]. intros k p. rewrite Hp. intros (q & -> & Hq)%elem_of_list_fmap.
      destruct (Hmt q) as [-> ->]. apply (in_ph _ I k q Hq).
    + intros k. rewrite Hp, <-list_fmap_compose. apply list_fmap_ext. intros i p _. cbn [compose].
      unfold map_type, retyped, retype. rewrite !Hpk.
      repeat match goal with |- context [bool_decide ?P && ?b] => destruct (bool_decide P && b) eqn:?Hd end; cbn [set_p_type p_staid p_time p_lower p_upper p_type p_net p_sta p_loc p_cha];
      repeat match goal with
        | H : bool_decide _ && _ = true |- _ => apply andb_true_iff in H as [?%bool_decide_eq_true ?%Hne]
        | H : bool_decide _ && _ = false |- _ => apply andb_false_iff in H
        end;
      repeat case_decide; try done; exfalso; rewrite <-?not_true_iff_false, ?bool_decide_eq_true, ?Hne in *; naive_solver.
  - split_and!; [done|done|]. intros k. apply list_fmap_ext. intros i p _. unfold retyped, retype. rewrite Hpk. destruct manual; [done|].
    cbn in E. apply orb_false_iff in E as [E1 E2].
    assert (autoP = []) as -> by (by destruct autoP). assert (autoS = []) as -> by (by destruct autoS).
    rewrite !decide_False by naive_solver. done.
Qed.

Lemma carry_spec r1 r2 out : carry_rms r1 r2 = Ok out → 
  (r2 = empty_cat → out = empty_cat) ∧
  (∀ k e, integrity r2 → only r2 k e → ∃ m, (is_Some m ↔ is_Some (e_reloc e)) ∧ only out k (set_mark e m) ∧ c_sta out = c_sta r2 ∧ c_ph out = c_ph r2).
Proof.
  unfold carry_rms. intros H. split.
  { intros ->. rewrite (proj2 (cat_empty_true _) eq_refl) in H. by injection H as <-. }
  intros k e I2 Ho.
  assert (∃ m, (is_Some m ↔ is_Some (e_reloc e)) ∧ only r2 k (set_mark e m) ∧ c_sta r2 = c_sta r2 ∧ c_ph r2 = c_ph r2) as Hsame.
  { exists (e_reloc e). split_and!; try done. by destruct e. }
  destruct (cat_empty r2); [by injection H as <-|]. rewrite (sorted_only _ _ _ Ho) in H.
  destruct (cat_empty r1); [by injection H as <-|].
  destruct (sorted_events (c_ev r1)) as [|prev l]; [done|]. destruct (e_reloc prev) as [[rms fin]|]; [|by injection H as <-].
  assert (c_ev r2 !! k = Some e) as He by (rewrite Ho; apply lookup_singleton). pose proof (in_ev _ I2 _ _ He) as Hid.
  unfold update_event in H. cbn [set_mark e_id] in H. rewrite Hid, He in H. injection H as <-.
  exists (match e_reloc e with Some (_, f) => Some (rms, f) | None => None end). split_and!; [|unfold only; cbn|done|done].
  - destruct (e_reloc e) as [[? ?]|]; [split; eauto|done].
  - rewrite Ho. apply insert_singleton.
Qed.

(** C74. Two steps, whatever is left in the catalog moved from: an empty catalog or just
    the event with the picks of the origin (types replaced for automatic ones), moved by
    the changes of the steps that succeeded. *)
Theorem C74_two_steps manual autoP autoS left s1 s2 (single : catalog V) k0 e out r1 r2 :
  integrity single → only single k0 e → within (st_sel s1) bg → within (st_sel s2) bg →
  two_steps manual autoP autoS left s1 s2 single = Ok (out, r1, r2) →
  let '(o1, n1, log1) := r1 in let '(o2, n2, log2) := r2 in
  (o2 = empty_cat ∧ out = empty_cat) ∨
  ∃ e' ds1 ds2, only out n2 e' ∧ is_Some (e_reloc e') ∧ e_mag e' = e_mag e ∧
    hypo_of e' = fold_left move (ds1 ++ ds2) (hypo_of e) ∧
    ds1 `sublist_of` changes n1 log1 ∧ ds2 `sublist_of` changes n2 log2 ∧ (o1 = empty_cat → ds1 = []) ∧
    ((∀ i c, w_ttt (st_world s1) i c n1 = true) → o1 ≠ empty_cat → ds1 = changes n1 log1) ∧
    ((∀ i c, w_ttt (st_world s2) i c n2 = true) → ds2 = changes n2 log2) ∧
    (e_reloc e = None → ds1 ++ ds2 ≠ []) ∧
    (∀ k, k ≠ n2 → phs out k = []) ∧
    pick <$> phs out n2 ≡ₚ retyped manual autoP autoS <$> phs single k0.
Proof using Hins Ibg Ubg Rbg.
  intros I Ho Hw1 Hw2 E. unfold SingleEvent_Model.two_steps in E.
  destruct (map_types_spec manual autoP autoS single I) as (I0 & Hev0 & Hph0).
  set (c0 := map_types manual autoP autoS single) in *.
  assert (only c0 k0 e) as Ho0 by (unfold only; by rewrite Hev0).
  destruct (relocate_single manual s1 c0) as [[[o1 n1] log1]| |] eqn:E1; cbn [rbind fst snd] in E; [|done|done].
  destruct (C74_single_result manual s1 c0 k0 e o1 n1 log1 I0 Ho0 Hw1 E1) as (Io1 & _ & H1).
  set (c1 := if negb (cat_empty o1) then o1 else c0) in *.
  destruct (relocate_single manual s2 c1) as [[[o2 n2] log2]| |] eqn:E2; cbn [rbind fst snd] in E; [|done|done].
  destruct (carry_rms _ o2) as [out'| |] eqn:E3; cbn [rbind] in E; [|done|done]. injection E as -> <- <-.
  destruct (carry_spec _ _ _ E3) as [Hc1 Hc2].
  assert (∃ k1 e1 ds1, integrity c1 ∧ only c1 k1 e1 ∧ e_mag e1 = e_mag e ∧ hypo_of e1 = fold_left move ds1 (hypo_of e) ∧
    ds1 `sublist_of` changes n1 log1 ∧ (o1 = empty_cat → ds1 = []) ∧ ((∀ i c, w_ttt (st_world s1) i c n1 = true) → o1 ≠ empty_cat → ds1 = changes n1 log1) ∧
    (e_reloc e = None → e_reloc e1 = None ∨ ds1 ≠ []) ∧
    pick <$> phs c1 k1 ≡ₚ retyped manual autoP autoS <$> phs single k0) as (k1 & e1 & ds1 & I1 & Ho1 & Hm1 & Hh1 & Hs1 & He1 & Ht1 & Hu1 & Hp1).
  { subst c1. destruct (cat_empty o1) eqn:Ee; cbn [negb].
    - apply cat_empty_true in Ee. exists k0, e, []. split_and!; try done; [apply sublist_nil_l|by left|by rewrite Hph0].
    - assert (o1 ≠ empty_cat) as Hne by (intros H%cat_empty_true; congruence).
      destruct H1 as [?|(e' & ds & Hon & Hmk & Hmg & _ & Hsub & Hhy & Htt & Hun & _ & Hpe)]; [done|].
      exists n1, e', ds. split_and!; try done; [by intros; apply Htt|by intros H; right; apply Hun|].
      assert (pick <$> phs o1 n1 ≡ₚ pick <$> phs c0 k0) as ->; [|by rewrite Hph0].
      apply (fmap_Permutation (λ x, x.1.2)) in Hpe. rewrite <-!list_fmap_compose in Hpe. exact Hpe. }
  destruct (C74_single_result manual s2 c1 k1 e1 o2 n2 log2 I1 Ho1 Hw2 E2) as (Io2 & _ & H2).
  destruct H2 as [H2|(e' & ds & Hon & Hmk & Hmg & _ & Hsub & Hhy & Htt & Hun & Hoth & Hpe)]; [left; auto|].
  right. destruct (Hc2 n2 e' Io2 Hon) as (m & Hm & Hon' & Hst & Hcp).
  assert (∀ k, phs out k = phs o2 k) as Hphs by (intros k; unfold phs; by rewrite Hcp).
  exists (set_mark e' m), ds1, ds. split_and!; try done.
  - by apply Hm.
  - by rewrite <-Hm1.
  - change (hypo_of (set_mark e' m)) with (hypo_of e'). by rewrite fold_left_app, <-Hh1.
  - intros Hu. destruct (Hu1 Hu) as [Hx|Hx]; [apply Hun in Hx; by destruct ds1|by destruct ds1].
  - intros k Hk. rewrite Hphs. by apply Hoth.
  - rewrite Hphs. rewrite <-Hp1. apply (fmap_Permutation (λ x, x.1.2)) in Hpe. rewrite <-!list_fmap_compose in Hpe. exact Hpe.
Qed.
End proofs.

(** The standard library leaves the catalog moved from empty: the result of the two steps
    is that of step 2, its start rms included. *)
Theorem C74_result_is_step2 {V} (ins : list (phase V) → phase V → list (phase V)) move weight vp vs bg manual autoP autoS s1 s2 single out r1 r2 :
  two_steps ins move weight vp vs bg manual autoP autoS (λ _, empty_cat) s1 s2 single = Ok (out, r1, r2) → out = r2.1.1.
Proof.
  unfold two_steps. destruct (relocate_single _ _ _ _ _ _ _ s1 _) as [q1| |]; cbn [rbind]; [|done|done].
  destruct (relocate_single _ _ _ _ _ _ _ s2 _) as [q2| |]; cbn [rbind]; [|done|done].
  destruct (carry_rms _ _) as [o| |] eqn:E; cbn [rbind]; [|done|done]. intros [= -> -> ->].
  assert (cat_empty (if negb (cat_empty r1.1.1) then empty_cat else r1.1.1) = true) as Hm
    by (destruct (cat_empty r1.1.1) eqn:E1; [done|by apply cat_empty_true]).
  unfold carry_rms in E. rewrite Hm in E. destruct (cat_empty r2.1.1); [by injection E as <-|].
  destruct (sorted_events _); [done|by injection E as <-].
Qed.

(** *** Concrete cases *)
Module SCases.
Import Reloc_Props.Cases.
Definition fam (l : list N) : gmap N (event Z) := list_to_map ((λ k, (k, ev k None)) <$> l).
Definition bgc (l : list N) : catalog Z := Cat ∅ (fam l) ∅.
Definition near (l : list N) : neigh := Neigh 0 ((λ _, ∅) <$> fam l).
Definition sta_n : station Z := Sta (tx "N.A.") 0%Z 0%Z 0%Z (tx "N") (tx "A") [].
Definition one : catalog Z := Cat {[ tx "N.A." := sta_n ]} {[ 5%N := ev 5 None ]}
  {[ 5%N := [Pha 5 (tx "N.A.") 7%Z 1%Z 1%Z (tx "P") (tx "N") (tx "A") [] (tx "HHZ") None None] ]}.
(** rms 10 * step in iteration 0 *)
Definition wd2 (rms : Z) (solved : list (list N)) : world Z :=
  World (λ i _ k, true) (λ _ _ _, (rms, 0)%Z) (λ _ _ _, (0, 0, 0)%Z) (λ _ _, true) (λ i _, so <$> solved !! i).
Definition stp (l : list N) (m : nat) (rms : Z) (solved : list (list N)) : step Z := Step (λ _ _, Ok (near l)) m (length solved + 1) (wd2 rms solved).
Definition w0 (p : phase Z) : Z := 1%Z.
Definition run1 := relocate_single ins mv w0 [tx "Pg"] [tx "Sg"] (bgc [1; 2; 9]%N) false (stp [1; 2]%N 2 30 [[3]; [3]]%N) one.
Definition run2 (s1 s2 : step Z) := two_steps ins mv w0 [tx "Pg"] [tx "Sg"] (bgc [1; 2; 9]%N) false (tx "Pg") [] (λ _, empty_cat) s1 s2 one.
Definition show (c : catalog Z) := (λ e, (e_id e, hypo_of e, e_reloc e, pick <$> phs c (e_id e))) <$> sorted_events (c_ev c).

Lemma bg_ok l : integrity (bgc l) ∧ unmarked (bgc l).
Proof.
  assert (∀ k e, fam l !! k = Some e → e = ev k None) as H.
  { intros k e He%elem_of_list_to_map_2. apply elem_of_list_fmap in He as (k' & [= -> ->] & _). done. }
  split; [split; cbn|].
  - by intros k e ->%H.
  - intros k s. by rewrite lookup_empty.
  - intros k p. unfold phs. cbn. rewrite lookup_empty. cbn. set_solver.
  - intros k e ->%H. done.
Qed.
Lemma room_ok l : (∀ k, k ∈ l → (k < 2 ^ 32 - 1)%N) → room (bgc l).
Proof.
  intros Hl. assert (∀ k, is_Some (fam l !! k) → k ∈ l) as H.
  { intros k [e He%elem_of_list_to_map_2]. apply elem_of_list_fmap in He as (k' & [= -> ->] & ?). done. }
  split; [intros k ?%H%Hl; lia|]. intros [?%H%Hl _]. lia.
Qed.
Lemma within_ok l l' m rms sv : (∀ k, k ∈ l' → k ∈ l) → within (st_sel (stp l' m rms sv)) (bgc l).
Proof.
  intros Hl c e n k. cbn. intros [= <-]. unfold n_ids. cbn. rewrite dom_fmap, elem_of_dom.
  intros [x Hx%elem_of_list_to_map_2]. apply elem_of_list_fmap in Hx as (k' & [= -> ->] & ?%Hl).
  destruct (fam l !! k') eqn:E; [eauto|]. apply not_elem_of_list_to_map in E. exfalso. apply E.
  rewrite <-list_fmap_compose. apply elem_of_list_fmap. exists k'. done.
Qed.
Lemma one_ok : integrity one ∧ only one 5 (ev 5 None).
Proof.
  split; [split|done].
  - intros k e. cbn [c_ev one]. rewrite lookup_singleton_Some. naive_solver.
  - intros k s. cbn [c_sta one]. rewrite lookup_singleton_Some. intros [<- <-]. done.
  - intros k p. unfold phs. cbn [c_ph one]. destruct (decide (k = 5%N)) as [->|D]; [rewrite lookup_singleton|rewrite lookup_singleton_ne by done; cbn; set_solver].
    cbn [default]. intros ->%elem_of_list_singleton. cbn [p_ev p_staid c_ev c_sta one]. rewrite !lookup_singleton. eauto.
Qed.
End SCases.

(** One call: the event is returned as event 3, moved twice, with its pick. *)
Example C74_single_example :
  (λ '(out, new, log), (SCases.show out, new, length log)) <$> (match SCases.run1 with Ok x => Some x | _ => None end) =
  Some ([(3%N, (2, 4, 6, 8)%Z, Some (30, 0)%Z, [(tx "N.A.", 7%Z, 1%Z, 1%Z, tx "P", (tx "N", tx "A", [], tx "HHZ"))])], 3%N, 2).
Proof. vm_compute. reflexivity. Qed.
(** Two steps: three changes, the type of the pick of an automatic origin replaced. *)
Example C74_two_steps_example :
  (λ '(out, _, _), SCases.show out) <$> (match SCases.run2 (SCases.stp [1; 2]%N 2 30 [[3]; [3]]%N) (SCases.stp [2; 9]%N 1 20 [[10]]%N) with Ok x => Some x | _ => None end) =
  Some [(10%N, (3, 6, 9, 12)%Z, Some (20, 0)%Z, [(tx "N.A.", 7%Z, 1%Z, 1%Z, tx "Pg", (tx "N", tx "A", [], tx "HHZ"))])].
Proof. vm_compute. reflexivity. Qed.

(** The start rms reported is that before step 1: false, as the catalog of step 1 is
    looked at after it was moved from. *)
Theorem C74_start_rms_refuted : ∃ (bg single : catalog Z) s1 s2 out o1 o2 n1 n2 log1 log2 e1 e',
  integrity bg ∧ unmarked bg ∧ integrity single ∧ within (st_sel s1) bg ∧ within (st_sel s2) bg ∧
  two_steps Cases.ins Cases.mv SCases.w0 [] [] bg true [] [] (λ _, empty_cat) s1 s2 single = Ok (out, (o1, n1, log1), (o2, n2, log2)) ∧
  c_ev o1 !! n1 = Some e1 ∧ c_ev out !! n2 = Some e' ∧ (fst <$> e_reloc e1) = Some 30%Z ∧ (fst <$> e_reloc e') = Some 20%Z.
Proof.
  exists (SCases.bgc [1; 2]%N), SCases.one, (SCases.stp [1; 2]%N 2 30 [[3]]%N), (SCases.stp [1; 2]%N 1 20 [[3]]%N).
  destruct (two_steps _ _ _ _ _ _ _ _ _ _ _ _ _) as [[[out [[o1 n1] log1]] [[o2 n2] log2]]| |] eqn:E; [|vm_compute in E; discriminate..].
  assert (∃ e1 e', c_ev o1 !! n1 = Some e1 ∧ c_ev out !! n2 = Some e' ∧ (fst <$> e_reloc e1) = Some 30%Z ∧ (fst <$> e_reloc e') = Some 20%Z) as (e1 & e' & H).
  { vm_compute in E. injection E as <- <- <- _ <- <- _. eexists _, _. split_and!; reflexivity. }
  exists out, o1, o2, n1, n2, log1, log2, e1, e'. split; [apply SCases.bg_ok|]. split; [apply SCases.bg_ok|]. split; [apply SCases.one_ok|].
  split; [by apply SCases.within_ok|]. split; [by apply SCases.within_ok|]. split; [reflexivity|exact H].
Qed.
(** The second step succeeded if a relocated event is returned: false, the marks of the
    first step are still there when the first system of the second cannot be solved. *)
Theorem C74_stale_step2_refuted : ∃ (bg single : catalog Z) s1 s2 out r1 o2 n2,
  integrity bg ∧ unmarked bg ∧ integrity single ∧ within (st_sel s1) bg ∧ within (st_sel s2) bg ∧
  two_steps Cases.ins Cases.mv SCases.w0 [] [] bg true [] [] (λ _, empty_cat) s1 s2 single = Ok (out, r1, (o2, n2, [])) ∧
  is_Some (c_ev out !! n2).
Proof.
  exists (SCases.bgc [1; 2]%N), SCases.one, (SCases.stp [1; 2]%N 2 30 [[3]]%N), (SCases.stp [1; 2]%N 1 20 []).
  destruct (two_steps _ _ _ _ _ _ _ _ _ _ _ _ _) as [[[out r1] [[o2 n2] log2]]| |] eqn:E; [|vm_compute in E; discriminate..].
  assert (log2 = [] ∧ is_Some (c_ev out !! n2)) as [-> H].
  { vm_compute in E. injection E as <- _ _ <- <-. split; [reflexivity|eexists; reflexivity]. }
  exists out, r1, o2, n2. split; [apply SCases.bg_ok|]. split; [apply SCases.bg_ok|]. split; [apply SCases.one_ok|].
  split; [by apply SCases.within_ok|]. split; [by apply SCases.within_ok|]. split; [reflexivity|exact H].
Qed.
(** An event relocated by step 1 is returned: false if step 2 has too few neighbours. *)
Theorem C74_step1_lost_refuted : ∃ (bg single : catalog Z) s1 s2 out o1 n1 log1 r2,
  integrity bg ∧ unmarked bg ∧ integrity single ∧ within (st_sel s1) bg ∧ within (st_sel s2) bg ∧
  two_steps Cases.ins Cases.mv SCases.w0 [] [] bg true [] [] (λ _, empty_cat) s1 s2 single = Ok (out, (o1, n1, log1), r2) ∧
  is_Some (c_ev o1 !! n1) ∧ out = empty_cat.
Proof.
  exists (SCases.bgc [1; 2]%N), SCases.one, (SCases.stp [1; 2]%N 2 30 [[3]]%N), (SCases.stp [1]%N 2 20 [[2]]%N).
  destruct (two_steps _ _ _ _ _ _ _ _ _ _ _ _ _) as [[[out [[o1 n1] log1]] r2]| |] eqn:E; [|vm_compute in E; discriminate..].
  assert (is_Some (c_ev o1 !! n1) ∧ cat_empty out = true) as [H1 H2%cat_empty_true].
  { vm_compute in E. injection E as <- <- <- _ _. split; [eexists; reflexivity|reflexivity]. }
  exists out, o1, n1, log1, r2. split; [apply SCases.bg_ok|]. split; [apply SCases.bg_ok|]. split; [apply SCases.one_ok|].
  split; [by apply SCases.within_ok|]. split; [apply SCases.within_ok; set_solver|]. split; [reflexivity|]. split; done.
Qed.
(** A call with too few neighbours returns an empty catalog: false from 34 of them on, the
    message reads beyond the end of its text. *)
Theorem C74_message_refuted : ∃ (bg single : catalog Z) st n,
  integrity bg ∧ unmarked bg ∧ integrity single ∧ within (st_sel st) bg ∧
  (∀ c e, st_sel st c e = Ok n) ∧ n_amount n < st_min st ∧ n_amount n = 34 ∧
  relocate_single Cases.ins Cases.mv SCases.w0 [] [] bg true st single = Bad.
Proof.
  set (l := N.of_nat <$> seq 1 34).
  exists (SCases.bgc l), SCases.one, (SCases.stp l 40 30 [[35]]%N), (SCases.near l).
  assert (n_amount (SCases.near l) = 34) as Hn by (vm_compute; reflexivity).
  split; [apply SCases.bg_ok|]. split; [apply SCases.bg_ok|]. split; [apply SCases.one_ok|].
  split; [by apply SCases.within_ok|]. split; [done|]. split; [rewrite Hn; cbn; lia|]. split; [done|].
  unfold relocate_single. change (c_ev (fill_proc _ _ _ _ _ _)) with (c_ev SCases.one).
  rewrite (sorted_only _ _ _ (proj2 SCases.one_ok)). cbn [st_sel SCases.stp rbind st_min]. rewrite Hn. done.
Qed.
Print Assumptions C74_single_result.
Print Assumptions C74_single_empty.
Print Assumptions C74_single_total.
Print Assumptions C74_two_steps.
Print Assumptions C74_result_is_step2.
Print Assumptions C74_start_rms_refuted.
Print Assumptions C74_stale_step2_refuted.
Print Assumptions C74_step1_lost_refuted.
Print Assumptions C74_message_refuted.
