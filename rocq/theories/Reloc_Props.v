(** Theorems about the relocation loop: C41, C42. *)
From Coq Require Import Reals Lra Psatz.
From stdpp Require Import gmap list sorting.
From Verif Require Import Index_Model Csv_Model Catalog_Model Catalog_Props Solver_Model Reloc_Model.

(** ** Specification *)
Section spec.
Context {V : Type}.
Notation hypo := (V * V * V * Z)%type.
Notation delta := (V * V * V * V)%type.

(** A pick without the results of the relocation *)
Definition bare (p : phase V) : N * Csv_Model.text * Z * V * V * Csv_Model.text * (Csv_Model.text * Csv_Model.text * Csv_Model.text * Csv_Model.text) * option (pproc V) :=
  (p_ev p, p_staid p, p_time p, p_lower p, p_upper p, p_type p, (p_net p, p_sta p, p_loc p, p_cha p), p_proc p).
(** The clusters made by the neighbour selection: different events of the catalog, each with its own neighbours *)
Definition cluster_ok (c : catalog V) (cl : list (N * N)) : Prop :=
  NoDup cl.*1 ∧ ∀ x, x ∈ cl → x.1 = x.2 ∧ is_Some (c_ev c !! x.1).
(** The changes reported for event [k] by a series of solutions *)
Definition changes (k : N) (log : list (catalog V * sol V)) : list delta := omap (λ x, so_change x.2 k) log.
End spec.

Section proofs.
Context {V : Type}.
Notation hypo := (V * V * V * Z)%type.
Notation delta := (V * V * V * V)%type.
Variable ins : list (phase V) → phase V → list (phase V).
Hypothesis Hins : any_place ins.
Variable move : hypo → delta → hypo.
Implicit Types (c cur prev : catalog V) (e : event V) (w : world V) (so : sol V).

Record local (k : N) c c' : Prop := Local {
  lo_int : integrity c';
  lo_sta : c_sta c' = c_sta c;
  lo_oth : ∀ k', k' ≠ k → c_ev c' !! k' = c_ev c !! k' ∧ phs c' k' = phs c k';
  lo_ph : bare <$> phs c' k ≡ₚ bare <$> phs c k }.

Lemma phs_insert c st ev k l k' : phs (Cat st ev (<[k := l]> (c_ph c))) k' = if decide (k' = k) then l else phs c k'.
Proof. unfold phs. cbn. case_decide as D; [subst; by rewrite lookup_insert|by rewrite lookup_insert_ne]. Qed.

Lemma local_put c k e e' l :
  integrity c → c_ev c !! k = Some e → e_id e' = e_id e → Forall2 (λ p q, bare p = bare q) l (phs c k) →
  local k c (Cat (c_sta c) (<[k := e']> (c_ev c)) (<[k := l]> (c_ph c))).
Proof.
  intros I He Hid Hl. split.
  - split; cbn.
    + intros k' e1. destruct (decide (k' = k)) as [->|D]; [rewrite lookup_insert|rewrite lookup_insert_ne by done; apply (in_ev _ I)].
      intros [= <-]. rewrite Hid. by apply (in_ev _ I).
    + apply (in_sta _ I).
    + intros k' p. rewrite phs_insert. case_decide as D.
      * subst k'. intros [i Hi]%elem_of_list_lookup_1. 
        destruct (Forall2_lookup_l _ _ _ _ _ Hl Hi) as (q & Hq & Eq).
        destruct (in_ph _ I k q) as (A & B & C); [by eapply elem_of_list_lookup_2|].
        unfold bare in Eq. simplify_eq. split; [congruence|]. split; [rewrite lookup_insert; eauto|].
        replace (p_staid p) with (p_staid q) by congruence. done.
      * intros Hp. destruct (in_ph _ I k' p Hp) as (A & B & C). split; [done|]. split; [|done]. by rewrite lookup_insert_ne.
  - done.
  - intros k' D. cbn. rewrite lookup_insert_ne by done. split; [done|]. rewrite phs_insert. by rewrite decide_False.
  - rewrite phs_insert, decide_True by done. clear -Hl. induction Hl; [done|]. cbn. rewrite H. by constructor.
Qed.
Lemma local_refl k c : integrity c → local k c c.
Proof. split; auto. Qed.

Lemma has_sta c k : integrity c → Forall (λ p, is_Some (c_sta c !! p_staid p)) (phs c k).
Proof. intros I. apply Forall_forall. intros p Hp. by apply (in_ph _ I k p). Qed.

Lemma residual_spec w it c0 c k e : integrity c → c_ev c !! k = Some e →
  ∃ c', residual w it c0 c (k, k) = Ok c' ∧ local k c c' ∧
    c_ev c' !! k = Some (set_mark e ((λ _, w_rms w it c0 k) <$> e_reloc e)).
Proof.
  intros I He. unfold residual. cbn [snd]. rewrite He. pose proof (in_ev _ I _ _ He) as Hid. rewrite Hid.
  rewrite decide_True by by apply has_sta. eexists. split; [done|]. split; [|cbn; by rewrite lookup_insert].
  eapply local_put; [done|done|done|]. apply Forall2_fmap_l. apply Forall_Forall2_diag. by apply Forall_true.
Qed.

(** What an update does to the event *)
Definition ev_update (first : bool) (r : V * V) (d : option delta) e : event V :=
  let e := if first then set_mark e None else e in
  match d with None => e | Some d => set_mark (set_hypo e (move (hypo_of e) d)) (Some r) end.
Lemma set_hypo_id e h : e_id (set_hypo e h) = e_id e ∧ e_mag (set_hypo e h) = e_mag e ∧ hypo_of (set_hypo e h) = h.
Proof. by destruct h as [[[? ?] ?] ?]. Qed.
Lemma upd_phase_bare w it c0 b so k p : bare (upd_phase w it c0 b so k p) = bare p.
Proof. unfold upd_phase. destruct b; cbn; destruct (so_used so k _ _); done. Qed.
Lemma update_spec
 w it c0 so c k e : integrity c → c_ev c !! k = Some e →
  ∃ c', update move w it c0 so c (k, k) = Ok c' ∧ local k c c' ∧
    c_ev c' !! k = Some (ev_update (bool_decide (it = 0)) (w_rms w it c0 k) (so_change so k) e).
Proof.
  intros I He. unfold update. cbn [snd]. rewrite He. pose proof (in_ev _ I _ _ He) as Hid. unfold ev_update.
  set (b := bool_decide (it = 0)).
  assert (e_id (if b then set_mark e None else e) = k) as Hid' by (by destruct b).
  cbn zeta. rewrite Hid'. destruct (so_change so k) as [d|].
  - rewrite decide_True by by apply has_sta. eexists. split; [done|]. split; [|cbn; by rewrite lookup_insert].
    eapply local_put; [done|done| |].
    + cbn. rewrite (proj1 (set_hypo_id _ _)), Hid'. done.
    + apply Forall2_fmap_l. apply Forall_Forall2_diag. apply Forall_true. intros p. apply upd_phase_bare.
  - eexists. split; [done|]. split; [|cbn; by rewrite lookup_insert].
    assert (phs (Cat (c_sta c) (<[k:=if b then set_mark e None else e]> (c_ev c)) (c_ph c)) = phs c) as Hp by done.
    split.
    + split; cbn.
      * intros k' e1. destruct (decide (k' = k)) as [->|D]; [rewrite lookup_insert|rewrite lookup_insert_ne by done; apply (in_ev _ I)].
        by intros [= <-].
      * apply (in_sta _ I).
      * intros k' p Hq. rewrite Hp in Hq. destruct (in_ph _ I k' p Hq) as (A & B & C). split; [done|]. split; [|done].
        destruct (decide (k' = k)) as [->|D]; [rewrite lookup_insert; eauto|by rewrite lookup_insert_ne].
    + done.
    + intros k' D. cbn. rewrite lookup_insert_ne by done. done.
    + done.
Qed.

(** [prev] and [cur] have the same events, picks and stations *)
Record alike prev cur : Prop := Alike {
  al_sta : c_sta cur = c_sta prev;
  al_ev : ∀ k, is_Some (c_ev cur !! k) ↔ is_Some (c_ev prev !! k);
  al_ph : ∀ k, bare <$> phs cur k ≡ₚ bare <$> phs prev k }.

Lemma revert_spec w it prev cur k e :
  integrity cur → c_ev cur !! k = Some e → (prev = empty_cat ∨ integrity prev ∧ alike prev cur) →
  ∃ c' e', revert ins w it prev cur (k, k) = Ok c' ∧ local k cur c' ∧ c_ev c' !! k = Some e' ∧
    (e' = e ∨ (w_ttt w it cur k = false ∧ c_ev prev !! k = Some e')).
Proof using Hins.
  intros I He Hp. unfold revert. cbn [fst].
  destruct (w_ttt w it cur k) eqn:Et; cbn [orb].
  { exists cur, e. split_and!; [done|by apply local_refl|done|by left]. }
  destruct (cat_empty prev) eqn:Ee.
  { exists cur, e. split_and!; [done|by apply local_refl|done|by left]. }
  rewrite He. destruct (marked e) eqn:Em; cbn [negb].
  2: { exists cur, e. split_and!; [done|by apply local_refl|done|by left]. }
  destruct Hp as [->|[Ip [Hs Hd Hb]]]; [by unfold cat_empty in Ee; rewrite bool_decide_true in Ee|].
  destruct (C17_remove_event cur k) as (R1 & R2 & R3 & R4).
  assert (integrity (remove_event cur k)) as Ir.
  { split.
    - intros k' e1. cbn. intros [_ H]%lookup_delete_Some. by apply (in_ev _ I).
    - apply (in_sta _ I).
    - intros k' p Hq. destruct (decide (k' = k)) as [->|D]; [rewrite R2 in Hq; set_solver|].
      destruct (R3 k' D) as [S1 S2]. rewrite S2 in Hq. destruct (in_ph _ I k' p Hq) as (A & B & C).
      rewrite S1, R4. done. }
  assert (is_Some (c_ev prev !! k)) as Hpk by (apply Hd; eauto).
  destruct (C16_add_keeps_id ins Hins (remove_event cur k) k prev Ir Ip Hpk R1) as (c' & Ea & (e1 & He1 & K1) & K2 & K3 & K4 & K5).
  rewrite Ea. pose proof (in_ev _ Ip _ _ He1) as Hid. 
  assert (set_e_id e1 k = e1) as Hse by (rewrite <-Hid; apply set_e_id_same).
  exists c', e1. split; [done|]. split; [|split; [by rewrite K1, Hse|by right]].
  assert ((λ p : phase V, set_p_ev p k) <$> phs prev k = phs prev k) as Hse2.
  { rewrite <-(list_fmap_id (phs prev k)) at 2. apply list_fmap_ext. intros i p Hq. 
    apply elem_of_list_lookup_2 in Hq. destruct (in_ph _ Ip k p Hq) as (<- & _). apply set_p_ev_same. }
  split.
  - eapply (integrity_add_from ins Hins (remove_event cur k) k prev true); [done|done|]. left. eauto.
  - apply map_eq. intros i. rewrite K5, R4. destruct (c_sta cur !! i) eqn:Es; [done|]. rewrite Hs in Es. by case_decide.
  - intros k' D. rewrite K2, K4 by done. by apply R3.
  - rewrite K3, Hse2. by symmetry.
Qed.

Lemma rloop_each (f : catalog V → N * N → res (catalog V)) (J : catalog V → Prop) (R : N → event V → event V → Prop) cl :
  (∀ c k e, integrity c → J c → c_ev c !! k = Some e → k ∈ cl.*1 → ∃ c' e', f c (k, k) = Ok c' ∧ J c' ∧ local k c c' ∧ c_ev c' !! k = Some e' ∧ R k e e') →
  ∀ c, integrity c → J c → cluster_ok c cl →
  ∃ c', rloop f cl c = Ok c' ∧ integrity c' ∧ J c' ∧ c_sta c' = c_sta c ∧
    (∀ k, bare <$> phs c' k ≡ₚ bare <$> phs c k) ∧
    (∀ k, k ∉ cl.*1 → c_ev c' !! k = c_ev c !! k ∧ phs c' k = phs c k) ∧
    (∀ k, k ∈ cl.*1 → ∃ e e', c_ev c !! k = Some e ∧ c_ev c' !! k = Some e' ∧ R k e e').
Proof.
  clear Hins. induction cl as [|[k k2] cl IH]; intros Hf c I HJ [Hn Hc].
  { exists c. split_and!; try done. intros k. cbn. set_solver. }
  cbn [fmap list_fmap fst] in Hn. apply NoDup_cons in Hn as [Hn1 Hn2].
  destruct (Hc (k, k2)) as [E [e He]]; [left|]. cbn in E, He. subst k2.
  destruct (Hf c k e) as (c1 & e1 & F1 & J1 & [L1 L2 L3 L4] & E1 & R1); [done|done|done|set_solver|].
  destruct (IH) with (c := c1) as (c' & Fl & I' & J' & Hs & Hb & Ho & Hr); [|done|done| |].
  { intros. apply Hf; [done..|]. cbn. by right. }
  { split; [done|]. intros x Hx. destruct (Hc x) as [? ?]; [by right|]. split; [done|].
    assert (x.1 ≠ k) as D by (intros <-; apply Hn1; by apply elem_of_list_fmap_1).
    by rewrite (proj1 (L3 _ D)). }
  exists c'. cbn [rloop]. rewrite F1. cbn [rbind]. split; [done|]. split; [done|]. split; [done|].
  split; [congruence|]. split.
  { intros k'. rewrite Hb. destruct (decide (k' = k)) as [->|D]; [done|]. by rewrite (proj2 (L3 _ D)). }
  split.
  - intros k' Hk. cbn in Hk. apply not_elem_of_cons in Hk as [D Hk]. destruct (Ho k' Hk) as [-> ->]. by apply L3.
  - intros k' Hk. cbn in Hk. apply elem_of_cons in Hk as [->|Hk].
    + exists e, e1. split; [done|]. destruct (Ho k Hn1) as [-> _]. done.
    + destruct (Hr k' Hk) as (a & b & H1 & H2 & H3). exists a, b. split; [|done]. rewrite <-H1.
      assert (k' ≠ k) as D by (intros ->; done). by rewrite (proj1 (L3 _ D)).
Qed.

(** *** The loop *)
Section loop.
Variables (w : world V) (cl : list (N * N)) (c0 : catalog V).
Hypothesis I0 : integrity c0.
Hypothesis Hcl : cluster_ok c0 cl.

(** A catalog of the loop, compared to the input *)
Record good c : Prop := Good {
  g_int : integrity c;
  g_sta : c_sta c = c_sta c0;
  g_ph : ∀ k, bare <$> phs c k ≡ₚ bare <$> phs c0 k;
  g_oth : ∀ k, k ∉ cl.*1 → c_ev c !! k = c_ev c0 !! k ∧ phs c k = phs c0 k;
  g_in : ∀ k, k ∈ cl.*1 → ∃ e0 e, c_ev c0 !! k = Some e0 ∧ c_ev c !! k = Some e ∧ e_id e = e_id e0 ∧ e_mag e = e_mag e0 }.
Lemma good_dom c : good c → ∀ k, is_Some (c_ev c !! k) ↔ is_Some (c_ev c0 !! k).
Proof.
  intros [_ _ _ G1 G2] k. destruct (decide (k ∈ cl.*1)) as [D|D].
  - destruct (G2 k D) as (e0 & e & H1 & H2 & _). rewrite H1, H2. split; eauto.
  - by rewrite (proj1 (G1 k D)).
Qed.
Lemma good_cluster c : good c → cluster_ok c cl.
Proof using Hcl. intros G. destruct Hcl as [H1 H2]. split; [done|]. intros x Hx. destruct (H2 x Hx). split; [done|]. by apply good_dom. Qed.
Lemma good_alike c c' : good c → good c' → alike c c'.
Proof.
  intros G G'. split.
  - by rewrite (g_sta _ G), (g_sta _ G').
  - intros k. rewrite (good_dom c' G' k), (good_dom c G k). done.
  - intros k. by rewrite (g_ph _ G), (g_ph _ G').
Qed.

(** The history of an event: the changes it went through, and its mark *)
Definition hist (tt : Prop) (k : N) (log : list (catalog V * sol V)) e : Prop :=
  ∃ e0 ds, c_ev c0 !! k = Some e0 ∧ ds `sublist_of` changes k log ∧ hypo_of e = fold_left move ds (hypo_of e0) ∧
    (e_reloc e0 = None ∨ (tt ∧ log ≠ []) → (is_Some (e_reloc e) ↔ ds ≠ [])) ∧
    (tt → ds = changes k log).
Definition tt_ok (k : N) : Prop := ∀ i c, w_ttt w i c k = true.
Lemma changes_app k l (x : catalog V * sol V) : changes k (l ++ [x]) = changes k l ++ option_list (so_change x.2 k).
Proof. unfold changes. rewrite omap_app. cbn. by destruct (so_change x.2 k). Qed.
Lemma hist_weaken tt k log e : hist tt k log e → hist False k log e.
Proof. intros (e0 & ds & H1 & H2 & H3 & H4 & H5). exists e0, ds. split_and!; try done. intros [?|[[] _]]. apply H4. by left. Qed.
Lemma hist_longer k log x e : hist False k log e → hist False k (log ++ [x]) e.
Proof.
  intros (e0 & ds & H1 & H2 & H3 & H4 & H5). exists e0, ds. split_and!; try done.
  - rewrite changes_app. by apply sublist_inserts_r.
  - intros [?|[[] _]]. apply H4. by left.
Qed.
Lemma hist_absurd (tt : Prop) k log e : ¬ tt → hist False k log e → hist tt k log e.
Proof. intros N (e0 & ds & H1 & H2 & H3 & H4 & H5). exists e0, ds. split_and!; try done. intros [?|[? _]]; [|done]. apply H4. by left. Qed.
Lemma hist_mark tt k log e r : hist tt k log e → hist tt k log (set_mark e ((λ _, r) <$> e_reloc e)).
Proof. intros (e0 & ds & H1 & H2 & H3 & H4 & H5). exists e0, ds. split_and!; try done. intros H. rewrite <-H4 by done. cbn. by rewrite fmap_is_Some. Qed.
Lemma hist_update tt k log (x : catalog V * sol V) r e : hist tt k log e →
  hist tt k (log ++ [x]) (ev_update (bool_decide (length log = 0)) r (so_change x.2 k) e).
Proof.
  intros (e0 & ds & H1 & H2 & H3 & H4 & H5). exists e0, (ds ++ option_list (so_change x.2 k)).
  split; [done|]. split; [rewrite changes_app; by apply sublist_app|].
  assert (hypo_of (if bool_decide (length log = 0) then set_mark e None else e) = hypo_of e) as Hh by (by case_bool_decide).
  unfold ev_update. destruct (so_change x.2 k) as [d|] eqn:Ed; cbn [option_list].
  - split; [cbn zeta; rewrite Hh, fold_left_app, <-H3; unfold hypo_of at 1; cbn; apply set_hypo_id|]. split.
    + intros _. split; [intros _|intros _; cbn; eauto]. by destruct ds.
    + intros T. rewrite changes_app, Ed, (H5 T). done.
  - rewrite !app_nil_r. cbn zeta. split; [by rewrite Hh|]. split.
    + intros H. case_bool_decide as D.
      * apply nil_length_inv in D. subst log. cbn in H2. apply sublist_nil_r in H2. subst ds. cbn. split; [by intros []|done].
      * apply H4. destruct H as [?|[T _]]; [by left|right]. split; [done|]. by intros ->.
    + intros T. rewrite changes_app, Ed, (H5 T). cbn. by rewrite app_nil_r.
Qed.

Lemma ev_update_base b r d e : e_id (ev_update b r d e) = e_id e ∧ e_mag (ev_update b r d e) = e_mag e.
Proof. unfold ev_update. destruct d; cbn; [rewrite !(proj1 (set_hypo_id _ _)), !(proj1 (proj2 (set_hypo_id _ _)))|]; by destruct b. Qed.

(** A loop over the cluster that preserves some property of the events keeps the catalog good *)
Lemma loop_good (f : catalog V → N * N → res (catalog V)) (J : catalog V → Prop) (R : N → event V → event V → Prop) c :
  (∀ c k e, integrity c → J c → c_ev c !! k = Some e → k ∈ cl.*1 → ∃ c' e', f c (k, k) = Ok c' ∧ J c' ∧ local k c c' ∧ c_ev c' !! k = Some e' ∧ R k e e') →
  (∀ k e e', R k e e' → ∀ e0, c_ev c0 !! k = Some e0 → e_id e = e_id e0 → e_mag e = e_mag e0 → e_id e' = e_id e0 ∧ e_mag e' = e_mag e0) →
  good c → J c → ∃ c', rloop f cl c = Ok c' ∧ good c' ∧
    (∀ k, k ∈ cl.*1 → ∃ e e', c_ev c !! k = Some e ∧ c_ev c' !! k = Some e' ∧ R k e e').
Proof using Hcl.
  intros Hf HR G HJ.
  destruct (rloop_each f J R cl Hf c (g_int _ G) HJ (good_cluster _ G)) as (c' & E & I' & _ & Hs & Hb & Ho & Hr).
  exists c'. split; [done|]. split; [|done]. split.
  - done.
  - rewrite Hs. apply G.
  - intros k. rewrite Hb. apply G.
  - intros k Hk. destruct (Ho k Hk) as [-> ->]. by apply G.
  - intros k Hk. destruct (g_in _ G k Hk) as (e0 & e & G1 & G2 & G3 & G4). destruct (Hr k Hk) as (e1 & e' & R1 & R2 & R3).
    simplify_eq. exists e0, e'. split; [done|]. split; [done|]. eapply HR; eauto.
Qed.

Definition entry_ok (i : nat) (x : catalog V * sol V) : Prop := good x.1 ∧ w_solve w i x.1 = Some x.2.

Lemma iterate_ok k : ∀ it cur prev log,
  good cur → (prev = empty_cat ∨ good prev ∧ ∀ x e, x ∈ cl.*1 → c_ev prev !! x = Some e → hist False x log e) →
  length log = it → (∀ i y, log !! i = Some y → entry_ok i y) →
  (∀ x e, x ∈ cl.*1 → c_ev cur !! x = Some e → hist (tt_ok x) x log e) →
  iterate ins move w cl k it cur prev log ≠ Bad ∧
  ((∀ i c, w_prepare w i c = true) → ∃ r, iterate ins move w cl k it cur prev log = Ok r) ∧
  ∀ cur' log', iterate ins move w cl k it cur prev log = Ok (cur', log') →
    good cur' ∧ (∀ i y, log' !! i = Some y → entry_ok i y) ∧ length log' ≤ it + k ∧
    (∀ x e, x ∈ cl.*1 → c_ev cur' !! x = Some e → hist (tt_ok x) x log' e).
Proof using Hins Hcl I0.
  induction k as [k IH] using lt_wf_ind. intros it cur prev log G Hp Hlen Hlog Hh.
  destruct (loop_good (revert ins w it prev)
      (λ c, prev = empty_cat ∨ integrity prev ∧ alike prev c)
      (λ k e e', e' = e ∨ (¬ tt_ok k ∧ c_ev prev !! k = Some e')) cur) as (c1 & E1 & G1 & R1).
  { intros c x e I HJ He Hx.
    destruct (revert_spec w it prev c x e I He HJ) as (c' & e' & A & B & C & D). exists c', e'.
    split; [done|]. split.
    { destruct HJ as [?|[? [H1 H2 H3]]]; [by left|]. right. split; [done|]. destruct B as [B1 B2 B3 B4]. split.
      - congruence.
      - intros x'. rewrite <-H2. destruct (decide (x' = x)) as [->|Dx]; [rewrite C, He; split; eauto|].
        by rewrite (proj1 (B3 x' Dx)).
      - intros x'. rewrite <-H3. destruct (decide (x' = x)) as [->|Dx]; [done|]. by rewrite (proj2 (B3 x' Dx)). }
    split; [done|]. split; [done|]. destruct D as [?|[D1 D2]]; [by left|]. right. split; [|done].
    intros T. by rewrite (T it c) in D1. }
  { intros x e e' [->|[_ H]] e0 He0 Hi Hm; [done|].
    destruct Hp as [->|[Gp _]]; [cbn in H; by rewrite lookup_empty in H|].
    destruct (decide (x ∈ cl.*1)) as [D|D].
    - destruct (g_in _ Gp x D) as (a & b & Q1 & Q2 & Q3 & Q4). simplify_eq. done.
    - rewrite (proj1 (g_oth _ Gp x D)) in H. by simplify_eq. }
  { done. }
  { destruct Hp as [?|[? _]]; [by left|right]. split; [by apply g_int|by apply good_alike]. }
  assert (∀ x e, x ∈ cl.*1 → c_ev c1 !! x = Some e → hist (tt_ok x) x log e) as Hh1.
  { intros x e Hx He. destruct (R1 x Hx) as (a & b & Q1 & Q2 & [->|[Q3 Q4]]); simplify_eq; [by apply Hh|].
    apply hist_absurd; [done|]. destruct Hp as [->|[Gp Hp]]; [cbn in Q4; by rewrite lookup_empty in Q4|]. by apply Hp. }
  destruct (loop_good (residual w it c1) (λ _, True)
      (λ k e e', e' = set_mark e ((λ _, w_rms w it c1 k) <$> e_reloc e)) c1) as (c2 & E2 & G2 & R2).
  { intros c x e I _ He Hx. destruct (residual_spec w it c1 c x e I He) as (c' & A & B & C). eauto 10. }
  { by intros x e e' -> e0 _ Hi Hm. }
  { done. } { done. }
  assert (∀ x e, x ∈ cl.*1 → c_ev c2 !! x = Some e → hist (tt_ok x) x log e) as Hh2.
  { intros x e Hx He. destruct (R2 x Hx) as (a & b & Q1 & Q2 & ->). simplify_eq. apply hist_mark. by apply Hh1. }
  assert (iterate ins move w cl k it cur prev log =
    if negb (w_prepare w it c2) then Exc else
    match k with 0 => Ok (c2, log) | S k' => match w_solve w it c2 with None => Ok (c2, log) 
      | Some so => rbind (rloop (update move w it c2 so) cl c2) (λ c3, iterate ins move w cl k' (S it) c3 c2 (log ++ [(c2, so)])) end end) as EI.
  { destruct k; cbn [iterate]; rewrite E1; cbn [rbind]; rewrite E2; done. }
  rewrite EI. destruct (w_prepare w it c2) eqn:Ew; cbn [negb].
  2: { split; [done|]. split; [intros H; by rewrite H in Ew|done]. }
  destruct k as [|k'].
  { split; [done|]. split; [eauto|]. intros cur' log' [= <- <-]. split_and!; try done. lia. }
  destruct (w_solve w it c2) as [so|] eqn:Es.
  2: { split; [done|]. split; [eauto|]. intros cur' log' [= <- <-]. split_and!; try done. lia. }
  destruct (loop_good (update move w it c2 so) (λ _, True)
      (λ k e e', e' = ev_update (bool_decide (it = 0)) (w_rms w it c2 k) (so_change so k) e) c2) as (c3 & E3 & G3 & R3).
  { intros c x e I _ He Hx. destruct (update_spec w it c2 so c x e I He) as (c' & A & B & C). eauto 10. }
  { intros x e e' -> e0 _ Hi Hm. by rewrite !(proj1 (ev_update_base _ _ _ _)), !(proj2 (ev_update_base _ _ _ _)). }
  { done. } { done. }
  rewrite E3. cbn [rbind].
  destruct (IH k' ltac:(lia) (S it) c3 c2 (log ++ [(c2, so)])) as (Z1 & Z2 & Z3).
  - done.
  - right. split; [done|]. intros x e Hx He. apply hist_longer, (hist_weaken (tt_ok x)). by apply Hh2.
  - rewrite app_length. cbn. lia.
  - intros i y. rewrite lookup_app_Some. intros [?|[? Hy]]; [by apply Hlog|].
    apply list_lookup_singleton_Some in Hy as [Hi <-]. assert (i = it) as -> by lia. done.
  - intros x e Hx He. destruct (R3 x Hx) as (a & b & Q1 & Q2 & ->). simplify_eq.
    apply (hist_update _ _ _ (c2, so)). by apply Hh2.
  - split; [done|]. split; [done|]. intros cur' log' E. destruct (Z3 _ _ E) as (Y1 & Y2 & Y3 & Y4). split_and!; try done. lia.
Qed.
End loop.

(** *** The returned catalog *)
Lemma collect_ok cur : integrity cur → 
  ∃ out, rloop (collect ins cur) (sorted_events (c_ev cur)) empty_cat = Ok out ∧ integrity out ∧
    (∀ k, c_ev out !! k = match c_ev cur !! k with Some e => if decide (is_Some (e_reloc e)) then Some e else None | None => None end) ∧
    (∀ k, is_Some (c_ev out !! k) → phs out k ≡ₚ phs cur k) ∧
    (∀ i s, c_sta out !! i = Some s → c_sta cur !! i = Some s).
Proof using Hins.
  intros I.
  assert (∀ l acc, integrity acc → (∀ e, e ∈ l → c_ev cur !! e_id e = Some e ∧ c_ev acc !! e_id e = None) → NoDup (e_id <$> l) →
    (∀ k, is_Some (c_ev acc !! k) → phs acc k ≡ₚ phs cur k) → (∀ i s, c_sta acc !! i = Some s → c_sta cur !! i = Some s) →
    ∃ out, rloop (collect ins cur) l acc = Ok out ∧ integrity out ∧
    (∀ k e, c_ev out !! k = Some e ↔ c_ev acc !! k = Some e ∨ e ∈ l ∧ e_id e = k ∧ is_Some (e_reloc e)) ∧
    (∀ k, is_Some (c_ev out !! k) → phs out k ≡ₚ phs cur k) ∧
    (∀ i s, c_sta out !! i = Some s → c_sta cur !! i = Some s)) as H.
  { induction l as [|e l IH]; intros acc Ia Hl Hn Hph Hst.
    { exists acc. split; [done|]. split; [done|]. split; [|done]. intros k e. set_solver. }
    cbn in Hn. apply NoDup_cons in Hn as [Hn1 Hn2]. cbn [rloop]. unfold collect at 1.
    destruct (Hl e) as [He Ha]; [left|]. unfold marked. case_bool_decide as D.
    2: { cbn [rbind]. destruct (IH acc) as (out & E & Io & Ho & Hr); [done| |done|done|done|].
      { intros e' He'. apply Hl. by right. }
      exists out. split; [done|]. split; [done|]. split; [|done]. intros k e'. rewrite Ho. rewrite elem_of_cons. naive_solver. }
    destruct (C16_add_keeps_id ins Hins acc (e_id e) cur Ia I) as (c' & Ea & (e1 & He1 & K1) & K2 & K3 & K4 & K5); [eauto|done|].
    simplify_eq. rewrite set_e_id_same in K1. rewrite Ea. cbn [rbind].
    assert ((λ p : phase V, set_p_ev p (e_id e)) <$> phs cur (e_id e) = phs cur (e_id e)) as Hse2.
    { rewrite <-(list_fmap_id (phs cur (e_id e))) at 2. apply list_fmap_ext. intros i p Hq. 
      apply elem_of_list_lookup_2 in Hq. destruct (in_ph _ I _ p Hq) as (<- & _). apply set_p_ev_same. }
    destruct (IH c') as (out & E & Io & Ho & Hr).
    - eapply (integrity_add_from ins Hins acc (e_id e) cur true); [done|done|]. left. eauto.
    - intros e' He'. destruct (Hl e') as [L1 L2]; [by right|]. split; [done|]. rewrite K2; [done|].
      intros Eid. apply Hn1. rewrite <-Eid. by apply elem_of_list_fmap_1.
    - done.
    - intros k Hk. destruct (decide (k = e_id e)) as [->|Dk]; [by rewrite K3, Hse2|]. rewrite K4 by done. apply Hph. by rewrite <-(K2 k Dk).
    - intros i s. rewrite K5. destruct (c_sta acc !! i) eqn:Es; [intros [= <-]; by apply Hst|]. by case_decide.
    - exists out. split; [done|]. split; [done|]. split; [|done]. intros k e'. rewrite Ho. rewrite elem_of_cons.
      destruct (decide (k = e_id e)) as [->|Dk].
      + rewrite K1, Ha. split; [|naive_solver]. intros [[= <-]|(? & ? & ?)]; naive_solver.
      + rewrite (K2 k Dk). naive_solver. }
  destruct (H (sorted_events (c_ev cur)) empty_cat) as (out & E & Io & Ho & Hp & Hs).
  - apply integrity_empty.
  - intros e He. apply elem_of_sorted_events in He as [k He]. rewrite (in_ev _ I _ _ He). split; [done|]. apply lookup_empty.
  - by apply (sorted_events_NoDup ins).
  - intros k [x Hx]. cbn in Hx. by rewrite lookup_empty in Hx.
  - intros i s Hx. cbn in Hx. by rewrite lookup_empty in Hx.
  - exists out. split; [done|]. split; [done|]. split; [|done]. intros k. apply option_eq. intros e. rewrite Ho.
    cbn. rewrite lookup_empty. split.
    + intros [?|(H1 & <- & H3)]; [done|]. apply elem_of_sorted_events in H1 as [k He]. rewrite (in_ev _ I _ _ He), He. by rewrite decide_True.
    + destruct (c_ev cur !! k) as [e'|] eqn:Ek; [|done]. case_decide as D; [|done]. intros [= <-]. right. split_and!; [|by apply (in_ev _ I)|done].
      apply elem_of_sorted_events. eauto.
Qed.

Lemma good_start c cl : integrity c → cluster_ok c cl → good cl c c.
Proof.
  intros I [_ H]. split; try done. intros k [x [-> Hx]]%elem_of_list_fmap_2.
  destruct (H x Hx) as [_ [e He]]. eauto 10.
Qed.

Lemma relocate_run w cl n c out log : integrity c → cluster_ok c cl → relocate ins move w cl n c = Ok (out, log) →
  ∃ cur, good cl c cur ∧ (∀ i y, log !! i = Some y → entry_ok w cl c i y) ∧ length log ≤ n ∧
    (∀ x e, x ∈ cl.*1 → c_ev cur !! x = Some e → hist c (tt_ok w x) x log e) ∧ integrity out ∧
    (∀ k, c_ev out !! k = match c_ev cur !! k with Some e => if decide (is_Some (e_reloc e)) then Some e else None | None => None end) ∧
    (∀ k, is_Some (c_ev out !! k) → phs out k ≡ₚ phs cur k) ∧
    (∀ i s, c_sta out !! i = Some s → c_sta cur !! i = Some s).
Proof using Hins.
  intros I Hc. unfold relocate.
  destruct (iterate_ok w cl c I Hc n 0 c empty_cat []) as (_ & _ & H); [by apply good_start|by left|done|done| |].
  { intros x e Hx He. exists e, []. split_and!; try done. intros [Hf|[_ ?]]; [|done]. rewrite Hf. split; [by intros []|done]. }
  destruct (iterate ins move w cl n 0 c empty_cat []) as [[cur l]| |]; cbn [rbind]; [|done|done].
  destruct (H cur l eq_refl) as (G & H1 & H2 & H3).
  destruct (collect_ok cur (g_int _ _ _ G)) as (o & E & A & B). rewrite E. cbn [rbind]. intros [= <- <-].
  exists cur. split_and!; [done|done|lia|done|done|apply B..].
Qed.

(** *** C42 *)
(** The relocation always runs through, except for a system that cannot be prepared. *)
Theorem C42_total w cl n c : integrity c → cluster_ok c cl →
  relocate ins move w cl n c ≠ Bad ∧
  ((∀ i c', w_prepare w i c' = true) → ∃ out log, relocate ins move w cl n c = Ok (out, log)).
Proof using Hins.
  intros I Hc. unfold relocate.
  destruct (iterate_ok w cl c I Hc n 0 c empty_cat []) as (Hb & Hp & H); [by apply good_start|by left|done|done| |].
  { intros x e Hx He. exists e, []. split_and!; try done. intros [Hf|[_ ?]]; [|done]. rewrite Hf. split; [by intros []|done]. }
  split.
  - destruct (iterate ins move w cl n 0 c empty_cat []) as [[cur l]| |]; cbn [rbind]; [|done|done].
    destruct (H cur l eq_refl) as (G & _). destruct (collect_ok cur (g_int _ _ _ G)) as (o & -> & _). done.
  - intros Hprep. destruct (Hp Hprep) as [[cur l] E]. rewrite E. cbn [rbind].
    destruct (H cur l E) as (G & _). destruct (collect_ok cur (g_int _ _ _ G)) as (o & -> & _). cbn. eauto.
Qed.

(** Every event returned is an event of the input with its picks; it is marked as relocated. *)
Theorem C42_output w cl n c out log : integrity c → cluster_ok c cl → relocate ins move w cl n c = Ok (out, log) →
  integrity out ∧
  (∀ i s, c_sta out !! i = Some s → c_sta c !! i = Some s) ∧
  (∀ k e, c_ev out !! k = Some e → is_Some (e_reloc e) ∧
     (∃ e0, c_ev c !! k = Some e0 ∧ e_id e = e_id e0 ∧ e_mag e = e_mag e0) ∧
     bare <$> phs out k ≡ₚ bare <$> phs c k).
Proof using Hins.
  intros I Hc E. destruct (relocate_run _ _ _ _ _ _ I Hc E) as (cur & G & _ & _ & _ & Io & Ho & Hp & Hs).
  split; [done|]. split; [intros i s H; rewrite <-(g_sta _ _ _ G); by apply Hs|].
  intros k e He. assert (is_Some (c_ev out !! k)) as Hk by eauto. rewrite (Hp k Hk). rewrite Ho in He.
  destruct (c_ev cur !! k) as [e'|] eqn:Ek; [|done]. case_decide as D; [|done]. simplify_eq. split; [done|].
  split; [|apply G]. destruct (decide (k ∈ cl.*1)) as [Dk|Dk].
  - destruct (g_in _ _ _ G k Dk) as (a & b & Q1 & Q2 & Q3 & Q4). simplify_eq. eauto.
  - rewrite <-(proj1 (g_oth _ _ _ G k Dk)), Ek. eauto.
Qed.

(** Events outside the cluster do not change: neither in the result nor in any of the systems solved. *)
Theorem C42_outside w cl n c out log k : integrity c → cluster_ok c cl → relocate ins move w cl n c = Ok (out, log) →
  k ∉ cl.*1 →
  (∀ i cat so, log !! i = Some (cat, so) → c_ev cat !! k = c_ev c !! k ∧ phs cat k = phs c k) ∧
  (∀ e, c_ev out !! k = Some e ↔ c_ev c !! k = Some e ∧ is_Some (e_reloc e)) ∧
  (is_Some (c_ev out !! k) → phs out k ≡ₚ phs c k).
Proof using Hins.
  intros I Hc E Hk. destruct (relocate_run _ _ _ _ _ _ I Hc E) as (cur & G & Hl & _ & _ & Io & Ho & Hp & Hs).
  destruct (g_oth _ _ _ G k Hk) as [G1 G2]. split_and!.
  - intros i cat so Hi. destruct (Hl i _ Hi) as [Gi _]. by apply (g_oth _ _ _ Gi).
  - intros e. rewrite Ho, G1. destruct (c_ev c !! k) as [e0|]; [|naive_solver]. case_decide; naive_solver.
  - intros H. rewrite (Hp k H), G2. done.
Qed.

(** Events of the cluster: the hypocentre of the output is that of the input moved by changes which
    the solver reported for this event, in that order; without failing travel times, by all of them.
    The event is returned if and only if there was a change. *)
Theorem C42_cluster w cl n c out log k : integrity c → cluster_ok c cl → relocate ins move w cl n c = Ok (out, log) →
  k ∈ cl.*1 →
  length log ≤ n ∧ (∀ i cat so, log !! i = Some (cat, so) → w_solve w i cat = Some so) ∧
  ∃ e0 ds, c_ev c !! k = Some e0 ∧ ds `sublist_of` changes k log ∧
    ((∀ i cat, w_ttt w i cat k = true) → ds = changes k log) ∧
    (∀ e, c_ev out !! k = Some e → hypo_of e = fold_left move ds (hypo_of e0)) ∧
    (e_reloc e0 = None ∨ ((∀ i cat, w_ttt w i cat k = true) ∧ log ≠ []) → (is_Some (c_ev out !! k) ↔ ds ≠ [])).
Proof using Hins.
  intros I Hc E Hk. destruct (relocate_run _ _ _ _ _ _ I Hc E) as (cur & G & Hl & Hn & Hh & Io & Ho & Hp & Hs).
  split; [done|]. split; [intros i cat so Hi; by apply (Hl i _ Hi)|].
  destruct (g_in _ _ _ G k Hk) as (a & b & Q1 & Q2 & Q3 & Q4).
  destruct (Hh k b Hk Q2) as (e0 & ds & H1 & H2 & H3 & H4 & H5). exists e0, ds. split_and!; try done.
  - intros e. rewrite Ho, Q2. case_decide; [|done]. by intros [= <-].
  - intros H. rewrite <-H4 by done. rewrite Ho, Q2. case_decide as D; [split; eauto|]. split; [by intros []|done].
Qed.

(** Relocation of a single event: nothing but that event is returned, and the neighbours are where
    they were in every system solved. *)
Theorem C42_single w r n c out log : integrity c → is_Some (c_ev c !! r) → (∀ k e, c_ev c !! k = Some e → e_reloc e = None) →
  relocate ins move w [(r, r)] n c = Ok (out, log) →
  (∀ k, is_Some (c_ev out !! k) → k = r) ∧
  (∀ i cat so k, log !! i = Some (cat, so) → k ≠ r → c_ev cat !! k = c_ev c !! k) ∧
  (is_Some (c_ev out !! r) → changes r log ≠ []).
Proof using Hins.
  intros I Hr Hf E.
  assert (cluster_ok c [(r, r)]) as Hc.
  { split; [apply NoDup_singleton|]. intros x ->%elem_of_list_singleton. done. }
  split_and!.
  - intros k [e He]. destruct (decide (k = r)) as [|D]; [done|]. exfalso.
    destruct (C42_outside _ _ _ _ _ _ k I Hc E) as (_ & H & _); [cbn; set_solver|].
    apply H in He as [He [x Hx]]. rewrite (Hf _ _ He) in Hx. done.
  - intros i cat so k Hi D. destruct (C42_outside _ _ _ _ _ _ k I Hc E) as (H & _ & _); [cbn; set_solver|]. by apply (H i cat so).
  - intros Hk. destruct (C42_cluster _ _ _ _ _ _ r I Hc E) as (_ & _ & e0 & ds & H1 & H2 & _ & _ & H3); [cbn; set_solver|].
    intros Hn. rewrite Hn in H2. apply sublist_nil_r in H2. subst ds. apply H3 in Hk; [done|]. left. by eapply Hf.
Qed.

(** One cluster after the other: with an input without marks and disjoint clusters, the result holds
    for each cluster what its own relocation returns. *)
Theorem C42_multi n c cls out : integrity c → (∀ k e, c_ev c !! k = Some e → e_reloc e = None) →
  (∀ x, x ∈ cls → cluster_ok c x.2) →
  (∀ i j x y k, cls !! i = Some x → cls !! j = Some y → k ∈ x.2.*1 → k ∈ y.2.*1 → i = j) →
  relocate_multi ins move n c cls = Ok out →
  integrity out ∧
  (∀ x, x ∈ cls → ∃ o log, relocate ins move x.1 x.2 n c = Ok (o, log) ∧
     ∀ k, k ∈ x.2.*1 → c_ev out !! k = c_ev o !! k ∧ phs out k ≡ₚ phs o k) ∧
  (∀ k, is_Some (c_ev out !! k) → ∃ x, x ∈ cls ∧ k ∈ x.2.*1).
Proof using Hins.
  intros I Hf. unfold relocate_multi.
  assert (∀ cls acc, integrity acc → (∀ x, x ∈ cls → cluster_ok c x.2) →
    (∀ i j x y k, cls !! i = Some x → cls !! j = Some y → k ∈ x.2.*1 → k ∈ y.2.*1 → i = j) →
    (∀ x k, x ∈ cls → k ∈ x.2.*1 → c_ev acc !! k = None) →
    rloop (λ acc x, rbind (relocate ins move x.1 x.2 n c) (λ '(out, _),
      match add_cat ins acc out true with CRet acc' _ => Ok acc' | CExc _ => Exc | CUB => Bad end)) cls acc = Ok out →
    integrity out ∧ (∀ k, is_Some (c_ev acc !! k) → c_ev out !! k = c_ev acc !! k) ∧
    (∀ k, (∀ x, x ∈ cls → k ∉ x.2.*1) → c_ev out !! k = c_ev acc !! k ∧ phs out k ≡ₚ phs acc k) ∧
    (∀ x, x ∈ cls → ∃ o log, relocate ins move x.1 x.2 n c = Ok (o, log) ∧
       ∀ k, k ∈ x.2.*1 → c_ev out !! k = c_ev o !! k ∧ phs out k ≡ₚ phs o k)) as H.
  { clear cls. induction cls as [|x cls IH]; intros acc Ia Hc Hd Ha; cbn [rloop].
    { intros [= <-]. split_and!; try done; set_solver. }
    destruct (relocate ins move x.1 x.2 n c) as [[o log]| |] eqn:Er; cbn [rbind]; [|done|done].
    assert (cluster_ok c x.2) as Hcx by (apply Hc; left).
    destruct (C42_output _ _ _ _ _ _ I Hcx Er) as (Io & _ & _).
    assert (∀ k, is_Some (c_ev o !! k) → k ∈ x.2.*1) as Hox.
    { intros k [e He]. destruct (decide (k ∈ x.2.*1)) as [|D]; [done|]. 
      destruct (C42_outside _ _ _ _ _ _ k I Hcx Er D) as (_ & HH & _). apply HH in He as [He [z Hz]]. by rewrite (Hf _ _ He) in Hz. }
    destruct (C16_merge_keeping_ids ins Hins acc o Ia Io) as (acc' & Em & M1 & M2 & _). rewrite Em. cbn [rbind]. intros E.
    assert (integrity acc') as Ia'.
    { eapply (integrity_add_events ins Hins o true (sorted_events (c_ev o)) acc acc'); [done|done|]. left. exists tt. apply Em. }
    assert (∀ y k, y ∈ cls → k ∈ y.2.*1 → k ∉ x.2.*1) as Hdis.
    { intros y k [j Hj]%elem_of_list_lookup_1 Hk Hkx. by pose proof (Hd 0 (S j) x y k eq_refl Hj Hkx Hk). }
    assert (∀ y k, y ∈ cls → k ∈ y.2.*1 → c_ev o !! k = None) as Hno.
    { intros y k Hy Hk. destruct (c_ev o !! k) eqn:Eo; [|done]. exfalso. eapply (Hdis y k Hy Hk), Hox. eauto. }
    destruct (IH acc') as (Io' & K1 & K2 & K3); [done| | | |done|].
    { intros y Hy. apply Hc. by right. }
    { intros i j y z k Hy Hz Hk Hk'. by pose proof (Hd (S i) (S j) y z k Hy Hz Hk Hk') as [=]. }
    { intros y k Hy Hk. rewrite M1. rewrite (Ha y k) by (done || by right). by eapply Hno. }
    split; [done|]. split; [|split].
    - intros k [e He]. rewrite K1; rewrite M1, He; eauto.
    - intros k Hk. destruct (K2 k) as [-> ->]; [intros y Hy; apply Hk; by right|].
      assert (c_ev o !! k = None) as Eo.
      { destruct (c_ev o !! k) eqn:Eo; [|done]. exfalso. apply (Hk x); [left|]. apply Hox. eauto. }
      rewrite M1, (M2 k). destruct (c_ev acc !! k) as [ea|] eqn:Ea; [done|]. split; [done|].
      assert (∀ q : catalog V, integrity q → c_ev q !! k = None → phs q k = []) as Hnil.
      { intros q Iq Hq. destruct (phs q k) as [|p l] eqn:Ep; [done|]. destruct (in_ph _ Iq k p) as (_ & [z Hz] & _); [rewrite Ep; left|]. congruence. }
      by rewrite (Hnil o), (Hnil acc).
    - intros y [->|Hy]%elem_of_cons.
      + exists o, log. split; [done|]. intros k Hk. destruct (K2 k) as [-> ->]; [intros y Hy Hky; by eapply Hdis|].
        rewrite M1, (M2 k), (Ha x k) by (done || by left). done.
      + by apply K3. }
  intros Hc Hd E. destruct (H cls empty_cat) as (Io & _ & H2 & H3); [apply integrity_empty|done|done|intros; apply lookup_empty|done|].
  split; [done|]. split; [done|]. intros k [e He].
  destruct (decide (Exists (λ x, k ∈ x.2.*1) cls)) as [D|D]; [by apply Exists_exists in D|].
  exfalso. destruct (H2 k) as [Hk _]; [intros x Hx Hk; apply D, Exists_exists; eauto|]. rewrite Hk in He. cbn in He. by rewrite lookup_empty in He.
Qed.
End proofs.

(** *** C41 *)
(** The parameters of the systems solved (iterations 0 to n-1) *)
Theorem C41_start_end n s f : (2 ≤ n)%nat → interpolate n 0 s f = s ∧ interpolate n (n - 1) s f = f.
Proof.
  intros Hn. unfold interpolate. rewrite !decide_False by lia. change (INR 0) with 0%R.
  assert (INR (n - 1) <> 0%R) by (apply not_0_INR; lia). split; field; done.
Qed.
Theorem C41_range n it s f : (2 ≤ n)%nat → (it ≤ n - 1)%nat →
  (Rmin s f <= interpolate n it s f <= Rmax s f)%R.
Proof.
  intros Hn Hi. unfold interpolate. rewrite decide_False by lia.
  assert (0 < INR (n - 1))%R as Hp by (apply lt_0_INR; lia).
  assert (0 <= INR it / INR (n - 1) <= 1)%R as [T0 T1].
  { split; [apply Rmult_le_pos; [apply pos_INR|left; by apply Rinv_0_lt_compat]|].
    apply Rmult_le_reg_r with (INR (n - 1)); [done|]. unfold Rdiv. rewrite Rmult_assoc, Rinv_l, Rmult_1_r, Rmult_1_l by lra.
    by apply le_INR. }
  replace ((f - s) * INR it / INR (n - 1))%R with ((f - s) * (INR it / INR (n - 1)))%R by (unfold Rdiv; ring).
  set (t := (INR it / INR (n - 1))%R) in *. unfold Rmin, Rmax. destruct (Rle_dec s f); nra.
Qed.
Theorem C41_monotone n i j s f : (2 ≤ n)%nat → (i ≤ j)%nat → (j ≤ n - 1)%nat →
  ((s <= f → interpolate n i s f <= interpolate n j s f) ∧ (f <= s → interpolate n j s f <= interpolate n i s f))%R.
Proof.
  intros Hn Hij Hj. unfold interpolate. rewrite !decide_False by lia.
  assert (0 < INR (n - 1))%R as Hp by (apply lt_0_INR; lia). apply Rinv_0_lt_compat in Hp.
  apply le_INR in Hij. unfold Rdiv. split; intros H.
  - apply Rplus_le_compat_l. rewrite !Rmult_assoc. apply Rmult_le_compat_l; [lra|]. apply Rmult_le_compat_r; lra.
  - apply Rplus_le_compat_l. rewrite !Rmult_assoc. 
    assert ((s - f) * (INR i * / INR (n - 1)) <= (s - f) * (INR j * / INR (n - 1)))%R; [|lra].
    apply Rmult_le_compat_l; [lra|]. apply Rmult_le_compat_r; lra.
Qed.
(** With a single iteration the mean is used: the range is kept, start and end are not. *)
Theorem C41_one_iteration it s f : (Rmin s f <= interpolate 1 it s f <= Rmax s f)%R.
Proof. unfold interpolate. rewrite decide_True by lia. unfold Rmin, Rmax. destruct (Rle_dec s f); lra. Qed.
Theorem C41_one_iteration_refuted : ∃ s f, interpolate 1 0 s f ≠ s ∧ interpolate 1 0 s f ≠ f.
Proof. exists 0%R, 1%R. unfold interpolate. rewrite decide_True by lia. split; lra. Qed.
(** The pass that only collects residuals (iteration n) is prepared with values beyond the end,
    even negative ones. *)
Theorem C41_last_pass_refuted : ∃ n s f, (2 ≤ n)%nat ∧ (0 <= f <= s)%R ∧ (interpolate n n s f < 0)%R.
Proof. exists 2%nat, 10%R, 0%R. unfold interpolate. rewrite decide_False by lia. cbn. split; [lia|]. split; lra. Qed.
Example C41_example : interpolate 3 1 10 4 = 7%R.
Proof. unfold interpolate. rewrite decide_False by lia. cbn. lra. Qed.

(** *** Concrete cases *)
Module Cases.
Definition ins (l : list (phase Z)) p := p :: l.
Definition mv (h : Z * Z * Z * Z) (d : Z * Z * Z * Z) : Z * Z * Z * Z :=
  let '(a, b, c, t) := h in let '(x, y, z, s) := d in (a + x, b + y, c + z, t + s)%Z.
Definition ev (k : N) (m : option (Z * Z)) : event Z := Ev k 0%Z 0%Z 0%Z 0%Z 0%Z m.
Definition cat1 : catalog Z := Cat ∅ {[ 1%N := ev 1 None; 2%N := ev 2 None ]} ∅.
Definition cat2 : catalog Z := Cat ∅ {[ 1%N := ev 1 None; 2%N := ev 2 (Some (0, 0)%Z) ]} ∅.
Definition so (l : list N) : sol Z := Sol (λ k, if decide (k ∈ l) then Some (1, 2, 3, 4)%Z else None) (λ _ _ _, false).
(** [solved] : the events moved in each iteration; [bad] : iteration and event with failing travel times *)
Definition wd (solved : list (list N)) (bad : nat → N → bool) : world Z :=
  World (λ i _ k, negb (bad i k)) (λ _ _ _, (0, 0)%Z) (λ _ _ _, (0, 0, 0)%Z) (λ _ _, true) (λ i _, so <$> solved !! i).
Definition summary {B} (r : res (catalog Z * B)) : option (list (N * (Z * Z * Z * Z))) :=
  match r with Ok (c, _) => Some ((λ e, (e_id e, hypo_of e)) <$> sorted_events (c_ev c)) | _ => None end.

Lemma ok1 : integrity cat1 ∧ cluster_ok cat1 [(1, 1); (2, 2)]%N ∧ any_place ins ∧ ∀ k e, c_ev cat1 !! k = Some e → e_reloc e = None.
Proof.
  split_and!.
  - split; cbn.
    + intros k e. rewrite lookup_insert_Some, lookup_singleton_Some. naive_solver.
    + intros k s. by rewrite lookup_empty.
    + intros k p. unfold phs. cbn. rewrite lookup_empty. cbn. set_solver.
  - split; [cbn; apply NoDup_cons; split; [set_solver|apply NoDup_singleton]|].
    intros x [->|[->|?%elem_of_nil]%elem_of_cons]%elem_of_cons; [..|done]; (split; [done|]); eexists; reflexivity.
  - by intros l p.
  - intros k e. cbn. rewrite lookup_insert_Some, lookup_singleton_Some. naive_solver.
Qed.
(** Two events moved twice and once; travel times fail in the last pass for an event moved once, it is then not returned *)
Example two_iterations : summary (relocate ins mv (wd [[1; 2]; [1]]%N (λ _ _, false)) [(1, 1); (2, 2)]%N 2 cat1) =
  Some [(1%N, (2, 4, 6, 8)%Z); (2%N, (1, 2, 3, 4)%Z)].
Proof. vm_compute. reflexivity. Qed.
Example reverted : summary (relocate ins mv (wd [[1; 2]; [1]]%N (λ i k, bool_decide (i = 1 ∧ k = 2%N))) [(1, 1); (2, 2)]%N 2 cat1) =
  Some [(1%N, (2, 4, 6, 8)%Z)].
Proof. vm_compute. reflexivity. Qed.
Example reverted_last : summary (relocate ins mv (wd [[1; 2]; [1]]%N (λ i k, bool_decide (i = 2 ∧ k = 1%N))) [(1, 1); (2, 2)]%N 2 cat1) =
  Some [(1%N, (1, 2, 3, 4)%Z); (2%N, (1, 2, 3, 4)%Z)].
Proof. vm_compute. reflexivity. Qed.
Example two_clusters : summary (rbind (relocate_multi ins mv 1 cat1 [(wd [[1]]%N (λ _ _, false), [(1, 1)]%N); (wd [[2]]%N (λ _ _, false), [(2, 2)]%N)]) (λ c, Ok (c, tt))) =
  Some [(1%N, (1, 2, 3, 4)%Z); (2%N, (1, 2, 3, 4)%Z)].
Proof. vm_compute. reflexivity. Qed.
End Cases.

(** An input event already marked as relocated is returned although no system was ever solved, inside
    or outside the cluster. *)
Theorem C42_stale_mark_refuted : ∃ (w : world Z) c cl out log, integrity c ∧ cluster_ok c cl ∧
  relocate Cases.ins Cases.mv w cl 3 c = Ok (out, log) ∧ log = [] ∧ is_Some (c_ev out !! 2%N).
Proof.
  exists (Cases.wd [] (λ _ _, false)), Cases.cat2, [(2, 2)]%N.
  assert (integrity Cases.cat2) as I.
  { split; cbn.
    - intros k e. rewrite lookup_insert_Some, lookup_singleton_Some. naive_solver.
    - intros k s. by rewrite lookup_empty.
    - intros k p. unfold phs. cbn. rewrite lookup_empty. cbn. set_solver. }
  assert (cluster_ok Cases.cat2 [(2, 2)]%N) as Hc.
  { split; [apply NoDup_singleton|]. intros x ->%elem_of_list_singleton. split; [done|]. eexists; reflexivity. }
  do 2 eexists. split; [done|]. split; [done|]. split; [vm_compute; reflexivity|]. split; [done|]. eexists. reflexivity.
Qed.
(** The same mark makes the relocation of the event with its own cluster disappear from the result of
    a relocation of several clusters: the first cluster already returned the unmoved event. *)
Theorem C42_multi_stale_mark_refuted : ∃ (w : world Z) c cl1 cl2 out o log, integrity c ∧ cluster_ok c cl1 ∧ cluster_ok c cl2 ∧
  relocate Cases.ins Cases.mv w cl2 1 c = Ok (o, log) ∧ hypo_of <$> c_ev o !! 2%N = Some (1, 2, 3, 4)%Z ∧
  relocate_multi Cases.ins Cases.mv 1 c [(w, cl1); (w, cl2)] = Ok out ∧ hypo_of <$> c_ev out !! 2%N = Some (0, 0, 0, 0)%Z.
Proof.
  exists (Cases.wd [[1; 2]]%N (λ _ _, false)), Cases.cat2, [(1, 1)]%N, [(2, 2)]%N.
  assert (integrity Cases.cat2) as I.
  { split; cbn.
    - intros k e. rewrite lookup_insert_Some, lookup_singleton_Some. naive_solver.
    - intros k s. by rewrite lookup_empty.
    - intros k p. unfold phs. cbn. rewrite lookup_empty. cbn. set_solver. }
  do 3 eexists. split; [done|].
  split; [split; [apply NoDup_singleton|]; intros x ->%elem_of_list_singleton; (split; [done|]); eexists; reflexivity|].
  split; [split; [apply NoDup_singleton|]; intros x ->%elem_of_list_singleton; (split; [done|]); eexists; reflexivity|].
  split; [vm_compute; reflexivity|]. split; [reflexivity|]. split; [vm_compute; reflexivity|]. reflexivity.
Qed.

Print Assumptions C42_total.
Print Assumptions C42_output.
Print Assumptions C42_outside.
Print Assumptions C42_cluster.
Print Assumptions C42_single.
Print Assumptions C42_multi.
Print Assumptions C42_stale_mark_refuted.
Print Assumptions C42_multi_stale_mark_refuted.
Print Assumptions C41_start_end.
Print Assumptions C41_range.
Print Assumptions C41_monotone.
Print Assumptions C41_one_iteration.
Print Assumptions C41_one_iteration_refuted.
Print Assumptions C41_last_pass_refuted.
