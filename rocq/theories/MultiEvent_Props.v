(** The relocation of a catalog (C78). *)
From stdpp Require Import gmap list strings sorting sets.
From Verif Require Import Cluster_Model Cluster_Spec Cluster_Props SelectCatalog_Model XCorrCache_Model XCorrCache_Props.
From Verif Require Import Index_Model Csv_Model Catalog_Model Catalog_Props Solver_Model Reloc_Model Reloc_Props MultiEvent_Model.
From Verif Require Import Neighbours_Model.
From Verif Require SelectCatalog_Props XcorrBuild_Model.

(** ** Specification *)
(** A cache made by additions and removals, starting from none *)
Definition a_cache {C L} (m : cache C L) : Prop := ∃ os, m = xc_run os.
(** What is known of the construction of the cache of a cluster (C72): a measurement is for
    two events one of which has the other as neighbour in the cluster. *)
Record valid_build {P C L} (neg : L → L) (build : gmap N (nb P) → cache C L → res (cache C L)) : Prop := VB {
  vb_cache : ∀ cl m m', a_cache m → build cl m = Ok m' → a_cache m';
  vb_local : ∀ cl m m' a b s t, well_keyed cl → a_cache m → build cl m = Ok m' → a ≠ b → is_Some (xc_get neg m' a b s t) →
    (∃ p, lists cl a b p) ∨ (∃ p, lists cl b a p) }.

Section proofs.
Context {V P C L : Type}.
Notation hypo := (V * V * V * Z)%type.
Notation delta := (V * V * V * V)%type.
Notation cluster := (gmap N (nb P)).
Notation xcache := (gmap N (gmap string (gmap string (gmap N (entry C L))))).
Implicit Types (bg : catalog V) (cl : cluster) (cls : list cluster) (G : cluster).
Variable ins : list (phase V) → phase V → list (phase V).
Variable move : hypo → delta → hypo.
Variable sel : gset N → N → nb P.
Variables ord ordc : nat → gset N → list N.
Variable pick : nat → gset N → N.
Variable minNum : nat.
Variable order : cluster → list N.
Variable each : xcache → list (quint C L).
Variable build : cluster → xcache → res xcache.
Variable wd : cluster → xcache → world V.
Notation run := (relocate_catalog ins move sel ord ordc pick minNum order each build wd).
Notation given := (given V P C L).
Hypothesis Hins : any_place ins.
Hypothesis Hsel : SelectCatalog_Props.valid_sel sel.
Hypothesis Hord : SelectCatalog_Props.valid_order ord.
Hypothesis Hordc : Cluster_Props.valid_order ordc.
Hypothesis Hpick : valid_pick pick.
Hypothesis Horder : ∀ cl, order cl ≡ₚ elements (dom cl).

(** ** Proof *)
Lemma to_map_keyed (v : list (nb P)) k n : to_map v !! k = Some n → nb_ref n = k.
Proof using.
  unfold to_map. assert (∀ m : cluster, (∀ k n, m !! k = Some n → nb_ref n = k) → ∀ k n,
    fold_left (λ m n, match m !! nb_ref n with Some _ => m | None => <[nb_ref n := n]> m end) v m !! k = Some n → nb_ref n = k) as H.
  { clear k n. induction v as [|x v IH]; intros m Hm; [done|]. cbn [fold_left]. apply IH.
    destruct (m !! nb_ref x); [done|]. intros k n [[<- <-]|[_ H]]%lookup_insert_Some; [done|by apply Hm]. }
  apply H. intros k' n'. by rewrite lookup_empty.
Qed.
Lemma clusterize_keyed f (G : cluster) (cls : list cluster) (cl : cluster) k (n : nb P) : clusterize pick ordc f G = Done cls → cl ∈ cls → cl !! k = Some n → nb_ref n = k.
Proof using.
  unfold clusterize. destruct (rounds _ _ _ _ _) as [s| |]; try done. intros [= <-] (v & -> & _)%elem_of_list_fmap. apply to_map_keyed.
Qed.
Lemma members_ids (cl : cluster) : (∀ k n, cl !! k = Some n → nb_ref n = k) → members order cl = (λ k, (k, k)) <$> order cl.
Proof using Horder.
  intros Hk. unfold members. assert (∀ k, k ∈ order cl → is_Some (cl !! k)) as H.
  { intros k. rewrite Horder, elem_of_elements. apply elem_of_dom. }
  induction (order cl) as [|k l IH]; [done|]. destruct (H k) as [n Hn]; [left|]. cbn [omap list_omap]. rewrite Hn. cbn [fmap option_fmap option_map].
  rewrite (Hk _ _ Hn). cbn [fmap list_fmap]. f_equal. apply IH. intros y Hy. apply H. by right.
Qed.
Lemma members_in (cl : cluster) k : (∀ k (n : nb P), cl !! k = Some n → nb_ref n = k) → k ∈ (members order cl).*1 ↔ is_Some (cl !! k).
Proof using Horder.
  intros Hk. rewrite members_ids by done. rewrite <-list_fmap_compose. cbn. rewrite list_fmap_id, Horder, elem_of_elements. apply elem_of_dom.
Qed.
Lemma members_ok (c : catalog V) (cl : cluster) : (∀ k n, cl !! k = Some n → nb_ref n = k) → (∀ k, is_Some (cl !! k) → is_Some (c_ev c !! k)) → cluster_ok c (members order cl).
Proof using Horder.
  intros Hk Hc. split.
  - rewrite members_ids by done. rewrite <-list_fmap_compose. cbn. rewrite list_fmap_id, Horder. apply NoDup_elements.
  - intros x Hx. split; [|apply Hc; rewrite <-members_in by done; by apply elem_of_list_fmap_1].
    rewrite members_ids in Hx by done. by apply elem_of_list_fmap in Hx as (k & -> & _).
Qed.

Lemma merge_a_cache m l : a_cache m → a_cache (xc_merge m l : xcache).
Proof using.
  unfold xc_merge. revert m. induction l as [|[[[[a b] s] p] e] l IH]; intros m; [done|]. intros [os ->]. cbn [fold_left]. apply IH.
  exists (os ++ [XAdd a b s p e]). unfold xc_run. by rewrite fold_left_app.
Qed.

(** The state of the search for clusters *)
Lemma found bg : integrity bg → ∃ fuel G cls, ∀ f, fuel ≤ f →
  select_catalog sel ord minNum f (e_id <$> sorted_events (c_ev bg)) = Done G ∧ clusterize pick ordc f G = Done cls.
Proof using Hins Hsel Hord Hordc Hpick.
  intros I. pose proof (sorted_events_NoDup ins Hins _ I) as ND.
  destruct (SelectCatalog_Props.C31_select_catalog_terminates sel ord minNum _ Hsel Hord ND) as (f1 & G & H1).
  assert (well_keyed G) as Hw.
  { intros k n Hk. by apply (proj1 (SelectCatalog_Props.C31_select_catalog_closed sel ord minNum _ f1 G Hsel Hord ND (H1 f1 (le_n _))) k n Hk). }
  destruct (C32_clusterize_terminates pick ordc G Hpick Hordc Hw) as (f2 & cls & H2).
  exists (f1 `max` f2), G, cls. intros f Hf. split; [apply H1|apply H2]; lia.
Qed.

Record components (bg : catalog V) (G : cluster) (cls : list cluster) : Prop := Comp {
  cm_bg : ∀ k, is_Some (G !! k) → is_Some (c_ev bg !! k);
  cm_key : ∀ cl k n, cl ∈ cls → cl !! k = Some n → nb_ref n = k;
  cm_in : ∀ x, is_Some (G !! x) ↔ ∃ i, in_cluster cls i x;
  cm_one : ∀ x i j, in_cluster cls i x → in_cluster cls j x → i = j;
  cm_list : ∀ i cl a b p, cls !! i = Some cl → lists cl a b p → in_cluster cls i a ∧ in_cluster cls i b }.
Lemma found_components bg f G cls : integrity bg →
  select_catalog sel ord minNum f (e_id <$> sorted_events (c_ev bg)) = Done G → clusterize pick ordc f G = Done cls →
  components bg G cls.
Proof using Hins Hsel Hord Hordc Hpick.
  intros I E1 E2. pose proof (sorted_events_NoDup ins Hins _ I) as ND.
  destruct (SelectCatalog_Props.C31_select_catalog_closed sel ord minNum _ f G Hsel Hord ND E1) as [H1 _].
  assert (well_keyed G) as Hw by (intros k n Hk; by apply (H1 k n Hk)).
  destruct (C32_clusters_are_components pick ordc G f cls Hpick Hordc Hw E2) as (A & B & _ & D).
  destruct (C33_each_pair_once pick ordc G f cls Hpick Hordc Hw E2) as (K & _).
  split.
  - intros k [n Hk]. destruct (H1 k n Hk) as (Hin & _). rewrite sorted_events_ids in Hin by done. by apply elem_of_elements, elem_of_dom in Hin.
  - intros cl k n Hcl. by eapply clusterize_keyed.
  - done.
  - done.
  - intros i cl a b p Hi Hl. assert (lists G a b p) as HG by (apply K; by exists i, cl).
    destruct HG as (n & HGa & Hb). destruct (H1 a n HGa) as (_ & _ & _ & Hc & _). destruct (Hc b) as [_ Gb]; [eauto|].
    assert (in_cluster cls i a) as Ia by (exists cl; split; [done|]; destruct Hl as (? & -> & _); eauto). split; [done|].
    destruct (D a b) as [_ D']; [eauto|done|]. destruct D' as (j & Ja & Jb).
    { apply rtc_once. split; [eauto|]. split; [done|]. left. exists p. by exists n. }
    by rewrite (B a i j Ia Ja).
Qed.

(** The loop over the clusters *)
Lemma clusters_total n bg cls : integrity bg → (∀ cl, cl ∈ cls → cluster_ok bg (members order cl)) →
  ∀ acc xd gs, integrity acc →
  ((∀ cl m, build cl m ≠ Bad) → rloop (one_cluster ins move order each build wd n bg) cls (acc, xd, gs) ≠ Bad) ∧
  ((∀ cl m, ∃ m', build cl m = Ok m') → (∀ cl m i c, w_prepare (wd cl m) i c = true) →
   ∃ r, rloop (one_cluster ins move order each build wd n bg) cls (acc, xd, gs) = Ok r).
Proof using Hins.
  intros I. induction cls as [|cl cls IH]; intros Hok acc xd gs Ia; cbn [rloop]; [split; [done|eauto]|].
  assert (∀ cl, cl ∈ cls → cluster_ok bg (members order cl)) as Hok' by (intros ? ?; apply Hok; by right).
  assert (cluster_ok bg (members order cl)) as Hc by (apply Hok; left).
  unfold one_cluster at 1 3. destruct (build cl xd) as [xc| |] eqn:Eb; cbn [rbind].
  - destruct (C42_total ins Hins move (wd cl xc) (members order cl) n bg I Hc) as [T1 T2].
    destruct (relocate ins move (wd cl xc) (members order cl) n bg) as [[out log]| |] eqn:Er; cbn [rbind].
    + destruct (C42_output ins Hins move _ _ _ _ _ _ I Hc Er) as (Io & _).
      destruct (C16_merge_keeping_ids ins Hins acc out Ia Io) as (acc' & Em & _). rewrite Em. cbn [rbind].
      apply IH; [done|]. eapply (integrity_add_events ins Hins out true (sorted_events (c_ev out)) acc acc'); [done|done|]. left. exists tt. apply Em.
    + split; [done|]. intros _ Hp. destruct (T2 (Hp cl xc)) as (? & ? & ?). done.
    + done.
  - split; [done|]. intros H. destruct (H cl xd) as [? ?]. congruence.
  - split; [|intros H; destruct (H cl xd) as [? ?]; congruence]. intros H. by destruct (H cl xd).
Qed.

Record told (n : nat) (bg : catalog V) (g : given) : Prop := Told {
  to_cache : a_cache (g_xc g);
  to_run : relocate ins move (wd (g_cl g) (g_xc g)) (members order (g_cl g)) n bg = Ok (g_out g, g_log g) }.
Lemma clusters_multi n bg cls : (∀ cl m m', a_cache m → build cl m = Ok m' → a_cache m') →
  ∀ acc xd gs out xf gs', a_cache xd →
  rloop (one_cluster ins move order each build wd n bg) cls (acc, xd, gs) = Ok (out, xf, gs') →
  ∃ new, gs' = gs ++ new ∧ g_cl <$> new = cls ∧ Forall (told n bg) new ∧
    rloop (λ acc x, rbind (relocate ins move x.1 x.2 n bg) (λ '(out, _),
      match add_cat ins acc out true with CRet acc' _ => Ok acc' | CExc _ => Exc | CUB => Bad end))
      ((λ g, (wd (g_cl g) (g_xc g), members order (g_cl g))) <$> new) acc = Ok out.
Proof using.
  intros Hb. induction cls as [|cl cls IH]; intros acc xd gs out xf gs' Hx; cbn [rloop].
  { intros [= <- <- <-]. exists []. by rewrite app_nil_r. }
  destruct (one_cluster ins move order each build wd n bg (acc, xd, gs) cl) as [[[acc1 xd1] gs1]| |] eqn:E1; cbn [rbind]; [|done|done].
  intros E. unfold one_cluster in E1. destruct (build cl xd) as [xc| |] eqn:Eb; cbn [rbind] in E1; [|done|done].
  destruct (relocate ins move (wd cl xc) (members order cl) n bg) as [[o log]| |] eqn:Er; cbn [rbind] in E1; [|done|done].
  destruct (add_cat ins acc o true) as [acc' u| |] eqn:Ea; [|done|done]. injection E1 as <- <- <-.
  apply IH in E as (new & -> & <- & Hf & Hr); [|by apply merge_a_cache].
  exists (Given cl xc o log :: new). split; [by rewrite <-app_assoc|]. split; [done|]. split.
  - constructor; [|done]. split; [by eapply Hb|done].
  - rewrite fmap_cons. cbn [rloop fst snd g_cl g_xc]. rewrite Er. cbn [rbind]. rewrite Ea. cbn [rbind]. done.
Qed.

(** C78: the relocation of a catalog ends, whatever is in it, and the same way whatever room it is given. *)
Theorem C78_total n bg xd : integrity bg →
  ∃ fuel r, (∀ f, fuel ≤ f → run f n bg xd = Done r) ∧
    ((∀ cl m, build cl m ≠ Bad) → r ≠ Bad) ∧
    ((∀ cl m, ∃ m', build cl m = Ok m') → (∀ cl m i c, w_prepare (wd cl m) i c = true) → ∃ x, r = Ok x).
Proof using Hins Hsel Hord Hordc Hpick Horder.
  intros I. destruct (found bg I) as (fuel & G & cls & H).
  exists fuel, (relocate_clusters ins move order each build wd n bg xd cls). split.
  - intros f Hf. unfold relocate_catalog, find_clusters. destruct (H f Hf) as [-> ->]. done.
  - destruct (H fuel (le_n _)) as [E1 E2]. pose proof (found_components _ _ _ _ I E1 E2) as Hc.
    apply clusters_total; [done| |apply integrity_empty]. intros cl Hcl. apply members_ok.
    + intros k m. by eapply cm_key.
    + intros k Hk. apply (cm_bg _ _ _ Hc), (cm_in _ _ _ Hc). apply elem_of_list_lookup in Hcl as [i Hi]. exists i, cl. done.
Qed.

Lemma run_parts f n bg xd out xf gs : integrity bg → (∀ cl m m', a_cache m → build cl m = Ok m' → a_cache m') → a_cache xd →
  run f n bg xd = Done (Ok (out, xf, gs)) →
  ∃ G, select_catalog sel ord minNum f (e_id <$> sorted_events (c_ev bg)) = Done G ∧ clusterize pick ordc f G = Done (g_cl <$> gs) ∧
    components bg G (g_cl <$> gs) ∧ Forall (told n bg) gs ∧
    (∀ g, g ∈ gs → cluster_ok bg (members order (g_cl g))) ∧
    relocate_multi ins move n bg ((λ g, (wd (g_cl g) (g_xc g), members order (g_cl g))) <$> gs) = Ok out ∧
    relocate_clusters ins move order each build wd n bg xd (g_cl <$> gs) = Ok (out, xf, gs).
Proof using Hins Hsel Hord Hordc Hpick Horder.
  intros I Hb Hx. unfold relocate_catalog, find_clusters.
  destruct (select_catalog _ _ _ _ _) as [G| |] eqn:E1; [|done|done].
  destruct (clusterize _ _ _ _) as [cls| |] eqn:E2; [|done|done]. cbn [rbind]. intros [= E].
  pose proof E as E0. destruct (clusters_multi n bg cls Hb _ _ _ _ _ _ Hx E) as (new & -> & <- & Hf & Hm). cbn [app] in *.
  pose proof (found_components _ _ _ _ I E1 E2) as Hc.
  exists G. split_and!; try done. intros g Hg. apply members_ok.
  - intros k m. eapply cm_key; [done|]. by apply elem_of_list_fmap_1.
  - intros k Hk. apply (cm_bg _ _ _ Hc), (cm_in _ _ _ Hc). apply (elem_of_list_fmap_1 g_cl) in Hg. apply elem_of_list_lookup in Hg as [i Hi]. by exists i, (g_cl g).
Qed.

(** C78: the clusters are those of the events kept by the selection; the catalog returned holds
    for each of their events what its own cluster gave, and nothing else. *)
Theorem C78_clusters f n bg xd out xf gs : integrity bg → (∀ cl m m', a_cache m → build cl m = Ok m' → a_cache m') → a_cache xd →
  run f n bg xd = Done (Ok (out, xf, gs)) →
  ∃ G : cluster,
    (∀ k nbk, G !! k = Some nbk → is_Some (c_ev bg !! k) ∧ minNum ≤ size (nb_phs nbk) ∧
       ∀ k', is_Some (nb_phs nbk !! k') → k' ≠ k ∧ is_Some (G !! k')) ∧
    (∀ k, is_Some (c_ev bg !! k) → G !! k = None → ∃ W : gset N, dom G ⊆ W ∧ W ⊆ dom (c_ev bg) ∧ k ∈ W ∧ size (nb_phs (sel W k)) < minNum) ∧
    (∀ k, is_Some (G !! k) ↔ ∃ i, in_cluster (g_cl <$> gs) i k) ∧
    (∀ k i j, in_cluster (g_cl <$> gs) i k → in_cluster (g_cl <$> gs) j k → i = j) ∧
    (∀ a b, is_Some (G !! a) → is_Some (G !! b) →
       ((∃ i, in_cluster (g_cl <$> gs) i a ∧ in_cluster (g_cl <$> gs) i b) ↔ connected G a b)) ∧
    (∀ a b p, kept (g_cl <$> gs) a b p → lists G a b p) ∧
    (∀ a b p, lists G a b p → kept (g_cl <$> gs) a b p ∨ ∃ q, kept (g_cl <$> gs) b a q) ∧
    (∀ a b p q, a ≠ b → kept (g_cl <$> gs) a b p → kept (g_cl <$> gs) b a q → False).
Proof using Hins Hsel Hord Hordc Hpick Horder.
  intros I Hb Hx E. destruct (run_parts _ _ _ _ _ _ _ I Hb Hx E) as (G & E1 & E2 & Hc & _).
  pose proof (sorted_events_NoDup ins Hins _ I) as ND.
  assert (∀ k, k ∈ e_id <$> sorted_events (c_ev bg) ↔ is_Some (c_ev bg !! k)) as Hids.
  { intros k. rewrite sorted_events_ids by done. rewrite elem_of_elements. apply elem_of_dom. }
  destruct (SelectCatalog_Props.C31_select_catalog_closed sel ord minNum _ f G Hsel Hord ND E1) as [H1 H2].
  assert (well_keyed G) as Hw by (intros k m Hk; by apply (H1 k m Hk)).
  destruct (C32_clusters_are_components pick ordc G f _ Hpick Hordc Hw E2) as (A & B & _ & D).
  destruct (C33_each_pair_once pick ordc G f _ Hpick Hordc Hw E2) as (K1 & K2 & K3).
  exists G. split_and!; try done.
  - intros k m Hk. destruct (H1 k m Hk) as (Q1 & _ & Q2 & Q3 & _). split; [by apply Hids|]. done.
  - intros k Hk Hn. destruct (H2 k) as (W & W1 & W2 & W3 & W4); [by apply Hids|done|]. exists W. split_and!; try done.
    intros x Hw'. apply W2, elem_of_list_to_set, Hids in Hw'. by apply elem_of_dom.
  - intros a b p Hl. destruct (K2 a b p Hl) as [|(_ & ?)]; [by left|by right].
Qed.

Theorem C78_result f n bg xd out xf gs : integrity bg → (∀ k e, c_ev bg !! k = Some e → e_reloc e = None) →
  (∀ cl m m', a_cache m → build cl m = Ok m' → a_cache m') → a_cache xd →
  run f n bg xd = Done (Ok (out, xf, gs)) →
  integrity out ∧
  (∀ k, is_Some (c_ev out !! k) → ∃ i, in_cluster (g_cl <$> gs) i k) ∧
  ∀ g k, g ∈ gs → is_Some (g_cl g !! k) →
    let w := wd (g_cl g) (g_xc g) in
    length (g_log g) ≤ n ∧
    (∀ i cat so, g_log g !! i = Some (cat, so) → w_solve w i cat = Some so ∧
       ∀ k', g_cl g !! k' = None → c_ev cat !! k' = c_ev bg !! k' ∧ phs cat k' = phs bg k') ∧
    ∃ e0 ds, c_ev bg !! k = Some e0 ∧ ds `sublist_of` changes k (g_log g) ∧
      ((∀ i cat, w_ttt w i cat k = true) → ds = changes k (g_log g)) ∧
      (is_Some (c_ev out !! k) ↔ ds ≠ []) ∧
      ∀ e, c_ev out !! k = Some e →
        e_id e = k ∧ e_mag e = e_mag e0 ∧ is_Some (e_reloc e) ∧ hypo_of e = fold_left move ds (hypo_of e0) ∧
        bare <$> phs out k ≡ₚ bare <$> phs bg k.
Proof using Hins Hsel Hord Hordc Hpick Horder.
  intros I Hm Hb Hx E. destruct (run_parts _ _ _ _ _ _ _ I Hb Hx E) as (G & E1 & E2 & Hc & Hf & Hok & Hr & _).
  assert (∀ g k, g ∈ gs → k ∈ (members order (g_cl g)).*1 ↔ is_Some (g_cl g !! k)) as Hmem.
  { intros g k Hg. apply members_in. intros k' m. eapply cm_key; [done|]. by apply elem_of_list_fmap_1. }
  edestruct (λ A B, C42_multi ins Hins move n bg _ out I Hm A B Hr) as (Io & M1 & M2).
  - intros x (g & -> & Hg)%elem_of_list_fmap. by apply Hok.
  - intros i j x y k (g & Hg & ->)%list_lookup_fmap_Some (h & Hh & ->)%list_lookup_fmap_Some. cbn [snd].
    rewrite !Hmem by by eapply elem_of_list_lookup_2. intros Hk1 Hk2. eapply (cm_one _ _ _ Hc k).
    + exists (g_cl g). split; [|done]. by rewrite list_lookup_fmap, Hg.
    + exists (g_cl h). split; [|done]. by rewrite list_lookup_fmap, Hh.
  - split; [done|]. split.
    + intros k Hk. destruct (M2 k Hk) as (x & (g & -> & Hg)%elem_of_list_fmap & Hkx). cbn [snd] in Hkx. apply Hmem in Hkx; [|done].
      apply elem_of_list_lookup in Hg as [i Hi]. exists i, (g_cl g). split; [|done]. by rewrite list_lookup_fmap, Hi.
    + intros g k Hg Hk w. pose proof (Hok g Hg) as Hcl. apply Hmem in Hk; [|done].
      destruct (M1 (wd (g_cl g) (g_xc g), members order (g_cl g))) as (o & log & Er & Ho).
      { by apply (elem_of_list_fmap_1 (λ g : given, (wd (g_cl g) (g_xc g), members order (g_cl g)))). }
      cbn [fst snd] in Er, Ho. rewrite Forall_forall in Hf. pose proof (to_run _ _ _ (Hf g Hg)) as Eg. rewrite Er in Eg. injection Eg as -> ->.
      destruct (C42_cluster ins Hins move _ _ _ _ _ _ k I Hcl Er Hk) as (L1 & L2 & e0 & ds & Q1 & Q2 & Q3 & Q4 & Q5).
      destruct (C42_output ins Hins move _ _ _ _ _ _ I Hcl Er) as (_ & _ & O3). destruct (Ho k Hk) as [Hev Hph].
      split; [done|]. split.
      { intros i cat so Hi. split; [by apply L2|]. intros k' Hk'.
        destruct (C42_outside ins Hins move _ _ _ _ _ _ k' I Hcl Er) as (U & _); [|by eapply U].
        rewrite Hmem by done. rewrite Hk'. by intros []. }
      exists e0, ds. split_and!; try done.
      * rewrite Hev. apply Q5. left. by eapply Hm.
      * intros e He. rewrite Hev in He. destruct (O3 k e He) as (R1 & (e1 & R2 & R3 & R4) & R5). rewrite Q1 in R2. injection R2 as <-.
        split_and!; try done; [rewrite R3; by apply (in_ev _ I)|by apply Q4|]. by rewrite Hph.
Qed.

(** C78: what becomes of the measurements. *)
Variable neg : L → L.
Hypothesis Heach : ∀ m, each m ≡ₚ xc_entries m.

Lemma clusters_xcorr n bg cls : valid_build neg build → (∀ cl, cl ∈ cls → well_keyed cl) →
  ∀ acc xd gs out xf gs', a_cache xd →
  rloop (one_cluster ins move order each build wd n bg) cls (acc, xd, gs) = Ok (out, xf, gs') →
  ∃ new, gs' = gs ++ new ∧ g_cl <$> new = cls ∧ ∀ a b s t, a ≠ b →
    (∀ i g, new !! i = Some g → (∀ j cl p, cls !! j = Some cl → lists cl a b p ∨ lists cl b a p → j = i) →
       (∃ m, a_cache m ∧ build (g_cl g) m = Ok (g_xc g) ∧ xc_get neg m a b s t = xc_get neg xd a b s t) ∧
       xc_get neg xf a b s t = match xc_get neg (g_xc g) a b s t with Some e => Some e | None => xc_get neg xd a b s t end) ∧
    ((∀ j cl p, cls !! j = Some cl → lists cl a b p ∨ lists cl b a p → False) → xc_get neg xf a b s t = xc_get neg xd a b s t).
Proof using Heach.
  intros Hb. induction cls as [|cl cls IH]; intros Hw acc xd gs out xf gs' Hx; cbn [rloop].
  { intros [= <- <- <-]. exists []. rewrite app_nil_r. split_and!; try done. }
  destruct (one_cluster ins move order each build wd n bg (acc, xd, gs) cl) as [[[acc1 xd1] gs1]| |] eqn:E1; cbn [rbind]; [|done|done].
  intros E. unfold one_cluster in E1. destruct (build cl xd) as [xc| |] eqn:Eb; cbn [rbind] in E1; [|done|done].
  destruct (relocate ins move (wd cl xc) (members order cl) n bg) as [[o log]| |] eqn:Er; cbn [rbind] in E1; [|done|done].
  destruct (add_cat ins acc o true) as [acc' u| |] eqn:Ea; [|done|done]. injection E1 as <- <- <-.
  pose proof (vb_cache _ _ Hb _ _ _ Hx Eb) as Hxc.
  apply IH in E as (new & -> & <- & Hn); [|intros ? ?; apply Hw; by right|by apply merge_a_cache].
  exists (Given cl xc o log :: new). split; [by rewrite <-app_assoc|]. split; [done|].
  intros a b s t Hab. destruct (Hn a b s t Hab) as [N1 N2].
  assert (xc_get neg (xc_merge xd (each xc)) a b s t = match xc_get neg xc a b s t with Some e => Some e | None => xc_get neg xd a b s t end) as Em.
  { destruct Hx as [os1 ->]. destruct Hxc as [os2 ->]. by apply C05_xcorrcache_merge. }
  assert ((∀ p, lists cl a b p ∨ lists cl b a p → False) → xc_get neg xc a b s t = None) as Hno.
  { intros H. destruct (xc_get neg xc a b s t) eqn:Eg; [|done]. exfalso.
    destruct (vb_local _ _ Hb cl xd xc a b s t (Hw cl (elem_of_list_here _ _)) Hx Eb Hab) as [[p ?]|[p ?]]; [by rewrite Eg|eauto..]. }
  split.
  - intros [|i] g Hg Hone; cbn [lookup list_lookup] in Hg.
    + injection Hg as <-. cbn [g_cl g_xc]. split; [by exists xd|]. rewrite N2; [done|].
      intros j cl' p Hj Hl. by pose proof (Hone (S j) cl' p Hj Hl).
    + assert (xc_get neg xc a b s t = None) as Hz. { apply Hno. intros p Hl. by pose proof (Hone 0 cl p eq_refl Hl). }
      rewrite Hz in Em. destruct (N1 i g Hg) as [M1 M2].
      { intros j cl' p Hj Hl. by pose proof (Hone (S j) cl' p Hj Hl) as [=]. }
      rewrite Em in M1, M2. done.
  - intros H. rewrite N2; [rewrite Em, Hno; [done|]|].
    + intros p. by apply (H 0 cl p).
    + intros j cl' p. by apply (H (S j)).
Qed.

Theorem C78_xcorr f n bg xd out xf gs a b s t : integrity bg → valid_build neg build → a_cache xd →
  run f n bg xd = Done (Ok (out, xf, gs)) → a ≠ b →
  (∀ g, g ∈ gs → is_Some (g_cl g !! a) → is_Some (g_cl g !! b) →
     (∃ m, a_cache m ∧ build (g_cl g) m = Ok (g_xc g) ∧ xc_get neg m a b s t = xc_get neg xd a b s t) ∧
     xc_get neg xf a b s t = match xc_get neg (g_xc g) a b s t with Some e => Some e | None => xc_get neg xd a b s t end) ∧
  ((∀ g, g ∈ gs → ¬ (is_Some (g_cl g !! a) ∧ is_Some (g_cl g !! b))) → xc_get neg xf a b s t = xc_get neg xd a b s t).
Proof using Hins Hsel Hord Hordc Hpick Horder Heach.
  intros I Hb Hx E Hab. destruct (run_parts _ _ _ _ _ _ _ I (vb_cache _ _ Hb) Hx E) as (G & E1 & E2 & Hc & Hf & Hok & Hr & El).
  destruct (clusters_xcorr n bg (g_cl <$> gs) Hb (λ cl Hcl k m, cm_key _ _ _ Hc cl k m Hcl) _ _ _ _ _ _ Hx El) as (new & E3 & E4 & H). cbn [app] in E3. subst new. clear E4.
  assert (∀ j cl p, (g_cl <$> gs) !! j = Some cl → lists cl a b p ∨ lists cl b a p →
    in_cluster (g_cl <$> gs) j a ∧ in_cluster (g_cl <$> gs) j b) as Hl.
  { intros j cl p Hj [Hl|Hl]; destruct (cm_list _ _ _ Hc j cl _ _ p Hj Hl); done. }
  destruct (H a b s t Hab) as [H1 H2]. split.
  - intros g [i Hi]%elem_of_list_lookup Ha Hb'. apply (H1 i g Hi). intros j cl p Hj Hl'.
    destruct (Hl j cl p Hj Hl') as [Hja _]. eapply (cm_one _ _ _ Hc a); [done|]. exists (g_cl g). split; [|done]. by rewrite list_lookup_fmap, Hi.
  - intros Hno. apply H2. intros j cl p Hj Hl'. destruct (Hl j cl p Hj Hl') as [(c1 & F1 & Ga) (c2 & F2 & Gb)].
    rewrite F1 in F2. injection F2 as <-. apply list_lookup_fmap_Some in F1 as (g & Hg & ->).
    apply (Hno g); [by eapply elem_of_list_lookup_2|done].
Qed.
End proofs.

(** ** The construction of the cache meets what was supposed of it *)
Section instance.
Import XcorrBuild_Model.
Context {V : Type}.
Notation tcount := (@list_countable Ascii.ascii _ stdpp.strings.ascii_countable).
Notation cluster := (gmap N (nb (@gmap text _ tcount (@gset text _ tcount)))).
Variable order : cluster → list N.
Variable opt : xcorr_opt.
Variable sta_dist : event V → station V → Reals.Rdefinitions.R.
Variable ev_dist : event V → event V → Reals.Rdefinitions.R.
Variable ids : neigh → list N.
Variable measure : event V → phase V → event V → phase V → res outcome.
Variable bg : catalog V.
Hypothesis Hint : integrity bg.

Definition sound (ns : list neigh) (m : cache dbl dbl) : Prop :=
  a_cache m ∧ ∀ a b s t, a ≠ b → is_Some (xc_get dneg m a b s t) →
    ∃ n, n ∈ ns ∧ (n_ref n = a ∧ is_Some (n_map n !! b) ∨ n_ref n = b ∧ is_Some (n_map n !! a)).
Lemma sound_add ns m n k s t e : sound ns m → n ∈ ns → is_Some (n_map n !! k) → sound ns (xc_add m (n_ref n) k s t e).
Proof using.
  intros [[os ->] H] Hn Hk. split.
  - exists (os ++ [XAdd (n_ref n) k s t e]). unfold xc_run. by rewrite fold_left_app.
  - intros a b s' t' Hab. rewrite get_add by done. case_decide as D1; [destruct D1 as (_ & _ & <- & <-); intros _; exists n; auto|].
    case_decide as D2; [destruct D2 as (_ & _ & <- & <-); intros _; exists n; auto|]. by apply H.
Qed.
Lemma rloop_keeps {A B} (Inv : A → Prop) (f : A → B → res A) l : (∀ a x a', x ∈ l → Inv a → f a x = Ok a' → Inv a') →
  ∀ a a', Inv a → rloop f l a = Ok a' → Inv a'.
Proof using.
  induction l as [|x l IH]; intros Hf a a' Ha; cbn [rloop]; [by intros [= <-]|].
  destruct (f a x) as [a1| |] eqn:E; cbn [rbind]; [|done|done]. apply IH; [intros ? ? ? ?; apply Hf; by right|]. eapply Hf; [left|done|done].
Qed.
Lemma sound_build pre ns st : build_cache opt bg sta_dist ev_dist ids measure pre ns = Ok st → sound ns st.1.
Proof using Hint.
  assert (sound ns ∅) as H0.
  { split; [by exists []|]. intros a b s t _ [e He]. unfold xc_get, at4 in He. by rewrite !lookup_empty in He. }
  unfold build_cache. destruct (xo_enable opt); [|by intros [= <-]].
  apply (rloop_keeps (λ st, sound ns st.1)); [|done]. clear H0 st. intros st n st' Hn H0.
  destruct (c_ev bg !! n_ref n) as [ref|] eqn:Er; cbn [at_ rbind]; [|done]. pose proof (in_ev _ Hint _ _ Er) as Hr.
  unfold build_pairs. revert H0. apply (rloop_keeps (λ st, sound ns st.1)). clear st st'. intros st rp st' _ H0.
  unfold phase_step. destruct (c_sta bg !! p_staid rp) as [sta|]; cbn [at_ rbind]; [|done].
  destruct (sta_in_range _ _ _ _); [|by intros [= <-]]. revert H0. apply (rloop_keeps (λ st, sound ns st.1)). clear st st'. intros st k st' _ H0.
  unfold pair_step. destruct (c_ev bg !! k) as [ev|] eqn:Ek; cbn [at_ rbind]; [|done]. pose proof (in_ev _ Hint _ _ Ek) as Hk.
  destruct (ev_in_range _ _ _ _); [|by intros [= <-]].
  destruct (n_has_ph n k (p_staid rp) (p_type rp)) eqn:Eh; [|by intros [= <-]].
  assert (is_Some (n_map n !! k)) as Hm by (unfold n_has_ph in Eh; destruct (n_map n !! k); [eauto|done]).
  destruct (find_phase _ _ _ _) as [p| |]; cbn [rbind]; [|done|done].
  destruct (proc p) as [i| |]; cbn [rbind]; [|done|done]. case_decide; [|done].
  destruct (xc_has _ _ _ _ _ _); [by intros [= <-]|]. rewrite Hr, Hk.
  destruct (xc_get dneg pre _ _ _ _) as [e|].
  - intros [= <-]. by apply sound_add.
  - destruct (measure ref rp ev p) as [o| |]; cbn [rbind]; [|done|done]. intros [= <-]. by apply sound_add.
Qed.
Theorem C78_build : valid_build dneg (xcorr_build order opt sta_dist ev_dist ids measure bg).
Proof using Hint.
  split.
  - intros cl m m' _. unfold xcorr_build. destruct (build_cache _ _ _ _ _ _ _ _) as [st| |] eqn:E; cbn [rbind]; [|done|done]. intros [= <-].
    by apply (sound_build _ _ _ E).
  - intros cl m m' a b s t Hw _. unfold xcorr_build. destruct (build_cache _ _ _ _ _ _ _ _) as [st| |] eqn:E; cbn [rbind]; [|done|done]. intros [= <-] Hab Hg.
    destruct (sound_build _ _ _ E) as [_ H]. destruct (H a b s t Hab Hg) as (n & Hn & Hd).
    apply elem_of_list_omap in Hn as (k & _ & Hk). destruct (cl !! k) as [x|] eqn:Ex; [|done]. cbn in Hk. injection Hk as <-. cbn [n_ref n_map] in Hd.
    rewrite (Hw _ _ Ex) in Hd. destruct Hd as [[<- [p Hp]]|[<- [p Hp]]]; [left|right]; exists p, x; done.
Qed.
End instance.

(** ** A case: 1 and 2 are neighbours, 4 and 5 are neighbours, 3 has none *)
Module MultiCases.
Import Reloc_Props.Cases.
Definition near (e : N) : gset N := match e with 1 => {[2]} | 2 => {[1]} | 4 => {[5]} | 5 => {[4]} | _ => ∅ end%N.
Definition sel (W : gset N) (e : N) : nb unit := Nb e (gset_to_gmap tt ((W ∩ near e) ∖ {[e]})).
Definition ord (t : nat) (X : gset N) : list N := elements X.
Definition pick (t : nat) (X : gset N) : N := default 0%N (head (elements X)).
Definition order (cl : gmap N (nb unit)) : list N := elements (dom cl).
Definition cat : catalog Z := Cat ∅ {[ 1 := ev 1 None; 2 := ev 2 None; 3 := ev 3 None; 4 := ev 4 None; 5 := ev 5 None ]}%N ∅.
Definition pairs_of (cl : gmap N (nb unit)) : list (N * N) :=
  k ← order cl; match cl !! k with Some n => (λ b, (k, b)) <$> elements (nb_ids n) | None => [] end.
(** One measurement for each pair, unless there is one already *)
Definition build (cl : gmap N (nb unit)) (pre : cache Z Z) : res (cache Z Z) :=
  Ok (fold_left (λ m '(a, b), match xc_get Z.opp pre a b "S" "P" with
                              | Some e => xc_add m a b "S" "P" e
                              | None => xc_add m a b "S" "P" (Entry true (Z.of_N a) (Z.of_N b))
                              end)
        (pairs_of cl) ∅).
Definition world_of (cl : gmap N (nb unit)) (m : cache Z Z) : world Z := wd [[1; 4; 5]; [1]]%N (λ _ _, false).
Definition xd : cache Z Z := xc_run [XAdd 5 4 "S" "P" (Entry true 9%Z 9%Z); XAdd 1 4 "S" "P" (Entry true 7%Z 7%Z)]%N.
Definition result := relocate_catalog ins mv sel ord ord pick 1 order xc_entries build world_of 20 2 cat xd.
Example relocated :
  match result with
  | Done (Ok (c, m, gs)) =>
      Some (merge_sort N.le ∘ elements ∘ dom ∘ g_cl <$> gs,
            (λ e, (e_id e, hypo_of e)) <$> sorted_events (c_ev c),
            (λ '(a, b), xc_get Z.opp m a b "S" "P") <$> [(1, 2); (4, 5); (1, 4); (2, 3)]%N)
  | _ => None
  end = Some ([[1; 2]; [4; 5]]%N,
              [(1%N, (2, 4, 6, 8)%Z); (4%N, (1, 2, 3, 4)%Z); (5%N, (1, 2, 3, 4)%Z)],
              [Some (Entry true 1 2)%Z; Some (Entry true 9 (-9))%Z; Some (Entry true 7 7)%Z; None]).
Proof. vm_compute. reflexivity. Qed.
Lemma hypotheses : any_place ins ∧ SelectCatalog_Props.valid_sel sel ∧ SelectCatalog_Props.valid_order ord ∧
  Cluster_Props.valid_order ord ∧ valid_pick pick ∧ (∀ cl, order cl ≡ₚ elements (dom cl)) ∧ integrity cat ∧
  (∀ k e, c_ev cat !! k = Some e → e_reloc e = None) ∧ a_cache xd ∧ valid_build Z.opp build.
Proof.
  split_and!.
  - by intros l p.
  - intros W e. split; [done|]. unfold sel, nb_ids. cbn [nb_phs]. rewrite dom_gset_to_gmap. set_solver.
  - by intros t X.
  - by intros t X.
  - intros t X Hx. unfold pick. destruct (elements X) as [|x l] eqn:E; [by apply elements_empty_inv, leibniz_equiv in E|]. cbn.
    apply elem_of_elements. rewrite E. left.
  - done.
  - split; cbn [cat c_ev c_sta].
    + intros k e. rewrite !lookup_insert_Some, lookup_singleton_Some. naive_solver.
    + intros k s. by rewrite lookup_empty.
    + intros k p. unfold phs. cbn. rewrite lookup_empty. cbn. set_solver.
  - intros k e. cbn [cat c_ev]. rewrite !lookup_insert_Some, lookup_singleton_Some. naive_solver.
  - by eexists.
  - assert (∀ (l : list (N * N)) pre (m : cache Z Z) (Q : N → N → Prop), a_cache m → (∀ a b s t, a ≠ b → is_Some (xc_get Z.opp m a b s t) → Q a b ∨ Q b a) →
      (∀ a b, (a, b) ∈ l → Q a b) →
      let r := fold_left (λ m '(a, b), match xc_get Z.opp pre a b "S" "P" with
                              | Some e => xc_add m a b "S" "P" e
                              | None => xc_add m a b "S" "P" (Entry true (Z.of_N a) (Z.of_N b))
                              end) l m in a_cache r ∧ (∀ a b s t, a ≠ b → is_Some (xc_get Z.opp r a b s t) → Q a b ∨ Q b a)) as H.
    { induction l as [|[x y] l IH]; intros pre m Q Hm Hq Hl; cbn zeta; cbn [fold_left]; [done|]. 
      assert (∀ e : entry Z Z, a_cache (xc_add m x y "S" "P" e) ∧ ∀ a b s t, a ≠ b → is_Some (xc_get Z.opp (xc_add m x y "S" "P" e) a b s t) → Q a b ∨ Q b a) as Ha.
      { intros e. split.
        - destruct Hm as [os ->]. exists (os ++ [XAdd x y "S" "P" e]). unfold xc_run. by rewrite fold_left_app.
        - intros a b s t Hab. rewrite get_add by done. assert (Q x y) by (apply Hl; left).
          case_decide as D1; [destruct D1 as (_ & _ & <- & <-); auto|]. case_decide as D2; [destruct D2 as (_ & _ & <- & <-); auto|]. by apply Hq. }
      destruct (xc_get Z.opp pre x y "S" "P") as [e|]; (apply IH; [apply Ha..|]); intros a b Hab; apply Hl; by right. }
    assert (a_cache (∅ : cache Z Z)) as H0 by by exists [].
    assert (∀ Q : N → N → Prop, ∀ a b s t, a ≠ b → is_Some (xc_get Z.opp (∅ : cache Z Z) a b s t) → Q a b ∨ Q b a) as H1.
    { intros Q a b s t _ [e He]. unfold xc_get, at4 in He. by rewrite !lookup_empty in He. }
    assert (∀ cl a b, (a, b) ∈ (pairs_of cl) → ∃ p, lists cl a b p) as H2.
    { intros cl a b (k & Hin & Hk)%elem_of_list_bind. destruct (cl !! k) as [n|] eqn:En; [|by apply elem_of_nil in Hin].
      apply elem_of_list_fmap in Hin as (y & [= <- <-] & Hy). unfold nb_ids in Hy. apply elem_of_elements, elem_of_dom in Hy as [p Hp]. by exists p, n. }
    split.
    + intros cl m m' _ [= <-]. by apply (H _ m ∅ (λ a b, ∃ p, lists cl a b p) H0 (H1 _) (H2 cl)).
    + intros cl m m' a b s t _ _ [= <-]. by apply (H _ m ∅ (λ a b, ∃ p, lists cl a b p) H0 (H1 _) (H2 cl)).
Qed.
End MultiCases.

Print Assumptions C78_total.
Print Assumptions C78_clusters.
Print Assumptions C78_result.
Print Assumptions C78_xcorr.
Print Assumptions C78_build.
