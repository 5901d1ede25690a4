(** Theorems about the commands on catalogs: C83. *)
From Coq Require Import Ascii Lia.
From stdpp Require Import gmap list strings.
From Verif Require Import Index_Model Csv_Model Table_Model Table_Proofs Catalog_Model Catalog_Props Neighbours_Model Neighbours_Props Import_Model Import_Props Config_Model Commands_Model Commands_Proofs.
From Verif Require Import Cluster_Model Cluster_Spec SelectCatalog_Model MultiEvent_Model MultiEvent_Props.
From Verif Require Solver_Model Cluster_Props SelectCatalog_Props.
From Verif Require Import Commands_Model Commands_Proofs.
Local Open Scope nat_scope.

Section commands.
Context {V X : Type} (ins : list (phase V) → phase V → list (phase V)) (Hins : any_place ins).
Variable zero : V → bool.
Variable nan : V.
Variable inv : text → text → text → Z → located V.
Variable read_triple : text → text → text → bool → option (catalog V).
Variable origin_of : text → option (origin V).
Variable order : gmap N neigh → list (N * neigh).
Variable elems : neigh → list (text * text * N).
Variable evs : catalog V → list N.
Variable mk : profile → catalog V → option (catalog V).
Variable find : profile → catalog V → Solver_Model.res (list (gmap N neigh)).
Variable reloc : profile → catalog V → X → list (gmap N neigh) → Solver_Model.res (catalog V).
Variable no_xc : X.
Variable read_xc : catalog V → text → Solver_Model.res X.
(** Containers are iterated in any order. *)
Hypothesis Horder : ∀ m, order m ≡ₚ map_to_list m.
Hypothesis Helems : ∀ n, elems n ≡ₚ n_phases n.
Hypothesis Hevs : ∀ c, evs c ≡ₚ elements (dom (c_ev c)).
(** Catalogs that are read, built or relocated are sound (C16). *)
Hypothesis Hread : ∀ a b d r c, read_triple a b d r = Some c → integrity c.
Hypothesis Hreloc : ∀ p bg x cls c, reloc p bg x cls = Solver_Model.Ok c → integrity c.

Notation run file := (run ins zero nan inv read_triple file origin_of order elems evs mk find reloc no_xc read_xc).
Notation get_catalog file := (get_catalog ins zero nan inv read_triple file origin_of).

(** *** Only one command is executed *)
(** The options that belong to the first command that is given, in the order of the help text *)
Definition only (o : options) : options :=
  let none := Opts [] false [] [] [] false [] [] [] false in
  if given (o_dumpClusters o) then Opts (o_dumpClusters o) false [] [] [] false [] [] [] false (o_profile o)
  else if o_preload o then Opts [] true [] [] [] false [] [] [] false (o_profile o)
  else if given (o_dumpWf o) then Opts [] false (o_dumpWf o) [] [] false [] [] [] false (o_profile o)
  else if given (o_dumpCatalog o) then Opts [] false [] (o_dumpCatalog o) [] false [] [] [] false []
  else if given (o_merge o) then Opts [] false [] [] (o_merge o) (o_keepid o) [] [] [] false []
  else if given (o_reloc o) then Opts [] false [] [] [] false (o_reloc o) (o_clusters o) (o_xcorr o) (o_xmlout o) (o_profile o)
  else Opts [] false [] [] [] false [] [] [] false [].
Theorem C83_one_command file ps o : run file ps o = run file ps (only o).
Proof using Type.
  destruct o as [dc pre dw cat mg keep rl cl xc xml pr]. unfold only, run.
  cbn [o_dumpClusters o_preload o_dumpWf o_dumpCatalog o_merge o_keepid o_reloc o_clusters o_xcorr o_xmlout o_profile].
  destruct (given dc) eqn:E1; [cbn [o_dumpClusters o_profile]; by rewrite E1|].
  destruct pre; [done|].
  destruct (given dw) eqn:E2; [cbn [o_dumpClusters o_preload o_dumpWf o_profile]; by rewrite E2|].
  destruct (given cat) eqn:E3; [cbn [o_dumpClusters o_preload o_dumpWf o_dumpCatalog o_profile]; by rewrite E3|].
  destruct (given mg) eqn:E4; [cbn [o_dumpClusters o_preload o_dumpWf o_dumpCatalog o_merge o_keepid o_profile]; by rewrite E4|].
  destruct (given rl) eqn:E5; [|done].
  cbn [o_dumpClusters o_preload o_dumpWf o_dumpCatalog o_merge o_keepid o_reloc o_clusters o_xcorr o_xmlout o_profile]. by rewrite E5.
Qed.

(** *** Merging catalogs *)
Definition merge_cmd (arg : text) (keep : bool) : options := Opts [] false [] [] arg keep [] [] [] false [].
Definition merged (c : catalog V) : ending * list (effect V) :=
  (Return true, [WCatalog (tx "merged-station.csv") (tx "merged-event.csv") (tx "merged-phase.csv") c]).

Lemma run_merge file ps l keep : l ≠ [] → Forall name_ok (flat l) → 
  run file ps (merge_cmd (commas (flat l)) keep) =
    match merge_loop ins read_triple keep empty_cat (flat l) with
    | CRet c _ => merged c
    | CExc _ => (Escapes, [])
    | CUB => (Undefined, [])
    end.
Proof using Type.
  intros Hl Hn. assert (flat l ≠ []) as Hf by (destruct l as [|[[? ?] ?] ?]; done).
  unfold run, merge_cmd. cbn [o_dumpClusters o_preload o_dumpWf o_dumpCatalog o_merge o_keepid o_reloc]. change (given []) with false.
  cbv iota. rewrite given_commas by done. rewrite tokens_commas by done.
  rewrite length_flat, Nat.mul_comm, Nat.mod_mul by lia. done.
Qed.

(** Without keeping ids every event of every catalog is in the result exactly once, with its
    phases, under an id of its own; nothing else is. *)
Theorem C83_merge_new_ids file ps l cats : l ≠ [] → Forall name_ok (flat l) → reads read_triple l cats →
  (N.of_nat (events cats) < 2 ^ 32)%N →
  ∃ c (g : nat → N → N), run file ps (merge_cmd (commas (flat l)) false) = merged c ∧ integrity c ∧
    (∀ i x k, cats !! i = Some x → is_Some (c_ev x !! k) →
       c_ev c !! g i k = (λ e, set_e_id e (g i k)) <$> c_ev x !! k ∧
       phs c (g i k) ≡ₚ (λ p, set_p_ev p (g i k)) <$> phs x k) ∧
    (∀ i x k i' x' k', cats !! i = Some x → is_Some (c_ev x !! k) → cats !! i' = Some x' → is_Some (c_ev x' !! k') →
       g i k = g i' k' → i = i' ∧ k = k') ∧
    (∀ k, is_Some (c_ev c !! k) → ∃ i x k0, cats !! i = Some x ∧ is_Some (c_ev x !! k0) ∧ k = g i k0) ∧
    (∀ i s, c_sta c !! i = Some s → ∃ x, x ∈ cats ∧ c_sta x !! i = Some s).
Proof using Hins Hread.
  intros Hl Hn Hr Hs. rewrite (run_merge file ps l) by done.
  assert (Forall integrity cats) as Hi.
  { clear -Hr Hread. unfold reads in Hr. induction Hr as [|[[a b] d] c l cats H Hr IH]; constructor; [by eapply Hread|done]. }
  destruct (merge_new ins Hins read_triple l cats Hr Hi empty_cat 0%N integrity_empty) as (c & g & M0 & M1 & M2 & M3 & M4 & M5 & M6 & M7).
  { intros k [e He]. by cbn in He; rewrite lookup_empty in He. }
  { lia. }
  exists c, g. rewrite M0. split; [done|]. split; [done|]. split; [|split; [|split]].
  - intros i x k Hx Hk. by destruct (M2 i x k Hx Hk) as (_ & ? & ?).
  - exact M3.
  - intros k Hk. destruct (M5 k Hk) as [[e He]|?]; [|done]. by cbn in He; rewrite lookup_empty in He.
  - intros i s Hi'. destruct (M7 i s Hi') as [H|?]; [|done]. by cbn in H; rewrite lookup_empty in H.
Qed.
(** When ids are kept, the first catalog that has an id decides about its event and phases. *)
Theorem C83_merge_keep_ids file ps l cats : l ≠ [] → Forall name_ok (flat l) → reads read_triple l cats →
  ∃ c, run file ps (merge_cmd (commas (flat l)) true) = merged c ∧ integrity c ∧
    (∀ k x, first_with cats k x → c_ev c !! k = c_ev x !! k ∧ phs c k ≡ₚ phs x k) ∧
    (∀ k, is_Some (c_ev c !! k) → ∃ x, x ∈ cats ∧ is_Some (c_ev x !! k)) ∧
    (∀ i s, c_sta c !! i = Some s → ∃ x, x ∈ cats ∧ c_sta x !! i = Some s).
Proof using Hins Hread.
  intros Hl Hn Hr. rewrite (run_merge file ps l) by done.
  assert (Forall integrity cats) as Hi.
  { clear -Hr Hread. unfold reads in Hr. induction Hr as [|[[a b] d] c l cats H Hr IH]; constructor; [by eapply Hread|done]. }
  destruct (merge_keep ins Hins read_triple l cats Hr Hi empty_cat integrity_empty) as (c & M0 & M1 & M2 & M3 & M4 & M5 & M6).
  exists c. rewrite M0. split; [done|]. split; [done|]. split; [|split].
  - intros k x Hx. apply M3; [|done]. by cbn; rewrite lookup_empty.
  - intros k Hk. destruct (M4 k Hk) as [[e He]|?]; [|done]. by cbn in He; rewrite lookup_empty in He.
  - intros i s Hi'. destruct (M6 i s Hi') as [H|?]; [|done]. by cbn in H; rewrite lookup_empty in H.
Qed.
(** Nothing is written unless all catalogs could be read and the names are triples. *)
Theorem C83_merge_nothing file ps names keep : names ≠ [] → Forall name_ok names →
  ((¬ ∃ l, names = flat l) → run file ps (merge_cmd (commas names) keep) = (Return false, [])) ∧
  (∀ l a b d, names = flat l → (a, b, d) ∈ l → read_triple a b d true = None →
     snd (run file ps (merge_cmd (commas names) keep)) = [] ∧ fst (run file ps (merge_cmd (commas names) keep)) ≠ Return true).
Proof using Type.
  intros Hl Hn. split.
  - intros H. unfold run, merge_cmd. cbn [o_dumpClusters o_preload o_dumpWf o_dumpCatalog o_merge o_keepid o_reloc]. change (given []) with false.
    cbv iota. rewrite given_commas by done. rewrite tokens_commas by done.
    destruct (Nat.eqb (length names mod 3) 0) eqn:E; [|done]. exfalso. apply H.
    apply Nat.eqb_eq in E. apply Nat.mod_divides in E as [n E]; [|lia]. clear -E. revert names E.
    induction n as [|n IH]; intros names E.
    + exists []. destruct names; [done|]. cbn in E. lia.
    + destruct names as [|a [|b [|d names]]]; cbn in E; try lia. destruct (IH names) as [l ->]; [lia|]. by exists ((a, b, d) :: l).
  - intros l a b d -> Hin Hx. rewrite (run_merge file ps l) by (done || by intros ->).
    assert (∀ c, merge_loop ins read_triple keep c (flat l) = CUB ∨ ∃ c', merge_loop ins read_triple keep c (flat l) = CExc c') as H.
    { clear -Hin Hx. induction l as [|[[a' b'] d'] l IH]; intros c; [by apply elem_of_nil in Hin|].
      change (flat ((a', b', d') :: l)) with (a' :: b' :: d' :: flat l). cbn [merge_loop].
      destruct (decide ((a, b, d) = (a', b', d'))) as [[= -> -> ->]|D].
      - rewrite Hx. eauto.
      - apply elem_of_cons in Hin as [?|Hin]; [done|]. destruct (read_triple a' b' d' true) as [x|]; [|eauto].
        destruct (add_cat ins c x keep) as [c1 []| |]; [by apply IH|eauto|by left]. }
    destruct (H empty_cat) as [->|[c' ->]]; done.
Qed.

(** *** Clusters *)
Definition dump_cmd (path prof : text) : options := Opts path false [] [] [] false [] [] [] false prof.
Definition reloc_cmd (path clusters xcorr : text) (xml : bool) (prof : text) : options := Opts [] false [] [] [] false path clusters xcorr xml prof.

(** The profile and catalog of a command, and the catalog of the DD object *)
Definition ready (file : text → option text) (ps : list profile) (path prof : text) (p : profile) (c : catalog V) (idmap : list (N * origin V)) (bg : catalog V) : Prop :=
  path ≠ [] ∧ get_catalog file path = CRet c idmap ∧ get_profile ps prof = Some p ∧ empty_catalog c = false ∧ mk p c = Some bg.

Lemma run_dump file ps path prof p c idmap bg : ready file ps path prof p c idmap bg →
  run file ps (dump_cmd path prof) = dump_clusters ins order elems find p (Some bg).
Proof using Type.
  intros (H1 & H2 & H3 & H4 & H5). unfold run, dump_cmd. cbn [o_dumpClusters o_profile].
  assert (given path = true) as -> by (by apply bool_decide_eq_true). rewrite H2, H3, H4. unfold load_profile. rewrite H4, H5. done.
Qed.
Lemma run_reloc file ps path cl xc xml prof p c idmap bg : ready file ps path prof p c idmap bg →
  run file ps (reloc_cmd path cl xc xml prof) =
    match relocate_catalog file find reloc no_xc read_xc p (Some bg) cl xc with
    | Solver_Model.Exc => (Return false, [])
    | Solver_Model.Bad => (Undefined, [])
    | Solver_Model.Ok r =>
        let w := [WCatalog (tx "reloc-station.csv") (tx "reloc-event.csv") (tx "reloc-phase.csv") r] in
        if xml then match xml_of ins idmap r (evs r) with None => (Escapes, w) | Some x => (Return true, w ++ [WXml x]) end
        else (Return true, w)
    end.
Proof using Type.
  intros (H1 & H2 & H3 & H4 & H5). unfold run, reloc_cmd.
  cbn [o_dumpClusters o_preload o_dumpWf o_dumpCatalog o_merge o_keepid o_reloc o_clusters o_xcorr o_xmlout o_profile]. change (given []) with false.
  cbv iota. assert (given path = true) as -> by (by apply bool_decide_eq_true). rewrite H2, H3, H4. unfold load_profile. rewrite H4, H5. done.
Qed.

(** The clusters that are found are written: for each a file of pairs that reads back as the
    cluster, and a catalog of exactly its events. *)
Theorem C83_dump_clusters file ps path prof p c idmap bg cls : ready file ps path prof p c idmap bg →
  integrity bg → codes_plain bg → find p bg = Solver_Model.Ok cls → Forall (pairs_ok bg) cls → (N.of_nat (length cls) < 2 ^ 32 - 1)%N →
  ∃ out, run file ps (dump_cmd path prof) = (Return true, out) ∧ dumped bg 1 cls out.
Proof using Hins Horder Helems.
  intros Hr I Hp Hf Hok Hlen. rewrite (run_dump _ _ _ _ _ _ _ _ Hr). unfold dump_clusters. rewrite Hf.
  destruct (dump_loop_ok ins Hins order elems Horder Helems bg cls I Hp Hok 1 []) as (out & H1 & H2); [lia|].
  exists out. by change 1%N with (N.of_nat 1).
Qed.
(** Relocating with the files that were dumped is relocating with the clusters found. *)
Theorem C83_dump_then_relocate file file' ps path prof p c idmap bg cls out xcorr xml :
  ready file ps path prof p c idmap bg → ready file' ps path prof p c idmap bg →
  integrity bg → codes_plain bg → find p bg = Solver_Model.Ok cls → Forall (pairs_ok bg) cls → (N.of_nat (length cls) < 2 ^ 32 - 1)%N →
  cls ≠ [] → snd (run file ps (dump_cmd path prof)) = out →
  (∀ name s, pair_file out name = Some s → file' name = Some s) →
  run file' ps (reloc_cmd path (commas ((λ i, pair_name (S i)) <$> seq 0 (length cls))) xcorr xml prof) =
  run file' ps (reloc_cmd path [] xcorr xml prof).
Proof using Hins Horder Helems.
  intros Hr Hr' I Hp Hf Hok Hlen Hne Hout Hfile.
  destruct (C83_dump_clusters _ _ _ _ _ _ _ _ _ Hr I Hp Hf Hok Hlen) as (out' & E & Hd). rewrite E in Hout. cbn in Hout. subst out'.
  rewrite !(run_reloc _ _ _ _ _ _ _ _ _ _ _ Hr').
  set (names := (λ i, pair_name (S i)) <$> seq 0 (length cls)).
  assert (names ≠ []) as Hn1 by (destruct cls; done).
  assert (Forall name_ok names) as Hn2.
  { apply List.Forall_forall. intros x Hx. apply elem_of_list_In, elem_of_list_fmap in Hx as (i & -> & _). apply pair_name_ok. }
  assert (relocate_catalog file' find reloc no_xc read_xc p (Some bg) (commas names) xcorr =
          relocate_catalog file' find reloc no_xc read_xc p (Some bg) [] xcorr) as ->; [|done].
  unfold relocate_catalog. rewrite given_commas by done. rewrite tokens_commas by done. change (given []) with false. cbv iota.
  rewrite (read_clusters_ok bg file' names cls).
  - cbn [Solver_Model.rbind]. destruct (if given xcorr then read_xc bg xcorr else Solver_Model.Ok no_xc) as [xc| |]; [|done|done].
    cbn [Solver_Model.rbind]. rewrite Hf. cbn [Solver_Model.rbind]. by destruct cls.
  - apply Forall2_same_length_lookup. unfold names. rewrite fmap_length, seq_length. split; [done|].
    intros i f cl Hi Hcl. rewrite list_lookup_fmap in Hi. apply fmap_Some in Hi as (j & Hj & ->).
    apply lookup_seq in Hj as [-> _]. destruct (dumped_files bg 1 cls out Hd ltac:(lia) i cl Hcl) as (s & H1 & H2).
    exists s. split; [|done]. apply Hfile. by replace (S (0 + i)) with (1 + i) by lia.
Qed.

(** *** The XML of a relocated catalog *)
Lemma xml_ok idmap r l : integrity r → (∀ k, k ∈ l → is_Some (c_ev r !! k)) →
  ∃ xml, xml_of ins idmap r l = Some xml ∧ Forall2 (λ k x, copied empty_cat r k k (fst x) ∧ snd x = source_of idmap k) l xml.
Proof using Hins.
  intros I. induction l as [|k l IH]; intros Hk.
  - exists []. split; [done|constructor].
  - destruct (C16_extract ins Hins r k true I) as [_ H1]. destruct (H1 (Hk k ltac:(by left))) as (ev & Hev & Hc).
    destruct IH as (xml & E & H); [intros k' Hk'; apply Hk; by right|].
    exists ((ev, source_of idmap k) :: xml). cbn [xml_of]. rewrite Hev, E. split; [done|]. by constructor.
Qed.
Lemma relocated_integrity file p bg clusters xcorr r :
  relocate_catalog file find reloc no_xc read_xc p (Some bg) clusters xcorr = Solver_Model.Ok r → integrity r.
Proof using Hreloc.
  intros E. unfold relocate_catalog in E.
  destruct (if given clusters then read_clusters file bg (tokens clusters) else Solver_Model.Ok []) as [cls| |]; [|done|done].
  cbn [Solver_Model.rbind] in E. destruct (if given xcorr then read_xc bg xcorr else Solver_Model.Ok no_xc) as [xc| |]; [|done|done].
  cbn [Solver_Model.rbind] in E. destruct cls; [|by eapply Hreloc]. destruct (find p bg) as [cls| |]; [|done|done]. by eapply Hreloc.
Qed.
(** The outcome of a relocation with XML: that of the one without, and if that is a success the
    list of the relocated events, each once and alone in its catalog, with an origin. *)
Definition xml_result (plain with_xml : ending * list (effect V)) (linked : N → option (origin V) → Prop) : Prop :=
  (with_xml = plain ∧ plain.2 = []) ∨
  ∃ r xml, let w := WCatalog (tx "reloc-station.csv") (tx "reloc-event.csv") (tx "reloc-phase.csv") r in
    plain = (Return true, [w]) ∧ with_xml = (Return true, [w; WXml xml]) ∧
    ∃ ks, ks ≡ₚ elements (dom (c_ev r)) ∧ Forall2 (λ k x, copied empty_cat r k k x.1 ∧ linked k x.2) ks xml.
Lemma xml_run file ps path clusters xcorr prof p c idmap bg : ready file ps path prof p c idmap bg →
  xml_result (run file ps (reloc_cmd path clusters xcorr false prof)) (run file ps (reloc_cmd path clusters xcorr true prof))
    (λ k o, o = source_of idmap k).
Proof using Hins Hreloc Hevs.
  intros Hr. rewrite !(run_reloc _ _ _ _ _ _ _ _ _ _ _ Hr).
  destruct (relocate_catalog file find reloc no_xc read_xc p (Some bg) clusters xcorr) as [r| |] eqn:E; [|by left|by left].
  right. pose proof (relocated_integrity _ _ _ _ _ _ E) as I.
  destruct (xml_ok idmap r (evs r) I) as (xml & Ex & H).
  { intros k Hk. rewrite Hevs in Hk. apply elem_of_elements in Hk. by apply elem_of_dom. }
  exists r, xml. cbv zeta iota. rewrite Ex. split; [done|]. split; [done|]. exists (evs r). split; [apply Hevs|done].
Qed.

(** *** A catalog from a file of origin ids *)
Definition id_file (file : text → option text) (f : text) (l : list (origin V)) : Prop :=
  name_ok f ∧ ∃ s rows ids, file f = Some s ∧ read_with_header s = Some rows ∧
    Forall2 (λ (row : gmap text text) id, row !! tx "origin" = Some id) rows ids ∧ l = omap origin_of ids.
(** The event under which an origin of the list is imported *)
Definition imported_as (l : list (origin V)) (k : N) (o : origin V) : Prop :=
  ∃ l1 l2, l = l1 ++ o :: l2 ∧ o_arr o ≠ [] ∧ k = N.of_nat (S (length (List.filter has_arr l1))).

Lemma filter_bool (l : list (origin V)) : List.filter has_arr l = filter has_arr l.
Proof using Type.
  induction l as [|b l IH]; [done|]. rewrite filter_cons. cbn [List.filter]. rewrite IH.
  destruct (decide (has_arr b)) as [D|D]; destruct (has_arr b); done.
Qed.
Lemma entry_in l x : x ∈ entry 0 l ↔ imported_as l x.1 x.2.
Proof using Type.
  destruct x as [k' o']. unfold entry, imported_as. rewrite elem_of_lookup_imap. cbn. split.
    - intros (i & a & [= -> ->] & Hi). clear -Hi. revert i Hi. induction l as [|b l IH]; intros i Hi; [done|].
      rewrite filter_cons in Hi. destruct (decide (has_arr b)) as [D|D].
      + destruct i as [|i].
        * injection Hi as <-. exists [], l. split; [done|]. split; [|done]. intros E. unfold has_arr in D. by rewrite E in D.
        * destruct (IH i Hi) as (l1 & l2 & -> & Ha & Hk). exists (b :: l1), l2. split; [done|]. split; [done|].
          cbn [List.filter]. destruct (has_arr b); [|done]. cbn [length]. lia.
      + destruct (IH i Hi) as (l1 & l2 & -> & Ha & Hk). exists (b :: l1), l2. split; [done|]. split; [done|].
        cbn [List.filter]. destruct (has_arr b); [|done]. by destruct D.
    - intros (l1 & l2 & -> & Ha & ->). exists (length (List.filter has_arr l1)), o'. split; [f_equal; lia|].
      rewrite filter_bool, filter_app, filter_cons_True.
      + rewrite lookup_app_r by done. by rewrite Nat.sub_diag.
      + unfold has_arr. by destruct (o_arr o').
Qed.
Lemma source_entry l k o : source_of (entry 0 l) k = Some o ↔ imported_as l k o.
Proof using Type.
  unfold source_of.
  assert (∀ b, (∀ x, x ∈ List.filter (λ x : N * origin V, bool_decide (x.1 = k)) (entry b l) → x.1 = k ∧ x ∈ entry b l)) as Hf.
  { intros b x Hx. apply elem_of_list_In, filter_In in Hx as [H1 H2]. apply bool_decide_eq_true in H2. by rewrite elem_of_list_In. }
  assert (∀ x y, x ∈ entry 0 l → y ∈ entry 0 l → x.1 = y.1 → x = y) as Huniq.
  { intros x y Hx Hy Exy. unfold entry in Hx, Hy. apply elem_of_lookup_imap in Hx as (i & a & -> & Hi), Hy as (j & b & -> & Hj).
    cbn in Exy. assert (i = j) as -> by lia. congruence. }
  destruct (last (List.filter (λ x : N * origin V, bool_decide (x.1 = k)) (entry 0 l))) as [x|] eqn:E.
  - cbn. apply last_Some_elem_of in E. destruct (Hf 0%N x E) as [H1 H2]. split.
    + intros [= <-]. apply entry_in in H2. by rewrite H1 in H2.
    + intros H. assert ((k, o) ∈ entry 0 l) as H3 by (by apply entry_in). f_equal. by rewrite (Huniq x (k, o) H2 H3 H1).
  - cbn. split; [done|]. intros H. exfalso. assert ((k, o) ∈ entry 0 l) as H3 by (by apply entry_in). apply last_None in E.
    assert ((k, o) ∈ List.filter (λ x : N * origin V, bool_decide (x.1 = k)) (entry 0 l)) as H4.
    { apply elem_of_list_In, filter_In. split; [by apply elem_of_list_In|]. by apply bool_decide_eq_true. }
    rewrite E in H4. by apply elem_of_nil in H4.
Qed.

(** What is loaded: an event for every known origin with arrivals, in the order of the file; if
    one of the known origins cannot be imported nothing is loaded. *)
Theorem C83_id_file file f l : id_file file f l → (N.of_nat (length (List.filter has_arr l)) < 2 ^ 32)%N →
  ∃ c idmap, get_catalog file f = CRet c idmap ∧ integrity c ∧
  ((c = empty_cat ∧ idmap = [] ∧ ∃ o, o ∈ l ∧ needs zero inv o) ∨
   ((∀ k, is_Some (c_ev c !! k) ↔ ∃ o, imported_as l k o) ∧
    (∀ k o, imported_as l k o → ∃ d, o_depth o = Some d ∧ c_ev c !! k = Some (Ev k (o_time o) (o_lat o) (o_lon o) d (default nan (o_mag o)) None)) ∧
    (∀ k o, source_of idmap k = Some o ↔ imported_as l k o))).
Proof using Hins.
  intros ([Hf1 Hf2] & s & rows & ids & E1 & E2 & E3 & ->) Hlen. set (l := omap origin_of ids) in *.
  unfold get_catalog. assert (tokens f = [f]) as ->.
  { change f with (commas [f]) at 1. apply tokens_commas; [done|]. by repeat constructor. }
  unfold import_file. rewrite E1, E2.
  assert (mapM (λ row : gmap text text, cell row "origin") rows = Some ids) as ->.
  { apply mapM_Some. eapply Forall2_impl; [exact E3|]. done. }
  unfold known_origins. fold l.
  pose proof (C71_import ins Hins zero nan inv empty_cat l integrity_empty) as H.
  destruct (import ins zero nan inv empty_cat l []) as [c idmap|c|].
  - destruct H as (I & _ & Hidm & Hk & _ & Hev); [rewrite filter_bool in Hlen; exact Hlen|]. change (Catalog_Model.max_key (c_ev empty_cat)) with 0%N in *.
    exists c, idmap. split; [done|]. split; [done|]. right.
    assert (∀ k o, imported_as l k o → (k, o) ∈ idmap ∧ ∃ d, o_depth o = Some d ∧ c_ev c !! k = Some (new_event nan k o d)) as Himp.
    { intros k o (l1 & l2 & El & Ha & ->). destruct (Hev l1 o l2 El) as (H1 & d & ps & H2 & H3 & _).
      - unfold has_arr. by destruct (o_arr o).
      - rewrite <-filter_bool in H1, H3. replace (0 + 1 + N.of_nat (length (List.filter has_arr l1)))%N with (N.of_nat (S (length (List.filter has_arr l1)))) in * by lia.
        split; [done|]. by exists d. }
    split; [|split].
    + intros k. rewrite Hk. split.
      * intros [[e He]|Hin]; [by cbn in He; rewrite lookup_empty in He|]. apply elem_of_list_fmap in Hin as ([k' o] & -> & Hin).
        exists o. rewrite Hidm in Hin. by apply entry_in in Hin.
      * intros [o Ho]. right. destruct (Himp k o Ho) as [H1 _]. apply elem_of_list_fmap. by exists (k, o).
    + intros k o Ho. by destruct (Himp k o Ho) as [_ H1].
    + intros k o. rewrite Hidm. apply source_entry.
  - destruct H as (_ & _ & H); [rewrite filter_bool in Hlen; exact Hlen|]. exists empty_cat, []. split; [done|]. split; [apply integrity_empty|]. by left.
  - destruct H. rewrite filter_bool in Hlen; exact Hlen.
Qed.

(** --dump-catalog writes the catalog of the file of ids. *)
Theorem C83_dump_catalog file ps f l c idmap : id_file file f l → (∀ o, o ∈ l → ¬ needs zero inv o) →
  (N.of_nat (length (List.filter has_arr l)) < 2 ^ 32)%N → get_catalog file f = CRet c idmap →
  run file ps (Opts [] false [] f [] false [] [] [] false []) =
    (Return true, [WCatalog (tx "station.csv") (tx "event.csv") (tx "phase.csv") c]).
Proof using Hins.
  intros Hf Hn Hlen Hc. unfold run. cbn [o_dumpClusters o_preload o_dumpWf o_dumpCatalog]. change (given []) with false. cbv iota.
  destruct Hf as ([Hf1 Hf2] & s & rows & ids & E1 & E2 & E3 & ->). assert (given f = true) as -> by (by apply bool_decide_eq_true).
  unfold get_catalog in Hc. assert (tokens f = [f]) as Ht.
  { change f with (commas [f]) at 1. apply tokens_commas; [done|]. by repeat constructor. }
  rewrite Ht in Hc. unfold import_file in *. rewrite E1, E2 in *.
  assert (mapM (λ row : gmap text text, cell row "origin") rows = Some ids) as Em.
  { apply mapM_Some. eapply Forall2_impl; [exact E3|]. done. }
  rewrite Em in *. unfold known_origins in *. rewrite filter_bool in Hlen.
  destruct (C71_no_exception ins Hins zero nan inv empty_cat (omap origin_of ids) integrity_empty Hlen Hn) as (c' & m & E).
  rewrite E in *. by injection Hc as <- _.
Qed.
Lemma xml_result_impl a b (P Q : N → option (origin V) → Prop) : (∀ k o, P k o → Q k o) → xml_result a b P → xml_result a b Q.
Proof using Type.
  intros H [?|(r & xml & H1 & H2 & ks & H3 & H4)]; [by left|]. right. exists r, xml. split; [done|]. split; [done|].
  exists ks. split; [done|]. eapply Forall2_impl; [exact H4|]. intros k x [Hx1 Hx2]. split; [done|]. by apply H.
Qed.
(** The relocated events of a catalog that came from origin ids are linked with the origins they
    were imported from; an event without such an origin is linked with none. *)
Theorem C83_xml_ids file ps f l clusters xcorr prof p c idmap bg : ready file ps f prof p c idmap bg →
  id_file file f l → (N.of_nat (length (List.filter has_arr l)) < 2 ^ 32)%N →
  xml_result (run file ps (reloc_cmd f clusters xcorr false prof)) (run file ps (reloc_cmd f clusters xcorr true prof))
    (λ k o, match o with Some o => imported_as l k o | None => ∀ o, ¬ imported_as l k o end).
Proof using Hins Hreloc Hevs.
  intros Hr Hf Hlen. eapply xml_result_impl; [|by apply (xml_run _ _ _ _ _ _ _ _ _ _ Hr)].
  destruct Hr as (_ & Hc & _ & He & _). destruct (C83_id_file file f l Hf Hlen) as (c' & idm & E & _ & H). rewrite Hc in E. injection E as <- <-.
  destruct H as [(-> & _)|(_ & _ & H)]; [done|]. intros k o ->. destruct (source_of idmap k) as [o|] eqn:Eo.
  - by apply H.
  - intros o Ho. apply H in Ho. congruence.
Qed.
(** With a catalog from files no event is linked with an origin. *)
Theorem C83_xml_files file ps a b d clusters xcorr prof p c idmap bg : Forall name_ok [a; b; d] →
  ready file ps (commas [a; b; d]) prof p c idmap bg →
  xml_result (run file ps (reloc_cmd (commas [a; b; d]) clusters xcorr false prof)) (run file ps (reloc_cmd (commas [a; b; d]) clusters xcorr true prof))
    (λ _ o, o = None).
Proof using Hins Hreloc Hevs.
  intros Hn Hr. eapply xml_result_impl; [|by apply (xml_run _ _ _ _ _ _ _ _ _ _ Hr)].
  destruct Hr as (_ & Hc & _ & He & _). unfold get_catalog in Hc. rewrite tokens_commas in Hc by done.
  destruct (read_triple a b d false) as [c'|]; injection Hc as <- <-; by intros k o ->.
Qed.

(** *** Failures *)
(** Whatever is given, a command that reports failure has written nothing. *)
Theorem C83_failure_writes_nothing file ps o out : run file ps o = (Return false, out) → out = [].
Proof using Type.
  assert (∀ bg cls id out0 out', dump_loop ins order elems bg id cls out0 ≠ (Return false, out')) as Hd.
  { intros bg. induction cls as [|cl cls IH]; intros id out0 out'; cbn [dump_loop]; [done|]. cbv zeta.
    destruct (write_neighs elems bg (snd <$> order cl)); [|destruct (add_all ins empty_cat bg (fst <$> order cl)); [apply IH|done|done]|done].
    destruct (add_all ins empty_cat bg (fst <$> order cl)); [apply IH|done|done]. }
  unfold run, dump_clusters. intros H. repeat (case_match; simplify_eq; try done); by apply Hd in H.
Qed.
(** Without a usable catalog or the profile nothing happens; a profile that cannot be loaded lets
    an exception escape, except for the relocation, which reports failure. *)
Theorem C83_not_loaded file ps path prof clusters xcorr xml c idmap : path ≠ [] → get_catalog file path = CRet c idmap →
  (get_profile ps prof = None ∨ empty_catalog c = true →
     run file ps (dump_cmd path prof) = (Return false, []) ∧ run file ps (reloc_cmd path clusters xcorr xml prof) = (Return false, [])) ∧
  (∀ p, get_profile ps prof = Some p → empty_catalog c = false → mk p c = None →
     run file ps (dump_cmd path prof) = (Escapes, []) ∧ run file ps (reloc_cmd path clusters xcorr xml prof) = (Return false, [])).
Proof using Type.
  intros Hp Hc. assert (given path = true) as Hg by (by apply bool_decide_eq_true).
  unfold run, dump_cmd, reloc_cmd.
  cbn [o_dumpClusters o_preload o_dumpWf o_dumpCatalog o_merge o_keepid o_reloc o_clusters o_xcorr o_xmlout o_profile]. change (given []) with false.
  cbv iota. rewrite Hg, Hc. split.
  - intros [->|He]; [done|]. rewrite He. by destruct (get_profile ps prof).
  - intros p -> He Hm. rewrite He. unfold load_profile. rewrite He, Hm. done.
Qed.
End commands.

(** *** The clusters that are found *)
(** The selection of neighbours and the clusters as in C78, with the phases recorded as in
    Neighbours; [minNum] is the least number of neighbours. *)
Section found.
Context {V : Type} (ins : list (phase V) → phase V → list (phase V)) (Hins : any_place ins).
Notation inner := (@gmap text _ (@list_countable ascii _ stdpp.strings.ascii_countable) (@gset text _ (@list_countable ascii _ stdpp.strings.ascii_countable))).
Variable sel : gset N → N → nb inner.
Variables ord ordc : nat → gset N → list N.
Variable pick : nat → gset N → N.
Variable minNum : nat.
Hypothesis Hsel : SelectCatalog_Props.valid_sel sel.
Hypothesis Hord : SelectCatalog_Props.valid_order ord.
Hypothesis Hordc : Cluster_Props.valid_order ordc.
Hypothesis Hpick : Cluster_Props.valid_pick pick.

Definition as_neigh (n : nb inner) : neigh := Neigh (nb_ref n) (nb_phs n).
(** What the selection records: phases of the catalog, never an empty set *)
Definition records (bg : catalog V) : Prop :=
  ∀ W e k i, nb_phs (sel W e) !! k = Some i →
    i ≠ ∅ ∧ ∀ ph s, i !! ph = Some s → s ≠ ∅ ∧ plain_last ph ∧ ∀ sta, sta ∈ s → is_Some (c_sta bg !! sta).
(** The clusters found meet what C83_dump_clusters needs if at least one neighbour is required. *)
Theorem C83_found_clusters bg f cls : integrity bg → ids_ok (c_ev bg) → records bg → 1 ≤ minNum →
  find_clusters sel ord ordc pick minNum f bg = Done (Solver_Model.Ok cls) →
  Forall (pairs_ok bg) ((λ cl : gmap N (nb inner), as_neigh <$> cl) <$> cls).
Proof using Hins Hsel Hord Hordc Hpick.
  intros I Hids Hrec Hmin H. unfold find_clusters in H.
  destruct (select_catalog sel ord minNum f (e_id <$> sorted_events (c_ev bg))) as [G| |] eqn:E1; [|done|done].
  destruct (clusterize pick ordc f G) as [cls'| |] eqn:E2; [|done|done]. injection H as ->.
  pose proof (sorted_events_NoDup ins Hins _ I) as ND.
  destruct (SelectCatalog_Props.C31_select_catalog_closed sel ord minNum _ f G Hsel Hord ND E1) as [H1 _].
  assert (well_keyed G) as Hw by (intros k n Hk; by apply (H1 k n Hk)).
  destruct (Cluster_Props.C32_clusters_are_components pick ordc G f cls Hpick Hordc Hw E2) as (A & B & Ne & D).
  destruct (Cluster_Props.C33_each_pair_once pick ordc G f cls Hpick Hordc Hw E2) as (K1 & K2 & K3).
  destruct (found_components ins sel ord ordc pick minNum Hins Hsel Hord Hordc Hpick bg f G cls I E1 E2) as [C1 C2 C3 C4 C5].
  apply List.Forall_forall. intros x Hx. apply elem_of_list_In, elem_of_list_fmap in Hx as (cl & -> & Hcl).
  apply elem_of_list_lookup in Hcl as [i Hi].
  (* a listed pair of the cluster *)
  assert (∀ a b p, lists cl a b p → p ≠ ∅ ∧ ∀ ph s, p !! ph = Some s → s ≠ ∅ ∧ plain_last ph ∧ ∀ sta, sta ∈ s → is_Some (c_sta bg !! sta)) as Hl.
  { intros a b p Hab. assert (lists G a b p) as (n & Ga & Hb) by (apply K1; by exists i, cl).
    destruct (H1 a n Ga) as (_ & _ & _ & _ & W & _ & _ & ->). by eapply Hrec. }
  assert (∀ a b p, lists cl a b p → ∃ sta ph n, cl !! a = Some n ∧ inn (as_neigh n) b sta ph) as Hinn.
  { intros a b p Hab. destruct (Hl a b p Hab) as [Hne Hs]. destruct Hab as (n & Ha & Hb).
    apply map_choose in Hne as (ph & s & Hph). destruct (Hs ph s Hph) as (Hs1 & _). destruct (set_choose_L s Hs1) as [sta Hsta].
    exists sta, ph, n. split; [done|]. exists p, s. done. }
  split.
  - destruct (Ne i cl Hi) as (x & c & Hc & [n Hn]). assert (c = cl) as -> by congruence. intros E.
    assert ((as_neigh <$> cl) !! x = None) as E' by (by rewrite E, lookup_empty). rewrite lookup_fmap, Hn in E'. done.
  - intros k n Hk. rewrite lookup_fmap in Hk. apply fmap_Some in Hk as (m & Hm & ->).
    assert (nb_ref m = k) as Href by (eapply C2; [by eapply elem_of_list_lookup_2|done]).
    assert (in_cluster cls i k) as Hik by (exists cl; split; [done|by exists m]).
    assert (is_Some (G !! k)) as Gk by (apply C3; by exists i).
    assert (is_Some (c_ev bg !! k)) as Bk by (by apply C1).
    split; [done|]. split; [|split; [by apply Hids|split; [done|split]]].
    + intros k' p Hp. assert (lists cl k k' p) as Hkk by (by exists m). destruct (Hl _ _ _ Hkk) as [Q1 Q2]. split; [done|].
      intros ph s Hph. by destruct (Q2 ph s Hph).
    + destruct Gk as [g Gk]. destruct (H1 k g Gk) as (_ & _ & Hsz & Hnb & _).
      assert (nb_phs g ≠ ∅) as Hne by (intros E; rewrite E, map_size_empty in Hsz; lia).
      apply map_choose in Hne as (k' & p & Hp). assert (lists G k k' p) as HG by (by exists g).
      destruct (K2 k k' p HG) as [(j & c & Hj & Hkk)|(_ & q & j & c & Hj & Hkk)].
      * assert (in_cluster cls j k) as Hjk by (destruct (C5 j c _ _ p Hj Hkk); done). rewrite (C4 k j i Hjk Hik) in Hj.
        assert (c = cl) as -> by congruence. destruct (Hinn _ _ _ Hkk) as (sta & ph & n & Hn & Hsp).
        exists k, (as_neigh n), k', sta, ph. rewrite lookup_fmap, Hn. split; [done|]. split; [done|]. by left.
      * assert (in_cluster cls j k) as Hjk by (destruct (C5 j c _ _ q Hj Hkk); done). rewrite (C4 k j i Hjk Hik) in Hj.
        assert (c = cl) as -> by congruence. destruct (Hinn _ _ _ Hkk) as (sta & ph & n & Hn & Hsp).
        exists k', (as_neigh n), k, sta, ph. rewrite lookup_fmap, Hn. split; [done|]. split; [done|]. by right.
    + intros k' sta ph (p & s & Hp & Hph & Hsta). assert (lists cl k k' p) as Hkk by (by exists m).
      destruct (Hl _ _ _ Hkk) as [_ Q2]. destruct (Q2 ph s Hph) as (_ & Q3 & Q4). split; [|split; [by apply Q4|done]].
      rewrite lookup_fmap, fmap_is_Some. destruct (C5 i cl _ _ p Hi Hkk) as [_ (c & Hc & Hk')]. by assert (c = cl) as <- by congruence.
Qed.
End found.

(** *** Concrete cases *)
Module Cases.
Definition ins (l : list (phase Z)) p := p :: l.
Lemma ins_ok : any_place ins. Proof. by intros l p. Qed.
Definition st : station Z := Sta (tx "CH.A.") 46%Z 8%Z 500%Z (tx "CH") (tx "A") [].
Definition ev (k : N) (t : Z) : event Z := Ev k t 46%Z 8%Z 5%Z 1%Z None.
Definition ph (k : N) (t : Z) : phase Z := Pha k (tx "CH.A.") t 0%Z 0%Z (tx "P") (tx "CH") (tx "A") [] (tx "HHZ") None None.
Definition two (t : Z) : catalog Z :=
  Cat {[tx "CH.A." := st]} {[3%N := ev 3 t; 7%N := ev 7 (t + 1)]} {[3%N := [ph 3 t]; 7%N := [ph 7 (t + 1)]]}.
Lemma two_ok t : integrity (two t).
Proof.
  split.
  - intros k e H. cbn [c_ev two] in H. apply lookup_insert_Some in H as [[<- <-]|[_ H]]; [done|]. by apply lookup_singleton_Some in H as [<- <-].
  - intros i s H. cbn [c_sta two] in H. apply lookup_singleton_Some in H as [<- <-]. split; reflexivity.
  - intros k p H. unfold phs in H. cbn [c_ph two] in H.
    destruct (decide (k = 3%N)) as [->|D1]; [|destruct (decide (k = 7%N)) as [->|D2]].
    + rewrite lookup_insert in H. cbn in H. apply elem_of_list_singleton in H as ->. split; [done|]. split; [by exists (ev 3 t)|]. by exists st.
    + rewrite lookup_insert_ne in H by done. rewrite lookup_singleton in H. cbn in H. apply elem_of_list_singleton in H as ->. split; [done|]. split; [by exists (ev 7 (t + 1))|]. by exists st.
    + rewrite lookup_insert_ne, lookup_singleton_ne in H by done. by apply elem_of_nil in H.
Qed.
Definition read_triple (a b d : text) (_ : bool) : option (catalog Z) :=
  if decide (a = tx "s.csv") then Some (two 10) else if decide (a = tx "t.csv") then Some (two 20) else None.
Lemma read_ok a b d r c : read_triple a b d r = Some c → integrity c.
Proof. unfold read_triple. repeat case_decide; intros [= <-]; apply two_ok. Qed.
Definition names : list (text * text * text) :=
  [(tx "s.csv", tx "e.csv", tx "p.csv"); (tx "t.csv", tx "e.csv", tx "p.csv")].
Example names_ok : names ≠ [] ∧ Forall name_ok (flat names) ∧ reads read_triple names [two 10; two 20].
Proof.
  split; [done|]. split.
  - repeat (constructor; [split; [done|by apply (bool_decide_unpack _)]|]). constructor.
  - repeat (constructor; [reflexivity|]). constructor.
Qed.
Example arg : commas (flat names) = tx "s.csv,e.csv,p.csv,t.csv,e.csv,p.csv".
Proof. reflexivity. Qed.

(** The two events of the catalog in one cluster; the pair is listed for the first *)
Definition nei (k k' : N) : neigh := n_add (Neigh k ∅) k' (tx "CH.A.") (tx "P").
Definition cl : gmap N neigh := {[3%N := nei 3 7; 7%N := Neigh 7 ∅]}.
Example cl_ok : pairs_ok (two 10) cl ∧ codes_plain (two 10).
Proof.
  assert (∀ k k', nwf (nei k k')) as W by (intros; apply nwf_add, nwf_fresh).
  assert (∀ k k' x sta p, inn (nei k k') x sta p → x = k' ∧ sta = tx "CH.A." ∧ p = tx "P") as Hi.
  { intros k k' x sta p H. apply inn_add in H as [[= -> -> ->]|H]; [done|]. by apply inn_fresh in H. }
  assert (∃ k1 n1 k2 sta p, cl !! k1 = Some n1 ∧ inn n1 k2 sta p ∧ (3%N = k1 ∧ 7%N = k2)) as (k1 & n1 & k2 & sta0 & p0 & Q1 & Q2 & Q3 & Q4).
  { exists 3%N, (nei 3 7), 7%N, (tx "CH.A."), (tx "P"). split; [done|]. split; [|done]. apply inn_add. by left. }
  split.
  - split; [done|]. intros k n H. unfold cl in H. apply lookup_insert_Some in H as [[<- <-]|[_ H]].
    + split; [done|]. split; [apply W|]. split; [done|]. split; [by eexists|]. split; [exists k1, n1, k2, sta0, p0; auto|].
      intros k' sta p (-> & -> & ->)%Hi. split; [by eexists|]. split; [by eexists|]. split; [split; [|split]|]; by apply (bool_decide_unpack _).
    + apply lookup_singleton_Some in H as [<- <-]. split; [done|]. split; [apply nwf_fresh|]. split; [done|]. split; [by eexists|].
      split; [exists k1, n1, k2, sta0, p0; auto|]. intros k' sta p H. by apply inn_fresh in H.
  - intros i s H. cbn [c_sta two] in H. apply lookup_singleton_Some in H as [_ <-]. split; [|split]; (split; [|split]); by apply (bool_decide_unpack _).
Qed.
Definition pr : profile := Prof (tx "x") [] [] [] [].
Example is_ready : ready ins (Z.eqb 0) 0%Z (λ _ _ _ _, InvNone) read_triple (λ _, None) (λ _, Some) (λ _, None) [pr] (tx "s.csv,e.csv,p.csv") (tx "x") pr (two 10) [] (two 10).
Proof. split; [done|]. split; [reflexivity|]. split; [reflexivity|]. split; reflexivity. Qed.
Example path_names : commas [tx "s.csv"; tx "e.csv"; tx "p.csv"] = tx "s.csv,e.csv,p.csv".
Proof. reflexivity. Qed.
Example pair_names : pair_name 1 = tx "cluster-1-pair.csv" ∧ part 12 "-event.csv" = tx "cluster-12-event.csv".
Proof. split; reflexivity. Qed.

(** A selection that takes all other events, with that phase *)
Notation inner := (@gmap text _ (@list_countable ascii _ stdpp.strings.ascii_countable) (@gset text _ (@list_countable ascii _ stdpp.strings.ascii_countable))).
Definition all_p : inner := {[tx "P" := {[tx "CH.A."]}]}.
Definition sel (W : gset N) (e : N) : nb inner := Nb e (gset_to_gmap all_p (W ∖ {[e]})).
Example sel_ok : SelectCatalog_Props.valid_sel sel ∧ records sel (two 10).
Proof.
  split.
  - intros W e. split; [done|]. unfold nb_ids, sel. cbn [nb_phs]. by rewrite dom_gset_to_gmap.
  - intros W e k i H. cbn [nb_phs sel] in H. apply lookup_gset_to_gmap_Some in H as [_ <-]. split; [done|].
    intros p s H. unfold all_p in H. apply lookup_singleton_Some in H as [<- <-]. split; [apply non_empty_singleton_L|]. split.
    + split; [split; [|split]|]; by apply (bool_decide_unpack _).
    + intros sta H%elem_of_singleton. subst sta. by exists st.
Qed.

(** A file of three origin ids: the second is unknown, the third has no arrivals *)
Definition org : origin Z := Orig 5 46%Z 8%Z (Some 10%Z) None [Arr (tx "P") None None None].
Definition bare : origin Z := Orig 6 46%Z 8%Z None None [].
Definition src (id : text) : option (origin Z) := if decide (id = tx "o1") then Some org else if decide (id = tx "o3") then Some bare else None.
Definition ids_txt : text := csv_lines [[tx "origin"; tx "x"]; [tx "o1"; tx "1"]; [tx "o2"; tx "2"]; [tx "o3"; tx "3"]; [tx "o1"; tx "4"]].
Example ids : id_file src (λ _, Some ids_txt) (tx "ids.csv") [org; bare; org].
Proof.
  split; [split; [done|by apply (bool_decide_unpack _)]|].
  eexists ids_txt, _, [tx "o1"; tx "o2"; tx "o3"; tx "o1"]. split; [done|]. split; [reflexivity|]. split; [|reflexivity].
  repeat (constructor; [reflexivity|]). constructor.
Qed.
Example second : imported_as [org; bare; org] 2 org.
Proof. by exists [org; bare], []. Qed.
End Cases.

Print Assumptions C83_one_command.
Print Assumptions C83_merge_new_ids.
Print Assumptions C83_merge_keep_ids.
Print Assumptions C83_merge_nothing.
Print Assumptions C83_dump_clusters.
Print Assumptions C83_dump_then_relocate.
Print Assumptions C83_found_clusters.
Print Assumptions C83_id_file.
Print Assumptions C83_dump_catalog.
Print Assumptions C83_xml_ids.
Print Assumptions C83_xml_files.
Print Assumptions C83_failure_writes_nothing.
Print Assumptions C83_not_loaded.
