(** C53: travel times from grids do not depend on what was computed before; open files. *)
From Coq Require Import Reals Ascii Lra.
From stdpp Require Import gmap strings list sets fin_maps fin_sets.
From Verif Require Import Lru_Model Lru_Proofs KdTree_Model KdTree_Proofs KdTree_Props Geo_Model KdGeo_Model KdGeo_Props NllTtt_Model.
Local Open Scope R_scope.

(** ** Keys *)
Lemma colon_inj (x y a b : text) : colon ∉ a → colon ∉ b → x ++ colon :: a = y ++ colon :: b → x = y ∧ a = b.
Proof.
  revert y. induction x as [|u x IH]; intros y Ha Hb E; destruct y as [|v y]; simpl in E.
  - by injection E as ->.
  - injection E as <- ->. destruct Ha. set_solver.
  - injection E as -> <-. destruct Hb. set_solver.
  - injection E as -> E. destruct (IH y Ha Hb E) as [-> ->]. done.
Qed.

Lemma size_list_to_set_le (l : list gref) : (size (list_to_set l : gset gref) ≤ length l)%nat.
Proof.
  induction l as [|x l IH]; [done|]. simpl. rewrite size_union_alt, size_singleton.
  assert (list_to_set l ∖ {[x]} ⊆ (list_to_set l : gset gref)) as H by set_solver.
  apply subseteq_size in H. lia.
Qed.

Section props.
Context {St Q : Type}.
Variable lab : St → text * text * text.
Variable near : kind → bool → St → @nnres R.
Variable hasvel : bool → bool.
Variable maxdist : R.
Variable tval vval : gref → Q → option R.
Variable aval : gref → Q → option (option R * R).
Variable eazi : Q → St → R.

(** The printed numbers contain no colon *)
Definition labels_ok : Prop := ∀ s, colon ∉ (lab s).1.1 ∧ colon ∉ (lab s).1.2 ∧ colon ∉ (lab s).2.
(** Stations that are printed alike have the same nearest grids *)
Definition labels_tell : Prop := ∀ s s' k p, lab s = lab s' → near k p s = near k p s'.
(** The KD-trees give a point, unless they are empty *)
Definition near_defined : Prop := ∀ k p s, near k p s ≠ NNUndef.

(** Specification: the grid that a station and a phase must use *)
Definition Letter (ph : text) (p : bool) : Prop := ph = [if p then "P"%char else "S"%char].
Definition StationGrid (k : kind) (ph : text) (s : St) (g : gref) : Prop :=
  ∃ p i d, Letter ph p ∧ near k p s = NNFound i d ∧ d * 1000 <= maxdist ∧ g = GTree k p i.
Definition VelocityGrid (ph : text) (g : gref) : Prop := ∃ p, Letter ph p ∧ hasvel p = true ∧ g = GVel p.

Notation tree_search := (tree_search near maxdist).
Notation vel_search := (vel_search hasvel).
Notation tree_key := (tree_key lab).

Lemma phase_letter ph p : phase_of ph = Some p ↔ Letter ph p.
Proof.
  unfold phase_of, Letter. case_bool_decide as H1; [|case_bool_decide as H2].
  - subst. destruct p; split; try done.
  - subst. destruct p; split; try done.
  - split; [done|]. intros ->. by destruct p.
Qed.
Lemma tree_search_spec k ph s g : tree_search k ph s = FGrid g ↔ StationGrid k ph s g.
Proof.
  unfold NllTtt_Model.tree_search, StationGrid. split.
  - destruct (phase_of ph) as [p|] eqn:E; [|done]. destruct (near k p s) as [| |i d] eqn:E2; try done.
    destruct (Rlt_dec _ _) as [?|Hn]; [done|]. intros [= <-]. exists p, i, d. split; [by apply phase_letter|].
    split; [done|]. split; [lra|done].
  - intros (p & i & d & HL & HN & Hd & ->). apply phase_letter in HL. rewrite HL, HN.
    destruct (Rlt_dec _ _); [lra|done].
Qed.
Lemma vel_search_spec ph g : vel_search ph = FGrid g ↔ VelocityGrid ph g.
Proof.
  unfold NllTtt_Model.vel_search, VelocityGrid. split.
  - destruct (phase_of ph) as [p|] eqn:E; [|done]. destruct (hasvel p) eqn:Eh; [|done]. intros [= <-].
    exists p. split; [by apply phase_letter|done].
  - intros (p & HL & Hh & ->). apply phase_letter in HL. by rewrite HL, Hh.
Qed.

(** The three kinds of entries of the cache *)
Inductive entry := ETree (k : kind) (ph : text) (s : St) | EVel (ph : text).
Definition key_of (e : entry) : text := match e with ETree k ph s => tree_key k ph s | EVel ph => vel_key ph end.
Definition fnd_of (e : entry) : found := match e with ETree k ph s => tree_search k ph s | EVel ph => vel_search ph end.
Definition sel_of (e : entry) : holder → option gref :=
  match e with ETree KTime _ _ => h_time | ETree KAngle _ _ => h_angle | EVel _ => h_vel end.
Definition mk_of (e : entry) : gref → holder :=
  match e with ETree KTime _ _ => mk_time | ETree KAngle _ _ => mk_angle | EVel _ => mk_vel end.
Definition rem_of (e : entry) : bool := match e with ETree _ _ _ => true | EVel _ => false end.
Notation acc can e := (access can (key_of e) (sel_of e) (mk_of e) (fnd_of e) (rem_of e)).

Lemma sel_mk e g : sel_of e (mk_of e g) = Some g.
Proof. by destruct e as [[] ? ?|?]. Qed.
Lemma grids_mk e g : holder_grids (mk_of e g) = [g].
Proof. by destruct e as [[] ? ?|?]. Qed.

Section keys.
Hypothesis Hok : labels_ok.
Hypothesis Htell : labels_tell.
Lemma key_tree_inj k ph s k' ph' s' : tree_key k ph s = tree_key k' ph' s' → k = k' ∧ ph = ph' ∧ lab s = lab s'.
Proof using Hok.
  unfold NllTtt_Model.tree_key. destruct (Hok s) as (H1 & H2 & H3), (Hok s') as (H4 & H5 & H6).
  destruct (lab s) as [[a b] c], (lab s') as [[a' b'] c']. simpl in *. intros E.
  apply colon_inj in E as [E ->]; [|done..]. apply colon_inj in E as [E ->]; [|done..].
  apply colon_inj in E as [E ->]; [|done..].
  destruct k, k'; cbn in E; try discriminate.
  - by injection E as ->.
  - by injection E as ->.
Qed.
Lemma key_mixed k ph s ph' : tree_key k ph s ≠ vel_key ph'.
Proof using. unfold NllTtt_Model.tree_key. destruct (lab s) as [[a b] c]. by destruct k. Qed.
Lemma key_same e e' : key_of e = key_of e' → fnd_of e = fnd_of e' ∧ sel_of e = sel_of e' ∧ mk_of e = mk_of e'.
Proof using Hok Htell.
  destruct e as [k ph s|ph], e' as [k' ph' s'|ph']; simpl; intros E.
  - apply key_tree_inj in E as (-> & -> & E). split; [|done].
    unfold NllTtt_Model.tree_search. destruct (phase_of ph'); [|done]. by rewrite (Htell s s').
  - by apply key_mixed in E.
  - symmetry in E. by apply key_mixed in E.
  - unfold vel_key in E. apply app_inv_head in E as ->. done.
Qed.

(** ** Invariants *)
Record Cached (s : nll) : Prop := {
  c_inv : Inv (n_cache s);
  c_cb : l_cb (n_cache s) = true;
  c_items : ∀ n, n ∈ l_items (n_cache s) → ∃ e g, n_key n = key_of e ∧ n_val n = mk_of e g ∧ fnd_of e = FGrid g }.
(** with a fixed set of files *)
Record Fixed (can : gref → bool) (s : nll) : Prop := {
  f_open : ∀ g, g ∈ n_open s → can g = true;
  f_bad : ∀ key, key ∈ n_bad s → ∃ e, key = key_of e ∧ ∀ g, fnd_of e = FGrid g → can g = false }.
(** open grids are held by the cache *)
Definition Held (s : nll) : Prop :=
  ∀ g, g ∈ n_open s → ∃ n, n ∈ l_items (n_cache s) ∧ g ∈ holder_grids (n_val n).

Lemma open_grid_spec can key e g s :
  key = key_of e → fnd_of e = FGrid g → Cached s →
  let r := open_grid can key g s in
  Cached r.1 ∧ n_cache r.1 = n_cache s ∧
  ((r.2 = Val g ∧ g ∈ n_open r.1) ∨ (r.2 = Exc EOpenFails ∧ n_open r.1 = n_open s)) ∧
  (Fixed can s → Fixed can r.1 ∧ (r.2 = Val g ↔ can g = true)) ∧
  (∀ g', g' ∈ n_open r.1 → g' = g ∨ g' ∈ n_open s).
Proof using.
  clear Hok Htell tval vval aval eazi. intros -> Hf HC r. subst r. unfold open_grid. case_bool_decide as Ho; [|destruct (can g) eqn:Ec]; simpl.
  - split; [done|]. split; [done|]. split; [by left|]. split; [|tauto].
    intros F. split; [done|]. split; [|done]. intros _. by apply (f_open _ _ F).
  - split; [by destruct HC; split|]. split; [done|]. split; [left; split; [done|set_solver]|].
    split; [|set_solver]. intros [F1 F2]. split; [|done]. split; simpl; [|done].
    intros g' [->%elem_of_singleton|H]%elem_of_union; auto.
  - split; [by destruct HC; split|]. split; [done|]. split; [by right|]. split; [|tauto].
    intros [F1 F2]. split; [|split; [done|congruence]]. split; simpl; [done|].
    intros key [->%elem_of_singleton|H]%elem_of_union; [|auto]. exists e. split; [done|]. intros g' H. congruence.
Qed.

Lemma access_spec can e s :
  Cached s → fnd_of e ≠ FUndef →
  let r := acc can e s in
  Cached r.1 ∧ l_max (n_cache r.1) = l_max (n_cache s) ∧
  ((∃ g, r.2 = Val g ∧ fnd_of e = FGrid g ∧ g ∈ n_open r.1) ∨ r.2 = Exc ENotFound ∨ r.2 = Exc EOpenFails) ∧
  (Fixed can s → Fixed can r.1 ∧ ∀ g, fnd_of e = FGrid g → (r.2 = Val g ↔ can g = true)) ∧
  (Held s → l_max (n_cache s) ≠ 0%nat → Held r.1).
Proof using Hok Htell.
  clear tval vval aval eazi. intros HC Hu r. subst r. unfold access.

  destruct (get_spec (n_cache s) (key_of e) (c_inv _ HC)) as (c & rr & -> & HI & Hm & Hcb & Hcase).
  destruct Hcase as [(Hk & -> & ->)|(n & Hn & Hkey & -> & Hit)].
  - (* a miss *)
    assert (Nll (n_cache s) (n_bad s) (n_open s) = s) as Es by (by destruct s).
    case_bool_decide as Hb.
    { simpl. rewrite Es. split; [done|]. split; [done|]. split; [auto|]. split; [|done].
      intros F. split; [done|]. intros g Hg. destruct (f_bad _ _ F _ Hb) as (e' & E1 & E2).
      destruct (key_same _ _ E1) as (E3 & _). rewrite E3 in Hg. rewrite (E2 _ Hg). done. }
    destruct (fnd_of e) as [| |g] eqn:Ef; [|done|].
    { simpl. split; [by destruct HC; split|]. split; [done|]. split; [auto|]. split; [|done].
      intros [F1 F2]. split; [|done]. split; simpl; [done|]. destruct (rem_of e); [|done].
      intros key [->%elem_of_singleton|H]%elem_of_union; [|auto]. exists e. split; [done|]. intros g. by rewrite Ef. }
    destruct (put_spec (n_cache s) (key_of e) (mk_of e g) HI) as (c' & calls & -> & HI' & Hm' & Hcb' & Hput).
    set (s1 := Nll c' (n_bad s) (close_popped calls (n_open s))).
    assert (Cached s1) as HC1.
    { split; simpl; [done|rewrite Hcb'; apply HC|]. case_bool_decide as H0.
      - destruct Hput as [-> _]. apply HC.
      - destruct Hput as [Hi _]. intros n Hn. rewrite Hi in Hn. apply elem_of_take in Hn as (j & Hn & _).
        apply elem_of_list_lookup_2 in Hn. unfold put_items in Hn. apply elem_of_cons in Hn as [->|Hn].
        + exists e, g. done.
        + apply elem_of_list_filter in Hn as [_ Hn]. by apply HC. }
    destruct (open_grid_spec can (key_of e) e g s1) as (R1 & R2 & R3 & R4 & R5); [done..|].
    split; [done|]. split; [by rewrite R2|]. split; [|split].
    + destruct R3 as [[-> ?]|[-> _]]; [left; eauto|auto].
    + intros F. assert (Fixed can s1) as F1.
      { destruct F as [F1 F2]. split; [|done]. simpl. unfold close_popped. set_solver. }
      destruct (R4 F1) as [? ?]. split; [done|]. intros g' [= <-]. done.
    + intros HH H0. rewrite bool_decide_eq_false_2 in Hput by done. destruct Hput as [Hi Hc].
      rewrite (c_cb _ HC) in Hc.
      intros g' Hg'. rewrite R2. simpl. rewrite Hi. apply R5 in Hg' as [->|Hg'].
      * exists (Lru_Model.Node (l_next (n_cache s)) (key_of e) (mk_of e g)). split; [|simpl; rewrite grids_mk; by left].
        unfold put_items. destruct (l_max (n_cache s)); [done|]. simpl. left.
      * simpl in Hg'. unfold close_popped in Hg'. apply elem_of_difference in Hg' as [Hg' Hn'].
        destruct (HH _ Hg') as (n & Hn & Hgn). exists n. split; [|done].
        assert (n ∈ put_items (n_cache s) (key_of e) (mk_of e g)) as Hp.
        { unfold put_items. right. apply elem_of_list_filter. split; [|done]. intros E. apply Hk. apply elem_of_list_fmap.
          eauto. }
        rewrite <-(take_drop (l_max (n_cache s)) (put_items _ _ _)) in Hp. apply elem_of_app in Hp as [Hp|Hp]; [done|].
        destruct Hn'. apply elem_of_list_to_set. apply elem_of_list_bind. exists (n_key n, n_val n).
        split; [done|]. rewrite Hc. apply elem_of_list_fmap. eauto.
  - (* a hit *)
    destruct (c_items _ HC n Hn) as (e' & g & E1 & E2 & E3).
    assert (key_of e' = key_of e) as EE by congruence. destruct (key_same _ _ EE) as (K1 & K2 & K3).
    rewrite E2, <-K2, sel_mk. set (s1 := Nll c (n_bad s) (n_open s)).
    assert (∀ m, m ∈ l_items c ↔ m ∈ l_items (n_cache s)) as Hsame.
    { intros m. rewrite Hit. rewrite elem_of_cons, elem_of_list_filter. split; [intros [->|[_ ?]]; done|].
      intros Hm'. destruct (decide (n_key m = key_of e)) as [E|]; [left|by right].
      apply elem_of_list_lookup in Hn as (i & Hi). apply elem_of_list_lookup in Hm' as (j & Hj).
      assert (i = j); [|congruence].
      eapply (NoDup_lookup _ i j (key_of e)); [apply (inv_keys _ (c_inv _ HC))|..];
        rewrite list_lookup_fmap, ?Hi, ?Hj; simpl; congruence. }
    assert (Cached s1) as HC1.
    { split; simpl; [done|rewrite Hcb; apply HC|]. intros m Hm'. apply Hsame in Hm'. by apply HC. }
    destruct (open_grid_spec can (key_of e) e g s1) as (R1 & R2 & R3 & R4 & R5); [done|congruence|done|].
    split; [done|]. split; [rewrite R2; done|]. split; [|split].
    + destruct R3 as [[-> ?]|[-> _]]; [left; exists g; split; [done|split; [congruence|done]]|auto].
    + intros F. assert (Fixed can s1) as F1 by (by destruct F). destruct (R4 F1) as [? ?]. split; [done|].
      intros g' Hg'. assert (g' = g) as -> by congruence. done.
    + intros HH _ g' Hg'. rewrite R2. simpl. apply R5 in Hg' as [->|Hg'].
      * exists n. split; [by apply Hsame|]. rewrite E2, grids_mk. by left.
      * destruct (HH _ Hg') as (m & Hm' & ?). exists m. split; [by apply Hsame|done].
Qed.

(** ** Whole calls *)
Hypothesis Hdef : near_defined.
Lemma fnd_defined e : fnd_of e ≠ FUndef.
Proof using Hdef.
  destruct e as [k ph s|ph]; simpl; unfold NllTtt_Model.tree_search, NllTtt_Model.vel_search;
    destruct (phase_of ph) as [p|]; try done.
  - pose proof (Hdef k p s). destruct (near k p s); try done. by destruct (Rlt_dec _ _).
  - by destruct (hasvel p).
Qed.

(** what all calls keep *)
Definition Keep (can : gref → bool) (s s' : nll) : Prop :=
  Cached s' ∧ l_max (n_cache s') = l_max (n_cache s) ∧ (Fixed can s → Fixed can s') ∧
  (Held s → l_max (n_cache s) ≠ 0%nat → Held s').
Lemma Keep_trans can s1 s2 s3 : Keep can s1 s2 → Keep can s2 s3 → Keep can s1 s3.
Proof using. intros (A1 & A2 & A3 & A4) (B1 & B2 & B3 & B4). split; [done|]. split; [congruence|]. split; [auto|].
  intros. apply B4; [auto|congruence]. Qed.
Lemma Keep_refl can s : Cached s → Keep can s s.
Proof using. intros HC. split; [done|]. split; [done|]. split; auto. Qed.

(** an access and the read after it *)
Definition accread {A} (f : gref → Q → option A) can e q s := obind (acc can e s) (λ s g, read f g q s).
Lemma accread_spec {A} (f : gref → Q → option A) can e q s : Cached s →
  let r := accread f can e q s in
  Keep can s r.1 ∧ r.2 ≠ UB ∧ r.2 ≠ Exc EClosed ∧
  (∀ x, r.2 = Val x → ∃ g, fnd_of e = FGrid g ∧ f g q = Some x) ∧
  (Fixed can s → ∀ x, r.2 = Val x ↔ ∃ g, fnd_of e = FGrid g ∧ can g = true ∧ f g q = Some x).
Proof using Hok Htell Hdef.
  intros HC r. subst r. unfold accread, obind.
  destruct (access_spec can e s HC (fnd_defined e)) as (R1 & R2 & R3 & R4 & R5).
  destruct (acc can e s) as [s1 r1]. simpl in *.
  assert (Keep can s s1) as HK.
  { split; [done|]. split; [done|]. split; [|done]. intros F. by apply R4. }
  destruct R3 as [(g & -> & Hg & Ho)|Hx].
  - unfold read. rewrite bool_decide_eq_true_2 by done. simpl. split; [done|].
    split; [by destruct (f g q)|]. split; [by destruct (f g q)|]. split.
    + intros x Hx. exists g. split; [done|]. destruct (f g q); congruence.
    + intros F x. destruct (R4 F) as [_ Hc]. specialize (Hc g Hg). split.
      * intros Hx. exists g. split; [done|]. split; [by apply Hc|]. destruct (f g q); congruence.
      * intros (g' & Hg' & _ & Hx). assert (g' = g) as -> by congruence. by rewrite Hx.
  - assert (∃ e', r1 = Exc e' ∧ e' ≠ EClosed) as (e' & -> & He) by (destruct Hx as [-> | ->]; eauto).
    simpl. split; [done|]. split; [done|]. split; [congruence|]. split; [done|].
    intros F x. split; [done|]. intros (g & Hg & Hcan & _). destruct (R4 F) as [_ Hc].
    specialize (Hc g Hg). destruct Hx as [Hx|Hx]; rewrite Hx in Hc; apply Hc in Hcan; congruence.
Qed.

Notation compute_time := (compute_time lab near maxdist tval).
Notation compute_full := (compute_full lab near hasvel maxdist tval vval aval eazi).
Lemma compute_time_acc can x ph q s : compute_time can x ph q s = accread tval can (ETree KTime ph x) q s.
Proof using. done. Qed.
Lemma obind_assoc {A B C} (m : nll * out A) (f : nll → A → nll * out B) (g : nll → B → nll * out C) :
  obind (obind m f) g = obind m (λ s a, obind (f s a) g).
Proof using. by destruct m as [s []]. Qed.
Lemma compute_full_acc can x ph q s : compute_full can x ph q s =
  obind (accread tval can (ETree KTime ph x) q s) (λ s tt,
  obind (accread vval can (EVel ph) q s) (λ s v,
  obind (accread aval can (ETree KAngle ph x) q s) (λ s ad, (s, Val (angles eazi q x tt v ad))))).
Proof using.
  unfold NllTtt_Model.compute_full. rewrite compute_time_acc.
  destruct (accread tval can (ETree KTime ph x) q s) as [s1 [t| |]]; [|done..].
  unfold obind at 1 6. cbn [fst snd]. unfold accread at 1. rewrite obind_assoc.
  cbn [key_of sel_of mk_of fnd_of rem_of].
  destruct (access can (vel_key ph) h_vel mk_vel (vel_search ph) false s1) as [s2 [g| |]]; [|done..].
  unfold obind at 1 5. cbn [fst snd].
  destruct (read vval g q s2) as [s3 [v| |]]; [|done..].
  unfold obind at 1 4. cbn [fst snd].
  unfold accread. by rewrite obind_assoc.
Qed.

Notation step := (step lab near hasvel maxdist tval vval aval eazi).
Notation run := (run lab near hasvel maxdist tval vval aval eazi).

Lemma compute_full_spec can x ph q s : Cached s →
  let r := compute_full can x ph q s in
  Keep can s r.1 ∧ r.2 ≠ UB ∧ r.2 ≠ Exc EClosed ∧
  (∀ a, r.2 = Val a → ∃ gt gv ga t v ad, StationGrid KTime ph x gt ∧ VelocityGrid ph gv ∧ StationGrid KAngle ph x ga ∧
     tval gt q = Some t ∧ vval gv q = Some v ∧ aval ga q = Some ad ∧ a = angles eazi q x t v ad) ∧
  (Fixed can s → ∀ a, r.2 = Val a ↔
     ∃ gt gv ga t v ad, (StationGrid KTime ph x gt ∧ VelocityGrid ph gv ∧ StationGrid KAngle ph x ga) ∧
     (can gt = true ∧ can gv = true ∧ can ga = true) ∧
     (tval gt q = Some t ∧ vval gv q = Some v ∧ aval ga q = Some ad) ∧ a = angles eazi q x t v ad).
Proof using Hok Htell Hdef.
  intros HC r. subst r. rewrite compute_full_acc.
  destruct (accread_spec tval can (ETree KTime ph x) q s HC) as (A1 & A2 & A3 & A4 & A5).
  destruct (accread tval can (ETree KTime ph x) q s) as [s1 r1]. simpl in A1, A2, A3, A4, A5.
  destruct r1 as [t|e|]; [|cbn [obind fst snd]|done].
  2: { split; [done|]. split; [done|]. split; [congruence|]. split; [done|]. intros F a. split; [done|].
    intros (gt & gv & ga & t & v & ad & (S1 & S2 & S3) & (C1 & C2 & C3) & (V1 & V2 & V3) & _).
    assert (@Exc R e = Val t) by (apply (A5 F); exists gt; split; [by apply tree_search_spec|done]). done. }
  cbn [obind fst snd].
  destruct (accread_spec vval can (EVel ph) q s1 (proj1 A1)) as (B1 & B2 & B3 & B4 & B5).
  destruct (accread vval can (EVel ph) q s1) as [s2 r2]. simpl in B1, B2, B3, B4, B5.
  assert (Fixed can s → Fixed can s1) as FS1 by apply A1.
  destruct r2 as [v|e|]; [|cbn [obind fst snd]|done].
  2: { split; [by eapply Keep_trans|]. split; [done|]. split; [congruence|]. split; [done|]. intros F a. split; [done|].
    intros (gt & gv & ga & t' & v & ad & (S1 & S2 & S3) & (C1 & C2 & C3) & (V1 & V2 & V3) & _).
    assert (@Exc R e = Val v) by (apply (B5 (FS1 F)); exists gv; split; [by apply vel_search_spec|done]). done. }
  cbn [obind fst snd].
  destruct (accread_spec aval can (ETree KAngle ph x) q s2 (proj1 B1)) as (D1 & D2 & D3 & D4 & D5).
  destruct (accread aval can (ETree KAngle ph x) q s2) as [s3 r3]. simpl in D1, D2, D3, D4, D5.
  assert (Fixed can s1 → Fixed can s2) as FS2 by apply B1.
  destruct r3 as [ad|e|]; [|cbn [obind fst snd]|done].
  2: { split; [by eapply Keep_trans, Keep_trans|]. split; [done|]. split; [congruence|]. split; [done|]. intros F a. split; [done|].
    intros (gt & gv & ga & t' & v' & ad & (S1 & S2 & S3) & (C1 & C2 & C3) & (V1 & V2 & V3) & _).
    assert (@Exc (option R * R) e = Val ad) by (apply (D5 (FS2 (FS1 F))); exists ga; split; [by apply tree_search_spec|done]). done. }
  cbn [obind fst snd]. split; [by eapply Keep_trans, Keep_trans|]. split; [done|]. split; [done|]. split.
  - intros a [= <-]. destruct (A4 t eq_refl) as (gt & Ht & Vt), (B4 v eq_refl) as (gv & Hv & Vv), (D4 ad eq_refl) as (ga & Ha & Va).
    exists gt, gv, ga, t, v, ad. apply tree_search_spec in Ht, Ha. apply vel_search_spec in Hv. done.
  - intros F a. split.
    + intros [= <-]. destruct (proj1 (A5 F t) eq_refl) as (gt & Ht & Ct & Vt), (proj1 (B5 (FS1 F) v) eq_refl) as (gv & Hv & Cv & Vv),
        (proj1 (D5 (FS2 (FS1 F)) ad) eq_refl) as (ga & Ha & Ca & Va).
      exists gt, gv, ga, t, v, ad. apply tree_search_spec in Ht, Ha. apply vel_search_spec in Hv. done.
    + intros (gt & gv & ga & t' & v' & ad' & (S1 & S2 & S3) & (C1 & C2 & C3) & (V1 & V2 & V3) & ->).
      assert (Val t = Val t') as [= ->] by (apply (A5 F); exists gt; split; [by apply tree_search_spec|done]).
      assert (Val v = Val v') as [= ->] by (apply (B5 (FS1 F)); exists gv; split; [by apply vel_search_spec|done]).
      assert (Val ad = Val ad') as [= ->] by (apply (D5 (FS2 (FS1 F))); exists ga; split; [by apply tree_search_spec|done]).
      done.
Qed.

Lemma clear_cached s : Cached s → Cached (close_open_files s).
Proof using.
  intros [HI Hcb Hit]. split; simpl; [|done|intros n Hn; by apply elem_of_nil in Hn].
  split; simpl; [constructor|constructor|intros n Hn; by apply elem_of_nil in Hn| |lia].
  intros k i. rewrite lookup_empty. split; [done|]. intros (n & Hn & _). by apply elem_of_nil in Hn.
Qed.
Lemma init_cached mx : Cached (nll_init mx).
Proof using.
  split; simpl; [|done|intros n Hn; by apply elem_of_nil in Hn].
  split; simpl; [constructor|constructor|intros n Hn; by apply elem_of_nil in Hn| |lia].
  intros k i. rewrite lookup_empty. split; [done|]. intros (n & Hn & _). by apply elem_of_nil in Hn.
Qed.

Lemma step_cached can c s : Cached s → Cached (step can c s).1 ∧ l_max (n_cache (step can c s).1) = l_max (n_cache s) ∧
  (Fixed can s → Fixed can (step can c s).1) ∧
  (c ≠ CClose → Held s → l_max (n_cache s) ≠ 0%nat → Held (step can c s).1).
Proof using Hok Htell Hdef.
  intros HC. destruct c as [x ph q|x ph q|]; simpl.
  - destruct (accread_spec tval can (ETree KTime ph x) q s HC) as ((K1 & K2 & K3 & K4) & _). auto.
  - destruct (compute_full_spec can x ph q s HC) as ((K1 & K2 & K3 & K4) & _). auto.
  - split; [by apply clear_cached|]. split; [done|]. split; [|done]. by intros [F1 F2].
Qed.
Lemma run_cached cs s : Cached s → Cached (run cs s).1 ∧ l_max (n_cache (run cs s).1) = l_max (n_cache s).
Proof using Hok Htell Hdef.
  revert s. induction cs as [|[can c] cs IH]; intros s HC; [done|]. simpl.
  destruct (step_cached can c s HC) as (S1 & S2 & _). destruct (IH _ S1) as [I1 I2]. split; [done|congruence].
Qed.
Lemma run_fixed can cs s : Cached s → Fixed can s → Fixed can (run ((λ c, (can, c)) <$> cs) s).1.
Proof using Hok Htell Hdef.
  revert s. induction cs as [|c cs IH]; intros s HC HF; [done|]. simpl.
  destruct (step_cached can c s HC) as (S1 & _ & S3 & _). auto.
Qed.
Lemma run_held cs s : Cached s → l_max (n_cache s) ≠ 0%nat → Forall (λ c, c.2 ≠ CClose) cs → Held s → Held (run cs s).1.
Proof using Hok Htell Hdef.
  revert s. induction cs as [|[can c] cs IH]; intros s HC Hm Hcs HH; [done|]. simpl.
  apply Forall_cons in Hcs as [Hc Hcs].
  destruct (step_cached can c s HC) as (S1 & S2 & _ & S4). apply IH; [done|congruence|done|by apply S4].
Qed.
Lemma init_fixed can mx : Fixed can (nll_init mx).
Proof using. split; simpl; [intros g Hg; by apply elem_of_empty in Hg|intros k Hk; by apply elem_of_empty in Hk]. Qed.

(** C53: whatever was computed before, with files that may come and go, and for any cache size: the
    time is that of the nearest grid of the station and phase within the search distance; the code
    never reads a closed grid and has no undefined behaviour. *)
Theorem C53_time_sound mx cs can x ph q :
  let r := (compute_time can x ph q (run cs (nll_init mx)).1).2 in
  r ≠ UB ∧ r ≠ Exc EClosed ∧ ∀ t, r = Val t → ∃ g, StationGrid KTime ph x g ∧ tval g q = Some t.
Proof using Hok Htell Hdef.
  intros r. subst r. destruct (run_cached cs _ (init_cached mx)) as [HC _].
  destruct (accread_spec tval can (ETree KTime ph x) q _ HC) as (_ & A2 & A3 & A4 & _). split; [done|]. split; [done|].
  intros t Ht. destruct (A4 t Ht) as (g & Hg & ?). exists g. split; [by apply tree_search_spec|done].
Qed.

(** C53: if the files that can be opened stay the same, a travel time is given exactly if the grid
    of the station can be opened and has a value at the event, and it is that value: it does not
    depend on the history nor on the size of the cache. *)
Theorem C53_time mx can cs x ph q t :
  (compute_time can x ph q (run ((λ c, (can, c)) <$> cs) (nll_init mx)).1).2 = Val t ↔
  ∃ g, StationGrid KTime ph x g ∧ can g = true ∧ tval g q = Some t.
Proof using Hok Htell Hdef.
  destruct (run_cached ((λ c, (can, c)) <$> cs) _ (init_cached mx)) as [HC _].
  destruct (accread_spec tval can (ETree KTime ph x) q _ HC) as (_ & _ & _ & _ & A5).
  rewrite (A5 (run_fixed can cs _ (init_cached mx) (init_fixed can mx)) t).
  split; intros (g & Hg & ?); exists g; (split; [|done]); by apply tree_search_spec.
Qed.

Theorem C53_full_sound mx cs can x ph q :
  let r := (compute_full can x ph q (run cs (nll_init mx)).1).2 in
  r ≠ UB ∧ r ≠ Exc EClosed ∧
  ∀ a, r = Val a → ∃ gt gv ga t v ad, StationGrid KTime ph x gt ∧ VelocityGrid ph gv ∧ StationGrid KAngle ph x ga ∧
     tval gt q = Some t ∧ vval gv q = Some v ∧ aval ga q = Some ad ∧ a = angles eazi q x t v ad.
Proof using Hok Htell Hdef.
  intros r. subst r. destruct (run_cached cs _ (init_cached mx)) as [HC _].
  destruct (compute_full_spec can x ph q _ HC) as (_ & A2 & A3 & A4 & _). done.
Qed.
Theorem C53_full mx can cs x ph q a :
  (compute_full can x ph q (run ((λ c, (can, c)) <$> cs) (nll_init mx)).1).2 = Val a ↔
  ∃ gt gv ga t v ad, (StationGrid KTime ph x gt ∧ VelocityGrid ph gv ∧ StationGrid KAngle ph x ga) ∧
     (can gt = true ∧ can gv = true ∧ can ga = true) ∧
     (tval gt q = Some t ∧ vval gv q = Some v ∧ aval ga q = Some ad) ∧ a = angles eazi q x t v ad.
Proof using Hok Htell Hdef.
  destruct (run_cached ((λ c, (can, c)) <$> cs) _ (init_cached mx)) as [HC _].
  destruct (compute_full_spec can x ph q _ HC) as (_ & _ & _ & _ & A5).
  apply (A5 (run_fixed can cs _ (init_cached mx) (init_fixed can mx)) a).
Qed.
(** The two entry points agree on the time. *)
Theorem C53_agree mx can cs cs' x ph q a :
  (compute_full can x ph q (run ((λ c, (can, c)) <$> cs) (nll_init mx)).1).2 = Val a →
  (compute_time can x ph q (run ((λ c, (can, c)) <$> cs') (nll_init mx)).1).2 = Val (a_time a).
Proof using Hok Htell Hdef.
  intros H. apply C53_full in H as (gt & gv & ga & t & v & ad & (S1 & _) & (C1 & _) & (V1 & _) & ->).
  apply C53_time. eauto.
Qed.

(** C53: at most maxOpenFiles grids are open after each call, if there is room for one and
    closeOpenFiles was not called. *)
Theorem C53_open_bound mx cs : (0 < mx)%nat → Forall (λ c, c.2 ≠ CClose) cs →
  (size (n_open (run cs (nll_init mx)).1) ≤ mx)%nat.
Proof using Hok Htell Hdef.
  intros Hm Hcs. destruct (run_cached cs _ (init_cached mx)) as [HC HM]. simpl in HM.
  assert (Held (run cs (nll_init mx)).1) as HH.
  { apply run_held; [apply init_cached|simpl; lia|done|]. intros g Hg. by apply elem_of_empty in Hg. }
  set (s := (run cs (nll_init mx)).1) in *. clearbody s.
  assert (n_open s ⊆ list_to_set (l_items (n_cache s) ≫= λ n, holder_grids (n_val n))) as Hsub.
  { intros g Hg. destruct (HH g Hg) as (n & Hn & Hgn). apply elem_of_list_to_set, elem_of_list_bind. eauto. }
  assert (∀ (l : list (node text holder)), (∀ n, n ∈ l → length (holder_grids (n_val n)) ≤ 1)%nat →
    (length (l ≫= λ n, holder_grids (n_val n)) ≤ length l)%nat) as HL.
  { induction l as [|n l IH]; intros Hl; [done|]. rewrite bind_cons, app_length. simpl.
    assert (length (holder_grids (n_val n)) ≤ 1)%nat by (apply Hl; left).
    assert (length (l ≫= λ n, holder_grids (n_val n)) ≤ length l)%nat by (apply IH; intros; apply Hl; by right). lia. }
  apply subseteq_size in Hsub. etrans; [exact Hsub|]. etrans; [apply size_list_to_set_le|].
  etrans; [apply HL|].
  - intros n Hn. destruct (c_items _ HC n Hn) as (e & g & _ & -> & _). by rewrite grids_mk.
  - rewrite <-HM. apply (inv_cap _ (c_inv _ HC)).
Qed.
End keys.
End props.

(** ** Examples and what does not hold *)
Section examples.
(** Station i has the grid i at its place, printed as i marks. *)
Definition ex_lab (i : nat) : text * text * text := (replicate i "1"%char, [], []).
Definition ex_near (k : kind) (p : bool) (i : nat) : @nnres R := NNFound i 0.
Definition ex_P : text := ["P"%char].
Variable val : gref → R.
Definition ex_tval (g : gref) (_ : unit) : option R := Some (val g).
Definition ex_aval (g : gref) (_ : unit) : option (option R * R) := Some (None, 90).
Definition ex_all (_ : gref) : bool := true.

Lemma ex_labels : labels_ok ex_lab.
Proof using.
  clear val. intros s. simpl. split; [|split; apply not_elem_of_nil].
  intros H. apply elem_of_replicate_inv in H. done.
Qed.
Lemma ex_tell : labels_tell ex_lab ex_near.
Proof using. clear val. intros s s' k p [= H]. f_equal. by rewrite <-(replicate_length s "1"%char), H, replicate_length. Qed.
Lemma ex_defined : near_defined ex_near.
Proof using. done. Qed.
Lemma ex_grid k i : StationGrid ex_near 1 k ex_P i (GTree k true i).
Proof using. exists true, i, 0. split; [done|]. split; [done|]. split; [lra|done]. Qed.
Lemma ex_search k i : tree_search ex_near 1 k ex_P i = FGrid (GTree k true i).
Proof using. apply tree_search_spec, ex_grid. Qed.

Notation ex_time := (compute_time ex_lab ex_near 1 ex_tval).
Notation ex_run := (run ex_lab ex_near (λ _, true) 1 ex_tval ex_tval ex_aval (λ _ _, 0)).
Notation ex_full := (compute_full ex_lab ex_near (λ _, true) 1 ex_tval ex_tval ex_aval (λ _ _, 0)).

(** Room for one file, three stations in turn: always the grid of the station; one file is open. *)
Example C53_time_example cs :
  (ex_time ex_all 3%nat ex_P () (ex_run ((λ c, (ex_all, c)) <$> cs) (nll_init 1)).1).2 = Val (val (GTree KTime true 3)).
Proof using.
  apply (C53_time _ _ _ _ _ _ _ _ ex_labels ex_tell ex_defined). eexists. split; [apply ex_grid|]. done.
Qed.
Example C53_full_example cs :
  (ex_full ex_all 3%nat ex_P () (ex_run ((λ c, (ex_all, c)) <$> cs) (nll_init 1)).1).2 =
  Val (Ans (val (GTree KTime true 3)) (radToDeg 0) 90 (cos (degToRad (90 - 90)) / km2deg (val (GVel true)) 0)
           (sin (degToRad (90 - 90)) / val (GVel true))).
Proof using.
  apply (C53_full _ _ _ _ _ _ _ _ ex_labels ex_tell ex_defined).
  exists (GTree KTime true 3), (GVel true), (GTree KAngle true 3). eexists _, _, _.
  split; [split; [apply ex_grid|split; [by exists true|apply ex_grid]]|]. done.
Qed.
Example C53_open_bound_example :
  (size (n_open (ex_run [(ex_all, CTime 1%nat ex_P ()); (ex_all, CTime 2%nat ex_P ()); (ex_all, CFull 3%nat ex_P ())] (nll_init 2)).1) ≤ 2)%nat.
Proof using.
  apply (C53_open_bound _ _ _ _ _ _ _ _ ex_labels ex_tell ex_defined); [lia|]. by repeat apply Forall_cons_2.
Qed.

(** closeOpenFiles forgets the grids but does not close them: with room for one file, any number
    of grids may be open after enough calls. *)
Lemma ex_key_fresh i s : l_map (n_cache s) = ∅ → lru_get (n_cache s) (tree_key ex_lab KTime ex_P i) = Some (n_cache s, RThrow).
Proof using. intros H. unfold lru_get. by rewrite H, lookup_empty. Qed.

Fixpoint ex_closing (n : nat) : list ((gref → bool) * call) :=
  match n with 0 => [] | S n => ex_closing n ++ [(ex_all, CTime n ex_P ()); (ex_all, CClose)] end%nat.
Lemma ex_run_app cs cs' s : (ex_run (cs ++ cs') s).1 = (ex_run cs' (ex_run cs s).1).1.
Proof using. revert s. induction cs as [|[can c] cs IH]; intros s; [done|]. apply IH. Qed.
Lemma ex_closing_state n :
  (ex_run (ex_closing n) (nll_init 1)).1 =
  Nll (Lru [] ∅ 1 true n) ∅ (list_to_set (GTree KTime true <$> seq 0 n)).
Proof using.
  induction n as [|n IH]; [done|].
  rewrite (seq_S n 0), fmap_app, list_to_set_app_L. cbn [ex_closing]. rewrite ex_run_app, IH. clear IH.
  cbn [run step fst snd]. unfold compute_time, access. rewrite ex_search, ex_key_fresh by done.
  cbn [n_cache n_bad n_open]. rewrite bool_decide_eq_false_2 by (apply not_elem_of_empty).
  unfold lru_put. cbn [l_map l_max l_cb l_next l_items]. rewrite bool_decide_eq_false_2 by lia.
  rewrite lookup_empty. rewrite bool_decide_eq_false_2.
  2: { rewrite insert_empty, map_size_singleton. lia. }
  unfold close_popped, open_grid. cbn [n_cache n_bad n_open].
  rewrite bool_decide_eq_false_2.
  2: { simpl. rewrite elem_of_difference, elem_of_list_to_set, elem_of_list_fmap. intros [(m & [= <-] & Hm) _].
       apply elem_of_seq in Hm. lia. }
  cbn [ex_all obind fst snd]. unfold read, close_open_files, lru_clear. cbn. f_equal. set_solver.
Qed.
Theorem C53_close_refuted n : ∃ cs, size (n_open (ex_run cs (nll_init 1)).1) = n.
Proof using.
  exists (ex_closing n). rewrite ex_closing_state. cbn [n_open].
  rewrite size_list_to_set; [by rewrite fmap_length, seq_length|].
  apply NoDup_fmap_2; [|apply NoDup_seq]. by intros ? ? [= ->].
Qed.

(** maxOpenFiles = 0: nothing is ever closed. *)
Lemma ex_zero_state n :
  (ex_run ((λ i, (ex_all, CTime i ex_P ())) <$> seq 0 n) (nll_init 0)).1 =
  Nll (Lru [] ∅ 0 true 0) ∅ (list_to_set (GTree KTime true <$> seq 0 n)).
Proof using.
  induction n as [|n IH]; [done|].
  rewrite (seq_S n 0), !fmap_app, ex_run_app, IH, list_to_set_app_L. clear IH.
  cbn [run step fst snd fmap list_fmap Nat.add]. unfold compute_time, access. rewrite ex_search, ex_key_fresh by done.
  cbn [n_cache n_bad n_open]. rewrite bool_decide_eq_false_2 by (apply not_elem_of_empty).
  unfold lru_put. cbn [l_map l_max l_cb l_next l_items]. rewrite bool_decide_eq_true_2 by done.
  unfold close_popped, open_grid. cbn [n_cache n_bad n_open].
  rewrite bool_decide_eq_false_2.
  2: { simpl. set_solver. }
  cbn [ex_all obind fst snd]. unfold read. cbn. f_equal.
  assert (GTree KTime true n ∉ (list_to_set (GTree KTime true <$> seq 0 n) : gset gref)); [|set_solver].
  rewrite elem_of_list_to_set, elem_of_list_fmap. intros (m & [= <-] & Hm). apply elem_of_seq in Hm. lia.
Qed.
Theorem C53_zero_refuted n : ∃ cs, Forall (λ c, c.2 ≠ CClose) cs ∧ size (n_open (ex_run cs (nll_init 0)).1) = n.
Proof using.
  exists ((λ i, (ex_all, CTime i ex_P ())) <$> seq 0 n). split.
  - apply Forall_fmap, Forall_forall. done.
  - rewrite ex_zero_state. cbn [n_open].
    rewrite size_list_to_set; [by rewrite fmap_length, seq_length|].
    apply NoDup_fmap_2; [|apply NoDup_seq]. by intros ? ? [= ->].
Qed.

(** A file that could not be opened once: as long as the key is in the cache it is tried again, later
    the station is refused for ever although the file is there. The answer depends on the history. *)
Theorem C53_transient_refuted :
  ∃ cs, (ex_time ex_all 0%nat ex_P () (nll_init 1)).2 = Val (val (GTree KTime true 0)) ∧
        (ex_time ex_all 0%nat ex_P () (ex_run cs (nll_init 1)).1).2 = Exc ENotFound ∧
        Forall (λ c, c.1 (GTree KTime true 0) = false ∨ c.2 = CTime 1%nat ex_P ()) cs.
Proof using.
  exists [((λ _, false), CTime 0%nat ex_P ()); (ex_all, CTime 1%nat ex_P ())].
  split; [|split].
  - unfold compute_time. rewrite ex_search. vm_compute. done.
  - cbn [run step fst snd]. unfold compute_time. rewrite !ex_search. vm_compute. done.
  - apply Forall_cons. split; [by left|]. apply Forall_cons. split; [by right|done].
Qed.
(** A file that is missing first and appears while the key is cached is used. *)
Example C53_retry_example :
  (ex_time ex_all 0%nat ex_P () (ex_run [((λ _, false), CTime 0%nat ex_P ())] (nll_init 1)).1).2 = Val (val (GTree KTime true 0)).
Proof using. cbn [run step fst snd]. unfold compute_time. rewrite !ex_search. vm_compute. done. Qed.

(** Two stations that print alike (closer than a millionth of a degree): the second one gets the
    grid of the first. *)
Theorem C53_alike_refuted :
  ∃ lab : nat → text * text * text, labels_ok lab ∧
  let time := compute_time lab ex_near 1 ex_tval in
  (time ex_all 1%nat ex_P () (nll_init 4)).2 = Val (val (GTree KTime true 1)) ∧
  (time ex_all 1%nat ex_P () (time ex_all 0%nat ex_P () (nll_init 4)).1).2 = Val (val (GTree KTime true 0)).
Proof using.
  exists (λ _, ([], [], [])). split.
  { intros s. simpl. split; [|split]; apply not_elem_of_nil. }
  cbv zeta. unfold compute_time. rewrite !ex_search. split; vm_compute; done.
Qed.
End examples.

(** C53: the grid found in the tree of the grids is the nearest one, if the bound used to skip
    branches is valid (C27). *)
Theorem C53_nearest (pts : kind → bool → nat → gpoint) (cnt : kind → bool → nat) (pos : nat → gpoint) nth dmax maxdist :
  (∀ k p, nth_spec Rle (gcoord (pts k p)) nth) →
  (∀ k p s i, (i < cnt k p)%nat → gdist (pts k p) (pos s) i < dmax) →
  let near k p s := geo_nn_search (pts k p) (pos s) nth (cnt k p) dmax in
  near_defined near ∧
  ∀ k ph s g, StationGrid near maxdist k ph s g →
    ∃ p i, Letter ph p ∧ g = GTree k p i ∧ (i < cnt k p)%nat ∧ gdist (pts k p) (pos s) i * 1000 <= maxdist ∧
      (bound_valid Rle (gcoord (pts k p)) (gquery (pos s)) (gdist (pts k p) (pos s)) (gadist (pts k p) (pos s)) (cnt k p) →
       ∀ j, (j < cnt k p)%nat → gdist (pts k p) (pos s) i <= gdist (pts k p) (pos s) j).
Proof.
  intros Hn Hd near.
  assert (∀ k p s, match near k p s with
    | NNEmpty => cnt k p = 0%nat | NNUndef => False
    | NNFound i d => (i < cnt k p)%nat ∧ d = gdist (pts k p) (pos s) i ∧
       (bound_valid Rle (gcoord (pts k p)) (gquery (pos s)) (gdist (pts k p) (pos s)) (gadist (pts k p) (pos s)) (cnt k p) →
        ∀ j, (j < cnt k p)%nat → gdist (pts k p) (pos s) i <= gdist (pts k p) (pos s) j) end) as H.
  { intros k p s. apply (C26_nn_search Rle (gcoord (pts k p)) nth (Hn k p)). intros i Hi. apply Rlt_not_le. by apply Hd. }
  split.
  - intros k p s E. specialize (H k p s). by rewrite E in H.
  - intros k ph s g (p & i & d & HL & HN & Hm & ->). specialize (H k p s). rewrite HN in H.
    destruct H as (H1 & -> & H2). exists p, i. done.
Qed.

Print Assumptions C53_time_sound.
Print Assumptions C53_time.
Print Assumptions C53_full_sound.
Print Assumptions C53_full.
Print Assumptions C53_agree.
Print Assumptions C53_open_bound.
Print Assumptions C53_close_refuted.
Print Assumptions C53_zero_refuted.
Print Assumptions C53_transient_refuted.
Print Assumptions C53_alike_refuted.
Print Assumptions C53_nearest.
