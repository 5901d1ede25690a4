(** Proofs about clusterizeNeighbouringEvents. *)
From stdpp Require Import gmap list sets relations.
From Verif Require Import Cluster_Model Cluster_Spec.

Section proofs.
Context {P : Type}.
Variable pick : nat → gset N → N.
Variable ord : nat → gset N → list N.
Hypothesis pick_in : ∀ t X, X ≠ ∅ → pick t X ∈ X.
Hypothesis ord_perm : ∀ t X, ord t X ≡ₚ elements X.
Variable G : gmap N (nb P).
Hypothesis Gkey : well_keyed G.

Notation refs l := (nb_ref <$> l).

Lemma linked_sym x y : linked G x y → linked G y x.
Proof. intros (?&?&[?|?]); split; auto. Qed.
Lemma connected_sym x y : connected G x y → connected G y x.
Proof.
  induction 1 as [|x y z Hl _ IH]; [constructor|].
  eapply rtc_r; [done|]. by apply linked_sym.
Qed.

Definition inC (cls : gmap N (list (nb P))) (n : nb P) : Prop :=
  ∃ c v, cls !! c = Some v ∧ n ∈ v.

Record GInv (s : cst P) : Prop := {
  g_todo : ∀ k n, c_todo s !! k = Some n → G !! k = Some n;
  g_ref : ∀ n, inC (c_cls s) n → is_Some (G !! nb_ref n) ∧ c_todo s !! nb_ref n = None;
  g_cid : ∀ x c, c_cid s !! x = Some c ↔
                 ∃ v n, c_cls s !! c = Some v ∧ n ∈ v ∧ nb_ref n = x;
  g_nodup : ∀ c v, c_cls s !! c = Some v → NoDup (refs v);
  g_ne : ∀ c v, c_cls s !! c = Some v → v ≠ [];
  g_done : ∀ x, is_Some (G !! x) → c_todo s !! x = None → is_Some (c_cid s !! x);
  g_same : ∀ x y p c, c_cid s !! x = Some c → lists G x y p → is_Some (G !! y) →
                      c_cid s !! y = Some c;
  g_conn : ∀ x y c, c_cid s !! x = Some c → c_cid s !! y = Some c → connected G x y;
  g_sub : ∀ n y p, inC (c_cls s) n → nb_phs n !! y = Some p → lists G (nb_ref n) y p;
  g_cover : ∀ n y p, inC (c_cls s) n → lists G (nb_ref n) y p →
     nb_phs n !! y = Some p ∨
     ∃ m, inC (c_cls s) m ∧ nb_ref m = y ∧ y ≠ nb_ref n ∧ is_Some (nb_phs m !! nb_ref n);
  g_excl : ∀ n m, inC (c_cls s) n → inC (c_cls s) m → nb_ref n ≠ nb_ref m →
     is_Some (nb_phs n !! nb_ref m) → is_Some (nb_phs m !! nb_ref n) → False }.

Lemma ginv_init : GInv (Cst G ∅ ∅).
Proof.
  split; simpl; try done.
  - intros n (c & v & Hc & _). by rewrite lookup_empty in Hc.
  - intros x c. rewrite lookup_empty. split; [done|]. intros (v & n & Hc & _).
    by rewrite lookup_empty in Hc.
  - intros x [n Hn] Hn2. congruence.
  - intros n y p (c & v & Hc & _). by rewrite lookup_empty in Hc.
  - intros n y p (c & v & Hc & _). by rewrite lookup_empty in Hc.
  - intros n m (c & v & Hc & _). by rewrite lookup_empty in Hc.
Qed.

(** Traversal invariant, for a round started in state [s] from event [e0]. *)
Record TInv (s : cst P) (e0 : N) (i : trav P) : Prop := {
  ti_todo : ∀ x, t_todo i !! x = if decide (x ∈ refs (t_cur i)) then None else c_todo s !! x;
  ti_nodup : NoDup (refs (t_cur i));
  ti_cur : ∀ n, n ∈ t_cur i → is_Some (c_todo s !! nb_ref n);
  ti_evs : ∀ e, e ∈ t_evs i → is_Some (G !! e) → connected G e0 e;
  ti_curc : ∀ n, n ∈ t_cur i → connected G e0 (nb_ref n);
  ti_conn : ∀ c, c ∈ t_conn i → ∃ x, c_cid s !! x = Some c ∧ connected G e0 x;
  ti_front : ∀ n y p, n ∈ t_cur i → lists G (nb_ref n) y p → is_Some (G !! y) →
     y ∈ refs (t_cur i) ∨ y ∈ t_evs i ∨ ∃ c, c ∈ t_conn i ∧ c_cid s !! y = Some c;
  ti_root : e0 ∈ t_evs i ∨ e0 ∈ refs (t_cur i);
  ti_pairs : ∀ y x, (y, x) ∈ t_pairs i ↔
     ∃ n, n ∈ t_cur i ∧ nb_ref n = x ∧ is_Some (nb_phs n !! y);
  ti_sub : ∀ n y p, n ∈ t_cur i → nb_phs n !! y = Some p → lists G (nb_ref n) y p;
  ti_cover : ∀ n y p, n ∈ t_cur i → lists G (nb_ref n) y p →
     nb_phs n !! y = Some p ∨
     ∃ m, m ∈ t_cur i ∧ nb_ref m = y ∧ y ≠ nb_ref n ∧ is_Some (nb_phs m !! nb_ref n);
  ti_excl : ∀ n m, n ∈ t_cur i → m ∈ t_cur i → nb_ref n ≠ nb_ref m →
     is_Some (nb_phs n !! nb_ref m) → is_Some (nb_phs m !! nb_ref n) → False }.

Lemma removes_spec (l : list (N * N)) (g : nb P) :
  let g' := fold_left (λ n p, nb_remove n p.2) l g in
  nb_ref g' = nb_ref g ∧
  ∀ y, nb_phs g' !! y = if decide (y ∈ l.*2) then None else nb_phs g !! y.
Proof.
  revert g. induction l as [|[a b] l IH]; intros g.
  { split; [done|]. intros y. rewrite decide_False; [done|apply not_elem_of_nil]. }
  cbn [fold_left].
  destruct (IH (nb_remove g b)) as [H1 H2]. split; [done|]. intros y. rewrite H2.
  simpl. destruct (decide (y ∈ l.*2)) as [Hin|Hin].
  - rewrite decide_True; [done|]. by right.
  - destruct (decide (b = y)) as [->|Hne].
    + rewrite lookup_delete, decide_True; [done|]. left.
    + rewrite lookup_delete_ne by done. rewrite decide_False; [done|].
      rewrite elem_of_cons. naive_solver.
Qed.

Lemma visit_inv s e0 i e :
  GInv s → is_Some (c_todo s !! e0) → TInv s e0 i → e ∈ t_evs i → TInv s e0 (visit (c_cid s) i e).
Proof.
  intros GI He0 T He.
  assert (∀ c, c_cid s !! e = Some c → connected G e0 e) as Hec.
  { intros c Hc. apply (ti_evs _ _ _ T); [done|].
    apply (g_cid _ GI) in Hc as (v & n & Hv & Hn & <-). apply (g_ref _ GI). by exists c, v. }
  set (conn := match c_cid s !! e with Some c => {[c]} ∪ t_conn i | None => t_conn i end).
  assert (∀ c, c ∈ conn ↔ c ∈ t_conn i ∨ c_cid s !! e = Some c) as Hconn.
  { intros c. unfold conn. destruct (c_cid s !! e) as [c'|]; [set_solver|naive_solver]. }
  unfold visit. fold conn. destruct (t_todo i !! e) as [g|] eqn:Eg.
  - (* the event has not been processed yet *)
    pose proof (ti_todo _ _ _ T e) as Et. rewrite Eg in Et.
    destruct (decide (e ∈ refs (t_cur i))) as [|Hnc]; [done|].
    assert (G !! e = Some g) as EG by (by apply (g_todo _ GI)).
    assert (nb_ref g = e) as Hr by (by apply Gkey).
    assert (c_cid s !! e = None) as Hnocid.
    { destruct (c_cid s !! e) as [c|] eqn:E; [|done].
      apply (g_cid _ GI) in E as (v & n & Hv & Hn & Hx).
      destruct (g_ref _ GI n) as [_ Hc]; [by exists c, v|]. rewrite Hx in Hc. congruence. }
    rewrite Hr.
    set (seen := filter (λ p, p.1 = e) (t_pairs i)).
    destruct (removes_spec seen g) as [Href Hphs].
    set (g' := fold_left (λ n p, nb_remove n p.2) seen g) in *.
    rewrite Hr in Href.
    assert (∀ y, y ∈ seen.*2 ↔ ∃ n, n ∈ t_cur i ∧ nb_ref n = y ∧ is_Some (nb_phs n !! e)) as Hseen.
    { intros y. rewrite <-(ti_pairs _ _ _ T). unfold seen. rewrite elem_of_list_fmap. split.
      - intros ([a b] & -> & Hin). apply elem_of_list_filter in Hin as [Ha Hin].
        simpl in *. by subst.
      - intros Hin. exists (e, y). split; [done|]. apply elem_of_list_filter. done. }
    assert (connected G e0 e) as Hce by (apply (ti_evs _ _ _ T); eauto).
    assert (∀ y p, lists G e y p ↔ nb_phs g !! y = Some p) as Hlg.
    { intros y p. unfold lists. rewrite EG. naive_solver. }
    assert (∀ y p, nb_phs g' !! y = Some p → nb_phs g !! y = Some p) as Hsub.
    { intros y p. rewrite Hphs. case_decide; done. }
    split; simpl.
    + intros x. rewrite fmap_app. simpl. rewrite Href.
      destruct (decide (x = e)) as [->|Hne].
      * rewrite lookup_delete, decide_True; [done|]. apply elem_of_app. right. by left.
      * rewrite lookup_delete_ne by done. rewrite (ti_todo _ _ _ T).
        apply decide_ext. rewrite elem_of_app, elem_of_list_singleton. naive_solver.
    + rewrite fmap_app. apply NoDup_app. split; [apply T|]. split; [|apply NoDup_singleton].
      intros x Hx Hx2. simpl in Hx2. rewrite Href in Hx2.
      apply elem_of_list_singleton in Hx2. by subst.
    + intros n Hn. apply elem_of_app in Hn as [Hn|Hn]; [by apply T|].
      apply elem_of_list_singleton in Hn as ->. rewrite Href. eauto.
    + intros x Hx Gx. apply elem_of_union in Hx as [Hx|Hx].
      { apply (ti_evs _ _ _ T); set_solver. }
      unfold nb_ids in Hx. apply elem_of_dom in Hx as [p Hp].
      eapply rtc_r; [exact Hce|]. split; [eauto|]. split; [done|]. left. exists p.
      by apply Hlg.
    + intros n Hn. apply elem_of_app in Hn as [Hn|Hn]; [by apply (ti_curc _ _ _ T)|].
      apply elem_of_list_singleton in Hn as ->. by rewrite Href.
    + intros c Hc. apply Hconn in Hc as [Hc|Hc]; [by apply T|]. congruence.
    + intros n y p Hn Hl Gy. apply elem_of_app in Hn as [Hn|Hn].
      * destruct (ti_front _ _ _ T n y p Hn Hl Gy) as [H1|[H1|(c & H1 & H2)]].
        -- left. rewrite fmap_app. apply elem_of_app. by left.
        -- destruct (decide (y = e)) as [->|Hne].
           ++ left. rewrite fmap_app. apply elem_of_app. right. simpl. rewrite Href. by left.
           ++ right. left. set_solver.
        -- right. right. exists c. split; [|done]. apply Hconn. by left.
      * apply elem_of_list_singleton in Hn as ->. rewrite Href in Hl.
        right. left. apply elem_of_union. right. unfold nb_ids. apply elem_of_dom. apply Hlg in Hl. eauto.
    + destruct (decide (e0 = e)) as [->|Hne].
      * right. rewrite fmap_app. apply elem_of_app. right. simpl. rewrite Href. by left.
      * destruct (ti_root _ _ _ T); [left; set_solver|].
        right. rewrite fmap_app. apply elem_of_app. by left.
    + intros y x. rewrite elem_of_app, (ti_pairs _ _ _ T), elem_of_list_fmap. split.
      * intros [(n & Hn & Hx & Hy)|(z & Hz & Hin)].
        -- exists n. split; [apply elem_of_app; by left|done].
        -- simplify_eq. exists g'. split; [apply elem_of_app; right; by left|].
           split; [done|]. apply elem_of_elements in Hin. unfold nb_ids in Hin. by apply elem_of_dom in Hin.
      * intros (n & Hn & Hx & Hy). apply elem_of_app in Hn as [Hn|Hn]; [left; eauto|].
        apply elem_of_list_singleton in Hn as ->. right. exists y. split; [congruence|].
        apply elem_of_elements. unfold nb_ids. by apply elem_of_dom.
    + intros n y p Hn Hp. apply elem_of_app in Hn as [Hn|Hn]; [by apply T|].
      apply elem_of_list_singleton in Hn as ->. rewrite Href. apply Hlg. by apply Hsub.
    + intros n y p Hn Hl. apply elem_of_app in Hn as [Hn|Hn].
      * destruct (ti_cover _ _ _ T n y p Hn Hl) as [?|(m & ? & ? & ?)]; [by left|].
        right. exists m. split; [apply elem_of_app; by left|done].
      * apply elem_of_list_singleton in Hn as ->. rewrite Href in *. apply Hlg in Hl.
        rewrite Hphs. case_decide as Hd; [|by left]. right.
        apply Hseen in Hd as (m & Hm & Hmy & Hme). exists m.
        split; [apply elem_of_app; by left|]. split; [done|]. split; [|done].
        intros ->. apply Hnc. rewrite <-Hmy. by apply elem_of_list_fmap_1.
    + intros n m Hn Hm Hne H1 H2.
      apply elem_of_app in Hn as [Hn|Hn]; apply elem_of_app in Hm as [Hm|Hm].
      * by eapply (ti_excl _ _ _ T n m).
      * apply elem_of_list_singleton in Hm as ->. rewrite Href in *.
        rewrite Hphs in H2. rewrite decide_True in H2; [by destruct H2|].
        apply Hseen. eauto.
      * apply elem_of_list_singleton in Hn as ->. rewrite Href in *.
        rewrite Hphs in H1. rewrite decide_True in H1; [by destruct H1|].
        apply Hseen. eauto.
      * apply elem_of_list_singleton in Hn as ->. by apply elem_of_list_singleton in Hm as ->.
  - (* already processed or not a listed event *)
    split; simpl; try apply T.
    + intros x Hx Gx. apply (ti_evs _ _ _ T); set_solver.
    + intros c Hc. apply Hconn in Hc as [Hc|Hc]; [by apply T|]. exists e. eauto.
    + intros n y p Hn Hl Gy.
      destruct (ti_front _ _ _ T n y p Hn Hl Gy) as [H1|[H1|(c & H1 & H2)]].
      * by left.
      * destruct (decide (y = e)) as [->|Hne]; [|right; left; set_solver].
        pose proof (ti_todo _ _ _ T e) as Et. rewrite Eg in Et.
        case_decide as Hd; [by left|]. right. right.
        destruct (g_done _ GI e Gy) as [c Hc]; [done|]. exists c. split; [|done].
        apply Hconn. by right.
      * right. right. exists c. split; [|done]. apply Hconn. by left.
    + pose proof (ti_todo _ _ _ T e) as Et. rewrite Eg in Et.
      destruct (ti_root _ _ _ T) as [Hr|Hr]; [|by right].
      destruct (decide (e0 = e)) as [->|Hne]; [|left; set_solver].
      case_decide as Hd; [by right|]. rewrite <-Et in He0. by destruct He0.
Qed.

Lemma visit_measure (cid : gmap N N) (i : trav P) e :
  e ∈ t_evs i → (∀ k n, t_todo i !! k = Some n → nb_ref n = k) →
  (size (t_todo (visit cid i e)) < size (t_todo i) ∨
   size (t_todo (visit cid i e)) = size (t_todo i) ∧
   size (t_evs (visit cid i e)) < size (t_evs i)).
Proof.
  intros He Hk. unfold visit. destruct (t_todo i !! e) as [g|] eqn:Eg; simpl.
  - left. rewrite (Hk _ _ Eg). rewrite map_size_delete_Some; [|eauto].
    assert (size (t_todo i) ≠ 0); [|lia]. apply map_size_non_empty_iff. intros E.
    rewrite E in Eg. by rewrite lookup_empty in Eg.
  - right. split; [done|]. rewrite size_difference by set_solver. rewrite size_singleton.
    assert (size (t_evs i) ≠ 0); [|lia]. apply size_non_empty_iff. set_solver.
Qed.

Lemma traverse_total s e0 i t :
  GInv s → is_Some (c_todo s !! e0) → TInv s e0 i →
  ∃ fuel t' i', (∀ fuel', fuel ≤ fuel' → traverse pick fuel' t (c_cid s) i = Done (t', i')) ∧
     TInv s e0 i' ∧ t_evs i' = ∅.
Proof.
  intros GI He0. 
  remember (size (t_todo i)) as a eqn:Ha.
  revert i t Ha. induction (lt_wf a) as [a _ IHa]. intros i t Ha.
  remember (size (t_evs i)) as b eqn:Hb. revert i t Ha Hb.
  induction (lt_wf b) as [b _ IHb]. intros i t Ha Hb T.
  destruct (decide (t_evs i = ∅)) as [E|E].
  - exists 1, t, i. split; [|done]. intros [|f] Hf; [lia|]. simpl. by rewrite decide_True.
  - pose proof (pick_in t _ E) as Hp.
    pose proof (visit_inv s e0 i _ GI He0 T Hp) as T'.
    assert (∀ k n, t_todo i !! k = Some n → nb_ref n = k) as Hk.
    { intros k n Hn. rewrite (ti_todo _ _ _ T) in Hn. case_decide; [done|].
      apply Gkey. by apply (g_todo _ GI). }
    assert (∃ fuel t' i', (∀ fuel', fuel ≤ fuel' →
       traverse pick fuel' (S t) (c_cid s) (visit (c_cid s) i (pick t (t_evs i))) = Done (t', i')) ∧
       TInv s e0 i' ∧ t_evs i' = ∅) as (fuel & t' & i' & Hf & Ti & Hi).
    { destruct (visit_measure (c_cid s) i _ Hp Hk) as [Hm|[Hm1 Hm2]].
      - eapply (IHa _); [|reflexivity|done]. lia.
      - eapply (IHb _); [|lia|reflexivity|done]. lia. }
    exists (S fuel), t', i'. split; [|done]. intros [|f] Hle; [lia|]. simpl.
    rewrite decide_False by done. apply Hf. lia.
Qed.

Lemma absorb_spec (l : list N) (cls : gmap N (list (nb P))) (cur : list (nb P)) :
  NoDup l → (∀ c, c ∈ l → is_Some (cls !! c)) →
  ∃ cls' cur', absorb l cls cur = Done (cls', cur') ∧
   (∀ c, cls' !! c = if decide (c ∈ l) then None else cls !! c) ∧
   (∃ rest, cur' = cur ++ rest ∧
    (∀ n, n ∈ rest ↔ ∃ c v, c ∈ l ∧ cls !! c = Some v ∧ n ∈ v) ∧
    ((∀ c v, c ∈ l → cls !! c = Some v → NoDup (refs v)) →
     (∀ c1 c2 v1 v2 n1 n2, c1 ∈ l → c2 ∈ l → cls !! c1 = Some v1 → cls !! c2 = Some v2 →
        n1 ∈ v1 → n2 ∈ v2 → nb_ref n1 = nb_ref n2 → c1 = c2) →
     NoDup (refs rest))).
Proof.
  revert cls cur. induction l as [|c l IH]; intros cls cur ND Hall.
  - exists cls, cur. split; [done|]. split.
    { intros c. rewrite decide_False; [done|apply not_elem_of_nil]. }
    exists []. rewrite app_nil_r. split; [done|]. split.
    + intros n. split; [by intros ?%elem_of_nil|]. intros (c & v & Hc & _).
      by apply elem_of_nil in Hc.
    + intros _ _. constructor.
  - apply NoDup_cons in ND as [Hc ND]. simpl.
    destruct (Hall c) as [v Hv]; [by left|]. rewrite Hv.
    destruct (IH (delete c cls) (cur ++ v) ND) as (cls' & cur' & E & H1 & rest & -> & H2 & H3).
    { intros c' Hc'. rewrite lookup_delete_ne by (by intros ->). apply Hall. by right. }
    exists cls', ((cur ++ v) ++ rest). split; [done|]. split.
    { intros c'. rewrite H1. destruct (decide (c' ∈ l)) as [Hin|Hin].
      - rewrite decide_True; [done|]. by right.
      - destruct (decide (c = c')) as [->|Hne].
        + rewrite lookup_delete, decide_True; [done|]. by left.
        + rewrite lookup_delete_ne by done. rewrite decide_False; [done|].
          rewrite elem_of_cons. naive_solver. }
    exists (v ++ rest). rewrite <-app_assoc. split; [done|]. split.
    + intros n. rewrite elem_of_app, H2. split.
      * intros [Hn|(c' & v' & Hc' & Hv' & Hn)].
        -- exists c, v. split; [by left|done].
        -- apply lookup_delete_Some in Hv' as [Hne Hv']. exists c', v'.
           split; [by right|done].
      * intros (c' & v' & Hc' & Hv' & Hn). apply elem_of_cons in Hc' as [->|Hc'].
        -- left. congruence.
        -- right. exists c', v'. split; [done|]. split; [|done].
           rewrite lookup_delete_ne; [done|]. by intros ->.
    + intros HN HD. rewrite fmap_app. apply NoDup_app. split.
      { apply (HN c); [by left|done]. }
      split.
      * intros x Hx1 Hx2. apply elem_of_list_fmap in Hx1 as (n1 & -> & Hn1).
        apply elem_of_list_fmap in Hx2 as (n2 & Heq & Hn2).
        apply H2 in Hn2 as (c' & v' & Hc' & Hv' & Hn2).
        apply lookup_delete_Some in Hv' as [Hne Hv'].
        apply Hne. eapply (HD c c' v v' n1 n2); try done; [by left|by right].
      * apply H3.
        -- intros c' v' Hc' Hv'. apply lookup_delete_Some in Hv' as [Hne Hv'].
           eapply HN; [|done]. by right.
        -- intros c1 c2 v1 v2 n1 n2 Hc1 Hc2 Hv1 Hv2.
           apply lookup_delete_Some in Hv1 as [_ Hv1]. apply lookup_delete_Some in Hv2 as [_ Hv2].
           apply HD; try done; by right.
Qed.

Lemma max_key_fresh {A} (m : gmap N A) : m !! (max_key m + 1)%N = None.
Proof.
  destruct (m !! (max_key m + 1)%N) as [a|] eqn:E; [|done]. exfalso.
  apply elem_of_map_to_list in E. unfold max_key in E.
  set (k := (foldr N.max 0 (map_to_list m).*1 + 1)%N) in *.
  assert (k ∈ (map_to_list m).*1) as Hk by (apply elem_of_list_fmap; by exists (k, a)).
  assert (∀ l x, x ∈ l → (x <= foldr N.max 0 l)%N) as Hmax.
  { induction l as [|y l IH]; intros x Hx; [by apply elem_of_nil in Hx|]. simpl.
    apply elem_of_cons in Hx as [->|Hx]; [lia|]. specialize (IH _ Hx). lia. }
  specialize (Hmax _ _ Hk). unfold k in Hmax. lia.
Qed.

Lemma setcid_spec (cur : list (nb P)) id (cid : gmap N N) x :
  fold_left (λ m n, <[nb_ref n := id]> m) cur cid !! x =
  if decide (x ∈ refs cur) then Some id else cid !! x.
Proof.
  revert cid. induction cur as [|n cur IH]; intros cid.
  { rewrite decide_False; [done|apply not_elem_of_nil]. }
  cbn [fold_left]. rewrite IH, fmap_cons. destruct (decide (x ∈ refs cur)) as [Hin|Hin].
  - rewrite decide_True; [done|]. by right.
  - destruct (decide (nb_ref n = x)) as [->|Hne].
    + rewrite lookup_insert, decide_True; [done|]. by left.
    + rewrite lookup_insert_ne by done. rewrite decide_False; [done|].
      rewrite elem_of_cons. naive_solver.
Qed.

Lemma tinv_init s e0 :
  is_Some (c_todo s !! e0) → TInv s e0 (Trav {[e0]} (c_todo s) [] [] ∅).
Proof.
  intros He0. split; simpl.
  - done.
  - constructor.
  - intros n Hn; by apply elem_of_nil in Hn.
  - intros e He _. apply elem_of_singleton in He as ->. constructor.
  - intros n Hn; by apply elem_of_nil in Hn.
  - set_solver.
  - intros n y p Hn; by apply elem_of_nil in Hn.
  - left. set_solver.
  - intros y x. split; [by intros ?%elem_of_nil|]. intros (n & Hn & _). by apply elem_of_nil in Hn.
  - intros n y p Hn; by apply elem_of_nil in Hn.
  - intros n y p Hn; by apply elem_of_nil in Hn.
  - intros n m Hn; by apply elem_of_nil in Hn.
Qed.

Lemma round_total s t :
  GInv s → c_todo s ≠ ∅ →
  ∃ fuel t' s', (∀ fuel', fuel ≤ fuel' → round pick ord fuel' t s = Done (t', s')) ∧
    GInv s' ∧ size (c_todo s') < size (c_todo s).
Proof.
  intros GI Hne.
  set (e0 := pick t (dom (c_todo s))).
  assert (is_Some (c_todo s !! e0)) as He0.
  { apply elem_of_dom. apply pick_in. intros E. by apply dom_empty_inv_L in E. }
  destruct (traverse_total s e0 _ (S t) GI He0 (tinv_init s e0 He0))
    as (fuel & t1 & i & Hf & T & Hevs).
  assert (NoDup (ord t1 (t_conn i))) as NDo.
  { rewrite ord_perm. apply NoDup_elements. }
  assert (∀ c, c ∈ ord t1 (t_conn i) ↔ c ∈ t_conn i) as Hord.
  { intros c. rewrite ord_perm. apply elem_of_elements. }
  destruct (absorb_spec (ord t1 (t_conn i)) (c_cls s) (t_cur i) NDo)
    as (cls' & cur' & Ha & Hcls & rest & Hcur & Hrest & HND).
  { intros c Hc. apply Hord in Hc. destruct (ti_conn _ _ _ T c Hc) as (x & Hx & _).
    apply (g_cid _ GI) in Hx as (v & n & Hv & _). eauto. }
  set (id := (max_key cls' + 1)%N).
  set (cid' := fold_left (λ m n, <[nb_ref n := id]> m) cur' (c_cid s)).
  exists fuel, (S t1), (Cst (t_todo i) (<[id := cur']> cls') cid').
  split.
  { intros f Hle. unfold round. fold e0. rewrite Hf by done. by rewrite Ha. }
  assert (cls' !! id = None) as Hid by apply max_key_fresh.
  (* membership in the new clusters *)
  assert (∀ n, inC (<[id := cur']> cls') n ↔ n ∈ t_cur i ∨ inC (c_cls s) n) as HinC.
  { intros n. split.
    - intros (c & v & Hc & Hn). apply lookup_insert_Some in Hc as [[<- <-]|[Hnec Hc]].
      + rewrite Hcur in Hn. apply elem_of_app in Hn as [Hn|Hn]; [by left|].
        apply Hrest in Hn as (c & v & _ & Hv & Hn). right. by exists c, v.
      + rewrite Hcls in Hc. case_decide; [done|]. right. by exists c, v.
    - intros [Hn|(c & v & Hc & Hn)].
      + exists id, cur'. rewrite lookup_insert. split; [done|]. rewrite Hcur.
        apply elem_of_app. by left.
      + destruct (decide (c ∈ ord t1 (t_conn i))) as [Hin|Hin].
        * exists id, cur'. rewrite lookup_insert. split; [done|]. rewrite Hcur.
          apply elem_of_app. right. apply Hrest. by exists c, v.
        * exists c, v. split; [|done]. rewrite lookup_insert_ne.
          { rewrite Hcls. by rewrite decide_False. }
          intros <-. rewrite Hcls, decide_False in Hid by done. congruence. }
  assert (∀ x, x ∈ refs (t_cur i) → c_cid s !! x = None) as Hcurnew.
  { intros x Hx. apply elem_of_list_fmap in Hx as (n & -> & Hn).
    destruct (c_cid s !! nb_ref n) as [c|] eqn:E; [|done].
    apply (g_cid _ GI) in E as (v & m & Hv & Hm & Hx).
    destruct (g_ref _ GI m) as [_ Hc]; [by exists c, v|]. rewrite Hx in Hc.
    destruct (ti_cur _ _ _ T n Hn) as [? ?]. congruence. }
  assert (∀ x, x ∈ refs rest ↔ ∃ c, c ∈ t_conn i ∧ c_cid s !! x = Some c) as Hrestx.
  { intros x. rewrite elem_of_list_fmap. split.
    - intros (n & -> & Hn). apply Hrest in Hn as (c & v & Hc & Hv & Hn).
      exists c. split; [by apply Hord|]. apply (g_cid _ GI). eauto.
    - intros (c & Hc & Hx). apply (g_cid _ GI) in Hx as (v & n & Hv & Hn & <-).
      exists n. split; [done|]. apply Hrest. exists c, v. split; [by apply Hord|done]. }
  assert (∀ x, cid' !! x = if decide (x ∈ refs (t_cur i) ∨ x ∈ refs rest) then Some id
                           else c_cid s !! x) as Hcid'.
  { intros x. unfold cid'. rewrite setcid_spec, Hcur, fmap_app. apply decide_ext.
    apply elem_of_app. }
  assert (∀ x c, c_cid s !! x = Some c → c ∉ t_conn i → c ≠ id) as Hidne.
  { intros x c Hx Hc ->. apply (g_cid _ GI) in Hx as (v & n & Hv & _).
    rewrite Hcls in Hid. rewrite decide_False in Hid by (by rewrite Hord). congruence. }
  assert (∀ x c, cid' !! x = Some c ↔
     (c = id ∧ (x ∈ refs (t_cur i) ∨ x ∈ refs rest)) ∨
     (c ∉ t_conn i ∧ c_cid s !! x = Some c)) as Hcid.
  { intros x c. rewrite Hcid'. case_decide as Hd.
    - split; [intros [= <-]; by left|]. intros [[-> _]|[Hc Hx]]; [done|]. exfalso.
      destruct Hd as [Hd|Hd]; [apply Hcurnew in Hd; congruence|].
      apply Hrestx in Hd as (c' & Hc' & Hx'). congruence.
    - split.
      + intros Hx. right. split; [|done]. intros Hc. apply Hd. right. apply Hrestx. eauto.
      + intros [[-> Hx]|[_ Hx]]; [tauto|done]. }
  assert (∀ x, x ∈ refs (t_cur i) ∨ x ∈ refs rest → connected G e0 x) as Hcon0.
  { intros x [Hx|Hx].
    - apply elem_of_list_fmap in Hx as (n & -> & Hn). by apply (ti_curc _ _ _ T).
    - apply Hrestx in Hx as (c & Hc & Hx). destruct (ti_conn _ _ _ T c Hc) as (y & Hy & Hcy).
      etrans; [exact Hcy|]. by eapply (g_conn _ GI). }
  split.
  { split; simpl.
    - intros k n Hk. rewrite (ti_todo _ _ _ T) in Hk. case_decide; [done|].
      by apply (g_todo _ GI).
    - intros n Hn. rewrite (ti_todo _ _ _ T). apply HinC in Hn as [Hn|Hn].
      + split.
        * destruct (ti_cur _ _ _ T n Hn) as [g Hg]. exists g. by apply (g_todo _ GI).
        * rewrite decide_True; [done|]. by apply elem_of_list_fmap_1.
      + destruct (g_ref _ GI n Hn) as [H1 H2]. split; [done|]. by case_decide.
    - intros x c. rewrite Hcid. split.
      + intros [[-> Hx]|[Hc Hx]].
        * exists cur'. assert (x ∈ refs cur') as Hx'.
          { rewrite Hcur, fmap_app. by apply elem_of_app. }
          apply elem_of_list_fmap in Hx' as (n & -> & Hn). exists n.
          by rewrite lookup_insert.
        * pose proof (Hidne _ _ Hx Hc).
          apply (g_cid _ GI) in Hx as (v & n & Hv & Hn & <-). exists v, n.
          rewrite lookup_insert_ne by done. rewrite Hcls, decide_False by (by rewrite Hord). done.
      + intros (v & n & Hv & Hn & <-). apply lookup_insert_Some in Hv as [[<- <-]|[Hnec Hv]].
        * left. split; [done|]. rewrite <-elem_of_app, <-fmap_app, <-Hcur.
          by apply elem_of_list_fmap_1.
        * rewrite Hcls in Hv. case_decide as Hd; [done|]. right.
          split; [by rewrite <-Hord|]. apply (g_cid _ GI). eauto.
    - intros c v Hv. apply lookup_insert_Some in Hv as [[<- <-]|[Hnec Hv]].
      + rewrite Hcur, fmap_app. apply NoDup_app. split; [apply T|]. split.
        * intros x Hx1 Hx2. apply Hcurnew in Hx1. apply Hrestx in Hx2 as (? & _ & ?). congruence.
        * apply HND.
          -- intros c v _ Hv. by apply (g_nodup _ GI c).
          -- intros c1 c2 v1 v2 n1 n2 _ _ Hv1 Hv2 Hn1 Hn2 Heq.
             assert (c_cid s !! nb_ref n1 = Some c1) by (apply (g_cid _ GI); eauto).
             assert (c_cid s !! nb_ref n2 = Some c2) by (apply (g_cid _ GI); eauto).
             congruence.
      + rewrite Hcls in Hv. case_decide; [done|]. by apply (g_nodup _ GI c).
    - intros c v Hv. apply lookup_insert_Some in Hv as [[<- <-]|[Hnec Hv]].
      + destruct (ti_root _ _ _ T) as [Hr|Hr]; [set_solver|].
        intros E. rewrite Hcur in E. apply app_eq_nil in E as [E _]. rewrite E in Hr.
        by apply elem_of_nil in Hr.
      + rewrite Hcls in Hv. case_decide; [done|]. by apply (g_ne _ GI c).
    - intros x Gx Hx. rewrite Hcid'. case_decide as Hd; [eauto|].
      apply (g_done _ GI); [done|]. rewrite (ti_todo _ _ _ T) in Hx.
      rewrite decide_False in Hx by tauto. done.
    - intros x y p c Hx Hl Gy. apply Hcid in Hx as [[-> Hx]|[Hc Hx]].
      + apply Hcid. left. split; [done|]. destruct Hx as [Hx|Hx].
        * apply elem_of_list_fmap in Hx as (n & -> & Hn).
          destruct (ti_front _ _ _ T n y p Hn Hl Gy) as [H1|[H1|(c & H1 & H2)]].
          -- by left.
          -- rewrite Hevs in H1. set_solver.
          -- right. apply Hrestx. eauto.
        * right. apply Hrestx in Hx as (c & Hc & Hx). apply Hrestx. exists c.
          split; [done|]. by eapply (g_same _ GI).
      + apply Hcid. right. split; [done|]. by eapply (g_same _ GI).
    - intros x y c Hx Hy. apply Hcid in Hx as [[-> Hx]|[Hc Hx]];
        apply Hcid in Hy as [[Hy' Hy]|[Hc' Hy]].
      + etrans; [apply connected_sym|]; by apply Hcon0.
      + exfalso. by eapply Hidne.
      + exfalso. by eapply Hidne.
      + by eapply (g_conn _ GI).
    - intros n y p Hn Hp. apply HinC in Hn as [Hn|Hn]; [by apply T|by apply GI].
    - intros n y p Hn Hl. apply HinC in Hn as [Hn|Hn].
      + destruct (ti_cover _ _ _ T n y p Hn Hl) as [?|(m & Hm & ?)]; [by left|].
        right. exists m. split; [|done]. apply HinC. by left.
      + destruct (g_cover _ GI n y p Hn Hl) as [?|(m & Hm & ?)]; [by left|].
        right. exists m. split; [|done]. apply HinC. by right.
    - assert (∀ n m, n ∈ t_cur i → inC (c_cls s) m → is_Some (nb_phs m !! nb_ref n) → False) as Hx.
      { intros n m Hn (c & v & Hv & Hm) [p Hp].
        assert (c_cid s !! nb_ref m = Some c) as Hc by (apply (g_cid _ GI); eauto).
        assert (lists G (nb_ref m) (nb_ref n) p) as Hl by (apply (g_sub _ GI); [by exists c, v|done]).
        destruct (ti_cur _ _ _ T n Hn) as [g Hg].
        assert (c_cid s !! nb_ref n = Some c) as Hc2.
        { eapply (g_same _ GI); [done|done|]. exists g. by apply (g_todo _ GI). }
        rewrite Hcurnew in Hc2; [done|]. by apply elem_of_list_fmap_1. }
      intros n m Hn Hm Hnm H1 H2. apply HinC in Hn as [Hn|Hn]; apply HinC in Hm as [Hm|Hm].
      + by eapply (ti_excl _ _ _ T n m).
      + by eapply Hx.
      + by eapply Hx.
      + by eapply (g_excl _ GI n m). }
  simpl. rewrite <-!(size_dom (D:=gset N)). apply subset_size. split.
  - intros k Hk. apply elem_of_dom in Hk as [n Hk]. rewrite (ti_todo _ _ _ T) in Hk.
    case_decide; [done|]. apply elem_of_dom. eauto.
  - intros Hsub. apply elem_of_dom in He0. apply Hsub, elem_of_dom in He0 as [g Hg2].
    rewrite (ti_todo _ _ _ T) in Hg2. rewrite decide_True in Hg2; [done|].
    destruct (ti_root _ _ _ T) as [Hr|Hr]; [set_solver|done].
Qed.

Lemma round_mono f f' t (s : cst P) r :
  f ≤ f' → round pick ord f t s = Done r → round pick ord f' t s = Done r.
Proof.
  intros Hle. unfold round.
  assert (∀ f f' t cid i r, f ≤ f' → traverse pick f t cid (i : trav P) = Done r →
            traverse pick f' t cid i = Done r) as Hm.
  { clear. induction f as [|f IH]; intros f' t cid i r Hle; [done|].
    destruct f' as [|f']; [lia|]. simpl. case_decide; [done|]. apply IH. lia. }
  destruct (traverse pick f _ _ _) as [[t1 i]| |] eqn:E; try done.
  by rewrite (Hm f f' _ _ _ _ Hle E).
Qed.

Lemma rounds_total s t :
  GInv s →
  ∃ fuel s', (∀ f g, fuel ≤ f → fuel ≤ g → rounds pick ord f g t s = Done s') ∧
    GInv s' ∧ c_todo s' = ∅.
Proof.
  remember (size (c_todo s)) as a eqn:Ha. revert s t Ha.
  induction (lt_wf a) as [a _ IH]. intros s t Ha GI.
  destruct (decide (c_todo s = ∅)) as [E|E].
  - exists 1, s. split; [|done]. intros [|f] g Hf Hg; [lia|]. simpl. by rewrite decide_True.
  - destruct (round_total s t GI E) as (f1 & t1 & s1 & H1 & GI1 & Hsz).
    destruct (IH (size (c_todo s1)) ltac:(lia) s1 t1 eq_refl GI1) as (f2 & s2 & H2 & GI2 & E2).
    exists (S (f1 `max` f2)), s2. split; [|done].
    intros [|f] g Hf Hg; [lia|]. simpl. rewrite decide_False by done.
    rewrite H1 by lia. apply H2; lia.
Qed.

Lemma to_map_spec (v : list (nb P)) x n :
  NoDup (refs v) → to_map v !! x = Some n ↔ n ∈ v ∧ nb_ref n = x.
Proof.
  intros ND. unfold to_map.
  set (f := λ (m : gmap N (nb P)) n, match m !! nb_ref n with
                    | Some _ => m | None => <[nb_ref n := n]> m end).
  assert (∀ v m, NoDup (refs v) → (∀ n, n ∈ v → m !! nb_ref n = None) →
     fold_left f v m !! x = Some n ↔ m !! x = Some n ∨ n ∈ v ∧ nb_ref n = x) as Gen.
  { clear v ND. induction v as [|a v IH]; intros m ND Hm.
    - simpl. split; [by left|]. intros [?|[Hin _]]; [done|]. by apply elem_of_nil in Hin.
    - rewrite fmap_cons in ND. apply NoDup_cons in ND as [Ha ND].
      cbn [fold_left]. unfold f at 2. rewrite (Hm a) by (by left). rewrite IH; [|done|].
      2:{ intros b Hb. rewrite lookup_insert_ne; [apply Hm; by right|].
          intros E. apply Ha. rewrite E. by apply elem_of_list_fmap_1. }
      rewrite lookup_insert_Some, elem_of_cons. split.
      + intros [[[<- <-]|[? ?]]|[? ?]]; [right; split; [by left|done]|by left|right; split; [by right|done]].
      + intros [Hx|[[->|Hn] Hr]].
        * left. right. split; [|done]. intros E. rewrite (Hm a) in Hx || idtac.
          specialize (Hm a (elem_of_list_here _ _)). congruence.
        * left. by left.
        * right. done. }
  rewrite Gen; [|done|intros; apply lookup_empty]. rewrite lookup_empty. naive_solver.
Qed.

(** The final result. *)
Lemma clusterize_result :
  ∃ fuel r, (∀ f, fuel ≤ f → clusterize pick ord f G = Done r) ∧
    ∃ s, GInv s ∧ c_todo s = ∅ ∧ r = to_map <$> (map_to_list (c_cls s)).*2.
Proof.
  destruct (rounds_total _ 0 ginv_init) as (fuel & s & H & GI & E).
  exists fuel, (to_map <$> (map_to_list (c_cls s)).*2). split.
  - intros f Hf. unfold clusterize. by rewrite H.
  - exists s. done.
Qed.

(** Any fuel giving a result gives that one. *)
Lemma clusterize_mono f f' r :
  f ≤ f' → clusterize pick ord f G = Done r → clusterize pick ord f' G = Done r.
Proof.
  unfold clusterize. intros Hle.
  assert (∀ f f' g g' t s r, f ≤ f' → g ≤ g' → rounds pick ord f g t (s : cst P) = Done r →
            rounds pick ord f' g' t s = Done r) as Hm.
  { clear. induction f as [|f IH]; intros f' g g' t s r Hle Hg; [done|].
    destruct f' as [|f']; [lia|]. simpl. case_decide; [done|].
    destruct (round pick ord g t s) as [[t1 s1]| |] eqn:E; try done.
    rewrite (round_mono g g' t s (t1, s1)) by done. apply IH; [lia|done]. }
  destruct (rounds pick ord f f 0 (Cst G ∅ ∅)) as [s| |] eqn:E; try done.
  by rewrite (Hm f f' f f' _ _ _ Hle Hle E).
Qed.

Lemma clusterize_inv f r :
  clusterize pick ord f G = Done r →
  ∃ s, GInv s ∧ c_todo s = ∅ ∧ r = to_map <$> (map_to_list (c_cls s)).*2.
Proof.
  intros E. destruct clusterize_result as (fuel & r' & H & Hs).
  apply (clusterize_mono f (f `max` fuel)) in E; [|lia].
  rewrite H in E by lia. simplify_eq. done.
Qed.

Lemma in_result s r i x :
  GInv s → r = to_map <$> (map_to_list (c_cls s)).*2 →
  in_cluster r i x ↔ ∃ c v, map_to_list (c_cls s) !! i = Some (c, v) ∧ c_cid s !! x = Some c.
Proof.
  intros GI ->. unfold in_cluster. split.
  - intros (m & Hi & Hx). rewrite <-list_fmap_compose, list_lookup_fmap in Hi.
    destruct (map_to_list (c_cls s) !! i) as [[c v]|] eqn:E; [|done]. simpl in Hi.
    simplify_eq. destruct Hx as [n Hn].
    assert (c_cls s !! c = Some v) as Hv.
    { apply elem_of_map_to_list. by eapply elem_of_list_lookup_2. }
    apply to_map_spec in Hn as [Hn <-]; [|by apply (g_nodup _ GI c)].
    exists c, v. split; [done|]. apply (g_cid _ GI). eauto.
  - intros (c & v & E & Hx).
    assert (c_cls s !! c = Some v) as Hv.
    { apply elem_of_map_to_list. by eapply elem_of_list_lookup_2. }
    apply (g_cid _ GI) in Hx as (v' & n & Hv' & Hn & Hx). rewrite Hv in Hv'. simplify_eq.
    exists (to_map v'). rewrite <-list_fmap_compose, list_lookup_fmap, E. split; [done|].
    exists n. apply to_map_spec; [by apply (g_nodup _ GI c)|done].
Qed.

Lemma kept_result s r x y p :
  GInv s → r = to_map <$> (map_to_list (c_cls s)).*2 →
  kept r x y p ↔ ∃ n, inC (c_cls s) n ∧ nb_ref n = x ∧ nb_phs n !! y = Some p.
Proof.
  intros GI ->. unfold kept. split.
  - intros (i & m & Hi & n & Hn & Hp). rewrite <-list_fmap_compose, list_lookup_fmap in Hi.
    destruct (map_to_list (c_cls s) !! i) as [[c v]|] eqn:E; [|done]. simpl in Hi. simplify_eq.
    assert (c_cls s !! c = Some v) as Hv.
    { apply elem_of_map_to_list. by eapply elem_of_list_lookup_2. }
    apply to_map_spec in Hn as [Hn <-]; [|by apply (g_nodup _ GI c)].
    exists n. split; [by exists c, v|done].
  - intros (n & (c & v & Hv & Hn) & <- & Hp).
    pose proof Hv as Hv'. apply elem_of_map_to_list, elem_of_list_lookup in Hv'. destruct Hv' as (i & Hi).
    exists i, (to_map v). rewrite <-list_fmap_compose, list_lookup_fmap, Hi. split; [done|].
    exists n. split; [|done]. apply to_map_spec; [by apply (g_nodup _ GI c)|done].
Qed.
End proofs.
