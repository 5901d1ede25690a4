(** Properties C32 and C33: clusterizeNeighbouringEvents, for every neighbour
    graph and every iteration order of the hash containers. *)
From stdpp Require Import gmap list sets relations.
From Verif Require Import Cluster_Model Cluster_Spec Cluster_Proofs.

(** What the oracles must satisfy: begin() gives an element, iteration visits
    each element once. *)
Definition valid_pick (pick : nat → gset N → N) : Prop := ∀ t X, X ≠ ∅ → pick t X ∈ X.
Definition valid_order (ord : nat → gset N → list N) : Prop := ∀ t X, ord t X ≡ₚ elements X.

(** C32. The procedure terminates without exception and without depending on
    the bound on the number of loop rounds. *)
Theorem C32_clusterize_terminates {P : Type} pick ord (G : gmap N (nb P)) :
  valid_pick pick → valid_order ord → well_keyed G →
  ∃ fuel r, ∀ f, fuel ≤ f → clusterize pick ord f G = Done r.
Proof.
  intros Hp Ho HG. destruct (clusterize_result pick ord Hp Ho G HG) as (fuel & r & H & _).
  eauto.
Qed.
Print Assumptions C32_clusterize_terminates.

(** C32. Each listed event is in exactly one cluster, a cluster contains only
    listed events and at least one, and two listed events are in the same
    cluster exactly when a chain of neighbour relations connects them. *)
Theorem C32_clusters_are_components {P : Type} pick ord (G : gmap N (nb P)) f r :
  valid_pick pick → valid_order ord → well_keyed G →
  clusterize pick ord f G = Done r →
  (∀ x, is_Some (G !! x) ↔ ∃ i, in_cluster r i x) ∧
  (∀ x i j, in_cluster r i x → in_cluster r j x → i = j) ∧
  (∀ i c, r !! i = Some c → ∃ x, in_cluster r i x) ∧
  (∀ x y, is_Some (G !! x) → is_Some (G !! y) →
     ((∃ i, in_cluster r i x ∧ in_cluster r i y) ↔ connected G x y)).
Proof.
  intros Hp Ho HG E.
  destruct (clusterize_inv pick ord Hp Ho G HG f r E) as (s & GI & Etodo & Hr).
  assert (∀ i x, in_cluster r i x ↔
     ∃ c v, map_to_list (c_cls s) !! i = Some (c, v) ∧ c_cid s !! x = Some c) as Hin.
  { intros i x. by apply (in_result G). }
  assert (∀ x c, c_cid s !! x = Some c → ∃ i v, map_to_list (c_cls s) !! i = Some (c, v)) as Hidx.
  { intros x c Hx. apply (g_cid _ _ GI) in Hx as (v & n & Hv & _).
    apply elem_of_map_to_list, elem_of_list_lookup in Hv as (i & Hi). eauto. }
  assert (∀ i j c v v', map_to_list (c_cls s) !! i = Some (c, v) →
            map_to_list (c_cls s) !! j = Some (c, v') → i = j) as Hinj.
  { intros i j c v v' Hi Hj.
    eapply (NoDup_lookup (map_to_list (c_cls s)).*1 i j c); [apply NoDup_fst_map_to_list|..];
      rewrite list_lookup_fmap, ?Hi, ?Hj; done. }
  split; [|split; [|split]].
  - intros x. split.
    + intros Gx. destruct (g_done _ _ GI x Gx) as [c Hc]; [by rewrite Etodo, lookup_empty|].
      destruct (Hidx _ _ Hc) as (i & v & Hi). exists i. apply Hin. eauto.
    + intros (i & Hi). apply Hin in Hi as (c & v & _ & Hx).
      apply (g_cid _ _ GI) in Hx as (v' & n & Hv' & Hn & <-).
      apply (g_ref _ _ GI). by exists c, v'.
  - intros x i j Hi Hj. apply Hin in Hi as (c & v & Hi & Hx).
    apply Hin in Hj as (c' & v' & Hj & Hx'). simplify_eq. by eapply Hinj.
  - intros i m Hi. rewrite Hr, <-list_fmap_compose, list_lookup_fmap in Hi.
    destruct (map_to_list (c_cls s) !! i) as [[c v]|] eqn:Em; [|done].
    assert (c_cls s !! c = Some v) as Hv.
    { apply elem_of_map_to_list. by eapply elem_of_list_lookup_2. }
    destruct v as [|n v]; [by apply (g_ne _ _ GI) in Hv|].
    exists (nb_ref n). apply Hin. exists c, (n :: v). split; [done|].
    apply (g_cid _ _ GI). exists (n :: v), n. split; [done|]. split; [by left|done].
  - intros x y Gx Gy. split.
    + intros (i & Hi & Hj). apply Hin in Hi as (c & v & Hi & Hx).
      apply Hin in Hj as (c' & v' & Hj & Hx'). simplify_eq. by eapply (g_conn _ _ GI).
    + intros Hc.
      destruct (g_done _ _ GI x Gx) as [c Hcx]; [by rewrite Etodo, lookup_empty|].
      assert (c_cid s !! y = Some c) as Hcy.
      { clear Gx Gy. induction Hc as [|x z y (Gx & Gz & Hl) _ IH]; [done|]. apply IH.
        destruct Hl as [[p Hl]|[p Hl]]; [by eapply (g_same _ _ GI)|].
        destruct (g_done _ _ GI z Gz) as [c' Hcz]; [by rewrite Etodo, lookup_empty|].
        rewrite (g_same _ _ GI z x p c' Hcz Hl Gx) in Hcx. congruence. }
      destruct (Hidx _ _ Hcx) as (i & v & Hi). exists i. split; apply Hin; eauto.
Qed.
Print Assumptions C32_clusters_are_components.

(** C33. For every pair of different listed events linked in either direction,
    exactly one direction is kept, namely one that was listed, with the phases
    listed for it; a link to an event that is not listed is kept as it is; and
    nothing else appears. *)
Theorem C33_each_pair_once {P : Type} pick ord (G : gmap N (nb P)) f r :
  valid_pick pick → valid_order ord → well_keyed G →
  clusterize pick ord f G = Done r →
  (∀ x y p, kept r x y p → lists G x y p) ∧
  (∀ x y p, lists G x y p → kept r x y p ∨ (x ≠ y ∧ ∃ q, kept r y x q)) ∧
  (∀ x y p q, x ≠ y → kept r x y p → kept r y x q → False).
Proof.
  intros Hp Ho HG E.
  destruct (clusterize_inv pick ord Hp Ho G HG f r E) as (s & GI & Etodo & Hr).
  assert (∀ x y p, kept r x y p ↔
     ∃ n, inC (c_cls s) n ∧ nb_ref n = x ∧ nb_phs n !! y = Some p) as Hk.
  { intros x y p. by apply (kept_result G). }
  split; [|split].
  - intros x y p Hx. apply Hk in Hx as (n & Hn & <- & Hp'). by apply (g_sub _ _ GI).
  - intros x y p Hl. assert (is_Some (G !! x)) as Gx by (destruct Hl as (n & ? & _); eauto).
    destruct (g_done _ _ GI x Gx) as [c Hc]; [by rewrite Etodo, lookup_empty|].
    apply (g_cid _ _ GI) in Hc as (v & n & Hv & Hn & <-).
    assert (inC (c_cls s) n) as HnC by (by exists c, v).
    destruct (g_cover _ _ GI n y p HnC Hl) as [Hp'|(m & Hm & <- & Hne & q & Hq)].
    + left. apply Hk. eauto.
    + right. split; [done|]. exists q. apply Hk. eauto.
  - intros x y p q Hne Hx Hy. apply Hk in Hx as (n & Hn & <- & Hp').
    apply Hk in Hy as (m & Hm & <- & Hq). by eapply (g_excl _ _ GI n m); eauto.
Qed.
Print Assumptions C33_each_pair_once.

(** Non-trivial instance: a graph with links in both directions, a link to an
    event that is not listed, an isolated event, and a cluster that has to be
    merged with one found before. *)
Definition ex_pick (t : nat) (X : gset N) : N := default 0%N (head (elements X)).
Definition ex_ord (t : nat) (X : gset N) : list N := elements X.
Definition ex_G : gmap N (nb N) :=
  list_to_map [(1, Nb 1 {[2 := 12]}); (2, Nb 2 {[1 := 21]}); (3, Nb 3 {[1 := 31; 9 := 39]});
               (4, Nb 4 ∅); (5, Nb 5 {[3 := 53; 2 := 52]})]%N.
Lemma ex_pick_valid : valid_pick ex_pick.
Proof.
  intros t X HX. unfold ex_pick. destruct (elements X) as [|x l] eqn:E.
  - apply elements_empty_inv in E. set_solver.
  - apply elem_of_elements. rewrite E. by left.
Qed.
Lemma ex_G_keyed : well_keyed ex_G.
Proof.
  intros k n Hk. apply elem_of_list_to_map_2 in Hk.
  repeat (apply elem_of_cons in Hk as [Hk|Hk]; [by simplify_eq|]). by apply elem_of_nil in Hk.
Qed.
Example cluster_nontrivial :
  ∃ r, clusterize ex_pick ex_ord 30 ex_G = Done r ∧ length r = 2.
Proof. eexists. split; [vm_compute; reflexivity|done]. Qed.
