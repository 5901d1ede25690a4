(** Property C04: IdToIndex is a bijection between the ids seen and 0..size-1. *)
From stdpp Require Import gmap list.
From Verif Require Import Index_Model.
Local Open Scope N_scope.

(** Distinct elements in order of first occurrence. *)
Fixpoint first_occ {T} `{EqDecision T} (seen : list T) (l : list T) : list T :=
  match l with
  | [] => seen
  | x :: r => if decide (x ∈ seen) then first_occ seen r else first_occ (seen ++ [x]) r
  end.

Section proofs.
Context {T : Type} `{Countable T}.

(** [l]: ids in order of first conversion. *)
Record Rep (s : idx T) (l : list T) : Prop := {
  rep_nodup : NoDup l;
  rep_len : N.of_nat (length l) < 2 ^ 32;
  rep_cur : i_cur s = N.of_nat (length l);
  rep_to : ∀ id i, i_to s !! id = Some i ↔ l !! N.to_nat i = Some id;
  rep_from : ∀ i, i_from s !! i = l !! N.to_nat i }.

Lemma rep_init : Rep idx_init [].
Proof.
  split; simpl; try done; try constructor.
  all: intros; rewrite ?lookup_empty, ?lookup_nil; done.
Qed.

Lemma rep_convert s l id :
  Rep s l → N.of_nat (S (length l)) < 2 ^ 32 →
  Rep (idx_convert s id).1 (if decide (id ∈ l) then l else l ++ [id]) ∧
  (if decide (id ∈ l) then l else l ++ [id]) !! N.to_nat (idx_convert s id).2 = Some id.
Proof.
  intros R Hlen. unfold idx_convert. destruct (i_to s !! id) as [i|] eqn:E.
  - apply (rep_to _ _ R) in E. rewrite decide_True by (by eapply elem_of_list_lookup_2). done.
  - assert (id ∉ l) as Hn.
    { intros Hin. apply elem_of_list_lookup in Hin as (j & Hj).
      assert (i_to s !! id = Some (N.of_nat j)) as E2; [|congruence].
      apply (rep_to _ _ R). by rewrite Nat2N.id. }
    rewrite decide_False by done. simpl. rewrite (rep_cur _ _ R). split.
    + split; simpl.
      * apply NoDup_app. split; [apply R|]. split; [|apply NoDup_singleton].
        intros x Hx Hx2. apply elem_of_list_singleton in Hx2. by subst.
      * rewrite app_length. simpl. lia.
      * rewrite app_length. unfold u32. rewrite N.mod_small by lia. simpl. lia.
      * intros x i. rewrite lookup_insert_Some, lookup_app_Some, (rep_to _ _ R). split.
        -- intros [[<- <-]|[Hne Hl]]; [right|by left].
           rewrite Nat2N.id, Nat.sub_diag. done.
        -- intros [Hl|[Hge Hl]].
           ++ right. split; [|done]. intros ->. apply Hn. by eapply elem_of_list_lookup_2.
           ++ left. apply list_lookup_singleton_Some in Hl as [Hl ->]. split; [done|]. lia.
      * intros i. destruct (decide (i = N.of_nat (length l))) as [->|Hne].
        -- rewrite lookup_insert, lookup_app_r by lia. by rewrite Nat2N.id, Nat.sub_diag.
        -- rewrite lookup_insert_ne by done. rewrite (rep_from _ _ R).
           destruct (decide (N.to_nat i < length l)%nat).
           ++ by rewrite lookup_app_l.
           ++ rewrite lookup_app_r by lia. rewrite lookup_ge_None_2 by lia.
              symmetry. apply lookup_ge_None_2. simpl. lia.
    + rewrite Nat2N.id, lookup_app_r by lia. by rewrite Nat.sub_diag.
Qed.

Lemma first_occ_len (seen ids : list T) :
  (length (first_occ seen ids) ≤ length seen + length ids)%nat.
Proof.
  revert seen. induction ids as [|x ids IH]; intros seen; simpl; [lia|].
  case_decide.
  - specialize (IH seen). lia.
  - specialize (IH (seen ++ [x])). rewrite app_length in IH. simpl in IH. lia.
Qed.

Lemma rep_run s l ids :
  Rep s l → N.of_nat (length l + length ids) < 2 ^ 32 →
  Rep (idx_run s ids) (first_occ l ids).
Proof.
  revert s l. induction ids as [|x ids IH]; intros s l R Hl; simpl; [done|].
  simpl in Hl.
  destruct (rep_convert s l x R) as [R1 _]; [lia|].
  case_decide; apply IH; try done; rewrite ?app_length; simpl; lia.
Qed.

Lemma first_occ_prefix (l l' : list T) : l `prefix_of` first_occ l l'.
Proof.
  revert l. induction l' as [|x l' IH]; intros l; simpl; [done|].
  case_decide; [apply IH|]. etrans; [|apply IH]. by apply prefix_app_r.
Qed.

Lemma rep_size s l : Rep s l → idx_size s = length l.
Proof.
  intros R. unfold idx_size.
  assert (map_to_list (i_to s) ≡ₚ imap (λ i id, (id, N.of_nat i)) l) as P.
  { apply NoDup_Permutation.
    - apply NoDup_map_to_list.
    - apply (NoDup_fmap_1 fst). rewrite fmap_imap.
      assert (imap (λ n, (fst ∘ (λ id, (id, N.of_nat n)))) l = l) as ->; [|apply R].
      apply list_eq. intros i. rewrite list_lookup_imap. by destruct (l !! i).
    - intros [id i]. rewrite elem_of_map_to_list, (rep_to _ _ R), elem_of_lookup_imap. split.
      + intros Hl. exists (N.to_nat i), id. split; [|done]. by rewrite N2Nat.id.
      + intros (j & y & [= -> ->] & Hj). by rewrite Nat2N.id. }
  unfold size, map_size. rewrite P. by rewrite imap_length.
Qed.
End proofs.

(** C04. After converting any sequence of fewer than 2^32 ids: translations in
    both directions are inverse of each other, the indexes in use are exactly
    0..size()-1, numbered in order of first conversion. *)
Theorem C04_index_bijection {T : Type} `{Countable T} (ids : list T) :
  N.of_nat (length ids) < 2 ^ 32 →
  let s := idx_run idx_init ids in
  let seen := first_occ [] ids in
  idx_size s = length seen ∧
  (∀ id i, idx_toIdx s id = Some i ↔ idx_fromIdx s i = Some id) ∧
  (∀ i, idx_hasIdx s i = true ↔ i < N.of_nat (idx_size s)) ∧
  (∀ id, idx_hasId s id = true ↔ id ∈ seen) ∧
  (∀ i, idx_fromIdx s i = seen !! N.to_nat i).
Proof.
  intros Hl s seen.
  assert (Rep s seen) as R by (apply rep_run; [apply rep_init|done]).
  split; [by apply rep_size|]. split.
  { intros id i. unfold idx_toIdx, idx_fromIdx. by rewrite (rep_to _ _ R), (rep_from _ _ R). }
  split.
  { intros i. unfold idx_hasIdx. rewrite bool_decide_eq_true, (rep_from _ _ R), (rep_size _ _ R).
    rewrite lookup_lt_is_Some. lia. }
  split.
  { intros id. unfold idx_hasId. rewrite bool_decide_eq_true. split.
    - intros [i Hi]. apply (rep_to _ _ R) in Hi. by eapply elem_of_list_lookup_2.
    - intros Hin. apply elem_of_list_lookup in Hin as (j & Hj). exists (N.of_nat j).
      apply (rep_to _ _ R). by rewrite Nat2N.id. }
  intros i. apply (rep_from _ _ R).
Qed.
Print Assumptions C04_index_bijection.

(** C04. What convert returns is the translation of its argument, then and after
    any further conversions (an index never changes). *)
Theorem C04_index_stable {T : Type} `{Countable T} (ids more : list T) (id : T) :
  N.of_nat (S (length ids + length more)) < 2 ^ 32 →
  let s := idx_run idx_init ids in
  idx_toIdx (idx_run (idx_convert s id).1 more) id = Some (idx_convert s id).2 ∧
  ∀ id' i, idx_toIdx s id' = Some i → idx_toIdx (idx_run (idx_convert s id).1 more) id' = Some i.
Proof.
  intros Hl s. 
  assert (Rep s (first_occ [] ids)) as R by (apply rep_run; [apply rep_init|simpl; lia]).
  pose proof (first_occ_len [] ids) as HL. simpl in HL.
  destruct (rep_convert s _ id R) as [R1 E1]; [lia|].
  set (l1 := if decide (id ∈ first_occ [] ids) then _ else _) in *.
  assert (prefix (first_occ [] ids) l1) as P1.
  { unfold l1. case_decide; [done|]. by apply prefix_app_r. }
  assert (length l1 ≤ S (length ids))%nat as L1.
  { unfold l1. case_decide; rewrite ?app_length; simpl; lia. }
  assert (Rep (idx_run (idx_convert s id).1 more) (first_occ l1 more)) as R2.
  { apply rep_run; [done|]. lia. }
  split.
  - apply (rep_to _ _ R2). eapply prefix_lookup; [done|apply first_occ_prefix].
  - intros id' i Hi. apply (rep_to _ _ R) in Hi. apply (rep_to _ _ R2).
    eapply prefix_lookup; [|apply first_occ_prefix]. eapply prefix_lookup; done.
Qed.
Print Assumptions C04_index_stable.

Example index_nontrivial :
  let s := idx_run idx_init [7; 3; 7; 9]%nat in
  idx_size s = 3%nat ∧ idx_toIdx s 9%nat = Some 2 ∧ idx_fromIdx s 0 = Some 7%nat.
Proof. done. Qed.
