(** Property C05: antisymmetric cross-correlation cache. *)
From stdpp Require Import gmap list strings.
From Verif Require Import XCorrCache_Model.

(** Specification on histories: the entry last written for the unordered pair
    {e1,e2}, seen from e1. *)
Section spec.
Context {C L : Type} (neg : L → L).
Definition flip (e : entry C L) : entry C L := Entry (e_valid e) (e_coeff e) (neg (e_lag e)).

Definition last1 (e1 e2 : N) (s p : string) (acc : option (entry C L)) (o : xop C L)
  : option (entry C L) :=
  match o with
  | XAdd a b s' p' e =>
    if decide (s = s' ∧ p = p' ∧ a = e1 ∧ b = e2) then Some e
    else if decide (s = s' ∧ p = p' ∧ a = e2 ∧ b = e1) then Some (flip e)
    else acc
  | XRemove a b s' p' =>
    if decide (s = s' ∧ p = p' ∧ (a = e1 ∧ b = e2 ∨ a = e2 ∧ b = e1)) then None else acc
  end.
Definition last_written (os : list (xop C L)) (e1 e2 : N) (s p : string) : option (entry C L) :=
  fold_left (last1 e1 e2 s p) os None.
End spec.

Section proofs.
Context {C L : Type} (neg : L → L).
Implicit Types m : cache C L.

Lemma at4_set4 m a s p b e a' s' p' b' :
  at4 (set4 m a s p b e) a' s' p' b' =
  if decide (a = a' ∧ s = s' ∧ p = p' ∧ b = b') then Some e else at4 m a' s' p' b'.
Proof.
  unfold at4, set4.
  destruct (decide (a = a')) as [->|Ha].
  2:{ rewrite lookup_insert_ne by done. rewrite decide_False by tauto. done. }
  rewrite lookup_insert. simpl.
  destruct (decide (s = s')) as [->|Hs].
  2:{ rewrite lookup_insert_ne by done. rewrite decide_False by tauto.
      by destruct (m !! a'); simpl. }
  rewrite lookup_insert. simpl.
  destruct (decide (p = p')) as [->|Hp].
  2:{ rewrite lookup_insert_ne by done. rewrite decide_False by tauto.
      destruct (m !! a') as [m1|]; simpl; [|done]. by destruct (m1 !! s'). }
  rewrite lookup_insert. simpl.
  destruct (decide (b = b')) as [->|Hb].
  { rewrite lookup_insert. by rewrite decide_True. }
  rewrite lookup_insert_ne by done. rewrite decide_False by tauto.
  destruct (m !! a') as [m1|]; simpl; [|done].
  destruct (m1 !! s') as [m2|]; simpl; [|done]. by destruct (m2 !! p').
Qed.

Lemma at4_erase4 m a s p b a' s' p' b' :
  at4 (erase4 m a s p b) a' s' p' b' =
  if decide (a = a' ∧ s = s' ∧ p = p' ∧ b = b') then None else at4 m a' s' p' b'.
Proof.
  unfold at4, erase4.
  destruct (m !! a) as [m1|] eqn:E1.
  2:{ case_decide as Hd; [|done]. destruct Hd as (-> & _). by rewrite E1. }
  destruct (m1 !! s) as [m2|] eqn:E2.
  2:{ case_decide as Hd; [|done]. destruct Hd as (-> & -> & _). rewrite E1. simpl. by rewrite E2. }
  destruct (m2 !! p) as [m3|] eqn:E3.
  2:{ case_decide as Hd; [|done]. destruct Hd as (-> & -> & -> & _).
      rewrite E1. simpl. rewrite E2. simpl. by rewrite E3. }
  destruct (decide (a = a')) as [->|Ha].
  2:{ rewrite lookup_insert_ne by done. rewrite decide_False by tauto. done. }
  rewrite lookup_insert, E1. simpl.
  destruct (decide (s = s')) as [->|Hs].
  2:{ rewrite lookup_insert_ne by done. rewrite decide_False by tauto. done. }
  rewrite lookup_insert, E2. simpl.
  destruct (decide (p = p')) as [->|Hp].
  2:{ rewrite lookup_insert_ne by done. rewrite decide_False by tauto. done. }
  rewrite lookup_insert, E3. simpl.
  destruct (decide (b = b')) as [->|Hb].
  { rewrite lookup_delete. by rewrite decide_True. }
  rewrite lookup_delete_ne by done. by rewrite decide_False by tauto.
Qed.

(** Reading after an addition, for a proper pair. *)
Lemma get_add m a b s p e a' b' s' p' :
  a' ≠ b' →
  xc_get neg (xc_add m a b s p e) a' b' s' p' =
  if decide (s' = s ∧ p' = p ∧ a = a' ∧ b = b') then Some e
  else if decide (s' = s ∧ p' = p ∧ a = b' ∧ b = a') then Some (flip neg e)
  else xc_get neg m a' b' s' p'.
Proof.
  intros Hne. unfold xc_get, xc_add. rewrite !at4_erase4, !at4_set4.
  repeat case_decide; try tauto; try naive_solver.
Qed.

Lemma get_remove m a b s p a' b' s' p' :
  xc_get neg (xc_remove m a b s p) a' b' s' p' =
  if decide (s' = s ∧ p' = p ∧ (a = a' ∧ b = b' ∨ a = b' ∧ b = a')) then None
  else xc_get neg m a' b' s' p'.
Proof.
  unfold xc_get, xc_remove. rewrite !at4_erase4.
  repeat case_decide; try tauto; try naive_solver.
Qed.

Lemma get_run (os : list (xop C L)) a b s p :
  a ≠ b → xc_get neg (xc_run os) a b s p = last_written neg os a b s p.
Proof.
  intros Hne. unfold xc_run, last_written.
  assert (∀ m acc, xc_get neg m a b s p = acc →
            xc_get neg (fold_left xc_step os m) a b s p = fold_left (last1 neg a b s p) os acc) as G.
  { induction os as [|o os IH]; intros m acc Hacc; simpl; [done|]. apply IH.
    destruct o as [a' b' s' p' e|a' b' s' p']; simpl.
    - rewrite get_add by done. by rewrite Hacc.
    - rewrite get_remove. by rewrite Hacc. }
  apply G. unfold xc_get, at4. by rewrite !lookup_empty.
Qed.

(** Reachable caches never hold both orientations, nor a pair (e,e). *)
Definition Anti m := ∀ a b s p, is_Some (at4 m a s p b) → at4 m b s p a = None.

Lemma anti_run (os : list (xop C L)) : Anti (xc_run os).
Proof.
  unfold xc_run. assert (Anti (∅ : cache C L)) as Hm.
  { intros a b s p [e He]. unfold at4 in He. by rewrite lookup_empty in He. }
  revert Hm. generalize (∅ : cache C L). induction os as [|o os IH]; intros m Hm; [done|].
  simpl. apply IH. destruct o as [a' b' s' p' e|a' b' s' p']; intros a b s p [e' He]; simpl in *.
  - unfold xc_add in *. rewrite !at4_erase4, !at4_set4 in *.
    specialize (Hm a b s p). repeat case_decide; simplify_eq; try tauto; try naive_solver.
  - unfold xc_remove in *. rewrite !at4_erase4 in *.
    specialize (Hm a b s p). repeat case_decide; simplify_eq; try tauto; try naive_solver.
Qed.

Lemma elem_xc_entries m a b s p e :
  (a, b, s, p, e) ∈ xc_entries m ↔ at4 m a s p b = Some e.
Proof.
  unfold xc_entries, at4. rewrite elem_of_list_bind. split.
  - intros ([a1 m1] & Hin & H1). apply elem_of_map_to_list in H1.
    apply elem_of_list_bind in Hin as ([s1 m2] & Hin & H2). apply elem_of_map_to_list in H2.
    apply elem_of_list_bind in Hin as ([p1 m3] & Hin & H3). apply elem_of_map_to_list in H3.
    apply elem_of_list_bind in Hin as ([b1 e1] & Hin & H4). apply elem_of_map_to_list in H4.
    apply elem_of_list_singleton in Hin. simpl in *. simplify_eq.
    rewrite H1. simpl. rewrite H2. simpl. rewrite H3. simpl. done.
  - destruct (m !! a) as [m1|] eqn:E1; [|done]. simpl.
    destruct (m1 !! s) as [m2|] eqn:E2; [|done]. simpl.
    destruct (m2 !! p) as [m3|] eqn:E3; [|done]. simpl. intros E4.
    exists (a, m1). split; [|by apply elem_of_map_to_list].
    apply elem_of_list_bind. exists (s, m2). split; [|by apply elem_of_map_to_list].
    apply elem_of_list_bind. exists (p, m3). split; [|by apply elem_of_map_to_list].
    apply elem_of_list_bind. exists (b, e). split; [|by apply elem_of_map_to_list].
    simpl. by apply elem_of_list_singleton.
Qed.

Lemma get_merge_gen m order a b s p :
  a ≠ b →
  (∀ e e', (a, b, s, p, e) ∈ order → (a, b, s, p, e') ∈ order → e = e') →
  (∀ e e', (b, a, s, p, e) ∈ order → (b, a, s, p, e') ∈ order → e = e') →
  (∀ e e', (a, b, s, p, e) ∈ order → (b, a, s, p, e') ∈ order → False) →
  xc_get neg (xc_merge m order) a b s p =
  xc_get neg (xc_merge m order) a b s p ∧
  (∀ e, (a, b, s, p, e) ∈ order → xc_get neg (xc_merge m order) a b s p = Some e) ∧
  (∀ e, (b, a, s, p, e) ∈ order → xc_get neg (xc_merge m order) a b s p = Some (flip neg e)) ∧
  ((∀ e, (a, b, s, p, e) ∉ order) → (∀ e, (b, a, s, p, e) ∉ order) →
   xc_get neg (xc_merge m order) a b s p = xc_get neg m a b s p).
Proof.
  intros Hne. split; [done|]. unfold xc_merge.
  induction order as [|[[[[a' b'] s'] p'] e'] order IH] using rev_ind.
  { split; [|split]; try done; intros e Hin; by apply elem_of_nil in Hin. }
  rewrite !fold_left_app. simpl. rewrite get_add by done.
  destruct IH as (I1 & I2 & I3).
  { intros e1 e2 ??. apply H; apply elem_of_app; by left. }
  { intros e1 e2 ??. apply H0; apply elem_of_app; by left. }
  { intros e1 e2 ??. eapply H1; apply elem_of_app; left; done. }
  split; [|split].
  - intros e Hin. case_decide as D1.
    + destruct D1 as (-> & -> & -> & ->). f_equal. eapply H; [|done].
      apply elem_of_app. right. by apply elem_of_list_singleton.
    + apply elem_of_app in Hin as [Hin|Hin].
      2:{ apply elem_of_list_singleton in Hin. naive_solver. }
      case_decide as D2; [|by apply I1]. destruct D2 as (-> & -> & -> & ->). exfalso.
      eapply H1; apply elem_of_app; [left; done|right; by apply elem_of_list_singleton].
  - intros e Hin. case_decide as D1.
    + destruct D1 as (-> & -> & -> & ->). apply elem_of_app in Hin as [Hin|Hin].
      * exfalso. eapply H1; apply elem_of_app; [right; by apply elem_of_list_singleton|left; done].
      * apply elem_of_list_singleton in Hin. naive_solver.
    + case_decide as D2.
      * destruct D2 as (-> & -> & -> & ->). do 2 f_equal. eapply H0; [|done].
        apply elem_of_app. right. by apply elem_of_list_singleton.
      * apply elem_of_app in Hin as [Hin|Hin]; [by apply I2|].
        apply elem_of_list_singleton in Hin. naive_solver.
  - intros N1 N2. rewrite decide_False.
    2:{ intros (-> & -> & -> & ->). apply (N1 e'). apply elem_of_app. right.
        by apply elem_of_list_singleton. }
    rewrite decide_False.
    2:{ intros (-> & -> & -> & ->). apply (N2 e'). apply elem_of_app. right.
        by apply elem_of_list_singleton. }
    apply I3; intros e Hin; [apply (N1 e)|apply (N2 e)]; apply elem_of_app; by left.
Qed.
End proofs.

(** C05. Reading a pair of different events gives the entry last written for that
    unordered pair (none if it was removed since), the lag negated when the
    write had the opposite orientation. *)
Theorem C05_xcorrcache_last_write_wins {C L : Type} (neg : L → L) (os : list (xop C L)) a b s p :
  a ≠ b → xc_get neg (xc_run os) a b s p = last_written neg os a b s p.
Proof. exact (get_run neg os a b s p). Qed.
Print Assumptions C05_xcorrcache_last_write_wins.

(** C05. Reading in the opposite order gives the same validity and coefficient
    and the opposite lag. *)
Theorem C05_xcorrcache_antisymmetric {C L : Type} (neg : L → L) (os : list (xop C L)) a b s p :
  (∀ l, neg (neg l) = l) →
  xc_get neg (xc_run os) b a s p = flip neg <$> xc_get neg (xc_run os) a b s p ∧
  xc_has neg (xc_run os) b a s p = xc_has neg (xc_run os) a b s p.
Proof.
  intros Hneg.
  assert (xc_get neg (xc_run os) b a s p = flip neg <$> xc_get neg (xc_run os) a b s p) as E.
  { pose proof (anti_run os a b s p) as H1. pose proof (anti_run os b a s p) as H2.
    unfold xc_get. destruct (at4 (xc_run os) a s p b) as [e|] eqn:Ea.
    - rewrite H1 by eauto. done.
    - destruct (at4 (xc_run os) b s p a) as [e|] eqn:Eb; simpl; [|done].
      unfold flip. simpl. rewrite Hneg. by destruct e. }
  split; [done|]. unfold xc_has. rewrite E. apply bool_decide_ext.
  by rewrite fmap_is_Some.
Qed.
Print Assumptions C05_xcorrcache_antisymmetric.

(** A pair of an event with itself is never kept. *)
Theorem C05_xcorrcache_no_self_pair {C L : Type} (neg : L → L) (os : list (xop C L)) a s p :
  xc_get neg (xc_run os) a a s p = None.
Proof.
  pose proof (anti_run os a a s p) as H. unfold xc_get.
  destruct (at4 (xc_run os) a s p a) as [e|] eqn:E; [|done].
  assert (Some e = None) by (apply H; eauto). done.
Qed.
Print Assumptions C05_xcorrcache_no_self_pair.

(** Merging another cache, in any iteration order: its entries win, what it does
    not have is unchanged. *)
Theorem C05_xcorrcache_merge {C L : Type} (neg : L → L) (os1 os2 : list (xop C L)) order a b s p :
  a ≠ b → order ≡ₚ xc_entries (xc_run os2) →
  xc_get neg (xc_merge (xc_run os1) order) a b s p =
  match xc_get neg (xc_run os2) a b s p with
  | Some e => Some e
  | None => xc_get neg (xc_run os1) a b s p
  end.
Proof.
  intros Hne P.
  assert (∀ a b e, (a, b, s, p, e) ∈ order ↔ at4 (xc_run os2) a s p b = Some e) as Hin.
  { intros a' b' e. rewrite P. apply elem_xc_entries. }
  destruct (get_merge_gen neg (xc_run os1) order a b s p Hne) as (_ & I1 & I2 & I3).
  { intros e e' H1 H2. apply Hin in H1, H2. congruence. }
  { intros e e' H1 H2. apply Hin in H1, H2. congruence. }
  { intros e e' H1 H2. apply Hin in H1, H2. rewrite (anti_run os2 a b s p) in H2 by eauto. done. }
  unfold xc_get at 2.
  destruct (at4 (xc_run os2) a s p b) as [e|] eqn:Ea.
  { apply I1. by apply Hin. }
  destruct (at4 (xc_run os2) b s p a) as [e|] eqn:Eb.
  { apply I2. by apply Hin. }
  apply I3; intros e H; apply Hin in H; congruence.
Qed.
Print Assumptions C05_xcorrcache_merge.

Example xcorrcache_nontrivial :
  let os := [XAdd 1 2 "S" "P" (Entry true 9 5%Z); XAdd 2 1 "S" "P" (Entry true 8 3%Z);
             XRemove 1 2 "S" "S"]%N in
  xc_get Z.opp (xc_run os) 1 2 "S" "P" = Some (Entry true 8%N (-3)%Z) ∧
  xc_get Z.opp (xc_run os) 2 1 "S" "P" = Some (Entry true 8%N 3%Z).
Proof. done. Qed.
