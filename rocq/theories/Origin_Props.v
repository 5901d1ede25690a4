(** C60: azimuthal gap; C69: the origin made from a relocated event. *)
From Coq Require Import Reals Ascii Lra.
From stdpp Require Import gmap list list_numbers sorting sets.
From Verif Require Import KdGeo_Model KdGeo_Props OrderStats_Model OrderStats_Props Origin_Model.
Local Open Scope R_scope.

(** ** Specification of the gaps *)
(** The i-th arrival lies inside the open arc from lo to hi (angles modulo 360). *)
Definition Inside (l : list R) (lo hi : R) (i : nat) : Prop := ∃ a k, l !! i = Some a ∧ lo < a + 360 * IZR k < hi.
Definition NoneInside (l : list R) (lo hi : R) : Prop := ∀ i, ¬ Inside l lo hi i.
Definition OneInside (l : list R) (lo hi : R) : Prop := ∀ i j, Inside l lo hi i → Inside l lo hi j → i = j.
(** g is the width of the widest arc, up to the full circle, with the property P. *)
Definition Widest (P : R → R → Prop) (g : R) : Prop :=
  0 <= g <= 360 ∧ (∃ lo, P lo (lo + g)) ∧ ∀ lo w, w <= 360 → P lo (lo + w) → w <= g.

(** ** A sorted sequence of azimuths *)
Section circle.
Variable n : nat.
Variable b : nat → R.
Hypothesis Hn : (2 ≤ n)%nat.
Hypothesis Hmono : ∀ i j, (i ≤ j)%nat → (j < n)%nat → b i <= b j.
Hypothesis Hspan : b (n - 1)%nat < b 0%nat + 360.
Definition e (i : nat) : R := if decide (i < n)%nat then b i else b (i - n)%nat + 360.
Definition inn (lo hi : R) (i : nat) : Prop := (i < n)%nat ∧ ∃ k, lo < b i + 360 * IZR k < hi.

Lemma b_range i : (i < n)%nat → b 0%nat <= b i < b 0%nat + 360.
Proof using All. intros Hi. pose proof (Hmono 0 i ltac:(lia) Hi). pose proof (Hmono i (n - 1) ltac:(lia) ltac:(lia)). lra. Qed.
Lemma e_low i : (i < n)%nat → e i = b i.
Proof using. clear Hn Hmono Hspan. intros H. unfold e. by rewrite decide_True. Qed.
Lemma e_n : e n = b 0%nat + 360.
Proof using. clear Hn Hmono Hspan. unfold e. rewrite decide_False by lia. by rewrite Nat.sub_diag. Qed.
Lemma e_n1 : e (n + 1) = b 1%nat + 360.
Proof using. clear Hn Hmono Hspan. unfold e. rewrite decide_False by lia. by replace (n + 1 - n)%nat with 1%nat by lia. Qed.
Lemma e_step i : (i ≤ n)%nat → e i <= e (i + 1).
Proof using All.
  intros Hi. destruct (decide (i = n)) as [->|]; [rewrite e_n, e_n1; pose proof (Hmono 0 1 ltac:(lia) ltac:(lia)); lra|].
  rewrite (e_low i) by lia. destruct (decide (i + 1 = n)%nat) as [E|].
  - rewrite E, e_n. pose proof (b_range i ltac:(lia)). lra.
  - rewrite e_low by lia. apply Hmono; lia.
Qed.
(** turns *)
Lemma turn_zero i k lo hi : (i < n)%nat → b 0%nat <= lo → hi <= b 0%nat + 360 → lo < b i + 360 * IZR k < hi → k = 0%Z.
Proof using All.
  intros Hi Hl Hh Hk. pose proof (b_range i Hi).
  destruct (Z.lt_trichotomy k 0) as [Hz|[->|Hz]]; [|done|].
  - assert (IZR k <= -1) by (apply IZR_le; lia). lra.
  - assert (1 <= IZR k) by (apply IZR_le; lia). lra.
Qed.
Lemma e_empty i j : (i < n)%nat → ¬ inn (e i) (e (i + 1)) j.
Proof using All.
  intros Hi [Hj [k Hk]]. rewrite (e_low i) in Hk by done. pose proof (b_range i Hi).
  assert (e (i + 1) <= b 0%nat + 360) as Hu.
  { destruct (decide (i + 1 = n)%nat) as [E|]; [rewrite E, e_n; lra|]. rewrite e_low by lia.
    pose proof (b_range (i + 1) ltac:(lia)). lra. }
  assert (k = 0%Z) as -> by (eapply (turn_zero j); [done| | |exact Hk]; lra).
  replace (b j + 360 * 0) with (b j) in Hk by ring.
  destruct (decide (j ≤ i)%nat); [pose proof (Hmono j i ltac:(lia) ltac:(lia)); lra|].
  rewrite e_low in Hk by lia. pose proof (Hmono (i + 1) j ltac:(lia) ltac:(lia)). lra.
Qed.
Lemma e_one i j : (i < n)%nat → inn (e i) (e (i + 2)) j → j = (if decide (i + 1 < n)%nat then (i + 1)%nat else 0%nat).
Proof using All.
  intros Hi [Hj [k Hk]]. rewrite (e_low i) in Hk by done. pose proof (b_range i Hi) as Hbi. pose proof (b_range j Hj) as Hbj.
  case_decide as Hc.
  - assert (e (i + 2) <= b 0%nat + 360) as Hu.
    { destruct (decide (i + 2 = n)%nat) as [E|]; [rewrite E, e_n; lra|]. rewrite e_low by lia.
      pose proof (b_range (i + 2) ltac:(lia)). lra. }
    assert (k = 0%Z) as -> by (eapply (turn_zero j); [done| | |exact Hk]; lra).
    replace (b j + 360 * 0) with (b j) in Hk by ring.
    destruct (decide (j ≤ i)%nat); [pose proof (Hmono j i ltac:(lia) ltac:(lia)); lra|].
    destruct (decide (j = i + 1)%nat); [done|].
    rewrite e_low in Hk by lia. pose proof (Hmono (i + 2) j ltac:(lia) ltac:(lia)). lra.
  - assert (i = n - 1)%nat as -> by lia. replace (n - 1 + 2)%nat with (n + 1)%nat in Hk by lia. rewrite e_n1 in Hk.
    pose proof (b_range 1 ltac:(lia)) as Hb1.
    destruct (decide (j = 0)%nat); [done|]. pose proof (Hmono 1 j ltac:(lia) ltac:(lia)).
    assert (k = 0%Z) as ->.
    { destruct (Z.lt_trichotomy k 0) as [Hz|[->|Hz]]; [|done|].
      - assert (IZR k <= -1) by (apply IZR_le; lia). lra.
      - assert (1 <= IZR k) by (apply IZR_le; lia). lra. }
    pose proof (Hmono j (n - 1) ltac:(lia) ltac:(lia)). lra.
Qed.
(** The last azimuth not after x *)
Lemma e_locate x : b 0%nat <= x < b 0%nat + 360 → ∃ i, (i < n)%nat ∧ e i <= x < e (i + 1).
Proof using All.
  intros Hx. assert (∀ m, (m < n)%nat → (∃ i, (i < m)%nat ∧ b i <= x < b (i + 1)%nat) ∨ b m <= x) as H.
  { induction m as [|m IH]; intros Hm; [right; lra|]. destruct (IH ltac:(lia)) as [(i & Hi & Hix)|Hb].
    - left. exists i. split; [lia|done].
    - destruct (Rlt_dec x (b (S m))) as [Hlt|Hge]; [left|right; lra]. exists m. split; [lia|].
      replace (m + 1)%nat with (S m) by lia. lra. }
  destruct (H (n - 1)%nat ltac:(lia)) as [(i & Hi & Hix)|Hb].
  - exists i. split; [lia|]. by rewrite !e_low by lia.
  - exists (n - 1)%nat. split; [lia|]. rewrite e_low by lia. replace (n - 1 + 1)%nat with n by lia. rewrite e_n. lra.
Qed.
Lemma e_inn i lo hi : (i ≤ n + 1)%nat → lo < e i < hi → inn lo hi (if decide (i < n)%nat then i else i - n)%nat.
Proof using Hn.
  intros Hi Hx. unfold e in Hx. destruct (decide (i < n)%nat).
  - split; [done|]. exists 0%Z. lra.
  - split; [lia|]. exists 1%Z. lra.
Qed.
(** Arcs may be moved by full turns. *)
Lemma inn_shift lo hi i (z : Z) : inn (lo + 360 * IZR z) (hi + 360 * IZR z) i ↔ inn lo hi i.
Proof using.
  clear Hn Hmono Hspan. unfold inn. split; intros [Hi [k Hk]]; (split; [done|]).
  - exists (k - z)%Z. rewrite minus_IZR. lra.
  - exists (k + z)%Z. rewrite plus_IZR. lra.
Qed.
Lemma turn_to x : ∃ z : Z, b 0%nat <= x + 360 * IZR z < b 0%nat + 360.
Proof using.
  clear Hn Hmono Hspan. exists (- (up ((x - b 0%nat) / 360) - 1))%Z. rewrite opp_IZR, minus_IZR.
  destruct (archimed ((x - b 0%nat) / 360)) as [H1 H2]. set (u := IZR (up ((x - b 0%nat) / 360))) in *.
  assert ((x - b 0%nat) / 360 * 360 = x - b 0%nat) as E by field. split; nra.
Qed.
Lemma arc_width m lo w g :
  (m = 1 ∨ m = 2)%nat → (∀ i, (i < n)%nat → e (i + m) - e i <= g) → g < w →
  ∃ i, (i < n)%nat ∧ inn lo (lo + w) (if decide (i + 1 < n)%nat then (i + 1) else i + 1 - n)%nat ∧
       inn lo (lo + w) (if decide (i + m < n)%nat then (i + m) else i + m - n)%nat.
Proof using All.
  intros Hm Hg Hw. destruct (turn_to lo) as [z Hz]. destruct (e_locate _ Hz) as (i & Hi & Hx).
  exists i. split; [done|].
  assert (e (i + 1) <= e (i + m)) as Hem.
  { destruct Hm as [-> | ->]; [lra|]. replace (i + 2)%nat with (i + 1 + 1)%nat by lia. apply e_step. lia. }
  pose proof (Hg i Hi).
  split; rewrite <-(inn_shift _ _ _ z).
  - apply (e_inn (i + 1)); [lia|]. lra.
  - apply (e_inn (i + m)); [lia|]. lra.
Qed.
End circle.

Lemma gap_fold ext js p q :
  let r := fold_left (gap_step ext) js (p, q) in
  let g1 i := nth (i + 1) ext 0 - nth i ext 0 in
  let g2 i := nth (i + 2) ext 0 - nth i ext 0 in
  (p <= r.1 ∧ (∀ i, i ∈ js → g1 i <= r.1) ∧ (r.1 = p ∨ ∃ i, i ∈ js ∧ r.1 = g1 i)) ∧
  (q <= r.2 ∧ (∀ i, i ∈ js → g2 i <= r.2) ∧ (r.2 = q ∨ ∃ i, i ∈ js ∧ r.2 = g2 i)).
Proof.
  revert p q. induction js as [|j js IH]; intros p q r g1 g2; subst r.
  { simpl. split; (split; [lra|]; split; [intros i Hi; by apply elem_of_nil in Hi|by left]). }
  change (fold_left (gap_step ext) (j :: js) (p, q)) with (fold_left (gap_step ext) js (gap_step ext (p, q) j)).
  destruct (gap_step ext (p, q) j) as [p' q'] eqn:E. unfold gap_step in E. cbn -[nth] in E. injection E as Ep Eq.
  destruct (IH p' q') as [(I1 & I2 & I3) (J1 & J2 & J3)]. clear IH.
  fold (g1 j) in Ep. fold (g2 j) in Eq.
  assert (p <= p' ∧ g1 j <= p' ∧ (p' = p ∨ p' = g1 j)) as (A1 & A2 & A3).
  { subst p'. destruct (Rlt_dec p (g1 j)); (split; [lra|]; split; [lra|auto]). }
  assert (q <= q' ∧ g2 j <= q' ∧ (q' = q ∨ q' = g2 j)) as (B1 & B2 & B3).
  { subst q'. destruct (Rlt_dec q (g2 j)); (split; [lra|]; split; [lra|auto]). }
  clear Ep Eq. split.
  - split; [lra|]. split.
    + intros i [->|Hi]%elem_of_cons; [lra|by apply I2].
    + destruct I3 as [->|(i & Hi & ->)]; [|right; exists i; split; [by right|done]].
      destruct A3 as [->|A3]; [by left|]. right. exists j. split; [by left|done].
  - split; [lra|]. split.
    + intros i [->|Hi]%elem_of_cons; [lra|by apply J2].
    + destruct J3 as [->|(i & Hi & ->)]; [|right; exists i; split; [by right|done]].
      destruct B3 as [->|B3]; [by left|]. right. exists j. split; [by left|done].
Qed.

Lemma inside_perm l l' : l ≡ₚ l' → ∃ f : nat → nat, Inj (=) (=) f ∧ ∀ lo hi i, Inside l lo hi i ↔ Inside l' lo hi (f i).
Proof.
  intros HP. apply Permutation_inj in HP as [_ (f & Hf & Hi)]. exists f. split; [done|].
  intros lo hi i. unfold Inside. by rewrite Hi.
Qed.
Lemma none_perm l l' lo hi : l ≡ₚ l' → NoneInside l lo hi → NoneInside l' lo hi.
Proof.
  intros HP H i Hi. symmetry in HP. destruct (inside_perm _ _ HP) as (f & _ & Hf). apply Hf in Hi. by apply H in Hi.
Qed.
Lemma one_perm l l' lo hi : l ≡ₚ l' → OneInside l lo hi → OneInside l' lo hi.
Proof.
  intros HP H i j Hi Hj. symmetry in HP. destruct (inside_perm _ _ HP) as (f & Inj & Hf). apply Hf in Hi, Hj.
  apply (inj f). by apply H.
Qed.

Lemma gaps_sorted (a azi : list R) lo0 : a = merge_sort Rle azi → (2 ≤ length azi)%nat → Forall (λ x, lo0 <= x < lo0 + 360) azi →
  let g := azimuthal_gaps azi in
  Widest (NoneInside a) g.1 ∧ Widest (OneInside a) g.2 ∧ g.1 <= g.2.
Proof.
  intros Ea Hlen Hspan g. subst g. unfold azimuthal_gaps. rewrite decide_True by done. rewrite <-Ea. cbv zeta.
  assert (a ≡ₚ azi) as HP by (rewrite Ea; apply merge_sort_Permutation).
  assert (StronglySorted Rle a) as HS.
  { rewrite Ea. apply StronglySorted_merge_sort; [apply _|]. intros x y. destruct (Rle_dec x y); [by left|right; lra]. }
  assert (length a = length azi) as HL by (by rewrite HP).
  set (n := length azi) in *. set (b i := nth i a 0).
  assert (∀ i, (i < n)%nat → a !! i = Some (b i)) as Hb.
  { intros i Hi. subst b. cbv beta. rewrite nth_lookup. destruct (a !! i) eqn:E; [done|]. apply lookup_ge_None in E. lia. }
  assert (∀ i j, (i ≤ j)%nat → (j < n)%nat → b i <= b j) as Hmono.
  { intros i j Hij Hj. destruct (decide (i = j)) as [->|]; [lra|].
    pose proof (Hb i ltac:(lia)) as E1. pose proof (Hb j Hj) as E2.
    rewrite <-(take_drop_middle a i _ E1) in HS. rewrite <-(take_drop_middle a i _ E1) in E2.
    rewrite lookup_app_r in E2 by (rewrite take_length; lia). rewrite take_length in E2.
    replace (i `min` length a)%nat with i in E2 by lia.
    destruct (j - i)%nat as [|m] eqn:Em; [lia|]. simpl in E2. apply elem_of_list_lookup_2 in E2.
    clear -HS E2. induction (take i a) as [|x l IH]; simpl in HS.
    - apply StronglySorted_inv in HS as [_ HF]. rewrite Forall_forall in HF. by apply HF.
    - apply IH. by apply StronglySorted_inv in HS as [HS _]. }
  assert (∀ i, (i < n)%nat → lo0 <= b i < lo0 + 360) as Hr.
  { intros i Hi. rewrite <-HP in Hspan. rewrite Forall_forall in Hspan. apply Hspan. by eapply elem_of_list_lookup_2, Hb. }
  assert (b (n - 1)%nat < b 0%nat + 360) as Hsp.
  { pose proof (Hr (n - 1)%nat ltac:(lia)). pose proof (Hr 0%nat ltac:(lia)). lra. }
  fold (b 0%nat) (b 1%nat). set (ext := a ++ [b 0%nat + 360; b 1%nat + 360]).
  assert (∀ i, (i < n + 2)%nat → nth i ext 0 = e n b i) as He.
  { intros i Hi. unfold e, ext. destruct (decide (i < n)%nat).
    - rewrite app_nth1 by lia. done.
    - rewrite app_nth2 by lia. rewrite HL. destruct (i - n)%nat as [|[|m]] eqn:Em; [done|done|lia]. }
  destruct (gap_fold ext (seq 0 n) 0 0) as [(P1 & P2 & P3) (Q1 & Q2 & Q3)].
  set (r := fold_left (gap_step ext) (seq 0 n) (0, 0)) in *. clearbody r.
  assert (∀ i, (i < n)%nat → e n b (i + 1) - e n b i <= r.1) as G1.
  { intros i Hi. rewrite <-!He by lia. apply P2. apply elem_of_seq. lia. }
  assert (∀ i, (i < n)%nat → e n b (i + 2) - e n b i <= r.2) as G2.
  { intros i Hi. rewrite <-!He by lia. apply Q2. apply elem_of_seq. lia. }
  assert (∃ i, (i < n)%nat ∧ r.1 = e n b (i + 1) - e n b i) as (i1 & Hi1 & E1).
  { destruct P3 as [P3|(i & Hi & P3)].
    - exists 0%nat. split; [lia|]. pose proof (G1 0%nat ltac:(lia)).
      pose proof (e_step n b ltac:(lia) Hmono Hsp 0 ltac:(lia)). lra.
    - apply elem_of_seq in Hi. exists i. split; [lia|]. by rewrite <-!He by lia. }
  assert (∃ i, (i < n)%nat ∧ r.2 = e n b (i + 2) - e n b i) as (i2 & Hi2 & E2).
  { destruct Q3 as [Q3|(i & Hi & Q3)].
    - exists 0%nat. split; [lia|]. pose proof (G2 0%nat ltac:(lia)).
      pose proof (e_step n b ltac:(lia) Hmono Hsp 0 ltac:(lia)) as S1. pose proof (e_step n b ltac:(lia) Hmono Hsp 1 ltac:(lia)) as S2.
      cbn [Nat.add] in *. lra.
    - apply elem_of_seq in Hi. exists i. split; [lia|]. by rewrite <-!He by lia. }
  assert (∀ lo hi i, Inside a lo hi i ↔ inn n b lo hi i) as HIn.
  { intros lo hi i. unfold Inside, inn. split.
    - intros (x & k & E & Hk). assert (i < n)%nat as Hi by (apply lookup_lt_Some in E; lia).
      split; [done|]. exists k. rewrite (Hb i Hi) in E. by injection E as ->.
    - intros [Hi [k Hk]]. exists (b i), k. split; [by apply Hb|done]. }
  assert (r.1 <= r.2) as H12.
  { rewrite E1. pose proof (G2 i1 Hi1). pose proof (e_step n b ltac:(lia) Hmono Hsp (i1 + 1) ltac:(lia)) as S2.
    replace (i1 + 1 + 1)%nat with (i1 + 2)%nat in S2 by lia. lra. }
  assert (r.2 <= 360) as H360.
  { rewrite E2. rewrite (e_low n b i2) by done. destruct (decide (i2 + 1 = n)%nat) as [En|].
    - replace (i2 + 2)%nat with (n + 1)%nat by lia. rewrite e_n1. pose proof (Hmono 1%nat i2 ltac:(lia) ltac:(lia)). lra.
    - assert (e n b (i2 + 2) <= b 0%nat + 360).
      { destruct (decide (i2 + 2 = n)%nat) as [En|]; [rewrite En, e_n; lra|]. rewrite e_low by lia.
        pose proof (b_range n b ltac:(lia) Hmono Hsp (i2 + 2) ltac:(lia)). lra. }
      pose proof (Hmono 0%nat i2 ltac:(lia) ltac:(lia)). lra. }
  split; [|split; [|done]].
  - split; [lra|]. split.
    + exists (e n b i1). intros j Hj. apply HIn in Hj. replace (e n b i1 + r.1) with (e n b (i1 + 1)) in Hj by lra.
      by apply (e_empty n b ltac:(lia) Hmono Hsp i1 j Hi1) in Hj.
    + intros lo w _ Hfree. destruct (Rle_dec w r.1) as [|Hgt]; [done|].
      destruct (arc_width n b ltac:(lia) Hmono Hsp 1 lo w r.1) as (i & Hi & H1 & _); [by left|done|lra|].
      apply HIn in H1. by apply Hfree in H1.
  - split; [lra|]. split.
    + exists (e n b i2). intros j j' Hj Hj'. apply HIn in Hj, Hj'. replace (e n b i2 + r.2) with (e n b (i2 + 2)) in Hj, Hj' by lra.
      apply (e_one n b ltac:(lia) Hmono Hsp i2) in Hj, Hj'; [|done..]. congruence.
    + intros lo w _ Hone. destruct (Rle_dec w r.2) as [|Hgt]; [done|].
      destruct (arc_width n b ltac:(lia) Hmono Hsp 2 lo w r.2) as (i & Hi & H1 & H2); [by right|done|lra|].
      apply HIn in H1, H2. pose proof (Hone _ _ H1 H2) as E.
      repeat case_decide; lia.
Qed.

(** C60: the primary gap is the widest arc (up to the full circle) without a used arrival, the
    secondary gap the widest arc with at most one; for azimuths within one turn. *)
Theorem C60_gaps azi lo0 : Forall (λ x, lo0 <= x < lo0 + 360) azi →
  let g := azimuthal_gaps azi in
  Widest (NoneInside azi) g.1 ∧ Widest (OneInside azi) g.2 ∧ g.1 <= g.2 <= 360.
Proof.
  intros Hspan g. subst g. destruct (decide (2 ≤ length azi)%nat) as [Hl|Hl].
  - destruct (gaps_sorted _ azi lo0 eq_refl Hl Hspan) as (W1 & W2 & H12).
    assert (merge_sort Rle azi ≡ₚ azi) as HP by apply merge_sort_Permutation.
    split; [|split].
    + destruct W1 as (R1 & [lo F1] & M1). split; [done|]. split.
      * exists lo. by eapply none_perm.
      * intros lo' w Hw HF. apply (M1 lo' w Hw). by eapply none_perm; [symmetry|].
    + destruct W2 as (R1 & [lo F1] & M1). split; [done|]. split.
      * exists lo. by eapply one_perm.
      * intros lo' w Hw HF. apply (M1 lo' w Hw). by eapply one_perm; [symmetry|].
    + split; [done|]. apply W2.
  - unfold azimuthal_gaps. rewrite decide_False by done. simpl. split; [|split].
    + split; [lra|]. split; [|done]. destruct azi as [|x [|y azi]]; [|..|simpl in Hl; lia].
      * exists 0. intros i (a & k & E & _). by rewrite lookup_nil in E.
      * exists x. intros i (a & k & E & Hk). apply list_lookup_singleton_Some in E as [-> <-].
        destruct (Z.lt_trichotomy k 0) as [Hz|[->|Hz]]; [| |].
        -- assert (IZR k <= -1) by (apply IZR_le; lia). lra.
        -- lra.
        -- assert (1 <= IZR k) by (apply IZR_le; lia). lra.
    + split; [lra|]. split; [|done]. exists 0. intros i j (a & k & E & _) (a' & k' & E' & _).
      apply lookup_lt_Some in E, E'. lia.
    + lra.
Qed.
Example C60_gaps_example : Forall (λ x, 0 <= x < 0 + 360) [350; 20; 100] ∧ azimuthal_gaps [350; 20; 100] = (250, 330).
Proof.
  split; [repeat (apply Forall_cons; split; [lra|]); done|].
  unfold azimuthal_gaps. rewrite decide_True by (simpl; lia).
  assert (merge_sort Rle [350; 20; 100] = [20; 100; 350]) as ->.
  { apply (StronglySorted_unique Rle).
    - apply StronglySorted_merge_sort; [apply _|]. intros x y. destruct (Rle_dec x y); [by left|right; lra].
    - repeat constructor; lra.
    - rewrite merge_sort_Permutation. apply Permutation_cons_append. }
  cbn -[Rplus Rminus IZR]. unfold gap_step. cbn -[Rplus Rminus IZR].
  repeat (destruct (Rlt_dec _ _); try lra). f_equal; lra.
Qed.

(** The secondary gap counts arrivals, not stations: with P and S of two opposite stations it is 180,
    although without one of the stations the gap is the full circle. *)
Theorem C60_station_refuted :
  azimuthal_gaps [0; 0; 180; 180] = (180, 180) ∧ Widest (NoneInside [180; 180]) 360 ∧ Widest (NoneInside [0; 0]) 360.
Proof.
  split; [|split].
  - unfold azimuthal_gaps. rewrite decide_True by (simpl; lia).
    assert (merge_sort Rle [0; 0; 180; 180] = [0; 0; 180; 180]) as ->.
    { apply (StronglySorted_unique Rle).
      - apply StronglySorted_merge_sort; [apply _|]. intros x y. destruct (Rle_dec x y); [by left|right; lra].
      - repeat constructor; lra.
      - apply merge_sort_Permutation. }
    cbn -[Rplus Rminus IZR]. unfold gap_step. cbn -[Rplus Rminus IZR].
    repeat (destruct (Rlt_dec _ _); try lra). f_equal; lra.
  - split; [lra|]. split; [|done]. exists 180. intros i (a & k & E & Hk).
    assert (a = 180) as -> by (apply elem_of_list_lookup_2 in E; set_solver).
    destruct (Z.lt_trichotomy k 0) as [Hz|[->|Hz]]; [| |].
    + assert (IZR k <= -1) by (apply IZR_le; lia). lra.
    + lra.
    + assert (1 <= IZR k) by (apply IZR_le; lia). lra.
  - split; [lra|]. split; [|done]. exists 0. intros i (a & k & E & Hk).
    assert (a = 0) as -> by (apply elem_of_list_lookup_2 in E; set_solver).
    destruct (Z.lt_trichotomy k 0) as [Hz|[->|Hz]]; [| |].
    + assert (IZR k <= -1) by (apply IZR_le; lia). lra.
    + lra.
    + assert (1 <= IZR k) by (apply IZR_le; lia). lra.
Qed.

(** ** C69: the arrivals, the picks and the quality *)
Lemma normalizeAz_range az : -360 <= az < 720 → 0 <= normalizeAz az < 360 ∧ ∃ k, normalizeAz az = az + 360 * IZR k.
Proof.
  intros H. unfold normalizeAz. destruct (Rlt_dec az 0); [|destruct (Rle_dec 360 az)].
  - split; [lra|]. exists 1%Z. lra.
  - split; [lra|]. exists (-1)%Z. lra.
  - split; [lra|]. exists 0%Z. lra.
Qed.

Section convert.
Context {PK ID : Type} `{!EqDecision PK}.
Notation phase := (@phase PK).
Notation arrival := (@arrival ID).
Variable org : option (list (option (PK * ID))).
Variable incl : bool.
Variable stations : gmap text (R * R).
Variable delazi : R * R → R * R.
Variable fresh : nat → ID.
Variable nthe : list R → nat → list R.

(** The pick of the source origin for a phase: the first one that has its key *)
Definition SourcePick (k : PK) (i : ID) : Prop :=
  ∃ l pre post, org = Some l ∧ l = pre ++ Some (k, i) :: post ∧ ∀ i', Some (k, i') ∉ pre.
Definition NoSourcePick (k : PK) : Prop := ∀ l i, org = Some l → Some (k, i) ∉ l.
(** The phases that are used and have a station *)
Definition counted (p : phase) : Prop := ph_reloc p = true ∧ is_Some (stations !! ph_sta p).
Global Instance counted_dec p : Decision (counted p) := _.

Lemma find_pick_spec (k : PK) (l : list (option (PK * ID))) : match find_pick k l with
  | Some i => ∃ pre post, l = pre ++ Some (k, i) :: post ∧ ∀ i' : ID, Some (k, i') ∉ pre
  | None => ∀ i, Some (k, i) ∉ l end.
Proof using.
  induction l as [|[[k' i]|] l IH]; simpl.
  - intros i. apply not_elem_of_nil.
  - destruct (decide (k = k')) as [<-|Hne].
    + exists [], l. split; [done|]. intros i'. apply not_elem_of_nil.
    + destruct (find_pick k l) as [j|].
      * destruct IH as (pre & post & -> & Hp). exists (Some (k', i) :: pre), post. split; [done|].
        intros i' [[= ? ?]|?]%elem_of_cons; [done|]. by apply (Hp i').
      * intros j [[= ? ?]|?]%elem_of_cons; [done|]. by apply (IH j).
  - destruct (find_pick k l) as [j|].
    + destruct IH as (pre & post & -> & Hp). exists (None :: pre), post. split; [done|].
      intros i' [?|?]%elem_of_cons; [done|]. by apply (Hp i').
    + intros j [?|?]%elem_of_cons; [done|]. by apply (IH j).
Qed.
Lemma source_pick_spec k : match org ≫= find_pick k with Some i => SourcePick k i | None => NoSourcePick k end.
Proof using.
  destruct org as [l|] eqn:E; simpl; [|by intros l i Hl; rewrite E in Hl].
  pose proof (find_pick_spec k l) as H. destruct (find_pick k l) as [i|].
  - destruct H as (pre & post & Hl & Hp). exists l, pre, post. done.
  - intros l' i E'. rewrite E in E'. injection E' as <-. apply H.
Qed.

(** Where the arrival of a phase is seen from the event *)
Definition GeoOf (p : phase) (g : option (R * R)) : Prop :=
  match stations !! ph_sta p with
  | None => g = None
  | Some s => g = Some ((delazi s).1, normalizeAz (delazi s).2)
  end.
(** One arrival for a phase *)
Definition ArrivalOf (new : list ID) (p : phase) (a : arrival) : Prop :=
  a_used a = ph_reloc p ∧ a_weight a = (if ph_reloc p then ph_weight p else 0) ∧
  a_res a = (if ph_reloc p then ph_res p else 0) ∧ GeoOf p (a_geo a) ∧
  (SourcePick (ph_pick p) (a_pick a) ∨ NoSourcePick (ph_pick p) ∧ a_pick a ∈ new).
(** the azimuths and distances that count *)
Definition az_of (p : phase) : R := match stations !! ph_sta p with Some s => (delazi s).2 | None => 0 end.
Definition dist_of (p : phase) : R := match stations !! ph_sta p with Some s => (delazi s).1 | None => 0 end.

Notation cphase := (convert_phase org incl stations delazi fresh).
Notation start := (Acc [] [] 0 [] [] ∅ ∅).

(** The picks handed over: for each phase in turn its pick, if it is new or if the old ones are
    asked for *)
Inductive Picks : list phase → list arrival → list ID → Prop :=
| Picks_nil : Picks [] [] []
| Picks_add ps arrs new p a : Picks ps arrs new → incl = true ∨ NoSourcePick (ph_pick p) →
    Picks (ps ++ [p]) (arrs ++ [a]) (new ++ [a_pick a])
| Picks_skip ps arrs new p a : Picks ps arrs new → incl = false → SourcePick (ph_pick p) (a_pick a) →
    Picks (ps ++ [p]) (arrs ++ [a]) new.

Record Loop (ps : list phase) (c : @acc ID) : Prop := {
  lp_arr : Forall2 (ArrivalOf (c_new c)) ps (c_arr c);
  lp_used : c_used c = length (filter counted ps);
  lp_azi : c_azi c = az_of <$> filter counted ps;
  lp_dist : c_dist c = dist_of <$> filter counted ps;
  lp_assoc : c_assoc c = list_to_set (ph_code <$> ps);
  lp_sta : c_stations c = list_to_set (ph_sta <$> filter counted ps);
  lp_new : Picks ps (c_arr c) (c_new c);
  lp_fresh : ∀ i p a, ps !! i = Some p → c_arr c !! i = Some a → NoSourcePick (ph_pick p) →
     ∃ m, a_pick a = fresh m ∧ (m < length (c_new c))%nat;
  lp_distinct : Inj (=) (=) fresh → ∀ i j p q a b, ps !! i = Some p → ps !! j = Some q → c_arr c !! i = Some a → c_arr c !! j = Some b →
     NoSourcePick (ph_pick p) → NoSourcePick (ph_pick q) → a_pick a = a_pick b → i = j }.

Lemma arrival_more new new' p a : new ⊆ new' → ArrivalOf new p a → ArrivalOf new' p a.
Proof using. intros Hs (A1 & A2 & A3 & A4 & A5). repeat (split; [done|]). destruct A5 as [?|[? ?]]; [by left|right; split; [done|by apply Hs]]. Qed.

(** The step in one piece *)
Lemma cphase_eq c p : ∃ pick add,
  let a := Arrival pick (ph_reloc p) (if ph_reloc p then ph_weight p else 0) (if ph_reloc p then ph_res p else 0)
             (match stations !! ph_sta p with None => None | Some s => Some ((delazi s).1, normalizeAz (delazi s).2) end) in
  cphase c p = Acc (c_arr c ++ [a]) (c_new c ++ add)
    (if decide (counted p) then S (c_used c) else c_used c)
    (c_azi c ++ (if decide (counted p) then [az_of p] else []))
    (c_dist c ++ (if decide (counted p) then [dist_of p] else []))
    ({[ph_code p]} ∪ c_assoc c) (if decide (counted p) then {[ph_sta p]} ∪ c_stations c else c_stations c) ∧
  (SourcePick (ph_pick p) pick ∧ add = (if incl then [pick] else []) ∨
   NoSourcePick (ph_pick p) ∧ pick = fresh (length (c_new c)) ∧ add = [pick]).
Proof using.
  unfold convert_phase. pose proof (source_pick_spec (ph_pick p)) as HS.
  assert (∃ pick add, (match org ≫= find_pick (ph_pick p) with
      | Some i => (i, if incl then c_new c ++ [i] else c_new c)
      | None => (fresh (length (c_new c)), c_new c ++ [fresh (length (c_new c))]) end) = (pick, c_new c ++ add) ∧
      (SourcePick (ph_pick p) pick ∧ add = (if incl then [pick] else []) ∨
       NoSourcePick (ph_pick p) ∧ pick = fresh (length (c_new c)) ∧ add = [pick])) as (pick & add & -> & HP).
  { destruct (org ≫= find_pick (ph_pick p)) as [i|].
    - exists i, (if incl then [i] else []). split; [destruct incl; [done|by rewrite app_nil_r]|]. by left.
    - eexists _, _. split; [done|]. by right. }
  exists pick, add. split; [|done].
  assert (∀ {X} (x y : X), (if decide (counted p) then x else y) =
    match stations !! ph_sta p with Some _ => if ph_reloc p then x else y | None => y end) as Hd.
  { intros X x y. destruct (decide (counted p)) as [[-> [s ->]]|Hc]; [done|].
    destruct (stations !! ph_sta p) eqn:E; [|done]. destruct (ph_reloc p) eqn:E2; [|done].
    destruct Hc. split; [done|by rewrite E]. }
  rewrite !Hd. clear Hd. unfold az_of, dist_of.
  destruct (stations !! ph_sta p) as [s|]; [|by rewrite !app_nil_r].
  destruct (delazi s) as [d az]. simpl. destruct (ph_reloc p); [done|]. by rewrite !app_nil_r.
Qed.

Lemma loop_step ps c p : Loop ps c → Loop (ps ++ [p]) (cphase c p).
Proof using.
  intros [L1 L2 L3 L4 L5 L6 L7 L8 L9]. destruct (cphase_eq c p) as (pick & add & Eq & HP). cbv zeta in Eq.
  set (a := Arrival pick _ _ _ _) in Eq. rewrite Eq. clear Eq.
  assert (length ps = length (c_arr c)) as HL by (by eapply Forall2_length).
  assert (∀ i q b, (ps ++ [p]) !! i = Some q → (c_arr c ++ [a]) !! i = Some b →
     (ps !! i = Some q ∧ c_arr c !! i = Some b ∧ (i < length ps)%nat) ∨ (q = p ∧ b = a ∧ i = length ps)) as Hlk.
  { intros i q b H1 H2. apply lookup_app_Some in H1 as [H1|[H1 H1']].
    - left. assert (i < length ps)%nat by (by eapply lookup_lt_Some). rewrite lookup_app_l in H2 by lia. done.
    - right. apply list_lookup_singleton_Some in H1' as [E ->]. assert (i = length ps) by lia.
      rewrite lookup_app_r in H2 by lia. apply list_lookup_singleton_Some in H2 as [_ ->]. done. }
  assert (∀ {B} (f : phase → B), f <$> filter counted [p] = if decide (counted p) then [f p] else []) as Hf1.
  { intros B f. rewrite filter_cons, filter_nil. by destruct (decide (counted p)). }
  split; simpl.
  - apply Forall2_app.
    + eapply Forall2_impl; [exact L1|]. intros q b. apply arrival_more. set_solver.
    + constructor; [|constructor]. split; [done|]. split; [done|]. split; [done|]. split.
      * unfold GeoOf. subst a. simpl. by destruct (stations !! ph_sta p).
      * destruct HP as [[HS _]|(HN & _ & ->)]; [by left|right]. split; [done|]. subst a. simpl. set_solver.
  - rewrite filter_app, app_length, <-(fmap_length Datatypes.id (filter counted [p])), Hf1, <-L2. destruct (decide (counted p)); simpl; lia.
  - by rewrite filter_app, fmap_app, Hf1, L3.
  - by rewrite filter_app, fmap_app, Hf1, L4.
  - rewrite fmap_app, list_to_set_app_L, L5. simpl. set_solver.
  - rewrite filter_app, fmap_app, list_to_set_app_L, Hf1, L6. destruct (decide (counted p)); simpl; set_solver.
  - destruct HP as [[HS ->]|(HN & HF & ->)].
    + destruct incl eqn:Ei.
      * change pick with (a_pick a). apply Picks_add; [done|by left].
      * rewrite app_nil_r. by apply Picks_skip.
    + change pick with (a_pick a). apply Picks_add; [done|by right].
  - intros i q b H1 H2 HN. destruct (Hlk _ _ _ H1 H2) as [(H3 & H4 & _)|(-> & -> & _)].
    + destruct (L8 i q b H3 H4 HN) as (m & Em & Hm). exists m. split; [done|]. rewrite app_length. lia.
    + destruct HP as [[HS _]|(_ & HF & ->)].
      * exfalso. destruct HS as (l & pre & post & E1 & E2 & _). apply (HN l pick E1). rewrite E2. set_solver.
      * exists (length (c_new c)). split; [done|]. rewrite app_length. simpl. lia.
  - intros Hinj i j q q' b b' H1 H2 H3 H4 HN HN' E.
    assert (∀ k r d, ps !! k = Some r → c_arr c !! k = Some d → NoSourcePick (ph_pick r) → NoSourcePick (ph_pick p) → a_pick d ≠ a_pick a) as Hnew.
    { intros k r d Hk1 Hk2 Hk3 Hk4 Ed. destruct (L8 k r d Hk1 Hk2 Hk3) as (m & Em & Hm).
      destruct HP as [[HS _]|(_ & HF & _)].
      - destruct HS as (l & pre & post & E1 & E2 & _). apply (Hk4 l pick E1). rewrite E2. set_solver.
      - rewrite Em in Ed. subst a. simpl in Ed. rewrite HF in Ed. apply Hinj in Ed. lia. }
    destruct (Hlk _ _ _ H1 H3) as [(A1 & A2 & A3)|(-> & -> & ->)], (Hlk _ _ _ H2 H4) as [(B1 & B2 & B3)|(-> & -> & ->)].
    + by eapply (L9 Hinj i j).
    + exfalso. by eapply (Hnew i).
    + exfalso. by eapply (Hnew j).
    + done.
Qed.
Lemma loop_all ps : Loop ps (fold_left cphase ps start).
Proof using.
  induction ps as [|p ps IH] using rev_ind.
  - split; try done; try constructor.
  - rewrite fold_left_app. by apply loop_step.
Qed.

(** C69: each phase of the event gives one arrival, in order, with its weight and residual if it was
    relocated, otherwise zero; its pick is the one of the source origin with the same time and
    stream, or a new one; the new picks handed over are complete and different from each other. *)
Theorem C69_arrivals ps arrs new q : convert org incl stations delazi fresh nthe ps = Some (arrs, new, q) →
  Forall2 (ArrivalOf new) ps arrs ∧ Picks ps arrs new ∧
  (Inj (=) (=) fresh → ∀ i j p p' a b, ps !! i = Some p → ps !! j = Some p' → arrs !! i = Some a → arrs !! j = Some b →
     NoSourcePick (ph_pick p) → NoSourcePick (ph_pick p') → a_pick a = a_pick b → i = j).
Proof using.
  unfold convert. destruct (loop_all ps) as [L1 L2 L3 L4 L5 L6 L7 L8 L9].
  destruct (c_dist _); [done|]. intros H. apply bind_Some in H as (m & _ & H). injection H as <- <- _. done.
Qed.

Hypothesis Hnth : nthe_spec Rle nthe.
(** C69: the quality is that of the relocated phases whose station is known: numbers of phases and of
    different stations, smallest, median and largest distance, gaps of the azimuths. The code has no
    result (undefined behaviour) exactly if there is no such phase. *)
Theorem C69_quality ps : 
  match convert org incl stations delazi fresh nthe ps with
  | None => Forall (λ p, ¬ counted p) ps
  | Some (arrs, new, q) =>
      let used := filter counted ps in
      used ≠ [] ∧ q_assoc q = length ps ∧ q_used q = length used ∧
      q_assoc_sta q = size (list_to_set (ph_code <$> ps) : gset text) ∧
      q_used_sta q = size (list_to_set (ph_sta <$> used) : gset text) ∧
      (q_min q ∈ dist_of <$> used) ∧ (q_max q ∈ dist_of <$> used) ∧
      Forall (λ d, q_min q <= d <= q_max q) (dist_of <$> used) ∧ q_min q <= q_median q <= q_max q ∧
      (q_gap q, q_gap2 q) = azimuthal_gaps (az_of <$> used)
  end.
Proof using Hnth.
  unfold convert. destruct (loop_all ps) as [L1 L2 L3 L4 L5 L6 L7 L8 L9].
  set (c := fold_left cphase ps start) in *. clearbody c.
  destruct (c_dist c) as [|x l] eqn:Ed.
  - symmetry in L4. apply fmap_nil_inv in L4. apply Forall_forall. intros p Hp Hc.
    assert (p ∈ filter counted ps) as H by (by apply elem_of_list_filter). rewrite L4 in H. by apply elem_of_nil in H.
  - destruct (C20_median Rle 0 ravg nthe Hnth (x :: l) (merge_sort Rle (x :: l)) ltac:(done) (sorted_exists Rle _)) as (m & Em & Hm).
    rewrite Em. simpl.
    pose proof (min_element_spec Rle x l) as [Mn1 Mn2]. pose proof (max_element_spec Rle x l) as [Mx1 Mx2].
    rewrite Forall_forall in Mn2, Mx2.
    assert (filter counted ps ≠ []) as Hne by (intros E; by rewrite E in L4).
    assert (∀ v, v ∈ merge_sort Rle (x :: l) → min_element Rle x l <= v <= max_element Rle x l) as Hv.
    { intros v Hv. rewrite merge_sort_Permutation in Hv. split; [by apply Mn2|by apply Mx2]. }
    rewrite L4 in Mn1, Mx1, Mn2, Mx2.
    split; [done|]. split; [symmetry; by eapply Forall2_length|]. split; [done|]. split; [by rewrite L5|].
    split; [by rewrite L6|]. split; [done|]. split; [done|].
    split; [|split].
    + apply Forall_forall. intros d Hd. split; [by apply Mn2|by apply Mx2].
    + cbv zeta in Hm. destruct (decide _).
      * destruct Hm as (u & v & Hu & Hv' & ->). apply elem_of_list_lookup_2, Hv in Hu. apply elem_of_list_lookup_2, Hv in Hv'.
        unfold ravg. lra.
      * apply elem_of_list_lookup_2, Hv in Hm. lra.
    + rewrite L3. by destruct (azimuthal_gaps _).
Qed.
End convert.

(** A used arrival of a station that is not in the catalogue is marked as used but not counted. *)
Theorem C69_used_refuted :
  ∃ (ps : list (@phase nat)) stations arrs new q,
    convert None false stations (λ _, (0, 0)) Datatypes.id (λ l _, l) ps = Some (arrs, new, q) ∧
    q_used q = 1%nat ∧ length (filter (λ a, a_used a = true) arrs) = 2%nat.
Proof.
  exists [Phase ["a"%char] [] 0%nat true 1 1; Phase ["b"%char] [] 1%nat true 1 1], {[ ["a"%char] := (0, 0) ]}.
  eexists _, _, _. split; [|split].
  - unfold convert. cbn [fold_left]. unfold convert_phase at 2. cbn [ph_sta ph_reloc]. rewrite lookup_singleton.
    unfold convert_phase. cbn [ph_sta ph_reloc]. rewrite lookup_singleton_ne by done. cbn -[azimuthal_gaps size]. reflexivity.
  - done.
  - done.
Qed.

Print Assumptions C60_gaps.
Print Assumptions C60_station_refuted.
Print Assumptions C69_arrivals.
Print Assumptions C69_quality.
Print Assumptions C69_used_refuted.
