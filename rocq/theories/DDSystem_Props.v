(** C35: the two products used by the least squares solvers are those of one matrix.
    C39: scaling of the columns. *)
From Coq Require Import Reals Lra Lia.
From stdpp Require Import numbers list list_numbers sets.
From Verif Require Import DDSystem_Model.
Local Open Scope R_scope.

(** ** Specification: the weighted design matrix *)
Definition nthR (l : list R) (i : nat) : R := default 0 (l !! i).
Definition lsum {A} (f : A → R) (l : list A) : R := fold_right (λ i a, f i + a) 0 l.
(** Sum over i < n *)
Notation nsum n f := (lsum f (seq 0 n)).
(** The derivative k of event e at the phase/station of row ob *)
Definition deriv (s : dds R) (e ob k : nat) : R :=
  nthR (default [] (aG s !! (e * nPhStas s + default 0%nat (aPh s !! ob))%nat)) k.
(** The four columns 4e..4e+3 are those of event e *)
Definition side (s : dds R) (ev : list (option nat)) (ob col : nat) : R :=
  match ev !! ob with
  | Some (Some e) => if decide (e = col / 4)%nat then deriv s e ob (col mod 4) else 0
  | _ => 0
  end.
(** The matrix before scaling: first event plus, second event minus *)
Definition entry0 (s : dds R) (ob col : nat) : R := nthR (aW s) ob * (side s (aEv1 s) ob col - side s (aEv2 s) ob col).
Definition entry (s : dds R) (ob col : nat) : R := entry0 s ob col * nthR (aL s) col.

(** ** Sums *)
Lemma lsum_nil {A} (f : A → R) : lsum f [] = 0. Proof. done. Qed.
Lemma lsum_cons {A} (f : A → R) (a : A) (l : list A) : lsum f (a :: l) = f a + lsum f l. Proof. done. Qed.
Lemma lsum_app {A} (f : A → R) (l k : list A) : lsum f (l ++ k) = lsum f l + lsum f k.
Proof. induction l as [|a l IH]; cbn [app]; rewrite ?lsum_nil, ?lsum_cons; [lra|]. rewrite IH. lra. Qed.
Lemma lsum_ext {A} (f g : A → R) (l : list A) : (∀ i, i ∈ l → f i = g i) → lsum f l = lsum g l.
Proof.
  induction l as [|a l IH]; intros H; [done|]. rewrite !lsum_cons. f_equal; [apply H; left|]. apply IH. intros i Hi. apply H. by right.
Qed.
Lemma lsum_plus {A} (f g : A → R) (l : list A) : lsum (λ i, f i + g i) l = lsum f l + lsum g l.
Proof. induction l as [|a l IH]; cbn [app]; rewrite ?lsum_nil, ?lsum_cons; [lra|]. rewrite IH. lra. Qed.
Lemma lsum_minus {A} (f g : A → R) (l : list A) : lsum (λ i, f i - g i) l = lsum f l - lsum g l.
Proof. induction l as [|a l IH]; cbn [app]; rewrite ?lsum_nil, ?lsum_cons; [lra|]. rewrite IH. lra. Qed.
Lemma lsum_scal {A} (c : R) (f : A → R) (l : list A) : lsum (λ i, c * f i) l = c * lsum f l.
Proof. induction l as [|a l IH]; cbn [app]; rewrite ?lsum_nil, ?lsum_cons; [lra|]. rewrite IH. lra. Qed.
Lemma lsum_scal_r {A} (c : R) (f : A → R) (l : list A) : lsum (λ i, f i * c) l = lsum f l * c.
Proof. induction l as [|a l IH]; cbn [app]; rewrite ?lsum_nil, ?lsum_cons; [lra|]. rewrite IH. lra. Qed.
Lemma lsum_zero {A} (f : A → R) (l : list A) : (∀ i, i ∈ l → f i = 0) → lsum f l = 0.
Proof. intros H. rewrite (lsum_ext _ (λ _, 0 * 0)) by (intros; rewrite H by done; lra). rewrite lsum_scal. lra. Qed.
Lemma lsum_swap {A B} (f : A → B → R) (l : list A) (k : list B) : lsum (λ i, lsum (f i) k) l = lsum (λ j, lsum (λ i, f i j) l) k.
Proof.
  induction l as [|a l IH]; [cbn; symmetry; by apply lsum_zero|].
  change (lsum (f a) k + lsum (λ i, lsum (f i) k) l = lsum (λ j, f a j + lsum (λ i, f i j) l) k). rewrite IH, lsum_plus. lra.
Qed.
Lemma lsum_nonneg {A} (f : A → R) (l : list A) : (∀ i, i ∈ l → 0 <= f i) → 0 <= lsum f l.
Proof.
  induction l as [|a l IH]; intros H; [rewrite lsum_nil; lra|]. rewrite lsum_cons. assert (0 <= f a) by (apply H; left).
  assert (0 <= lsum f l) by (apply IH; intros; apply H; by right). lra.
Qed.
(** Only one element of the range contributes *)
Lemma lsum_single (n i : nat) (v : R) : (i < n)%nat → nsum n (λ j, if decide (i = j) then v else 0) = v.
Proof.
  induction n as [|n IH]; intros Hi; [lia|]. rewrite seq_S, lsum_app, lsum_cons, lsum_nil. cbn [plus]. destruct (decide (i = n)) as [-> |Hne].
  - rewrite lsum_zero; [lra|]. intros j Hj%elem_of_seq. destruct (decide (n = j)); [lia|done].
  - rewrite IH by lia. lra.
Qed.
Lemma lsum_block (n e : nat) (g f : nat → R) : (e < n)%nat →
  nsum (n * 4)%nat (λ col, (if decide (e = col / 4)%nat then g (col mod 4)%nat else 0) * f col) = lsum (λ k, g k * f (e * 4 + k)%nat) four.
Proof.
  assert (Hdiv : ∀ m k, (k < 4)%nat → ((m * 4 + k) / 4 = m ∧ (m * 4 + k) mod 4 = k)%nat).
  { intros m k Hk. split; [rewrite Nat.div_add_l by lia; rewrite Nat.div_small by lia; lia|].
    rewrite Nat.add_comm, Nat.mod_add by lia. by apply Nat.mod_small. }
  induction n as [|n IH]; intros He; [lia|].
  replace (S n * 4)%nat with (n * 4 + 4)%nat by lia. rewrite seq_app, lsum_app. cbn [seq plus].
  set (T := lsum _ [_; _; _; _]).
  assert (HT : T = if decide (e = n) then lsum (λ k, g k * f (n * 4 + k)%nat) four else 0).
  { unfold T. cbn -[Nat.div Nat.modulo]. replace (S (S (S (n * 4)))) with (n * 4 + 3)%nat by lia.
    replace (S (S (n * 4))) with (n * 4 + 2)%nat by lia. replace (S (n * 4)) with (n * 4 + 1)%nat by lia.
    replace (n * 4 / 4)%nat with n by (symmetry; apply Nat.div_mul; lia). rewrite Nat.mod_mul by lia.
    destruct (Hdiv n 1%nat) as [-> ->]; [lia|]. destruct (Hdiv n 2%nat) as [-> ->]; [lia|]. destruct (Hdiv n 3%nat) as [-> ->]; [lia|].
    rewrite Nat.add_0_r. destruct (decide (e = n)); [done|lra]. }
  rewrite HT. destruct (decide (e = n)) as [-> |Hne].
  - rewrite lsum_zero; [lra|]. intros i Hi%elem_of_seq.
    assert (i / 4 < n)%nat by (apply Nat.div_lt_upper_bound; lia). destruct (decide (n = i / 4)%nat); [lia|lra].
  - rewrite IH by lia. lra.
Qed.

(** ** Loops *)
Lemma update_at (l : list R) (i : nat) (f : R → R) : (i < length l)%nat →
  update l i f = Some (<[i := f (nthR l i)]> l).
Proof. intros Hi. unfold update. destruct (lookup_lt_is_Some_2 l i Hi) as [x Hx]. unfold nthR. by rewrite Hx. Qed.
Lemma nthR_insert (l : list R) (i j : nat) (v : R) : (i < length l)%nat → nthR (<[i := v]> l) j = if decide (i = j) then v else nthR l j.
Proof.
  intros Hi. unfold nthR. destruct (decide (i = j)) as [-> |Hne]; [by rewrite list_lookup_insert|by rewrite list_lookup_insert_ne].
Qed.
(** Every pass adds [c i] to the vector *)
Lemma loop_add {B} (f : list R → B → option (list R)) (n : nat) (c : B → nat → R) (l : list B) : 
  (∀ i (v : list R), i ∈ l → length v = n → ∃ v', f v i = Some v' ∧ length v' = n ∧ ∀ j, nthR v' j = nthR v j + c i j) →
  ∀ v, length v = n → ∃ v', loopM f l v = Some v' ∧ length v' = n ∧ ∀ j, nthR v' j = nthR v j + lsum (λ i, c i j) l.
Proof.
  induction l as [|i l IH]; intros H v Hv; [exists v; split; [done|]; split; [done|]; intros; rewrite lsum_nil; lra|].
  destruct (H i v) as (v1 & H1 & Hl1 & Hc1); [left|done|]. cbn [loopM]. rewrite H1.
  destruct (IH (λ j w Hj, H j w (elem_of_list_further _ _ _ Hj)) v1 Hl1) as (v2 & H2 & Hl2 & Hc2).
  exists v2. split; [done|]. split; [done|]. intros j. rewrite Hc2, Hc1. rewrite lsum_cons. lra.
Qed.

Section wf.
Variable s : dds R.
Hypothesis Hwf : wf s.

Lemma lk (l : list R) (n i : nat) : length l = n → (i < n)%nat → l !! i = Some (nthR l i).
Proof using. intros <- Hi. destruct (lookup_lt_is_Some_2 l i Hi) as [x Hx]. unfold nthR. by rewrite Hx. Qed.
Lemma get_ph (ob : nat) : (ob < rows s)%nat → ∃ p, aPh s !! ob = Some p ∧ (p < nPhStas s)%nat.
Proof using Hwf. intros Hob. destruct (lookup_lt_is_Some_2 (aPh s) ob) as [p Hp]; [by rewrite (wf_P s Hwf)|]. exists p. split; [done|]. by eapply wf_p. Qed.
Lemma get_G (ob e k p : nat) : (e < nEvts s)%nat → aPh s !! ob = Some p → (p < nPhStas s)%nat → (k < 4)%nat →
  readG s (e * nPhStas s + p) k = Some (deriv s e ob k).
Proof using Hwf.
  intros He Hp Hpl Hk. unfold readG, deriv. rewrite Hp. cbn [default from_option]; unfold Datatypes.id.
  destruct (lookup_lt_is_Some_2 (aG s) (e * nPhStas s + p)) as [g Hg]; [rewrite (wf_G s Hwf); nia|].
  assert (Hg' : aG s !! (e * nPhStas s + p)%nat = Some g) by exact Hg. rewrite Hg, ?Hg'. cbn [mbind option_bind default from_option]; unfold Datatypes.id. apply (lk g 4); [|done]. apply (wf_G4 s Hwf). by eapply elem_of_list_lookup_2.
Qed.
Lemma ev_col (e k : nat) : (e < nEvts s)%nat → (k < 4)%nat → (e * 4 + k < cols s)%nat.
Proof using. unfold cols. lia. Qed.

(** One block of Aprod1 *)
Lemma block1 (ob p : nat) (x : list R) (op : R → R → R) (sg : R) (ev : list (option nat)) (sum : R) (o : option nat) :
  (∀ a b, op a b = a + sg * b) → length x = cols s → aPh s !! ob = Some p → (p < nPhStas s)%nat →
  ev !! ob = Some o → (∀ e, o = Some e → e < nEvts s)%nat →
  prod1_block Rmult s x p op sum o = Some (sum + sg * nsum (cols s) (λ col, side s ev ob col * nthR (aL s) col * nthR x col)).
Proof using Hwf.
  intros Hop Hx Hp Hpl Ho He. unfold side. rewrite Ho. destruct o as [e|].
  2: { cbn. f_equal. rewrite lsum_zero by (intros; lra). lra. }
  specialize (He e eq_refl). unfold prod1_block. cbn [loopM four].
  assert (Hc : ∀ k, (k < 4)%nat → aL s !! (e * 4 + k)%nat = Some (nthR (aL s) (e * 4 + k)) ∧ x !! (e * 4 + k)%nat = Some (nthR x (e * 4 + k))).
  { intros k Hk. pose proof (ev_col e k He Hk). split; [apply (lk _ _ _ (wf_L s Hwf)); lia|by apply (lk _ _ _ Hx)]. }
  rewrite (get_G ob e 0%nat p), (get_G ob e 1%nat p), (get_G ob e 2%nat p), (get_G ob e 3%nat p) by (done || lia). cbn [mbind option_bind].
  destruct (Hc 0%nat) as [-> ->]; [lia|]. cbn [mbind option_bind]. destruct (Hc 1%nat) as [-> ->]; [lia|]. cbn [mbind option_bind].
  destruct (Hc 2%nat) as [-> ->]; [lia|]. cbn [mbind option_bind]. destruct (Hc 3%nat) as [-> ->]; [lia|]. cbn [mbind option_bind].
  f_equal. rewrite !Hop.
  rewrite (lsum_ext _ (λ col, (if decide (e = col / 4)%nat then deriv s e ob (col mod 4) else 0) * (nthR (aL s) col * nthR x col))).
  2: { intros col _. ring. }
  unfold cols. rewrite lsum_block by done. cbn. ring.
Qed.

(** A row of Aprod1 *)
Lemma row1 (x y : list R) (ob : nat) : length x = cols s → length y = rows s → (ob < rows s)%nat →
  prod1_row 0 Rplus Rminus Rmult r_is0 s x y ob = Some (<[ob := nthR y ob + nsum (cols s) (λ col, entry s ob col * nthR x col)]> y) ∨
  nthR (aW s) ob = 0 ∧ prod1_row 0 Rplus Rminus Rmult r_is0 s x y ob = Some y.
Proof using Hwf.
  intros Hx Hy Hob. unfold prod1_row. rewrite (lk _ _ ob (wf_W s Hwf)) by done. cbn [mbind option_bind].
  unfold r_is0. destruct (Req_EM_T _ _) as [H0|H0]; [by right|]. left.
  destruct (get_ph ob Hob) as (p & Hp & Hpl). rewrite Hp. cbn [mbind option_bind].
  destruct (lookup_lt_is_Some_2 (aEv1 s) ob) as [o1 Ho1]; [by rewrite (wf_1 s Hwf)|].
  destruct (lookup_lt_is_Some_2 (aEv2 s) ob) as [o2 Ho2]; [by rewrite (wf_2 s Hwf)|].
  rewrite Ho1. cbn [mbind option_bind].
  rewrite (block1 ob p x Rplus 1 (aEv1 s)); [|intros; lra|done..|intros e ->; by eapply wf_e1]. cbn [mbind option_bind].
  rewrite Ho2. cbn [mbind option_bind].
  rewrite (block1 ob p x Rminus (-1) (aEv2 s)); [|intros; lra|done..|intros e ->; by eapply wf_e2]. cbn [mbind option_bind].
  rewrite update_at by lia. do 2 f_equal. f_equal.
  rewrite (lsum_ext (λ col, entry s ob col * nthR x col) (λ col, nthR (aW s) ob * (side s (aEv1 s) ob col * nthR (aL s) col * nthR x col - side s (aEv2 s) ob col * nthR (aL s) col * nthR x col))).
  2: { intros col _. unfold entry, entry0. ring. }
  rewrite lsum_scal, lsum_minus. lra.
Qed.

(** One block of Aprod2 or of the normalisation: [c k] is added to column 4e+k *)
Lemma block2 (n e : nat) (v : list R) (f : list R → nat → option (list R)) (c : nat → R) : length v = (n * 4)%nat → (e < n)%nat →
  (∀ (w : list R) k, length w = (n * 4)%nat → (k < 4)%nat → f w k = Some (<[(e * 4 + k)%nat := nthR w (e * 4 + k) + c k]> w)) →
  ∃ v', loopM f four v = Some v' ∧ length v' = (n * 4)%nat ∧ ∀ j, nthR v' j = nthR v j + if decide (e = j / 4)%nat then c (j mod 4)%nat else 0.
Proof using.
  clear Hwf s. intros Hv He Hf.
  destruct (loop_add f (n * 4) (λ k j, if decide (e * 4 + k = j)%nat then c k else 0) four) with (v := v) as (v' & H1 & H2 & H3); [|done|].
  - intros k w Hk Hw. assert (k < 4)%nat by (unfold four in Hk; set_solver by lia).
    eexists. split; [by apply Hf|]. split; [by rewrite insert_length|]. intros j. rewrite nthR_insert by lia.
    destruct (decide _) as [<-|]; [done|lra].
  - exists v'. split; [done|]. split; [done|]. intros j. rewrite H3. f_equal. cbn -[Nat.div Nat.modulo].
    pose proof (Nat.div_mod j 4 ltac:(lia)) as Hj. pose proof (Nat.mod_upper_bound j 4 ltac:(lia)) as Hm.
    set (q := (j / 4)%nat) in *. set (r := (j mod 4)%nat) in *. clearbody q r.
    destruct (decide (e = q)) as [-> |Hne].
    + destruct r as [|[|[|[|]]]]; [..|lia]; repeat (destruct (decide _); try lia); lra.
    + repeat (destruct (decide _); try lia). lra.
Qed.

Lemma row2 (y x : list R) (ob : nat) : length y = rows s → length x = cols s → (ob < rows s)%nat →
  ∃ x', prod2_row Rplus Rminus Rmult r_is0 s y x ob = Some x' ∧ length x' = cols s ∧ ∀ col, (col < cols s)%nat → nthR x' col = nthR x col + entry s ob col * nthR y ob.
Proof using Hwf.
  intros Hy Hx Hob. unfold prod2_row. rewrite (lk _ _ ob Hy) by done. cbn [mbind option_bind].
  rewrite (lk _ _ ob (wf_W s Hwf)) by done. cbn [mbind option_bind]. unfold r_is0.
  destruct (Req_EM_T _ _) as [H0|H0].
  { exists x. split; [done|]. split; [done|]. intros col _. unfold entry, entry0.
    replace (nthR (aW s) ob * _ * nthR (aL s) col * nthR y ob) with (nthR y ob * nthR (aW s) ob * ((side s (aEv1 s) ob col - side s (aEv2 s) ob col) * nthR (aL s) col)) by ring. rewrite H0. lra. }
  destruct (get_ph ob Hob) as (p & Hp & Hpl). rewrite Hp. cbn [mbind option_bind].
  destruct (lookup_lt_is_Some_2 (aEv1 s) ob) as [o1 Ho1]; [by rewrite (wf_1 s Hwf)|].
  destruct (lookup_lt_is_Some_2 (aEv2 s) ob) as [o2 Ho2]; [by rewrite (wf_2 s Hwf)|].
  set (wY := nthR y ob * nthR (aW s) ob) in *.
  assert (Hb : ∀ (op : R → R → R) sg ev o (v : list R), (∀ a b, op a b = a + sg * b) → length v = cols s → ev !! ob = Some o → (∀ e, o = Some e → (e < nEvts s)%nat) →
     ∃ v', prod2_block Rmult s wY p op v o = Some v' ∧ length v' = cols s ∧ ∀ col, (col < cols s)%nat → nthR v' col = nthR v col + sg * (side s ev ob col * nthR (aL s) col * wY)).
  { intros op sg ev o v Hop Hv Ho He. unfold side. rewrite Ho. destruct o as [e|].
    2: { exists v. split; [done|]. split; [done|]. intros; lra. }
    specialize (He e eq_refl). unfold prod2_block.
    destruct (block2 (nEvts s) e v (λ x k, g ← readG s (e * nPhStas s + p) k; l ← aL s !! (e * 4 + k)%nat; update x (e * 4 + k) (λ v, op v (g * l * wY))) (λ k, sg * (deriv s e ob k * nthR (aL s) (e * 4 + k) * wY))) as (v' & H1 & H2 & H3); [done|done| |].
    - intros w k Hw Hk. rewrite (get_G ob e k p) by done. cbn [mbind option_bind]. pose proof (ev_col e k He Hk).
      rewrite (lk _ _ _ (wf_L s Hwf)) by done. cbn [mbind option_bind]. unfold cols in *. rewrite update_at by lia. by rewrite Hop.
    - exists v'. split; [done|]. split; [done|]. intros col Hcol. rewrite H3. f_equal.
      destruct (decide _) as [Heq|]; [|lra]. replace (e * 4 + col mod 4)%nat with col by (rewrite Heq; pose proof (Nat.div_mod col 4 ltac:(lia)); lia). ring. }
  rewrite Ho1. cbn [mbind option_bind].
  destruct (Hb Rplus 1 (aEv1 s) o1 x) as (x1 & H1 & Hl1 & Hc1); [intros; lra|done|done|intros e ->; by eapply wf_e1|].
  rewrite H1. cbn [mbind option_bind]. rewrite Ho2. cbn [mbind option_bind].
  destruct (Hb Rminus (-1) (aEv2 s) o2 x1) as (x2 & H2 & Hl2 & Hc2); [intros; lra|done|done|intros e ->; by eapply wf_e2|].
  exists x2. split; [done|]. split; [done|]. intros col Hcol. rewrite Hc2, Hc1 by done. unfold entry, entry0, wY. ring.
Qed.
End wf.

(** ** C35 *)
(** Aprod1 adds A x to y, and reads and writes within the arrays *)
Theorem C35_aprod1 (s : dds R) (x y : list R) : wf s → length x = cols s → length y = rows s →
  ∃ y', R_aprod1 s (rows s) (cols s) x y = Some y' ∧ length y' = rows s ∧
    ∀ ob, (ob < rows s)%nat → nthR y' ob = nthR y ob + nsum (cols s) (λ col, entry s ob col * nthR x col).
Proof.
  intros Hwf Hx Hy. unfold R_aprod1, aprod1. rewrite decide_True by done.
  destruct (loop_add (prod1_row 0 Rplus Rminus Rmult r_is0 s x) (rows s)
    (λ ob j, if decide (ob = j) then nsum (cols s) (λ col, entry s ob col * nthR x col) else 0) (seq 0 (rows s))) with (v := y) as (y' & H1 & H2 & H3).
  - intros ob v Hob%elem_of_seq Hv. destruct (row1 s Hwf x v ob) as [Hr|[H0 Hr]]; [done|done|lia| |]; eexists; (split; [exact Hr|]).
    + split; [by rewrite insert_length|]. intros j. rewrite nthR_insert by lia. destruct (decide (ob = j)) as [-> |]; lra.
    + split; [done|]. intros j. rewrite lsum_zero; [destruct (decide _); lra|].
      intros col _. unfold entry, entry0. rewrite H0. lra.
  - done.
  - exists y'. split; [done|]. split; [done|]. intros ob Hob. rewrite H3. f_equal.
    rewrite (lsum_ext _ (λ i, if decide (ob = i) then nsum (cols s) (λ col, entry s ob col * nthR x col) else 0)).
    2: { intros i _. destruct (decide (i = ob)) as [-> |]; destruct (decide _); congruence. }
    by apply lsum_single.
Qed.
(** Aprod2 adds the transposed product A' y to x *)
Theorem C35_aprod2 (s : dds R) (x y : list R) : wf s → length x = cols s → length y = rows s →
  ∃ x', R_aprod2 s (rows s) (cols s) x y = Some x' ∧ length x' = cols s ∧
    ∀ col, (col < cols s)%nat → nthR x' col = nthR x col + nsum (rows s) (λ ob, entry s ob col * nthR y ob).
Proof.
  intros Hwf Hx Hy. unfold R_aprod2, aprod2. rewrite decide_True by done.
  assert (Hgen : ∀ l, (∀ ob, ob ∈ l → (ob < rows s)%nat) → ∀ x, length x = cols s → ∃ x', loopM (prod2_row Rplus Rminus Rmult r_is0 s y) l x = Some x' ∧ length x' = cols s ∧
    ∀ col, (col < cols s)%nat → nthR x' col = nthR x col + lsum (λ ob, entry s ob col * nthR y ob) l).
  { clear x Hx. induction l as [|ob l IH]; intros Hl x Hx; [exists x; split; [done|]; split; [done|]; intros; rewrite lsum_nil; lra|].
    destruct (row2 s Hwf y x ob) as (x1 & H1 & Hl1 & Hc1); [done|done|apply Hl; left|]. cbn [loopM]. rewrite H1.
    destruct (IH (λ i Hi, Hl i (elem_of_list_further _ _ _ Hi)) x1 Hl1) as (x2 & H2 & Hl2 & Hc2).
    exists x2. split; [done|]. split; [done|]. intros col Hcol. rewrite Hc2, Hc1 by done. rewrite lsum_cons. lra. }
  apply Hgen; [|done]. intros ob Hob%elem_of_seq. lia.
Qed.
(** <A x, y> = <x, A' y> for what the two functions compute from zero vectors *)
Theorem C35_adjoint (s : dds R) (x y ax ay : list R) : wf s → length x = cols s → length y = rows s →
  R_aprod1 s (rows s) (cols s) x (replicate (rows s) 0) = Some ax →
  R_aprod2 s (rows s) (cols s) (replicate (cols s) 0) y = Some ay →
  nsum (rows s) (λ ob, nthR ax ob * nthR y ob) = nsum (cols s) (λ col, nthR x col * nthR ay col).
Proof.
  intros Hwf Hx Hy H1 H2.
  destruct (C35_aprod1 s x (replicate (rows s) 0) Hwf Hx) as (ax' & E1 & _ & F1); [apply replicate_length|].
  destruct (C35_aprod2 s (replicate (cols s) 0) y Hwf) as (ay' & E2 & _ & F2); [apply replicate_length|done|].
  rewrite H1 in E1. rewrite H2 in E2. injection E1 as <-. injection E2 as <-.
  rewrite (lsum_ext _ (λ ob, nsum (cols s) (λ col, entry s ob col * nthR x col * nthR y ob))).
  2: { intros ob Hob%elem_of_seq. rewrite F1 by lia. unfold nthR at 1. rewrite lookup_replicate_2 by lia. cbn [default from_option]; unfold Datatypes.id.
       rewrite lsum_scal_r. lra. }
  rewrite lsum_swap. apply lsum_ext. intros col Hcol%elem_of_seq. rewrite F2 by lia. unfold nthR at 4. rewrite lookup_replicate_2 by lia. cbn [default from_option]; unfold Datatypes.id.
  rewrite Rplus_0_l, <- lsum_scal. apply lsum_ext. intros; ring.
Qed.
Print Assumptions C35_adjoint.
(** A wrong size is refused by both *)
Theorem C35_size (s : dds R) (m n : nat) (x y : list R) : (m, n) ≠ (rows s, cols s) → R_aprod1 s m n x y = None ∧ R_aprod2 s m n x y = None.
Proof. intros H. unfold R_aprod1, R_aprod2, aprod1, aprod2. rewrite !decide_False by (intros [-> ->]; by apply H). done. Qed.

(** The right hand side is weighted like the rows of the matrix; the solution starts at zero
    and the columns unscaled *)
Theorem C35_rhs (s : dds R) : wf s → ∃ s', R_adapter s = Some s' ∧ wf s' ∧
  (∀ ob, (ob < rows s)%nat → nthR (aD s') ob = nthR (aW s) ob * nthR (aD s) ob) ∧
  (∀ col, (col < cols s)%nat → nthR (aM s') col = 0) ∧ (∀ ob col, (ob < rows s)%nat → (col < cols s)%nat → entry s' ob col = entry0 s ob col).
Proof.
  intros Hwf. unfold R_adapter, adapter.

  assert (Hg : ∀ n, (n <= rows s)%nat → ∃ d', loopM (λ (d : list R) ob, w ← aW s !! ob; update d ob (λ x, if r_is0 w then 0 else x * w)) (seq 0 n) (aD s) = Some d' ∧ length d' = rows s ∧
     ∀ j, nthR d' j = if decide (j < n)%nat then nthR (aW s) j * nthR (aD s) j else nthR (aD s) j).
  { assert (Happ : ∀ {A B} (f : A → B → option A) l k a, loopM f (l ++ k) a = match loopM f l a with Some b => loopM f k b | None => None end).
    { intros A B f l k. induction l as [|i l IH]; intros a; [done|]. cbn [loopM app]. destruct (f a i); [apply IH|done]. }
    induction n as [|n IH]; intros Hn; [exists (aD s); split; [done|]; split; [by apply wf_D|]; intros; by rewrite decide_False by lia|].
    destruct IH as (d1 & H1 & Hl1 & Hc1); [lia|]. rewrite seq_S, Happ, H1. cbn [loopM plus].
    rewrite (lk _ _ n (wf_W s Hwf)) by lia. cbn [mbind option_bind]. rewrite update_at by lia.
    eexists. split; [done|]. split; [by rewrite insert_length|]. intros j. rewrite nthR_insert by lia.
    destruct (decide (n = j)) as [<-|Hne].
    - rewrite decide_True by lia. rewrite Hc1, decide_False by lia. unfold r_is0. destruct (Req_EM_T _ _) as [->|]; lra.
    - rewrite Hc1. destruct (decide (j < n)%nat), (decide (j < S n)%nat); lia || done. }
  destruct (Hg (rows s)) as (d' & H1 & H2 & H3); [lia|]. rewrite H1. cbn [mbind option_bind].
  eexists. split; [done|]. destruct Hwf. split; [|split; [|split]].
  - constructor; try done; cbn; by rewrite replicate_length.
  - intros ob Hob. cbn [aD with_L with_MD]. by rewrite H3, decide_True.
  - intros col Hc. unfold nthR. cbn [aM with_L with_MD]. by rewrite lookup_replicate_2.
  - intros ob col Hob Hc. unfold entry. unfold nthR at 1. cbn [aL with_L]. rewrite lookup_replicate_2 by done. cbn [default from_option].
    change (Datatypes.id 1) with 1. rewrite Rmult_1_r. done.
Qed.
Print Assumptions C35_rhs.

(** ** C39 *)
(** The two events of a row are different *)
Definition distinct (s : dds R) : Prop := ∀ ob e, aEv1 s !! ob = Some (Some e) → aEv2 s !! ob = Some (Some e) → nthR (aW s) ob = 0.
(** The squared norm of a column before scaling *)
Definition col_norm2 (s : dds R) (col : nat) : R := nsum (rows s) (λ ob, entry0 s ob col * entry0 s ob col).

Lemma col_norm2_pos (s : dds R) (col : nat) : 0 <= col_norm2 s col.
Proof. apply lsum_nonneg. intros; nra. Qed.
Lemma norm_sums (s : dds R) : wf s → distinct s →
  ∃ l, loopM (norm_row Rplus Rmult r_is0 s) (seq 0 (rows s)) (replicate (cols s) 0) = Some l ∧ length l = cols s ∧ ∀ col, (col < cols s)%nat → nthR l col = col_norm2 s col.
Proof.
  intros Hwf Hd.
  destruct (loop_add (norm_row Rplus Rmult r_is0 s) (cols s) (λ ob col, entry0 s ob col * entry0 s ob col) (seq 0 (rows s))) with (v := replicate (cols s) 0) as (l & H1 & H2 & H3).
  2: apply replicate_length.
  2: { exists l. split; [done|]. split; [done|]. intros col Hcol. rewrite H3. unfold nthR at 1. rewrite lookup_replicate_2 by done. cbn [default from_option].
       change (Datatypes.id 0) with 0. rewrite Rplus_0_l. done. }
  intros ob v Hob%elem_of_seq Hv. unfold norm_row. rewrite (lk _ _ ob (wf_W s Hwf)) by lia. cbn [mbind option_bind]. unfold r_is0.
  destruct (Req_EM_T _ _) as [H0|H0].
  { exists v. split; [done|]. split; [done|]. intros j. unfold entry0. rewrite H0. lra. }
  destruct (get_ph s Hwf ob) as (p & Hp & Hpl); [lia|]. rewrite Hp. cbn [mbind option_bind].
  destruct (lookup_lt_is_Some_2 (aEv1 s) ob) as [o1 Ho1]; [rewrite (wf_1 s Hwf); lia|].
  destruct (lookup_lt_is_Some_2 (aEv2 s) ob) as [o2 Ho2]; [rewrite (wf_2 s Hwf); lia|].
  set (w := nthR (aW s) ob) in *.
  assert (Hb : ∀ ev o (v : list R), length v = cols s → ev !! ob = Some o → (∀ e, o = Some e → (e < nEvts s)%nat) →
     ∃ v', norm_block Rplus Rmult s w p v o = Some v' ∧ length v' = cols s ∧ ∀ col, nthR v' col = nthR v col + (side s ev ob col * w) * (side s ev ob col * w)).
  { intros ev o u Hu Ho He. unfold side. rewrite Ho. destruct o as [e|].
    2: { exists u. split; [done|]. split; [done|]. intros; lra. }
    specialize (He e eq_refl). unfold norm_block.
    destruct (block2 (nEvts s) e u (λ l k, g ← readG s (e * nPhStas s + p) k; update l (e * 4 + k) (λ x, x + g * w * (g * w))) (λ k, deriv s e ob k * w * (deriv s e ob k * w))) as (u' & E1 & E2 & E3); [done|done| |].
    - intros q k Hq Hk. rewrite (get_G s Hwf ob e k p) by done. cbn [mbind option_bind]. rewrite update_at by lia. done.
    - exists u'. split; [done|]. split; [done|]. intros col. rewrite E3. destruct (decide _); lra. }
  rewrite Ho1. cbn [mbind option_bind]. destruct (Hb (aEv1 s) o1 v) as (v1 & E1 & Hl1 & Hc1); [done|done|intros e ->; by eapply wf_e1|].
  rewrite E1. cbn [mbind option_bind]. rewrite Ho2. cbn [mbind option_bind].
  destruct (Hb (aEv2 s) o2 v1) as (v2 & E2 & Hl2 & Hc2); [done|done|intros e ->; by eapply wf_e2|].
  exists v2. split; [done|]. split; [done|]. intros j. rewrite Hc2, Hc1. unfold entry0. fold w.
  assert (side s (aEv1 s) ob j * side s (aEv2 s) ob j = 0) as Hz.
  { unfold side. rewrite Ho1, Ho2. destruct o1 as [e1|]; [|lra]. destruct o2 as [e2|]; [|lra].
    destruct (decide (e1 = _)) as [->|]; [|lra]. destruct (decide (e2 = _)) as [->|]; [|lra]. exfalso. apply H0. by eapply Hd. }
  set (a := side s (aEv1 s) ob j) in *. set (b := side s (aEv2 s) ob j) in *.
  replace (w * (a - b) * (w * (a - b))) with (a * w * (a * w) + b * w * (b * w) - 2 * w * w * (a * b)) by ring. rewrite Hz. lra.
Qed.

(** After scaling every column has norm 1 *)
Theorem C39_unit_norm (s s' : dds R) (col : nat) : wf s → distinct s → R_l2normalize s = Some s' → (col < cols s)%nat →
  nsum (rows s') (λ ob, entry s' ob col * entry s' ob col) = 1 ∧ 0 < nthR (aL s') col.
Proof.
  intros Hwf Hd Hs Hcol. unfold R_l2normalize, l2normalize in Hs.
  destruct (norm_sums s Hwf Hd) as (l & H1 & H2 & H3). rewrite H1 in Hs. cbn [mbind option_bind] in Hs.
  destruct (existsb r_is0 l) eqn:Hex; [done|]. injection Hs as <-.
  assert (Hpos : 0 < col_norm2 s col).
  { destruct (col_norm2_pos s col) as [|H0]; [done|]. exfalso. rewrite <- not_true_iff_false in Hex. apply Hex.
    apply existsb_exists. exists (nthR l col). split.
    - apply elem_of_list_In, elem_of_list_lookup. exists col. apply (lk l (cols s)); done.
    - unfold r_is0. rewrite H3 by done. rewrite <- H0. by destruct (Req_EM_T 0 0). }
  assert (HL : nthR (r_inv_sqrt <$> l) col = 1 / R_sqrt.sqrt (col_norm2 s col)).
  { unfold nthR. rewrite list_lookup_fmap, (lk l (cols s)) by done. cbn. by rewrite H3. }
  pose proof (sqrt_lt_R0 _ Hpos) as Hq.
  split; [|cbn [aL with_L]; rewrite HL; apply Rdiv_lt_0_compat; lra].
  change (rows (with_L s (r_inv_sqrt <$> l))) with (rows s).
  rewrite (lsum_ext _ (λ ob, (1 / col_norm2 s col) * (entry0 s ob col * entry0 s ob col))).
  - rewrite lsum_scal. fold (col_norm2 s col). field. lra.
  - intros ob _. unfold entry. cbn [aL with_L]. rewrite HL. change (entry0 (with_L s (r_inv_sqrt <$> l)) ob col) with (entry0 s ob col).
    rewrite <- (sqrt_sqrt (col_norm2 s col)) at 3 by lra. field. lra.
Qed.
(** The scaling is defined whenever no column is zero *)
Theorem C39_defined (s : dds R) : wf s → distinct s →
  ((∃ s', R_l2normalize s = Some s' ∧ wf s') ↔ ∀ col, (col < cols s)%nat → ∃ ob, (ob < rows s)%nat ∧ entry0 s ob col ≠ 0).
Proof.
  intros Hwf Hd. unfold R_l2normalize, l2normalize. destruct (norm_sums s Hwf Hd) as (l & H1 & H2 & H3). rewrite H1. cbn [mbind option_bind].
  assert (Hz : ∀ col, (∀ ob, (ob < rows s)%nat → entry0 s ob col = 0) → col_norm2 s col = 0).
  { intros col H. apply lsum_zero. intros ob Hob%elem_of_seq. rewrite H by lia. lra. }
  assert (Hnz : ∀ n col ob, (ob < n)%nat → nsum n (λ ob, entry0 s ob col * entry0 s ob col) = 0 → entry0 s ob col = 0).
  { induction n as [|n IH]; intros col ob Hob Hsum; [lia|]. rewrite seq_S, lsum_app, lsum_cons, lsum_nil in Hsum. cbn [plus] in Hsum.
    assert (0 <= nsum n (λ ob, entry0 s ob col * entry0 s ob col)) by (apply lsum_nonneg; intros; nra).
    destruct (decide (ob = n)) as [->|]; [nra|]. apply IH; [lia|]. nra. }
  split.
  - intros (s' & Hs & _) col Hcol. destruct (existsb r_is0 l) eqn:Hex; [done|].
    assert (Hdec : (∀ ob, (ob < rows s)%nat → entry0 s ob col = 0) ∨ ∃ ob, (ob < rows s)%nat ∧ entry0 s ob col ≠ 0).
    { generalize (rows s). intros n. induction n as [|n [IH|(ob & ? & ?)]]; [left; intros; lia| |right; exists ob; split; [lia|done]].
      destruct (Req_EM_T (entry0 s n col) 0); [left|right; exists n; split; [lia|done]].
      intros ob Hob. destruct (decide (ob = n)) as [->|]; [done|]. apply IH. lia. }
    destruct Hdec as [Hall|]; [|done]. exfalso. rewrite <- not_true_iff_false in Hex. apply Hex. apply existsb_exists. exists (nthR l col). split.
    + apply elem_of_list_In, elem_of_list_lookup. exists col. apply (lk l (cols s)); done.
    + unfold r_is0. rewrite H3, (Hz col Hall) by done. by destruct (Req_EM_T 0 0).
  - intros Hall. destruct (existsb r_is0 l) eqn:Hex.
    + exfalso. apply existsb_exists in Hex as (v & Hv & H0). apply elem_of_list_In, elem_of_list_lookup in Hv as [col Hv].
      assert (Hcol : (col < cols s)%nat) by (rewrite <- H2; by eapply lookup_lt_Some).
      destruct (Hall col Hcol) as (ob & Hob & Hne). apply Hne. apply (Hnz (rows s)); [done|]. fold (col_norm2 s col). rewrite <- H3 by done.
      unfold nthR. rewrite Hv. cbn. unfold r_is0 in H0. by destruct (Req_EM_T v 0).
    + eexists. split; [done|]. destruct Hwf. constructor; try done. cbn. by rewrite fmap_length.
Qed.
Print Assumptions C39_defined.

Lemma denorm (s : dds R) : wf s → ∃ s', R_l2denormalize s = Some s' ∧ length (aM s') = cols s ∧ ∀ col, (col < cols s)%nat → nthR (aM s') col = nthR (aM s) col * nthR (aL s) col.
Proof.
  intros Hwf. unfold R_l2denormalize, l2denormalize.
  assert (Hg : ∀ n, (n <= cols s)%nat → ∃ m', loopM (λ (m : list R) i, l ← aL s !! i; update m i (λ x, x * l)) (seq 0 n) (aM s) = Some m' ∧ length m' = cols s ∧
     ∀ j, nthR m' j = if decide (j < n)%nat then nthR (aM s) j * nthR (aL s) j else nthR (aM s) j).
  { assert (Happ : ∀ {A B} (f : A → B → option A) l k a, loopM f (l ++ k) a = match loopM f l a with Some b => loopM f k b | None => None end).
    { intros A B f l k. induction l as [|i l IH]; intros a; [done|]. cbn [loopM app]. destruct (f a i); [apply IH|done]. }
    induction n as [|n IH]; intros Hn; [exists (aM s); split; [done|]; split; [by apply wf_M|]; intros; by rewrite decide_False by lia|].
    destruct IH as (m1 & H1 & Hl1 & Hc1); [lia|]. rewrite seq_S, Happ, H1. cbn [loopM plus].
    rewrite (lk _ _ n (wf_L s Hwf)) by lia. cbn [mbind option_bind]. rewrite update_at by lia.
    eexists. split; [done|]. split; [by rewrite insert_length|]. intros j. rewrite nthR_insert by lia.
    destruct (decide (n = j)) as [<-|Hne].
    - rewrite decide_True by lia. rewrite Hc1, decide_False by lia. done.
    - rewrite Hc1. destruct (decide (j < n)%nat), (decide (j < S n)%nat); lia || done. }
  destruct (Hg (cols s)) as (m' & H1 & H2 & H3); [lia|]. rewrite H1. cbn [mbind option_bind].
  eexists. split; [done|]. split; [done|]. intros col Hcol. cbn [aM with_MD]. by rewrite H3, decide_True.
Qed.

(** The squared distance of A m from the data *)
Definition misfit (s : dds R) (A : nat → nat → R) (m : nat → R) : R :=
  nsum (rows s) (λ ob, (nsum (cols s) (λ col, A ob col * m col) - nthR (aD s) ob) * (nsum (cols s) (λ col, A ob col * m col) - nthR (aD s) ob)).
(** A least squares solution z of the scaled system, rescaled, is one of the unscaled system *)
Theorem C39_least_squares (s s1 : dds R) (z : list R) : wf s → distinct s → R_l2normalize s = Some s1 → length z = cols s →
  (∀ z' : nat → R, misfit s (entry s1) (nthR z) <= misfit s (entry s1) z') →
  ∃ s2, R_l2denormalize (with_MD s1 z (aD s1)) = Some s2 ∧ length (aM s2) = cols s ∧
    (∀ ob, nsum (cols s) (λ col, entry0 s ob col * nthR (aM s2) col) = nsum (cols s) (λ col, entry s1 ob col * nthR z col)) ∧
    ∀ m' : nat → R, misfit s (entry0 s) (nthR (aM s2)) <= misfit s (entry0 s) m'.
Proof.
  intros Hwf Hd H1 Hz Hmin.
  assert (Hpos : ∀ col, (col < cols s)%nat → 0 < nthR (aL s1) col) by (intros; by eapply C39_unit_norm).
  assert (Hs1 : ∃ l, s1 = with_L s l ∧ length l = cols s).
  { unfold R_l2normalize, l2normalize in H1. destruct (norm_sums s Hwf Hd) as (l & E1 & E2 & E3). rewrite E1 in H1. cbn [mbind option_bind] in H1.
    destruct (existsb r_is0 l); [done|]. injection H1 as <-. eexists. split; [done|]. by rewrite fmap_length. }
  destruct Hs1 as (l & -> & Hl).
  destruct (denorm (with_MD (with_L s l) z (aD (with_L s l)))) as (s2 & E1 & E2 & E3); [destruct Hwf; by constructor|].
  change (cols _) with (cols s) in E2, E3. cbn [aM aL with_MD with_L] in E3.
  assert (Heq : ∀ ob, nsum (cols s) (λ col, entry0 s ob col * nthR (aM s2) col) = nsum (cols s) (λ col, entry (with_L s l) ob col * nthR z col)).
  { intros ob. apply lsum_ext. intros col Hcol%elem_of_seq. rewrite E3 by lia. unfold entry. change (entry0 (with_L s l) ob col) with (entry0 s ob col). cbn [aL with_L]. ring. }
  exists s2. split; [done|]. split; [done|]. split; [done|]. intros m'.
  specialize (Hmin (λ col, m' col / nthR l col)). cbn [aL with_L] in Hpos. unfold misfit in *.
  rewrite (lsum_ext _ (λ ob, (nsum (cols s) (λ col, entry (with_L s l) ob col * nthR z col) - nthR (aD s) ob) * (nsum (cols s) (λ col, entry (with_L s l) ob col * nthR z col) - nthR (aD s) ob))) by (intros ob _; by rewrite Heq).
  eapply Rle_trans; [exact Hmin|]. right. apply lsum_ext. intros ob _.
  rewrite (lsum_ext (λ col, entry (with_L s l) ob col * (m' col / nthR l col)) (λ col, entry0 s ob col * m' col)); [done|].
  intros col Hcol%elem_of_seq. unfold entry. change (entry0 (with_L s l) ob col) with (entry0 s ob col). cbn [aL with_L]. specialize (Hpos col ltac:(lia)). field. lra.
Qed.
Print Assumptions C39_least_squares.

(** Two events, one phase/station, one observation and one travel time constraint *)
Definition ex_sys : dds R := DDS 1 2 1 1 [2; 1] [[1; 2; 3; 1]; [4; 5; 6; 1]] (replicate 8 0) [7; 8] (replicate 8 1) [Some 0%nat; Some 0%nat] [Some 1%nat; None] [0%nat; 0%nat].
Example ex_wf : wf ex_sys.
Proof.
  constructor; try done.
  - intros g Hg. unfold ex_sys in Hg. cbn in Hg. set_solver.
  - intros [|[|ob]] e H; cbn in H; [injection H as <-; cbn; lia..|done].
  - intros [|[|ob]] e H; cbn in H; [injection H as <-; cbn; lia|done..].
  - intros [|[|ob]] e H; cbn in H; [injection H as <-; cbn; lia..|done].
Qed.
Example ex_distinct : distinct ex_sys.
Proof. intros [|[|ob]] e H1 H2; unfold ex_sys in *; cbn [aEv1 aEv2 lookup list_lookup] in *; [|done..]. injection H1 as <-. done. Qed.
Example ex_entries : entry ex_sys 0 0 = 2 ∧ entry ex_sys 0 6 = -12 ∧ entry ex_sys 1 2 = 3 ∧ entry ex_sys 1 4 = 0.
Proof. split; [|split; [|split]]; unfold entry, entry0, side, deriv, nthR; cbn; repeat (destruct (decide _); try congruence); lra. Qed.
Example ex_no_zero_column : ∀ col, (col < cols ex_sys)%nat → ∃ ob, (ob < rows ex_sys)%nat ∧ entry0 ex_sys ob col ≠ 0.
Proof.
  intros col Hcol. exists 0%nat. split; [cbn; lia|]. cbn in Hcol. unfold entry0, side, deriv, nthR.
  destruct col as [|[|[|[|[|[|[|[|]]]]]]]]; [cbn; repeat (destruct (decide _); try congruence); lra..|lia].
Qed.

(** A zero column (for instance dz = 0 at every station of an event) has an infinite scaler,
    0 * inf is NaN and the product is NaN for every vector *)
Definition flat : dds ext :=
  DDS 1 1 1 0 [EFin 1] [[EFin 1; EFin 1; EFin 0; EFin 1]] (replicate 4 (EFin 0)) [EFin 1] (replicate 4 (EFin 1)) [Some 0%nat] [None] [0%nat].
Theorem C39_zero_column_refuted : ∃ (s s' : dds ext), (rows s = 1 ∧ cols s = 4)%nat ∧ E_l2normalize s = Some s' ∧
  aL s' = [EFin 1; EFin 1; EPos; EFin 1] ∧ ∀ a b c d, E_aprod1 s' 1 4 [a; b; c; d] [EFin 0] = Some [ENaN].
Proof.
  exists flat, (with_L flat [EFin 1; EFin 1; EPos; EFin 1]). split; [done|].
  assert (Hi : e_is0 (EFin 1) = false) by (cbn; unfold r_is0; destruct (Req_EM_T 1 0); [lra|done]).
  split; [|split; [done|]].
  - unfold E_l2normalize, l2normalize. change (seq 0 (rows flat)) with [0%nat]. cbn [loopM].
    unfold norm_row. change (aW flat !! 0%nat) with (Some (EFin 1)). cbn [mbind option_bind]. rewrite Hi.
    cbn -[e_inv_sqrt Rmult Rplus]. unfold with_L. do 2 f_equal.
    assert (H1 : e_inv_sqrt (EFin (0 + 1 * 1 * (1 * 1))) = EFin 1).
    { replace (0 + 1 * 1 * (1 * 1)) with 1 by ring. unfold e_inv_sqrt, e_sqrt. destruct (Rlt_dec 1 0); [lra|]. rewrite sqrt_1. unfold e_div.
      destruct (Req_EM_T 1 0); [lra|]. f_equal. field. }
    assert (H0 : e_inv_sqrt (EFin (0 + 0 * 1 * (0 * 1))) = EPos).
    { replace (0 + 0 * 1 * (0 * 1)) with 0 by ring. unfold e_inv_sqrt, e_sqrt. destruct (Rlt_dec 0 0); [lra|]. rewrite sqrt_0. unfold e_div.
      destruct (Req_EM_T 0 0); [|lra]. unfold r_inf. destruct (Req_EM_T 1 0); [lra|]. destruct (Rlt_dec 0 1); [done|lra]. }
    by rewrite H1, H0.
  - intros a b c d. unfold E_aprod1, aprod1. rewrite decide_True by done. cbn [seq loopM rows nObs nTT flat with_L plus].
    unfold prod1_row. change (aW _ !! 0%nat) with (Some (EFin 1)). cbn [mbind option_bind]. rewrite Hi.
    assert (Hm : e_mul (EFin 0) EPos = ENaN) by (cbn; unfold r_inf; destruct (Req_EM_T 0 0); [done|lra]).
    cbn -[e_mul e_add e_sub]. rewrite Hm. assert (Hn : ∀ x, e_mul ENaN x = ENaN) by (by intros []). rewrite Hn.
    assert (Ha : ∀ x, e_add x ENaN = ENaN) by (by intros []). rewrite Ha. 
    assert (Ha' : ∀ x, e_add ENaN x = ENaN) by (by intros []). rewrite Ha'. done.
Qed.
Print Assumptions C39_zero_column_refuted.
