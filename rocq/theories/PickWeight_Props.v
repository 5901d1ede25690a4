(** Theorems about pick weights: C19. *)
From Coq Require Import QArith Qpower List Bool Lia Lqa.
From Verif Require Import PickWeight_Model.
Import ListNotations.

(** ** Specification *)
(** Class boundaries as a list of ascending rationals. *)
Fixpoint ascending (l : list Q) : Prop :=
  match l with a :: ((b :: _) as r) => a < b /\ ascending r | _ => True end.
Definition bounds (l : list Q) : list dbl := map Fin l.
Definition mean (lo up : Q) : Q := (lo + up) / 2.

Lemma find_class_spec u l : forall o k, find_class (Fin u) o (bounds l) = Some k ->
  (o <= k)%nat /\ (S (k - o) < length l)%nat /\
  nth (k - o) l 0 <= u /\ u <= nth (S (k - o)) l 0 /\
  forall j, (j < k - o)%nat -> ~ (nth j l 0 <= u /\ u <= nth (S j) l 0).
Proof.
  induction l as [|a l IH]; intros o k H; [discriminate|]. destruct l as [|b l]; [discriminate|].
  cbn [bounds map find_class] in H. cbn [dle] in H.
  destruct (Qle_bool a u && Qle_bool u b) eqn:E.
  - injection H as <-. apply andb_true_iff in E as [E1 E2]. apply Qle_bool_iff in E1, E2.
    rewrite Nat.sub_diag. cbn [nth length]. split; [lia|]. split; [lia|]. split; [exact E1|]. split; [exact E2|]. lia.
  - destruct (IH (S o) k H) as (H1 & H2 & H3 & H4 & H5).
    replace (k - o)%nat with (S (k - S o)) by lia.
    split; [lia|]. split; [cbn [length] in *; lia|]. split; [exact H3|]. split; [exact H4|].
    intros [|j] Hj.
    + cbn [nth]. intros [A B]. apply Qle_bool_iff in A, B. rewrite A, B in E. discriminate.
    + apply (H5 j). lia.
Qed.

Lemma bounds_length l : length (bounds l) = length l.
Proof. apply map_length. Qed.
Lemma last_bounds l : l <> [] -> last (bounds l) NaN = Fin (last l 0).
Proof.
  induction l as [|a l IH]; [contradiction|]. intros _. destruct l as [|b l]; [reflexivity|].
  cbn [bounds map last] in *. apply IH. discriminate.
Qed.

Lemma find_class_mono u1 u2 l : forall o k2,
  hd 0 l <= u1 -> u1 <= u2 ->
  find_class (Fin u2) o (bounds l) = Some k2 ->
  exists k1, find_class (Fin u1) o (bounds l) = Some k1 /\ (k1 <= k2)%nat.
Proof.
  induction l as [|a l IH]; intros o k2 Hh Hu H; [discriminate|]. destruct l as [|b l]; [discriminate|].
  destruct (find_class_spec _ _ _ _ H) as (Ho & _).
  cbn [bounds map find_class] in *. cbn [dle hd] in *.
  destruct (Qle_bool a u1 && Qle_bool u1 b) eqn:E; [exists o; split; [reflexivity|lia]|].
  apply andb_false_iff in E as [E|E].
  - exfalso. apply Qle_bool_iff in Hh. congruence.
  - assert (b < u1) as Hb. { apply Qnot_le_lt. intros C. apply Qle_bool_iff in C. congruence. }
    assert (Qle_bool u2 b = false) as E2.
    { destruct (Qle_bool u2 b) eqn:X; [|reflexivity]. apply Qle_bool_iff in X. lra. }
    rewrite E2, andb_false_r in H. apply (IH (S o) k2); [cbn [hd]; lra|exact Hu|exact H].
Qed.

Lemma find_class_total u l : forall o, (2 <= length l)%nat ->
  hd 0 l <= u -> u < last l 0 -> exists k, find_class (Fin u) o (bounds l) = Some k.
Proof.
  induction l as [|a l IH]; intros o Hl Hh Hu; [cbn in Hl; lia|]. destruct l as [|b l]; [cbn in Hl; lia|].
  cbn [bounds map find_class]. cbn [dle hd] in *.
  destruct (Qle_bool a u && Qle_bool u b) eqn:E; [eauto|].
  assert (b < u) as Hb.
  { apply Qnot_le_lt. intros C. apply Qle_bool_iff in C, Hh. rewrite C, Hh in E. discriminate. }
  destruct l as [|c l].
  - cbn [last] in Hu. lra.
  - apply (IH (S o)); [cbn; lia|cbn [hd]; lra|exact Hu].
Qed.

Lemma pow2_pos k : 0 < 2 ^ Z.of_nat k.
Proof. apply Qpower_0_lt. reflexivity. Qed.
Lemma weight_some k : weight (Some k) == / (2 ^ Z.of_nat k).
Proof. unfold weight, Qdiv. now rewrite Qmult_1_l. Qed.
Lemma Qinv_anti x y : 0 < x -> x <= y -> / y <= / x.
Proof.
  intros Hx H. apply Qle_lteq in H as [H|H]; [|rewrite H; apply Qle_refl].
  apply Qlt_le_weak. apply (proj1 (Qinv_lt_contravar x y Hx (Qlt_trans _ _ _ Hx H))). exact H.
Qed.
Lemma weight_anti k1 k2 : (k1 <= k2)%nat -> weight (Some k2) <= weight (Some k1).
Proof.
  intros H. rewrite !weight_some. apply Qinv_anti; [apply pow2_pos|].
  apply Qpower_le_compat_l; [lia|discriminate].
Qed.

(** ** C19 *)
(** The weight is 1/2^k with k the class, k <= number of classes - 1; it lies in
    (0,1].  With fewer than two boundaries it is 1. *)
Theorem C19_weight_values (lower upper : dbl) (classes : list dbl) :
  0 < pick_weight lower upper classes /\ pick_weight lower upper classes <= 1 /\
  ((length classes < 2)%nat -> pick_weight lower upper classes == 1) /\
  ((2 <= length classes)%nat ->
     exists k, (k <= length classes - 1)%nat /\ pick_weight lower upper classes == 1 / 2 ^ Z.of_nat k).
Proof.
  unfold pick_weight. assert (forall u l o k, find_class u o l = Some k -> (k < o + (length l - 1))%nat) as Hb.
  { intros u l. induction l as [|a l IH]; intros o k H; [discriminate|]. destruct l as [|b l]; [discriminate|].
    cbn [find_class] in H. destruct (_ && _); [injection H as <-; cbn; lia|].
    apply IH in H. cbn [length] in *. lia. }
  assert (forall k, 0 < weight (Some k) /\ weight (Some k) <= 1) as Hw.
  { intros k. split.
    - rewrite weight_some. apply Qinv_lt_0_compat, pow2_pos.
    - apply (Qle_trans _ (weight (Some 0%nat))); [apply weight_anti; lia|]. vm_compute. discriminate. }
  unfold pick_class. destruct (Nat.ltb_spec (length classes) 2) as [L|L].
  - cbn [weight]. split; [reflexivity|]. split; [apply Qle_refl|]. split; [reflexivity|lia].
  - match goal with |- context [Some ?c] => set (k := c) end.
    split; [apply Hw|]. split; [apply Hw|]. split; [lia|]. intros _. exists k. split; [|reflexivity].
    subst k. destruct (_ && _ && _); [|lia]. destruct (find_class _ _ _) eqn:E; [|lia].
    apply Hb in E. lia.
Qed.

(** Unknown (NaN, infinite), negative and too large uncertainties get the lowest
    weight. *)
Theorem C19_out_of_range_lowest (lower upper : dbl) (l : list Q) :
  (2 <= length l)%nat ->
  (forall lo up, lower = Fin lo -> upper = Fin up -> mean lo up < 0 \/ last l 0 <= mean lo up) ->
  pick_weight lower upper (bounds l) == 1 / 2 ^ Z.of_nat (length l - 1).
Proof.
  intros Hl H. unfold pick_weight, pick_class. rewrite !bounds_length.
  destruct (Nat.ltb_spec (length l) 2); [lia|]. rewrite last_bounds by (destruct l; [cbn in Hl; lia|discriminate]).
  destruct lower as [lo| | |], upper as [up| | |]; try reflexivity.
  specialize (H lo up eq_refl eq_refl). unfold mean in H. cbn [dadd dhalf dle is_fin dlt].
  destruct H as [H|H].
  - destruct (Qle_bool 0 ((lo + up) / 2)) eqn:E; [|reflexivity]. apply Qle_bool_iff in E. lra.
  - apply Qle_bool_iff in H. rewrite H. rewrite andb_false_r. reflexivity.
Qed.

(** In range, the class is the first interval that contains the uncertainty. *)
Theorem C19_class_contains (lo up : Q) (l : list Q) :
  (2 <= length l)%nat -> 0 <= hd 0 l -> hd 0 l <= mean lo up -> mean lo up < last l 0 ->
  exists k, pick_weight (Fin lo) (Fin up) (bounds l) == 1 / 2 ^ Z.of_nat k /\ (S k < length l)%nat /\
    nth k l 0 <= mean lo up <= nth (S k) l 0 /\
    forall j, (j < k)%nat -> ~ (nth j l 0 <= mean lo up <= nth (S j) l 0).
Proof.
  intros Hl H0 Hh Hu. destruct (find_class_total _ l 0 Hl Hh Hu) as [k Hk]. exists k.
  destruct (find_class_spec _ _ _ _ Hk) as (H1 & H2 & H3 & H4 & H5). rewrite Nat.sub_0_r in *.
  split; [|split; [exact H2|split; [split; assumption|exact H5]]].
  unfold pick_weight, pick_class. rewrite !bounds_length.
  destruct (Nat.ltb_spec (length l) 2); [lia|]. rewrite last_bounds by (destruct l; [cbn in Hl; lia|discriminate]).
  cbn [dadd dhalf is_fin dlt]. fold (mean lo up). rewrite Hk.
  assert (dle (Fin 0) (Fin (mean lo up)) = true) as -> by (cbn [dle]; apply Qle_bool_iff; lra).
  assert (dle (Fin (last l 0)) (Fin (mean lo up)) = false) as ->.
  { cbn [dle]. destruct (Qle_bool (last l 0) (mean lo up)) eqn:E; [|reflexivity].
    apply Qle_bool_iff in E. lra. }
  reflexivity.
Qed.

(** Monotonicity from the first boundary on. *)
Theorem C19_weight_antitone (lo1 up1 : Q) (lower2 upper2 : dbl) (l : list Q) :
  (2 <= length l)%nat -> 0 <= hd 0 l -> hd 0 l <= mean lo1 up1 ->
  (forall lo2 up2, lower2 = Fin lo2 -> upper2 = Fin up2 -> mean lo1 up1 <= mean lo2 up2) ->
  pick_weight lower2 upper2 (bounds l) <= pick_weight (Fin lo1) (Fin up1) (bounds l).
Proof.
  intros Hl H0 Hh H12.
  destruct (C19_weight_values (Fin lo1) (Fin up1) (bounds l)) as (_ & _ & _ & Hv).
  rewrite !bounds_length in Hv. destruct (Hv Hl) as (k1 & Hk1 & E1).
  assert (pick_weight (Fin lo1) (Fin up1) (bounds l) == weight (Some k1)) as F1 by exact E1.
  assert (forall k, (k <= length l - 1)%nat -> weight (Some (length l - 1)%nat) <= weight (Some k)) as Hlow.
  { intros k Hk. now apply weight_anti. }
  assert ((forall lo2 up2, lower2 = Fin lo2 -> upper2 = Fin up2 -> mean lo2 up2 < 0 \/ last l 0 <= mean lo2 up2) ->
     pick_weight lower2 upper2 (bounds l) <= pick_weight (Fin lo1) (Fin up1) (bounds l)) as Hout.
  { intros Ho. rewrite (C19_out_of_range_lowest _ _ _ Hl Ho), F1. now apply Hlow. }
  destruct lower2 as [lo2| | |], upper2 as [up2| | |];
    try (apply Hout; intros; discriminate).
  specialize (H12 lo2 up2 eq_refl eq_refl).
  destruct (Qlt_le_dec (mean lo2 up2) (last l 0)) as [Hlt|Hge].
  2: { apply Hout. intros a b Ea Eb. injection Ea as <-. injection Eb as <-. now right. }
  destruct (find_class_total _ l 0 Hl (Qle_trans _ _ _ Hh H12) Hlt) as [k2 Hk2].
  destruct (find_class_mono _ _ _ _ _ Hh H12 Hk2) as (k1' & Hk1' & Hle).
  assert (forall lo up k, 0 <= mean lo up -> mean lo up < last l 0 -> find_class (Fin (mean lo up)) 0 (bounds l) = Some k ->
     pick_weight (Fin lo) (Fin up) (bounds l) = weight (Some k)) as Hform.
  { intros lo up k Hp Hq Hf. unfold pick_weight, pick_class. rewrite !bounds_length.
    destruct (Nat.ltb_spec (length l) 2); [lia|]. rewrite last_bounds by (destruct l; [cbn in Hl; lia|discriminate]).
    cbn [dadd dhalf is_fin dlt]. fold (mean lo up). rewrite Hf.
    assert (dle (Fin 0) (Fin (mean lo up)) = true) as -> by (cbn [dle]; apply Qle_bool_iff; lra).
    assert (dle (Fin (last l 0)) (Fin (mean lo up)) = false) as ->.
    { cbn [dle]. destruct (Qle_bool (last l 0) (mean lo up)) eqn:E; [|reflexivity].
      apply Qle_bool_iff in E. lra. }
    reflexivity. }
  rewrite (Hform lo2 up2 k2), (Hform lo1 up1 k1'); try assumption; try lra.
  now apply weight_anti.
Qed.
Print Assumptions C19_weight_values.
Print Assumptions C19_out_of_range_lowest.
Print Assumptions C19_class_contains.
Print Assumptions C19_weight_antitone.

(** An uncertainty below the first boundary gets the lowest weight: a larger
    uncertainty can get a larger weight. *)
Theorem C19_antitone_below_first_refuted :
  exists u1 u2 l, ascending l /\ 0 <= u1 /\ u1 < u2 /\
    pick_weight (Fin u1) (Fin u1) (bounds l) < pick_weight (Fin u2) (Fin u2) (bounds l).
Proof.
  exists (1 # 20), (3 # 20), [1 # 10; 2 # 10; 4 # 10].
  split; [cbn; split; [reflexivity|split; [reflexivity|exact I]]|].
  split; [discriminate|]. split; [reflexivity|]. vm_compute. reflexivity.
Qed.
Print Assumptions C19_antitone_below_first_refuted.

Example pick_weight_ex :
  pick_weight (Fin (3 # 10)) (Fin (3 # 10)) (bounds [0; 1 # 10; 2 # 10; 4 # 10]) == 1 # 4 /\
  pick_weight NaN (Fin 1) (bounds [0; 1 # 10; 2 # 10; 4 # 10]) == 1 # 8 /\
  mean (3 # 10) (3 # 10) < last [0; 1 # 10; 2 # 10; 4 # 10] 0.
Proof. vm_compute. repeat split. Qed.
