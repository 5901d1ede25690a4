(** C51: the value at a location comes from the nodes around it *)
From Coq Require Import Reals Lra.
From stdpp Require Import numbers list.
From Verif Require Import Geo_Model Geo_Proofs Interp_Model Interp_Props GridFile_Model GridFile_Props GridCell_Model.
Local Open Scope R_scope.

(** ** Specification *)
Notation num a := (a_num a) (only parsing).
Definition pos (a : axis) (i : N) : R := a_orig a + IZR (Z.of_N i) * a_step a.
Definition good (a : axis) : Prop := (2 <= a_num a < 2 ^ 64)%N ∧ 0 < a_step a.
Definition within (a : axis) (l : R) : Prop := pos a 0 <= l <= pos a (a_num a - 1).
(** The location is between the node j and the next one; its relative position *)
Definition around (a : axis) (l : R) (j : N) : Prop := (j + 1 < a_num a)%N ∧ pos a j <= l <= pos a (j + 1).
Definition rel (a : axis) (l : R) (j : N) : R := (l - pos a j) / a_step a.
Definition nth_ (j : N) (b : bool) : N := if b then (j + 1)%N else j.

(** ** One axis *)
Lemma IZR_N_plus i j : IZR (Z.of_N (i + j)) = IZR (Z.of_N i) + IZR (Z.of_N j).
Proof. rewrite N2Z.inj_add. apply plus_IZR. Qed.
Lemma pos_succ a i : pos a (i + 1) = pos a i + a_step a.
Proof. unfold pos. rewrite IZR_N_plus. change (IZR (Z.of_N 1)) with 1. ring. Qed.
Lemma pred64_pos n : (1 <= n < 2 ^ 64)%N → pred64 n = (n - 1)%N.
Proof.
  intros H. unfold pred64, wrap. replace (n + (2 ^ 64 - 1))%N with ((n - 1) + 1 * 2 ^ 64)%N by lia.
  rewrite N.mod_add by done. apply N.mod_small. lia.
Qed.
Lemma succ64_small n : (n + 1 < 2 ^ 64)%N → succ64 n = (n + 1)%N.
Proof. intros. apply N.mod_small. done. Qed.
Lemma a_max_pos a : (1 <= a_num a < 2 ^ 64)%N → a_max a = pos a (a_num a - 1).
Proof. intros. unfold a_max, pos. by rewrite pred64_pos. Qed.
Lemma pos_0 a : pos a 0 = a_orig a.
Proof. unfold pos. change (IZR (Z.of_N 0)) with 0. ring. Qed.

Lemma outside_within a l : (1 <= a_num a < 2 ^ 64)%N → outside a (Some l) = false ↔ within a l.
Proof.
  intros H. unfold outside, within, a_min. rewrite (a_max_pos a H), pos_0.
  destruct (Rlt_dec l (a_orig a)) as [E|E], (Rlt_dec _ l) as [E'|E']; cbn [orb]; (split; [intros; try discriminate; lra|intros; lra || done]).
Qed.
Lemma to_u64_spec x : 0 <= x → x < IZR (2 ^ 64) → ∃ i, to_u64 x = Some i ∧ IZR (Z.of_N i) <= x < IZR (Z.of_N i) + 1.
Proof.
  intros H0 H1. unfold to_u64, trunc. destruct (Rle_dec 0 x); [|done]. pose proof (base_Int_part x) as [Hb Hb'].
  assert (Hp : (0 <= Int_part x)%Z) by (apply le_IZR; apply Rnot_lt_le; intros Hc; apply (lt_IZR (Int_part x) 0) in Hc; assert (K : IZR (Int_part x) <= -1) by (apply IZR_le; lia); lra).
  assert (Hq : (Int_part x < 2 ^ 64)%Z) by (apply lt_IZR; lra).
  rewrite bool_decide_eq_true_2 by done. eexists. split; [done|]. rewrite Z2N.id by done. lra.
Qed.
Lemma cell_spec a l : good a → within a l → ∃ i, cell a (Some l) = Some (i, (i + 1)%N, rel a l i) ∧ around a l i.
Proof.
  intros [Hn Hs] [Hl Hu]. unfold cell. destruct (Req_EM_T (a_step a) 0) as [E|_]; [lra|]. set (off := (l - a_orig a) / a_step a).
  assert (El : l = a_orig a + off * a_step a) by (unfold off; field; lra). rewrite pos_0 in Hl. unfold pos in Hu. rewrite N2Z.inj_sub in Hu by lia. rewrite minus_IZR in Hu. change (IZR (Z.of_N 1)) with 1 in Hu.
  assert (H0 : 0 <= off) by (apply (Rmult_le_reg_r (a_step a)); [lra|]; lra).
  assert (H1 : off <= IZR (Z.of_N (a_num a)) - 1) by (apply (Rmult_le_reg_r (a_step a)); [lra|]; lra).
  assert (Hnum : IZR (Z.of_N (a_num a)) < IZR (2 ^ 64)) by (apply IZR_lt; lia).
  destruct (to_u64_spec off H0 ltac:(lra)) as (i & -> & Hi). cbv zeta. rewrite pred64_pos by lia.
  assert (Hrel : ∀ k, off - IZR (Z.of_N k) = rel a l k) by (intros k; unfold rel, pos, off; field; lra).
  assert (Hin : (i <= a_num a - 1)%N).
  { enough (Z.of_N i < Z.of_N (a_num a))%Z by lia. apply lt_IZR. lra. }
  assert (Hpos : ∀ k, IZR (Z.of_N k) <= off <= IZR (Z.of_N k) + 1 → pos a k <= l <= pos a (k + 1)).
  { intros k Hk. rewrite pos_succ. unfold pos. rewrite El. split.
    - apply Rplus_le_compat_l, Rmult_le_compat_r; lra.
    - replace (a_orig a + IZR (Z.of_N k) * a_step a + a_step a) with (a_orig a + (IZR (Z.of_N k) + 1) * a_step a) by ring. apply Rplus_le_compat_l, Rmult_le_compat_r; lra. }
  destruct (decide (i = (a_num a - 1)%N)) as [E|E].
  - rewrite bool_decide_eq_true_2 by done. rewrite pred64_pos by lia. exists (i - 1)%N. rewrite succ64_small by lia. rewrite Hrel. split; [done|]. split; [lia|].
    apply Hpos. assert (Ei : IZR (Z.of_N i) = IZR (Z.of_N (i - 1)) + 1) by (change 1 with (IZR (Z.of_N 1)); rewrite <- (IZR_N_plus (i - 1) 1); f_equal; f_equal; lia).
    assert (En : IZR (Z.of_N (a_num a)) - 1 = IZR (Z.of_N i)) by (replace (a_num a) with (i + 1)%N by lia; rewrite IZR_N_plus; change (IZR (Z.of_N 1)) with 1; lra). lra.
  - rewrite bool_decide_eq_false_2 by done. exists i. rewrite succ64_small by lia. rewrite Hrel. split; [done|]. split; [lia|]. apply Hpos. lra.
Qed.
Lemma rel_range a l j : good a → around a l j → 0 <= rel a l j <= 1.
Proof.
  intros [_ Hs] [_ [H1 H2]]. rewrite pos_succ in H2. unfold rel. split.
  - apply Rmult_le_reg_r with (a_step a); [lra|]. unfold Rdiv. rewrite Rmult_assoc, Rinv_l by lra. lra.
  - apply Rmult_le_reg_r with (a_step a); [lra|]. unfold Rdiv. rewrite Rmult_assoc, Rinv_l by lra. lra.
Qed.
Lemma around_within a l j : good a → around a l j → within a l.
Proof.
  intros [Hn Hs] [Hj [H1 H2]]. unfold within, pos in *. change (IZR (Z.of_N 0)) with 0. split.
  - assert (0 <= IZR (Z.of_N j)) by (apply IZR_le; lia). assert (0 <= IZR (Z.of_N j) * a_step a) by (apply Rmult_le_pos; lra). lra.
  - assert (IZR (Z.of_N (j + 1)) <= IZR (Z.of_N (a_num a - 1))) by (apply IZR_le; lia).
    assert (IZR (Z.of_N (j + 1)) * a_step a <= IZR (Z.of_N (a_num a - 1)) * a_step a) by (apply Rmult_le_compat_r; lra). lra.
Qed.
(** Two cells with the location in common give the same value *)
Lemma lerp_cells a l i j (f : N → R) : good a → around a l i → around a l j →
  lerp (f i) (f (i + 1)%N) (rel a l i) = lerp (f j) (f (j + 1)%N) (rel a l j).
Proof.
  intros Hg Hi Hj.
  assert (Hsym : ∀ i j, around a l i → around a l j → (i < j)%N → lerp (f i) (f (i + 1)%N) (rel a l i) = lerp (f j) (f (j + 1)%N) (rel a l j)).
  { clear i j Hi Hj. intros i j [Hi [H1 H2]] [Hj [H3 H4]] Hlt. destruct Hg as [Hn Hs].
    assert (j = (i + 1)%N ∧ l = pos a j) as [-> El].
    { assert (Hle : pos a (i + 1) <= pos a j).
      { unfold pos. apply Rplus_le_compat_l, Rmult_le_compat_r; [lra|]. apply IZR_le. lia. }
      assert (l = pos a j) by lra. split; [|done]. destruct (decide (j = (i + 1)%N)); [done|].
      assert (pos a (i + 1) < pos a j); [|lra]. unfold pos. apply Rplus_lt_compat_l, Rmult_lt_compat_r; [lra|]. apply IZR_lt. lia. }
    assert (R1 : rel a l i = 1) by (unfold rel; rewrite El, pos_succ; field; lra).
    assert (R2 : rel a l (i + 1) = 0) by (unfold rel; rewrite El; field; lra). rewrite R1, R2. unfold lerp. ring. }
  destruct (N.lt_trichotomy i j) as [H|[->|H]]; [by apply Hsym|done|symmetry; by apply Hsym].
Qed.
(** Cells exist for every location within *)
Lemma around_exists a l : good a → within a l → ∃ j, around a l j.
Proof. intros Hg Hw. destruct (cell_spec a l Hg Hw) as (i & _ & H). by exists i. Qed.

(** ** C51: the cell *)
Theorem C51_cell a l : good a →
  (outside a (Some l) = true ↔ ¬ within a l) ∧
  (within a l → ∃ i, cell a (Some l) = Some (i, (i + 1)%N, rel a l i) ∧ around a l i ∧ 0 <= rel a l i <= 1).
Proof.
  intros Hg. split.
  - rewrite <- outside_within by (destruct Hg; lia). destruct (outside a (Some l)); split; done.
  - intros Hw. destruct (cell_spec a l Hg Hw) as (i & Hc & Ha). exists i. split; [done|]. split; [done|]. by apply rel_range.
Qed.
Print Assumptions C51_cell.

(** ** Values in three and two dimensions *)
Lemma neg_false v : neg (Some v) = false ↔ 0 <= v.
Proof. unfold neg. destruct (Rlt_dec v 0); split; intros; try done; lra. Qed.

Section three.
Context (ax ay az : axis) (Hx : good ax) (Hy : good ay) (Hz : good az).
Context (rd : N → N → N → result (option R)).

(** The interpolation of values at the nodes, in the cell of jx, jy, jz *)
Definition at3 (val : N → N → N → R) (x y z : R) (jx jy jz : N) : R :=
  tri (rel ax x jx) (rel ay y jy) (rel az z jz) (λ bx by_ bz, val (nth_ jx bx) (nth_ jy by_) (nth_ jz bz)).
Definition at2 (val : N → N → N → R) (y z : R) (jy jz : N) : R :=
  bil (rel ay y jy) (rel az z jz) (λ by_ bz, val 0%N (nth_ jy by_) (nth_ jz bz)).
Lemma at3_cells val x y z ix iy iz jx jy jz : around ax x ix → around ay y iy → around az z iz →
  around ax x jx → around ay y jy → around az z jz → at3 val x y z ix iy iz = at3 val x y z jx jy jz.
Proof using Hx Hy Hz.
  intros A1 A2 A3 B1 B2 B3. unfold at3, tri, interpolateTrilinear, nth_.
  rewrite !(lerp_cells az z iz jz (val _ _) Hz A3 B3).
  set (F i j := lerp (val i j jz) (val i j (jz + 1)%N) (rel az z jz)).
  change (lerp (lerp (F ix iy) (F ix (iy + 1)%N) (rel ay y iy)) (lerp (F (ix + 1)%N iy) (F (ix + 1)%N (iy + 1)%N) (rel ay y iy)) (rel ax x ix) =
    lerp (lerp (F jx jy) (F jx (jy + 1)%N) (rel ay y jy)) (lerp (F (jx + 1)%N jy) (F (jx + 1)%N (jy + 1)%N) (rel ay y jy)) (rel ax x jx)).
  rewrite !(lerp_cells ay y iy jy (F _) Hy A2 B2).
  set (G i := lerp (F i jy) (F i (jy + 1)%N) (rel ay y jy)).
  change (lerp (G ix) (G (ix + 1)%N) (rel ax x ix) = lerp (G jx) (G (jx + 1)%N) (rel ax x jx)). by apply lerp_cells.
Qed.
Lemma at2_cells val y z iy iz jy jz : around ay y iy → around az z iz → around ay y jy → around az z jz → at2 val y z iy iz = at2 val y z jy jz.
Proof using Hy Hz.
  intros A2 A3 B2 B3. unfold at2, bil, interpolateBilinear, nth_.
  rewrite !(lerp_cells az z iz jz (val _ _) Hz A3 B3).
  set (F j := lerp (val 0%N j jz) (val 0%N j (jz + 1)%N) (rel az z jz)).
  change (lerp (F iy) (F (iy + 1)%N) (rel ay y iy) = lerp (F jy) (F (jy + 1)%N) (rel ay y jy)). by apply lerp_cells.
Qed.

(** All the nodes of the grid can be read and have a value that is not negative *)
Definition readable (nx : N) (val : N → N → N → R) : Prop :=
  ∀ i j k, (i < nx)%N → (j < a_num ay)%N → (k < a_num az)%N → rd i j k = Val (Some (val i j k)) ∧ 0 <= val i j k.

Theorem C51_value3D val x y z : readable (a_num ax) val → within ax x → within ay y → within az z →
  ∃ t, getValue3D rd ax ay az (Some x, Some y) (Some z) = Val (Some t) ∧ 0 <= t ∧
    ∀ jx jy jz, around ax x jx → around ay y jy → around az z jz → t = at3 val x y z jx jy jz.
Proof using Hx Hy Hz.
  intros Hr W1 W2 W3. destruct (cell_spec ax x Hx W1) as (ix & C1 & A1). destruct (cell_spec ay y Hy W2) as (iy & C2 & A2). destruct (cell_spec az z Hz W3) as (iz & C3 & A3).
  exists (at3 val x y z ix iy iz). split; [|split].
  - unfold getValue3D, values3D. cbn [fst snd]. rewrite (proj2 (outside_within ax x ltac:(destruct Hx; lia)) W1), (proj2 (outside_within ay y ltac:(destruct Hy; lia)) W2), (proj2 (outside_within az z ltac:(destruct Hz; lia)) W3). cbn [orb]. rewrite C1, C2, C3.
    assert (Hv : ∀ bx by_ bz, rd (nth_ ix bx) (nth_ iy by_) (nth_ iz bz) = Val (Some (val (nth_ ix bx) (nth_ iy by_) (nth_ iz bz))) ∧ 0 <= val (nth_ ix bx) (nth_ iy by_) (nth_ iz bz)).
    { intros bx by_ bz. apply Hr; [destruct A1|destruct A2|destruct A3]; unfold nth_; destruct bx, by_, bz; lia. }
    pose proof (Hv false false false) as [E1 N1]. pose proof (Hv false false true) as [E2 N2]. pose proof (Hv false true false) as [E3 N3]. pose proof (Hv false true true) as [E4 N4].
    pose proof (Hv true false false) as [E5 N5]. pose proof (Hv true false true) as [E6 N6]. pose proof (Hv true true false) as [E7 N7]. pose proof (Hv true true true) as [E8 N8].
    unfold nth_ in E1, E2, E3, E4, E5, E6, E7, E8. rewrite E1. cbn [bind]. rewrite E2. cbn [bind]. rewrite E3. cbn [bind]. rewrite E4. cbn [bind]. rewrite E5. cbn [bind]. rewrite E6. cbn [bind]. rewrite E7. cbn [bind]. rewrite E8. cbn [bind].
    unfold interp3. rewrite !(proj2 (neg_false _)) by done. done.
  - unfold at3. apply (proj2 (C22_between 0 (Rmax (Rmax (Rmax (val ix iy iz) (val ix iy (iz + 1)%N)) (Rmax (val ix (iy + 1)%N iz) (val ix (iy + 1)%N (iz + 1)%N)))
        (Rmax (Rmax (val (ix + 1)%N iy iz) (val (ix + 1)%N iy (iz + 1)%N)) (Rmax (val (ix + 1)%N (iy + 1)%N iz) (val (ix + 1)%N (iy + 1)%N (iz + 1)%N))))
        (λ _ _, 0) _ _ _ _ (rel_range _ _ _ Hx A1) (rel_range _ _ _ Hy A2) (rel_range _ _ _ Hz A3))).
    intros bx by_ bz. split; [apply Hr; [destruct A1|destruct A2|destruct A3]; unfold nth_; destruct bx, by_, bz; lia|].
    destruct bx, by_, bz; cbn [nth_]; unfold Rmax; repeat destruct (Rle_dec _ _); lra.
  - intros jx jy jz B1 B2 B3. by apply at3_cells.
Qed.
(** No value is below the lowest or above the highest of the nodes around; on a node it is the
    value of the node *)
Theorem C51_between3D val x y z jx jy jz lo hi : around ax x jx → around ay y jy → around az z jz →
  (∀ bx by_ bz, lo <= val (nth_ jx bx) (nth_ jy by_) (nth_ jz bz) <= hi) → lo <= at3 val x y z jx jy jz <= hi.
Proof using Hx Hy Hz.
  intros A1 A2 A3 H. unfold at3. apply (proj2 (C22_between lo hi (λ _ _, 0) _ _ _ _ (rel_range _ _ _ Hx A1) (rel_range _ _ _ Hy A2) (rel_range _ _ _ Hz A3))).
  exact H.
Qed.
Theorem C51_node3D val i j k : readable (a_num ax) val → (i < a_num ax)%N → (j < a_num ay)%N → (k < a_num az)%N →
  getValue3D rd ax ay az (Some (pos ax i), Some (pos ay j)) (Some (pos az k)) = Val (Some (val i j k)).
Proof using Hx Hy Hz.
  intros Hr Hi Hj Hk.
  assert (Hcell : ∀ a n, good a → (n < a_num a)%N → ∃ c b, around a (pos a n) c ∧ nth_ c b = n ∧ rel a (pos a n) c = corner b).
  { intros a n Hg Hn. pose proof Hg as [Hn2 Hs]. destruct (decide (n + 1 < a_num a)%N) as [E|E].
    - exists n, false. split; [split; [done|]; rewrite pos_succ; lra|]. split; [done|]. unfold rel, corner. field. lra.
    - assert (∃ m, n = (m + 1)%N) as [m ->] by (exists (n - 1)%N; lia). exists m, true.
      split; [split; [lia|]; rewrite pos_succ; lra|]. split; [done|]. unfold rel, corner. rewrite pos_succ. field. lra. }
  destruct (Hcell ax i Hx Hi) as (cx & bx & A1 & <- & R1). destruct (Hcell ay j Hy Hj) as (cy & by_ & A2 & <- & R2). destruct (Hcell az k Hz Hk) as (cz & bz & A3 & <- & R3).
  destruct (C51_value3D val _ _ _ Hr (around_within _ _ _ Hx A1) (around_within _ _ _ Hy A2) (around_within _ _ _ Hz A3)) as (t & -> & _ & Ht).
  rewrite (Ht cx cy cz A1 A2 A3). unfold at3. rewrite R1, R2, R3. do 2 f_equal.
  exact (proj2 (C22_nodes (λ _ _, 0) (λ bx by_ bz, val (nth_ cx bx) (nth_ cy by_) (nth_ cz bz)) bx by_ bz)).
Qed.
(** A location outside is refused *)
Theorem C51_outside3D x y z : ¬ (within ax x ∧ within ay y ∧ within az z) → getValue3D rd ax ay az (Some x, Some y) (Some z) = Exc OutOfGrid.
Proof using Hx Hy Hz.
  intros H. unfold getValue3D, values3D. cbn [fst snd]. replace (outside ax (Some x) || outside ay (Some y) || outside az (Some z)) with true; [done|].
  symmetry. apply not_false_iff_true. rewrite !orb_false_iff, !outside_within by (destruct Hx, Hy, Hz; lia). tauto.
Qed.
(** Whatever reading the nodes gives: a value comes from the eight nodes around, none of which
    is negative; NaN only from NaN *)
Theorem C51_sound3D x y z r : getValue3D rd ax ay az (Some x, Some y) (Some z) = Val r →
  ∃ jx jy jz v, around ax x jx ∧ around ay y jy ∧ around az z jz ∧
    (∀ bx by_ bz, rd (nth_ jx bx) (nth_ jy by_) (nth_ jz bz) = Val (v bx by_ bz) ∧ ∀ w, v bx by_ bz = Some w → 0 <= w) ∧
    ((∃ bx by_ bz, v bx by_ bz = None) ∧ r = None ∨
     ∃ w, (∀ bx by_ bz, v bx by_ bz = Some (w bx by_ bz)) ∧ r = Some (tri (rel ax x jx) (rel ay y jy) (rel az z jz) w)).
Proof using Hx Hy Hz.
  intros H. destruct (decide (outside ax (Some x) || outside ay (Some y) || outside az (Some z) = true)) as [E|E].
  { unfold getValue3D, values3D in H. cbn [fst snd] in H. by rewrite E in H. }
  apply not_true_is_false in E. unfold getValue3D, values3D in H. cbn [fst snd] in H. rewrite E in H.
  rewrite !orb_false_iff, !outside_within in E by (destruct Hx, Hy, Hz; lia). destruct E as [[W1 W2] W3].
  destruct (cell_spec ax x Hx W1) as (ix & C1 & A1). destruct (cell_spec ay y Hy W2) as (iy & C2 & A2). destruct (cell_spec az z Hz W3) as (iz & C3 & A3).
  rewrite C1, C2, C3 in H. exists ix, iy, iz.
  destruct (rd ix iy iz) as [v1| |] eqn:E1; [|done..]. cbn [bind] in H. destruct (rd ix iy (iz + 1)%N) as [v2| |] eqn:E2; [|done..]. cbn [bind] in H.
  destruct (rd ix (iy + 1)%N iz) as [v3| |] eqn:E3; [|done..]. cbn [bind] in H. destruct (rd ix (iy + 1)%N (iz + 1)%N) as [v4| |] eqn:E4; [|done..]. cbn [bind] in H.
  destruct (rd (ix + 1)%N iy iz) as [v5| |] eqn:E5; [|done..]. cbn [bind] in H. destruct (rd (ix + 1)%N iy (iz + 1)%N) as [v6| |] eqn:E6; [|done..]. cbn [bind] in H.
  destruct (rd (ix + 1)%N (iy + 1)%N iz) as [v7| |] eqn:E7; [|done..]. cbn [bind] in H. destruct (rd (ix + 1)%N (iy + 1)%N (iz + 1)%N) as [v8| |] eqn:E8; [|done..]. cbn [bind] in H.
  unfold interp3 in H. destruct (neg v1 || neg v3 || neg v5 || neg v7 || neg v2 || neg v4 || neg v6 || neg v8) eqn:En; [done|]. rewrite !orb_false_iff in En.
  destruct En as [[[[[[[N1 N3] N5] N7] N2] N4] N6] N8].
  exists (λ bx by_ bz : bool, if bx then (if by_ then (if bz then v8 else v7) else if bz then v6 else v5) else if by_ then (if bz then v4 else v3) else if bz then v2 else v1).
  split; [done|]. split; [done|]. split; [done|]. split.
  { intros bx by_ bz. split; [by destruct bx, by_, bz|]. intros w Hw. apply neg_false. rewrite <- Hw. by destruct bx, by_, bz. }
  assert (Hr : ∀ w, Val w = Val r → r = w) by congruence. apply Hr in H. clear Hr.
  destruct v1 as [w1|]; [|left; split; [by exists false, false, false|done]].
  destruct v2 as [w2|]; [|left; split; [by exists false, false, true|done]].
  destruct v3 as [w3|]; [|left; split; [by exists false, true, false|done]].
  destruct v4 as [w4|]; [|left; split; [by exists false, true, true|done]].
  destruct v5 as [w5|]; [|left; split; [by exists true, false, false|done]].
  destruct v6 as [w6|]; [|left; split; [by exists true, false, true|done]].
  destruct v7 as [w7|]; [|left; split; [by exists true, true, false|done]].
  destruct v8 as [w8|]; [|left; split; [by exists true, true, true|done]].
  right. exists (λ bx by_ bz : bool, if bx then (if by_ then (if bz then w8 else w7) else if bz then w6 else w5) else if by_ then (if bz then w4 else w3) else if bz then w2 else w1).
  split; [by intros [] [] []|]. exact H.
Qed.

(** Two dimensions: a slice of the grid at x = 0, distance and depth *)
Context (cx : axis) (Hcx : (1 <= a_num cx < 2 ^ 64)%N ∧ 0 <= a_step cx).
Lemma slice_within : outside cx (Some (a_orig cx)) = false.
Proof using Hcx.
  destruct Hcx as [H1 H2]. apply (outside_within cx _ H1). unfold within. rewrite pos_0. unfold pos.
  assert (0 <= IZR (Z.of_N (a_num cx - 1))) by (apply IZR_le; lia). assert (0 <= IZR (Z.of_N (a_num cx - 1)) * a_step cx) by (apply Rmult_le_pos; lra). lra.
Qed.
Theorem C51_value2D val y z : readable (a_num cx) val → within ay y → within az z →
  ∃ t, getValue2D rd cx ay az (Some y) (Some z) = Val (Some t) ∧ 0 <= t ∧
    ∀ jy jz, around ay y jy → around az z jz → t = at2 val y z jy jz.
Proof using Hcx Hy Hz.
  intros Hr W2 W3. destruct (cell_spec ay y Hy W2) as (iy & C2 & A2). destruct (cell_spec az z Hz W3) as (iz & C3 & A3).
  assert (Hv : ∀ by_ bz, rd 0%N (nth_ iy by_) (nth_ iz bz) = Val (Some (val 0%N (nth_ iy by_) (nth_ iz bz))) ∧ 0 <= val 0%N (nth_ iy by_) (nth_ iz bz)).
  { intros by_ bz. apply Hr; [lia|destruct A2|destruct A3]; unfold nth_; destruct by_, bz; lia. }
  exists (at2 val y z iy iz). split; [|split].
  - unfold getValue2D, values2D. rewrite slice_within. rewrite (proj2 (outside_within ay y ltac:(destruct Hy; lia)) W2), (proj2 (outside_within az z ltac:(destruct Hz; lia)) W3). cbn [orb]. rewrite C2, C3.
    pose proof (Hv false false) as [E1 N1]. pose proof (Hv false true) as [E2 N2]. pose proof (Hv true false) as [E3 N3]. pose proof (Hv true true) as [E4 N4].
    unfold nth_ in E1, E2, E3, E4. rewrite E1. cbn [bind]. rewrite E2. cbn [bind]. rewrite E3. cbn [bind]. rewrite E4. cbn [bind].
    unfold interp2. rewrite !(proj2 (neg_false _)) by done. done.
  - unfold at2. apply (proj1 (C22_between 0 (Rmax (Rmax (val 0%N iy iz) (val 0%N iy (iz + 1)%N)) (Rmax (val 0%N (iy + 1)%N iz) (val 0%N (iy + 1)%N (iz + 1)%N)))
        _ (λ _ _ _, 0) _ _ _ (rel_range _ _ _ Hy A2) (rel_range _ _ _ Hy A2) (rel_range _ _ _ Hz A3))).
    intros by_ bz. split; [apply Hv|]. destruct by_, bz; cbn [nth_]; unfold Rmax; repeat destruct (Rle_dec _ _); lra.
  - intros jy jz B2 B3. by apply at2_cells.
Qed.
Theorem C51_between2D val y z jy jz lo hi : around ay y jy → around az z jz →
  (∀ by_ bz, lo <= val 0%N (nth_ jy by_) (nth_ jz bz) <= hi) → lo <= at2 val y z jy jz <= hi.
Proof using Hy Hz.
  intros A2 A3 H. unfold at2. apply (proj1 (C22_between lo hi _ (λ _ _ _, 0) _ _ _ (rel_range _ _ _ Hy A2) (rel_range _ _ _ Hy A2) (rel_range _ _ _ Hz A3))). exact H.
Qed.
Theorem C51_outside2D y z : ¬ (within ay y ∧ within az z) → getValue2D rd cx ay az (Some y) (Some z) = Exc OutOfGrid.
Proof using Hcx Hy Hz.
  intros H. unfold getValue2D, values2D. rewrite slice_within. cbn [orb]. replace (outside ay (Some y) || outside az (Some z)) with true; [done|].
  symmetry. apply not_false_iff_true. rewrite !orb_false_iff, !outside_within by (destruct Hy, Hz; lia). tauto.
Qed.
Theorem C51_sound2D y z r : getValue2D rd cx ay az (Some y) (Some z) = Val r →
  ∃ jy jz v, around ay y jy ∧ around az z jz ∧
    (∀ by_ bz, rd 0%N (nth_ jy by_) (nth_ jz bz) = Val (v by_ bz) ∧ ∀ w, v by_ bz = Some w → 0 <= w) ∧
    ((∃ by_ bz, v by_ bz = None) ∧ r = None ∨
     ∃ w, (∀ by_ bz, v by_ bz = Some (w by_ bz)) ∧ r = Some (bil (rel ay y jy) (rel az z jz) w)).
Proof using Hcx Hy Hz.
  intros H. destruct (decide (outside ay (Some y) || outside az (Some z) = true)) as [E|E].
  { unfold getValue2D, values2D in H. rewrite slice_within in H. cbn [orb] in H. by rewrite E in H. }
  apply not_true_is_false in E. unfold getValue2D, values2D in H. rewrite slice_within in H. cbn [orb] in H. rewrite E in H.
  rewrite !orb_false_iff, !outside_within in E by (destruct Hy, Hz; lia). destruct E as [W2 W3].
  destruct (cell_spec ay y Hy W2) as (iy & C2 & A2). destruct (cell_spec az z Hz W3) as (iz & C3 & A3).
  rewrite C2, C3 in H. exists iy, iz.
  destruct (rd 0%N iy iz) as [v1| |] eqn:E1; [|done..]. cbn [bind] in H. destruct (rd 0%N iy (iz + 1)%N) as [v2| |] eqn:E2; [|done..]. cbn [bind] in H.
  destruct (rd 0%N (iy + 1)%N iz) as [v3| |] eqn:E3; [|done..]. cbn [bind] in H. destruct (rd 0%N (iy + 1)%N (iz + 1)%N) as [v4| |] eqn:E4; [|done..]. cbn [bind] in H.
  unfold interp2 in H. destruct (neg v1 || neg v2 || neg v3 || neg v4) eqn:En; [done|]. rewrite !orb_false_iff in En. destruct En as [[[N1 N2] N3] N4].
  exists (λ by_ bz : bool, if by_ then (if bz then v4 else v3) else if bz then v2 else v1).
  split; [done|]. split; [done|]. split.
  { intros by_ bz. split; [by destruct by_, bz|]. intros w Hw. apply neg_false. rewrite <- Hw. by destruct by_, bz. }
  assert (Hr : ∀ w, Val w = Val r → r = w) by congruence. apply Hr in H. clear Hr.
  destruct v1 as [w1|]; [|left; split; [by exists false, false|done]].
  destruct v2 as [w2|]; [|left; split; [by exists false, true|done]].
  destruct v3 as [w3|]; [|left; split; [by exists true, false|done]].
  destruct v4 as [w4|]; [|left; split; [by exists true, true|done]].
  right. exists (λ by_ bz : bool, if by_ then (if bz then w4 else w3) else if bz then w2 else w1).
  split; [by intros [] []|]. exact H.
Qed.
End three.
Print Assumptions C51_value3D.
Print Assumptions C51_between3D.
Print Assumptions C51_node3D.
Print Assumptions C51_outside3D.
Print Assumptions C51_sound3D.
Print Assumptions C51_value2D.
Print Assumptions C51_between2D.
Print Assumptions C51_outside2D.
Print Assumptions C51_sound2D.

(** ** From the file to the travel time *)
(** The travel time at a location, read from a file with a header that agrees with the axes: it
    is interpolated from the bytes of the nodes around; no undefined behaviour *)
Definition node_value {V} (decode : list N → V) (sz : N) (f : list N) (h : header) (i j k : N) (v : V) : Prop :=
  node h i j k ∧ ∃ w, bytes_at f (place sz h i j k) sz w ∧ v = decode (if h_swap h && (bool_decide (sz = 4%N) || bool_decide (sz = 8%N)) then rev w else w).
Definition file_reader {V} (decode : list N → V) sz f h read g : N → N → N → result V := λ i j k, of_outcome decode (get_at sz f h read g i j k).
Lemma file_reader_ok {V} (decode : list N → V) sz f h read m0 us i j k : (0 < sz)%N → fits sz h → (N.of_nat (length f) < 2 ^ 63)%N → Forall (whole f) us →
  match file_reader decode sz f h read (history f m0 us) i j k with Val v => node_value decode sz f h i j k v | Exc _ => True | UB => False end.
Proof.
  intros H1 H2 H3 H4. pose proof (C50_read sz f h read m0 us i j k H1 H2 H3 H4) as H. cbv zeta in H. unfold file_reader.
  destruct (get_at _ _ _ _ _ _ _ _) as [v| | | |]; cbn [of_outcome]; [|done..]. destruct H as (_ & Hn & w & Hb & ->). split; [done|]. by exists w.
Qed.
Theorem C51_time_file decode sz f h read m0 us ax ay az x y z dist t :
  (0 < sz)%N → fits sz h → (N.of_nat (length f) < 2 ^ 63)%N → Forall (whole f) us →
  h_nx h = a_num ax → (a_num ax = 1%N → 0 <= a_step ax) → ((2 <= a_num ax)%N → good ax) → (1 <= a_num ax)%N → good ay → good az →
  getTime (file_reader decode sz f h read (history f m0 us)) ax ay az (Some x, Some y) (Some dist) (Some z) = Val (Some t) →
  0 <= t ∧
  ((2 <= a_num ax)%N ∧ (∃ jx jy jz w, around ax x jx ∧ around ay y jy ∧ around az z jz ∧
      (∀ bx by_ bz, node_value decode sz f h (nth_ jx bx) (nth_ jy by_) (nth_ jz bz) (Some (w bx by_ bz)) ∧ 0 <= w bx by_ bz) ∧
      t = tri (rel ax x jx) (rel ay y jy) (rel az z jz) w) ∨
   a_num ax = 1%N ∧ (∃ jy jz w, around ay dist jy ∧ around az z jz ∧
      (∀ by_ bz, node_value decode sz f h 0%N (nth_ jy by_) (nth_ jz bz) (Some (w by_ bz)) ∧ 0 <= w by_ bz) ∧
      t = bil (rel ay dist jy) (rel az z jz) w)).
Proof.
  intros H1 H2 H3 H4 Hh Hs1 Hs2 Hn Hy Hz H. unfold getTime in H.
  assert (Hrd : ∀ i j k v, file_reader decode sz f h read (history f m0 us) i j k = Val v → node_value decode sz f h i j k v).
  { intros i j k v E. pose proof (file_reader_ok decode sz f h read m0 us i j k H1 H2 H3 H4) as K. by rewrite E in K. }
  destruct (1 <? a_num ax)%N eqn:E.
  - apply N.ltb_lt in E. assert (Hx : good ax) by (apply Hs2; lia).
    destruct (C51_sound3D ax ay az Hx Hy Hz _ _ _ _ _ H) as (jx & jy & jz & v & A1 & A2 & A3 & Hv & [[_ ?]|(w & Hw & Ht)]); [done|].
    apply (inj Some) in Ht. assert (Hpos : ∀ bx by_ bz, 0 <= w bx by_ bz) by (intros bx by_ bz; apply (proj2 (Hv bx by_ bz)), Hw).
    split.
    + subst t. apply (proj2 (C22_between 0 (Rmax (Rmax (Rmax (w false false false) (w false false true)) (Rmax (w false true false) (w false true true)))
        (Rmax (Rmax (w true false false) (w true false true)) (Rmax (w true true false) (w true true true))))
        (λ _ _, 0) w _ _ _ (rel_range _ _ _ Hx A1) (rel_range _ _ _ Hy A2) (rel_range _ _ _ Hz A3))).
      intros bx by_ bz. split; [apply Hpos|]. destruct bx, by_, bz; unfold Rmax; repeat destruct (Rle_dec _ _); lra.
    + left. split; [lia|]. exists jx, jy, jz, w. split; [done|]. split; [done|]. split; [done|]. split; [|done].
      intros bx by_ bz. split; [|done]. apply Hrd. rewrite <- Hw. apply Hv.
  - apply N.ltb_ge in E. assert (E1 : a_num ax = 1%N) by lia.
    destruct (C51_sound2D ay az Hy Hz _ ax ltac:(split; [lia|by apply Hs1]) _ _ _ H) as (jy & jz & v & A2 & A3 & Hv & [[_ ?]|(w & Hw & Ht)]); [done|].
    apply (inj Some) in Ht. assert (Hpos : ∀ by_ bz, 0 <= w by_ bz) by (intros by_ bz; apply (proj2 (Hv by_ bz)), Hw).
    split.
    + subst t. apply (proj1 (C22_between 0 (Rmax (Rmax (w false false) (w false true)) (Rmax (w true false) (w true true)))
        w (λ _ _ _, 0) _ _ _ (rel_range _ _ _ Hy A2) (rel_range _ _ _ Hy A2) (rel_range _ _ _ Hz A3))).
      intros by_ bz. split; [apply Hpos|]. destruct by_, bz; unfold Rmax; repeat destruct (Rle_dec _ _); lra.
    + right. split; [done|]. exists jy, jz, w. split; [done|]. split; [done|]. split; [|done].
      intros by_ bz. split; [|done]. apply Hrd. rewrite <- Hw. apply Hv.
Qed.
Print Assumptions C51_time_file.
Lemma bind_no_ub {A B} (r : result A) (k : A → result B) : r ≠ UB → (∀ a, k a ≠ UB) → bind r k ≠ UB.
Proof. intros H1 H2. destruct r; [apply H2|done|done]. Qed.
Theorem C51_no_ub decode sz f h read m0 us ax ay az x y z dist :
  (0 < sz)%N → fits sz h → (N.of_nat (length f) < 2 ^ 63)%N → Forall (whole f) us →
  (a_num ax = 1%N ∧ 0 <= a_step ax ∨ good ax) → good ay → good az →
  getTime (file_reader decode sz f h read (history f m0 us)) ax ay az (Some x, Some y) (Some dist) (Some z) ≠ UB.
Proof.
  intros H1 H2 H3 H4 Hx Hy Hz. unfold getTime. set (rd := file_reader _ _ _ _ _ _).
  assert (Hrd : ∀ i j k, rd i j k ≠ UB).
  { intros i j k E. pose proof (file_reader_ok decode sz f h read m0 us i j k H1 H2 H3 H4) as K. fold rd in K. by rewrite E in K. }
  clearbody rd. destruct (1 <? a_num ax)%N eqn:E.
  - apply N.ltb_lt in E. destruct Hx as [[? _]|Hx]; [lia|].
    destruct (outside ax (Some x) || outside ay (Some y) || outside az (Some z)) eqn:Eo; [unfold getValue3D, values3D; cbn [fst snd]; by rewrite Eo|].
    pose proof Eo as Eo'. rewrite !orb_false_iff, !outside_within in Eo' by (destruct Hx, Hy, Hz; lia). destruct Eo' as [[W1 W2] W3].
    destruct (cell_spec ax x Hx W1) as (ix & C1 & A1). destruct (cell_spec ay y Hy W2) as (iy & C2 & A2). destruct (cell_spec az z Hz W3) as (iz & C3 & A3).
    unfold getValue3D, values3D. cbn [fst snd]. rewrite Eo, C1, C2, C3.
    apply bind_no_ub.
    + repeat (apply bind_no_ub; [apply Hrd|intros]). done.
    + intros [[[xd yd] zd] [[[[v1 v2] v3] v4] [[[v5 v6] v7] v8]]]. unfold interp3. by destruct (_ || neg v8).
  - destruct (outside ax (Some (a_orig ax)) || outside ay (Some dist) || outside az (Some z)) eqn:Eo; [unfold getValue2D, values2D; by rewrite Eo|].
    pose proof Eo as Eo'. rewrite !orb_false_iff in Eo'. destruct Eo' as [[_ W2] W3]. rewrite outside_within in W2, W3 by (destruct Hy, Hz; lia).
    destruct (cell_spec ay dist Hy W2) as (iy & C2 & A2). destruct (cell_spec az z Hz W3) as (iz & C3 & A3).
    unfold getValue2D, values2D. rewrite Eo, C2, C3. apply bind_no_ub.
    + repeat (apply bind_no_ub; [apply Hrd|intros]). done.
    + intros [[yd zd] [[[v1 v2] v3] v4]]. unfold interp2. by destruct (_ || neg v4).
Qed.
Print Assumptions C51_no_ub.

(** ** The units of velocity grids: each way of storing a velocity is undone *)
Definition stored (t : vtype) (dy v : R) : R :=
  match t with
  | VELOCITY => v | VELOCITY_METERS => 1000 * v | SLOWNESS => / v | SLOW_LEN => dy / v
  | VEL2 => v * v | SLOW2 => / v * / v | SLOW2_METERS => / (1000 * v) * / (1000 * v)
  end.
Theorem C51_units t dy v : 0 < v → 0 < dy → convertUnits t dy (stored t dy v) = v.
Proof.
  intros Hv Hd. destruct t; cbn [convertUnits stored]; [done|field|field; lra|field; lra| | |].
  - apply R_sqrt.sqrt_square. lra.
  - replace (1 / (/ v * / v)) with (v * v) by (field; lra). apply R_sqrt.sqrt_square. lra.
  - replace (1 / (/ (1000 * v) * / (1000 * v))) with ((1000 * v) * (1000 * v)) by (field; lra). rewrite R_sqrt.sqrt_square by lra. field.
Qed.
Print Assumptions C51_units.
(** A velocity grid of two nodes in x depends on the depth only *)
Theorem C51_vel2D t rd ax ay az xy xy' depth : a_num ax = 2%N → getVel t rd ax ay az xy depth = getVel t rd ax ay az xy' depth.
Proof. intros H. unfold getVel. by rewrite H. Qed.
Print Assumptions C51_vel2D.

(** ** What fails outside the hypotheses *)
(** A depth that is not a number passes the check of the borders and is converted to an
    integer, which is undefined; a grid value that is not a number passes the check for
    negative times and is returned *)
Theorem C51_nan_refuted : ∃ rd ax ay az, good ay ∧ good az ∧ (∀ i j k, ∃ v, rd i j k = Val v) ∧
  getTime rd ax ay az (Some 0, Some 0) (Some 0) None = UB ∧
  ∃ rd', getTime rd' ax ay az (Some 0, Some 0) (Some 0) (Some 0) = Val None.
Proof.
  set (a1 := Axis 1 0 1). set (a2 := Axis 2 0 1). assert (G : good a2) by (split; [done|cbn; lra]).
  assert (S : (1 <= a_num a1 < 2 ^ 64)%N ∧ 0 <= a_step a1) by (split; [done|cbn; lra]).
  assert (W : within a2 0) by (unfold within, pos; cbn; lra).
  exists (λ _ _ _, Val (Some 0)), a1, a2, a2. split; [done|]. split; [done|]. split; [by intros; eexists|]. split.
  - unfold getTime. cbn [a_num a1 N.ltb N.compare Pos.compare Pos.compare_cont]. unfold getValue2D, values2D. rewrite (slice_within a1 S).
    rewrite (proj2 (outside_within a2 0 ltac:(done)) W). cbn [orb outside]. destruct (cell_spec a2 0 G W) as (i & -> & _). done.
  - exists (λ _ _ _, Val None). unfold getTime. cbn [a_num a1 N.ltb N.compare Pos.compare Pos.compare_cont]. unfold getValue2D, values2D. rewrite (slice_within a1 S).
    rewrite !(proj2 (outside_within a2 0 ltac:(done)) W). cbn [orb]. destruct (cell_spec a2 0 G W) as (i & -> & _). done.
Qed.
Print Assumptions C51_nan_refuted.
(** With a single node along the depth there is no cell: the only location within has no value *)
Theorem C51_flat rd ax ay az y z : (1 <= a_num ax < 2 ^ 64)%N ∧ 0 <= a_step ax → good ay → a_num az = 1%N → 0 < a_step az → within ay y →
  (∀ i j k, (a_num az <= k)%N → rd i j k = Exc OutOfGrid) → getValue2D rd ax ay az (Some y) (Some z) = Exc OutOfGrid.
Proof.
  intros Hx Hy Hn Hs Wy Hr. unfold getValue2D, values2D. rewrite (slice_within ax Hx). rewrite (proj2 (outside_within ay y ltac:(destruct Hy; lia)) Wy). cbn [orb].
  destruct (outside az (Some z)) eqn:E; [done|]. rewrite outside_within in E by lia. destruct (cell_spec ay y Hy Wy) as (iy & -> & _).
  unfold within in E. rewrite Hn in E. change (1 - 1)%N with 0%N in E. rewrite pos_0 in E. assert (z = a_orig az) as -> by lra.
  unfold cell. destruct (Req_EM_T (a_step az) 0); [lra|]. replace ((a_orig az - a_orig az) / a_step az) with 0 by (field; lra).
  destruct (to_u64_spec 0 ltac:(lra) ltac:(apply IZR_lt; lia)) as (i & -> & Hi).
  assert (i = 0%N) as -> by (destruct Hi as [Hi _]; apply (le_IZR _ 0) in Hi; lia). rewrite Hn. cbv zeta. rewrite bool_decide_eq_true_2 by done.
  rewrite Hr; [done|]. rewrite Hn. vm_compute. discriminate.
Qed.
Print Assumptions C51_flat.

(** A concrete case: a grid of 3 x 3 x 3 nodes with the time i + 2j + 4k, at the last node, and
    in the last cell *)
Definition ex_axis : axis := Axis 3 (-10) 5.
Definition ex_val (i j k : N) : R := IZR (Z.of_N (i + 2 * j + 4 * k)).
Definition ex_rd (i j k : N) : result (option R) := if (i <? 3)%N && (j <? 3)%N && (k <? 3)%N then Val (Some (ex_val i j k)) else Exc OutOfGrid.
Example ex_grid : good ex_axis ∧ readable ex_axis ex_axis ex_rd (a_num ex_axis) ex_val ∧ within ex_axis (-10) ∧ within ex_axis (-1) ∧
  around ex_axis (-1) 1 ∧ at3 ex_axis ex_axis ex_axis ex_val (-10) (-1) (-1) 0 1 1 = 54 / 5.
Proof.
  split; [split; [done|cbn; lra]|]. split.
  { intros i j k Hi Hj Hk. unfold ex_rd. cbn in Hi, Hj, Hk. rewrite !(proj2 (N.ltb_lt _ _)) by done. split; [done|]. unfold ex_val. apply IZR_le. lia. }
  split; [unfold within, pos; cbn -[Rmult Rplus Rminus]; lra|]. split; [unfold within, pos; cbn -[Rmult Rplus Rminus]; lra|]. split; [split; [done|change (1 + 1)%N with 2%N; unfold pos; cbn -[Rmult Rplus Rminus]; lra]|].
  unfold at3, tri, interpolateTrilinear, lerp, rel, pos, nth_, ex_val. cbn [a_orig a_step ex_axis].
  repeat match goal with |- context [Z.of_N ?n] => let m := eval vm_compute in (Z.of_N n) in change (Z.of_N n) with m end. field.
Qed.
