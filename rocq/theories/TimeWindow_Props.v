(** Property C11: time window algebra. *)
From Coq Require Import ZArith Bool List Lia.
From Verif Require Import TimeWindow_Model.
Local Open Scope Z_scope.
Import ListNotations.

(** Specification: a window denotes the closed interval of its points. *)
Definition ok (w : tw) : Prop := w_start w <= w_end w.
Definition pt (w : tw) (t : Z) : Prop := w_start w <= t <= w_end w.
Definition sub (w o : tw) : Prop := forall t, pt w t -> pt o t.

Ltac tw_solve :=
  unfold w_step, w_merge, w_overlap, w_overlaps, w_contains, w_contains_t, w_contiguous, w_trim,
    w_extend, w_length, w_empty, mk_tw_len, mk_tw, set_both, set_start, set_end, sub, pt, ok in *;
  cbn [w_start w_end] in *;
  repeat match goal with
  | |- context [?a <? ?b] => destruct (Z.ltb_spec a b); cbn [w_start w_end] in *
  | H : context [?a <? ?b] |- _ => destruct (Z.ltb_spec a b); cbn [w_start w_end] in *
  end.

(** Whatever the constructor arguments and whatever sequence of operations
    follows (whose window arguments are themselves windows), start <= end. *)
Definition op_ok (o : wop) : Prop := match o with WMerge w | WOverlap w => ok w | _ => True end.

Theorem C11_window_start_le_end (junk s e : Z) (os : list wop) :
  Forall op_ok os -> ok (fold_left w_step os (mk_tw junk s e)).
Proof.
  intros H.
  assert (Hi : ok (mk_tw junk s e)) by (tw_solve; lia).
  revert Hi. generalize (mk_tw junk s e). induction H as [|o os Ho _ IH]; intros w Hi; [exact Hi|].
  cbn [fold_left]. apply IH. destruct o; cbn [op_ok] in Ho; tw_solve; lia.
Qed.
Print Assumptions C11_window_start_le_end.

(** merge is the least window containing both. *)
Theorem C11_merge_least_upper_bound (w o : tw) :
  ok w -> ok o ->
  sub w (w_merge w o) /\ sub o (w_merge w o) /\
  (forall v, ok v -> sub w v -> sub o v -> sub (w_merge w o) v).
Proof.
  intros Hw Ho. split; [|split].
  - tw_solve; intros; lia.
  - tw_solve; intros; lia.
  - intros v Hv H1 H2.
    pose proof (H1 (w_start w)). pose proof (H1 (w_end w)).
    pose proof (H2 (w_start o)). pose proof (H2 (w_end o)).
    clear H1 H2. tw_solve; intros; lia.
Qed.
Print Assumptions C11_merge_least_upper_bound.

(** overlap: exactly the common points if there are any; otherwise a window of
    length zero. *)
Theorem C11_overlap_is_intersection (w o : tw) :
  ok w -> ok o ->
  ((exists t, pt w t /\ pt o t) -> forall t, pt (w_overlap w o) t <-> (pt w t /\ pt o t)) /\
  ((forall t, ~ (pt w t /\ pt o t)) -> w_length (w_overlap w o) = 0) /\
  0 <= w_length (w_overlap w o).
Proof.
  intros Hw Ho. split; [|split].
  - intros (t0 & H1 & H2) t. tw_solve; lia.
  - intros Hn. pose proof (Hn (w_start w)) as H1. pose proof (Hn (w_start o)) as H2. clear Hn.
    tw_solve; lia.
  - tw_solve; lia.
Qed.
Print Assumptions C11_overlap_is_intersection.

(** contains decides inclusion of the points, hence is a partial order; it is
    the order of merge and, for windows of positive length, of overlap (a window
    of length zero to the right of [w] is also its own overlap with [w]). *)

Theorem C11_contains_is_inclusion (w o : tw) :
  ok w -> ok o ->
  (w_contains w o = true <-> sub o w) /\
  (forall t, w_contains_t w t = true <-> pt w t) /\
  (w_contains w o = true -> w_contains o w = true -> w = o) /\
  (w_contains w o = true <-> w_merge w o = w) /\
  (w_contains w o = true -> w_overlap w o = o) /\
  (0 < w_length o -> w_overlap w o = o -> w_contains w o = true).
Proof.
  intros Hw Ho.
  assert (Hc : w_contains w o = true <-> w_start w <= w_start o /\ w_end o <= w_end w).
  { unfold w_contains. rewrite andb_true_iff, !Z.leb_le. tauto. }
  assert (Hc' : w_contains o w = true <-> w_start o <= w_start w /\ w_end w <= w_end o).
  { unfold w_contains. rewrite andb_true_iff, !Z.leb_le. tauto. }
  split; [|split; [|split; [|split; [|split]]]].
  - rewrite Hc. split.
    + unfold sub, pt. intros; lia.
    + intros H. pose proof (H (w_start o)). pose proof (H (w_end o)).
      unfold pt, ok in *. lia.
  - intros t. unfold w_contains_t, pt. rewrite andb_true_iff, !Z.leb_le. tauto.
  - rewrite Hc, Hc'. destruct w, o; simpl in *. intros. f_equal; lia.
  - rewrite Hc. clear Hc Hc'. destruct w as [a b], o as [c d]. split.
    + intros H. tw_solve; f_equal; lia.
    + intros H. tw_solve; inversion H; lia.
  - rewrite Hc. clear Hc Hc'. destruct w as [a b], o as [c d].
    intros H. tw_solve; f_equal; lia.
  - rewrite Hc. clear Hc Hc'. destruct w as [a b], o as [c d].
    intros Hl H. tw_solve; inversion H; lia.
Qed.
Print Assumptions C11_contains_is_inclusion.

(** Commutativity and associativity; overlaps means a common stretch of positive
    length and is symmetric; two contiguous windows do not overlap unless one is
    (so merging them loses nothing: the union of two windows that touch or
    overlap is exactly their merge). *)
Theorem C11_window_laws (w o v : tw) :
  ok w -> ok o -> ok v ->
  w_merge w o = w_merge o w /\ w_overlap w o = w_overlap o w /\
  w_merge (w_merge w o) v = w_merge w (w_merge o v) /\
  w_overlaps w o = w_overlaps o w /\
  (w_overlaps w o = true <-> exists t t', t < t' /\ pt w t /\ pt o t /\ pt w t' /\ pt o t') /\
  (w_contiguous w o = true \/ w_overlaps w o = true ->
     forall t, pt (w_merge w o) t <-> pt w t \/ pt o t).
Proof.
  intros Hw Ho Hv.
  assert (E1 : w_overlap w o = w_overlap o w).
  { destruct w as [a b], o as [c d]. tw_solve; f_equal; lia. }
  assert (E2 : w_overlaps w o = true <-> exists t t', t < t' /\ pt w t /\ pt o t /\ pt w t' /\ pt o t').
  { unfold w_overlaps, w_empty. rewrite negb_true_iff, Z.eqb_neq. split.
    - intros H. exists (w_start (w_overlap w o)), (w_end (w_overlap w o)).
      clear E1. tw_solve; lia.
    - intros (t & t' & Hlt & H1 & H2 & H3 & H4). clear E1. tw_solve; lia. }
  split; [|split; [|split; [|split; [|split]]]].
  - destruct w as [a b], o as [c d]. clear E1 E2. tw_solve; f_equal; lia.
  - exact E1.
  - destruct w as [a b], o as [c d], v as [e f]. clear E1 E2. tw_solve; f_equal; lia.
  - unfold w_overlaps. now rewrite E1.
  - exact E2.
  - intros H t. 
    assert (H' : w_start o <= w_end w /\ w_start w <= w_end o).
    { destruct H as [H|H].
      - unfold w_contiguous in H. rewrite orb_true_iff, !Z.eqb_eq in H. unfold ok in *. lia.
      - apply E2 in H as (x & y & _ & Hx & Hy & _). unfold pt in *. lia. }
    clear E1 E2 H. tw_solve; lia.
Qed.
Print Assumptions C11_window_laws.

(** extend followed by trim of the same amounts is the identity as long as the
    extended window does not collapse; trimming never enlarges. *)
Theorem C11_extend_trim (w : tw) (a b : Z) :
  ok w ->
  (0 <= w_length w + a + b -> w_trim (w_extend w a b) a b = w) /\
  (0 <= a -> 0 <= b -> sub w (w_extend w a b) /\ (a + b <= w_length w -> sub (w_trim w a b) w)).
Proof.
  intros Hw. destruct w as [s e]. split.
  - intros H. tw_solve; f_equal; lia.
  - intros Ha Hb. split; [|intros H]; tw_solve; intros; lia.
Qed.
Print Assumptions C11_extend_trim.

(** Non-trivial instances: overlapping, touching and disjoint windows. *)
Example window_overlap_ex : w_overlap (Tw 0 10) (Tw 5 20) = Tw 5 10 /\ w_merge (Tw 0 10) (Tw 5 20) = Tw 0 20.
Proof. split; reflexivity. Qed.
Example window_touch_ex : w_overlaps (Tw 0 10) (Tw 10 20) = false /\ w_contiguous (Tw 0 10) (Tw 10 20) = true.
Proof. split; reflexivity. Qed.
Example window_disjoint_ex : w_overlap (Tw 0 10) (Tw 15 20) = Tw 15 15 /\ ok (Tw 0 10) /\ ok (Tw 15 20).
Proof. repeat split; discriminate. Qed.
