(** Theorems about profile selection: C58. *)
From Coq Require Import QArith String List Lqa Lia.
From Verif Require Import Region_Model.
Import ListNotations.
Local Open Scope Q_scope.

Lemma Qltb_true a b : Qltb a b = true <-> a < b.
Proof.
  unfold Qltb. rewrite Bool.negb_true_iff. split.
  - intros H. apply Qnot_le_lt. intros H'. apply Qle_bool_iff in H'. congruence.
  - intros H. destruct (Qle_bool b a) eqn:E; [|reflexivity]. apply Qle_bool_iff in E. lra.
Qed.
Lemma Qltb_false a b : Qltb a b = false <-> b <= a.
Proof.
  unfold Qltb. rewrite Bool.negb_false_iff. apply Qle_bool_iff.
Qed.

(** ** Specification: moving eastward from the western side by [d] degrees, less than
    a full turn, one meets the meridian of the point (the same up to full turns) not
    later than the eastern side. *)
Definition same_meridian (a b : Q) : Prop := exists n : Z, a == b + 360 * inject_Z n.
Definition rect_spec (latMin lonMin latMax lonMax lat lon : Q) : Prop :=
  latMin <= lat <= latMax /\
  exists w d, (* width of the region and position of the point, both eastward of the western side *)
    0 <= w < 360 /\ same_meridian lonMax (lonMin + w) /\
    0 <= d <= w /\ same_meridian lon (lonMin + d).

Lemma turn_unique a b n : 0 <= a < 360 -> 0 <= b < 360 -> a == b + 360 * inject_Z n -> (n = 0)%Z.
Proof.
  intros Ha Hb H. destruct (Z_lt_le_dec n 0) as [L|L].
  - assert (inject_Z n <= inject_Z (-1)) by (rewrite <- Zle_Qle; lia). change (inject_Z (-1)) with (-1#1) in *. lra.
  - destruct (Z_lt_le_dec 0 n) as [L'|L']; [|lia].
    assert (inject_Z 1 <= inject_Z n) by (rewrite <- Zle_Qle; lia). change (inject_Z 1) with 1 in *. lra.
Qed.

(** C58: a rectangular region contains exactly the points between its latitudes and
    eastward from its western to its eastern longitude, also across the date line, when
    the point and the eastern side are less than a full turn away from the western
    side and the region is less than a full turn wide. This covers longitudes in
    [-180,180) for the region and the point. *)
Theorem C58_rectangular_region distKm latMin lonMin latMax lonMax lat lon :
  - (360) < lon - lonMin < 360 -> - (360) < lonMax - lonMin < 360 ->
  is_inside distKm (Rect latMin lonMin latMax lonMax) lat lon = true <->
  rect_spec latMin lonMin latMax lonMax lat lon.
Proof.
  intros H1 H2. unfold is_inside, rect_spec.
  destruct (Qltb lat latMin) eqn:E1; simpl.
  { apply Qltb_true in E1. split; [discriminate|]. intros [[? ?] _]. lra. }
  destruct (Qltb latMax lat) eqn:E2.
  { apply Qltb_true in E2. split; [discriminate|]. intros [[? ?] _]. lra. }
  apply Qltb_false in E1, E2.
  set (w := if Qltb (lonMax - lonMin) 0 then lonMax - lonMin + 360 else lonMax - lonMin).
  set (d := if Qltb (lon - lonMin) 0 then lon - lonMin + 360 else lon - lonMin).
  assert (0 <= w < 360 /\ same_meridian lonMax (lonMin + w)) as [Hw Mw].
  { subst w. destruct (Qltb (lonMax - lonMin) 0) eqn:E; [apply Qltb_true in E|apply Qltb_false in E].
    - split; [lra|]. exists (-1)%Z. change (inject_Z (-1)) with (-1#1). lra.
    - split; [lra|]. exists 0%Z. change (inject_Z 0) with 0. lra. }
  assert (0 <= d < 360 /\ same_meridian lon (lonMin + d)) as [Hd Md].
  { subst d. destruct (Qltb (lon - lonMin) 0) eqn:E; [apply Qltb_true in E|apply Qltb_false in E].
    - split; [lra|]. exists (-1)%Z. change (inject_Z (-1)) with (-1#1). lra.
    - split; [lra|]. exists 0%Z. change (inject_Z 0) with 0. lra. }
  rewrite Qle_bool_iff. split.
  - intros H. split; [lra|]. exists w, d. tauto.
  - intros [_ (w' & d' & Hw' & [n' Mw'] & Hd' & [m' Md'])]. destruct Mw as [n Mw], Md as [m Md].
    assert (w' == w) as Ew.
    { assert (n - n' = 0)%Z as E.
      { apply (turn_unique w' w (n - n')); [lra|lra|]. unfold Zminus. rewrite inject_Z_plus, inject_Z_opp. lra. }
      assert (n = n') by lia. subst n'. lra. }
    assert (d' == d) as Ed.
    { assert (m - m' = 0)%Z as E.
      { apply (turn_unique d' d (m - m')); [lra|lra|]. unfold Zminus. rewrite inject_Z_plus, inject_Z_opp. lra. }
      assert (m = m') by lia. subst m'. lra. }
    lra.
Qed.
Print Assumptions C58_rectangular_region.
(** A region across the date line and points on both sides and outside. *)
Example ex_date_line :
  let r := Rect (-10) 170 10 (-170) in
  is_inside (fun _ _ _ _ => 0) r 0 175 = true /\ is_inside (fun _ _ _ _ => 0) r 0 (-175) = true /\
  is_inside (fun _ _ _ _ => 0) r 0 0 = false /\ - (360) < -175 - 170 < 360 /\ - (360) < -170 - 170 < 360.
Proof. vm_compute. repeat split; discriminate. Qed.

(** Without the assumption on the longitudes the claim is false: a point at longitude
    180 is outside a region that starts at -180, although it lies on its western side. *)
Theorem C58_date_line_point_refuted :
  exists latMin lonMin latMax lonMax lat lon,
    -180 <= lonMin <= 180 /\ -180 <= lonMax <= 180 /\ -180 <= lon <= 180 /\
    rect_spec latMin lonMin latMax lonMax lat lon /\
    forall distKm, is_inside distKm (Rect latMin lonMin latMax lonMax) lat lon = false.
Proof.
  exists 0, (-180), 10, (-170), 5, 180. split; [lra|]. split; [lra|]. split; [lra|]. split.
  - split; [lra|]. exists 10, 0. split; [lra|]. split; [exists 0%Z; change (inject_Z 0) with 0; lra|].
    split; [lra|]. exists 1%Z. change (inject_Z 1) with 1. lra.
  - intros. reflexivity.
Qed.
Print Assumptions C58_date_line_point_refuted.

(** A circular region contains exactly the points within the radius; an empty region
    contains every point. *)
Lemma other_regions distKm lat0 lon0 radius lat lon :
  (is_inside distKm (Circ lat0 lon0 radius) lat lon = true <-> distKm lat0 lon0 lat lon <= radius) /\
  is_inside distKm RectEmpty lat lon = true /\ is_inside distKm CircEmpty lat lon = true.
Proof. split; [apply Qle_bool_iff|]. split; reflexivity. Qed.

(** C58: the profile used is the forced one, or the first one whose region contains
    the epicentre; none exactly if there is none. [nth_error] gives the position, so
    'first' is with respect to the configured order. *)
Definition wanted distKm (lat lon : Q) (force : string) (p : profile) : Prop :=
  (force <> EmptyString /\ p_name p = force) \/ (force = EmptyString /\ is_inside distKm (p_region p) lat lon = true).
Theorem C58_first_profile distKm ps lat lon force :
  match get_profile distKm ps lat lon force with
  | Some p => exists i, nth_error ps i = Some p /\ wanted distKm lat lon force p /\
                forall j q, (j < i)%nat -> nth_error ps j = Some q -> ~ wanted distKm lat lon force q
  | None => forall q, In q ps -> ~ wanted distKm lat lon force q
  end.
Proof.
  induction ps as [|p ps IH]; simpl; [intros q []|].
  set (curr := if negb _ then _ else _).
  assert ((curr = Some p /\ wanted distKm lat lon force p) \/ (curr = None /\ ~ wanted distKm lat lon force p)) as [[-> H]|[-> H]].
  { subst curr. unfold wanted. destruct (String.eqb_spec force "") as [->|N]; simpl.
    - destruct (is_inside distKm (p_region p) lat lon); [left|right]; (split; [reflexivity|]).
      + right. tauto.
      + intros [[? _]|[_ ?]]; [congruence|discriminate].
    - destruct (String.eqb_spec (p_name p) force) as [E|E]; [left|right]; (split; [reflexivity|]).
      + left. tauto.
      + intros [[_ ?]|[? _]]; congruence. }
  - exists 0%nat. split; [reflexivity|]. split; [exact H|]. intros j q Hj. lia.
  - destruct (get_profile distKm ps lat lon force) as [p'|].
    + destruct IH as (i & Hi & Hw & Hf). exists (S i). split; [exact Hi|]. split; [exact Hw|].
      intros [|j] q Hj Hq; simpl in Hq; [injection Hq as <-; exact H|]. apply (Hf j q); [lia|exact Hq].
    + intros q [<-|Hq]; [exact H|]. apply IH, Hq.
Qed.
Print Assumptions C58_first_profile.
Example ex_profiles :
  let ps := [Profile "a" (Rect 0 0 1 1); Profile "b" (Rect 0 0 9 9); Profile "c" RectEmpty; Profile "b" CircEmpty] in
  get_profile (fun _ _ _ _ => 0) ps 5 5 "" = Some (Profile "b" (Rect 0 0 9 9)) /\
  get_profile (fun _ _ _ _ => 0) ps 50 5 "b" = Some (Profile "b" (Rect 0 0 9 9)) /\
  get_profile (fun _ _ _ _ => 0) ps 50 5 "d" = None.
Proof. vm_compute. auto. Qed.
