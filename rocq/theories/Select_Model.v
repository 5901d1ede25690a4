(** Model of libs/hdd/clustering.cpp:297-595, selectNeighbouringEvents.

    Distances are rationals (finite doubles; the rounding of the two divisions
    and NaN are not modelled).  The distance functions, the search tree and the
    geometric tests are arguments: [dref]/[dev] are computeDistance from the
    reference event/another event to a station, the points delivered by the tree
    come as a list of (event id, distance), [inside_outer] and [inside] are the
    tests of the (outermost/ i-th) ellipsoid.  A catalog is its event ids, its
    station ids and, for each event, its phases in the order of equal_range. *)
From stdpp Require Import gmap list strings.
From Coq Require Import QArith.
From Verif Require Import Cluster_Model.
Local Open Scope Q_scope.

Definition Qltb (x y : Q) : bool := negb (Qle_bool y x).

(** Catalog::Phase as far as used here: station, type, procInfo.type == NO *)
Record phase := Ph { ph_sta : string; ph_type : string; ph_no : bool }.
(** A point of the tree: event id and distance to the reference event. *)
Record point := Pt { p_id : N; p_dist : Q }.

(** Outcomes: a result, std::out_of_range, undefined behaviour (an iterator range
    that is not a range), not enough fuel. *)
Inductive sres (A : Type) := SDone (a : A) | SThrow | SUB | SFuel.
Arguments SDone {A}. Arguments SThrow {A}. Arguments SUB {A}. Arguments SFuel {A}.
Definition sbind {A B} (x : sres A) (f : A → sres B) : sres B :=
  match x with SDone a => f a | SThrow => SThrow | SUB => SUB | SFuel => SFuel end.

(** The recorded phases of a neighbour: set of (station, phase type). *)
Notation nbp := (nb (gset (string * string))).

(** Neighbours::add, clustering.cpp:56-61 *)
Definition nb_add (n : nbp) (e : N) (x : string * string) : nbp :=
  Nb (nb_ref n) (<[e := {[x]} ∪ default ∅ (nb_phs n !! e)]> (nb_phs n)).

(** x / y < r for x >= 0: false for y = 0, where the quotient is inf or NaN *)
Definition ratio_lt (x y r : Q) : bool :=
  if Qeq_bool y 0 then false else Qltb (x / y) r.

(** multimap::emplace: after the elements of the same key *)
Fixpoint mm_insert {A} (k : Q) (v : A) (l : list (Q * A)) : list (Q * A) :=
  match l with
  | [] => [(k, v)]
  | (k', v') :: l' => if Qltb k k' then (k, v) :: l else (k', v') :: mm_insert k v l'
  end.

Section select.
Variable ref : N.                      (* refEv.id *)
Variable evs : gset N.                 (* catalog.getEvents() *)
Variable stas : gset string.           (* catalog.getStations() *)
Variable phs : N → list phase.         (* catalog.getPhases().equal_range(id) *)
Variable refphs : list phase.          (* refEvCatalog.getPhases().equal_range(refEv.id) *)
Variable dref : string → Q.
Variable dev : N → string → Q.
Variables minES maxES minRatio : Q.    (* minESdist maxESdist minEStoIEratio *)
Variables minPhase maxPhase maxNum : nat.
Variable maxDist : Q.                  (* maxNeighbourDist *)

(** Lines 319-334: the stations of validatedStationDistance. *)
Definition sta_ok (s : string) : bool :=
  (Qle_bool maxES 0 || Qle_bool (dref s) maxES) || Qle_bool minES (dref s).

(** Catalog::searchPhase, catalog.cpp: first phase of that station and type *)
Definition search_ref (s t : string) : option phase :=
  list_find (λ p, ph_sta p = s ∧ ph_type p = t) refphs ≫= λ x, Some x.2.

(** Lines 370-419 for one phase. [None]: getStations().at throws. *)
Definition phase_ok (e : N) (dist : Q) (p : phase) : option bool :=
  let s := ph_sta p in
  if decide (s ∈ stas) then Some (
    negb (ph_no p) && sta_ok s
    && negb (ratio_lt (dref s) dist minRatio)
    && negb ((Qltb 0 maxES || Qltb 0 minES || Qltb 0 minRatio)
             && ((Qltb 0 maxES && Qltb maxES (dev e s)) || Qltb (dev e s) minES
                 || ratio_lt (dev e s) dist minRatio))
    && match search_ref s (ph_type p) with Some p' => negb (ph_no p') | None => false end)
  else None.

(** Lines 362-426: staPhByDistance *)
Fixpoint collect (e : N) (dist : Q) (ps : list phase) (acc : list (Q * (string * string)))
  : option (list (Q * (string * string))) :=
  match ps with
  | [] => Some acc
  | p :: ps' =>
    match phase_ok e dist p with
    | None => None
    | Some true => collect e dist ps' (mm_insert (dref (ph_sta p)) (ph_sta p, ph_type p) acc)
    | Some false => collect e dist ps' acc
    end
  end.

(** Lines 434-446 *)
Definition limit (l : list (Q * (string * string))) : list (Q * (string * string)) :=
  if decide (maxPhase = 0%nat) then l else take maxPhase l.

(** The lambda addNeighbour, lines 340-449 *)
Definition add_neighbour (n : nbp) (e : N) (dist : Q) : sres (bool * nbp) :=
  if decide (e = ref) then SDone (false, n)
  else if decide (e ∈ evs) then
    match collect e dist (phs e) [] with
    | None => SThrow
    | Some l =>
      if decide (length l < minPhase)%nat then SDone (false, n)
      else SDone (true, fold_left (λ n x, nb_add n e x.2) (limit l) n)
    end
  else SDone (false, n).

(** Neighbours::amount *)
Definition amount (n : nbp) : nat := size (nb_phs n).
Definition full (n : nbp) : bool := bool_decide (0 < maxNum ∧ maxNum ≤ amount n)%nat.

(** Lines 457-486: bestFirstSearch hands out the points one by one until the
    callback returns true. *)
Fixpoint nearest (pts : list point) (n : nbp) : sres nbp :=
  match pts with
  | [] => SDone n
  | p :: pts' =>
    if Qltb maxDist (p_dist p) then SDone n
    else sbind (add_neighbour n (p_id p) (p_dist p)) (λ '(added, n'),
      if added && full n' then SDone n' else nearest pts' n')
  end.

(** ** Ellipsoids *)
Variable inside_outer : point → bool.          (* outmostEllip.getOuterEllipsoid().isInside *)
Variable inside : nat → nat → point → bool.    (* ellipsoids[i].isInside(.., quadrant) *)

(** Lines 493-508: outer vertical semi axis of the i-th of [k] ellipsoids, and the
    inner horizontal one (0 for the first, a quarter of the outer vertical axis
    for the others: ellipsoid.h:106-120). *)
Definition vert (k i : nat) : Q := maxDist * 2 / inject_Z (2 ^ Z.of_nat (k - 1 - i)%nat).
Definition lo (k i : nat) : Q := if decide (i = 0%nat) then 0 else vert k i / 4.
Definition hi (k i : nat) : Q := vert k i.

Definition in_range (l h : Q) (p : point) : bool := Qle_bool l (p_dist p) && Qle_bool (p_dist p) h.

(** Lines 549-583: the search for one ellipsoid and quadrant.  Result: remaining
    points, neighbours, match. *)
Fixpoint scan (k i q : nat) (pts : list point) (n : nbp) : sres (list point * nbp * bool) :=
  match pts with
  | [] => SDone ([], n, false)
  | p :: pts' =>
    if in_range (lo k i) (hi k i) p && inside i q p then
      sbind (add_neighbour n (p_id p) (p_dist p)) (λ '(added, n'),
        if added then SDone (pts', n', true)
        else sbind (scan k i q pts' n') (λ '(r, n'', _), SDone (r, n'', true)))
    else sbind (scan k i q pts' n) (λ '(r, n', m), SDone (p :: r, n', m))
  end.

(** Lines 545-594: the quadrants of one ellipsoid.  The last component is
    !workToDo. *)
Fixpoint quadrants (k i : nat) (qs : list nat) (pts : list point) (n : nbp) (m : bool)
  : sres (list point * nbp * bool * bool) :=
  match qs with
  | [] => SDone (pts, n, m, false)
  | q :: qs' =>
    sbind (scan k i q pts n) (λ '(pts', n', m'),
      if decide (pts' = []) then SDone (pts', n', m || m', true)
      else if full n' then SDone (pts', n', m || m', true)
      else quadrants k i qs' pts' n' (m || m'))
  end.

(** The iterators of lines 541-544 do not form a range if a point lies strictly
    between the upper and the lower end. *)
Definition bad_range (l h : Q) (pts : list point) : bool :=
  existsb (λ p, Qltb h (p_dist p) && Qltb (p_dist p) l) pts.

(** Lines 538-596: all ellipsoids once. *)
Fixpoint ellipsoids (k : nat) (is : list nat) (pts : list point) (n : nbp) (m : bool)
  : sres (list point * nbp * bool * bool) :=
  match is with
  | [] => SDone (pts, n, m, false)
  | i :: is' =>
    if bad_range (lo k i) (hi k i) pts then SUB else
    sbind (quadrants k i [1;2;3;4;5;6;7;8]%nat pts n m) (λ '(pts', n', m', stop),
      if (stop : bool) then SDone (pts', n', m', true) else ellipsoids k is' pts' n' m')
  end.

(** The while loop, lines 532-604; workToDo is true on entry. *)
Fixpoint rounds_robin (fuel k : nat) (pts : list point) (n : nbp) : sres (list point * nbp) :=
  match fuel with
  | O => SFuel
  | S f =>
    sbind (ellipsoids k (seq 0 k) pts n false) (λ '(pts', n', m, stop),
      if (stop : bool) then SDone (pts', n')
      else if (m : bool) then rounds_robin f k pts' n'
      else SDone (pts', n'))
  end.

(** The whole function; [bfs]: the points in the order bestFirstSearch delivers
    them; [rad]: those of radiusSearch, ordered by distance (a multimap). *)
Definition select (fuel numEll : nat) (bfs rad : list point) : sres nbp :=
  let numEll := if decide (maxNum = 0%nat) then 0%nat else numEll in
  let n := Nb ref ∅ in
  if decide (numEll = 0%nat) then nearest bfs n
  else
    let pts := filter (λ p, inside_outer p = true) rad in
    if decide (pts = []) then SDone n
    else sbind (rounds_robin fuel numEll pts n) (λ '(_, n'), SDone n').
End select.
