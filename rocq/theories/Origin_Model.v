(** Model of convertOrigin, libs/hddsc/utils.cpp 386-589: the arrivals, picks and quality of the
    origin made from a relocated event.

    - Angles and distances are reals [deg]; Math::Geo::delazi (SeisComP) is the function [delazi].
    - Picks are compared by the five fields of lines 453-457, one value of the type [PK]; the public
      id of a new pick is given by [fresh] for its position among the new picks.
    - [org]: None for a null origin; otherwise the picks of its arrivals, None where the pick cannot
      be loaded.
    - std::sort gives the sorted list; std::nth_element is an oracle (OrderStats_Model).
    - Not modelled: the attributes that are copied (creation info, time, position, uncertainties),
      and whether newOrg->add of the arrival succeeds. *)
From Coq Require Import Reals Ascii.
From stdpp Require Import gmap list sorting.
From Verif Require Import KdGeo_Model OrderStats_Model.
Local Open Scope R_scope.
Notation text := (list ascii).

(** 47-54 *)
Definition normalizeAz (az : R) : R :=
  if Rlt_dec az 0 then az + 360 else if Rle_dec 360 az then az - 360 else az.

(** 553-569 *)
Definition gap_step (ext : list R) (acc : R * R) (i : nat) : R * R :=
  let at_ j := nth j ext 0 in
  let gap := at_ (i + 1)%nat - at_ i in
  let p := if Rlt_dec acc.1 gap then gap else acc.1 in
  let gap2 := at_ (i + 2)%nat - at_ i in
  (p, if Rlt_dec acc.2 gap2 then gap2 else acc.2).
Definition azimuthal_gaps (azi : list R) : R * R :=
  if decide (2 ≤ length azi)%nat then
    let a := merge_sort Rle azi in
    let ext := a ++ [nth 0 a 0 + 360; nth 1 a 0 + 360] in
    fold_left (gap_step ext) (seq 0 (length azi)) (0, 0)
  else (360, 360).

Section convert.
Context {PK ID : Type} `{!EqDecision PK}.
Record phase := Phase { ph_sta : text;      (* stationId *)
                        ph_code : text;     (* networkCode.stationCode *)
                        ph_pick : PK; ph_reloc : bool; ph_weight : R; ph_res : R }.
Record arrival := Arrival { a_pick : ID; a_used : bool; a_weight : R; a_res : R;
                            a_geo : option (R * R)  (* distance, azimuth *) }.
Record quality := Quality { q_assoc : nat; q_used : nat; q_assoc_sta : nat; q_used_sta : nat;
                            q_median : R; q_min : R; q_max : R; q_gap : R; q_gap2 : R }.
(** The variables of the loop *)
Record acc := Acc { c_arr : list arrival; c_new : list ID; c_used : nat; c_azi : list R; c_dist : list R;
                    c_assoc : gset text; c_stations : gset text }.

Variable org : option (list (option (PK * ID))).
Variable incl : bool.                                   (* includeExistingPicks *)
Variable stations : gmap text (R * R).
Variable delazi : R * R → R * R.                        (* from the event: distance, azimuth *)
Variable fresh : nat → ID.
Variable nthe : list R → nat → list R.

(** 448-479 *)
Fixpoint find_pick (k : PK) (l : list (option (PK * ID))) : option ID :=
  match l with
  | [] => None
  | Some (k', i) :: l => if decide (k = k') then Some i else find_pick k l
  | None :: l => find_pick k l
  end.

(** 435-549 *)
Definition convert_phase (c : acc) (p : phase) : acc :=
  let assoc := {[ph_code p]} ∪ c_assoc c in
  let '(pick, new) :=
    match org ≫= find_pick (ph_pick p) with
    | Some i => (i, if incl then c_new c ++ [i] else c_new c)
    | None => (fresh (length (c_new c)), c_new c ++ [fresh (length (c_new c))])
    end in
  let w := if ph_reloc p then ph_weight p else 0 in
  let r := if ph_reloc p then ph_res p else 0 in
  match stations !! ph_sta p with
  | None => Acc (c_arr c ++ [Arrival pick (ph_reloc p) w r None]) new (c_used c) (c_azi c) (c_dist c) assoc (c_stations c)
  | Some s =>
      let '(d, az) := delazi s in
      let arr := c_arr c ++ [Arrival pick (ph_reloc p) w r (Some (d, normalizeAz az))] in
      if ph_reloc p
      then Acc arr new (S (c_used c)) (c_azi c ++ [az]) (c_dist c ++ [d]) assoc ({[ph_sta p]} ∪ c_stations c)
      else Acc arr new (c_used c) (c_azi c) (c_dist c) assoc (c_stations c)
  end.

Definition ravg (x y : R) : R := (x + y) / 2.
(** 427-589. None: undefined behaviour, *min_element of no distance. *)
Definition convert (phases : list phase) : option (list arrival * list ID * quality) :=
  let c := fold_left convert_phase phases (Acc [] [] 0 [] [] ∅ ∅) in
  let g := azimuthal_gaps (c_azi c) in
  match c_dist c with
  | [] => None
  | x :: l =>
      m ← median Rle 0 ravg nthe (c_dist c);
      Some (c_arr c, c_new c,
            Quality (length (c_arr c)) (c_used c) (size (c_assoc c)) (size (c_stations c))
                    m (min_element Rle x l) (max_element Rle x l) g.1 g.2)
  end.
End convert.
