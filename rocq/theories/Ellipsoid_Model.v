(** Model of libs/hdd/ellipsoid.h and of the construction of the layers in
    libs/hdd/clustering.cpp 480-489, over the real numbers.

    A division by a zero semi-axis gives an infinity or a NaN in C++, hence a sum which is
    never <= 1; this case is written out. *)
From Coq Require Import Reals List.
From Verif Require Import Geo_Model.
Import ListNotations.
Local Open Scope R_scope.

Record ellipsoid := mkEllipsoid { axis_a : R; axis_b : R; axis_c : R; el_lat : R; el_lon : R; el_depth : R }.

(** ellipsoid.h 44-58 *)
Definition is_inside (e : ellipsoid) (lat lon depth : R) : Prop :=
  let az := azimuth lat lon (el_lat e) (el_lon e) in
  let dist := distance lat lon (el_lat e) (el_lon e) (el_depth e) in
  let dist_x := dist * sin az in
  let dist_y := dist * cos az in
  let dist_z := depth - el_depth e in
  axis_a e <> 0 /\ axis_b e <> 0 /\ axis_c e <> 0 /\
  square (dist_x / axis_a e) + square (dist_y / axis_b e) + square (dist_z / axis_c e) <= 1.

Record hdd_ellipsoid := mkHdd { outer : ellipsoid; inner : ellipsoid }.
(** 104-121 *)
Definition hdd (inner_len outer_len lat lon depth : R) : hdd_ellipsoid :=
  {| outer := {| axis_a := outer_len / 2; axis_b := outer_len / 2; axis_c := outer_len; el_lat := lat; el_lon := lon; el_depth := depth |};
     inner := {| axis_a := inner_len / 2; axis_b := inner_len / 2; axis_c := inner_len; el_lat := lat; el_lon := lon; el_depth := depth |} |}.
(** 93-102 *)
Definition hdd_half (outer_len lat lon depth : R) : hdd_ellipsoid := hdd (outer_len / 2) outer_len lat lon depth.
(** 157-161 *)
Definition layer_inside (h : hdd_ellipsoid) (lat lon depth : R) : Prop :=
  is_inside (outer h) lat lon depth /\ ~ is_inside (inner h) lat lon depth.
(** 163-191; the exception for other quadrants is outside the model *)
Definition in_quadrant (h : hdd_ellipsoid) (lat lon depth : R) (quadrant : nat) : Prop :=
  let e := outer h in
  let lonDelta := normalizeLon (lon - el_lon e) in
  ~ (depth < el_depth e /\ In quadrant [1;2;3;4]%nat) /\
  ~ (depth > el_depth e /\ In quadrant [5;6;7;8]%nat) /\
  ~ (lat < el_lat e /\ In quadrant [1;2;5;6]%nat) /\
  ~ (lat > el_lat e /\ In quadrant [3;4;7;8]%nat) /\
  ~ (lonDelta < 0 /\ In quadrant [1;4;5;8]%nat) /\
  ~ (lonDelta > 0 /\ In quadrant [2;3;6;7]%nat).
(** 149-153 *)
Definition octant_inside (h : hdd_ellipsoid) (lat lon depth : R) (quadrant : nat) : Prop :=
  in_quadrant h lat lon depth quadrant /\ layer_inside h lat lon depth.

(** clustering.cpp 482-489: the loop from the outermost layer (last) to layer 0; [k] is the
    number of layers still to build and [v] verticalSemiAxisLen. *)
Fixpoint layers (k : nat) (v lat lon depth : R) : list hdd_ellipsoid :=
  match k with
  | O => []
  | S k' => match k' with
            | O => [hdd 0 v lat lon depth]
            | S _ => layers k' (v / 2) lat lon depth ++ [hdd_half v lat lon depth]
            end
  end.
(** 480-489 with numEllipsoids = k *)
Definition ellipsoids (k : nat) (maxNeighbourDist lat lon depth : R) : list hdd_ellipsoid :=
  layers k (maxNeighbourDist * 2) lat lon depth.
