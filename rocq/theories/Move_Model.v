(** Model of the change of an event by the solution of the double difference system,
    libs/hdd/dd.cpp 1126-1151 (in updateRelocatedEvents) and 983-999 (the derivatives given to the
    solver), over the real numbers; secToDur is libs/hdd/utctime.h 71-76 (std::round: halves away
    from zero). Times are microseconds. *)
From Coq Require Import Reals.
From Verif Require Import Geo_Model.
Local Open Scope R_scope.

Definition rround (x : R) : Z := if Rlt_dec x 0 then (- Int_part (- x + 1 / 2))%Z else Int_part (x + 1 / 2).
Definition secToDur (sec : R) : Z := rround (sec * 1000000).

Record hypocentre := Hypo { y_lat : R; y_lon : R; y_depth : R; y_time : Z }.
(** 1126-1151 *)
Definition move (h : hypocentre) (deltaX deltaY deltaZ deltaTime : R) : hypocentre :=
  let newDepth := y_depth h - deltaZ in
  let newTime := (y_time h + secToDur deltaTime)%Z in
  let distance := sqrt (square deltaX + square deltaY) in
  let azimuth := atan2 deltaX deltaY in
  let '(newLat, newLon) := coordinates_km distance azimuth (y_lat h) (y_lon h) (y_depth h) in
  Hypo newLat newLon newDepth newTime.

(** 986-992: dtdd [sec/deg] and the take-off azimuth [deg] to derivatives by east, north and up *)
Definition derivatives (takeOffAzi dtdd dtdh : R) : R * R * R :=
  let dtdd := dtdd / kmOfDegree 0 in
  let angle := degToRad (90 - takeOffAzi) in
  (dtdd * - cos angle, dtdd * - sin angle, - dtdh).
