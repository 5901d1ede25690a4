(** Model of the map projections GLOBAL, SIMPLE and SDC of the grids: libs/hdd/nll/grid.cpp
    74-121, 179-290, 396-463, 549-608.

    Simplifications: real numbers instead of double precision. The projections LAMBERT,
    TRANS_MERC and AZIMUTHAL_EQUIDIST (code of GMT) are in Projection_Model. *)
From Coq Require Import Reals.
From Verif Require Import Geo_Model.
Local Open Scope R_scope.

(** _orgLat, _orgLong, _rot *)
Record origin := Origin { o_lat : R; o_lon : R; o_rot : R }.
(** 549-571: the constructor of Transform; None is an exception *)
Definition check_origin (o : origin) : option origin :=
  if Rlt_dec 90 (o_lat o) then None else if Rlt_dec (o_lat o) (-90) then None
  else if Rlt_dec 180 (o_lon o) then None else if Rlt_dec (o_lon o) (-180) then None
  else if Rlt_dec 360 (o_rot o) then None else if Rlt_dec (o_rot o) (-360) then None
  else Some o.
Definition cosang (o : origin) : R := cos (- degToRad (o_rot o)).
Definition sinang (o : origin) : R := sin (- degToRad (o_rot o)).
(** 398-404, 406-412 *)
Definition rotate (o : origin) (p : R * R) : R * R :=
  (fst p * cosang o - snd p * sinang o, snd p * cosang o + fst p * sinang o).
Definition inverseRotate (o : origin) (p : R * R) : R * R :=
  (fst p * cosang o + snd p * sinang o, snd p * cosang o - fst p * sinang o).
(** 573-581, 583-591 *)
Definition fromLatLonAngle (o : origin) (a : R) : R :=
  let angle := a + o_rot o in
  if Rlt_dec angle 0 then angle + 360 else if Rlt_dec 360 angle then angle - 360 else angle.
Definition toLatLonAngle (o : origin) (a : R) : R :=
  let angle := a - o_rot o in
  if Rlt_dec angle 0 then angle + 360 else if Rlt_dec 360 angle then angle - 360 else angle.

(** 77-79 *)
Definition c111 : R := PI * 6371 / 180.
(** 226-235, 237-246; the results are (xLoc, yLoc) and (lat, lon) *)
Definition simple_from (o : origin) (lat lon : R) : R * R :=
  rotate o (normalizeLon (lon - o_lon o) * (c111 * cos (degToRad lat)), (lat - o_lat o) * c111).
Definition simple_to (o : origin) (x y : R) : R * R :=
  let q := inverseRotate o (x, y) in
  let lat := o_lat o + snd q / c111 in
  (lat, normalizeLon (o_lon o + fst q / (c111 * cos (degToRad lat)))).

(** 100-103 *)
Definition FLATTENING : R := 1 / (29826 / 100).
Definition ERAD : R := 6378135 / 1000.
Definition DRLT : R := 99330647 / 100000000.
(** 441-457 *)
Definition sdc_dlt (lat : R) : R := atan (DRLT * tan (degToRad lat)).
Definition sdc_r (lat : R) : R := ERAD * (1 - square (sin (sdc_dlt lat)) * FLATTENING).
Definition sdc_xltkm (lat : R) : R := sdc_r lat * (sdc_dlt (lat + 1) - sdc_dlt lat).
Definition sdc_xlnkm (lat : R) : R :=
  sdc_r lat * acos (1 - (1 - cos (degToRad 1)) * square (cos (sdc_dlt lat))) / cos (sdc_dlt lat).
(** 259-272, 274-290 *)
Definition sdc_xlt1 (o : origin) (lat : R) : R := atan (DRLT * tan (degToRad (lat + o_lat o) / 2)).
Definition sdc_from (o : origin) (xltkm xlnkm lat lon : R) : R * R :=
  rotate o (normalizeLon (lon - o_lon o) * (xlnkm * cos (sdc_xlt1 o lat)), (lat - o_lat o) * xltkm).
Definition sdc_to (o : origin) (xltkm xlnkm x y : R) : R * R :=
  let q := inverseRotate o (x, y) in
  let lat := o_lat o + snd q / xltkm in
  (lat, normalizeLon (o_lon o + fst q / (xlnkm * cos (sdc_xlt1 o lat)))).

(** 414-463: the transforms *)
Inductive transform := Global | Simple (o : origin) | Sdc (o : origin) (xltkm xlnkm : R).
Inductive ttype := TGlobal | TSimple | TSdc.
Definition make (t : ttype) (lat lon rot : R) : option transform :=
  match t with
  | TGlobal => Some Global
  | TSimple => match check_origin (Origin lat lon rot) with Some o => Some (Simple o) | None => None end
  | TSdc => match check_origin (Origin lat lon rot) with Some o => Some (Sdc o (sdc_xltkm lat) (sdc_xlnkm lat)) | None => None end
  end.
(** 179-198: GLOBAL *)
Definition fromLatLon (t : transform) (lat lon : R) : R * R :=
  match t with Global => (lon, lat) | Simple o => simple_from o lat lon | Sdc o a b => sdc_from o a b lat lon end.
Definition toLatLon (t : transform) (x y : R) : R * R :=
  match t with Global => (y, x) | Simple o => simple_to o x y | Sdc o a b => sdc_to o a b x y end.
(** 593-599; 200-207: degrees *)
Definition plane_distance (x1 y1 x2 y2 : R) : R := sqrt (square (x2 - x1) + square (y2 - y1)).
Definition distance2 (t : transform) (x1 y1 x2 y2 : R) : R :=
  match t with Global => radToDeg (angular_distance y1 x1 y2 x2) | _ => plane_distance x1 y1 x2 y2 end.
