(** Model of AngleGrid: libs/hdd/nll/grid.h 263-324, libs/hdd/nll/grid.cpp 1132-1301.

    The four bytes of a node are quality (4 bits), dip (12 bits) and azimuth (16 bits), in the
    layout that the constructor checks (1156-1176, with one pattern). Angles are real numbers. *)
From Coq Require Import Reals.
From stdpp Require Import numbers list.
From Verif Require Import Geo_Model Interp_Model GridFile_Model GridCell_Model Transform_Model.
Local Open Scope N_scope.

(** TakeOffAngles: tenths of degree *)
Record angles := Angles { t_quality : N; t_dip : N; t_azimuth : N }.
(** memcpy of four bytes *)
Definition decode (b : list N) : angles :=
  match b with
  | [b0; b1; b2; b3] => Angles (N.land b0 15) (N.shiftr b0 4 + N.shiftl b1 4) (b2 + N.shiftl b3 8)
  | _ => Angles 0 0 0
  end.

(** Conversion of a double to unsigned short: defined if the integral part fits *)
Definition to_u16 (x : R) : option N :=
  let i := trunc x in if bool_decide (0 <= i < 2 ^ 16)%Z then Some (Z.to_N i) else None.
Definition real (n : N) : R := IZR (Z.of_N n).
Definition deg (n : N) : R := (real n / 10)%R.
Definition min8 (a b c d e f g h : N) : N := N.min (N.min (N.min a b) (N.min c d)) (N.min (N.min e f) (N.min g h)).
(** 1241-1279; bit-fields of 12 and 16 bits keep the low bits *)
Definition interp3a (xd yd zd : R) (v000 v001 v010 v011 v100 v101 v110 v111 : angles) : result angles :=
  let q := min8 (t_quality v000) (t_quality v001) (t_quality v010) (t_quality v011)
                (t_quality v100) (t_quality v101) (t_quality v110) (t_quality v111) in
  match to_u16 (interpolateCubeAngles xd yd zd (deg (t_azimuth v000)) (deg (t_azimuth v001)) (deg (t_azimuth v010)) (deg (t_azimuth v011))
                  (deg (t_azimuth v100)) (deg (t_azimuth v101)) (deg (t_azimuth v110)) (deg (t_azimuth v111)) * 10)%R,
        to_u16 (interpolateTrilinear xd yd zd (real (t_dip v000)) (real (t_dip v001)) (real (t_dip v010)) (real (t_dip v011))
                  (real (t_dip v100)) (real (t_dip v101)) (real (t_dip v110)) (real (t_dip v111))) with
  | Some az, Some dip => Val (Angles (q mod 16) (dip mod 2 ^ 12) az)
  | _, _ => UB
  end.
(** 1281-1301 *)
Definition interp2a (xd zd : R) (v00 v01 v10 v11 : angles) : result angles :=
  let q := N.min (N.min (t_quality v00) (t_quality v01)) (N.min (t_quality v10) (t_quality v11)) in
  match to_u16 (interpolateBilinear xd zd (real (t_dip v00)) (real (t_dip v01)) (real (t_dip v10)) (real (t_dip v11))) with
  | Some dip => Val (Angles (q mod 16) (dip mod 2 ^ 12) 0)
  | None => UB
  end.
(** 1217-1239: (azimuth, dip) in degrees; None is NaN *)
Definition convertAngles (cutoff : N) (is3D : bool) (o : origin) (a : angles) : result (option R * R) :=
  if t_quality a <? cutoff then Exc LowQuality
  else Val (if is3D then Some (toLatLonAngle o (deg (t_azimuth a))) else None, deg (t_dip a)).
(** 1184-1191 *)
Definition getAnglesAtIndex (cutoff : N) (o : origin) (rd : N → N → N → result angles) (ax : axis) (i j k : N) : result (option R * R) :=
  bind (rd i j k) (convertAngles cutoff (1 <? a_num ax) o).
(** 1193-1215 *)
Definition getAngles (cutoff : N) (o : origin) (rd : N → N → N → result angles) (ax ay az : axis) (xy : option R * option R) (dist depth : option R) : result (option R * R) :=
  bind
    (if 1 <? a_num ax then
       bind (values3D rd ax ay az xy.1 xy.2 depth) (λ r, let '(xd, yd, zd, (v000, v001, v010, v011, (v100, v101, v110, v111))) := r in
         interp3a xd yd zd v000 v001 v010 v011 v100 v101 v110 v111)
     else
       bind (values2D rd ax ay az dist depth) (λ r, let '(yd, zd, (v00, v01, v10, v11)) := r in interp2a yd zd v00 v01 v10 v11))
    (convertAngles cutoff (1 <? a_num ax) o).
