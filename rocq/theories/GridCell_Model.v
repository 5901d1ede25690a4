(** Model of the interpolation of the values of a grid: libs/hdd/nll/grid.h 208-226, 260-306,
    libs/hdd/nll/grid.cpp 870-1130 (Grid::getValuesAt3DLocation, getValuesAt2DLocation,
    getValue3D, getValue2D, TimeGrid) and 1303-1438 (VelGrid).

    Simplifications: real numbers instead of double and float; of the special values NaN is
    kept (None), infinities are left out. The transformation of the coordinates and the
    distance are arguments, and so is the reading of a node (see GridFile_Model). *)
From Coq Require Import Reals.
From stdpp Require Import numbers list.
From Verif Require Import Geo_Model Interp_Model GridFile_Model.
Local Open Scope R_scope.

(** The exceptions; [UB]: undefined behaviour *)
Inductive exn := OutOfGrid | NotOpen | NoData | Negative | LowQuality.
Inductive result (A : Type) := Val (a : A) | Exc (e : exn) | UB.
Arguments Val {A} _. Arguments Exc {A} _. Arguments UB {A}.
Definition bind {A B} (r : result A) (k : A → result B) : result B :=
  match r with Val a => k a | Exc e => Exc e | UB => UB end.
(** Grid::getValueAtIndex *)
Definition of_outcome {V} (decode : list N → V) (o : outcome) : result V :=
  match o with GVal v => Val (decode v) | GClosed => Exc NotOpen | GOut => Exc OutOfGrid | GEof => Exc NoData | GBad => UB end.

(** numx, origx, dx; and so on *)
Record axis := Axis { a_num : N; a_orig : R; a_step : R }.
Definition pred64 (n : N) : N := wrap (n + (2 ^ 64 - 1)).
Definition succ64 (n : N) : N := wrap (n + 1).
(** grid.h 208-213 *)
Definition a_min (a : axis) : R := a_orig a.
Definition a_max (a : axis) : R := a_orig a + IZR (Z.of_N (pred64 (a_num a))) * a_step a.
(** grid.h 214-218, one axis; a comparison with NaN is false *)
Definition outside (a : axis) (loc : option R) : bool :=
  match loc with Some l => (if Rlt_dec l (a_min a) then true else false) || (if Rlt_dec (a_max a) l then true else false) | None => false end.
(** Conversion to unsigned long long: defined if the integral part fits *)
Definition to_u64 (x : R) : option N :=
  let i := trunc x in if bool_decide (0 <= i < 2 ^ 64)%Z then Some (Z.to_N i) else None.
(** 900-922 for one axis: the two nodes and the relative position. 0/0 is NaN, the conversion
    of NaN and infinity is not defined. *)
Definition cell (a : axis) (loc : option R) : option (N * N * R) :=
  match loc with
  | None => None
  | Some l =>
      if Req_EM_T (a_step a) 0 then None
      else
        let off := (l - a_orig a) / a_step a in
        match to_u64 off with
        | None => None
        | Some i =>
            let i0 := if bool_decide (i = pred64 (a_num a)) then pred64 i else i in
            Some (i0, succ64 i0, off - IZR (Z.of_N i0))
        end
  end.

(** 870-927 *)
Definition values3D {V} (rd : N → N → N → result V) (ax ay az : axis) (x y z : option R) :
    result (R * R * R * (V * V * V * V * (V * V * V * V))) :=
  if outside ax x || outside ay y || outside az z then Exc OutOfGrid
  else match cell ax x, cell ay y, cell az z with
       | Some (ix0, ix1, xd), Some (iy0, iy1, yd), Some (iz0, iz1, zd) =>
           bind (rd ix0 iy0 iz0) (λ v000, bind (rd ix0 iy0 iz1) (λ v001,
           bind (rd ix0 iy1 iz0) (λ v010, bind (rd ix0 iy1 iz1) (λ v011,
           bind (rd ix1 iy0 iz0) (λ v100, bind (rd ix1 iy0 iz1) (λ v101,
           bind (rd ix1 iy1 iz0) (λ v110, bind (rd ix1 iy1 iz1) (λ v111,
           Val (xd, yd, zd, (v000, v001, v010, v011, (v100, v101, v110, v111)))))))))))
       | _, _, _ => UB
       end.
(** 929-979: xloc is origx *)
Definition values2D {V} (rd : N → N → N → result V) (ax ay az : axis) (y z : option R) : result (R * R * (V * V * V * V)) :=
  if outside ax (Some (a_orig ax)) || outside ay y || outside az z then Exc OutOfGrid
  else match cell ay y, cell az z with
       | Some (iy0, iy1, yd), Some (iz0, iz1, zd) =>
           bind (rd 0%N iy0 iz0) (λ v00, bind (rd 0%N iy0 iz1) (λ v01,
           bind (rd 0%N iy1 iz0) (λ v10, bind (rd 0%N iy1 iz1) (λ v11,
           Val (yd, zd, (v00, v01, v10, v11))))))
       | _, _ => UB
       end.

(** 1087-1130, 1393-1438: the check and the interpolation; NaN passes the check and makes the
    result NaN *)
Definition neg (v : option R) : bool := match v with Some x => if Rlt_dec x 0 then true else false | None => false end.
Definition interp3 (xd yd zd : R) (v000 v001 v010 v011 v100 v101 v110 v111 : option R) : result (option R) :=
  if neg v000 || neg v010 || neg v100 || neg v110 || neg v001 || neg v011 || neg v101 || neg v111 then Exc Negative
  else Val (match v000, v001, v010, v011, v100, v101, v110, v111 with
            | Some w000, Some w001, Some w010, Some w011, Some w100, Some w101, Some w110, Some w111 =>
                Some (interpolateTrilinear xd yd zd w000 w001 w010 w011 w100 w101 w110 w111)
            | _, _, _, _, _, _, _, _ => None
            end).
Definition interp2 (xd zd : R) (v00 v01 v10 v11 : option R) : result (option R) :=
  if neg v00 || neg v01 || neg v10 || neg v11 then Exc Negative
  else Val (match v00, v01, v10, v11 with
            | Some w00, Some w01, Some w10, Some w11 => Some (interpolateBilinear xd zd w00 w01 w10 w11)
            | _, _, _, _ => None
            end).

(** 981-1000 and 1058-1067: [xy] is fromLatLon of the location *)
Definition getValue3D (rd : N → N → N → result (option R)) (ax ay az : axis) (xy : option R * option R) (depth : option R) : result (option R) :=
  bind (values3D rd ax ay az xy.1 xy.2 depth) (λ r, let '(xd, yd, zd, (v000, v001, v010, v011, (v100, v101, v110, v111))) := r in
    interp3 xd yd zd v000 v001 v010 v011 v100 v101 v110 v111).
(** 1002-1034: [dist] is the distance to the source, or origy for a velocity grid *)
Definition getValue2D (rd : N → N → N → result (option R)) (ax ay az : axis) (dist : option R) (depth : option R) : result (option R) :=
  bind (values2D rd ax ay az dist depth) (λ r, let '(yd, zd, (v00, v01, v10, v11)) := r in interp2 yd zd v00 v01 v10 v11).

(** 1056-1085; grid.h 274: is3D *)
Definition getTime (rd : N → N → N → result (option R)) (ax ay az : axis) (xy : option R * option R) (dist depth : option R) : result (option R) :=
  if (1 <? a_num ax)%N then getValue3D rd ax ay az xy depth else getValue2D rd ax ay az dist depth.

(** 1303-1345: the units of a velocity grid *)
Inductive vtype := VELOCITY | VELOCITY_METERS | SLOWNESS | SLOW_LEN | VEL2 | SLOW2 | SLOW2_METERS.
Definition convertUnits (t : vtype) (dy vel : R) : R :=
  match t with
  | VELOCITY => vel
  | VELOCITY_METERS => vel / 1000
  | SLOWNESS => 1 / vel
  | SLOW_LEN => 1 / (vel / dy)
  | VEL2 => R_sqrt.sqrt vel
  | SLOW2 => R_sqrt.sqrt (1 / vel)
  | SLOW2_METERS => R_sqrt.sqrt (1 / vel) / 1000
  end.
(** 1366-1391; VelGrid::is3D: numx > 2 *)
Definition getVel (t : vtype) (rd : N → N → N → result (option R)) (ax ay az : axis) (xy : option R * option R) (depth : option R) : result (option R) :=
  bind (if (2 <? a_num ax)%N then getValue3D rd ax ay az xy depth else getValue2D rd ax ay az (Some (a_orig ay)) depth)
    (λ v, Val (convertUnits t (a_step ay) <$> v)).
