(** Model of the interpolation functions of libs/hdd/utils.cpp 385-503 over the real
    numbers (exact arithmetic instead of double precision). *)
From Coq Require Import Reals.
From Verif Require Import Geo_Model.
Local Open Scope R_scope.

(** 398, 426 *)
Definition lerp (a b t : R) : R := a + t * (b - a).
(** 390-406 *)
Definition interpolateBilinear (xdiff zdiff v00 v01 v10 v11 : R) : R :=
  let z0 := lerp v00 v01 zdiff in
  let z1 := lerp v10 v11 zdiff in
  lerp z0 z1 xdiff.
(** 413-440 *)
Definition interpolateTrilinear (xdiff ydiff zdiff v000 v001 v010 v011 v100 v101 v110 v111 : R) : R :=
  let z00 := lerp v000 v001 zdiff in
  let z01 := lerp v010 v011 zdiff in
  let z10 := lerp v100 v101 zdiff in
  let z11 := lerp v110 v111 zdiff in
  let y0 := lerp z00 z01 ydiff in
  let y1 := lerp z10 z11 ydiff in
  lerp y0 y1 xdiff.
(** 461-465 and 498-502 *)
Definition angle_of (s c : R) : R :=
  let result := radToDeg (atan2 s c) in
  if Rlt_dec result 0 then result + 360 else result.
(** 446-466 *)
Definition interpolateSquareAngles (xdiff zdiff v00 v01 v10 v11 : R) : R :=
  let x_comp := interpolateBilinear xdiff zdiff (cos (degToRad v00)) (cos (degToRad v01)) (cos (degToRad v10)) (cos (degToRad v11)) in
  let z_comp := interpolateBilinear xdiff zdiff (sin (degToRad v00)) (sin (degToRad v01)) (sin (degToRad v10)) (sin (degToRad v11)) in
  angle_of z_comp x_comp.
(** 472-503 *)
Definition interpolateCubeAngles (xdiff ydiff zdiff v000 v001 v010 v011 v100 v101 v110 v111 : R) : R :=
  let cos_comp := interpolateTrilinear xdiff ydiff zdiff
    (cos (degToRad v000)) (cos (degToRad v001)) (cos (degToRad v010)) (cos (degToRad v011))
    (cos (degToRad v100)) (cos (degToRad v101)) (cos (degToRad v110)) (cos (degToRad v111)) in
  let sin_comp := interpolateTrilinear xdiff ydiff zdiff
    (sin (degToRad v000)) (sin (degToRad v001)) (sin (degToRad v010)) (sin (degToRad v011))
    (sin (degToRad v100)) (sin (degToRad v101)) (sin (degToRad v110)) (sin (degToRad v111)) in
  angle_of sin_comp cos_comp.
