(** Model of the spherical geometry of libs/hdd/utils.h and utils.cpp over the real
    numbers.

    Simplifications: exact real arithmetic instead of double precision; there are no
    NaN and infinities, so the isfinite tests (utils.cpp 125, 175, 226, 242, 252) never
    fire; signed zeros are not distinguished. *)
From Coq Require Import Reals.
Local Open Scope R_scope.

(** utils.h 56-60 *)
Definition radToDeg (r : R) : R := 180 * r / PI.
Definition degToRad (d : R) : R := PI * d / 180.
Definition square (x : R) : R := x * x.

(** utils.h 62; kilometres *)
Definition EARTH_RADIUS : R := 637100877141506 / 100000000000.
(** utils.h 64-87 *)
Definition kmOfDegree (kmDepth : R) : R := (EARTH_RADIUS - kmDepth) * PI / 180.
Definition deg2km (deg kmDepth : R) : R := deg * kmOfDegree kmDepth.
Definition km2deg (km kmDepth : R) : R := km / kmOfDegree kmDepth.
Definition rad2km (rad kmDepth : R) : R := rad * (EARTH_RADIUS - kmDepth).
Definition km2rad (km kmDepth : R) : R := km / (EARTH_RADIUS - kmDepth).

(** std::fmod: x - y * trunc(x / y) *)
Definition trunc (x : R) : Z := if Rle_dec 0 x then Int_part x else (- Int_part (- x))%Z.
Definition fmod (x y : R) : R := x - y * IZR (trunc (x / y)).
(** utils.h 89-97 *)
Definition normalizeLon (lon : R) : R := fmod (fmod (lon + 180) 360 + 360) 360 - 180.
Definition normalizeAzimuth (az : R) : R := fmod (fmod az 360 + 360) 360.

(** std::atan2 *)
Definition atan2 (y x : R) : R :=
  if Rlt_dec 0 x then atan (y / x)
  else if Rlt_dec x 0 then (if Rle_dec 0 y then atan (y / x) + PI else atan (y / x) - PI)
  else if Rlt_dec 0 y then PI / 2 else if Rlt_dec y 0 then - (PI / 2) else 0.

(** utils.cpp 211-217 and 114-118: the shortcut for coincident points *)
Definition same_place (lat1 lon1 lat2 lon2 : R) : Prop :=
  Rabs (lat1 - lat2) < 1 / 1000000000 /\ Rabs (degToRad (lon2 - lon1)) < 1 / 1000000000.
Definition same_place_dec lat1 lon1 lat2 lon2 : {same_place lat1 lon1 lat2 lon2} + {~ same_place lat1 lon1 lat2 lon2}.
Proof.
  unfold same_place. destruct (Rlt_dec (Rabs (lat1 - lat2)) (1 / 1000000000)) as [H|H].
  - destruct (Rlt_dec (Rabs (degToRad (lon2 - lon1))) (1 / 1000000000)) as [H'|H'].
    + left. split; assumption.
    + right. intros [_ K]. exact (H' K).
  - right. intros [K _]. exact (H K).
Defined.

(** utils.cpp 219-220: the haversine *)
Definition haversine (lat1 lon1 lat2 lon2 : R) : R :=
  square (sin (degToRad (lat2 - lat1) / 2)) +
  cos (degToRad lat1) * cos (degToRad lat2) * square (sin (degToRad (lon2 - lon1) / 2)).
(** 223 *)
Definition clamp01 (a : R) : R := Rmax 0 (Rmin 1 a).

(** utils.cpp 193-258 with isAngularDist = true *)
Definition angular_distance (lat1 lon1 lat2 lon2 : R) : R :=
  if same_place_dec lat1 lon1 lat2 lon2 then 0
  else let a := clamp01 (haversine lat1 lon1 lat2 lon2) in 2 * atan2 (sqrt a) (sqrt (1 - a)).
(** isAngularDist = false *)
Definition distance (lat1 lon1 lat2 lon2 atKmDepth : R) : R :=
  if same_place_dec lat1 lon1 lat2 lon2 then 0 else rad2km (angular_distance lat1 lon1 lat2 lon2) atKmDepth.
(** The azimuth, 231-246 (also 107-130) *)
Definition azimuth (lat1 lon1 lat2 lon2 : R) : R :=
  if same_place_dec lat1 lon1 lat2 lon2 then 0
  else let dl := degToRad (lon2 - lon1) in
       let f1 := degToRad lat1 in let f2 := degToRad lat2 in
       atan2 (sin dl * cos f2) (cos f1 * sin f2 - sin f1 * cos f2 * cos dl).

(** utils.cpp 263-278 *)
Definition distance3 (lat1 lon1 dep1 lat2 lon2 dep2 : R) : R :=
  let avgDepth := (dep1 + dep2) / 2 in
  let hDist := distance lat1 lon1 lat2 lon2 avgDepth in
  let vDist := Rabs (dep1 - dep2) in
  if Rlt_dec vDist (1 / 10000000) then hDist else sqrt (square hDist + square vDist).

(** utils.cpp 143-182 with isAngularDist = true; the result is (lat, lon). *)
Definition coordinates (dist az clat clon : R) : R * R :=
  if Req_EM_T dist 0 then (clat, clon) else
  let f := degToRad clat in
  let l := degToRad clon in
  let lat := asin (sin f * cos dist + cos f * sin dist * cos az) in
  let lon := l + atan2 (sin az * sin dist * cos f) (cos dist - sin f * sin lat) in
  (radToDeg lat, normalizeLon (radToDeg lon)).
(** isAngularDist = false *)
Definition coordinates_km (dist az clat clon atKmDepth : R) : R * R :=
  if Req_EM_T dist 0 then (clat, clon) else coordinates (km2rad dist atKmDepth) az clat clon.
