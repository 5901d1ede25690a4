(** Model of libs/hdd/ttt/homogeneous.cpp over the real numbers (exact arithmetic). *)
From Coq Require Import Reals Ascii String.
From Verif Require Import Geo_Model.
Local Open Scope R_scope.

Record homogeneous := mkHomogeneous { pVel : R; sVel : R }.

(** 44-50 and 72-78; None is the exception "Unknown phase type" *)
Definition velocity_of (h : homogeneous) (phaseType : string) : option R :=
  if String.eqb phaseType "P" then Some (pVel h)
  else if String.eqb phaseType "S" then Some (sVel h) else None.

(** 36-57 *)
Definition compute_time (h : homogeneous) (eventLat eventLon eventDepth stationLat stationLon stationElevation : R)
    (phaseType : string) : option R :=
  match velocity_of h phaseType with
  | None => None
  | Some velocity =>
      Some (distance3 eventLat eventLon eventDepth stationLat stationLon (- (stationElevation / 1000)) / velocity)
  end.

Record ttt_result := mkTtt { travelTime : R; takeOffAzi : R; takeOffDip : R; dtdd : R; dtdh : R }.
(** 59-101; the elevation is in metres *)
Definition compute_full (h : homogeneous) (eventLat eventLon eventDepth stationLat stationLon stationElevation : R)
    (phaseType : string) : option ttt_result :=
  match velocity_of h phaseType with
  | None => None
  | Some velocity =>
      let atKmDepth := (eventDepth - stationElevation / 1000) / 2 in
      let Hdist := distance eventLat eventLon stationLat stationLon atKmDepth in
      let azi := radToDeg (azimuth eventLat eventLon stationLat stationLon) in
      let Vdist := eventDepth + stationElevation / 1000 in
      let dist := sqrt (Hdist * Hdist + Vdist * Vdist) in
      let dip := atan2 Vdist Hdist in
      Some {| travelTime := dist / velocity; takeOffAzi := azi; takeOffDip := radToDeg dip + 90;
              dtdd := cos dip / km2deg velocity 0; dtdh := sin dip / velocity |}
  end.
