(** Model of the regions that select a configuration profile.
    apps/scrtdd/rtddtool.cpp 105-149 (RectangularRegion), 152-196 (CircularRegion),
    1858-1878 (RTDD::getProfile).

    Simplifications: coordinates are exact rationals (no rounding; NaN is excluded);
    the great circle distance of a circular region is an argument, as it is computed by
    SeisComP (Math::Geo::delta, deg2km). Reading the configuration is not modelled: a
    region is either empty or holds the numbers given by the user, unchecked. *)
From Coq Require Import QArith String List.
Import ListNotations.
Local Open Scope Q_scope.

Inductive region :=
| RectEmpty
| Rect (latMin lonMin latMax lonMax : Q)
| CircEmpty
| Circ (lat lon radius : Q).

Definition Qltb (a b : Q) : bool := negb (Qle_bool b a).

(** rtddtool.cpp 131-144 and 178-191. *)
Definition is_inside (distKm : Q -> Q -> Q -> Q -> Q) (r : region) (lat lon : Q) : bool :=
  match r with
  | RectEmpty => true
  | Rect latMin lonMin latMax lonMax =>
      if Qltb lat latMin || Qltb latMax lat then false
      else
        let lonRange := lonMax - lonMin in
        let lonRange := if Qltb lonRange 0 then lonRange + 360 else lonRange in
        let lonDelta := lon - lonMin in
        let lonDelta := if Qltb lonDelta 0 then lonDelta + 360 else lonDelta in
        Qle_bool lonDelta lonRange
  | CircEmpty => true
  | Circ lat0 lon0 radius => Qle_bool (distKm lat0 lon0 lat lon) radius
  end.

Record profile := Profile { p_name : string; p_region : region }.

(** rtddtool.cpp 1858-1878: the loop over _profiles with the break. *)
Fixpoint get_profile (distKm : Q -> Q -> Q -> Q -> Q) (ps : list profile) (lat lon : Q) (force : string) : option profile :=
  match ps with
  | [] => None
  | p :: ps =>
      let curr :=
        if negb (String.eqb force "") then (if String.eqb (p_name p) force then Some p else None)
        else (if is_inside distKm (p_region p) lat lon then Some p else None) in
      match curr with Some p => Some p | None => get_profile distKm ps lat lon force end
  end.
