(** Model of normalizeLon and normalizeAzimuth, libs/hdd/utils.h 90-98, in double precision (binary64 of
    Flocq, see Double_Model.v). Geo_Model.v has the first with real numbers.

    std::fmod is exact: the remainder of the integers that the arguments are at their common exponent.
    Every operation rounds to nearest, ties to even; there are no fused operations. *)
From Coq Require Import ZArith.
From Flocq Require Import Core BinarySingleNaN.
From stdpp Require Import numbers.
From Verif Require Import Double_Model XCorrD_Model.
Local Open Scope Z_scope.

(** std::fmod, with the sign of the first argument *)
Definition fmod (x y : double) : double :=
  match x, y with
  | B754_finite s m e _, B754_finite _ m' e' _ =>
      let c := Z.min e e' in
      binary_normalize 53 1024 prec53 emax1024 mode_NE (cond_Zopp s ((Z.pos m * 2 ^ (e - c)) mod (Z.pos m' * 2 ^ (e' - c)))) c s
  | B754_zero _, B754_finite _ _ _ _ | B754_zero _, B754_infinity _ | B754_finite _ _ _ _, B754_infinity _ => x
  | _, _ => B754_nan
  end.
(** 90-93 *)
Definition dnormalizeLon (lon : double) : double :=
  dsub (fmod (dadd (fmod (dadd lon (of_Z 180)) (of_Z 360)) (of_Z 360)) (of_Z 360)) (of_Z 180).
(** 95-98 *)
Definition dnormalizeAzimuth (az : double) : double := fmod (dadd (fmod az (of_Z 360)) (of_Z 360)) (of_Z 360).
