(** Model in double precision of the values of a grid between its nodes: libs/hdd/nll/grid.h
    208-220 and 274, libs/hdd/nll/grid.cpp 870-1034 (getValuesAt3DLocation,
    getValuesAt2DLocation, getValue3D, getValue2D), 1056-1130 (TimeGrid) and libs/hdd/utils.cpp
    385-440 (interpolation). GridCell_Model.v has the same code with real numbers.

    - A double is a binary64 number of Flocq (Double_Model.v), operations round to nearest, ties to
      even; there are no fused operations.
    - [rd] reads a node (GridFile_Model.v); a float read from a file is given as the double with the
      same value. The location in the coordinates of the grid and the distance to the source are
      arguments (Coord_Model.v).
    - The result of the interpolation is converted to the type of the grid ([single]: float) and
      back to double. *)
From Coq Require Import ZArith.
From Flocq Require Import Core BinarySingleNaN.
From stdpp Require Import numbers list.
From Verif Require Import GridFile_Model GridCell_Model Double_Model XCorrD_Model.
Local Open Scope Z_scope.

(** numx, origx, dx; and so on *)
Record daxis := DAxis { n_num : N; n_orig : double; n_step : double }.
(** grid.h 208-213 *)
Definition d_min (a : daxis) : double := n_orig a.
Definition d_max (a : daxis) : double := dadd (n_orig a) (dmul (of_Z (Z.of_N (pred64 (n_num a)))) (n_step a)).
(** grid.h 214-218, one axis; a comparison with NaN is false *)
Definition doutside (a : daxis) (l : double) : bool := Bltb l (d_min a) || Bltb (d_max a) l.
(** Conversion to unsigned long long: defined if the integral part fits *)
Definition dto_u64 (x : double) : option N :=
  if BinarySingleNaN.is_finite x && (0 <=? Btrunc x) && (Btrunc x <? 2 ^ 64) then Some (Z.to_N (Btrunc x)) else None.
(** 899-917 for one axis: the two nodes and the relative position *)
Definition dcell (a : daxis) (l : double) : option (N * N * double) :=
  let off := ddiv (dsub l (n_orig a)) (n_step a) in
  match dto_u64 off with
  | None => None
  | Some i =>
      let i0 := if bool_decide (i = pred64 (n_num a)) then pred64 i else i in
      Some (i0, succ64 i0, dsub off (of_Z (Z.of_N i0)))
  end.

(** utils.cpp 398, 426 *)
Definition dlerp (a b t : double) : double := dadd a (dmul t (dsub b a)).
(** 390-406 *)
Definition dbilinear (xdiff zdiff v00 v01 v10 v11 : double) : double :=
  let z0 := dlerp v00 v01 zdiff in
  let z1 := dlerp v10 v11 zdiff in
  dlerp z0 z1 xdiff.
(** 413-440 *)
Definition dtrilinear (xdiff ydiff zdiff v000 v001 v010 v011 v100 v101 v110 v111 : double) : double :=
  let z00 := dlerp v000 v001 zdiff in
  let z01 := dlerp v010 v011 zdiff in
  let z10 := dlerp v100 v101 zdiff in
  let z11 := dlerp v110 v111 zdiff in
  let y0 := dlerp z00 z01 ydiff in
  let y1 := dlerp z10 z11 ydiff in
  dlerp y0 y1 xdiff.

(** The conversions between double and float *)
Notation float32 := (binary_float 24 128).
Definition prec24 : Prec_gt_0 24 := eq_refl.
Definition emax128 : Prec_lt_emax 24 128 := eq_refl.
Definition to_single (x : double) : float32 :=
  match x with
  | B754_zero s => B754_zero s
  | B754_infinity s => B754_infinity s
  | B754_nan => B754_nan
  | B754_finite s m e _ => binary_normalize 24 128 prec24 emax128 mode_NE (cond_Zopp s (Zpos m)) e s
  end.
Definition of_single (x : float32) : double :=
  match x with
  | B754_zero s => B754_zero s
  | B754_infinity s => B754_infinity s
  | B754_nan => B754_nan
  | B754_finite s m e _ => binary_normalize 53 1024 prec53 emax1024 mode_NE (cond_Zopp s (Zpos m)) e s
  end.
Definition stored (single : bool) (x : double) : double := if single then of_single (to_single x) else x.

Section grid.
Variable single : bool.
Variable rd : N → N → N → result double.
(** 1087-1130 *)
Definition dneg (v : double) : bool := Bltb v zero.
Definition dinterp3 (xd yd zd v000 v001 v010 v011 v100 v101 v110 v111 : double) : result double :=
  if dneg v000 || dneg v010 || dneg v100 || dneg v110 || dneg v001 || dneg v011 || dneg v101 || dneg v111 then GridCell_Model.Exc Negative
  else Val (stored single (dtrilinear xd yd zd v000 v001 v010 v011 v100 v101 v110 v111)).
Definition dinterp2 (xd zd v00 v01 v10 v11 : double) : result double :=
  if dneg v00 || dneg v01 || dneg v10 || dneg v11 then GridCell_Model.Exc Negative
  else Val (stored single (dbilinear xd zd v00 v01 v10 v11)).
(** 870-927 and 981-1000 *)
Definition dvalue3D (ax ay az : daxis) (x y z : double) : result double :=
  if doutside ax x || doutside ay y || doutside az z then GridCell_Model.Exc OutOfGrid
  else match dcell ax x, dcell ay y, dcell az z with
       | Some (ix0, ix1, xd), Some (iy0, iy1, yd), Some (iz0, iz1, zd) =>
           bind (rd ix0 iy0 iz0) (λ v000, bind (rd ix0 iy0 iz1) (λ v001,
           bind (rd ix0 iy1 iz0) (λ v010, bind (rd ix0 iy1 iz1) (λ v011,
           bind (rd ix1 iy0 iz0) (λ v100, bind (rd ix1 iy0 iz1) (λ v101,
           bind (rd ix1 iy1 iz0) (λ v110, bind (rd ix1 iy1 iz1) (λ v111,
           dinterp3 xd yd zd v000 v001 v010 v011 v100 v101 v110 v111))))))))
       | _, _, _ => UB
       end.
(** 929-979 and 1002-1034: xloc is origx *)
Definition dvalue2D (ax ay az : daxis) (y z : double) : result double :=
  if doutside ax (n_orig ax) || doutside ay y || doutside az z then GridCell_Model.Exc OutOfGrid
  else match dcell ay y, dcell az z with
       | Some (iy0, iy1, yd), Some (iz0, iz1, zd) =>
           bind (rd 0%N iy0 iz0) (λ v00, bind (rd 0%N iy0 iz1) (λ v01,
           bind (rd 0%N iy1 iz0) (λ v10, bind (rd 0%N iy1 iz1) (λ v11,
           dinterp2 yd zd v00 v01 v10 v11))))
       | _, _ => UB
       end.
(** 1056-1085; grid.h 274: is3D *)
Definition dtime (ax ay az : daxis) (x y dist depth : double) : result double :=
  if (1 <? n_num ax)%N then dvalue3D ax ay az x y depth else dvalue2D ax ay az dist depth.
End grid.
