(** Model of resample, libs/hdd/waveform.cpp 763-826, over the real numbers.

    - Conversions of double to int and to size_t truncate towards zero ([trunc]); values too large
      for int are left out (frequencies whose quotient needs a filter longer than 2^31 samples).
    - [win_loop] has a counter [fuel] in place of the condition alone; C68_loop shows that the loop
      ends by its condition.
    - A trace is its samples and its sampling frequency; the start time is not touched. *)
From Coq Require Import Reals List ZArith.
From Verif Require Import Geo_Model.
Import ListNotations.
Local Open Scope R_scope.

Definition trunc (x : R) : Z := if Rle_dec 0 x then Int_part x else (- Int_part (- x))%Z.
Definition rceil (x : R) : Z := (- Int_part (- x))%Z.
Definition readz (data : list R) (i : Z) : option R := if (0 <=? i)%Z then nth_error data (Z.to_nat i) else None.

Section sample.
Variable data : list R.
Variables data_sf x fmax : R.
Variable win_len : Z.
(** 797-805: the factor of the sample at distance [win_x] *)
Definition factor_of (win_x : R) : R :=
  let gain := 2 * fmax / data_sf in
  let hannWin := square (sin (PI * (1 / 2 + win_x / IZR win_len))) in
  let a := 2 * PI * win_x * fmax / data_sf in
  let sinc := if Req_EM_T a 0 then 1 else sin a / a in
  gain * hannWin * sinc.
(** 791-809 *)
Definition win_body (win_i : Z) (newSmp : R) : R :=
  let data_i := trunc (x + IZR win_i) in
  let win_x := IZR data_i - x in
  match readz data data_i with
  | Some d => newSmp + factor_of win_x * d
  | None => newSmp
  end.
Fixpoint win_loop (fuel : nat) (win_i : Z) (newSmp : R) : R :=
  match fuel with
  | O => newSmp
  | S fuel =>
      if Rlt_dec (IZR win_i) (IZR win_len - IZR win_len / 2) then win_loop fuel (win_i + 1)%Z (win_body win_i newSmp)
      else newSmp
  end.
Definition new_sample : R := win_loop (S (Z.to_nat win_len)) (trunc (- (IZR win_len / 2))) 0.
End sample.

Definition win_length (data_sf new_sf : R) : Z :=
  let nyquist := Rmin new_sf data_sf / 2 in
  let transition_feq := nyquist * (10 / 100) in
  rceil (598 / 100 * data_sf / transition_feq).
(** 763-826 *)
Definition resample (data : list R) (data_sf new_sf : R) : list R * R :=
  if Rle_dec new_sf 0 then (data, data_sf)
  else if Req_EM_T data_sf new_sf then (data, data_sf)
  else
    let resamp_factor := new_sf / data_sf in
    let nyquist := Rmin new_sf data_sf / 2 in
    let win_len := win_length data_sf new_sf in
    (map (fun i => new_sample data data_sf (INR i / resamp_factor) nyquist win_len)
         (seq 0 (Z.to_nat (trunc (INR (length data) * resamp_factor)))), new_sf).
