(** Model of the map projections LAMBERT, AZIMUTHAL_EQUIDIST and TRANS_MERC of the grids:
    libs/hdd/3rd-party/gmt/map_project.cpp 102-519 and the classes that use them,
    libs/hdd/nll/grid.cpp 286-394.

    Simplifications: real numbers instead of double precision. Where double precision would give
    an infinity or not-a-number (division by zero, tangent of a right angle, power of a number
    that is not positive) the model has None: such results are not followed further. The fields
    NorthPole, Pole, pha, phb and north_pole, which nobody reads, are left out. *)
From Coq Require Import Reals String List.
From Verif Require Import Geo_Model Transform_Model.
Import ListNotations.
Local Open Scope R_scope.

Definition obind {A B} (x : option A) (f : A -> option B) : option B := match x with Some a => f a | None => None end.
Notation "x <- a ;; b" := (obind a (fun x => b)) (at level 100, a at next level, b at level 200, right associativity).
Definition div_ (a b : R) : option R := if Req_EM_T b 0 then None else Some (a / b).
Definition tan_ (x : R) : option R := if Req_EM_T (cos x) 0 then None else Some (tan x).
Definition pow_ (x y : R) : option R := if Rlt_dec 0 x then Some (Rpower x y) else None.

(** 99-106 *)
Definition D2R : R := PI / 180.
Definition R2D : R := 180 / PI.
Definition SMALL : R := 1 / 10 ^ 10.
Definition d_log (x : R) : R := if Rle_dec x 0 then - 10 ^ 10 else ln x.
Definition d_sqrt (x : R) : R := if Rlt_dec x 0 then 0 else sqrt x.

(** 110-153: name, eq_radius, pol_radius, flattening (metres) *)
Definition ellipse : list (string * (R * R * R)) :=
  [("WGS-84", (6378137, 63567521 / 10, 1 / (298254 / 1000)));
   ("GRS-80", (6378137, 63567523 / 10, 1 / (298257 / 1000)));
   ("WGS-72", (6378135, 63567505 / 10, 1 / (29826 / 100)));
   ("Australian", (6378160, 63567747 / 10, 1 / (29825 / 100)));
   ("Krasovsky", (6378245, 6356863, 1 / (2983 / 10)));
   ("International", (6378388, 63569119 / 10, 1 / 297));
   ("Hayford-1909", (6378388, 63569119 / 10, 1 / 297));
   ("Clarke-1880", (63782491 / 10, 63565149 / 10, 1 / (29346 / 100)));
   ("Clarke-1866", (63782064 / 10, 63565838 / 10, 1 / (29498 / 100)));
   ("Airy", (63775634 / 10, 63562569 / 10, 1 / (29932 / 100)));
   ("Bessel", (63773972 / 10, 6356079, 1 / (29915 / 100)));
   ("Hayford-1830", (63772763 / 10, 63560754 / 10, 1 / (3008 / 10)));
   ("Sphere", (63710087714 / 10000, 63710087714 / 10000, 0));
   ("NAD-27", (63782064 / 10, 63565838 / 10, 1 / (29498 / 100)));
   ("NAD-83", (63781374 / 10, 63567523 / 10, 1 / (29426 / 100)))]%string.
Record ellip := Ellip { EQ_RAD : R; ECC : R; ECC2 : R; ECC4 : R; ECC6 : R }.
(** 159-180; None is an exception *)
Definition map_setup_proxy (name : string) : option ellip :=
  match find (fun r => String.eqb name (fst r)) ellipse with
  | Some (_, (a, _, f)) =>
      let e2 := 2 * f - f * f in
      let e4 := e2 * e2 in
      Some (Ellip a (d_sqrt e2) e2 e4 (e2 * e4))
  | None => None
  end.

(** ** Lambert conformal conic projection *)
Record lambert := Lambert { l_e : ellip; l_cm : R; l_N : R; l_F : R; l_rho0 : R }.
(** 209-211 and the like *)
Definition ell_pow (e : ellip) (f : R) : option R :=
  q <- div_ (1 - ECC e * sin f) (1 + ECC e * sin f) ;; pow_ q (1 / 2 * ECC e).
Definition conf_t (e : ellip) (f : R) : option R :=
  t <- tan_ (45 * D2R - 1 / 2 * f) ;; p <- ell_pow e f ;; div_ t p.
(** 212 *)
Definition conf_m (e : ellip) (f : R) : option R := div_ (cos f) (d_sqrt (1 - ECC2 e * (sin f * sin f))).
(** 190-236 *)
Definition vlamb (name : string) (rlong0 rlat0 pha phb : R) : option lambert :=
  e <- map_setup_proxy name ;;
  let a := pha * D2R in
  let b := phb * D2R in
  t_pha <- conf_t e a ;;
  m_pha <- conf_m e a ;;
  t_phb <- conf_t e b ;;
  m_phb <- conf_m e b ;;
  t_rlat0 <- conf_t e (rlat0 * D2R) ;;
  N <- (if Req_EM_T a b then Some (sin a) else div_ (d_log m_pha - d_log m_phb) (d_log t_pha - d_log t_phb)) ;;
  tN <- pow_ t_pha N ;;
  F <- div_ m_pha (N * tN) ;;
  t0N <- pow_ t_rlat0 N ;;
  Some (Lambert e rlong0 N F (EQ_RAD e * F * t0N)).

(** 244-245 and 467-468: the loops; the number of rounds n is large enough (lemma wrap_spec) *)
Fixpoint wrap_up (n : nat) (cm lon : R) : R :=
  match n with O => lon | S n => if Rlt_dec (lon - cm) (-180) then wrap_up n cm (lon + 360) else lon end.
Fixpoint wrap_down (n : nat) (cm lon : R) : R :=
  match n with O => lon | S n => if Rlt_dec 180 (lon - cm) then wrap_down n cm (lon - 360) else lon end.
Definition rounds (cm lon : R) : nat := Z.to_nat (up (Rabs (lon - cm) / 360)).
Definition wrap (cm lon : R) : R := let l := wrap_up (rounds cm lon) cm lon in wrap_down (rounds cm l) cm l.

(** 240-258 *)
Definition lamb (p : lambert) (lon lat : R) : option (R * R) :=
  let lon := wrap (l_cm p) lon in
  let lat := lat * D2R in
  hold2 <- ell_pow (l_e p) lat ;;
  t <- tan_ (45 * D2R - 1 / 2 * lat) ;;
  let hold3 := if Rlt_dec (Rabs t) SMALL then 0 else t in
  hold1 <- (if Req_EM_T hold3 0 then Some 0 else q <- div_ hold3 hold2 ;; pow_ q (l_N p)) ;;
  let rho := EQ_RAD (l_e p) * l_F p * hold1 in
  let theta := l_N p * (lon - l_cm p) * D2R in
  Some (rho * sin theta, l_rho0 p - rho * cos theta).

(** 275-284; i counts the rounds that are left after this one *)
Fixpoint ilat (e : ellip) (t : R) (i : nat) (tphi : R) : option R :=
  temp <- ell_pow e tphi ;;
  let phi := 90 * D2R - 2 * atan (t * temp) in
  let delta := Rabs (Rabs tphi - Rabs phi) in
  match i with
  | O => Some phi
  | S i => if Rlt_dec (1 / 10 ^ 8) delta then ilat e t i phi else Some phi
  end.
(** std::copysign *)
Definition copysign (x s : R) : R := if Rlt_dec s 0 then - Rabs x else Rabs x.
(** 263-286; the result is (lon, lat) *)
Definition ilamb (p : lambert) (x y : R) : option (R * R) :=
  q <- div_ x (l_rho0 p - y) ;;
  let theta := atan q in
  th <- div_ theta (l_N p) ;;
  let lon := th * R2D + l_cm p in
  let temp := x * x + (l_rho0 p - y) * (l_rho0 p - y) in
  let rho := copysign (d_sqrt temp) (l_N p) in
  r <- div_ rho (EQ_RAD (l_e p) * l_F p) ;;
  i <- div_ 1 (l_N p) ;;
  t <- pow_ r i ;;
  phi <- ilat (l_e p) t 99 (90 * D2R - 2 * atan t) ;;
  Some (lon, phi * R2D).

(** ** Azimuthal equidistant projection *)
Record azeq := Azeq { z_e : ellip; z_cm : R; z_pole : R; z_sinp : R; z_cosp : R }.
(** 443-456 *)
Definition vazeqdist (name : string) (lon0 lat0 : R) : option azeq :=
  e <- map_setup_proxy name ;; Some (Azeq e lon0 lat0 (sin (lat0 * D2R)) (cos (lat0 * D2R))).
(** 458-485 *)
Definition azeqdist (p : azeq) (lon lat : R) : option (R * R) :=
  let lon := wrap (z_cm p) lon in
  let dlon := (lon - z_cm p) * D2R in
  let lat := lat * D2R in
  let slat := sin lat in
  let clat := cos lat in
  let clon := cos dlon in
  let cc := z_sinp p * slat + z_cosp p * clat * clon in
  if Rle_dec 1 (Rabs cc) then Some (0, 0)
  else
    let c := acos cc in
    k <- div_ (EQ_RAD (z_e p) * c) (sin c) ;;
    Some (k * clat * sin dlon, k * (z_cosp p * slat - z_sinp p * clat * clon)).
(** 487-519; the result is (lon, lat) *)
Definition iazeqdist (p : azeq) (x y : R) : option (R * R) :=
  let rho := sqrt (x * x + y * y) in
  if Req_EM_T rho 0 then Some (z_cm p, z_pole p)
  else
    let c := rho / EQ_RAD (z_e p) in
    let sin_c := sin c in
    let cos_c := cos c in
    let lat := asin (cos_c * z_sinp p + y * sin_c * z_cosp p / rho) * R2D in
    let lon :=
      if Req_EM_T (z_pole p) 90 then z_cm p + R2D * atan2 x (- y)
      else if Req_EM_T (z_pole p) (-90) then z_cm p + R2D * atan2 x y
      else z_cm p + R2D * atan2 (x * sin_c) (rho * z_cosp p * cos_c - y * z_sinp p * sin_c) in
    Some (if Rle_dec lon (-180) then lon + 360 else lon, lat).

(** ** Transverse Mercator projection *)
Record transmerc := Transmerc {
  t_el : ellip; t_use_easting : bool; t_easting : R; t_scale : R; t_cm : R; t_y0 : R;
  t_e2 : R; t_c1 : R; t_c2 : R; t_c3 : R; t_c4 : R; t_ic1 : R; t_ic2 : R; t_ic3 : R; t_ic4 : R }.
(** 337-339 *)
Definition tm_dlon (cm lon : R) : R :=
  let d := lon - cm in
  let d := if Rlt_dec 360 (Rabs d) then d + copysign 360 (- d) else d in
  if Rlt_dec 180 (Rabs d) then copysign (360 - Rabs d) (- d) else d.
(** 341-342: the meridian arc *)
Definition tm_M (p : transmerc) (lat : R) : R :=
  EQ_RAD (t_el p) * (t_c1 p * lat - t_c2 p * sin (2 * lat) + t_c3 p * sin (4 * lat) - t_c4 p * sin (6 * lat)).
Definition pow3 (x : R) : R := x * x * x.
Definition pow4 (x : R) : R := x * x * x * x.
(** 331-383 *)
Definition tm (p : transmerc) (lon lat : R) : option (R * R) :=
  let dlon := tm_dlon (t_cm p) lon in
  let lat := lat * D2R in
  let M := tm_M p lat in
  xy <- (if Req_EM_T (Rabs lat) (PI / 2) then Some (0, t_scale p * M)
    else
      N <- div_ (EQ_RAD (t_el p)) (d_sqrt (1 - ECC2 (t_el p) * (sin lat * sin lat))) ;;
      tan_lat <- tan_ lat ;;
      let cos_lat := cos lat in
      let T := tan_lat * tan_lat in
      let T2 := T * T in
      let C := t_e2 p * cos_lat * cos_lat in
      let A := dlon * D2R * cos_lat in
      let A2 := A * A in
      let A3 := A2 * A in
      let A5 := A3 * A2 in
      let A4 := A3 * A in
      let A6 := A5 * A in
      Some (t_scale p * N * (A + (1 - T + C) * (A3 * (16666666666666666667 / 10 ^ 20)) +
              (5 - 18 * T + T2 + 72 * C - 58 * t_e2 p) * (A5 * (833333333333333333 / 10 ^ 20))),
            t_scale p * (M + N * tan_lat * (1 / 2 * A2 + (5 - T + 9 * C + 4 * C * C) * (A4 * (4166666666666666667 / 10 ^ 20)) +
              (61 - 58 * T + T2 + 600 * C - 330 * t_e2 p) * (A6 * (138888888888888889 / 10 ^ 20)))))) ;;
  Some ((if t_use_easting p then fst xy + t_easting p else fst xy), snd xy - t_y0 p).
(** 290-329 *)
Definition vtm (name : string) (lon0 lat0 : R) (use : bool) (easting scale : R) : option transmerc :=
  e <- map_setup_proxy name ;;
  e1 <- div_ (1 - d_sqrt (1 - ECC2 e)) (1 + d_sqrt (1 - ECC2 e)) ;;
  e2 <- div_ (ECC2 e) (1 - ECC2 e) ;;
  let p y0 := Transmerc e use easting scale lon0 y0 e2
    (1 - 1 / 4 * ECC2 e - 3 * ECC4 e / 64 - 5 * ECC6 e / 256)
    (3 * ECC2 e / 8 + 3 * ECC4 e / 32 + 45 * ECC6 e / 1024)
    (15 * ECC4 e / 256 + 45 * ECC6 e / 1024)
    (35 * ECC6 e / 3072)
    (3 / 2 * e1 - 27 * pow3 e1 / 32) (21 * e1 * e1 / 16 - 55 * pow4 e1 / 32) (151 * pow3 e1 / 96) (1097 * pow4 e1 / 512) in
  xy <- tm (p 0) lon0 lat0 ;;
  Some (p (snd xy)).
(** 385-439; the result is (lon, lat) *)
Definition itm (p : transmerc) (x y : R) : option (R * R) :=
  let y := y + t_y0 p in
  let x := if t_use_easting p then x - t_easting p else x in
  M <- div_ y (t_scale p) ;;
  mu <- div_ M (EQ_RAD (t_el p) * t_c1 p) ;;
  let phi1 := mu + t_ic1 p * sin (2 * mu) + t_ic2 p * sin (4 * mu) + t_ic3 p * sin (6 * mu) + t_ic4 p * sin (8 * mu) in
  let cos_phi1 := cos phi1 in
  tan_phi1 <- tan_ phi1 ;;
  let C1 := t_e2 p * cos_phi1 * cos_phi1 in
  let C12 := C1 * C1 in
  let T1 := tan_phi1 * tan_phi1 in
  let T12 := T1 * T1 in
  let tmp := 1 - ECC2 (t_el p) * (1 - cos_phi1 * cos_phi1) in
  let tmp2 := d_sqrt tmp in
  N1 <- div_ (EQ_RAD (t_el p)) tmp2 ;;
  R1 <- div_ (EQ_RAD (t_el p) * (1 - ECC2 (t_el p))) (tmp * tmp2) ;;
  D <- div_ x (N1 * t_scale p) ;;
  let D2 := D * D in
  let D3 := D2 * D in
  let D5 := D3 * D2 in
  let D4 := D3 * D in
  let D6 := D5 * D in
  l <- div_ (R2D * (D - (1 + 2 * T1 + C1) * (D3 * (16666666666666666667 / 10 ^ 20)) +
         (5 - 2 * C1 + 28 * T1 - 3 * C12 + 8 * t_e2 p + 24 * T12) * (D5 * (833333333333333333 / 10 ^ 20)))) cos_phi1 ;;
  n <- div_ (N1 * tan_phi1) R1 ;;
  Some (t_cm p + l,
    (phi1 - n * (1 / 2 * D2 - (5 + 3 * T1 + 10 * C1 - 4 * C12 - 9 * t_e2 p) * (D4 * (4166666666666666667 / 10 ^ 20)) +
       (61 + 90 * T1 + 298 * C1 + 45 * T12 - 252 * t_e2 p - 3 * C12) * (D6 * (138888888888888889 / 10 ^ 20)))) * R2D).

(** ** The transforms of the grids: grid.cpp 286-394 *)
Inductive projection := PLambert (p : lambert) | PTransmerc (p : transmerc) | PAzeq (p : azeq).
Definition forward (p : projection) (lon lat : R) : option (R * R) :=
  match p with PLambert p => lamb p lon lat | PTransmerc p => tm p lon lat | PAzeq p => azeqdist p lon lat end.
Definition inverse (p : projection) (x y : R) : option (R * R) :=
  match p with PLambert p => ilamb p x y | PTransmerc p => itm p x y | PAzeq p => iazeqdist p x y end.
Inductive ptype := KLambert (pha phb : R) | KTransmerc (use : bool) (easting scale : R) | KAzeq.
(** 286-304, 327-339, 362-370; None is an exception, or a number that is not finite *)
Definition make_proj (k : ptype) (name : string) (lat lon rot : R) : option (origin * projection) :=
  o <- check_origin (Origin lat lon rot) ;;
  match k with
  | KLambert pha phb =>
      if Rlt_dec 90 pha then None else if Rlt_dec pha (-90) then None
      else if Rlt_dec 90 phb then None else if Rlt_dec phb (-90) then None
      else p <- vlamb name lon lat pha phb ;; Some (o, PLambert p)
  | KTransmerc use easting scale => p <- vtm name lon lat use easting scale ;; Some (o, PTransmerc p)
  | KAzeq => p <- vazeqdist name lon lat ;; Some (o, PAzeq p)
  end.
(** 306-315, 341-350, 372-381: kilometres *)
Definition proj_from (t : origin * projection) (lat lon : R) : option (R * R) :=
  p <- forward (snd t) lon lat ;; Some (rotate (fst t) (fst p / 1000, snd p / 1000)).
(** 317-325, 352-360, 383-391; the result is (lat, lon) *)
Definition proj_to (t : origin * projection) (x y : R) : option (R * R) :=
  let q := inverseRotate (fst t) (x, y) in
  g <- inverse (snd t) (fst q * 1000) (snd q * 1000) ;; Some (snd g, normalizeLon (fst g)).
