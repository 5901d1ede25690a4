(** Model of the import of origins into a catalog: addToCatalog and getPickUncertainty,
    libs/hddsc/utils.cpp 56-79 and 209-342.

    - The origins and their arrivals are given as what the data source delivers: the pick of an
      arrival is None when it cannot be loaded, optional attributes that are not set are None
      (reading them throws ValueException).
    - [inv] is the inventory: the position of the sensor location of (network, station, location)
      at a time; [InvNone] not found, [InvUnset] found without position (reading it throws).
    - Attributes have the type [V] of Catalog_Model; [zero] tells which weights are 0, [nan] is NaN.
    - The lookup of origins by id (344-360) and the file with ids are in DataSource_Model. *)
From Coq Require Import Ascii.
From stdpp Require Import gmap list.
From Verif Require Import Index_Model Csv_Model Catalog_Model.

Section import.
Context {V : Type}.
Variable ins : list (phase V) → phase V → list (phase V).
Variable zero : V → bool.
Variable nan : V.
Record pick := Pick { k_net : text; k_sta : text; k_loc : text; k_cha : text; k_time : Z;
  k_unc : option V; k_lower : option V; k_upper : option V; k_manual : option bool }.
Record arrival := Arr { a_code : text; a_pick : option pick; a_weight : option V; a_used : option bool }.
Record origin := Orig { o_time : Z; o_lat : V; o_lon : V; o_depth : option V; o_mag : option V; o_arr : list arrival }.
Inductive located := InvNone | InvUnset | InvAt (lat lon elev : V).
Variable inv : text → text → text → Z → located.

(** 56-79 *)
Definition pick_uncertainty (k : pick) : V * V :=
  match k_unc k with
  | Some u => (u, u)
  | None => match k_lower k with
            | None => (nan, nan)
            | Some l => match k_upper k with None => (l, nan) | Some u => (l, u) end
            end
  end.
(** 272-287: true if the arrival is discarded; a missing value throws and the arrival is kept *)
Definition discarded (a : arrival) (k : pick) : bool :=
  match k_manual k with
  | None => false
  | Some true => false
  | Some false =>
      match a_weight a with
      | None => false
      | Some w => if zero w then true else match a_used a with None => false | Some u => negb u end
      end
  end.
(** 321-335 *)
Definition phase_of (id : N) (staid : text) (a : arrival) (k : pick) : phase V :=
  let '(lo, up) := pick_uncertainty k in
  Pha id staid (k_time k) lo up (a_code a) (k_net k) (k_sta k) (k_loc k) (k_cha k) None None.

(** 251-336 *)
Definition import_arrival (id : N) (c : catalog V) (a : arrival) : cres V unit :=
  match a_pick a with
  | None => CRet c tt
  | Some k =>
      if discarded a k then CRet c tt
      else
        let finish (c : catalog V) :=
          match search_station c (k_net k) (k_sta k) (k_loc k) with
          | None => CUB                                         (* end()->second *)
          | Some s => CRet (add_phase ins c (phase_of id (s_id s) a k)) tt
          end in
        match search_station c (k_net k) (k_sta k) (k_loc k) with
        | Some _ => finish c
        | None =>
            match inv (k_net k) (k_sta k) (k_loc k) (k_time k) with
            | InvNone => CRet c tt
            | InvUnset => CExc c
            | InvAt lat lon elev => finish (add_station c (Sta [] lat lon elev (k_net k) (k_sta k) (k_loc k)))
            end
        end
  end.
Fixpoint import_arrivals (id : N) (c : catalog V) (l : list arrival) : cres V unit :=
  match l with
  | [] => CRet c tt
  | a :: l => match import_arrival id c a with
              | CRet c _ => import_arrivals id c l
              | CExc c => CExc c
              | CUB => CUB
              end
  end.
(** 214-341: the result is idmap as the list of its assignments *)
Fixpoint import (c : catalog V) (l : list origin) (idmap : list (N * origin)) : cres V (list (N * origin)) :=
  match l with
  | [] => CRet c idmap
  | o :: l =>
      match o_arr o with
      | [] => import c l idmap
      | arrs =>
          match o_depth o with
          | None => CExc c                                      (* org->depth() throws *)
          | Some d =>
              match add_event c (Ev 0 (o_time o) (o_lat o) (o_lon o) d (default nan (o_mag o)) None) false with
              | CRet c id =>
                  match import_arrivals id c arrs with
                  | CRet c _ => import c l (idmap ++ [(id, o)])
                  | CExc c => CExc c
                  | CUB => CUB
                  end
              | CExc c => CExc c
              | CUB => CUB
              end
          end
      end
  end.
End import.
Arguments pick : clear implicits.
Arguments arrival : clear implicits.
Arguments origin : clear implicits.
Arguments located : clear implicits.
