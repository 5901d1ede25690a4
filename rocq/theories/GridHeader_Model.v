(** Model of the reading of grid headers and of the search for the grids of a model:
    libs/hdd/nll/grid.cpp 415-571 (Transform::parse and the constructors of the transforms),
    610-707 (Grid, Grid::parse), 1035-1044, 1132-1143 and 1309-1318 (TimeGrid, AngleGrid,
    VelGrid), libs/hdd/utils.cpp 92-97 (splitString), libs/hdd/ttt/nllgrid.cpp 75-186 (the
    constructor of NLLGrid).

    - std::stod, std::stoull and std::stol are arguments; None is an exception. [beyond z x]
      is x > z or x < -z (false for NaN).
    - Exceptions are not distinguished by their types (nllgrid.cpp 177 catches all).
    - Whether GMT knows an ellipsoid is an argument; the other effects of GMT are left out.
    - The fields of Info without initialiser (numx, ..., srcez) hold no value until they are
      assigned; the use of such a field is undefined behaviour.
    - The file system is the list of the entries of the directory with the contents of the
      headers, in the order of the iteration, and the set of existing .buf files. Errors while
      reading a file are left out.
    - The name of the model has no characters that are special in regular expressions, and
      file names have no line terminators (which "." does not match).
    - The check of the layout of bit fields (1149-1170), logging and the choice of
      convertUnits (1320-1360) are left out. *)
From Coq Require Import Ascii String.
From stdpp Require Import numbers list strings.
Local Open Scope N_scope.

Notation text := (list ascii).
Notation lit s := (list_ascii_of_string s).
Inductive gtype := GTime | GAngle | GVelocity.
Inductive result (A : Type) := Done (a : A) | Throws | Undefined.
Arguments Done {_} a. Arguments Throws {_}. Arguments Undefined {_}.
Definition rbind {A B} (r : result A) (f : A → result B) : result B :=
  match r with Done a => f a | Throws => Throws | Undefined => Undefined end.
Definition of_option {A} (o : option A) : result A := match o with Some a => Done a | None => Throws end.
Notation "x ← y ; z" := (rbind y (λ x, z)) (at level 20, y at level 100, z at level 200, only parsing).

(** The characters matched by \s *)
Definition blank (c : ascii) : bool :=
  let n := N_of_ascii c in (n =? 32) || ((9 <=? n) && (n <=? 13)).
(** utils.cpp 92-97 with the expression [\s]+ : the parts between the matches; what follows
    the last match only if it is not empty or there is no match *)
Fixpoint split_go (inside : bool) (cur l : text) : list text :=
  match l with
  | [] => match cur with [] => [] | _ => [rev cur] end
  | c :: l' =>
      if blank c then (if inside then split_go true [] l' else rev cur :: split_go true [] l')
      else split_go false (c :: cur) l'
  end.
Definition split_string (l : text) : list text := match l with [] => [[]] | _ => split_go false [] l end.
(** 637-638 *)
Definition tokens_of (l : text) : list text :=
  match split_string l with [] :: ts => ts | ts => ts end.
(** 627-633: std::getline until it fails *)
Fixpoint getlines (cur : text) (l : text) : list text :=
  match l with
  | [] => match cur with [] => [] | _ => [rev cur] end
  | c :: l' => if decide (c = "010"%char) then rev cur :: getlines [] l' else getlines (c :: cur) l'
  end.

Section header.
Context {D : Type}.
Variable stod : text → option D.
Variable stoull : text → option N.
Variable stol : text → option Z.
Variable beyond : Z → D → bool.
Variable nonzero : D → bool.
Variable one : D.
Variable ell_ok : text → bool.

Record org := Org { og_lat : D; og_lon : D; og_rot : D }.
Inductive transform :=
| TGlobal | TSimple (o : org) | TSdc (o : org)
| TLambert (e : text) (o : org) (pha phb : D)
| TTransMerc (e : text) (o : org) (useFalse : bool) (falseEasting : Z) (scale : option D)
| TAzimuthal (e : text) (o : org).
(** vector::at *)
Definition at_ (ts : list text) (i : nat) : result text := of_option (ts !! i).
Definition num (ts : list text) (i : nat) : result D := s ← at_ ts i; of_option (stod s).
(** 417-441 and the like: the words that have to be at given positions *)
Fixpoint expect (ts : list text) (l : list (nat * text)) : result unit :=
  match l with
  | [] => Done tt
  | (i, s) :: l' => t ← at_ ts i; if decide (t = s) then expect ts l' else Throws
  end.
(** 549-571 *)
Definition check_org (o : org) : result org :=
  if beyond 90 (og_lat o) then Throws else if beyond 180 (og_lon o) then Throws
  else if beyond 360 (og_rot o) then Throws else Done o.
Definition check_ell (e : text) : result unit := if ell_ok e then Done tt else Throws.
(** 415-547 *)
Definition parse_transform (ts : list text) : result transform :=
  k ← at_ ts 0;
  if negb (bool_decide (k = lit "TRANSFORM")) && negb (bool_decide (k = lit "TRANS")) then Throws
  else
    type ← at_ ts 1;
    if decide (type = lit "GLOBAL") then Done TGlobal
    else if bool_decide (type = lit "SDC") || bool_decide (type = lit "SIMPLE") then
      _ ← expect ts [(2%nat, lit "LatOrig"); (4%nat, lit "LongOrig"); (6%nat, lit "RotCW")];
      lat ← num ts 3; lon ← num ts 5; rot ← num ts 7;
      o ← check_org (Org lat lon rot);
      Done (if decide (type = lit "SIMPLE") then TSimple o else TSdc o)
    else if decide (type = lit "LAMBERT") then
      _ ← expect ts [(2%nat, lit "RefEllipsoid"); (4%nat, lit "LatOrig"); (6%nat, lit "LongOrig");
                     (8%nat, lit "FirstStdParal"); (10%nat, lit "SecondStdParal"); (12%nat, lit "RotCW")];
      e ← at_ ts 3; lat ← num ts 5; lon ← num ts 7; pha ← num ts 9; phb ← num ts 11; rot ← num ts 13;
      o ← check_org (Org lat lon rot);
      if beyond 90 pha then Throws else if beyond 90 phb then Throws
      else _ ← check_ell e; Done (TLambert e o pha phb)
    else if decide (type = lit "TRANS_MERC") then
      _ ← expect ts [(2%nat, lit "RefEllipsoid"); (4%nat, lit "LatOrig"); (6%nat, lit "LongOrig"); (8%nat, lit "RotCW")];
      e ← at_ ts 3; lat ← num ts 5; lon ← num ts 7; rot ← num ts 9;
      uf ← (if decide (10 < length ts)%nat
            then _ ← expect ts [(10%nat, lit "UseFalseEasting")]; x ← num ts 11; Done (nonzero x) else Done false);
      fe ← (if decide (12 < length ts)%nat
            then _ ← expect ts [(12%nat, lit "FalseEasting")]; s ← at_ ts 13; of_option (stol s) else Done 500000%Z);
      sc ← (if decide (14 < length ts)%nat
            then _ ← expect ts [(14%nat, lit "ScaleFactor")]; x ← num ts 15; Done (Some x) else Done None);
      o ← check_org (Org lat lon rot);
      _ ← check_ell e; Done (TTransMerc e o uf fe sc)
    else if decide (type = lit "AZIMUTHAL_EQUIDIST") then
      _ ← expect ts [(2%nat, lit "RefEllipsoid"); (4%nat, lit "LatOrig"); (6%nat, lit "LongOrig"); (8%nat, lit "RotCW")];
      e ← at_ ts 3; lat ← num ts 5; lon ← num ts 7; rot ← num ts 9;
      o ← check_org (Org lat lon rot);
      _ ← check_ell e; Done (TAzimuthal e o)
    else Throws.

(** The fields of the first line without its type *)
Record dims := Dims { d_num : N * N * N; d_orig : D * D * D; d_step : D * D * D; d_double : bool }.
(** grid.h 193-209; a field that was not assigned is None *)
Record info := Info { i_dims : option dims; i_type : text; i_label : text; i_src : option (D * D * D); i_trans : option transform }.
Definition info0 : info := Info None [] [] None None.
Definition int (ts : list text) (i : nat) : result N := s ← at_ ts i; of_option (stoull s).
(** 646-683, one line *)
Definition parse_line (gt : gtype) (st : info * nat) (ts : list text) : result (info * nat) :=
  let '(i, n) := st in
  if bool_decide (n = 0%nat) && (bool_decide (length ts = 10%nat) || bool_decide (length ts = 11%nat)) then
    nx ← int ts 0; ny ← int ts 1; nz ← int ts 2;
    ox ← num ts 3; oy ← num ts 4; oz ← num ts 5;
    dx ← num ts 6; dy ← num ts 7; dz ← num ts 8;
    ty ← at_ ts 9;
    db ← (if decide (length ts = 11%nat) then t ← at_ ts 10; Done (bool_decide (t = lit "DOUBLE")) else Done false);
    Done (Info (Some (Dims (nx, ny, nz) (ox, oy, oz) (dx, dy, dz) db)) ty (i_label i) (i_src i) (i_trans i), S n)
  else if bool_decide (n = 1%nat) && bool_decide (length ts = 4%nat) && match gt with GVelocity => false | _ => true end then
    lb ← at_ ts 0; x ← num ts 1; y ← num ts 2; z ← num ts 3;
    Done (Info (i_dims i) (i_type i) lb (Some (x, y, z)) (i_trans i), S n)
  else
    k ← at_ ts 0;
    if bool_decide (k = lit "TRANSFORM") || bool_decide (k = lit "TRANS") then
      t ← parse_transform ts; Done (Info (i_dims i) (i_type i) (i_label i) (i_src i) (Some t), S n)
    else Done (i, n).
Fixpoint parse_lines (gt : gtype) (st : info * nat) (ls : list (list text)) : result (info * nat) :=
  match ls with
  | [] => Done st
  | [] :: ls' => parse_lines gt st ls'   (* 641 *)
  | ts :: ls' => st' ← parse_line gt st ts; parse_lines gt st' ls'
  end.
(** 610-707; the file is its text *)
Definition parse (gt : gtype) (swapBytes : bool) (file : text) : result info :=
  st ← parse_lines gt (info0, 0%nat) (tokens_of <$> getlines [] file);
  let '(i, n) := st in
  if negb (bool_decide (n = match gt with GVelocity => 2 | _ => 3 end)%nat) then Throws
  else
    match i_dims i with
    | None => Undefined
    | Some d =>
        let '(nx, _, _) := d_num d in let '(dx, dy, dz) := d_step d in
        let d := Dims (d_num d) (d_orig d) (if decide (nx = 1) then one else dx, dy, dz) (d_double d) in
        if d_double d && swapBytes then Throws
        else Done (Info (Some d) (i_type i) (i_label i) (i_src i) (i_trans i))
    end.

(** 610-620 and the constructors of the three kinds of grids; [buf]: does the .buf file exist *)
Definition make_grid (gt : gtype) (swapBytes : bool) (hdr : text) (buf : bool) : result info :=
  i ← parse gt swapBytes hdr;
  if negb buf then Throws
  else match gt with
       | GTime => if bool_decide (i_type i = lit "TIME") || bool_decide (i_type i = lit "TIME2D") then Done i else Throws
       | GAngle => if bool_decide (i_type i = lit "ANGLE") || bool_decide (i_type i = lit "ANGLE2D") then Done i else Throws
       | GVelocity => match i_dims i with Some d => let '(nx, _, _) := d_num d in if nx <? 2 then Throws else Done i | None => Undefined end
       end.

(** The grids of a model *)
Variable locate : transform → D → D → D * D.   (* toLatLon *)
Record point := Point { pt_lat : D; pt_lon : D; pt_depth : D; pt_info : info }.
Record entry := Entry { e_name : text; e_text : text; e_buf : bool }.
Record found := Found { f_ptime : list point; f_stime : list point; f_pangle : list point; f_sangle : list point;
                        f_pvel : option info; f_svel : option info }.
Definition found0 : found := Found [] [] [] [] None None.
(** Does the name match the expression model\.phase\..+\.kind\.hdr (75-90) *)
Definition strip_prefix (p l : text) : option text := if decide (take (length p) l = p) then Some (drop (length p) l) else None.
Definition matches_tree (model phase kind name : text) : bool :=
  match strip_prefix (model ++ lit "." ++ phase ++ lit ".") name with
  | None => false
  | Some rest =>
      let suf := lit "." ++ kind ++ lit ".hdr" in
      bool_decide (length suf < length rest)%nat && bool_decide (drop (length rest - length suf) rest = suf)
  end.
Definition matches_vel (model phase name : text) : bool := bool_decide (name = model ++ lit "." ++ phase ++ lit ".mod.hdr").
(** 109-122, 126-139, 143-156, 160-173 *)
Definition tree_point (gt : gtype) (swapBytes : bool) (e : entry) : result point :=
  i ← make_grid gt swapBytes (e_text e) (e_buf e);
  match i_trans i with
  | None => Undefined
  | Some TGlobal => Throws
  | Some t =>
      match i_src i with
      | None => Undefined
      | Some (x, y, z) => let '(lat, lon) := locate t x y in Done (Point lat lon z i)
      end
  end.
(** 98-181 *)
Definition add_entry (model : text) (swapBytes : bool) (f : found) (e : entry) : result found :=
  let n := e_name e in
  let r :=
    if matches_tree model (lit "P") (lit "time") n then
      p ← tree_point GTime swapBytes e; Done (Found (f_ptime f ++ [p]) (f_stime f) (f_pangle f) (f_sangle f) (f_pvel f) (f_svel f))
    else if matches_tree model (lit "S") (lit "time") n then
      p ← tree_point GTime swapBytes e; Done (Found (f_ptime f) (f_stime f ++ [p]) (f_pangle f) (f_sangle f) (f_pvel f) (f_svel f))
    else if matches_tree model (lit "P") (lit "angle") n then
      p ← tree_point GAngle swapBytes e; Done (Found (f_ptime f) (f_stime f) (f_pangle f ++ [p]) (f_sangle f) (f_pvel f) (f_svel f))
    else if matches_tree model (lit "S") (lit "angle") n then
      p ← tree_point GAngle swapBytes e; Done (Found (f_ptime f) (f_stime f) (f_pangle f) (f_sangle f ++ [p]) (f_pvel f) (f_svel f))
    else if matches_vel model (lit "P") n then
      i ← make_grid GVelocity swapBytes (e_text e) (e_buf e); Done (Found (f_ptime f) (f_stime f) (f_pangle f) (f_sangle f) (Some i) (f_svel f))
    else if matches_vel model (lit "S") n then
      i ← make_grid GVelocity swapBytes (e_text e) (e_buf e); Done (Found (f_ptime f) (f_stime f) (f_pangle f) (f_sangle f) (f_pvel f) (Some i))
    else Done f in
  match r with Throws => Done f | _ => r end.
Fixpoint discover (model : text) (swapBytes : bool) (f : found) (es : list entry) : result found :=
  match es with [] => Done f | e :: es' => f' ← add_entry model swapBytes f e; discover model swapBytes f' es' end.
End header.
