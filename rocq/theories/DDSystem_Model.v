(** Model of DDSystem (libs/hdd/solver.h 62-136) and of the adapter between it and the least
    squares solvers (libs/hdd/solver.cpp 45-237).

    The arithmetic is that of any type of numbers [D]: the real numbers, or the real numbers
    with infinities and NaN (below). Indexes do not overflow. Reading or writing outside an
    array is None. *)
From Coq Require Import Reals.
From stdpp Require Import numbers list.

(** A loop whose body may access an array out of bounds *)
Fixpoint loopM {A B} (f : A → B → option A) (l : list B) (a : A) : option A :=
  match l with [] => Some a | i :: r => match f a i with Some b => loopM f r b | None => None end end.

Section sys.
Context {D : Type}.
Variable d0 d1 : D.
Variable dadd dsub dmul : D → D → D.
Variable is0 : D → bool.           (* x == 0. *)
Variable inv_sqrt : D → D.         (* 1. / std::sqrt(x) *)

(** solver.h 62-92. An event index of -1 is None. *)
Record dds := DDS {
  nObs : nat; nEvts : nat; nPhStas : nat; nTT : nat;
  aW : list D; aG : list (list D); aM : list D; aD : list D; aL : list D;
  aEv1 : list (option nat); aEv2 : list (option nat); aPh : list nat }.
Definition cols (s : dds) : nat := nEvts s * 4.
Definition rows (s : dds) : nat := nObs s + nTT s.
(** solver.h 89-119: the arrays of the constructor, zero *)
Definition dds_init (nobs nev nph ntt : nat) : dds :=
  DDS nobs nev nph ntt (replicate (nobs + ntt) d0) (replicate (nev * nph) [d0; d0; d0; d0]) (replicate (nev * 4) d0)
      (replicate (nobs + ntt) d0) (replicate (nev * 4) d0) (replicate (nobs + ntt) (Some 0)) (replicate (nobs + ntt) (Some 0)) (replicate (nobs + ntt) 0).
Definition with_L (s : dds) (l : list D) : dds :=
  DDS (nObs s) (nEvts s) (nPhStas s) (nTT s) (aW s) (aG s) (aM s) (aD s) l (aEv1 s) (aEv2 s) (aPh s).
Definition with_MD (s : dds) (m d : list D) : dds :=
  DDS (nObs s) (nEvts s) (nPhStas s) (nTT s) (aW s) (aG s) m d (aL s) (aEv1 s) (aEv2 s) (aPh s).

(** v[i] += x and the like *)
Definition update (v : list D) (i : nat) (f : D → D) : option (list D) :=
  x ← v !! i; Some (<[i := f x]> v).
Definition readG (s : dds) (idx k : nat) : option D := g ← aG s !! idx; g !! k.
Definition four : list nat := [0; 1; 2; 3].

(** solver.cpp 55-71 *)
Definition adapter (s : dds) : option dds :=
  let body (d : list D) (ob : nat) :=
    w ← aW s !! ob; update d ob (λ x, if is0 w then d0 else dmul x w) in
  d ← loopM body (seq 0 (rows s)) (aD s);
  Some (with_L (with_MD s (replicate (cols s) d0) d) (replicate (cols s) d1)).

(** 77-116: the sums of squares and the scalers *)
Definition norm_block (s : dds) (w : D) (ph : nat) (l : list D) (ev : option nat) : option (list D) :=
  match ev with
  | None => Some l
  | Some e =>
      let idxG := e * nPhStas s + ph in
      loopM (λ l k, g ← readG s idxG k; update l (e * 4 + k) (λ x, dadd x (dmul (dmul g w) (dmul g w)))) four l
  end.
Definition norm_row (s : dds) (l : list D) (ob : nat) : option (list D) :=
  w ← aW s !! ob;
  if is0 w then Some l
  else
    ph ← aPh s !! ob;
    e1 ← aEv1 s !! ob; l ← norm_block s w ph l e1;
    e2 ← aEv2 s !! ob; norm_block s w ph l e2.
Definition l2normalize (s : dds) : option dds :=
  l ← loopM (norm_row s) (seq 0 (rows s)) (replicate (cols s) d0);
  Some (with_L s (inv_sqrt <$> l)).
(** 121-130: the loop advances four columns at a time, here one at a time *)
Definition l2denormalize (s : dds) : option dds :=
  m ← loopM (λ m i, l ← aL s !! i; update m i (λ x, dmul x l)) (seq 0 (cols s)) (aM s);
  Some (with_MD s m (aD s)).

(** 140-183: y += A x *)
Definition prod1_block (s : dds) (x : list D) (ph : nat) (op : D → D → D) (sum : D) (ev : option nat) : option D :=
  match ev with
  | None => Some sum
  | Some e =>
      let idxG := e * nPhStas s + ph in
      loopM (λ sum k, g ← readG s idxG k; l ← aL s !! (e * 4 + k); v ← x !! (e * 4 + k); Some (op sum (dmul (dmul g l) v))) four sum
  end.
Definition prod1_row (s : dds) (x : list D) (y : list D) (ob : nat) : option (list D) :=
  w ← aW s !! ob;
  if is0 w then Some y
  else
    ph ← aPh s !! ob;
    e1 ← aEv1 s !! ob; sum ← prod1_block s x ph dadd d0 e1;
    e2 ← aEv2 s !! ob; sum ← prod1_block s x ph dsub sum e2;
    update y ob (λ v, dadd v (dmul w sum)).
(** The exception for a wrong size is None too *)
Definition aprod1 (s : dds) (m n : nat) (x y : list D) : option (list D) :=
  if decide (m = rows s ∧ n = cols s) then loopM (prod1_row s x) (seq 0 (rows s)) y else None.

(** 194-235: x += A' y *)
Definition prod2_block (s : dds) (wY : D) (ph : nat) (op : D → D → D) (x : list D) (ev : option nat) : option (list D) :=
  match ev with
  | None => Some x
  | Some e =>
      let idxG := e * nPhStas s + ph in
      loopM (λ x k, g ← readG s idxG k; l ← aL s !! (e * 4 + k); update x (e * 4 + k) (λ v, op v (dmul (dmul g l) wY))) four x
  end.
Definition prod2_row (s : dds) (y : list D) (x : list D) (ob : nat) : option (list D) :=
  v ← y !! ob; w ← aW s !! ob;
  let wY := dmul v w in
  if is0 wY then Some x
  else
    ph ← aPh s !! ob;
    e1 ← aEv1 s !! ob; x ← prod2_block s wY ph dadd x e1;
    e2 ← aEv2 s !! ob; prod2_block s wY ph dsub x e2.
Definition aprod2 (s : dds) (m n : nat) (x y : list D) : option (list D) :=
  if decide (m = rows s ∧ n = cols s) then loopM (prod2_row s y) (seq 0 (rows s)) x else None.
End sys.
Arguments dds : clear implicits.

(** ** Sizes of the arrays and ranges of the indexes stored in them *)
Record wf {D} (s : dds D) : Prop := {
  wf_W : length (aW s) = rows s; wf_D : length (aD s) = rows s;
  wf_1 : length (aEv1 s) = rows s; wf_2 : length (aEv2 s) = rows s; wf_P : length (aPh s) = rows s;
  wf_M : length (aM s) = cols s; wf_L : length (aL s) = cols s;
  wf_G : length (aG s) = (nEvts s * nPhStas s); wf_G4 : ∀ g, g ∈ aG s → length g = 4;
  wf_e1 : ∀ ob e, aEv1 s !! ob = Some (Some e) → (e < nEvts s);
  wf_e2 : ∀ ob e, aEv2 s !! ob = Some (Some e) → (e < nEvts s);
  wf_p : ∀ ob p, aPh s !! ob = Some p → (p < nPhStas s) }.



(** ** The real numbers *)
Definition r_is0 (x : R) : bool := if Req_EM_T x 0 then true else false.
Definition r_inv_sqrt (x : R) : R := (1 / R_sqrt.sqrt x)%R.
Definition R_aprod1 := aprod1 0%R Rplus Rminus Rmult r_is0.
Definition R_aprod2 := aprod2 Rplus Rminus Rmult r_is0.
(** 1 / 0 is not a real number: None *)
Definition R_l2normalize (s : dds R) : option (dds R) :=
  l ← loopM (norm_row Rplus Rmult r_is0 s) (seq 0 (rows s)) (replicate (cols s) 0%R);
  if existsb r_is0 l then None else l2normalize 0%R Rplus Rmult r_is0 r_inv_sqrt s.
Definition R_l2denormalize := l2denormalize Rmult.
Definition R_adapter := adapter 0%R 1%R Rmult r_is0.

(** ** Real numbers with infinities and NaN; rounding and signed zeros are left out *)
Inductive ext := EFin (r : R) | EPos | ENeg | ENaN.
Definition e_neg (x : ext) : ext := match x with EFin r => EFin (- r) | EPos => ENeg | ENeg => EPos | ENaN => ENaN end.
Definition e_add (x y : ext) : ext :=
  match x, y with
  | ENaN, _ | _, ENaN => ENaN
  | EFin a, EFin b => EFin (a + b)
  | EPos, ENeg | ENeg, EPos => ENaN
  | EPos, _ | _, EPos => EPos
  | ENeg, _ | _, ENeg => ENeg
  end.
Definition e_sub (x y : ext) : ext := e_add x (e_neg y).
(** The sign of a number: 0, 1 or -1 *)
Definition r_inf (r : R) (inf : ext) : ext := if Req_EM_T r 0 then ENaN else if Rlt_dec 0 r then inf else e_neg inf.
Definition e_mul (x y : ext) : ext :=
  match x, y with
  | ENaN, _ | _, ENaN => ENaN
  | EFin a, EFin b => EFin (a * b)
  | EFin a, i => r_inf a i
  | i, EFin b => r_inf b i
  | EPos, EPos | ENeg, ENeg => EPos
  | _, _ => ENeg
  end.
Definition e_is0 (x : ext) : bool := match x with EFin r => r_is0 r | _ => false end.
(** Division by a zero that is not negative; 0 / 0 is NaN *)
Definition e_div (x y : ext) : ext :=
  match x, y with
  | ENaN, _ | _, ENaN => ENaN
  | EFin a, EFin b => if Req_EM_T b 0 then r_inf a EPos else EFin (a / b)
  | EFin _, _ => EFin 0
  | i, EFin b => if Rlt_dec b 0 then e_neg i else i
  | _, _ => ENaN
  end.
Definition e_sqrt (x : ext) : ext := match x with EFin r => if Rlt_dec r 0 then ENaN else EFin (R_sqrt.sqrt r) | EPos => EPos | _ => ENaN end.
Definition e_inv_sqrt (x : ext) : ext := e_div (EFin 1) (e_sqrt x).
Definition E_aprod1 := aprod1 (EFin 0) e_add e_sub e_mul e_is0.
Definition E_l2normalize := l2normalize (EFin 0) e_add e_mul e_is0 e_inv_sqrt.
