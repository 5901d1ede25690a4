(** Model of NLL::Grid as a file of nodes: libs/hdd/nll/grid.h 193-241, libs/hdd/nll/grid.cpp
    701-868 (open, isOpen, close, getValueAtIndex).

    A file is the list of its bytes; it does not change while a grid uses it. What the system
    calls do is an argument of the operations. The numbers of nodes are of type unsigned long
    long: 64 bits, wrapping. *)
From stdpp Require Import numbers list.
Local Open Scope N_scope.

Definition wrap (x : N) : N := x mod 2 ^ 64.
(** The part of Grid::Info used here *)
Record header := Hdr { h_nx : N; h_ny : N; h_nz : N; h_swap : bool }.
Inductive omode := MLoad | MMmap | MPread.
(** grid.h 235-240: _mode, _fd >= 0, _mapped, _mappedSize, _bytes. _mode is not initialised:
    any value. *)
Record grid := Grid { g_mode : omode; g_fd : bool; g_map : bool; g_size : N; g_mem : list N }.
Definition grid_init (m : omode) : grid := Grid m false false 0 [].

(** 760-774 *)
Definition is_open (g : grid) : bool :=
  match g_mode g with MMmap => g_map g | MPread => g_fd g | MLoad => negb (bool_decide (g_mem g = [])) end.

(** The answers of open, fstat, mmap and the number of bytes that pread gives. mmap fails for a
    length of zero. *)
Record sys := Sys { y_open : bool; y_stat : bool; y_mmap : bool; y_read : nat }.
(** vector::resize to n *)
Definition resize (n : nat) (l : list N) : list N := take n l ++ replicate (n - length l) 0.

(** 701-758: false if an exception leaves it; the grid as it is left *)
Definition grid_open (f : list N) (m : omode) (y : sys) (g : grid) : bool * grid :=
  if is_open g then (true, g)
  else
    let fd := g_fd g || y_open y in
    if negb fd then (false, Grid m fd (g_map g) (g_size g) (g_mem g))
    else if negb (y_stat y) then (false, Grid m fd (g_map g) (g_size g) (g_mem g))
    else
      let n := length f in
      let size := N.of_nat n in
      match m with
      | MMmap =>
          if g_map g || (y_mmap y && bool_decide (f ≠ [])) then (true, Grid m false true size (g_mem g))
          else (false, Grid m fd false size (g_mem g))
      | MLoad =>
          let k := Nat.min (y_read y) n in
          let mem := take k f ++ drop k (resize n (g_mem g)) in
          if bool_decide (k = n) then (true, Grid m false (g_map g) size mem)
          else (false, Grid m fd (g_map g) size mem)
      | MPread => (true, Grid m fd (g_map g) size (g_mem g))
      end.

(** 776-797 *)
Definition grid_close (g : grid) : grid := Grid (g_mode g) false false 0 [].

(** The result of getValueAtIndex: the bytes of the value; an exception: the grid is not open,
    the index is outside the grid, the data are not in the file; or an access to memory out of
    bounds *)
Inductive outcome := GVal (v : list N) | GClosed | GOut | GEof | GBad.
Definition slice (off len : N) (l : list N) : list N := take (N.to_nat len) (drop (N.to_nat off) l).
(** memcpy of n bytes at the offset of a region *)
Definition copy (off len : N) (l : list N) : option (list N) :=
  if decide (off + len <= N.of_nat (length l)) then Some (slice off len l) else None.
(** 850-866 *)
Definition swapped (h : header) (v : list N) : list N :=
  if h_swap h && (bool_decide (length v = 4%nat) || bool_decide (length v = 8%nat)) then rev v else v.
(** grid.h 221-226 *)
Definition inside (h : header) (ix iy iz : N) : bool :=
  bool_decide (ix < h_nx h) && bool_decide (iy < h_ny h) && bool_decide (iz < h_nz h).

(** 799-868; sz is sizeof(GRID_FLOAT_TYPE), [read] the bytes that pread gives at most; an
    offset that does not fit the signed type off_t is refused by pread *)
Definition get_at (sz : N) (f : list N) (h : header) (read : N) (g : grid) (ix iy iz : N) : outcome :=
  if negb (is_open g) then GClosed
  else if negb (inside h ix iy iz) then GOut
  else
    let index := wrap (wrap (wrap (wrap (ix * h_ny h) * h_nz h) + wrap (iy * h_nz h)) + iz) in
    let off := wrap (index * sz) in
    match g_mode g with
    | MMmap =>
        if decide (g_size g < wrap (off + sz)) then GEof
        else match copy off sz f with Some v => GVal (swapped h v) | None => GBad end
    | MPread =>
        if decide (2 ^ 63 <= off) then GEof
        else
          let v := slice off (N.min sz read) f in
          if decide (N.of_nat (length v) = sz) then GVal (swapped h v) else GEof
    | MLoad =>
        if decide (N.of_nat (length (g_mem g)) < wrap (off + sz)) then GEof
        else match copy off sz (g_mem g) with Some v => GVal (swapped h v) | None => GBad end
    end.
