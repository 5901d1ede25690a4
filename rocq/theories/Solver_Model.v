(** Model of the bookkeeping of Solver, libs/hdd/solver.h 149-321 and libs/hdd/solver.cpp
    245-506 and 592-747, 868-886: adding observations and their parameters, building the
    double difference system, reading back the solution.

    - Doubles are any type [D] with the operations used.
    - Iteration over a hash container visits its elements in the order of an argument.
    - The five arrays of the system indexed by row (weight, two events, phase/station, data)
      are one list of rows, split when the system is complete.
    - Event positions, stations and the statistics that are only logged are left out
      (in particular the exception for a missing event position, 527). *)
From Coq Require Import Ascii.
From stdpp Require Import numbers list gmap countable strings.
From Verif Require Import Time_Model Index_Model DDSystem_Model.

Global Instance ascii_countable : Countable ascii.
Proof. apply (inj_countable' N_of_ascii ascii_of_N). apply ascii_N_embedding. Defined.

(** An outcome: a value, an exception, or an access outside an array *)
Inductive res (A : Type) := Ok (a : A) | Exc | Bad.
Arguments Ok {A} a. Arguments Exc {A}. Arguments Bad {A}.
Definition rbind {A B} (x : res A) (f : A → res B) : res B := match x with Ok a => f a | Exc => Exc | Bad => Bad end.
Fixpoint rloop {A B} (f : A → B → res A) (l : list B) (a : A) : res A :=
  match l with [] => Ok a | i :: r => rbind (f a i) (rloop f r) end.
(** .at(): exception *)
Definition at_ {A} (x : option A) : res A := match x with Some a => Ok a | None => Exc end.
(** Reading and writing an array *)
Definition read {A} (l : list A) (i : nat) : res A := match l !! i with Some a => Ok a | None => Bad end.
Definition store {A} (l : list A) (i : nat) (v : A) : res (list A) := if decide (i < length l) then Ok (<[i := v]> l) else Bad.

Section solver.
Context {D : Type}.
Variable d0 d1 : D.
Variable dadd dsub dmul : D → D → D.
Variable is0 : D → bool.            (* x == 0. *)
Variable dquot : D → nat → D.       (* division by a number of observations *)
Variable finite : D → bool.         (* std::isfinite *)

(** solver.h 266-281 *)
Record obsv := Obsv { ob_e1 : N; ob_e2 : N; ob_ph : N; ob_diff : D; ob_apri : D; ob_xu : bool; ob_xc : D; ob_comp : D; ob_dd : D; ob_w : D }.
(** 296-304 *)
Record oprm := Oprm { op_ch : bool; op_tt : D; op_res : D; op_dx : D; op_dy : D; op_dz : D }.
Record srow := Row { r_w : D; r_e1 : option nat; r_e2 : option nat; r_ph : nat; r_d : D }.
Record solver := Solver {
  cv_ev : idx N; cv_ph : idx text; cv_ob : idx text;
  s_obs : gmap N obsv; s_prm : gmap N (gmap N oprm); s_stat : gmap N (gmap N (nat * D));
  s_delta : gmap N (D * D * D * D); s_sys : dds D }.
Definition solver_init : solver := Solver idx_init idx_init idx_init ∅ ∅ ∅ ∅ (dds_init d0 0 0 0 0).

Definition ph_sta_id (sta ph : text) : text := ph ++ ["@"%char] ++ sta.
Definition obs_id (e1 e2 : N) (sta ph : text) : text :=
  dec (Z.of_N e1) ++ ["+"%char] ++ dec (Z.of_N e2) ++ ["_"%char] ++ ph_sta_id sta ph.

(** solver.cpp 245-264. The computed members of a new Observation are value-initialised. *)
Definition add_observation (s : solver) (e1 e2 : N) (sta ph : text) (td w : D) (xu : bool) (xc : D) : solver :=
  let '(c1, i1) := idx_convert (cv_ev s) e1 in
  let '(c2, i2) := idx_convert c1 e2 in
  let '(cp, ip) := idx_convert (cv_ph s) (ph_sta_id sta ph) in
  let '(co, io) := idx_convert (cv_ob s) (obs_id e1 e2 sta ph) in
  let obs := match s_obs s !! io with
             | Some _ => s_obs s
             | None => <[io := Obsv i1 i2 ip td w xu xc d0 d0 d0]> (s_obs s)
             end in
  Solver c2 cp co obs (s_prm s) (s_stat s) (s_delta s) (s_sys s).
(** 266-270 *)
Definition add_event (s : solver) (e : N) : solver :=
  Solver (idx_convert (cv_ev s) e).1 (cv_ph s) (cv_ob s) (s_obs s) (s_prm s) (s_stat s) (s_delta s) (s_sys s).
(** 281-297 *)
Definition add_params (s : solver) (e : N) (sta ph : text) (o : oprm) : solver :=
  let '(c1, i1) := idx_convert (cv_ev s) e in
  let '(cp, ip) := idx_convert (cv_ph s) (ph_sta_id sta ph) in
  let m := default ∅ (s_prm s !! i1) in
  let m' := match m !! ip with Some _ => m | None => <[ip := o]> m end in
  Solver c1 cp (cv_ob s) (s_obs s) (<[i1 := m']> (s_prm s)) (s_stat s) (s_delta s) (s_sys s).

(** 339-370. An index without an id or an id without '@' is the exception. *)
Record ddiff := DDiff { dd_e1 : N; dd_e2 : N; dd_sta : text; dd_ph : text; dd_w : D; dd_xu : bool; dd_xc : D; dd_obs : D; dd_comp : D; dd_dd : D }.
Fixpoint split_at (c : ascii) (t : text) : option (text * text) :=
  match t with
  | [] => None
  | x :: r => if decide (x = c) then Some ([], r) else match split_at c r with Some (a, b) => Some (x :: a, b) | None => None end
  end.
Definition double_difference (s : solver) (o : obsv) : res ddiff :=
  rbind (at_ (idx_fromIdx (cv_ph s) (ob_ph o))) (λ id,
  rbind (at_ (split_at "@"%char id)) (λ '(ph, sta),
  rbind (at_ (idx_fromIdx (cv_ev s) (ob_e1 o))) (λ e1,
  rbind (at_ (idx_fromIdx (cv_ev s) (ob_e2 o))) (λ e2,
  Ok (DDiff e1 e2 sta ph (ob_w o) (ob_xu o) (ob_xc o) (ob_diff o) (ob_comp o) (ob_dd o)))))).
Definition get_double_differences (ol : list (N * obsv)) (s : solver) : res (list ddiff) :=
  rloop (λ acc '(i, o), rbind (double_difference s o) (λ d, Ok (acc ++ [d]))) ol [].

(** 372-388 *)
Definition get_event_changes (s : solver) (e : N) : option (D * D * D * D) :=
  match idx_toIdx (cv_ev s) e with Some i => s_delta s !! i | None => None end.
(** 390-410 *)
Definition is_event_phase_used (s : solver) (e : N) (sta ph : text) : bool :=
  match idx_toIdx (cv_ev s) e, idx_toIdx (cv_ph s) (ph_sta_id sta ph) with
  | Some i, Some p => match s_stat s !! i with Some m => match m !! p with Some (n, _) => bool_decide (0 < n) | None => false end | None => false end
  | _, _ => false
  end.

(** *** 592-747 prepare *)
Definition get_prm (s : solver) (e p : N) : option oprm := m ← s_prm s !! e; m !! p.
Definition get_stat (st : gmap N (gmap N (nat * D))) (e p : N) : option (nat * D) := m ← st !! e; m !! p.
Definition put_stat (st : gmap N (gmap N (nat * D))) (e p : N) (w : D) : gmap N (gmap N (nat * D)) :=
  let '(n, t) := default (0, d0) (get_stat st e p) in
  <[e := <[p := (S n, dadd t w)]> (default ∅ (st !! e))]> st.
Definition used (ch : bool) (e : N) : option nat := if ch then Some (N.to_nat e) else None.

(** 615-625 *)
Definition prep_G (nph : nat) (G : list (list D)) (x : N * N * oprm) : res (list (list D)) :=
  let '(e, p, o) := x in store G (N.to_nat e * nph + N.to_nat p) [op_dx o; op_dy o; op_dz o; d1].
(** 630-648 *)
Definition prep_obs (s : solver) (st : list srow * gmap N obsv) (x : N * obsv) : res (list srow * gmap N obsv) :=
  let '(rws, obs) := st in
  let '(i, o) := x in
  rbind (at_ (get_prm s (ob_e1 o) (ob_ph o))) (λ p1,
  rbind (at_ (get_prm s (ob_e2 o) (ob_ph o))) (λ p2,
  let comp := dsub (op_tt p1) (op_tt p2) in
  let dd := dsub (ob_diff o) comp in
  rbind (store rws (N.to_nat i) (Row (ob_apri o) (used (op_ch p1) (ob_e1 o)) (used (op_ch p2) (ob_e2 o)) (N.to_nat (ob_ph o)) dd)) (λ rws,
  Ok (rws, <[i := Obsv (ob_e1 o) (ob_e2 o) (ob_ph o) (ob_diff o) (ob_apri o) (ob_xu o) (ob_xc o) comp dd (ob_w o)]> obs)))).
(** 653-662 *)
Definition prep_weight (ws : list D) (rws : list srow) (i : nat) : res (list srow) :=
  rbind (read rws i) (λ r, rbind (read ws i) (λ w, store rws i (Row (dmul (r_w r) w) (r_e1 r) (r_e2 r) (r_ph r) (r_d r)))).
(** 667-694 *)
Definition prep_stat (rws : list srow) (st : gmap N obsv * gmap N (gmap N (nat * D))) (i : nat) : res (gmap N obsv * gmap N (gmap N (nat * D))) :=
  let '(obs, stat) := st in
  rbind (read rws i) (λ r,
  rbind (at_ (obs !! N.of_nat i)) (λ o,
  let obs := <[N.of_nat i := Obsv (ob_e1 o) (ob_e2 o) (ob_ph o) (ob_diff o) (ob_apri o) (ob_xu o) (ob_xc o) (ob_comp o) (ob_dd o) (r_w r)]> obs in
  if is0 (r_w r) then Ok (obs, stat)
  else
    let stat := match r_e1 r with Some e => put_stat stat (N.of_nat e) (N.of_nat (r_ph r)) (r_w r) | None => stat end in
    let stat := match r_e2 r with Some e => put_stat stat (N.of_nat e) (N.of_nat (r_ph r)) (r_w r) | None => stat end in
    Ok (obs, stat))).
(** 702-731. The counter starts at nObs - 1 and is incremented before use: here its
    successor, without wrap-around. *)
Definition prep_tt (c : D) (stat : gmap N (gmap N (nat * D))) (st : list srow * nat) (x : N * N * oprm) : res (list srow * nat) :=
  let '(rws, k) := st in
  let '(e, p, o) := x in
  if negb (op_ch o) then Ok (rws, k)
  else match get_stat stat e p with
  | None => Ok (rws, k)
  | Some (n, t) =>
      if decide (length rws <= k) then Exc
      else rbind (store rws k (Row (dmul c (if decide (0 < n) then dquot t n else d0)) (Some (N.to_nat e)) None (N.to_nat p) (op_res o))) (λ rws, Ok (rws, S k))
  end.
(** 735-741 *)
Definition prep_fill (rws : list srow) (k : nat) : res (list srow) :=
  rbind (read rws k) (λ r, store rws k (Row d0 None None (r_ph r) d0)).

(** [tt]: the factor of the travel time constraints if positive; [rw]: the residual weights
    if wanted; [pl], [ol]: the orders of iteration. The check at 744 compares the number of
    rows after nObs with itself. *)
Definition prepare (tt : option D) (rw : option (list D → res (list D))) (pl : list (N * N * oprm)) (ol : list (N * obsv)) (s : solver) : res solver :=
  let nobs := size (s_obs s) in
  let nev := idx_size (cv_ev s) in
  let nph := idx_size (cv_ph s) in
  let ntt := match tt with Some _ => length (filter (λ x, op_ch x.2 = true) pl) | None => 0 end in
  rbind (rloop (prep_G nph) pl (replicate (nev * nph) [d0; d0; d0; d0])) (λ G,
  rbind (rloop (prep_obs s) ol (replicate (nobs + ntt) (Row d0 (Some 0) (Some 0) 0 d0), s_obs s)) (λ '(rws, obs),
  rbind (match rw with
         | None => Ok rws
         | Some f => rbind (f (r_d <$> take nobs rws)) (λ ws, rloop (prep_weight ws) (seq 0 nobs) rws)
         end) (λ rws,
  rbind (rloop (prep_stat rws) (seq 0 nobs) (obs, s_stat s)) (λ '(obs, stat),
  rbind (match tt with
         | None => Ok rws
         | Some c =>
             rbind (rloop (prep_tt c stat) pl (rws, nobs)) (λ '(rws, k), rloop prep_fill (seq k (length rws - k)) rws)
         end) (λ rws,
  Ok (Solver (cv_ev s) (cv_ph s) (cv_ob s) obs (s_prm s) stat (s_delta s)
       (DDS nobs nev nph ntt (r_w <$> rws) G (replicate (nev * 4) d0) (r_d <$> rws) (replicate (nev * 4) d0)
            (r_e1 <$> rws) (r_e2 <$> rws) (r_ph <$> rws)))))))).

(** *** 448-506 loadSolutions; [m] is the solution *)
Definition some_obs (m : gmap N (nat * D)) : bool := bool_decide (map_Exists (λ _ x, 0 < x.1) m).
Definition mark (s : solver) (el : list (N * gmap N (nat * D))) : gmap N (D * D * D * D) :=
  fold_left (λ d '(e, m), if some_obs m then <[e := (d0, d0, d0, d0)]> d else d) el (s_delta s).
Definition fetch (m : list D) (acc : gmap N (D * D * D * D)) (x : N * (D * D * D * D)) : res (gmap N (D * D * D * D)) :=
  let e := x.1 in
  let off := N.to_nat e * 4 in
  rbind (read m (off + 0)) (λ vx, rbind (read m (off + 1)) (λ vy, rbind (read m (off + 2)) (λ vz, rbind (read m (off + 3)) (λ vt,
  if finite vx && finite vy && finite vz && finite vt then Ok (<[e := (vx, vy, vz, vt)]> acc) else Ok (delete e acc))))).
(** [dl]: the order in which the marked events are visited *)
Definition load_solutions (m : list D) (el : list (N * gmap N (nat * D))) (dl : list (N * (D * D * D * D))) (s : solver) : res solver :=
  rbind (rloop (fetch m) dl (mark s el)) (λ d,
  Ok (Solver (cv_ev s) (cv_ph s) (cv_ob s) (s_obs s) (s_prm s) (s_stat s) d (s_sys s))).
(** 868-886: the maps are cleared; an exception if no event is left. [run] is the least
    squares solver: the stopping reason is rejected, or the solution. *)
Definition solve (run : dds D → option (list D)) (el : list (N * gmap N (nat * D))) (dl : gmap N (D * D * D * D) → list (N * (D * D * D * D))) (s : solver) : res solver :=
  if decide (s_obs s = ∅) then Exc
  else match run (s_sys s) with
  | None => Exc
  | Some m =>
      let s := Solver (cv_ev s) (cv_ph s) (cv_ob s) ∅ ∅ (s_stat s) (s_delta s) (s_sys s) in
      rbind (load_solutions m el (dl (mark s el)) s) (λ s, if decide (s_delta s = ∅) then Exc else Ok s)
  end.
End solver.
