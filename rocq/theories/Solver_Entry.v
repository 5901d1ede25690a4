(** C37: the matrix of the system, in terms of the calls made. *)
From Coq Require Import Reals Lra Lia Ascii.
From stdpp Require Import numbers list gmap countable strings.
From Verif Require Import Time_Model DDSystem_Model DDSystem_Props Solver_Model Solver_Hist Solver_Prep Solver_Sys Solver_Props.
Local Open Scope R_scope.

Definition Rprep := Solver_Model.prepare 0 1 Rplus Rminus Rmult r_is0 (λ a n, a / INR n).
(** The derivatives of an event at a phase/station, the last for the origin time; none if it is fixed *)
Definition partials (p : @oprm R) (k : nat) : R :=
  if op_ch p then match k with 0%nat => op_dx p | 1%nat => op_dy p | 2%nat => op_dz p | 3%nat => 1 | _ => 0 end else 0.
(** Column 4x+k of the row of an observation: the weight times the derivative k of event x, plus
    for its first event and minus for its second event *)
Theorem C37_entry (h : list (@op R)) tt rw pl ol : hist_ok h → prm_order (run 0 h) pl → obs_order (run 0 h) ol → rw_ok rw → complete h →
  let s := run 0 h in
  ∃ s', Rprep tt rw pl ol s = Ok s' ∧ let S := s_sys s' in
    ∀ e1 e2 sta ph a p1 p2 i x1 x2 fw, first_obs h (e1, e2, sta, ph) = Some a → first_prm h (e1, sta, ph) = Some p1 → first_prm h (e2, sta, ph) = Some p2 →
      obs_index s (e1, e2, sta, ph) = Some i → ev_index s e1 = Some x1 → ev_index s e2 = Some x2 → aW S !! i = Some fw →
      ∀ x k, (k < 4)%nat →
        entry0 S i (x * 4 + k) = fw * ((if decide (x1 = x) then partials p1 k else 0) - (if decide (x2 = x) then partials p2 k else 0)).
Proof.
  intros Hok Hpl Hol Hrw Hc s.
  destruct (C37_rows 0 1 Rplus Rminus Rmult r_is0 (λ a n, a / INR n) h tt rw pl ol Hok Hpl Hol Hrw Hc) as (s' & HP & Hwf & _ & _ & _ & _ & R4).
  exists s'. split; [exact HP|]. cbn zeta. intros e1 e2 sta ph [[[td w] xu] xc] p1 p2 i x1 x2 fw Hf P1 P2 Hi X1 X2 W x k Hk.
  destruct (R4 _ _ _ _ _ _ _ _ _ _ _ Hf P1 P2 Hi) as (y1 & y2 & q & fw' & Y1 & Y2 & Q & _ & _ & V1 & V2 & Vp & _ & G1 & G2). cbn zeta in *.
  assert (y1 = x1) as -> by (unfold s in *; congruence). assert (y2 = x2) as -> by (unfold s in *; congruence).
  assert (Hq : ((x * 4 + k) / 4)%nat = x) by (rewrite Nat.div_add_l by lia; rewrite Nat.div_small by lia; lia).
  assert (Hm : ((x * 4 + k) mod 4)%nat = k) by (rewrite Nat.add_comm, Nat.mod_add by lia; by apply Nat.mod_small).
  assert (Hside : ∀ ev xi p, ev !! i = Some (if op_ch p then Some xi else None) → aG (s_sys s') !! (xi * nPhStas (s_sys s') + q)%nat = Some [op_dx p; op_dy p; op_dz p; 1] →
    side (s_sys s') ev i (x * 4 + k) = if decide (xi = x) then partials p k else 0).
  { intros ev xi p Hev HG. unfold side. rewrite Hev. unfold partials. destruct (op_ch p).
    - rewrite Hq, Hm. destruct (decide (xi = x)) as [->|]; [|done]. unfold deriv. rewrite Vp. cbn [default from_option]. unfold Datatypes.id. rewrite HG.
      unfold nthR. destruct k as [|[|[|[|]]]]; [done..|lia].
    - by destruct (decide _). }
  unfold entry0. rewrite (Hside _ _ _ V1 G1), (Hside _ _ _ V2 G2). f_equal. unfold nthR. rewrite W. done.
Qed.
Print Assumptions C37_entry.
