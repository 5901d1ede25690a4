(** Properties C28, C29, C30 and C59: selectNeighbouringEvents. *)
From stdpp Require Import gmap list strings.
From Coq Require Import QArith Lqa Sorted.
From Verif Require Import Cluster_Model Select_Model Select_Proofs.
From Verif Require SelectCatalog_Props.
Local Open Scope Q_scope.

Section props.
Variable ref : N.
Variable evs : gset N.
Variable stas : gset string.
Variable phs : N → list phase.
Variable refphs : list phase.
Variable dref : string → Q.
Variable dev : N → string → Q.
Variables minES maxES minRatio : Q.
Variables minPhase maxPhase maxNum : nat.
Variable maxDist : Q.
Variable inside_outer : point → bool.
Variable inside : nat → nat → point → bool.
Variables (numEll : nat) (bfs rad : list point).

Notation select fuel := (select ref evs stas phs refphs dref dev minES maxES minRatio minPhase maxPhase
  maxNum maxDist inside_outer inside fuel numEll bfs rad).
Notation good := (good refphs dref dev minES maxES minRatio).
Notation eligible := (eligible ref evs phs refphs dref dev minES maxES minRatio minPhase).
Notation chosen := (chosen ref evs stas phs refphs dref dev minES maxES minRatio minPhase maxPhase).

(** The mode actually used: lines 311-314. *)
Definition mode : nat := if decide (maxNum = 0%nat) then 0%nat else numEll.
(** The tree delivers each event once; every phase has a station in the catalog
    (Catalog guarantees this only by throwing when it is not so). *)
Definition wf : Prop :=
  NoDup (p_id <$> bfs) ∧ NoDup (p_id <$> rad) ∧
  stations_ok stas phs bfs ∧ stations_ok stas phs rad ∧ 0 <= maxDist.

Lemma select_run fuel :
  wf → (length rad < fuel)%nat →
  ∃ n out rest, select fuel = SDone n ∧
    Inv ref evs stas phs refphs dref dev minES maxES minRatio minPhase maxPhase out n ∧
    (maxNum = 0 ∨ size (nb_phs n) ≤ maxNum)%nat ∧
    (mode = 0%nat → bfs = out ++ rest ∧ (∀ p, p ∈ out → p_dist p <= maxDist) ∧
       ((0 < maxNum ∧ maxNum ≤ size (nb_phs n))%nat ∨
        match rest with [] => True | p :: _ => maxDist < p_dist p end)) ∧
    (mode ≠ 0%nat → filter (λ p, inside_outer p = true) rad ≡ₚ out ++ rest ∧
       (∀ p, p ∈ out → ∃ i q, i ∈ seq 0 mode ∧ q ∈ octants ∧ hit maxDist inside mode i q p) ∧
       ((0 < maxNum ∧ maxNum ≤ size (nb_phs n))%nat ∨
        ∀ p i q, p ∈ rest → i ∈ seq 0 mode → q ∈ octants → ¬ hit maxDist inside mode i q p)).
Proof.
  intros (ND1 & ND2 & S1 & S2 & Hd) Hfuel.
  assert (Inv ref evs stas phs refphs dref dev minES maxES minRatio minPhase maxPhase [] (Nb ref ∅)) as I0.
  { split; [done|]. intros e S. simpl. rewrite lookup_empty. split; [done|]. set_solver. }
  assert (full maxNum (Nb ref ∅) = false) as Hf0.
  { apply full_false. unfold amount. simpl. rewrite map_size_empty. lia. }
  unfold Select_Model.select. fold mode.
  destruct (decide (mode = 0%nat)) as [E|E].
  - destruct (nearest_spec ref evs stas phs refphs dref dev minES maxES minRatio minPhase maxPhase maxNum maxDist
      bfs [] _ I0 ND1 Hf0 S1) as (n & don & rest & H1 & H2 & H3 & H4 & H5 & H6).
    exists n, don, rest. split; [done|]. split; [done|]. split; [done|]. split; [|done].
    intros _. split; [done|]. split; [done|]. destruct H6 as [H6|H6]; [left; by apply full_spec|by right].
  - set (pts := filter (λ p, inside_outer p = true) rad).
    assert (NoDup (p_id <$> [] ++ pts)) as NDp.
    { subst pts. clear -ND2. simpl. induction rad as [|x l IH]; [constructor|].
      rewrite fmap_cons in ND2. apply NoDup_cons in ND2 as [Hx ND2]. rewrite filter_cons.
      case_decide; [|by apply IH]. rewrite fmap_cons. apply NoDup_cons. split; [|by apply IH].
      intros Hin. apply Hx. apply elem_of_list_fmap in Hin as (y & -> & Hy).
      apply elem_of_list_filter in Hy as [_ Hy]. by apply elem_of_list_fmap_1. }
    assert (stations_ok stas phs pts) as Sp.
    { intros p q Hp. apply S2. subst pts. by apply elem_of_list_filter in Hp as [_ Hp]. }
    assert (length pts ≤ length rad)%nat as Hlen by (apply filter_length).
    destruct (decide (pts = [])) as [Ep|Ep].
    + rewrite Ep. exists (Nb ref ∅), [], []. split; [done|]. split; [done|].
      split; [right; simpl; rewrite map_size_empty; lia|]. split; [done|]. intros _.
      split; [done|]. split; [set_solver|]. right. set_solver.
    + destruct (rounds_spec ref evs stas phs refphs dref dev minES maxES minRatio minPhase maxPhase maxNum maxDist
        inside fuel mode [] pts (Nb ref ∅)) as (r & n & H1 & out & H2 & H3 & H4 & H5 & H6); try done.
      { intros i _. by apply lo_le_hi. }
      { lia. }
      rewrite H1. exists n, out, r. split; [done|]. split; [done|]. split; [done|]. split; [done|].
      intros _. split; [done|]. split; [done|]. destruct H6 as [H6|H6]; [left; by apply full_spec|by right].
Qed.

(** C30. The selection terminates normally (no exception, no undefined behaviour). *)
Theorem C30_select_terminates fuel :
  wf → (length rad < fuel)%nat → ∃ n, select fuel = SDone n.
Proof.
  intros Hwf Hf. destruct (select_run fuel Hwf Hf) as (n & _ & _ & H & _). eauto.
Qed.

(** C28. All limits are honoured in both modes. *)
Theorem C28_select_limits fuel n :
  wf → (length rad < fuel)%nat → select fuel = SDone n →
  nb_ref n = ref ∧
  (maxNum ≠ 0 → size (nb_phs n) ≤ maxNum)%nat ∧
  ∀ e S, nb_phs n !! e = Some S →
    e ≠ ref ∧ e ∈ evs ∧ S ≠ ∅ ∧
    (* it is a point of the tree within the search limits *)
    ∃ d, (if decide (mode = 0%nat) then Pt e d ∈ bfs ∧ d <= maxDist
          else Pt e d ∈ rad ∧ inside_outer (Pt e d) = true ∧
               ∃ i q, (i < mode)%nat ∧ (1 ≤ q ≤ 8)%nat ∧ inside i q (Pt e d) = true) ∧
    (* each recorded phase is picked by both events and satisfies the distances *)
    (∀ s t, (s, t) ∈ S →
       (∃ q, q ∈ phs e ∧ ph_sta q = s ∧ ph_type q = t ∧ ph_no q = false) ∧
       (∃ q, q ∈ refphs ∧ ph_sta q = s ∧ ph_type q = t ∧ ph_no q = false) ∧
       (0 < maxES → dev e s <= maxES) ∧ (0 < minES → minES <= dev e s) ∧
       (0 < minRatio → 0 < d → minRatio * d <= dref s ∧ minRatio * d <= dev e s)) ∧
    (maxPhase ≠ 0 → size S ≤ maxPhase)%nat ∧
    (* enough of them, if no event has the same pick twice *)
    (NoDup ((λ q, (ph_sta q, ph_type q)) <$> phs e) →
       minPhase ≤ size S ∨ (maxPhase ≠ 0 ∧ size S = maxPhase))%nat ∧
    (* a phase in common that was left out is not nearer than one recorded *)
    (∀ s t q, (s, t) ∈ S → q ∈ phs e → good e d q → (ph_sta q, ph_type q) ∉ S → dref s <= dref (ph_sta q)).
Proof.
  intros Hwf Hf Hsel. destruct (select_run fuel Hwf Hf) as (n' & out & rest & Hs & [Hr Hi] & Hb & Hm0 & Hm1).
  assert (n' = n) as -> by congruence.
  split; [done|]. split; [intros; lia|]. intros e S He.
  apply Hi in He as (p & Hp & Hid & Hc).
  destruct Hwf as (_ & _ & S1 & S2 & _).
  assert (∃ pts, p ∈ pts ∧ stations_ok stas phs pts) as (pts & Hpp & Hsp).
  { destruct (decide (mode = 0%nat)) as [E|E].
    - exists bfs. split; [|done]. destruct (Hm0 E) as (-> & _). set_solver.
    - exists rad. split; [|done]. destruct (Hm1 E) as (Hperm & _).
      assert (p ∈ filter (λ p, inside_outer p = true) rad) as Hin by (rewrite Hperm; set_solver).
      by apply elem_of_list_filter in Hin as [_ ?]. }
  assert (is_Some (chosen p)) as Hel by eauto.
  apply chosen_eligible in Hel as (H1 & H2 & _); [|intros q; by apply Hsp].
  apply chosen_spec in Hc as (C1 & C2 & C3 & C4 & C5); [|intros q; by apply Hsp].
  subst e. split; [done|]. split; [done|]. split; [done|]. exists (p_dist p).
  assert (Pt (p_id p) (p_dist p) = p) as Ep by (by destruct p).
  rewrite Ep. split; [|split; [|split; [done|split; [done|done]]]].
  - case_decide as E.
    + destruct (Hm0 E) as (-> & Hd & _). split; [set_solver|]. by apply Hd.
    + destruct (Hm1 E) as (Hperm & Hh & _).
      assert (p ∈ filter (λ p, inside_outer p = true) rad) as Hin by (rewrite Hperm; set_solver).
      apply elem_of_list_filter in Hin as [Hin1 Hin2]. split; [done|]. split; [done|].
      destruct (Hh p Hp) as (i & q & Hiq & Hq & [_ Hins]). exists i, q.
      apply elem_of_seq in Hiq. split; [lia|]. split; [|done].
      unfold octants in Hq. repeat (apply elem_of_cons in Hq as [->|Hq]; [lia|]). by apply elem_of_nil in Hq.
  - intros s t Hst. destruct (C2 s t Hst) as (q & Hq & <- & <- & (G1 & G2 & G3 & G4 & (p' & G5 & G6))).
    split; [eauto|]. split.
    { destruct G5 as (l1 & l2 & -> & E1 & E2 & _). exists p'. clear -E1 E2 G6. set_solver. }
    split; [intros H; apply G4; auto|]. split; [intros H; apply G4; auto|].
    intros Hr0 Hd0. assert (¬ p_dist p == 0) as Hne by lra. split.
    + specialize (G3 Hne). apply Qle_shift_div_r in Hd0 as _ || idtac.
      apply (Qmult_le_compat_r _ _ (p_dist p)) in G3; [|lra].
      assert (dref (ph_sta q) / p_dist p * p_dist p == dref (ph_sta q)) as Ed by (field; done). lra.
    + destruct G4 as (_ & _ & G4); [auto|]. specialize (G4 Hne).
      apply (Qmult_le_compat_r _ _ (p_dist p)) in G4; [|lra].
      assert (dev (p_id p) (ph_sta q) / p_dist p * p_dist p == dev (p_id p) (ph_sta q)) as Ed by (field; done). lra.
Qed.

(** C30. Nearest neighbour mode: if the tree delivers the points by distance
    (C27), every eligible event within the limit is selected, unless [maxNum]
    others have been selected that are not farther away. *)
Theorem C30_nearest_first fuel n p :
  wf → (length rad < fuel)%nat → select fuel = SDone n → mode = 0%nat →
  StronglySorted (λ a b, p_dist a <= p_dist b) bfs →
  p ∈ bfs → p_dist p <= maxDist → eligible p → nb_phs n !! p_id p = None →
  (0 < maxNum ∧ size (nb_phs n) = maxNum)%nat ∧
  ∀ e S, nb_phs n !! e = Some S → ∃ q, q ∈ bfs ∧ p_id q = e ∧ p_dist q <= p_dist p.
Proof.
  intros Hwf Hf Hsel Hmode Hsort Hp Hd Hel Hnone.
  destruct (select_run fuel Hwf Hf) as (n' & out & rest & Hs & [Hr Hi] & Hb & Hm0 & _).
  assert (n' = n) as -> by congruence. destruct (Hm0 Hmode) as (Hbfs & Hdist & Hend). clear Hm0.
  destruct Hwf as (ND & _ & S1 & _).
  assert (p ∉ out) as Hout.
  { intros Hin. apply chosen_eligible with (maxPhase := maxPhase) (stas := stas) in Hel as [S HS];
      [|intros q; by apply S1].
    assert (nb_phs n !! p_id p = Some S) as HSn by (apply Hi; eauto). congruence. }
  assert (p ∈ rest) as Hrest by (rewrite Hbfs in Hp; set_solver).
  assert (∀ q x, q ∈ out → x ∈ rest → p_dist q <= p_dist x) as Hord.
  { rewrite Hbfs in Hsort. clear -Hsort. intros q x Hq Hx. induction out as [|y out IH]; [by apply elem_of_nil in Hq|].
    simpl in Hsort. apply StronglySorted_inv in Hsort as [Hs Hf]. apply elem_of_cons in Hq as [->|Hq]; [|by apply IH].
    rewrite Forall_forall in Hf. apply Hf. set_solver. }
  assert (0 < maxNum ∧ maxNum ≤ size (nb_phs n))%nat as Hfull.
  { destruct Hend as [|Hend]; [done|]. exfalso. destruct rest as [|x rest]; [set_solver|].
    assert (p_dist x <= p_dist p).
    { rewrite Hbfs in Hsort. clear -Hsort Hrest.
      induction out as [|y out IH]; simpl in Hsort; [|apply StronglySorted_inv in Hsort as [Hs _]; auto].
      apply StronglySorted_inv in Hsort as [_ Hf]. apply elem_of_cons in Hrest as [->|Hr]; [lra|].
      rewrite Forall_forall in Hf. by apply Hf. }
    lra. }
  split; [lia|]. intros e S He. apply Hi in He as (q & Hq & <- & _). exists q.
  split; [rewrite Hbfs; set_solver|]. split; [done|]. by apply Hord.
Qed.

(** C30. Ellipsoid mode: unless [maxNum] neighbours were found, every eligible
    event of the search radius that lies in one of the layers and octants (and
    whose distance is between the smallest and largest axis of that layer) is
    selected. *)
Theorem C30_ellipsoids_exhaustive fuel n p i q :
  wf → (length rad < fuel)%nat → select fuel = SDone n → mode ≠ 0%nat →
  (size (nb_phs n) < maxNum)%nat →
  p ∈ rad → inside_outer p = true → (i < mode)%nat → (1 ≤ q ≤ 8)%nat → inside i q p = true →
  lo maxDist mode i <= p_dist p <= hi maxDist mode i →
  eligible p → is_Some (nb_phs n !! p_id p).
Proof.
  intros Hwf Hf Hsel Hmode Hlt Hp Hout Hi Hq Hins Hrange Hel.
  destruct (select_run fuel Hwf Hf) as (n' & out & rest & Hs & [Hr HI] & Hb & _ & Hm).
  assert (n' = n) as -> by congruence. destruct (Hm Hmode) as (Hperm & _ & Hend). clear Hm.
  destruct Hwf as (_ & _ & _ & S2 & _).
  apply chosen_eligible with (maxPhase := maxPhase) (stas := stas) in Hel as [S HS]; [|intros x; by apply S2].
  exists S. apply HI. exists p. split; [|done].
  assert (p ∈ filter (λ p, inside_outer p = true) rad) as Hin by (by apply elem_of_list_filter).
  rewrite Hperm in Hin. apply elem_of_app in Hin as [?|Hin]; [done|].
  exfalso. destruct Hend as [Hend|Hend]; [lia|].
  apply (Hend p i q Hin); [apply elem_of_seq; lia| |done].
  unfold octants. destruct q as [|[|[|[|[|[|[|[|[|q]]]]]]]]]; try lia; clear; set_solver.
Qed.

(** C29. The test of lines 328-329 rejects nothing when minESdist <= maxESdist or
    when maxESdist is not set. *)
Theorem C29_station_filter_vacuous_partial s :
  minES <= maxES ∨ maxES <= 0 → sta_ok dref minES maxES s = true.
Proof.
  intros H. unfold sta_ok. rewrite !orb_true_iff, !Qle_bool_iff.
  destruct H as [H|H]; [|auto]. destruct (Qlt_le_dec maxES (dref s)); [right; lra|auto].
Qed.
End props.
Print Assumptions C30_select_terminates.
Print Assumptions C28_select_limits.
Print Assumptions C30_nearest_first.
Print Assumptions C30_ellipsoids_exhaustive.
Print Assumptions C29_station_filter_vacuous_partial.

(** The selection inside selectNeighbouringEventsCatalog (clustering.cpp:624-631
    and 673-680): the catalog is restricted to the events [V], everything else is
    fixed.  It satisfies what C31 assumes of the selection for one event. *)
Definition catalog_sel (stas : gset string) (phs : N → list phase) (dref : N → string → Q) (dev : N → string → Q)
    (minES maxES minRatio : Q) (minPhase maxPhase maxNum : nat) (maxDist : Q) (io : N → point → bool)
    (ins : N → nat → nat → point → bool)
    (fuel k : nat) (bfs rad : N → list point) (V : gset N) (e : N) : nbp :=
  match select e V stas phs (phs e) (dref e) dev minES maxES minRatio minPhase maxPhase maxNum maxDist
               (io e) (ins e) fuel k (bfs e) (rad e) with
  | SDone n => n | _ => Nb e ∅ end.
Theorem C31_single_selection_valid (stas : gset string) (phs : N → list phase) (dref : N → string → Q) (dev : N → string → Q)
    (minES maxES minRatio : Q) (minPhase maxPhase maxNum : nat) (maxDist : Q) (io : N → point → bool)
    (ins : N → nat → nat → point → bool)
    (fuel k : nat) bfs rad :
  (∀ e, wf stas phs maxDist (bfs e) (rad e) ∧ (length (rad e) < fuel)%nat) →
  SelectCatalog_Props.valid_sel (catalog_sel stas phs dref dev minES maxES minRatio minPhase maxPhase maxNum maxDist io ins
    fuel k bfs rad).
Proof.
  intros Hwf V e. destruct (Hwf e) as [Hw Hf]. unfold catalog_sel.
  destruct (select _ _ _ _ _ _ _ _ _ _ _ _ _ _ _ _ _ _ _ _) as [n| | |] eqn:E;
    [|by split; [done|set_solver]..].
  destruct (C28_select_limits e V stas phs (phs e) (dref e) dev minES maxES minRatio minPhase maxPhase maxNum
    maxDist (io e) (ins e) k (bfs e) (rad e) fuel n Hw Hf E) as (H1 & _ & H2).
  split; [done|]. intros x Hx. unfold nb_ids in Hx. apply elem_of_dom in Hx as [S HS].
  destruct (H2 x S HS) as (Ha & Hb & _). clear -Ha Hb. set_solver.
Qed.
Print Assumptions C31_single_selection_valid.

(** ** Instances *)
Definition ex_phs (e : N) : list phase :=
  match e with
  | 1%N => [Ph "A" "P" false; Ph "B" "P" false; Ph "A" "S" true]
  | 2%N => [Ph "A" "P" false; Ph "B" "P" false; Ph "C" "S" false]
  | 3%N => [Ph "A" "P" false]
  | _ => []
  end.
Definition ex_dref (s : string) : Q := if decide (s = "A") then 5 else if decide (s = "B") then 100 else 20.
Definition ex_select ref minES maxES :=
  select ref {[1; 2; 3]}%N {["A"; "B"; "C"]} ex_phs
    [Ph "B" "P" false; Ph "A" "P" false; Ph "C" "S" false] ex_dref (λ _ s, ex_dref s)
    minES maxES 0 2 0 2 50 (λ _, true) (λ _ _ _, true).

(** Non-trivial instance of the hypotheses and a result with two neighbours. *)
Example select_ex_wf : wf {["A"; "B"; "C"]} ex_phs 50 [Pt 2 1; Pt 3 2; Pt 1 3] [Pt 2 1; Pt 3 2; Pt 1 3].
Proof.
  assert (stations_ok {["A"; "B"; "C"]} ex_phs [Pt 2 1; Pt 3 2; Pt 1 3]) as H.
  { intros p q Hp Hq. repeat (apply elem_of_cons in Hp as [->|Hp]; [simpl in Hq; set_solver|]).
    by apply elem_of_nil in Hp. }
  split; [|split; [|split; [done|split; [done|lra]]]];
    (repeat (constructor; [set_solver|]); constructor).
Qed.
Example select_ex_run :
  match ex_select 9 0 0 5 0 [Pt 2 1; Pt 3 2; Pt 1 3] [Pt 2 1; Pt 3 2; Pt 1 3] with
  | SDone n => elements (dom (nb_phs n)) = [1; 2]%N | _ => False end.
Proof. vm_compute. reflexivity. Qed.
Example select_ex_run_ellipsoids :
  match ex_select 9 0 0 5 3 [Pt 2 1; Pt 3 2; Pt 1 3] [Pt 2 1; Pt 3 2; Pt 1 3] with
  | SDone n => elements (dom (nb_phs n)) = [1; 2]%N | _ => False end.
Proof. vm_compute. reflexivity. Qed.

(** C29 is false: the station B at distance 100 from the reference event is used
    although the configured range is 1 to 30, because the station to *neighbour*
    distances are in range. *)
Theorem C29_station_range_refuted :
  ∃ ref evs stas phs refphs dref dev minES maxES minRatio minPhase maxPhase maxNum maxDist io ins fuel k bfs rad n S s t,
    select ref evs stas phs refphs dref dev minES maxES minRatio minPhase maxPhase maxNum maxDist io ins fuel k bfs rad
      = SDone n ∧ 0 < minES ∧ minES < maxES ∧
    nb_phs n !! 2%N = Some S ∧ (s, t) ∈ S ∧ maxES < dref s.
Proof.
  exists 9%N, {[2]}%N, {["A"; "B"]}, (λ e, if decide (e = 2%N) then [Ph "B" "P" false] else []),
    [Ph "B" "P" false; Ph "A" "P" false], ex_dref, (λ _ _, 10), 1, 30, 0, 1%nat, 0%nat, 2%nat, 50, (λ _, true),
    (λ _ _ _, true), 5%nat, 0%nat, [Pt 2 1], [Pt 2 1].
  match goal with |- ∃ n S s t, ?r = SDone n ∧ _ =>
    assert (match r with SDone n => match nb_phs n !! 2%N with
              Some S0 => bool_decide (("B", "P") ∈ S0) | None => false end | _ => false end = true) as H
      by (vm_compute; reflexivity);
    destruct r as [n| | |]; try done end.
  destruct (nb_phs n !! 2%N) as [S|] eqn:E; [|done]. exists n, S, "B", "P".
  apply bool_decide_eq_true in H. split; [done|]. split; [lra|]. split; [lra|].
  split; [done|]. split; [done|]. vm_compute. reflexivity.
Qed.
Print Assumptions C29_station_range_refuted.

(** C28, the minimum number of phases counts picks, not (station, phase) pairs: a
    catalog that lists the same pick twice gets a neighbour with a single phase
    although two are required. *)
Theorem C28_min_phases_duplicate_picks_refuted :
  ∃ ref evs stas phs refphs dref dev minES maxES minRatio minPhase maxNum maxDist io ins fuel bfs n S,
    select ref evs stas phs refphs dref dev minES maxES minRatio minPhase 0 maxNum maxDist io ins fuel 0 bfs bfs
      = SDone n ∧ nb_phs n !! 2%N = Some S ∧ (size S < minPhase)%nat.
Proof.
  exists 9%N, {[2]}%N, {["A"; "B"]},
    (λ e, if decide (e = 2%N) then [Ph "B" "P" false; Ph "B" "P" false] else []),
    [Ph "B" "P" false], ex_dref, (λ _ _, 10), 0, 0, 0, 2%nat, 2%nat, 50, (λ _, true),
    (λ _ _ _, true), 5%nat, [Pt 2 1].
  match goal with |- ∃ n S, ?r = SDone n ∧ _ =>
    assert (match r with SDone n => match nb_phs n !! 2%N with
              Some S0 => size S0 =? 1 | None => false end | _ => false end = true)%nat as H
      by (vm_compute; reflexivity);
    destruct r as [n| | |]; try done end.
  destruct (nb_phs n !! 2%N) as [S0|] eqn:E; [|done]. exists n, S0.
  apply Nat.eqb_eq in H. split; [done|]. split; [done|]. lia.
Qed.
Print Assumptions C28_min_phases_duplicate_picks_refuted.

(** C59. Renumbering the reference event changes which background events can be
    selected: an eligible background event that has the reference event's id is
    never selected, and is selected when the reference event has a free id. *)
Theorem C59_id_coincidence_refuted :
  ∃ evs stas phs refphs dref dev minES maxES minRatio minPhase maxPhase maxNum maxDist io ins fuel k bfs n1 n2,
    let sel r := select r evs stas phs refphs dref dev minES maxES minRatio minPhase maxPhase maxNum maxDist io ins
                        fuel k bfs bfs in
    9%N ∉ evs ∧ sel 1%N = SDone n1 ∧ sel 9%N = SDone n2 ∧
    nb_phs n1 !! 1%N = None ∧ is_Some (nb_phs n2 !! 1%N).
Proof.
  exists {[1; 2]}%N, {["A"; "B"; "C"]}, ex_phs, [Ph "B" "P" false; Ph "A" "P" false], ex_dref, (λ _ _, 10),
    0, 0, 0, 1%nat, 0%nat, 2%nat, 50, (λ _, true), (λ _ _ _, true), 5%nat, 0%nat, [Pt 1 1; Pt 2 2].
  cbv zeta. match goal with |- ∃ n1 n2, _ ∧ ?r1 = SDone n1 ∧ ?r2 = SDone n2 ∧ _ =>
    assert (match r1, r2 with SDone n1, SDone n2 =>
      match nb_phs n1 !! 1%N, nb_phs n2 !! 1%N with None, Some _ => true | _, _ => false end
      | _, _ => false end = true) as H by (vm_compute; reflexivity);
    destruct r1 as [n1| | |]; try done; destruct r2 as [n2| | |]; try done end.
  destruct (nb_phs n1 !! 1%N) eqn:E1; [done|]. destruct (nb_phs n2 !! 1%N) eqn:E2; [|done].
  exists n1, n2. split; [set_solver|]. by eauto.
Qed.
Print Assumptions C59_id_coincidence_refuted.
