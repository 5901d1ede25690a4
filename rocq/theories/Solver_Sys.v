(** What Solver::prepare builds. *)
From stdpp Require Import numbers list list_numbers gmap sets.
From Verif Require Import Index_Model DDSystem_Model Solver_Model Solver_Prep.

Section sys.
Context {D : Type}.
Variable d0 d1 : D.
Variable dadd dsub dmul : D → D → D.
Variable is0 : D → bool.
Variable dquot : D → nat → D.
Notation obsv := (@obsv D).
Notation oprm := (@oprm D).
Notation solver := (@solver D).
Notation srow := (@srow D).
Notation prepare := (prepare d0 d1 dadd dsub dmul is0 dquot).

Definition empty_row : srow := Row d0 (Some 0) (Some 0) 0 d0.
Definition blank_row : srow := Row d0 None None 0 d0.
Definition ntt_of (tt : option D) (pl : list (N * N * oprm)) : nat := match tt with Some _ => length (filter (λ x, op_ch x.2 = true) pl) | None => 0 end.
(** The final weight of row i: the weight given times that of its residual *)
Definition final_weight (rw : option (list D → res (list D))) (data : list D) (i : nat) (apri w : D) : Prop :=
  match rw with
  | None => w = apri
  | Some f => ∃ l x, f data = Ok l ∧ l !! i = Some x ∧ w = dmul apri x
  end.
Definition rw_ok (rw : option (list D → res (list D))) : Prop := ∀ f, rw = Some f → ∀ l, ∃ l', f l = Ok l' ∧ length l' = length l.
Definition constraints (tt : option D) (stat : gmap N (gmap N (nat * D))) (pl : list (N * N * oprm)) : list srow :=
  match tt with Some c => omap (constraint d0 dmul dquot c stat) pl | None => [] end.

Lemma size_bound (s : solver) (ol : list (N * obsv)) : wfS s → obs_order s ol →
  NoDup ol.*1 ∧ (∀ i o, (i, o) ∈ ol → N.to_nat i < size (s_obs s) ∧ s_obs s !! i = Some o) ∧ (∀ i o, s_obs s !! i = Some o → (i, o) ∈ ol).
Proof.
  intros W Ho. unfold obs_order in Ho. split; [rewrite Ho; apply NoDup_fst_map_to_list|]. split.
  - intros i o Hi. rewrite Ho in Hi. apply elem_of_map_to_list in Hi. split; [|done]. apply (ws_dom _ W). by eexists.
  - intros i o Hi. rewrite Ho. by apply elem_of_map_to_list.
Qed.

Lemma prepare_exc (s : solver) tt rw pl ol : wfS s → prm_order s pl → obs_order s ol → 
  (∃ i o, s_obs s !! i = Some o ∧ ¬ has_params s o) → prepare tt rw pl ol s = Exc.
Proof.
  intros W Hp Ho (i & o & Hi & Hno). unfold Solver_Model.prepare. destruct (prep_G_ok d0 d1 s pl W Hp) as (G & -> & _). cbn [rbind].
  destruct (size_bound s ol W Ho) as (_ & H2 & H3).
  rewrite prep_obs_exc; [done| |].
  - intros j o' Hj. rewrite replicate_length. apply H2 in Hj as [? _]. lia.
  - exists i, o. split; [by apply H3|done].
Qed.

Lemma prepare_ok (s : solver) tt rw pl ol : wfS s → prm_order s pl → obs_order s ol → s_stat s = ∅ → rw_ok rw →
  (∀ i o, s_obs s !! i = Some o → has_params s o) →
  ∃ s' rws G, prepare tt rw pl ol s = Ok s' ∧ length rws = size (s_obs s) ∧
    (∀ i o p1 p2, s_obs s !! N.of_nat i = Some o → get_prm s (ob_e1 o) (ob_ph o) = Some p1 → get_prm s (ob_e2 o) (ob_ph o) = Some p2 →
       ∃ w, final_weight rw (r_d <$> rws) i (ob_apri o) w ∧
         rws !! i = Some (Row w (used (op_ch p1) (ob_e1 o)) (used (op_ch p2) (ob_e2 o)) (N.to_nat (ob_ph o)) (dsub (ob_diff o) (dsub (op_tt p1) (op_tt p2)))) ∧
         s_obs s' !! N.of_nat i = Some (upd_obs dsub o p1 p2 w)) ∧
    (∀ i, is_Some (s_obs s' !! i) ↔ is_Some (s_obs s !! i)) ∧
    cv_ev s' = cv_ev s ∧ cv_ph s' = cv_ph s ∧ cv_ob s' = cv_ob s ∧ s_prm s' = s_prm s ∧ s_delta s' = s_delta s ∧
    s_stat s' = fold_left (put d0 dadd) (rws ≫= uses is0) ∅ ∧
    length G = idx_size (cv_ev s) * idx_size (cv_ph s) ∧ (∀ g, g ∈ G → length g = 4) ∧
    (∀ e p o, get_prm s e p = Some o → G !! (N.to_nat e * idx_size (cv_ph s) + N.to_nat p) = Some [op_dx o; op_dy o; op_dz o; d1]) ∧
    length (constraints tt (s_stat s') pl) <= ntt_of tt pl ∧
    let all := rws ++ constraints tt (s_stat s') pl ++ replicate (ntt_of tt pl - length (constraints tt (s_stat s') pl)) blank_row in
    s_sys s' = DDS (size (s_obs s)) (idx_size (cv_ev s)) (idx_size (cv_ph s)) (ntt_of tt pl) (r_w <$> all) G (replicate (idx_size (cv_ev s) * 4) d0)
                 (r_d <$> all) (replicate (idx_size (cv_ev s) * 4) d0) (r_e1 <$> all) (r_e2 <$> all) (r_ph <$> all).
Proof.
  intros W Hp Ho Hst Hrw Hhas. unfold Solver_Model.prepare.
  destruct (prep_G_ok d0 d1 s pl W Hp) as (G & -> & G1 & G2 & G3). cbn [rbind].
  destruct (size_bound s ol W Ho) as (O1 & O2 & O3). fold (ntt_of tt pl). set (nobs := size (s_obs s)) in *. set (ntt := ntt_of tt pl).
  destruct (prep_obs_loop dsub s ol O1 (replicate (nobs + ntt) empty_row) (s_obs s)) as (rws1 & obs1 & L1 & Len1 & Row1 & Oth1).
  { intros i o Hi. rewrite replicate_length. apply O2 in Hi as [? _]. lia. }
  { intros i o Hi. apply O2 in Hi as [_ Hi]. by eapply Hhas. }
  unfold empty_row in L1. rewrite L1. cbn [rbind]. rewrite replicate_length in Len1.
  assert (Hrest1 : ∀ j, nobs <= j → rws1 !! j = replicate (nobs + ntt) empty_row !! j).
  { intros j Hj. destruct (Oth1 (N.of_nat j)) as [E _]; [|by rewrite Nat2N.id in E].
    intros Hin. apply elem_of_list_fmap in Hin as ([i o] & Ei & Hin). apply O2 in Hin as [? _]. cbn [fst] in *. lia. }
  (* weights *)
  assert (∃ rws2, match rw with None => Ok rws1 | Some f => rbind (f (r_d <$> take nobs rws1)) (λ ws, rloop (prep_weight dmul ws) (seq 0 nobs) rws1) end = Ok rws2 ∧
     length rws2 = nobs + ntt ∧ (∀ j, nobs <= j → rws2 !! j = rws1 !! j) ∧
     ∀ i r, i < nobs → rws1 !! i = Some r → ∃ w, final_weight rw (r_d <$> take nobs rws1) i (r_w r) w ∧ rws2 !! i = Some (Row w (r_e1 r) (r_e2 r) (r_ph r) (r_d r))) as (rws2 & L2 & Len2 & Rest2 & Row2).
  { destruct rw as [f|].
    - destruct (Hrw f eq_refl (r_d <$> take nobs rws1)) as (l & Hl & Hll). rewrite Hl. cbn [rbind].
      assert (Hll' : nobs = length l) by (rewrite Hll, fmap_length, take_length; lia).
      destruct (prep_weight_loop dmul l nobs rws1) as (rws2 & E1 & E2 & E3 & E4); [lia|done|].
      exists rws2. split; [done|]. split; [lia|]. split; [done|]. intros i r Hi Hr.
      destruct (lookup_lt_is_Some_2 l i) as [x Hx]; [lia|]. exists (dmul (r_w r) x). split; [|by apply E3]. exists l, x. done.
    - exists rws1. split; [done|]. split; [done|]. split; [done|]. intros i r Hi Hr. exists (r_w r). split; [done|]. rewrite Hr. by destruct r. }
  rewrite L2. cbn [rbind]. set (rws := take nobs rws2).
  assert (Hlen : length rws = nobs) by (unfold rws; rewrite take_length; lia).
  assert (Hsplit : rws2 = rws ++ replicate ntt empty_row).
  { rewrite <- (take_drop nobs rws2). fold rws. f_equal. apply list_eq. intros j. rewrite lookup_drop, Rest2, Hrest1 by lia.
    destruct (decide (j < ntt)); [rewrite !lookup_replicate_2 by lia; done|].
    rewrite !lookup_ge_None_2 by (rewrite replicate_length; lia). done. }
  assert (Hdata : r_d <$> take nobs rws1 = r_d <$> rws).
  { apply list_eq. intros j. rewrite !list_lookup_fmap. unfold rws. destruct (decide (j < nobs)) as [Hj|Hj].
    - rewrite !lookup_take by done. destruct (lookup_lt_is_Some_2 rws1 j) as [r Hr]; [lia|]. destruct (Row2 j r Hj Hr) as (w & _ & E). rewrite Hr, E. done.
    - rewrite !lookup_take_ge by lia. done. }
  assert (Hobs1 : ∀ i, is_Some (obs1 !! i) ↔ is_Some (s_obs s !! i)).
  { intros i. destruct (s_obs s !! i) as [o|] eqn:Eo.
    - destruct (Hhas i o Eo) as [[p1 E1] [p2 E2]]. destruct (Row1 i o p1 p2 (O3 _ _ Eo) E1 E2) as [_ E]. rewrite E. split; intros; by eexists.
    - destruct (Oth1 i) as [_ E]; [|by rewrite E, Eo]. intros Hin. apply elem_of_list_fmap in Hin as ([i' o] & -> & Hin). apply O2 in Hin as [_ Hin]. cbn [fst] in *. congruence. }
  destruct (prep_stat_loop d0 dadd is0 rws2 nobs ltac:(lia) obs1 (s_stat s)) as (obs2 & L3 & Ow & Oo).
  { intros i Hi. apply Hobs1, (ws_dom _ W). rewrite Nat2N.id. done. }
  rewrite L3. cbn [rbind]. fold rws. rewrite Hst. set (stat := fold_left (put d0 dadd) (rws ≫= uses is0) ∅).
  assert (Hcl : length (constraints tt stat pl) <= ntt).
  { unfold constraints, ntt, ntt_of. destruct tt; [apply constraint_len|done]. }
  set (all := rws ++ constraints tt stat pl ++ replicate (ntt - length (constraints tt stat pl)) blank_row).
  assert (Htt : match tt with None => Ok rws2 | Some c => rbind (rloop (prep_tt d0 dmul dquot c stat) pl (rws2, nobs)) (λ '(rws, k), rloop (prep_fill d0) (seq k (length rws - k)) rws) end = Ok all).
  { unfold all, constraints. destruct tt as [c|].
    - rewrite Hsplit, <- Hlen. unfold constraints in Hcl. rewrite prep_tt_loop by (rewrite replicate_length; done). cbn [rbind].
      set (q := omap _ pl) in *. rewrite prep_fill_loop by (rewrite !app_length, drop_length, replicate_length; lia). f_equal.
      rewrite app_assoc. rewrite take_app_alt by (rewrite app_length; lia). rewrite drop_app_alt by (rewrite app_length; lia).
      rewrite <- app_assoc. f_equal. f_equal. rewrite drop_replicate, fmap_replicate. done.
    - rewrite Hsplit. unfold ntt, ntt_of. cbn. done. }
  rewrite Htt. cbn [rbind]. eexists _, rws, G. split; [reflexivity|]. cbn [s_obs s_stat s_sys cv_ev cv_ph cv_ob s_prm s_delta].
  split; [done|]. split; [|split].
  - intros i o p1 p2 Hi E1 E2. destruct (Row1 (N.of_nat i) o p1 p2 (O3 _ _ Hi) E1 E2) as [R O]. rewrite Nat2N.id in R.
    assert (i < nobs) as Hin. { replace i with (N.to_nat (N.of_nat i)) by lia. apply (ws_dom _ W). by eexists. }
    destruct (Row2 i _ Hin R) as (w & Hw & R2). exists w. rewrite <- Hdata. split; [done|]. split.
    + unfold rws. rewrite lookup_take by done. exact R2.
    + rewrite (Ow i _ _ Hin O R2). done.
  - intros i. rewrite <- Hobs1. destruct (decide (N.to_nat i < nobs)) as [Hi|Hi].
    + destruct (obs1 !! i) as [o|] eqn:Eo.
      * destruct (lookup_lt_is_Some_2 rws2 (N.to_nat i)) as [r Hr]; [lia|]. pose proof (Ow (N.to_nat i) o r Hi) as E. rewrite N2Nat.id in E. rewrite (E Eo Hr). split; intros; by eexists.
      * exfalso. assert (is_Some (obs1 !! i)) as [? E]; [|congruence]. apply Hobs1, (ws_dom _ W). done.
    + pose proof (Oo (N.to_nat i)) as E. rewrite N2Nat.id in E. rewrite E by lia. done.
  - do 6 (split; [done|]). split; [done|]. split; [done|]. split; [done|]. split; [done|]. done.
Qed.
End sys.
