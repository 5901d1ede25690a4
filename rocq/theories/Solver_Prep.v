(** Lemmas about Solver::prepare. *)
From stdpp Require Import numbers list list_numbers gmap sets.
From Verif Require Import Index_Model DDSystem_Model Solver_Model.

Lemma store_lt {A} (l : list A) (i : nat) (v : A) : i < length l → store l i v = Ok (<[i := v]> l).
Proof. intros H. unfold store. by rewrite decide_True. Qed.
Lemma read_lookup {A} (l : list A) (i : nat) (v : A) : l !! i = Some v → read l i = Ok v.
Proof. intros H. unfold read. by rewrite H. Qed.

(** A loop which changes one element of the array per pass, each element once *)
Lemma rloop_upd {A B} (f : list A → B → res (list A)) (ix : B → nat) (g : B → A → A) (l : list B) (v : list A) :
  (∀ x v' r, x ∈ l → length v' = length v → v' !! ix x = Some r → f v' x = Ok (<[ix x := g x r]> v')) →
  NoDup (ix <$> l) → (∀ x, x ∈ l → ix x < length v) →
  ∃ v', rloop f l v = Ok v' ∧ length v' = length v ∧ (∀ x r, x ∈ l → v !! ix x = Some r → v' !! ix x = Some (g x r)) ∧
    (∀ j, j ∉ ix <$> l → v' !! j = v !! j).
Proof.
  revert v. induction l as [|x l IH]; intros v Hf Hnd Hlt.
  - exists v. split; [done|]. split; [done|]. split; [by intros ? ? ?%elem_of_nil|done].
  - rewrite fmap_cons, NoDup_cons in Hnd. destruct Hnd as [Hx Hnd].
    destruct (lookup_lt_is_Some_2 v (ix x)) as [r Hr]; [apply Hlt; left|].
    destruct (IH (<[ix x := g x r]> v)) as (v' & H1 & H2 & H3 & H4).
    + intros y w r' Hy Hw Hr'. apply Hf; [by right|by rewrite Hw, insert_length|done].
    + done.
    + intros y Hy. rewrite insert_length. apply Hlt. by right.
    + exists v'. cbn [rloop]. rewrite (Hf x v r); [|left|done|done]. cbn [rbind]. split; [done|]. split; [by rewrite H2, insert_length|]. split.
      * intros y r' Hy Hr'. apply elem_of_cons in Hy as [->|Hy].
        -- rewrite H4 by done. rewrite list_lookup_insert by (apply Hlt; left). congruence.
        -- apply H3; [done|]. rewrite list_lookup_insert_ne; [done|]. intros E. apply Hx. rewrite E. by apply elem_of_list_fmap_1.
      * intros j Hj. rewrite fmap_cons, not_elem_of_cons in Hj. rewrite H4 by tauto. rewrite list_lookup_insert_ne; [done|]. destruct Hj; congruence.
Qed.

Section prep.
Context {D : Type}.
Variable d0 d1 : D.
Variable dadd dsub dmul : D → D → D.
Variable is0 : D → bool.
Variable dquot : D → nat → D.
Notation obsv := (@obsv D).
Notation oprm := (@oprm D).
Notation solver := (@solver D).
Notation srow := (@srow D).

(** ** Specification *)
Record wfS (s : solver) : Prop := {
  ws_dom : ∀ i, is_Some (s_obs s !! i) ↔ N.to_nat i < size (s_obs s);
  ws_obs : ∀ i o, s_obs s !! i = Some o → N.to_nat (ob_e1 o) < idx_size (cv_ev s) ∧ N.to_nat (ob_e2 o) < idx_size (cv_ev s) ∧ N.to_nat (ob_ph o) < idx_size (cv_ph s);
  ws_prm : ∀ e p o, get_prm s e p = Some o → N.to_nat e < idx_size (cv_ev s) ∧ N.to_nat p < idx_size (cv_ph s) }.
(** [pl] lists the parameters, [ol] the observations, each once *)
Definition prm_order (s : solver) (pl : list (N * N * oprm)) : Prop := NoDup pl.*1 ∧ ∀ e p o, (e, p, o) ∈ pl ↔ get_prm s e p = Some o.
Definition obs_order (s : solver) (ol : list (N * obsv)) : Prop := ol ≡ₚ map_to_list (s_obs s).

(** The row of an observation with the parameters of its events *)
Definition obs_row (o : obsv) (p1 p2 : oprm) : srow :=
  Row (ob_apri o) (used (op_ch p1) (ob_e1 o)) (used (op_ch p2) (ob_e2 o)) (N.to_nat (ob_ph o)) (dsub (ob_diff o) (dsub (op_tt p1) (op_tt p2))).
Definition has_params (s : solver) (o : obsv) : Prop := is_Some (get_prm s (ob_e1 o) (ob_ph o)) ∧ is_Some (get_prm s (ob_e2 o) (ob_ph o)).

(** ** G *)
Lemma prep_G_ok (s : solver) (pl : list (N * N * oprm)) : wfS s → prm_order s pl →
  let nev := idx_size (cv_ev s) in let nph := idx_size (cv_ph s) in
  ∃ G, rloop (prep_G d1 nph) pl (replicate (nev * nph) [d0; d0; d0; d0]) = Ok G ∧ length G = nev * nph ∧ (∀ g, g ∈ G → length g = 4) ∧
    ∀ e p o, get_prm s e p = Some o → G !! (N.to_nat e * nph + N.to_nat p) = Some [op_dx o; op_dy o; op_dz o; d1].
Proof.
  intros W [Hnd Hpl] nev nph.
  assert (Hin : ∀ e p o, (e, p, o) ∈ pl → N.to_nat e < nev ∧ N.to_nat p < nph) by (intros e p o H; apply Hpl in H; by eapply ws_prm).
  destruct (rloop_upd (prep_G d1 nph) (λ x, N.to_nat x.1.1 * nph + N.to_nat x.1.2) (λ x _, [op_dx x.2; op_dy x.2; op_dz x.2; d1]) pl (replicate (nev * nph) [d0; d0; d0; d0])) as (G & H1 & H2 & H3 & H4).
  - intros [[e p] o] v r Hx Hv Hr. cbn [prep_G fst snd] in *. apply store_lt. by eapply lookup_lt_Some.
  - clear Hpl. induction pl as [|[[e p] o] pl IH]; [constructor|]. cbn [fmap list_fmap fst snd] in Hnd |- *. apply NoDup_cons in Hnd as [Hx Hnd].
    constructor; [|apply IH; [done|]; intros; apply (Hin _ _ o0); by right].
    intros Hc. apply elem_of_list_fmap in Hc as ([[e' p'] o'] & E & Hc). cbn [fst snd] in *. apply Hx.
    destruct (Hin e p o) as [? Hp]; [left|]. destruct (Hin e' p' o') as [? Hp']; [by right|].
    assert (N.to_nat e = N.to_nat e' ∧ N.to_nat p = N.to_nat p') as [E1 E2] by (by apply (Nat.mul_split_l nph)).
    apply N2Nat.inj in E1, E2. subst. apply elem_of_list_fmap. by exists (e', p', o').
  - intros [[e p] o] Hx. apply Hin in Hx as [? ?]. rewrite replicate_length. cbn [fst snd]. nia.
  - rewrite replicate_length in H2. exists G. split; [done|]. split; [done|]. split.
    + intros g Hg. apply elem_of_list_lookup in Hg as [j Hj].
      destruct (decide (j ∈ (λ x : N * N * oprm, N.to_nat x.1.1 * nph + N.to_nat x.1.2) <$> pl)) as [Hin'|Hout].
      * apply elem_of_list_fmap in Hin' as ([[e p] o] & -> & Hx). cbn [fst snd] in *. destruct (Hin _ _ _ Hx).
        pose proof (H3 (e, p, o) [d0; d0; d0; d0] Hx) as H3'. cbn [fst snd] in H3'. rewrite H3' in Hj; [by injection Hj as <-|]. apply lookup_replicate_2. nia.
      * rewrite H4 in Hj by done. apply lookup_replicate in Hj as [-> _]. done.
    + intros e p o Ho. apply Hpl in Ho. destruct (Hin _ _ _ Ho). apply (H3 (e, p, o) [d0; d0; d0; d0] Ho). cbn [fst snd]. apply lookup_replicate_2. nia.
Qed.

(** ** Rows of the observations *)
Definition upd_obs (o : obsv) (p1 p2 : oprm) (w : D) : obsv :=
  let comp := dsub (op_tt p1) (op_tt p2) in
  Obsv (ob_e1 o) (ob_e2 o) (ob_ph o) (ob_diff o) (ob_apri o) (ob_xu o) (ob_xc o) comp (dsub (ob_diff o) comp) w.
Lemma prep_obs_loop (s : solver) (ol : list (N * obsv)) : NoDup ol.*1 → ∀ rws obs,
  (∀ i o, (i, o) ∈ ol → N.to_nat i < length rws) → (∀ i o, (i, o) ∈ ol → has_params s o) →
  ∃ rws' obs', rloop (prep_obs dsub s) ol (rws, obs) = Ok (rws', obs') ∧ length rws' = length rws ∧
    (∀ i o p1 p2, (i, o) ∈ ol → get_prm s (ob_e1 o) (ob_ph o) = Some p1 → get_prm s (ob_e2 o) (ob_ph o) = Some p2 →
       rws' !! N.to_nat i = Some (obs_row o p1 p2) ∧ obs' !! i = Some (upd_obs o p1 p2 (ob_w o))) ∧
    (∀ j, j ∉ ol.*1 → rws' !! N.to_nat j = rws !! N.to_nat j ∧ obs' !! j = obs !! j).
Proof.
  induction ol as [|[i o] ol IH]; intros Hnd rws obs Hlt Hp.
  - exists rws, obs. split; [done|]. split; [done|]. split; [by intros ? ? ? ? ?%elem_of_nil|done].
  - rewrite fmap_cons in Hnd. apply NoDup_cons in Hnd as [Hi Hnd]. cbn [fst] in Hi.
    destruct (Hp i o) as [[p1 E1] [p2 E2]]; [left|]. cbn [rloop]. unfold prep_obs at 1. rewrite E1, E2. cbn [at_ rbind].
    rewrite store_lt by (eapply Hlt; left). cbn [rbind].
    edestruct (IH Hnd (<[N.to_nat i := obs_row o p1 p2]> rws) (<[i := upd_obs o p1 p2 (ob_w o)]> obs)) as (rws' & obs' & H1 & H2 & H3 & H4).
    + intros j o' Hj. rewrite insert_length. eapply Hlt. right. exact Hj.
    + intros j o' Hj. eapply Hp. right. exact Hj.
    + exists rws', obs'. split; [exact H1|]. split; [by rewrite H2, insert_length|]. split.
      * intros j o' q1 q2 Hj Q1 Q2. apply elem_of_cons in Hj as [[= -> ->]|Hj]; [|by apply H3].
        destruct (H4 i Hi) as [-> ->]. rewrite E1 in Q1. rewrite E2 in Q2. injection Q1 as <-. injection Q2 as <-.
        rewrite list_lookup_insert by (eapply Hlt; left). by rewrite lookup_insert.
      * intros j Hj. rewrite fmap_cons, not_elem_of_cons in Hj. destruct Hj as [Hne Hj]. cbn [fst] in Hne. destruct (H4 j Hj) as [-> ->].
        rewrite list_lookup_insert_ne by (intros E%N2Nat.inj; congruence). by rewrite lookup_insert_ne.
Qed.
(** An observation without parameters: the exception *)
Lemma prep_obs_exc (s : solver) (ol : list (N * obsv)) rws obs : 
  (∀ i o, (i, o) ∈ ol → N.to_nat i < length rws) → (∃ i o, (i, o) ∈ ol ∧ ¬ has_params s o) → rloop (prep_obs dsub s) ol (rws, obs) = Exc.
Proof.
  revert rws obs. induction ol as [|[i o] ol IH]; intros rws obs Hlt (j & o' & Hj & Hno); [by apply elem_of_nil in Hj|].
  cbn [rloop]. unfold prep_obs at 1. unfold has_params in Hno.
  destruct (get_prm s (ob_e1 o) (ob_ph o)) as [p1|] eqn:E1; [|done]. destruct (get_prm s (ob_e2 o) (ob_ph o)) as [p2|] eqn:E2; [|done]. cbn [at_ rbind].
  rewrite store_lt by (eapply Hlt; left). cbn [rbind]. apply IH.
  - intros k o2 Hk. rewrite insert_length. eapply Hlt. by right.
  - exists j, o'. split; [|done]. apply elem_of_cons in Hj as [[= -> ->]|Hj]; [|done]. exfalso. apply Hno. rewrite E1, E2. split; by eexists.
Qed.

(** ** Weights *)
Lemma prep_weight_loop (ws : list D) (n : nat) (rws : list srow) : n <= length rws → n = length ws →
  ∃ rws', rloop (prep_weight dmul ws) (seq 0 n) rws = Ok rws' ∧ length rws' = length rws ∧
    (∀ i r w, i < n → rws !! i = Some r → ws !! i = Some w → rws' !! i = Some (Row (dmul (r_w r) w) (r_e1 r) (r_e2 r) (r_ph r) (r_d r))) ∧
    (∀ i, n <= i → rws' !! i = rws !! i).
Proof.
  intros Hn Hw.
  destruct (rloop_upd (prep_weight dmul ws) (λ i, i) (λ i r, match ws !! i with Some w => Row (dmul (r_w r) w) (r_e1 r) (r_e2 r) (r_ph r) (r_d r) | None => r end) (seq 0 n) rws) as (rws' & H1 & H2 & H3 & H4).
  - intros i v r Hi%elem_of_seq Hv Hr. unfold prep_weight. rewrite (read_lookup v i r Hr). cbn [rbind].
    destruct (lookup_lt_is_Some_2 ws i) as [w Ew]; [lia|]. rewrite (read_lookup ws i w Ew), Ew. cbn [rbind]. apply store_lt. by eapply lookup_lt_Some.
  - rewrite list_fmap_id. apply NoDup_seq.
  - intros i Hi%elem_of_seq. lia.
  - exists rws'. split; [done|]. split; [done|]. split.
    + intros i r w Hi Hr Hwi. rewrite (H3 i r); [by rewrite Hwi| |done]. apply elem_of_seq. lia.
    + intros i Hi. apply H4. rewrite list_fmap_id, elem_of_seq. lia.
Qed.

(** ** Statistics *)
(** The phases of the events used by a row of non-zero weight *)
Definition uses (r : srow) : list (N * N * D) :=
  if is0 (r_w r) then []
  else match r_e1 r with Some e => [(N.of_nat e, N.of_nat (r_ph r), r_w r)] | None => [] end ++
       match r_e2 r with Some e => [(N.of_nat e, N.of_nat (r_ph r), r_w r)] | None => [] end.
Definition put (st : gmap N (gmap N (nat * D))) (x : N * N * D) := put_stat d0 dadd st x.1.1 x.1.2 x.2.
(** The weights of the rows using phase p of event e *)
Definition weights_at (c : list (N * N * D)) (e p : N) : list D := (filter (λ x, x.1 = (e, p)) c).*2.

Lemma get_put (st : gmap N (gmap N (nat * D))) (x : N * N * D) (e p : N) :
  get_stat (put st x) e p = if decide (x.1 = (e, p)) then Some (let '(n, t) := default (0, d0) (get_stat st e p) in (S n, dadd t x.2)) else get_stat st e p.
Proof.
  destruct x as [[e' p'] w]. unfold put, put_stat. cbn [fst snd].
  destruct (default (0, d0) (get_stat st e' p')) as [n t] eqn:E. unfold get_stat.
  destruct (decide (e' = e)) as [->|Hne].
  2: { rewrite lookup_insert_ne by done. rewrite decide_False by congruence. done. }
  rewrite lookup_insert. cbn [mbind option_bind]. destruct (decide (p' = p)) as [->|Hne].
  - rewrite lookup_insert, decide_True by done. unfold get_stat in E. by rewrite E.
  - rewrite lookup_insert_ne, decide_False by congruence. destruct (st !! e); [done|]. apply lookup_empty.
Qed.
Lemma get_puts (c : list (N * N * D)) (e p : N) :
  get_stat (fold_left put c ∅) e p = match weights_at c e p with [] => None | ws => Some (length ws, fold_left dadd ws d0) end.
Proof.
  induction c as [|x c IH] using rev_ind; [done|]. rewrite fold_left_app. cbn [fold_left]. rewrite get_put, IH.
  unfold weights_at. rewrite filter_app, fmap_app. rewrite filter_cons, filter_nil. destruct (decide (x.1 = (e, p))) as [E|E].
  - cbn [fmap list_fmap]. set (ws := (filter _ c).*2). destruct ws as [|w ws]; [done|].
    cbn [app default from_option]. unfold id. rewrite app_comm_cons. f_equal. f_equal.
    + cbn [app length]. rewrite app_length. cbn. lia.
    + by rewrite fold_left_app.
  - cbn [fmap list_fmap]. by rewrite app_nil_r.
Qed.

Lemma prep_stat_loop (rws : list srow) (n : nat) : n <= length rws → ∀ obs stat, (∀ i, i < n → is_Some (obs !! N.of_nat i)) →
  ∃ obs', rloop (prep_stat d0 dadd is0 rws) (seq 0 n) (obs, stat) = Ok (obs', fold_left put (take n rws ≫= uses) stat) ∧
    (∀ i o r, i < n → obs !! N.of_nat i = Some o → rws !! i = Some r →
       obs' !! N.of_nat i = Some (Obsv (ob_e1 o) (ob_e2 o) (ob_ph o) (ob_diff o) (ob_apri o) (ob_xu o) (ob_xc o) (ob_comp o) (ob_dd o) (r_w r))) ∧
    (∀ i, n <= i → obs' !! N.of_nat i = obs !! N.of_nat i).
Proof.
  assert (Happ : ∀ {A B} (f : A → B → res A) l k a, rloop f (l ++ k) a = rbind (rloop f l a) (rloop f k)).
  { intros A B f l k. induction l as [|x l IH]; intros a; [done|]. cbn [app rloop]. destruct (f a x); [apply IH|done|done]. }
  induction n as [|n IH]; intros Hn obs stat Hobs.
  - exists obs. split; [done|]. split; [lia|done].
  - destruct (IH ltac:(lia) obs stat) as (obs1 & H1 & H2 & H3); [intros; apply Hobs; lia|].
    destruct (lookup_lt_is_Some_2 rws n) as [r Hr]; [lia|]. destruct (Hobs n) as [o Ho]; [lia|].
    rewrite seq_S, Happ, H1. cbn [rbind rloop plus]. unfold prep_stat. rewrite (read_lookup _ _ _ Hr). cbn [rbind].
    rewrite H3 by lia. rewrite Ho. cbn [at_ rbind].
    set (on := Obsv _ _ _ _ _ _ _ _ _ _).
    exists (<[N.of_nat n := on]> obs1). split; [|split].
    + rewrite (take_S_r _ _ _ Hr), bind_app, fold_left_app. cbn [mbind list_bind]. rewrite app_nil_r. set (acc := fold_left put (take n rws ≫= uses) stat). unfold uses.
      destruct (is0 (r_w r)); cbn [rbind]; [done|]. rewrite fold_left_app. destruct (r_e1 r), (r_e2 r); done.
    + intros i o' r' Hi Ho' Hr'. destruct (decide (i = n)) as [->|Hne].
      * rewrite lookup_insert. unfold on. congruence.
      * rewrite lookup_insert_ne by lia. apply H2; [lia|done|done].
    + intros i Hi. rewrite lookup_insert_ne by lia. apply H3. lia.
Qed.

(** ** Travel time constraints *)
Definition constraint (c : D) (stat : gmap N (gmap N (nat * D))) (x : N * N * oprm) : option srow :=
  let '(e, p, o) := x in
  if op_ch o then
    match get_stat stat e p with
    | Some (n, t) => Some (Row (dmul c (if decide (0 < n) then dquot t n else d0)) (Some (N.to_nat e)) None (N.to_nat p) (op_res o))
    | None => None
    end
  else None.
Lemma prep_tt_step (c : D) (stat : gmap N (gmap N (nat * D))) (rws : list srow) (k : nat) (x : N * N * oprm) :
  prep_tt d0 dmul dquot c stat (rws, k) x =
    match constraint c stat x with Some row => if decide (length rws <= k) then Exc else rbind (store rws k row) (λ rws, Ok (rws, S k)) | None => Ok (rws, k) end.
Proof. destruct x as [[e p] o]. cbn. destruct (op_ch o); cbn; [|done]. by destruct (get_stat stat e p) as [[n t]|]. Qed.
Lemma prep_tt_loop (c : D) (stat : gmap N (gmap N (nat * D))) (pl : list (N * N * oprm)) : ∀ pre rest,
  length (omap (constraint c stat) pl) <= length rest →
  rloop (prep_tt d0 dmul dquot c stat) pl (pre ++ rest, length pre) =
    Ok (pre ++ omap (constraint c stat) pl ++ drop (length (omap (constraint c stat) pl)) rest, length pre + length (omap (constraint c stat) pl)).
Proof.
  induction pl as [|[[e p] o] pl IH]; intros pre rest Hlen.
  - cbn. by rewrite Nat.add_0_r.
  - cbn [rloop]. rewrite prep_tt_step. cbn [omap list_omap] in Hlen |- *.
    destruct (constraint c stat (e, p, o)) as [row|]; cbn [rbind]; [|by apply IH].
    cbn [length] in Hlen. destruct rest as [|r0 rest]; [cbn in Hlen; lia|].
    rewrite decide_False by (rewrite app_length; cbn [length]; lia).
    rewrite store_lt by (rewrite app_length; cbn [length]; lia). cbn [rbind].
    rewrite insert_app_r_alt by lia. rewrite Nat.sub_diag. cbn [insert list_insert].
    change (row :: rest) with ([row] ++ rest). rewrite (app_assoc pre [row] rest).
    replace (S (length pre)) with (length (pre ++ [row])) by (rewrite app_length; cbn; lia).
    rewrite IH by (cbn [length] in Hlen; lia). cbn [length drop]. rewrite <- app_assoc. cbn [app]. f_equal. f_equal. rewrite app_length. cbn [length]. lia.
Qed.
Definition blank (r : srow) : srow := Row d0 None None (r_ph r) d0.
Lemma prep_fill_loop (rws : list srow) (k : nat) : k <= length rws →
  rloop (prep_fill d0) (seq k (length rws - k)) rws = Ok (take k rws ++ (blank <$> drop k rws)).
Proof.
  intros Hk. destruct (rloop_upd (prep_fill d0) (λ i, i) (λ _ r, blank r) (seq k (length rws - k)) rws) as (v & H1 & H2 & H3 & H4).
  - intros i v' r Hi%elem_of_seq Hv Hr. unfold prep_fill. rewrite (read_lookup _ _ _ Hr). cbn [rbind]. apply store_lt. by eapply lookup_lt_Some.
  - rewrite list_fmap_id. apply NoDup_seq.
  - intros i Hi%elem_of_seq. lia.
  - rewrite H1. f_equal. apply list_eq. intros i. destruct (decide (i < k)) as [Hi|Hi].
    + rewrite lookup_app_l by (rewrite take_length; lia). rewrite lookup_take by done. apply H4. rewrite list_fmap_id, elem_of_seq. lia.
    + rewrite lookup_app_r by (rewrite take_length; lia). rewrite take_length, Nat.min_l by lia. rewrite list_lookup_fmap, lookup_drop.
      replace (k + (i - k)) with i by lia. destruct (rws !! i) as [r|] eqn:Er; cbn.
      * apply H3; [|done]. apply elem_of_seq. apply lookup_lt_Some in Er. lia.
      * rewrite H4; [done|]. rewrite list_fmap_id, elem_of_seq. apply lookup_ge_None in Er. lia.
Qed.
Lemma constraint_len (c : D) (stat : gmap N (gmap N (nat * D))) (pl : list (N * N * oprm)) :
  length (omap (constraint c stat) pl) <= length (filter (λ x, op_ch x.2 = true) pl).
Proof.
  induction pl as [|[[e p] o] pl IH]; [done|]. cbn [omap list_omap]. rewrite filter_cons. cbn [snd].
  destruct (constraint c stat (e, p, o)) as [row|] eqn:E; [|destruct (decide _); cbn [length]; lia].
  cbn in E. destruct (op_ch o); [|done]. rewrite decide_True by done. cbn [length]. lia.

Qed.
End prep.
