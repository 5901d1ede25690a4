(** The waveform proxy (C84): what is answered to requests of waveforms, and when. *)
From Coq Require Import Ascii ZArith QArith Qround Qabs Lqa Qfield Sorting.Sorted.
From stdpp Require Import numbers list sets strings.
From Verif Require Import TimeWindow_Model Time_Model Trace_Model Trace_Props WaveCache_Model WaveCache_Props LoadTraces_Model LoadTraces_Props Proxy_Model.
Local Open Scope Q_scope.

(** ** Specification of the data source *)
Section spec.
Context {A : Type}.
Notation record := (trace stream A).
(** The time after the last sample, in microseconds *)
Definition record_end (r : record) : Q := sample_time r (length (t_data r)).
(** A record has data in a window without its end. *)
Definition meets (w : tw) (r : record) : Prop := inject_Z (t_start r) < inject_Z (w_end w) /\ inject_Z (w_start w) < record_end r.
Global Instance meets_dec w r : Decision (meets w r).
Proof.
  unfold meets. destruct (Qlt_le_dec (inject_Z (t_start r)) (inject_Z (w_end w))) as [H|H].
  - destruct (Qlt_le_dec (inject_Z (w_start w)) (record_end r)) as [K|K]; [by left|right; intros [_ L]; lra].
  - right. intros [L _]. lra.
Defined.
(** What was recorded of a stream, in the order of time. *)
Definition tape_ok (s : stream) (tape : list record) : Prop :=
  Forall (fun r => t_id r = s) tape /\ StronglySorted (fun r q => (t_start r < t_start q)%Z) tape /\
  (forall r q, r ∈ tape -> q ∈ tape -> t_freq r = t_freq q).
(** Nothing is missing between two records. *)
Inductive gapless : list record -> Prop :=
| gapless_one r : t_data r <> [] -> gapless [r]
| gapless_cons r q l : t_data r <> [] -> t_id q = t_id r -> t_freq q = t_freq r -> inject_Z (t_start q) == record_end r -> gapless (q :: l) -> gapless (r :: q :: l).
(** All the samples of such records *)
Definition whole (r : record) (l : list record) : record := MkTrace (t_id r) (t_start r) (t_freq r) (concat (t_data <$> r :: l)).
Definition call_stream (c : call) : stream := Stream (k_net c) (k_sta c) (k_loc c) (k_cha c).
(** A record stream answers with records of the streams asked for; it may answer with more
    than what is in the window, but not with less, and in any order. *)
Definition serves (tape : stream -> list record) (deliver : nat -> list call -> list record) : Prop := forall n calls,
  (forall r, r ∈ deliver n calls -> exists c, c ∈ calls /\ r ∈ tape (call_stream c)) /\
  (forall c r, c ∈ calls -> r ∈ tape (call_stream c) -> meets (k_tw c) r -> r ∈ deliver n calls).
(** A buffer for a window keeps the records that have data in it, sorted and each of them once. *)
Definition buffers (fill : tw -> list record -> list record) : Prop := forall s w tape l, tape_ok s tape ->
  (forall r, r ∈ l -> r ∈ tape) -> (forall r, r ∈ tape -> meets w r -> r ∈ l) -> fill w l = filter (meets w) tape.
(** Records without gaps are merged; all that they cover is available. *)
Definition merges (merge : list record -> option record) : Prop := forall r l, gapless (r :: l) -> merge (r :: l) = Some (whole r l).
Definition measures (availability : list record -> tw -> Q) : Prop := forall r l w, gapless (r :: l) ->
  (t_start r <= w_start w)%Z -> inject_Z (w_end w) <= record_end (whole r l) -> availability (r :: l) w == 100.
End spec.

(** ** Records without gaps *)
Section gapless.
Context {A : Type}.
Notation record := (trace stream A).
Implicit Types r q : record.
Lemma record_end_shift r q (l : list record) : t_freq q = t_freq r -> inject_Z (t_start q) == record_end r -> 0 < t_freq r ->
  forall i, sample_time (whole r (q :: l)) (length (t_data r) + i) == sample_time (whole q l) i.
Proof.
  intros Hf He Hp i. unfold sample_time, whole. cbn [t_start t_freq]. rewrite Hf, He. unfold record_end, sample_time.
  rewrite Nat2Z.inj_add, inject_Z_plus. field. lra.
Qed.
Lemma whole_data_cons r q l : t_data (whole r (q :: l)) = t_data r ++ t_data (whole q l).
Proof. reflexivity. Qed.
Lemma gapless_end r l : gapless (r :: l) -> 0 < t_freq r -> exists q, last (r :: l) = Some q /\ record_end (whole r l) == record_end q /\ t_freq q = t_freq r /\ t_data q <> [] /\ q ∈ r :: l.
Proof.
  revert r. induction l as [|q l IH]; intros r G Hf.
  - exists r. inversion G; subst. split; [done|]. split; [|split; [done|split; [done|left]]]. unfold record_end, whole, sample_time. cbn. by rewrite app_nil_r.
  - inversion G as [|r' q' l' Hd Hi Hfr He G']; subst. assert (0 < t_freq q) as Hq by by rewrite Hfr. destruct (IH q G' Hq) as (p & Hp & E & F & D & P).
    exists p. split; [exact Hp|]. split; [|split; [congruence|split; [done|by right]]]. rewrite <- E. unfold record_end. rewrite whole_data_cons, app_length. by apply record_end_shift.
Qed.
Lemma record_end_gt r : t_data r <> [] -> 0 < t_freq r -> inject_Z (t_start r) < record_end r.
Proof.
  intros Hd Hf. unfold record_end, sample_time. destruct (t_data r) as [|a d]; [done|]. cbn [length].
  assert (0 < inject_Z (Z.of_nat (S (length d))) / t_freq r * inject_Z 1000000); [|lra].
  rewrite <- (Qmult_0_l (inject_Z 1000000)). apply Qmult_lt_compat_r; [done|]. apply Qlt_shift_div_l; [done|]. rewrite Qmult_0_l. change 0 with (inject_Z 0). rewrite <- Zlt_Qlt. lia.
Qed.
Lemma gapless_forall r l : gapless (r :: l) -> Forall (fun q => t_id q = t_id r /\ t_freq q = t_freq r /\ t_data q <> []) (r :: l).
Proof.
  revert r. induction l as [|q l IH]; intros r G; inversion G as [|r' q' l' Hd Hi Hfr He G']; subst.
  - repeat constructor; done.
  - constructor; [done|]. specialize (IH q G'). eapply Forall_impl; [exact IH|]. cbn. intros x (E1 & E2 & E3). split; [congruence|]. split; congruence.
Qed.
Lemma gapless_after r l : gapless (r :: l) -> 0 < t_freq r -> Forall (fun q => record_end r <= inject_Z (t_start q)) l.
Proof.
  revert r. induction l as [|q l IH]; intros r G Hf; [constructor|]. inversion G as [|r' q' l' Hd Hi Hfr He G']; subst.
  assert (0 < t_freq q) as Hq by by rewrite Hfr. constructor; [lra|]. eapply Forall_impl; [exact (IH q G' Hq)|]. cbn. intros x Hx.
  assert (t_data q <> []) as Hqd by (inversion G'; done). pose proof (record_end_gt q Hqd Hq). lra.
Qed.
Lemma gapless_tape r l : gapless (r :: l) -> 0 < t_freq r -> tape_ok (t_id r) (r :: l).
Proof.
  intros G Hf. pose proof (gapless_forall r l G) as F. split; [eapply Forall_impl; [exact F|]; by intros x (E & _)|]. split.
  - revert r G Hf F. induction l as [|q l IH]; intros r G Hf F; [repeat constructor|]. pose proof (gapless_after _ _ G Hf) as Ha. inversion G as [|r' q' l' Hd Hi Hfr He G']; subst.
    assert (0 < t_freq q) as Hq by by rewrite Hfr. constructor; [apply (IH q G' Hq (gapless_forall _ _ G'))|].
    apply List.Forall_forall. intros x Hx. rewrite List.Forall_forall in Ha. specialize (Ha x Hx). pose proof (record_end_gt r Hd Hf). rewrite Zlt_Qlt. lra.
  - rewrite Forall_forall in F. intros x y Hx Hy. destruct (F x Hx) as (_ & -> & _), (F y Hy) as (_ & -> & _). done.
Qed.
(** The records that meet a window are consecutive *)
Lemma gapless_infix w r l : gapless (r :: l) -> 0 < t_freq r -> exists pre post, r :: l = pre ++ filter (meets w) (r :: l) ++ post /\
  Forall (fun q => record_end q <= inject_Z (w_start w)) pre /\ Forall (fun q => inject_Z (w_end w) <= inject_Z (t_start q)) post.
Proof.
  intros G Hf. pose proof (gapless_forall r l G) as F. revert r G Hf F. induction l as [|q l IH]; intros r G Hf F.
  - destruct (decide (meets w r)) as [M|M].
    + exists [], []. rewrite filter_cons_True, filter_nil by done. done.
    + rewrite filter_cons_False, filter_nil by done. destruct (Qlt_le_dec (inject_Z (w_start w)) (record_end r)) as [K|K].
      * exists [], [r]. split; [done|]. split; [constructor|]. constructor; [|constructor]. destruct (Qlt_le_dec (inject_Z (t_start r)) (inject_Z (w_end w))); [|done]. destruct M. done.
      * exists [r], []. split; [done|]. split; [|constructor]. constructor; [done|constructor].
  - pose proof (gapless_after _ _ G Hf) as Ha. inversion G as [|r' q' l' Hd Hi Hfr He G']; subst. assert (0 < t_freq q) as Hq by by rewrite Hfr.
    destruct (IH q G' Hq (gapless_forall _ _ G')) as (pre & post & E & P1 & P2). pose proof (record_end_gt r Hd Hf) as Hr.
    destruct (Qlt_le_dec (inject_Z (w_start w)) (record_end r)) as [K|K].
    + (* not before the window: nothing of the rest is *)
      assert (forall x, x ∈ q :: l -> inject_Z (w_start w) < record_end x) as Hx.
      { intros x Hx. rewrite Forall_forall in Ha. specialize (Ha x Hx). rewrite Forall_forall in F. destruct (F x ltac:(by right)) as (_ & Fx & Dx).
        assert (0 < t_freq x) as Px by by rewrite Fx. pose proof (record_end_gt x Dx Px). lra. }
      assert (pre = []) as ->. { destruct pre as [|x pre]; [done|]. apply Forall_cons in P1 as [P1 _]. specialize (Hx x). rewrite E in Hx. specialize (Hx ltac:(left)). lra. }
      cbn [app] in E. destruct (Qlt_le_dec (inject_Z (t_start r)) (inject_Z (w_end w))) as [L|L].
      * exists [], post. rewrite filter_cons_True by done. split; [cbn [app]; by rewrite E at 1|]. split; [constructor|done].
      * assert (filter (meets w) (q :: l) = []) as Hn.
        { destruct (filter (meets w) (q :: l)) as [|x f] eqn:Ef; [done|]. exfalso. assert (x ∈ filter (meets w) (q :: l)) as Hin by (rewrite Ef; left). apply elem_of_list_filter in Hin as [[M _] Hin].
          rewrite Forall_forall in Ha. specialize (Ha x Hin). lra. }
        exists [], (r :: post). rewrite filter_cons_False by (intros [M _]; lra). rewrite Hn in *. cbn [app] in *. split; [by rewrite E|]. split; [constructor|]. constructor; done.
    + exists (r :: pre), post. rewrite filter_cons_False by (intros [_ M]; lra). split; [cbn [app]; by rewrite E at 1|]. split; [|done]. constructor; done.
Qed.
Lemma gapless_app pre q l : gapless (pre ++ q :: l) -> gapless (q :: l) /\ match last pre with Some p => inject_Z (t_start q) == record_end p | None => True end.
Proof.
  induction pre as [|x pre IH]; intros G; [done|]. destruct pre as [|y pre].
  - cbn [app] in G. inversion G as [|? ? ? Hd Hi Hfr He G']; subst. done.
  - cbn [app] in G. inversion G as [|? ? ? Hd Hi Hfr He G']; subst. destruct (IH G') as [I1 I2]. split; [done|]. exact I2.
Qed.
Lemma gapless_prefix q l post : gapless (q :: l ++ post) -> gapless (q :: l).
Proof.
  revert q. induction l as [|x l IH]; intros q G.
  - constructor. cbn [app] in G. by inversion G.
  - cbn [app] in G. inversion G as [|? ? ? Hd Hi Hfr He G']; subst. constructor; [done..|]. by apply IH.
Qed.
(** The samples of the records from [q] on are those of all the records, at the same times *)
Lemma whole_shift r l pre q l2 : gapless (r :: l) -> 0 < t_freq r -> r :: l = pre ++ q :: l2 -> exists k, forall i, sample_time (whole r l) (k + i) == sample_time (whole q l2) i /\ t_data (whole r l) !! (k + i)%nat = t_data (whole q l2) !! i.
Proof.
  revert r l. induction pre as [|x pre IH]; intros r l G Hf E.
  - cbn [app] in E. injection E as -> ->. exists 0%nat. done.
  - cbn [app] in E. injection E as <- E. destruct l as [|y l]; [by destruct pre|]. inversion G as [|? ? ? Hd Hi Hfr He G']; subst. assert (0 < t_freq y) as Hy by by rewrite Hfr.
    destruct (IH y l G' Hy E) as (k & Hk). exists (length (t_data r) + k)%nat. intros i. destruct (Hk i) as [K1 K2]. rewrite <- Nat.add_assoc. split.
    + rewrite record_end_shift by done. exact K1.
    + rewrite whole_data_cons, lookup_app_r by lia. rewrite <- K2. f_equal. lia.
Qed.
End gapless.

(** ** The theorems *)
Section props.
Context {A : Type}.
Notation record := (trace stream A).
Variable availability : list record -> tw -> Q.
Variable merge : list record -> option record.
Variable fill : tw -> list record -> list record.
Variable ring : nat -> list record -> list record.
Variable deliver : nat -> list call -> list record.
Variable opens : nat -> bool.
Variable close : tw -> tw -> bool.
Variable groups : list request -> list (list request).
Variable order : list request_t -> list request_t.
Variable accepts : text -> tw -> record -> bool.
Notation contiguous_record := (contiguous_record availability merge).
Notation load_trace := (load_trace availability merge fill deliver opens).
Notation load_traces := (load_traces availability merge fill deliver opens close groups order accepts).
Notation answer_one := (answer_one availability merge fill accepts).

(** The requests and what they are: four codes without dots, the channel not empty, and a
    window in order *)
Definition proper (l : list (stream * tw)) : Prop :=
  Forall (fun x => stream_ok x.1 /\ s_cha x.1 <> []) l /\ Forall (fun x => (w_start x.2 <= w_end x.2)%Z) l.
Definition request_of (e : event A) : option request_t := match e with OnLoaded id w _ | OnFailed id w _ => Some (id, w) | OnUndef => None end.
Definition final (e : event A) : bool := match e with OnLoaded id w t => accepts id w t | OnFailed _ _ _ => true | OnUndef => true end.
Definition keeps_order : Prop := forall l, order l ≡ₚ l.

Lemma load_traces_total l : multimap_order groups -> proper l -> exists cs, connections close groups opens (length l) 0 (as_request <$> l) = Some cs /\
  load_traces (wanted l) = Some (concat (answer_one (concat (imap deliver cs)) <$> order (wanted l))) /\ 
  (cs = [] \/ forall n calls c, cs !! n = Some calls -> c ∈ calls -> exists x, x ∈ l /\ call_stream c = x.1) /\
  ((forall n, opens n = true) -> forall x, x ∈ l -> exists n calls c, cs !! n = Some calls /\ c ∈ calls /\ call_stream c = x.1 /\ w_contains (k_tw c) (extended x.2) = true) /\
  (opens 0%nat = false -> cs = []).
Proof using.
  intros HM [H1 H2].
  assert (forall fuel n rs, (length rs <= fuel)%nat -> exists cs, connections close groups opens fuel n rs = Some cs /\
     (forall m calls c, cs !! m = Some calls -> c ∈ calls -> exists r, r ∈ rs /\ call_stream c = Stream (q_net r) (q_sta r) (q_loc r) (q_cha r)) /\ (opens n = false -> cs = [])) as HC.
  { induction fuel as [|fuel IH]; intros n rs Hl.
    { destruct rs; [|cbn in Hl; lia]. exists []. split; [done|]. split; [|done]. intros m calls c [=]. }
    destruct rs as [|r0 l0]. { exists []. split; [done|]. split; [|done]. intros m calls c [=]. }
    set (rs := r0 :: l0) in *. assert (connections close groups opens (S fuel) n rs = if opens n then (let '(calls, rest) := connection close groups rs in cs ← connections close groups opens fuel (S n) rest; Some (calls :: cs)) else Some []) as -> by reflexivity.
    destruct (opens n) eqn:Eo. 2: { exists []. split; [done|]. split; [|done]. intros m calls c [=]. }
    pose proof (connection_spec close groups rs HM) as HS. 
    assert (forall c, c ∈ (connection close groups rs).1 -> exists r, r ∈ rs /\ call_stream c = Stream (q_net r) (q_sta r) (q_loc r) (q_cha r)) as Hcalls.
    { unfold connection. cbn [fst]. intros c Hc. apply elem_of_list_fmap in Hc as ([c' rest'] & -> & Hc). apply elem_of_list_omap in Hc as (g & Hg & Eg).
      destruct g as [|f g]; [done|]. cbn [one_group] in Eg. destruct (scan close f (q_tw f) g) as [w' rest0]. injection Eg as <- <-. exists f. split; [|done].
      destruct (HM rs) as (P & _). rewrite <- P. apply elem_of_list_In, in_concat. exists (f :: g). split; [by apply elem_of_list_In|by left]. }
    destruct (connection close groups rs) as [calls rest]. cbn [fst] in Hcalls. destruct HS as (C1 & C2 & C3).
    assert (0 < length (groups rs))%nat as Hg. { destruct (HM rs) as (P & _). destruct (groups rs); [|cbn; lia]. cbn in P. apply Permutation_length in P. done. }
    destruct (IH (S n) rest ltac:(lia)) as (cs & -> & I1 & I2). exists (calls :: cs). split; [done|]. split; [|done].
    intros [|m] calls' c Hm Hc; cbn [lookup list_lookup] in Hm; [injection Hm as <-; by apply Hcalls|]. destruct (I1 m calls' c Hm Hc) as (r & K1 & K2). exists r. split; [by apply C2|done]. }
  destruct (HC (length l) 0%nat (as_request <$> l) ltac:(by rewrite fmap_length)) as (cs & E & S & O). exists cs. split; [done|]. split.
  { unfold Proxy_Model.load_traces. rewrite make_requests_ok by done. cbn [mbind option_bind]. unfold wanted. rewrite fmap_length, E. done. }
  split; [right; intros n calls c Hn Hc; destruct (S n calls c Hn Hc) as (r & Hr & Es); apply elem_of_list_fmap in Hr as (x & -> & Hx); exists x; split; [done|]; rewrite Es; cbn; by destruct x as [[] ]|].
  split; [|exact O]. intros HO x Hx.
  destruct (connections_spec close groups opens (length l) 0 (as_request <$> l) HM HO ltac:(by rewrite fmap_length)) as (cs' & E' & _ & C & _). rewrite E in E'. injection E' as <-.
  destruct (C (as_request x)) as (calls & c & K1 & K2 & (E1 & E2 & E3 & E4 & E5)); [by apply elem_of_list_fmap_1|]. apply elem_of_list_lookup in K1 as [n K1]. exists n, calls, c.
  split; [done|]. split; [done|]. cbn in E1, E2, E3, E4. split; [unfold call_stream; rewrite E1, E2, E3, E4; by destruct x as [[] ]|exact E5].
Qed.

(** C84: every request is answered once and for all: with a trace that is accepted, or with a
    failure. Only a trace that is refused is followed by another answer, a failure. *)
Theorem C84_one_answer l : multimap_order groups -> keeps_order -> proper l ->
  exists evs, load_traces (wanted l) = Some evs /\
    (OnUndef ∉ evs -> omap request_of (List.filter final evs) ≡ₚ wanted l) /\
    (forall i id w t, evs !! i = Some (OnLoaded id w t) -> accepts id w t = false -> evs !! S i = Some (OnFailed id w CallbackThrew)).
Proof using.
  intros HM HO HP. destruct (load_traces_total l HM HP) as (cs & _ & E & _). eexists. split; [exact E|]. clear E. set (records := concat (imap deliver cs)). split.
  - intros HU. etransitivity; [|exact (HO (wanted l))]. induction (order (wanted l)) as [|[id w] rs IH]; [done|]. rewrite fmap_cons in *. cbn [concat] in *. rewrite List.filter_app, omap_app.
    apply not_elem_of_app in HU as [HU1 HU2]. rewrite (IH HU2). change ((id, w) :: rs) with ([(id, w)] ++ rs). f_equiv. unfold Proxy_Model.answer_one in *.
    destruct (contiguous_record _ _ _) as [t|e|]; [|done|set_solver]. destruct (accepts id w t) eqn:Ea; cbn [List.filter final]; rewrite Ea; done.
  - clear HP HO HM. induction (order (wanted l)) as [|[id' w'] rs IH]; intros i id w t; [by intros [=]|]. rewrite fmap_cons. cbn [concat].
    set (a := Proxy_Model.answer_one _ _ _ _ records (id', w')). assert (forall j, a !! j = Some (OnLoaded id w t) -> accepts id w t = false -> a !! S j = Some (OnFailed id w CallbackThrew)) as Ha.
    { unfold a, Proxy_Model.answer_one. intros j Hj Hacc. destruct (contiguous_record _ _ _) as [t'|e|].
      - destruct (accepts id' w' t') eqn:Ea.
        + destruct j as [|j]; [|done]. injection Hj as -> -> ->. congruence.
        + destruct j as [|[|j]]; [|done..]. injection Hj as -> -> ->. done.
      - destruct j; done.
      - destruct j; done. }
    destruct (decide (i < length a)%nat) as [Hi|Hi].
    + rewrite lookup_app_l by done. intros K Hacc. specialize (Ha i K Hacc). pose proof (lookup_lt_Some _ _ _ Ha). by rewrite lookup_app_l by lia.
    + rewrite lookup_app_r by lia. intros K Hacc. rewrite lookup_app_r by lia. rewrite Nat.sub_succ_l by lia. by apply (IH _ id w t).
Qed.

(** An event comes from one request *)
Lemma event_source cs l evs ev : evs = concat (answer_one (concat (imap deliver cs)) <$> order (wanted l)) -> keeps_order -> ev ∈ evs ->
  exists s w, (s, w) ∈ l /\ ev ∈ answer_one (concat (imap deliver cs)) (stream_id s, w).
Proof using.
  intros -> HO Hev. apply elem_of_list_In, in_concat in Hev as (a & Ha & Hev). apply elem_of_list_In, elem_of_list_fmap in Ha as (x & -> & Hx). rewrite (HO (wanted l)) in Hx.
  unfold wanted in Hx. apply elem_of_list_fmap in Hx as ([s w] & -> & Hx). exists s, w. split; [done|]. by apply elem_of_list_In.
Qed.
Lemma contiguous_loaded seq w m t : contiguous_record seq (Some w) m = Loaded t -> exists t0, merge seq = Some t0 /\ slice t0 w = SlTrue t.
Proof using.
  unfold Proxy_Model.contiguous_record. destruct seq as [|r seq]; [done|]. destruct (_ && _); [done|]. destruct (merge _) as [t0|]; [|done]. destruct (slice t0 w) eqn:E; intros [= <-]. by exists t0.
Qed.
(** C84: a trace that is delivered covers the window of its request, exceeds it by less than
    a sample at each end, and its samples are those of the records of the stream, merged. *)
Theorem C84_trace l evs id w t : multimap_order groups -> keeps_order -> proper l ->
  (forall seq t0, merge seq = Some t0 -> 0 < t_freq t0 /\ t_data t0 <> []) ->
  load_traces (wanted l) = Some evs -> OnLoaded id w t ∈ evs ->
  exists s records t0 k, (s, w) ∈ l /\ id = stream_id s /\ merge (fill (extended w) records) = Some t0 /\ Forall (fun r => stream_id (t_id r) = id) records /\
    Trace_Props.window_ok t0 t w /\ samples_ok t0 t k /\ t_id t = t_id t0 /\ t_freq t = t_freq t0.
Proof using.
  intros HM HO HP Hmerge E Hev. destruct (load_traces_total l HM HP) as (cs & _ & E' & _). rewrite E in E'. injection E' as Eevs.
  destruct (event_source cs l evs _ Eevs HO Hev) as (s & w' & Hl & Ha). unfold Proxy_Model.answer_one in Ha.
  set (seq := fill (extended w') _) in Ha. destruct (contiguous_record seq (Some w') minAvailability) as [t'|e|] eqn:Ec; [|by apply elem_of_list_singleton in Ha..].
  assert (id = stream_id s /\ w = w' /\ t = t') as (-> & -> & ->). { destruct (accepts _ _ _); [apply elem_of_list_singleton in Ha; by injection Ha|]. apply elem_of_cons in Ha as [Ha|Ha%elem_of_list_singleton]; [by injection Ha|done]. }
  destruct (contiguous_loaded _ _ _ _ Ec) as (t0 & K1 & K2). destruct (Hmerge _ _ K1) as [Hf Hd]. destruct HP as [_ HP]. rewrite Forall_forall in HP. specialize (HP _ Hl).
  destruct (C48_slice t0 w' t' Hf HP Hd K2) as (S1 & S2 & S3 & S4 & k & S5). exists s, (filter (fun r => stream_id (t_id r) = stream_id s) (concat (imap deliver cs))), t0, k.
  split; [done|]. split; [done|]. split; [exact K1|]. split; [|done]. apply Forall_forall. intros r Hr. by apply elem_of_list_filter in Hr as [Hr _].
Qed.

(** The records that reach the buffer of a request *)
Variable tape : stream -> list record.
Lemma single_buffer s w : serves tape deliver -> buffers fill -> tape_ok s (tape s) ->
  fill (extended w) (deliver 0%nat [Call (s_net s) (s_sta s) (s_loc s) (s_cha s) (extended w)]) = filter (meets (extended w)) (tape s).
Proof using.
  intros HS HB HT. destruct (HS 0%nat [Call (s_net s) (s_sta s) (s_loc s) (s_cha s) (extended w)]) as [S1 S2]. apply (HB s); [done| |].
  - intros r Hr. destruct (S1 r Hr) as (c & Hc & K). apply elem_of_list_singleton in Hc as ->. unfold call_stream in K. cbn in K. by destruct s.
  - intros r Hr M. eapply (S2 (Call (s_net s) (s_sta s) (s_loc s) (s_cha s) (extended w))); [left| |exact M]. unfold call_stream. cbn. by destruct s.
Qed.
Lemma meets_mono w w' (r : record) : w_contains w w' = true -> meets w' r -> meets w r.
Proof using.
  unfold w_contains, meets. rewrite andb_true_iff, !Z.leb_le. intros [H1 H2] [K1 K2]. rewrite !Zle_Qle in *. lra.
Qed.
Lemma batch_buffer l cs s w : multimap_order groups -> proper l -> (forall n, opens n = true) -> serves tape deliver -> buffers fill -> (forall s, tape_ok s (tape s)) -> (s, w) ∈ l ->
  connections close groups opens (length l) 0 (as_request <$> l) = Some cs ->
  fill (extended w) (filter (fun r => stream_id (t_id r) = stream_id s) (concat (imap deliver cs))) = filter (meets (extended w)) (tape s).
Proof using Type accepts availability merge order.
  intros HM HP HO HS HB HT Hl Ecs. destruct (load_traces_total l HM HP) as (cs' & E & _ & Hask & Hcov & _). rewrite Ecs in E. injection E as <-. specialize (Hcov HO).
  assert (forall r, r ∈ concat (imap deliver cs) <-> exists n calls, cs !! n = Some calls /\ r ∈ deliver n calls) as Hrec.
  { intros r. rewrite elem_of_list_In, in_concat. split.
    - intros (x & Hx & Hr). apply elem_of_list_In, elem_of_lookup_imap in Hx as (n & calls & -> & Hn). exists n, calls. split; [done|]. by apply elem_of_list_In.
    - intros (n & calls & Hn & Hr). exists (deliver n calls). split; [apply elem_of_list_In, elem_of_lookup_imap; by exists n, calls|by apply elem_of_list_In]. }
  apply (HB s); [done| |].
  - intros r Hr. apply elem_of_list_filter in Hr as [Hid Hr]. apply Hrec in Hr as (n & calls & Hn & Hr). destruct (HS n calls) as [S1 _]. destruct (S1 r Hr) as (c & Hc & Hr').
    destruct Hask as [->|Hask]; [done|]. destruct (Hask n calls c Hn Hc) as (x & Hx & Ex). destruct (HT (call_stream c)) as [HT1 _]. rewrite Forall_forall in HT1. pose proof (HT1 r Hr') as Eid.
    destruct HP as [HP _]. rewrite Forall_forall in HP. destruct (HP _ Hx) as [O1 _]. destruct (HP _ Hl) as [O2 _]. cbn [fst] in O2.
    assert (call_stream c = s) as <-. { apply stream_id_inj; [by rewrite Ex|done|congruence]. } done.
  - intros r Hr M. destruct (HT s) as [HT1 _]. rewrite Forall_forall in HT1. apply elem_of_list_filter. split; [by rewrite (HT1 r Hr)|]. apply Hrec.
    destruct (Hcov _ Hl) as (n & calls & c & Hn & Hc & Es & Hw). cbn [fst snd] in Es, Hw. exists n, calls. split; [done|]. destruct (HS n calls) as [_ S2]. apply (S2 c r Hc); [by rewrite Es|]. by eapply meets_mono.
Qed.
Lemma answer_in l cs s w ev : keeps_order -> (s, w) ∈ l -> ev ∈ answer_one (concat (imap deliver cs)) (stream_id s, w) ->
  ev ∈ concat (answer_one (concat (imap deliver cs)) <$> order (wanted l)).
Proof using.
  intros HO Hl Hev. apply elem_of_list_In, in_concat. eexists. split; [|by apply elem_of_list_In]. apply elem_of_list_In, elem_of_list_fmap. exists (stream_id s, w). split; [done|].
  rewrite (HO (wanted l)). unfold wanted. apply elem_of_list_fmap. by exists (s, w).
Qed.
(** C84: many requests at once are answered as if each were made alone, however they are
    merged, distributed over connections and iterated. *)
Theorem C84_batch_equals_single l evs s w : multimap_order groups -> keeps_order -> proper l -> (forall n, opens n = true) ->
  serves tape deliver -> buffers fill -> (forall s, tape_ok s (tape s)) -> load_traces (wanted l) = Some evs -> (s, w) ∈ l ->
  (forall t, load_trace w s = Loaded t <-> OnLoaded (stream_id s) w t ∈ evs) /\
  (forall e, load_trace w s = Failed e -> OnFailed (stream_id s) w e ∈ evs) /\
  (forall e, e <> CallbackThrew -> OnFailed (stream_id s) w e ∈ evs -> load_trace w s = Failed e).
Proof using.
  intros HM HO HP Hop HS HB HT E Hl. destruct (load_traces_total l HM HP) as (cs & Ecs & E' & _). rewrite E in E'. injection E' as Eevs.
  assert (forall s' w', (s', w') ∈ l -> answer_one (concat (imap deliver cs)) (stream_id s', w') = match load_trace w' s' with
     | Loaded t => if accepts (stream_id s') w' t then [OnLoaded (stream_id s') w' t] else [OnLoaded (stream_id s') w' t; OnFailed (stream_id s') w' CallbackThrew]
     | Failed e => [OnFailed (stream_id s') w' e] | Undef => [OnUndef] end) as HA.
  { intros s' w' Hl'. unfold Proxy_Model.answer_one, Proxy_Model.load_trace. rewrite (batch_buffer l cs s' w') by done. rewrite Hop, single_buffer by done. done. }
  assert (forall s' w' ev, (s', w') ∈ l -> ev ∈ answer_one (concat (imap deliver cs)) (stream_id s', w') -> request_of ev = Some (stream_id s, w) -> (s', w') = (s, w)) as Hsame.
  { intros s' w' ev Hl' Hev Hr. rewrite (HA s' w' Hl') in Hev. assert ((stream_id s', w') = (stream_id s, w)) as Eid.
    { destruct (load_trace w' s') as [t'|e'|]; [|by apply elem_of_list_singleton in Hev as ->; injection Hr as <- <-|by apply elem_of_list_singleton in Hev as ->].
      destruct (accepts _ _ _); [apply elem_of_list_singleton in Hev as ->; by injection Hr as <- <-|]. apply elem_of_cons in Hev as [->|Hev%elem_of_list_singleton]; [by injection Hr as <- <-|]. subst ev. by injection Hr as <- <-. }
    injection Eid as E1 ->. f_equal. destruct HP as [HP _]. rewrite Forall_forall in HP. destruct (HP _ Hl') as [O1 _], (HP _ Hl) as [O2 _]. by apply stream_id_inj. }
  split; [|split].
  - intros t. split.
    + intros Ht. rewrite Eevs. apply answer_in with (s := s) (w := w); [done|done|]. rewrite (HA s w Hl), Ht. destruct (accepts _ _ _); left.
    + intros Hev. destruct (event_source cs l evs _ Eevs HO Hev) as (s' & w' & Hl' & Hev'). pose proof (Hsame s' w' _ Hl' Hev' eq_refl) as Eq. injection Eq as -> ->. rewrite (HA s w Hl) in Hev'.
      destruct (load_trace w s) as [t'|e'|]; [|by apply elem_of_list_singleton in Hev'..]. destruct (accepts _ _ _); [apply elem_of_list_singleton in Hev'; by injection Hev' as ->|]. apply elem_of_cons in Hev' as [Hev'|Hev'%elem_of_list_singleton]; [by injection Hev' as ->|done].
  - intros e Ht. rewrite Eevs. apply answer_in with (s := s) (w := w); [done|done|]. rewrite (HA s w Hl), Ht. left.
  - intros e Hne Hev. destruct (event_source cs l evs _ Eevs HO Hev) as (s' & w' & Hl' & Hev'). pose proof (Hsame s' w' _ Hl' Hev' eq_refl) as Eq. injection Eq as -> ->. rewrite (HA s w Hl) in Hev'.
    destruct (load_trace w s) as [t'|e'|].
    + destruct (accepts _ _ _); [by apply elem_of_list_singleton in Hev'|]. apply elem_of_cons in Hev' as [Hev'|Hev'%elem_of_list_singleton]; [done|by injection Hev' as ->].
    + apply elem_of_list_singleton in Hev'. by injection Hev' as ->.
    + by apply elem_of_list_singleton in Hev'.
Qed.

(** C84: a window that was recorded without gaps is delivered, with the recorded samples at
    the recorded times, if it is not shorter than a hundred samples. *)
Theorem C84_complete w s r l : serves tape deliver -> buffers fill -> merges merge -> measures availability -> opens 0%nat = true ->
  tape s = r :: l -> t_id r = s -> gapless (r :: l) -> 0 < t_freq r ->
  (t_start r <= w_start w <= w_end w)%Z -> inject_Z (w_end w) <= sample_time (whole r l) (length (t_data (whole r l)) - 1) ->
  1 / t_freq r * inject_Z 1000000 <= inject_Z (Z.quot (w_length w) 100) ->
  exists t k, load_trace w s = Loaded t /\ t_id t = s /\ t_freq t = t_freq r /\ Trace_Props.window_ok (whole r l) t w /\
    forall i x, t_data t !! i = Some x -> t_data (whole r l) !! (k + i)%nat = Some x /\ Qabs (sample_time t i - sample_time (whole r l) (k + i)) <= 1 # 2.
Proof using.
  intros HS HB HM HV Hop Ht Hid G Hf [Hw1 Hw2] Hend Hper. unfold Proxy_Model.load_trace. rewrite Hop.
  rewrite single_buffer; [|done|done|rewrite Ht; subst s; by apply gapless_tape]. rewrite Ht.
  assert (w_start (extended w) = w_start w /\ w_end (extended w) = w_end w + Z.quot (w_length w) 100)%Z as [Ew1 Ew2].
  { unfold extended, w_extend, mk_tw, set_end. cbn [w_start w_end]. assert (0 <= Z.quot (w_length w) 100)%Z by (apply Z.quot_pos; unfold w_length; lia). split; [lia|]. destruct (Z.ltb_spec (w_end w + Z.quot (w_length w) 100) (w_start w - 0)); lia. }
  destruct (gapless_infix (extended w) r l G Hf) as (pre & post & E & P1 & P2). rewrite Ew1 in P1. rewrite Ew2 in P2.
  assert (0 < 1 / t_freq r * inject_Z 1000000) as Hpos. { rewrite <- (Qmult_0_l (inject_Z 1000000)). apply Qmult_lt_compat_r; [done|]. apply Qlt_shift_div_l; lra. }
  pose proof (gapless_forall r l G) as F. rewrite Forall_forall in F.
  assert (forall (p : record) lp, gapless (p :: lp) -> 0 < t_freq p -> sample_time (whole p lp) (length (t_data (whole p lp)) - 1) == record_end (whole p lp) - 1 / t_freq p * inject_Z 1000000) as Hlast.
  { intros p lp Gp Hp. assert (0 < length (t_data (whole p lp)))%nat as Hlen. { unfold whole. cbn [t_data fmap list_fmap concat]. rewrite app_length. destruct (t_data p) eqn:Ed; [by inversion Gp|cbn; lia]. }
    unfold record_end, sample_time. revert Hlen. generalize (length (t_data (whole p lp))). intros n Hlen. change (t_start (whole p lp)) with (t_start p). change (t_freq (whole p lp)) with (t_freq p).
    rewrite Nat2Z.inj_sub by lia. unfold Z.sub. rewrite inject_Z_plus, inject_Z_opp. change (inject_Z (Z.of_nat 1)) with 1. field. lra. }
  (* the start of what follows [pre] *)
  assert (forall q l2, r :: l = pre ++ q :: l2 -> inject_Z (t_start q) <= inject_Z (w_start w)) as Hstart.
  { intros q l2 Eq. destruct (last pre) as [p|] eqn:Lp.
    - rewrite Eq in G. destruct (gapless_app _ _ _ G) as [_ K]. rewrite Lp in K. rewrite Forall_forall in P1. rewrite K. apply P1. apply last_Some in Lp as (pre' & ->). apply elem_of_app. right. left.
    - apply last_None in Lp as ->. cbn [app] in Eq. injection Eq as -> ->. rewrite <- Zle_Qle. lia. }
  destruct (filter (meets (extended w)) (r :: l)) as [|q sub] eqn:Esub.
  { exfalso. cbn [app] in E. destruct post as [|q post].
    - rewrite app_nil_r in E. rewrite Hlast in Hend by done. destruct (gapless_end r l G Hf) as (p & _ & Ep & _ & _ & Hp). rewrite Ep in Hend.
      rewrite E in Hp. rewrite Forall_forall in P1. specialize (P1 p Hp). rewrite Zle_Qle in Hw2. lra.
    - specialize (Hstart q post E). apply Forall_cons in P2 as [P2 _]. rewrite inject_Z_plus in P2. rewrite Zle_Qle in Hw2. lra. }
  cbn [app] in E. pose proof (Hstart q (sub ++ post) E) as Hq. rewrite <- Zle_Qle in Hq.
  assert (gapless (q :: sub ++ post)) as G2 by (rewrite E in G; by apply gapless_app in G as [G _]). pose proof (gapless_prefix _ _ _ G2) as G3.
  assert (q ∈ r :: l) as Hin by (rewrite E; apply elem_of_app; right; left). destruct (F q Hin) as (Fid & Ffr & Fd). assert (0 < t_freq q) as Hfq by by rewrite Ffr.
  assert (inject_Z (w_end w) <= sample_time (whole q sub) (length (t_data (whole q sub)) - 1)) as Hendq.
  { rewrite Hlast by done. rewrite Ffr. destruct post as [|x post].
    - rewrite app_nil_r in E. destruct (gapless_end q sub G3 Hfq) as (p & Lp & Ep & _). destruct (gapless_end r l G Hf) as (p' & Lp' & Ep' & _). rewrite Hlast in Hend by done. rewrite Ep' in Hend. rewrite Ep.
      assert (p = p') as <-; [|done]. rewrite E, last_app, Lp in Lp'. by injection Lp'.
    - apply Forall_cons in P2 as [P2 _]. rewrite inject_Z_plus in P2. destruct (gapless_end q sub G3 Hfq) as (p & Lp & Ep & _). rewrite Ep.
      change (q :: sub ++ x :: post) with ((q :: sub) ++ x :: post) in G2. destruct (gapless_app _ _ _ G2) as [_ K]. rewrite Lp in K. rewrite <- K. lra. }
  assert (t_data (whole q sub) <> []) as Hd. { unfold whole. cbn [t_data fmap list_fmap concat]. destruct (t_data q); done. }
  destruct (C48_succeeds (whole q sub) w Hfq (conj Hq Hw2) Hd Hendq) as (t & Es).
  destruct (C48_slice (whole q sub) w t Hfq Hw2 Hd Es) as (S1 & S2 & S3 & S4 & k & S5).
  destruct (whole_shift r l pre q (sub ++ post) G Hf E) as (k0 & Hk0). exists t, (k0 + k)%nat. split.
  { unfold Proxy_Model.contiguous_record. assert (negb (Qle_bool minAvailability (availability (q :: sub) w)) = false) as ->.
    { apply negb_false_iff, Qle_bool_iff. rewrite (HV q sub w G3 Hq); [done|]. rewrite Hlast in Hendq by done. rewrite Ffr in Hendq. lra. }
    rewrite andb_false_r. rewrite (HM q sub G3), Es. done. }
  split; [rewrite S1; unfold whole; cbn [t_id]; congruence|]. split; [rewrite S2; unfold whole; cbn [t_freq]; done|]. split.
  { unfold Trace_Props.window_ok in *. cbn [whole t_freq] in *. by rewrite Ffr in S4. }
  intros i x Hx. destruct (S5 i x Hx) as [K1 K2]. destruct (Hk0 (k + i)%nat) as [J1 J2]. rewrite <- Nat.add_assoc. split.
  - rewrite J2. unfold whole. cbn [t_data]. rewrite app_comm_cons, fmap_app, concat_app. rewrite lookup_app_l; [exact K1|]. by eapply lookup_lt_Some.
  - rewrite J1. exact K2.
Qed.

(** C84: without connection a single request fails, and a batch answers that there is no data
    for every one of its requests. *)
Theorem C84_not_opened l s w : multimap_order groups -> keeps_order -> proper l -> opens 0%nat = false -> (forall w, fill w [] = []) ->
  load_trace w s = Failed NotOpened /\
  exists evs, load_traces (wanted l) = Some evs /\ evs ≡ₚ (fun x => OnFailed (stream_id x.1) x.2 NoData) <$> l.
Proof using.
  intros HM HO HP Hop Hfill. split; [unfold Proxy_Model.load_trace; by rewrite Hop|]. destruct (load_traces_total l HM HP) as (cs & _ & E & _ & _ & Hcs). rewrite (Hcs Hop) in E.
  eexists. split; [exact E|]. clear E. cbn [imap concat]. transitivity ((fun x : request_t => OnFailed (A := A) x.1 x.2 NoData) <$> order (wanted l)).
  - induction (order (wanted l)) as [|[id w'] rs IH]; [done|]. rewrite !fmap_cons. cbn [concat]. unfold Proxy_Model.answer_one at 1. rewrite filter_nil, Hfill. cbn [Proxy_Model.contiguous_record app fst snd]. apply perm_skip, IH.
  - rewrite (HO (wanted l)). unfold wanted. rewrite <- list_fmap_compose. done.
Qed.

(** C84: a trace that is written is read back. *)
Theorem C84_write_read t : t_data t <> [] -> merges merge -> (forall r, ring 1 [r] = [r]) -> read_trace availability merge ring (Some <$> write_trace t) = Some (Loaded t).
Proof using.
  intros Hd HM HR. unfold read_trace, write_trace. cbn [fmap list_fmap mapM mbind option_bind mret option_ret id length]. rewrite HR. unfold Proxy_Model.contiguous_record.
  rewrite (HM t []) by by constructor. f_equal. f_equal. unfold whole. cbn [fmap list_fmap concat]. rewrite app_nil_r. by destruct t.
Qed.
End props.

(** ** With the loader of batches *)
Section loader.
Context {A : Type}.
Notation record := (trace stream A).
Variable availability : list record -> tw -> Q.
Variable merge : list record -> option record.
Variable fill : tw -> list record -> list record.
Variable deliver : nat -> list call -> list record.
Variable opens : nat -> bool.
Variable close : tw -> tw -> bool.
Variable groups : list request -> list (list request).
Variable order : list request_t -> list request_t.
Variable iteration : list (text * record) -> list (text * record).
Variable tape : stream -> list record.
Notation load_trace := (load_trace availability merge fill deliver opens).
Notation load_traces := (load_traces availability merge fill deliver opens close groups order (fun _ _ _ => true)).
(** The callbacks of the proxy, as the loader sees them *)
Definition callbacks (l : list request_t) : list (text * tw * option record) :=
  match load_traces l with
  | Some evs => omap (fun e => match e with OnLoaded id w t => Some (id, w, Some t) | OnFailed id w _ => Some (id, w, None) | OnUndef => None end) evs
  | None => []
  end.
(** With a whole number of microseconds between samples a window inside a trace can be cut out *)
Lemma slice_whole_period (t : record) w P : 0 < t_freq t -> 1 / t_freq t * inject_Z 1000000 == inject_Z P -> t_data t <> [] -> (w_start w <= w_end w)%Z ->
  w_contains (time_window t) w = true -> exists u, slice t w = SlTrue u.
Proof using.
  intros Hf HP Hd Hw Hc. unfold w_contains, time_window, mk_tw, set_end in Hc. cbn [w_start w_end] in Hc. apply andb_true_iff in Hc as [H1 H2]. apply Z.leb_le in H1, H2.
  assert (0 < length (t_data t))%nat as Hlen by (destruct (t_data t); [done|cbn; lia]).
  assert (inject_Z (end_time t) == sample_time t (length (t_data t) - 1) /\ (t_start t <= end_time t)%Z) as [E1 E2].
  { unfold end_time. rewrite decide_False by lia. unfold secToDur, sample_count. set (n := (Z.of_nat (length (t_data t)) - 1)%Z). assert (0 <= n)%Z by lia.
    assert (inject_Z n / t_freq t * inject_Z 1000000 == inject_Z (n * P)) as En. { rewrite inject_Z_mult, <- HP. field. lra. }
    assert (qround (inject_Z n / t_freq t * inject_Z 1000000) = n * P)%Z as ->. { apply Z.le_antisymm; [apply qround_le|apply qround_ge]; rewrite En; apply Qle_refl. }
    assert (0 <= P)%Z. { rewrite Zle_Qle, <- HP. change (inject_Z 0) with 0. apply Qmult_le_0_compat; [|done]. apply Qle_shift_div_l; lra. } split; [|nia].
    unfold sample_time. rewrite inject_Z_plus, <- En. rewrite Nat2Z.inj_sub by lia. done. }
  apply C48_succeeds; [done|lia|done|]. rewrite <- E1, <- Zle_Qle. destruct (Z.ltb_spec (end_time t) (t_start t)); lia.
Qed.
(** What is delivered of a stream without gaps *)
Lemma loaded_from_tape s r l w t : serves tape deliver -> buffers fill -> merges merge -> tape s = r :: l -> t_id r = s -> gapless (r :: l) -> 0 < t_freq r -> (w_start w <= w_end w)%Z ->
  load_trace w s = Loaded t -> t_freq t = t_freq r /\ t_data t <> [] /\ w_contains (time_window t) w = true /\
    exists k, samples_ok (whole r l) t k.
Proof using.
  intros HS HB HM Ht Hid G Hf Hw. unfold Proxy_Model.load_trace. destruct (opens 0%nat); [|done].
  rewrite (single_buffer fill deliver tape); [|done|done|rewrite Ht; subst s; by apply gapless_tape]. rewrite Ht. intros Hc.
  destruct (contiguous_loaded availability merge _ _ _ _ Hc) as (t0 & K1 & K2). destruct (gapless_infix (extended w) r l G Hf) as (pre & post & E & _).
  destruct (filter (meets (extended w)) (r :: l)) as [|q sub] eqn:Esub; [done|]. cbn [app] in E.
  assert (gapless (q :: sub ++ post)) as G2 by (rewrite E in G; by apply gapless_app in G as [G _]). pose proof (gapless_prefix _ _ _ G2) as G3.
  rewrite (HM q sub G3) in K1. injection K1 as <-. pose proof (gapless_forall r l G) as F. rewrite Forall_forall in F. destruct (F q) as (Fid & Ffr & Fd); [rewrite E; apply elem_of_app; right; left|].
  assert (0 < t_freq (whole q sub)) as Hfq by (change (t_freq (whole q sub)) with (t_freq q); by rewrite Ffr). assert (t_data (whole q sub) <> []) as Hd. { unfold whole. cbn [t_data fmap list_fmap concat]. destruct (t_data q); done. }
  destruct (C48_slice _ w t Hfq Hw Hd K2) as (S1 & S2 & S3 & (W1 & W2 & _) & k & S5). split; [rewrite S2; exact Ffr|]. split; [done|]. split.
  { unfold w_contains, time_window, mk_tw, set_end. cbn [w_start w_end]. apply andb_true_iff. split; [by apply Z.leb_le|]. apply Z.leb_le. destruct (Z.ltb_spec (end_time t) (t_start t)); lia. }
  destruct (whole_shift r l pre q (sub ++ post) G Hf E) as (k0 & Hk0). exists (k0 + k)%nat. intros i x Hx. destruct (S5 i x Hx) as [J1 J2]. destruct (Hk0 (k + i)%nat) as [I1 I2]. rewrite <- Nat.add_assoc. split.
  - rewrite I2. unfold whole. cbn [t_data]. rewrite app_comm_cons, fmap_app, concat_app. rewrite lookup_app_l; [exact J1|]. by eapply lookup_lt_Some.
  - rewrite I1. exact J2.
Qed.
(** C84: after the loader of batches has loaded its requests, every one of them whose stream
    was recorded without gaps is answered with a trace that covers its window and has the
    recorded samples at the recorded times, whatever else was requested. *)
Theorem C84_batch_loader b l s w r tl P : multimap_order groups -> (forall l, order l ≡ₚ l) -> (forall l x, x ∈ iteration l <-> x ∈ l) -> proper l -> (forall n, opens n = true) ->
  serves tape deliver -> buffers fill -> (forall s, tape_ok s (tape s)) -> merges merge -> measures availability ->
  b_loaded b = false -> b_traces b = [] -> b_requests b = wanted l -> (s, w) ∈ l ->
  (forall s' w', (s', w') ∈ l -> forall t, load_trace w' s' = Loaded t -> 0 < t_freq t) ->
  tape s = r :: tl -> gapless (r :: tl) -> 0 < t_freq r -> 1 / t_freq r * inject_Z 1000000 == inject_Z P ->
  (t_start r <= w_start w <= w_end w)%Z -> inject_Z (w_end w) <= sample_time (whole r tl) (length (t_data (whole r tl)) - 1) -> (100 * P <= w_length w)%Z ->
  exists t k, (batch_get iteration (batch_load callbacks b) w s).1 = Got t /\ (t_start t <= w_start w)%Z /\ (w_end w <= end_time t)%Z /\
    forall i x, t_data t !! i = Some x -> t_data (whole r tl) !! (k + i)%nat = Some x /\ Qabs (sample_time t i - sample_time (whole r tl) (k + i)) <= 1.
Proof using.
  intros HM HO HI HP Hop HS HB HT Hmerge HV Hb1 Hb2 Hb3 Hl Hfreq Ht G Hf HPer Hw Hend Hlen.
  assert (t_id r = s) as Hid. { destruct (HT s) as [K _]. rewrite Ht in K. by apply Forall_cons in K as [K _]. }
  destruct (load_traces_total availability merge fill deliver opens close groups order (fun _ _ _ => true) l HM HP) as (cs & _ & Eevs & _). set (evs := concat _) in Eevs. clearbody evs.
  assert (forall s' w', (s', w') ∈ l -> forall t, load_trace w' s' = Loaded t <-> OnLoaded (stream_id s') w' t ∈ evs) as Hbs.
  { intros s' w' Hl'. apply (C84_batch_equals_single availability merge fill deliver opens close groups order (fun _ _ _ => true) tape l evs s' w'); done. }
  assert (forall id w' t, (id, w', Some t) ∈ callbacks (wanted l) -> exists s', (s', w') ∈ l /\ id = stream_id s' /\ load_trace w' s' = Loaded t) as Hcb.
  { intros id w' t K. unfold callbacks in K. rewrite Eevs in K. apply elem_of_list_omap in K as (e & He & Ee). destruct e as [id' w'' t'| |]; [|done..]. injection Ee as -> -> ->.
    destruct (load_traces_total availability merge fill deliver opens close groups order (fun _ _ _ => true) l HM HP) as (cs' & _ & Eevs' & _). rewrite Eevs in Eevs'. injection Eevs' as Eevs'.
    destruct (event_source availability merge fill deliver order (fun _ _ _ => true) cs' l evs _ Eevs' HO He) as (s' & w'' & Hl' & Ha). exists s'.
    assert ((id, w') = (stream_id s', w'')) as E2. { unfold Proxy_Model.answer_one in Ha. destruct (contiguous_record _ _ _ _ _); apply elem_of_list_singleton in Ha; [by injection Ha as -> -> _|done..]. }
    injection E2 as -> ->. split; [done|]. split; [done|]. by apply Hbs. }
  assert (forall w' t, (s, w') ∈ l -> load_trace w' s = Loaded t -> t_freq t = t_freq r /\ t_data t <> [] /\ w_contains (time_window t) w' = true /\ exists k, samples_ok (whole r tl) t k) as Hft.
  { intros w' t Hl' E. apply (loaded_from_tape s r tl w' t); try done. destruct HP as [_ HP]. rewrite Forall_forall in HP. by apply (HP _ Hl'). }
  assert (forall t, delivered (callbacks (wanted l)) (stream_id s) t -> t_freq t = t_freq r /\ t_data t <> [] /\ exists k, samples_ok (whole r tl) t k) as Hdel.
  { intros t (w' & K). destruct (Hcb _ _ _ K) as (s' & Hl' & Es & E). destruct HP as [HP _]. rewrite Forall_forall in HP. destruct (HP _ Hl') as [O1 _], (HP _ Hl) as [O2 _]. apply stream_id_inj in Es; [|done..]. cbn [fst] in Es. subst s'.
    destruct (Hft w' t Hl' E) as (K1 & K2 & _ & K3). done. }
  destruct (C84_complete availability merge fill deliver opens tape w s r tl) as (t0 & k0 & E0 & _); try done.
  { rewrite HPer, <- Zle_Qle. apply Z.quot_le_lower_bound; lia. }
  destruct (Hft w t0 Hl E0) as (_ & _ & Hc0 & _).
  assert (delivered (callbacks (wanted l)) (stream_id s) t0) as Hd0. { exists w. unfold callbacks. rewrite Eevs. apply elem_of_list_omap. exists (OnLoaded (stream_id s) w t0). split; [by apply Hbs|done]. }
  assert (match b_requests b with [] => [] | l0 => callbacks l0 end = callbacks (wanted l)) as Ecalls. { rewrite Hb3. destruct (wanted l) eqn:E; [|done]. unfold wanted in E. apply fmap_nil_inv in E. subst l. by apply elem_of_nil in Hl. }
  pose proof (C46_answer_partial callbacks iteration b w s HI Hb1 Hb2 (proj2 Hw)) as HA. cbv zeta in HA. rewrite Ecalls in HA.
  assert (forall id w' t, (id, w', Some t) ∈ callbacks (b_requests b) -> 0 < t_freq t) as Hfr. { rewrite Hb3. intros id w' t K. destruct (Hcb _ _ _ K) as (s' & Hl' & _ & E). by eapply Hfreq. }
  specialize (HA Hfr). destruct (batch_get iteration (batch_load callbacks b) w s).1 as [| |t'].
  - exfalso. destruct HA as [HA|(t & K1 & K2 & K3)]; [specialize (HA t0 Hd0); congruence|]. destruct (Hdel t K1) as (F1 & F2 & _).
    destruct (slice_whole_period t w P) as (u & Eu); [by rewrite F1|by rewrite F1|done|lia|done|congruence].
  - done.
  - destruct HA as (t & K1 & K2 & K3). destruct (Hdel t K1) as (F1 & F2 & k & F3). assert (0 < t_freq t) as Hp by by rewrite F1. destruct K3 as [[-> Ew]|Es].
    + exists t, k. split; [done|]. unfold w_contains in K2. apply andb_true_iff in K2 as [K2 K4]. apply Z.leb_le in K2, K4. unfold time_window, mk_tw, set_end in K2, K4, Ew. cbn [w_start w_end] in K2, K4. split; [done|]. split.
      * destruct (slice_whole_period t w P) as (u & Eu); [done|by rewrite F1|done|lia| |].
        { unfold w_contains, time_window, mk_tw, set_end. cbn [w_start w_end]. apply andb_true_iff. by rewrite !Z.leb_le. }
        destruct (C48_slice t w u Hp ltac:(lia) F2 Eu) as (_ & _ & _ & (W1 & W2 & _) & _). unfold slice in Eu. 
        assert (tw_eqb (time_window t) w = true) as Eq. { unfold time_window, mk_tw, set_end. rewrite Ew. unfold tw_eqb. by rewrite !Z.eqb_refl. } rewrite Eq in Eu. by injection Eu as <-.
      * intros i x Hx. destruct (F3 i x Hx) as [J1 J2]. split; [done|lra].
    + destruct (C48_slice t w t' Hp ltac:(lia) F2 Es) as (_ & Fr & _ & (W1 & W2 & _) & k' & S5). exists t', (k + k')%nat. split; [done|]. split; [done|]. split; [done|].
      intros i x Hx. destruct (S5 i x Hx) as [J1 J2]. destruct (F3 _ x J1) as [I1 I2]. rewrite <- Nat.add_assoc. split; [done|].
      setoid_replace (sample_time t' i - sample_time (whole r tl) (k + (k' + i))) with ((sample_time t' i - sample_time t (k' + i)) + (sample_time t (k' + i) - sample_time (whole r tl) (k + (k' + i)))) by ring.
      eapply Qle_trans; [apply Qabs_triangle|]. lra.
Qed.
End loader.

(** ** A data source that meets the specification *)
Section source.
Context {A : Type}.
Notation record := (trace stream A).
(** A buffer that puts every record that has data in the window in its place, and drops it if
    there is one with the same start *)
Fixpoint put (r : record) (l : list record) : list record :=
  match l with
  | [] => [r]
  | q :: l' => if (t_start r <? t_start q)%Z then r :: l else if (t_start r =? t_start q)%Z then l else q :: put r l'
  end.
Definition sorted_buffer (w : tw) (l : list record) : list record := foldl (fun b r => if decide (meets w r) then put r b else b) [] l.
Notation sorted := (StronglySorted (fun r q : record => (t_start r < t_start q)%Z)).
Lemma sorted_same tape (r q : record) : sorted tape -> r ∈ tape -> q ∈ tape -> t_start r = t_start q -> r = q.
Proof.
  induction 1 as [|x tape S IH F]; intros Hr Hq E; [by apply elem_of_nil in Hr|]. rewrite List.Forall_forall in F.
  apply elem_of_cons in Hr as [->|Hr]; apply elem_of_cons in Hq as [->|Hq]; [done| | |by apply IH].
  - apply elem_of_list_In in Hq. specialize (F q Hq). lia.
  - apply elem_of_list_In in Hr. specialize (F r Hr). lia.
Qed.
Lemma put_spec tape r l : sorted tape -> r ∈ tape -> (forall q, q ∈ l -> q ∈ tape) -> sorted l -> sorted (put r l) /\ forall q, q ∈ put r l <-> q = r \/ q ∈ l.
Proof.
  intros HT Hr. induction l as [|x l IH]; intros Hl HS; cbn [put].
  - split; [repeat constructor|]. intros q. set_solver.
  - inversion HS as [|? ? HS' F]; subst. destruct (Z.ltb_spec (t_start r) (t_start x)).
    + split; [|set_solver]. constructor; [done|]. constructor; [done|]. eapply List.Forall_impl; [|exact F]. cbn. intros; lia.
    + destruct (Z.eqb_spec (t_start r) (t_start x)) as [E|E].
      * rewrite (sorted_same tape r x HT Hr (Hl x ltac:(left)) E). split; [done|]. intros q. set_solver.
      * destruct IH as [I1 I2]; [set_solver|done|]. split.
        -- constructor; [done|]. rewrite List.Forall_forall in *. intros q Hq. apply elem_of_list_In, I2 in Hq as [->|Hq]; [lia|]. apply F. by apply elem_of_list_In.
        -- intros q. rewrite !elem_of_cons, I2. tauto.
Qed.
Lemma filter_sorted w tape : sorted tape -> sorted (filter (meets w) tape).
Proof.
  induction 1 as [|x tape S IH F]; [constructor|]. rewrite filter_cons. destruct (decide _); [|done]. constructor; [done|]. rewrite List.Forall_forall in *. intros q Hq. apply F.
  apply elem_of_list_In, elem_of_list_filter in Hq as [_ Hq]. by apply elem_of_list_In.
Qed.
Lemma sorted_ext (l l' : list record) : sorted l -> sorted l' -> (forall q, q ∈ l <-> q ∈ l') -> l = l'.
Proof.
  intros HS. revert l'. induction HS as [|x l S IH F]; intros l' HS' H.
  - destruct l' as [|y l']; [done|]. specialize (H y). set_solver.
  - destruct HS' as [|y l' S' F']; [specialize (H x); set_solver|]. rewrite List.Forall_forall in F, F'.
    assert (x = y) as <-. { pose proof (proj1 (H x) ltac:(left)) as K. apply elem_of_list_In in K as [K|K]; [done|]. specialize (F' x K). pose proof (proj2 (H y) ltac:(left)) as K2. apply elem_of_list_In in K2 as [K2|K2]; [done|]. specialize (F y K2). lia. }
    f_equal. apply IH; [done|]. intros q. specialize (H q). rewrite !elem_of_cons in H. split; intros Hq.
    + destruct (proj1 H ltac:(by right)) as [->|]; [|done]. apply elem_of_list_In in Hq. specialize (F x Hq). lia.
    + destruct (proj2 H ltac:(by right)) as [->|]; [|done]. apply elem_of_list_In in Hq. specialize (F' x Hq). lia.
Qed.
Lemma sorted_buffer_ok : buffers sorted_buffer.
Proof.
  intros s w tape l (_ & HT & _) H1 H2. assert (forall b, sorted b -> (forall q, q ∈ b -> q ∈ tape /\ meets w q) -> (forall r, r ∈ l -> r ∈ tape) ->
    let b' := foldl (fun b r => if decide (meets w r) then put r b else b) b l in sorted b' /\ forall q, q ∈ b' <-> q ∈ b \/ (q ∈ l /\ meets w q)) as HF.
  { clear H1 H2. induction l as [|r l IH]; intros b HS HB HL; cbn [foldl]; [split; [done|]; set_solver|]. destruct (decide (meets w r)) as [M|M].
    - destruct (put_spec tape r b HT ltac:(apply HL; left)) as [P1 P2]; [intros q Hq; by apply HB|done|]. destruct (IH (put r b)) as [I1 I2]; [done| |set_solver|].
      { intros q Hq. apply P2 in Hq as [->|Hq]; [split; [apply HL; left|done]|by apply HB]. }
      split; [done|]. intros q. rewrite I2, P2, elem_of_cons. split; [intros [[->|?]|[]]; tauto|]. intros [|[[->|] ]]; tauto.
    - destruct (IH b HS HB) as [I1 I2]; [set_solver|]. split; [done|]. intros q. rewrite I2, elem_of_cons. split; [tauto|]. intros [|[[->|] ]]; tauto. }
  destruct (HF [] ltac:(constructor) ltac:(set_solver) H1) as [F1 F2]. apply sorted_ext; [exact F1|by apply filter_sorted|]. intros q. unfold sorted_buffer. rewrite F2, elem_of_list_filter. split.
  - intros [K|[K M]]; [by apply elem_of_nil in K|]. split; [done|by apply H1].
  - intros [M K]. right. split; [by apply H2|done].
Qed.
(** It delivers exactly what is asked for, and merges everything *)
Definition from_tapes (tape : stream -> list record) (n : nat) (calls : list call) : list record :=
  concat ((fun c => filter (meets (k_tw c)) (tape (call_stream c))) <$> calls).
Lemma from_tapes_ok tape : serves tape (from_tapes tape).
Proof.
  intros n calls. unfold from_tapes. split.
  - intros r Hr. apply elem_of_list_In, in_concat in Hr as (x & Hx & Hr). apply elem_of_list_In, elem_of_list_fmap in Hx as (c & -> & Hc). apply elem_of_list_In, elem_of_list_filter in Hr as [_ Hr]. by exists c.
  - intros c r Hc Hr M. apply elem_of_list_In, in_concat. eexists. split; [apply elem_of_list_In, elem_of_list_fmap; by exists c|]. apply elem_of_list_In, elem_of_list_filter. done.
Qed.
Definition merge_all (l : list record) : option record := match l with [] => None | r :: l => Some (whole r l) end.
Lemma merge_all_ok : merges merge_all.
Proof. intros r l _. done. Qed.
Definition all_available (l : list record) (w : tw) : Q := 100.
Lemma all_available_ok : measures all_available.
Proof. intros r l w _ _ _. reflexivity. Qed.
End source.
(** Two records of a stream, ten samples per second. *)
Local Instance stream_eq_dec : EqDecision stream.
Proof. solve_decision. Defined.
Definition hgz : stream := Stream (str "CH") (str "ABC") [] (str "HGZ").
Definition rec1 : trace stream Z := MkTrace hgz 0 10 [0; 1; 2; 3; 4; 5; 6; 7; 8; 9]%Z.
Definition rec2 : trace stream Z := MkTrace hgz 1000000 10 [10; 11; 12; 13; 14; 15; 16; 17; 18; 19]%Z.
Definition two_tape (s : stream) : list (trace stream Z) := if decide (s = hgz) then [rec1; rec2] else [].
Lemma two_gapless : gapless [rec1; rec2].
Proof. constructor; [done|done|done| |constructor; done]. vm_compute. reflexivity. Qed.
Lemma two_tape_ok s : tape_ok s (two_tape s).
Proof.
  unfold two_tape. destruct (decide (s = hgz)) as [->|_]; [exact (gapless_tape rec1 [rec2] two_gapless ltac:(reflexivity))|]. split; [constructor|]. split; [constructor|]. intros r q K. by apply elem_of_nil in K.
Qed.
(** C84: a window of fewer than a hundred samples may be refused although it was recorded
    without gaps: its end lies between the last sample of a record and the start of the next,
    and the hundredth that is added to the request does not reach that. *)
Theorem C84_short_window_refuted : exists (tape : stream -> list (trace stream Z)) s w r l,
  tape s = r :: l /\ t_id r = s /\ gapless (r :: l) /\ 0 < t_freq r /\ (forall s, tape_ok s (tape s)) /\
  (t_start r <= w_start w <= w_end w)%Z /\ inject_Z (w_end w) <= sample_time (whole r l) (length (t_data (whole r l)) - 1) /\
  load_trace all_available merge_all sorted_buffer (from_tapes tape) (fun _ => true) w s = Failed NotSliced.
Proof.
  exists two_tape, hgz, (Tw 0 950000), rec1, [rec2]. split; [done|]. split; [done|]. split; [exact two_gapless|]. split; [done|]. split; [exact two_tape_ok|]. split; [done|]. split; [vm_compute; discriminate|].
  vm_compute. reflexivity.
Qed.
(** C84: the limit of 0.95 is compared with a percentage. Data that cover a hundredth of the
    window are not refused. *)
Theorem C84_availability_refuted : exists (availability : list (trace stream Z) -> tw -> Q) seq w t,
  availability seq w == 1 /\ contiguous_record availability merge_all seq (Some w) minAvailability = Loaded t.
Proof. exists (fun _ _ => 1), [rec1; rec2], (Tw 200000 1500000). eexists. split; [reflexivity|]. vm_compute. reflexivity. Qed.
Print Assumptions C84_one_answer.
Print Assumptions C84_trace.
Print Assumptions C84_batch_equals_single.
Print Assumptions C84_complete.
Print Assumptions C84_not_opened.
Print Assumptions C84_write_read.
Print Assumptions C84_batch_loader.
Print Assumptions C84_short_window_refuted.
Print Assumptions C84_availability_refuted.

(** ** Examples *)
(** A window of ten seconds in two records of twelve seconds meets the hypotheses. *)
Definition long1 : trace stream Z := MkTrace hgz 0 10 (Z.of_nat <$> seq 0 120).
Definition long2 : trace stream Z := MkTrace hgz 12000000 10 (Z.of_nat <$> seq 120 120).
Definition long_tape (s : stream) : list (trace stream Z) := if decide (s = hgz) then [long1; long2] else [].
Lemma long_gapless : gapless [long1; long2].
Proof. constructor; [done|done|done| |constructor; done]. vm_compute. reflexivity. Qed.
Example complete_ex : exists t k, load_trace all_available merge_all sorted_buffer (from_tapes long_tape) (fun _ => true) (Tw 5000000 15000000) hgz = Loaded t /\ t_id t = hgz /\ t_freq t = 10 /\
  Trace_Props.window_ok (whole long1 [long2]) t (Tw 5000000 15000000) /\
  forall i x, t_data t !! i = Some x -> t_data (whole long1 [long2]) !! (k + i)%nat = Some x /\ Qabs (sample_time t i - sample_time (whole long1 [long2]) (k + i)) <= 1 # 2.
Proof.
  apply (C84_complete all_available merge_all sorted_buffer (from_tapes long_tape) (fun _ => true) long_tape (Tw 5000000 15000000) hgz long1 [long2]).
  - apply from_tapes_ok.
  - apply sorted_buffer_ok.
  - apply merge_all_ok.
  - apply all_available_ok.
  - done.
  - done.
  - done.
  - exact long_gapless.
  - done.
  - done.
  - vm_compute. discriminate.
  - vm_compute. discriminate.
Qed.
(** Three requests, two of them merged, answered in another order. *)
Example load_traces_ex :
  load_traces all_available merge_all sorted_buffer (from_tapes two_tape) (fun _ => true) (fun a b => w_overlaps a b) (fun l => group_by (length l) l) (@rev _) (fun _ _ _ => true)
    (wanted [(hgz, Tw 0 200000); (Stream (str "CH") (str "XYZ") [] (str "HGZ"), Tw 0 100000); (hgz, Tw 100000 400000)]) =
  Some [OnLoaded (str "CH.ABC..HGZ") (Tw 100000 400000) (MkTrace hgz 100000 10 [1; 2; 3; 4]%Z);
        OnFailed (str "CH.XYZ..HGZ") (Tw 0 100000) NoData;
        OnLoaded (str "CH.ABC..HGZ") (Tw 0 200000) (MkTrace hgz 0 10 [0; 1; 2]%Z)].
Proof. vm_compute. reflexivity. Qed.
Example proper_ex : proper [(hgz, Tw 0 200000); (Stream (str "CH") (str "XYZ") [] (str "HGZ"), Tw 0 100000); (hgz, Tw 100000 400000)].
Proof.
  split; [|by repeat constructor]. repeat (apply Forall_cons_2; [split; [|done]; unfold stream_ok; cbn; repeat split; apply (bool_decide_unpack _); vm_compute; exact I|]). constructor.
Qed.
(** A trace that is refused by its receiver is followed by a failure *)
Example refused_ex :
  load_traces all_available merge_all sorted_buffer (from_tapes two_tape) (fun _ => true) (fun a b => w_overlaps a b) (fun l => group_by (length l) l) (fun l => l) (fun _ _ _ => false) (wanted [(hgz, Tw 0 200000)]) =
  Some [OnLoaded (str "CH.ABC..HGZ") (Tw 0 200000) (MkTrace hgz 0 10 [0; 1; 2]%Z); OnFailed (str "CH.ABC..HGZ") (Tw 0 200000) CallbackThrew].
Proof. vm_compute. reflexivity. Qed.
