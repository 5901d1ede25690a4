(** C79: preloading the waveforms of the catalog. *)
From Coq Require Import Ascii ZArith QArith Reals Lia.
From stdpp Require Import numbers list gmap strings.
From Verif Require Import TimeWindow_Model Time_Model Trace_Model Trace_Props WaveCache_Model WaveCache_Props Rotate_Model XcorrWindow_Model XcorrWindow_Props
  WaveProc_Model WaveProc_Props Catalog_Model Catalog_Props Solver_Model XcorrBuild_Model Preload_Model.

Section props.
Context {V B : Type}.
Variable opt : xcorr_opt.
Variable bg : catalog V.
Variable extra minLen : Q.
Variable info : stream → Z → option comps_info.
Implicit Types (e : event V) (p : phase V) (w : tw) (r : lreq).

(** ** Specification *)
(** The component is one the cross-correlation uses for the phase: one of those configured,
    otherwise the one of the channel the phase was picked on. *)
Definition uses (po : phase_opt) p (x : text) : Prop :=
  match po_components po with
  | [] | [[]] => ∃ a b c, p_cha p = [a; b; c] ∧ x = [c]
  | l => x ∈ l
  end.
(** The channel is needed to obtain the component *)
Definition from_channel p (x c : text) : Prop :=
  let s := Stream (p_net p) (p_sta p) (p_loc p) (p_cha p) in
  x = ["T"%char] ∧ (∃ ci, info s (p_time p) = Some ci ∧ c ∈ [ci_v ci; ci_h1 ci; ci_h2 ci]) ∨
  x = ["R"%char] ∧ (∃ ci, info s (p_time p) = Some ci ∧ c ∈ [ci_v ci; ci_h1 ci; ci_h2 ci]) ∨
  x = ["L"%char; "2"%char] ∧ (∃ ci, info s (p_time p) = Some ci ∧ c ∈ [ci_h1 ci; ci_h2 ci]) ∨
  x ∉ [[]; ["T"%char]; ["R"%char]; ["L"%char; "2"%char]] ∧
    ((∃ a b l, p_cha p = a :: b :: l ∧ c = a :: b :: x) ∨ (length (p_cha p) < 2)%nat ∧ c = x).
(** What has to be in the cache for a component of a phase of an event *)
Definition needed e p (x : text) r : Prop :=
  p ∈ phs bg (e_id e) ∧
  ∃ i po w W c, p_proc p = Some i ∧ pr_type i ≠ TNO ∧ xo_phase opt (pr_type i) = Some po ∧ uses po p x ∧
    window_long (po_win po) (e_time e) (p_time p) = Some w ∧ from_channel p x c ∧
    window_to_load (minLen / 2) (minLen / 2) (w_extend w (secToDur extra) (secToDur extra)) (p_time p) = ROk W ∧
    r = LReq W (Stream (p_net p) (p_sta p) (p_loc p) c).

(** ** The requests *)
Lemma rbind_ok {A C} (x : res A) (f : A → res C) y : rbind x f = Ok y ↔ ∃ a, x = Ok a ∧ f a = Ok y.
Proof using. destruct x; cbn [rbind]; naive_solver. Qed.
Lemma rmap_ok {A C} (f : A → res C) l l' : rmap f l = Ok l' ↔ Forall2 (λ x y, f x = Ok y) l l'.
Proof using.
  revert l'. induction l as [|x l IH]; intros l'; cbn [rmap].
  - split; [intros [= <-]; constructor|]. intros K. by inversion K.
  - rewrite rbind_ok. setoid_rewrite rbind_ok. split.
    + intros (y & E & l1 & E1 & [= <-]). constructor; [done|]. by apply IH.
    + intros K. inversion K as [|? y ? l1 E E1]; subst. exists y. split; [done|]. exists l1. split; [by apply IH|done].
Qed.
Lemma rmap_concat {A C} (f : A → res (list C)) l ll (r : C) : rmap f l = Ok ll → (r ∈ concat ll ↔ ∃ x ys, x ∈ l ∧ f x = Ok ys ∧ r ∈ ys).
Proof using.
  intros E. apply rmap_ok in E. induction E as [|x ys l ll E _ IH]; cbn [concat].
  - split; [intros K; by apply elem_of_nil in K|]. intros (? & ? & K & _). by apply elem_of_nil in K.
  - rewrite elem_of_app, IH. split.
    + intros [K|(y & zs & K & Ez & Kz)]; [exists x, ys; split; [left|done]|]. exists y, zs. split; [by right|done].
    + intros (y & zs & K & Ez & Kz). apply elem_of_cons in K as [->|K]; [left; congruence|right; eauto].
Qed.
Lemma rmap_elem {A C} (f : A → res C) l l' y : rmap f l = Ok l' → (y ∈ l' ↔ ∃ x, x ∈ l ∧ f x = Ok y).
Proof using.
  intros E. apply rmap_ok in E. induction E as [|x y' l l' E _ IH].
  - split; [intros K; by apply elem_of_nil in K|]. intros (? & K & _). by apply elem_of_nil in K.
  - rewrite elem_of_cons, IH. split.
    + intros [->|(x' & K & E')]; [exists x; split; [left|done]|]. exists x'. split; [by right|done].
    + intros (x' & K & E'). apply elem_of_cons in K as [->|K]; [left; congruence|right; eauto].
Qed.

Notation loader_request := (loader_request extra minLen).
Notation component_requests := (component_requests bg extra minLen info).
Notation phase_requests := (phase_requests opt bg extra minLen info).
Notation event_requests := (event_requests opt bg extra minLen info).

Lemma loader_request_spec w s pick c r : loader_request w s pick c = Ok r ↔
  ∃ W, window_to_load (minLen / 2) (minLen / 2) (w_extend w (secToDur extra) (secToDur extra)) pick = ROk W ∧ r = LReq W (Stream (WaveCache_Model.s_net s) (WaveCache_Model.s_sta s) (WaveCache_Model.s_loc s) c).
Proof using.
  unfold Preload_Model.loader_request. rewrite rbind_ok. unfold set_cha. split.
  - intros (W & E & [= <-]). exists W. split; [|done]. destruct (window_to_load _ _ _ _); cbn [of_time] in E; congruence.
  - intros (W & -> & ->). exists W. done.
Qed.
Lemma band_spec (cha x c : text) : c = band_and_instrument cha ++ x ↔ (∃ a b l, cha = a :: b :: l ∧ c = a :: b :: x) ∨ (length cha < 2)%nat ∧ c = x.
Proof using.
  unfold band_and_instrument. destruct cha as [|a [|b l]].
  - rewrite decide_False by (cbn; lia). cbn [app length]. split; [right; split; [lia|done]|]. intros [(? & ? & ? & ? & _)|[_ K]]; done.
  - rewrite decide_False by (cbn; lia). cbn [app length]. split; [right; split; [lia|done]|]. intros [(? & ? & ? & ? & _)|[_ K]]; done.
  - rewrite decide_True by (cbn; lia). cbn [app length take]. split; [left; eauto|]. intros [(? & ? & ? & E & K)|[K _]]; [by injection E as -> -> ->|lia].
Qed.
Lemma uses_spec po p l x : components opt p = Ok l → opt_of opt p = Ok po → x ≠ [] → (x ∈ l ↔ uses po p x).
Proof using.
  unfold components. intros E Eo Hx. rewrite Eo in E. cbn [rbind] in E. injection E as <-. unfold uses.
  assert (x ∈ [orientation (p_cha p)] ↔ ∃ a b c, p_cha p = [a; b; c] ∧ x = [c]) as K.
  { rewrite elem_of_list_singleton. unfold orientation. destruct (p_cha p) as [|a [|b [|c [|? ?]]]]; cbn [length drop].
    all: first [rewrite decide_False by lia; naive_solver | naive_solver]. }
  destruct (po_components po) as [|[|? ?] [|? ?]]; done.
Qed.
Lemma component_requests_spec w p x rs r : component_requests w p x = Ok rs →
  (r ∈ rs ↔ ∃ c W, from_channel p x c ∧ window_to_load (minLen / 2) (minLen / 2) (w_extend w (secToDur extra) (secToDur extra)) (p_time p) = ROk W ∧
     r = LReq W (Stream (p_net p) (p_sta p) (p_loc p) c)).
Proof using.
  intros E. unfold Preload_Model.component_requests in E. apply rbind_ok in E as (sta & _ & E). unfold request in E.
  assert (∀ p' t, p_net p' = p_net p → p_sta p' = p_sta p → p_loc p' = p_loc p → p_time p' = p_time p →
    rmap (loader_request w (stream_of p') (p_time p')) (channel_list info (stream_of p') (p_time p') t) = Ok rs →
    (∀ c, c ∈ channel_list info (stream_of p') (p_time p') t ↔ from_channel p x c) →
    (r ∈ rs ↔ ∃ c W, from_channel p x c ∧ window_to_load (minLen / 2) (minLen / 2) (w_extend w (secToDur extra) (secToDur extra)) (p_time p) = ROk W ∧
     r = LReq W (Stream (p_net p) (p_sta p) (p_loc p) c))) as K.
  { intros p' t E1 E2 E3 E4 Er Hc. rewrite (rmap_elem _ _ _ r Er). setoid_rewrite Hc. setoid_rewrite loader_request_spec.
    cbn [stream_of WaveCache_Model.s_net WaveCache_Model.s_sta WaveCache_Model.s_loc]. rewrite E1, E2, E3, E4. naive_solver. }
  unfold from_channel in *. set (s := Stream (p_net p) (p_sta p) (p_loc p) (p_cha p)) in *.
  assert (∀ c, x = ["T"%char] ∨ x = ["R"%char] →
     (c ∈ match info s (p_time p) with Some ci => [ci_v ci; ci_h1 ci; ci_h2 ci] | None => [] end ↔ ∃ ci, info s (p_time p) = Some ci ∧ c ∈ [ci_v ci; ci_h1 ci; ci_h2 ci])) as K3.
  { intros c _. destruct (info s (p_time p)) as [ci|]; [naive_solver|]. rewrite elem_of_nil. naive_solver. }
  assert (∀ c, (c ∈ match info s (p_time p) with Some ci => [ci_h1 ci; ci_h2 ci] | None => [] end ↔ ∃ ci, info s (p_time p) = Some ci ∧ c ∈ [ci_h1 ci; ci_h2 ci])) as K2.
  { intros c. destruct (info s (p_time p)) as [ci|]; [naive_solver|]. rewrite elem_of_nil. naive_solver. }
  case_decide as D0.
  { injection E as <-. split; [intros X; by apply elem_of_nil in X|]. intros (c & W & X & _). subst x.
    destruct X as [[X _]|[[X _]|[[X _]|[X _]]]]; [done..|]. exfalso. apply X. left. }
  case_decide as D1.
  { apply (K p TTransversal); [done..|exact E|]. intros c. cbn [channel_list]. change (stream_of p) with s. rewrite (K3 c) by auto. rewrite D1. split; [by left; split|].
    intros [[_ X]|[[X _]|[[X _]|[X _]]]]; [done..|]. exfalso. apply X. right. left. }
  case_decide as D2.
  { apply (K p TRadial); [done..|exact E|]. intros c. cbn [channel_list]. change (stream_of p) with s. rewrite (K3 c) by auto. rewrite D2. split; [by right; left; split|].
    intros [[X _]|[[_ X]|[[X _]|[X _]]]]; [done..|]. exfalso. apply X. do 2 right. left. }
  case_decide as D3.
  { apply (K p TL2); [done..|exact E|]. intros c. cbn [channel_list]. change (stream_of p) with s. rewrite (K2 c). rewrite D3. split; [by do 2 right; left; split|].
    intros [[X _]|[[X _]|[[_ X]|[X _]]]]; [done..|]. exfalso. apply X. do 3 right. left. }
  apply (K (set_channel p (band_and_instrument (p_cha p) ++ x)) TNone); [done..|exact E|]. intros c. cbn [channel_list stream_of set_channel p_cha s_cha].
  rewrite elem_of_list_singleton, band_spec. split; [|naive_solver]. intros X. do 3 right. split; [|done].
  intros Y. repeat (apply elem_of_cons in Y as [Y|Y]; [done|]). by apply elem_of_nil in Y.
Qed.
Lemma from_channel_nonempty p x c : from_channel p x c → x ≠ [].
Proof using. intros [[X _]|[[X _]|[[X _]|[X _]]]] E; rewrite E in X; [done..|]. apply X. left. Qed.
Lemma request_channels p x p' t c : request p x = Some (p', t) → channels info (stream_of p') (p_time p') t c →
  from_channel p x c ∧ p_time p' = p_time p ∧ set_cha (stream_of p') c = Stream (p_net p) (p_sta p) (p_loc p) c.
Proof using.
  unfold request, from_channel, channels. intros E Hc. case_decide as D0; [done|]. case_decide as D1; [injection E as <- <-|].
  { split; [|done]. left. split; [done|]. destruct Hc as (ci & Ei & Hc). exists ci. split; [done|]. rewrite !elem_of_cons. tauto. }
  case_decide as D2; [injection E as <- <-|].
  { split; [|done]. right. left. split; [done|]. destruct Hc as (ci & Ei & Hc). exists ci. split; [done|]. rewrite !elem_of_cons. tauto. }
  case_decide as D3; [injection E as <- <-|].
  { split; [|done]. do 2 right. left. split; [done|]. destruct Hc as (ci & Ei & Hc). exists ci. split; [done|]. rewrite !elem_of_cons. tauto. }
  injection E as <- <-. split; [|done]. do 3 right. split.
  - intros Y. repeat (apply elem_of_cons in Y as [Y|Y]; [done|]). by apply elem_of_nil in Y.
  - apply band_spec. exact Hc.
Qed.
Lemma opt_of_spec p po : opt_of opt p = Ok po ↔ ∃ i, p_proc p = Some i ∧ xo_phase opt (pr_type i) = Some po.
Proof using.
  unfold opt_of, proc. destruct (p_proc p) as [i|]; cbn [rbind]. 2: { split; [done|]. by intros (i & E & _). }
  unfold at_. destruct (xo_phase opt (pr_type i)) as [po'|] eqn:E.
  - split; [intros [= <-]; eauto|]. intros (i' & [= <-] & E'). congruence.
  - split; [done|]. intros (i' & [= <-] & E'). congruence.
Qed.
Lemma event_requests_spec e rs r : event_requests e = Ok rs → (r ∈ rs ↔ ∃ p x, needed e p x r).
Proof using.
  intros E. unfold Preload_Model.event_requests in E. apply rbind_ok in E as (ll & E & [= <-]). rewrite (rmap_concat _ _ _ r E).
  assert (∀ p, p ∈ phs bg (e_id e) → ∃ ys, phase_requests e p = Ok ys) as Hall.
  { intros p Hp. apply rmap_ok in E. apply elem_of_list_lookup in Hp as [i Hi]. destruct (Forall2_lookup_l _ _ _ _ _ E Hi) as (ys & _ & Ey). eauto. }
  assert (∀ p ys, p ∈ phs bg (e_id e) → phase_requests e p = Ok ys → (r ∈ ys ↔ ∃ x, needed e p x r)) as HP.
  { intros p ys Hp Ey. unfold Preload_Model.phase_requests in Ey. apply rbind_ok in Ey as (i & Ei & Ey). unfold proc in Ei. destruct (p_proc p) as [i'|] eqn:Epr; [|done]. injection Ei as ->.
    assert (pr_type i = TNO ∨ pr_type i ≠ TNO) as [Et|Et] by (destruct (pr_type i); auto).
    { rewrite Et in Ey. injection Ey as <-. split; [intros X; by apply elem_of_nil in X|]. intros (x & _ & i' & po & w & W & c & E1 & E2 & _). congruence. }
    assert (rbind (long_window opt e p) (λ w, rbind (components opt p) (λ l, rbind (rmap (component_requests w p) l) (λ ll, Ok (concat ll)))) = Ok ys) as Ey' by (by destruct (pr_type i)).
    clear Ey. apply rbind_ok in Ey' as (w & Ew & Ey). apply rbind_ok in Ey as (l & El & Ey). apply rbind_ok in Ey as (ll' & Ell & [= <-]).
    unfold long_window in Ew. apply rbind_ok in Ew as (po & Epo & Ew). destruct (window_long _ _ _) as [w'|] eqn:EW; [|done]. injection Ew as ->.
    rewrite (rmap_concat _ _ _ r Ell). pose proof Epo as Epo'. apply opt_of_spec in Epo' as (i' & E1 & E2). rewrite Epr in E1. injection E1 as <-. split.
    - intros (x & zs & Hx & Ez & Hr). apply (component_requests_spec _ _ _ _ r Ez) in Hr as (c & W & H1 & H2 & H3). exists x. split; [done|].
      exists i, po, w, W, c. repeat (split; [done|]). split; [|done]. apply (uses_spec po p l x); [done..|by eapply from_channel_nonempty|done].
    - intros (x & _ & i' & po' & w' & W & c & F1 & F2 & F3 & F4 & F5 & F6 & F7 & F8). rewrite Epr in F1. injection F1 as <-. rewrite E2 in F3. injection F3 as <-.
      rewrite EW in F5. injection F5 as <-. assert (x ∈ l) as Hx by (apply (uses_spec po p l x); [done..|by eapply from_channel_nonempty|done]).
      pose proof (proj1 (rmap_ok _ _ _) Ell) as FF. apply elem_of_list_lookup in Hx as [j Hj]. destruct (Forall2_lookup_l _ _ _ _ _ FF Hj) as (zs & _ & Ez).
      exists x, zs. split; [by eapply elem_of_list_lookup_2|]. split; [done|]. apply (component_requests_spec _ _ _ _ r Ez). eauto 10. }
  split.
  - intros (p & ys & Hp & Ey & Hr). exists p. by apply (HP p ys).
  - intros (p & x & Hn). pose proof Hn as [Hp _]. destruct (Hall p Hp) as (ys & Ey). exists p, ys. split; [done|]. split; [done|]. apply (HP p ys); eauto.
Qed.

Lemma window_ordered before after w pick W : (w_start w <= w_end w)%Z → window_to_load before after w pick = ROk W → (w_start W <= w_end W)%Z.
Proof using.
  intros Hw E. unfold window_to_load in E. set (ex := mk_tw 0 _ _) in E. set (m := w_merge ex w) in E.
  assert (∀ v t, w_start (set_start v t) <= w_end (set_start v t))%Z as S1.
  { intros v t. unfold set_start. cbn [w_start w_end]. destruct (w_end v <? t)%Z eqn:L; [lia|]. apply Z.ltb_ge in L. lia. }
  assert (∀ v t, w_start (set_end v t) <= w_end (set_end v t))%Z as S2.
  { intros v t. unfold set_end. cbn [w_start w_end]. destruct (t <? w_start v)%Z eqn:L; [lia|]. apply Z.ltb_ge in L. lia. }
  assert (w_start ex <= w_end ex)%Z as He by (unfold ex, mk_tw; apply S2).
  assert (w_start m <= w_end m)%Z as Hm. { unfold m, w_merge. destruct (w_start w <? w_start ex)%Z; match goal with |- context [if ?b then _ else _] => destruct b end; first [apply S1|apply S2|exact He]. }
  match type of E with match ?a with _ => _ end = _ => destruct a as [m'| |] eqn:E1 end; [|done|done].
  assert (w_start m' <= w_end m')%Z as Hm'. { match type of E1 with (if ?b then _ else _) = _ => destruct b end; [|congruence]. match type of E1 with match ?a with _ => _ end = _ => destruct a end; [|done|done]. injection E1 as <-. apply S1. }
  match type of E with (if ?b then _ else _) = _ => destruct b end; [|congruence]. match type of E with match ?a with _ => _ end = _ => destruct a end; [|done|done]. injection E as <-. apply S2.
Qed.
Lemma needed_ordered e p x r : needed e p x r → (w_start (l_window r) <= w_end (l_window r))%Z.
Proof using.
  intros (_ & i & po & w & W & c & _ & _ & _ & _ & _ & _ & E & ->). cbn [l_window]. eapply window_ordered; [|exact E].
  unfold w_extend, mk_tw, set_end. cbn [w_start w_end]. match goal with |- context [if ?b then _ else _] => destruct b eqn:L end; [lia|]. apply Z.ltb_ge in L. lia.
Qed.

(** ** The files *)
Notation fs := (@gmap text _ (@list_countable Ascii.ascii _ stdpp.strings.ascii_countable) (list B)).
Implicit Types d : fs.
Variable load_traces : list request_t → list (text * tw * option wtrace).
Variable iteration : list (text * wtrace) → list (text * wtrace).
Variable decode : list B → option wtrace.
Variable write : text → wtrace → option (list B).
Notation readable := (readable decode).
Notation cached_get := (cached_get iteration decode write).
Notation preload_event := (preload_event opt bg extra minLen info load_traces iteration decode write).
Notation preload_catalog := (preload_catalog opt bg extra minLen info load_traces iteration decode write).
(** The request of a waveform to the data source *)
Definition source_request r : request_t := (stream_id (l_stream r), l_window r).

Lemma readable_file d r r' : cache_file r = cache_file r' → readable d r = readable d r'.
Proof using. unfold Preload_Model.readable. by intros ->. Qed.

Lemma has_request_spec l id w : has_request l id w = true ↔ (id, w) ∈ l.
Proof using.
  unfold has_request. rewrite existsb_exists. split.
  - intros ([id' w'] & K & E). cbn [fst snd] in E. apply andb_true_iff in E as [E1 E2]. apply bool_decide_eq_true in E1 as ->.
    unfold tw_eqb in E2. apply andb_true_iff in E2 as [E2 E3]. apply Z.eqb_eq in E2, E3. destruct w, w'. cbn in *. subst. by apply elem_of_list_In.
  - intros K. exists (id, w). split; [by apply elem_of_list_In|]. cbn [fst snd]. rewrite bool_decide_eq_true_2 by done. unfold tw_eqb. by rewrite !Z.eqb_refl.
Qed.

(** The first pass: nothing is written, what is missing is recorded *)
Lemma record_pass rs : ∀ d b, b_loaded b = false → b_traces b = [] → NoDup (b_requests b) →
  ∃ b', rloop cached_get rs (d, b) = Ok (d, b') ∧ b_loaded b' = false ∧ b_traces b' = [] ∧ NoDup (b_requests b') ∧
    ∀ q, q ∈ b_requests b' ↔ q ∈ b_requests b ∨ ∃ r, r ∈ rs ∧ readable d r = None ∧ q = source_request r.
Proof using.
  induction rs as [|r rs IH]; intros d b H1 H2 H3; cbn [rloop].
  { exists b. split; [done|]. do 3 (split; [done|]). intros q. split; [by left|]. intros [K|(r & K & _)]; [done|by apply elem_of_nil in K]. }
  assert (∃ b1, cached_get (d, b) r = Ok (d, b1) ∧ b_loaded b1 = false ∧ b_traces b1 = [] ∧ NoDup (b_requests b1) ∧
     ∀ q, q ∈ b_requests b1 ↔ q ∈ b_requests b ∨ readable d r = None ∧ q = source_request r) as (b1 & E1 & G1 & G2 & G3 & G4).
  { unfold Preload_Model.cached_get. destruct (readable d r) as [t|] eqn:Er; [exists b; naive_solver|].
    unfold batch_get, batch_request. rewrite H1. destruct (has_request (b_requests b) (stream_id (l_stream r)) (l_window r)) eqn:Eh.
    - exists b. do 4 (split; [done|]). intros q. split; [by left|]. intros [K|[_ ->]]; [done|]. by apply has_request_spec in Eh.
    - eexists. split; [reflexivity|]. cbn [b_loaded b_traces b_requests]. do 2 (split; [done|]). split.
      + constructor; [|done]. intros K. apply has_request_spec in K. congruence.
      + intros q. rewrite elem_of_cons. unfold source_request. naive_solver. }
  rewrite E1. cbn [rbind]. destruct (IH d b1 G1 G2 G3) as (b' & E' & I1 & I2 & I3 & I4). exists b'. split; [done|]. do 3 (split; [done|]).
  intros q. rewrite I4, G4. setoid_rewrite elem_of_cons. naive_solver.
Qed.

(** The answer of a loaded batch *)
Definition answers (traces : list (text * wtrace)) r : answer := search (iteration traces) (stream_id (l_stream r)) (l_window r).
(** The second pass: what is missing and was delivered is written *)
Lemma store_step traces d r st : cached_get (d, Batch true [] traces) r = Ok st →
  st.2 = Batch true [] traces ∧
  (st.1 = d ∧ (readable d r ≠ None ∨ answers traces r = Null ∨ ∃ t, answers traces r = Got t ∧ write (cache_file r) t = None) ∨
   ∃ t bytes, readable d r = None ∧ answers traces r = Got t ∧ write (cache_file r) t = Some bytes ∧ st.1 = <[cache_file r := bytes]> d).
Proof using.
  unfold Preload_Model.cached_get. destruct (readable d r) as [t|] eqn:Er. { intros [= <-]. split; [done|]. left. split; [done|]. by left. }
  unfold batch_get. cbn [b_loaded b_traces]. fold (answers traces r). destruct (answers traces r) as [| |t] eqn:Ea.
  - intros [= <-]. split; [done|]. left. split; [done|]. right. by left.
  - done.
  - destruct (write (cache_file r) t) as [bytes|] eqn:Ew; intros [= <-].
    + split; [done|]. right. eauto 10.
    + split; [done|]. left. split; [done|]. right. right. eauto.
Qed.
Lemma store_pass traces rs : ∀ d d' b', rloop cached_get rs (d, Batch true [] traces) = Ok (d', b') →
  (∀ f, d' !! f = d !! f ∨ ∃ r t bytes, r ∈ rs ∧ f = cache_file r ∧ readable d r = None ∧ answers traces r = Got t ∧ write f t = Some bytes ∧ d' !! f = Some bytes).
Proof using.
  induction rs as [|r rs IH]; intros d d' b' E f; cbn [rloop] in E. { injection E as <- <-. by left. }
  apply rbind_ok in E as ([d1 b1] & E1 & E). apply store_step in E1 as [Eb HS]. cbn [fst snd] in *. subst b1. destruct (IH _ _ _ E f) as [K|(r' & t & bytes & K1 & K2 & K3 & K4 & K5 & K6)].
  - rewrite K. destruct HS as [[-> _]|(t & bytes & H1 & H2 & H3 & ->)]; [by left|]. destruct (decide (f = cache_file r)) as [->|N].
    + right. exists r, t, bytes. split; [left|]. rewrite lookup_insert. done.
    + left. by rewrite lookup_insert_ne.
  - right. exists r', t, bytes. split; [by right|]. split; [done|]. split; [|done]. destruct HS as [[-> _]|(t1 & bytes1 & H1 & H2 & H3 & ->)]; [done|].
    destruct (decide (cache_file r' = cache_file r)) as [N|N]; [by rewrite (readable_file d r' r)|].
    unfold Preload_Model.readable in *. by rewrite lookup_insert_ne in K3.
Qed.
Lemma store_kept traces rs d d' b' r t : rloop cached_get rs (d, Batch true [] traces) = Ok (d', b') → readable d r = Some t → d' !! cache_file r = d !! cache_file r.
Proof using.
  intros E Hr. destruct (store_pass _ _ _ _ _ E (cache_file r)) as [K|(r' & t' & bytes & _ & K2 & K3 & _)]; [done|].
  rewrite (readable_file d r' r) in K3 by done. congruence.
Qed.
(** Every write leaves a file that can be read *)
Definition good_write : Prop := ∀ f t, ∃ bytes t', write f t = Some bytes ∧ decode bytes = Some t'.
Lemma store_done traces rs : good_write → ∀ d d' b', rloop cached_get rs (d, Batch true [] traces) = Ok (d', b') →
  ∀ r, r ∈ rs → answers traces r ≠ Null → readable d' r ≠ None.
Proof using.
  intros HW. induction rs as [|r0 rs IH]; intros d d' b' E r Hr Ha; cbn [rloop] in E; [by apply elem_of_nil in Hr|].
  apply rbind_ok in E as ([d1 b1] & E1 & E). apply store_step in E1 as [Eb HS]. cbn [fst snd] in *. subst b1.
  apply elem_of_cons in Hr as [->|Hr]; [|by eapply IH]. assert (readable d1 r0 ≠ None) as H1.
  { destruct HS as [[-> [K|[K|(t & _ & K)]]]|(t & bytes & H1 & H2 & H3 & ->)]; [done|done|..].
    - destruct (HW (cache_file r0) t) as (bytes & t' & Ew & _). congruence.
    - destruct (HW (cache_file r0) t) as (bytes' & t' & Ew & Ed). rewrite Ew in H3. injection H3 as ->. unfold Preload_Model.readable. rewrite lookup_insert. cbn [mbind option_bind]. by rewrite Ed. }
  destruct (readable d1 r0) as [t|] eqn:Er; [|done]. unfold Preload_Model.readable. rewrite (store_kept _ _ _ _ _ _ _ E Er). fold (readable d1 r0). by rewrite Er.
Qed.

(** One event *)
Definition got (call : list request_t) : list (text * wtrace) :=
  match call with [] => [] | _ => omap (λ c : text * tw * option wtrace, match c.2 with Some t => Some (c.1.1, t) | None => None end) (load_traces call) end.
Lemma got_spec call id t : (id, t) ∈ got call ↔ call ≠ [] ∧ delivered (load_traces call) id t.
Proof using.
  unfold got, delivered. destruct call as [|q call]. { rewrite elem_of_nil. split; [done|]. intros [K _]. done. }
  rewrite elem_of_list_omap. split.
  - intros ([[id' w'] o] & K & E). cbn in E. destruct o as [t'|]; [|done]. injection E as -> ->. split; [done|]. by exists w'.
  - intros [_ (w' & K)]. exists (id, w', Some t). split; [exact K|done].
Qed.
Lemma event_step d calls s e d' calls' s' : preload_event (d, calls, s) e = Ok (d', calls', s') →
  ∃ rs call b', event_requests e = Ok rs ∧ NoDup call ∧ (∀ q, q ∈ call ↔ ∃ r, r ∈ rs ∧ readable d r = None ∧ q = source_request r) ∧
    calls' = calls ++ match call with [] => [] | _ => [call] end ∧ rloop cached_get rs (d, Batch true [] (got call)) = Ok (d', b').
Proof using.
  unfold Preload_Model.preload_event. intros E. apply rbind_ok in E as (rs & Ers & E).
  destruct (record_pass rs d batch_init eq_refl eq_refl ltac:(constructor)) as (b & Eb & H1 & H2 & H3 & H4). rewrite Eb in E. cbn [rbind] in E.
  apply rbind_ok in E as ([d2 b2] & E2 & E). injection E as <- <- <-. exists rs, (b_requests b), b2. split; [done|]. split; [done|].
  split. { intros q. rewrite H4. cbn [batch_init b_requests]. rewrite elem_of_nil. naive_solver. }
  split. { destruct (b_requests b); [by rewrite app_nil_r|done]. }
  rewrite <- E2. do 2 f_equal. unfold batch_load. rewrite H1, H2. unfold got. by destruct (b_requests b).
Qed.

Lemma search_got (l : list (text * wtrace)) id w : (∃ t, (id, t) ∈ l ∧ w_contains (time_window t) w = true) →
  (∀ t, (id, t) ∈ l → w_contains (time_window t) w = true → ∃ u, slice t w = SlTrue u) → search l id w ≠ Null.
Proof using.
  induction l as [|[id' t'] l IH]; intros (t & Ht & Hc) Hs; [by apply elem_of_nil in Ht|]. cbn [search].
  assert (search l id w ≠ Null ∨ ¬ (∃ t, (id, t) ∈ l ∧ w_contains (time_window t) w = true)) as K.
  { destruct (existsb (λ y : text * wtrace, bool_decide (y.1 = id) && w_contains (time_window y.2) w) l) eqn:EX.
    - left. apply existsb_exists in EX as ([i y] & K1 & K2). cbn [fst snd] in K2. apply andb_true_iff in K2 as [K2 K3]. apply bool_decide_eq_true in K2 as ->. apply elem_of_list_In in K1.
      apply IH; [eauto|]. intros t0 H0. apply Hs. by right.
    - right. intros (t0 & K1 & K2). apply not_true_iff_false in EX. apply EX, existsb_exists. exists (id, t0). split; [by apply elem_of_list_In|]. cbn [fst snd]. by rewrite bool_decide_eq_true_2. }
  destruct (decide (id' = id)) as [->|N].
  - destruct (w_contains (time_window t') w) eqn:Ec.
    + destruct (tw_eqb _ _); [done|]. destruct (Hs t') as [u ->]; [left|done|done].
    + destruct K as [K|K]; [done|]. exfalso. apply K. exists t. apply elem_of_cons in Ht as [Ht|Ht]; [|done]. injection Ht as ->. congruence.
  - destruct K as [K|K]; [done|]. exfalso. apply K. exists t. apply elem_of_cons in Ht as [Ht|Ht]; [|done]. by injection Ht as -> ->.
Qed.
Lemma search_sound (l : list (text * wtrace)) id w u : search l id w = Got u →
  ∃ t, (id, t) ∈ l ∧ w_contains (time_window t) w = true ∧ (u = t ∧ time_window t = w ∨ slice t w = SlTrue u).
Proof using.
  induction l as [|[id' t'] l IH]; cbn [search]; [done|]. intros E.
  destruct (decide (id' = id)) as [->|N]; [|destruct (IH E) as (t & H & K); exists t; split; [by right|done]].
  destruct (w_contains (time_window t') w) eqn:Ec; [|destruct (IH E) as (t & H & K); exists t; split; [by right|done]].
  exists t'. split; [left|]. split; [done|]. destruct (tw_eqb _ _) eqn:Eq.
  - injection E as <-. left. split; [done|]. unfold tw_eqb in Eq. apply andb_true_iff in Eq as [Q1 Q2]. apply Z.eqb_eq in Q1, Q2. destruct (time_window t'), w. cbn in *. by subst.
  - right. destruct (slice t' w); [done|done|congruence].
Qed.

(** ** The catalog *)
(** A source that delivers the waveform whenever it is asked for *)
Definition proper (l : list request_t) : Prop := ∀ q : request_t, q ∈ l → (w_start q.2 <= w_end q.2)%Z.
Definition delivers r : Prop :=
  (∀ l, proper l → source_request r ∈ l → ∃ t, delivered (load_traces l) (stream_id (l_stream r)) t ∧ w_contains (time_window t) (l_window r) = true) ∧
  (∀ l t, proper l → delivered (load_traces l) (stream_id (l_stream r)) t → w_contains (time_window t) (l_window r) = true → ∃ u, slice t (l_window r) = SlTrue u).
(** A request of an event to the source for something that cannot be read from the disk *)
Definition missing d e (q : request_t) : Prop := ∃ p x r, needed e p x r ∧ readable d r = None ∧ q = source_request r.
(** The file is written with what was delivered for a needed waveform *)
Definition stored d (l : list (event V)) (calls : list (list request_t)) (f : text) (bytes : list B) : Prop :=
  ∃ e p x r call t u, e ∈ l ∧ needed e p x r ∧ f = cache_file r ∧ readable d r = None ∧ call ∈ calls ∧ source_request r ∈ call ∧
    delivered (load_traces call) (stream_id (l_stream r)) t ∧ w_contains (time_window t) (l_window r) = true ∧
    (u = t ∧ time_window t = l_window r ∨ slice t (l_window r) = SlTrue u) ∧ write f u = Some bytes.

Section it.
Hypothesis Hit : ∀ l x, x ∈ iteration l ↔ x ∈ l.
Lemma event_files d calls s e d' calls' s' : preload_event (d, calls, s) e = Ok (d', calls', s') →
  ∃ new, calls' = calls ++ new ∧
    (new = [] ∨ ∃ call, new = [call] ∧ call ≠ [] ∧ NoDup call ∧ ∀ q, q ∈ call → missing d e q) ∧
    (∀ p x r, needed e p x r → readable d r = None → ∃ call, call ∈ new ∧ source_request r ∈ call) ∧
    (∀ f, d' !! f = d !! f ∨ ∃ bytes, d' !! f = Some bytes ∧ stored d [e] new f bytes) ∧
    (good_write → ∀ p x r, needed e p x r → delivers r → readable d' r ≠ None).
Proof using Hit.
  intros E. destruct (event_step _ _ _ _ _ _ _ E) as (rs & call & b' & Ers & Hnd & Hq & Hcalls & Est). exists (match call with [] => [] | _ => [call] end).
  assert (∀ q, q ∈ call → call ∈ match call with [] => [] | _ => [call] end) as Hin by (intros q K; destruct call; [by apply elem_of_nil in K|left]).
  assert (∀ p x r, needed e p x r → r ∈ rs) as Hrs by (intros p x r K; apply (event_requests_spec e rs r Ers); eauto).
  split; [done|]. split. { destruct call as [|q call]; [by left|]. right. exists (q :: call). do 3 (split; [done|]). intros q' K. apply Hq in K as (r & Hr & Hm & ->).
    apply (event_requests_spec e rs r Ers) in Hr as (p & x & Hn). exists p, x, r. done. }
  split. { intros p x r Hn Hm. exists call. assert (source_request r ∈ call) by (apply Hq; eauto). eauto. }
  split.
  - intros f. destruct (store_pass _ _ _ _ _ Est f) as [K|(r & u & bytes & K1 & K2 & K3 & K4 & K5 & K6)]; [by left|]. right. exists bytes. split; [done|].
    apply (event_requests_spec e rs r Ers) in K1 as (p & x & Hn). unfold answers in K4. apply search_sound in K4 as (t & Ht & Hc & Hu). rewrite Hit, got_spec in Ht. destruct Ht as [Hne Hd].
    assert (source_request r ∈ call) as Hcr by (apply Hq; eauto). exists e, p, x, r, call, t, u. split; [left|]. do 3 (split; [done|]). split; [eauto|]. done.
  - intros HW p x r Hn [Hd1 Hd2]. destruct (readable d r) as [t0|] eqn:Er.
    { unfold Preload_Model.readable. rewrite (store_kept _ _ _ _ _ _ _ Est Er). fold (readable d r). by rewrite Er. }
    apply (store_done (got call) rs HW _ _ _ Est r); [by eapply Hrs|]. assert (source_request r ∈ call) as Hcr by (apply Hq; exists r; split; [by eapply Hrs|done]).
    assert (call ≠ []) as Hne by (intros ->; by apply elem_of_nil in Hcr).
    assert (proper call) as Hpr. { intros q K. apply Hq in K as (r1 & K & _ & ->). apply (event_requests_spec e rs r1 Ers) in K as (p1 & x1 & K). by eapply needed_ordered. }
    apply search_got.
    + destruct (Hd1 call Hpr Hcr) as (t & Hd & Hc). exists t. rewrite Hit, got_spec. done.
    + intros t Ht Hc. rewrite Hit, got_spec in Ht. destruct Ht as [_ Ht]. by eapply Hd2.
Qed.
Lemma kept_lookup d d' l calls : (∀ f, d' !! f = d !! f ∨ ∃ bytes, d' !! f = Some bytes ∧ stored d l calls f bytes) →
  ∀ r t, readable d r = Some t → d' !! cache_file r = d !! cache_file r.
Proof using.
  intros H r t Hr. destruct (H (cache_file r)) as [K|(bytes & _ & (e & p & x & r' & call & t' & u & _ & _ & Ef & Hm & _))]; [done|].
  rewrite (readable_file d r' r) in Hm by done. congruence.
Qed.
Lemma kept_readable d d' r t : d' !! cache_file r = d !! cache_file r → readable d r = Some t → readable d' r = Some t.
Proof using. unfold Preload_Model.readable. by intros ->. Qed.
Lemma loop_files l : ∀ d calls s d' calls' s', rloop preload_event l (d, calls, s) = Ok (d', calls', s') →
  ∃ new, calls' = calls ++ new ∧
    (∃ es, es `sublist_of` l ∧ Forall2 (λ e call, call ≠ [] ∧ NoDup call ∧ ∀ q, q ∈ call → missing d e q) es new) ∧
    (∀ e p x r, e ∈ l → needed e p x r → readable d r = None →
       ∃ e' p' x' r' call, e' ∈ l ∧ needed e' p' x' r' ∧ cache_file r' = cache_file r ∧ call ∈ new ∧ source_request r' ∈ call) ∧
    (∀ f, d' !! f = d !! f ∨ ∃ bytes, d' !! f = Some bytes ∧ stored d l new f bytes) ∧
    (good_write → ∀ e p x r, e ∈ l → needed e p x r → delivers r → readable d' r ≠ None).
Proof using Hit.
  induction l as [|e l IH]; intros d calls s d' calls' s' E; cbn [rloop] in E.
  { injection E as <- <- <-. exists []. split; [by rewrite app_nil_r|]. split; [exists []; split; [done|constructor]|]. split; [intros ???? K; by apply elem_of_nil in K|].
    split; [by left|]. intros _ ???? K. by apply elem_of_nil in K. }
  apply rbind_ok in E as ([[d1 calls1] s1] & E1 & E). destruct (event_files _ _ _ _ _ _ _ E1) as (n1 & -> & A1 & B1 & C1 & D1).
  destruct (IH _ _ _ _ _ _ E) as (n2 & -> & A2 & B2 & C2 & D2). pose proof (kept_lookup _ _ _ _ C1) as M1. pose proof (kept_lookup _ _ _ _ C2) as M2.
  assert (∀ r, readable d1 r = None → readable d r = None) as Mn.
  { intros r Hr. destruct (readable d r) as [t|] eqn:Er; [|done]. rewrite (kept_readable d d1 r t (M1 _ _ Er) Er) in Hr. done. }
  assert (∀ e q, missing d1 e q → missing d e q) as Mm by (intros e' q (p & x & r & ? & ? & ?); exists p, x, r; eauto).
  exists (n1 ++ n2). split; [by rewrite app_assoc|]. split; [|split; [|split]].
  - destruct A2 as (es & Hs & HF). assert (Forall2 (λ e call, call ≠ [] ∧ NoDup call ∧ ∀ q, q ∈ call → missing d e q) es n2) as HF'.
    { eapply Forall2_impl; [exact HF|]. intros e' c (? & ? & K). split; [done|]. split; [done|]. eauto. }
    destruct A1 as [->|(call & -> & K)].
    + exists es. split; [by constructor|done].
    + exists (e :: es). split; [by constructor|]. constructor; done.
  - intros e' p x r He Hn Hm. apply elem_of_cons in He as [->|He].
    + destruct (B1 p x r Hn Hm) as (call & Hc & Hr). exists e, p, x, r, call. split; [left|]. split; [done|]. split; [done|]. split; [apply elem_of_app; by left|done].
    + destruct (readable d1 r) as [t|] eqn:Er.
      * destruct (C1 (cache_file r)) as [K|(bytes & _ & (e1 & p1 & x1 & r1 & call & t1 & u & He1 & Hn1 & Ef & Hm1 & Hc & Hr & _))].
        { unfold Preload_Model.readable in Er, Hm. rewrite K in Er. congruence. }
        exists e1, p1, x1, r1, call. split; [apply elem_of_list_singleton in He1 as ->; left|]. split; [done|]. split; [done|]. split; [apply elem_of_app; by left|done].
      * destruct (B2 e' p x r He Hn Er) as (e1 & p1 & x1 & r1 & call & K1 & K2 & K3 & K4 & K5). exists e1, p1, x1, r1, call. split; [by right|]. do 2 (split; [done|]). split; [apply elem_of_app; by right|done].
  - intros f. destruct (C2 f) as [K|(bytes & K & (e1 & p1 & x1 & r1 & call & t1 & u & He1 & Hn1 & Ef & Hm1 & Hc & Hr))].
    + rewrite K. destruct (C1 f) as [K1|(bytes & K1 & (e1 & p1 & x1 & r1 & call & t1 & u & He1 & Hn1 & Ef & Hm1 & Hc & Hr))]; [by left|].
      right. exists bytes. split; [done|]. exists e1, p1, x1, r1, call, t1, u. split; [apply elem_of_list_singleton in He1 as ->; left|]. do 3 (split; [done|]). split; [apply elem_of_app; by left|done].
    + right. exists bytes. split; [done|]. exists e1, p1, x1, r1, call, t1, u. split; [by right|]. do 2 (split; [done|]). split; [by apply Mn|]. split; [apply elem_of_app; by right|done].
  - intros HW e' p x r He Hn Hd. apply elem_of_cons in He as [->|He]; [|by eapply D2].
    pose proof (D1 HW p x r Hn Hd) as K. destruct (readable d1 r) as [t|] eqn:Er; [|done]. rewrite (kept_readable d1 d' r t); [done|by eapply M2|done].
Qed.

Notation event_of e := (∃ k : N, c_ev bg !! k = Some e).
Lemma preload_loop d d' calls s : preload_catalog true d = Ok (d', calls, s) → s = Basic ∧ ∃ s', rloop preload_event (sorted_events (c_ev bg)) (d, [], Basic) = Ok (d', calls, s').
Proof using.
  unfold Preload_Model.preload_catalog. intros E. apply rbind_ok in E as ([[d1 c1] s1] & E & [= <- <- <-]). split; [done|]. by exists s1.
Qed.
(** C79: the source is called at most once for each event, with requests that are all
    different and all missing on the disk, and afterwards the disk cache asks the basic
    loader again. *)
Theorem C79_calls d d' calls s : preload_catalog true d = Ok (d', calls, s) →
  s = Basic ∧ ∃ es, es `sublist_of` sorted_events (c_ev bg) ∧
    Forall2 (λ e call, call ≠ [] ∧ NoDup call ∧ ∀ q, q ∈ call → missing d e q) es calls.
Proof using Hit. intros E. apply preload_loop in E as (-> & s' & E). split; [done|]. by destruct (loop_files _ _ _ _ _ _ _ E) as (new & -> & H & _). Qed.
(** Everything missing is requested: each file by the first event that needs it. *)
Theorem C79_complete d d' calls s e p x r : preload_catalog true d = Ok (d', calls, s) → event_of e → needed e p x r → readable d r = None →
  ∃ e' p' x' r' call, event_of e' ∧ needed e' p' x' r' ∧ cache_file r' = cache_file r ∧ call ∈ calls ∧ source_request r' ∈ call.
Proof using Hit.
  intros E He Hn Hm. apply preload_loop in E as (-> & s' & E). destruct (loop_files _ _ _ _ _ _ _ E) as (new & -> & _ & H & _).
  destruct (H e p x r) as (e' & p' & x' & r' & call & K1 & K); [by apply elem_of_sorted_events|done|done|]. exists e', p', x', r', call. split; [by apply elem_of_sorted_events|done].
Qed.
(** A file is as before or was unreadable before and is written with what was delivered. *)
Theorem C79_files d d' calls s f : preload_catalog true d = Ok (d', calls, s) →
  d' !! f = d !! f ∨ ∃ bytes, d' !! f = Some bytes ∧ stored d (sorted_events (c_ev bg)) calls f bytes.
Proof using Hit. intros E. apply preload_loop in E as (-> & s' & E). destruct (loop_files _ _ _ _ _ _ _ E) as (new & -> & _ & _ & H & _). apply H. Qed.
(** Whatever the source delivers and is needed can be read from the disk afterwards. *)
Theorem C79_available d d' calls s e p x r : preload_catalog true d = Ok (d', calls, s) → good_write → event_of e → needed e p x r →
  delivers r ∨ readable d r ≠ None → readable d' r ≠ None.
Proof using Hit.
  intros E HW He Hn Hd. pose proof (C79_files d d' calls s) as HF. pose proof E as E0. apply preload_loop in E as (-> & s' & E). destruct (loop_files _ _ _ _ _ _ _ E) as (new & -> & _ & _ & _ & H).
  destruct Hd as [Hd|Hd]; [eapply H; [done|by apply elem_of_sorted_events|done|done]|].
  destruct (readable d r) as [t|] eqn:Er; [|done]. rewrite (kept_readable d d' r t); [done| |done]. eapply kept_lookup; [|exact Er]. intros f. by apply HF.
Qed.

Lemma rloop_total {A C} (f : A → C → res A) (P : A → Prop) ll a : P a → (∀ a b, P a → b ∈ ll → ∃ a', f a b = Ok a' ∧ P a') → ∃ a', rloop f ll a = Ok a' ∧ P a'.
Proof using.
  revert a. induction ll as [|b ll IH]; intros a Ha H; cbn [rloop]; [eauto|]. destruct (H a b Ha) as (a1 & -> & H1); [left|]. cbn [rbind]. apply IH; [done|].
  intros a2 b2 K1 K2. apply H; [done|by right].
Qed.
Lemma rmap_total {A C} (f : A → res C) ll : (∀ x, x ∈ ll → ∃ y, f x = Ok y) → ∃ ys, rmap f ll = Ok ys.
Proof using.
  induction ll as [|x ll IH]; intros H; cbn [rmap]; [eauto|]. destruct (H x) as (y & ->); [left|]. cbn [rbind]. destruct IH as (ys & ->); [intros z K; apply H; by right|]. cbn [rbind]. eauto.
Qed.
(** The preloading does not fail: for a catalog whose picks have processing information, a
    station, options and windows. *)
Theorem C79_total u d :
  (∀ e p, event_of e → p ∈ phs bg (e_id e) → ∃ i, p_proc p = Some i ∧ (pr_type i ≠ TNO → is_Some (c_sta bg !! p_staid p) ∧
     ∃ po w W, xo_phase opt (pr_type i) = Some po ∧ window_long (po_win po) (e_time e) (p_time p) = Some w ∧
       window_to_load (minLen / 2) (minLen / 2) (w_extend w (secToDur extra) (secToDur extra)) (p_time p) = ROk W)) →
  (∀ q id w t, (id, w, Some t) ∈ load_traces q → (0 < t_freq t)%Q) →
  ∃ st, preload_catalog u d = Ok st.
Proof using Hit.
  intros Hc Hf. unfold Preload_Model.preload_catalog. destruct u; [|eauto].
  edestruct (rloop_total preload_event (λ _, True) (sorted_events (c_ev bg)) (d, [], Basic)) as ([[d' calls] s] & -> & _); [done| |cbn [rbind]; eauto].
  clear d. intros [[d calls] s] e _ He. apply elem_of_sorted_events in He.
  assert (∃ rs, event_requests e = Ok rs) as (rs & Ers).
  { unfold Preload_Model.event_requests. edestruct (rmap_total (phase_requests e) (phs bg (e_id e))) as (ll & ->); [|cbn [rbind]; eauto].
    intros p Hp. destruct (Hc e p He Hp) as (i & Ei & Hi). unfold Preload_Model.phase_requests, proc. rewrite Ei. cbn [rbind].
    assert (pr_type i = TNO ∨ pr_type i ≠ TNO) as [Et|Et] by (destruct (pr_type i); auto); [rewrite Et; eauto|].
    destruct (Hi Et) as ((sta & Hsta) & po & w & W & Epo & Ew & EW). assert (opt_of opt p = Ok po) as Eo by (apply opt_of_spec; eauto).
    assert (∃ ys, rbind (long_window opt e p) (λ w, rbind (components opt p) (λ l, rbind (rmap (component_requests w p) l) (λ ll, Ok (concat ll)))) = Ok ys) as (ys & Eys).
    { unfold long_window. rewrite Eo. cbn [rbind]. rewrite Ew. unfold components. rewrite Eo. cbn [rbind].
      edestruct (rmap_total (component_requests w p)) as (ll & ->); [|cbn [rbind]; eauto].
      intros x _. unfold Preload_Model.component_requests. rewrite Hsta. cbn [at_ rbind].
      assert (∀ p' t, p_time p' = p_time p → ∃ y, rmap (loader_request w (stream_of p') (p_time p')) (channel_list info (stream_of p') (p_time p') t) = Ok y) as K.
      { intros p' t Et'. apply rmap_total. intros c _. unfold Preload_Model.loader_request. rewrite Et', EW. cbn [of_time rbind]. eauto. }
      unfold request. repeat (case_decide; [eauto|]). by apply K. }
    exists ys. destruct (pr_type i); done. }
  unfold Preload_Model.preload_event. rewrite Ers. cbn [rbind]. destruct (record_pass rs d batch_init eq_refl eq_refl ltac:(constructor)) as (b & Eb & H1 & H2 & H3 & H4).
  rewrite Eb. cbn [rbind].
  assert (∃ traces, batch_load load_traces b = Batch true [] traces ∧ ∀ id t, (id, t) ∈ traces → (0 < t_freq t)%Q) as (traces & -> & Hfr).
  { exists (got (b_requests b)). split; [unfold batch_load, got; rewrite H1, H2; by destruct (b_requests b)|]. intros id t K. apply got_spec in K as [_ (w & K)]. by eapply Hf. }
  edestruct (rloop_total cached_get (λ st, st.2 = Batch true [] traces) rs (d, Batch true [] traces)) as ([d2 b2] & -> & _); [done| |cbn [rbind]; eauto].
  intros [d1 b1] r Eb1 Hr. cbn [snd] in Eb1. subst b1. unfold Preload_Model.cached_get. destruct (readable d1 r); [eauto|]. unfold batch_get. cbn [b_loaded b_traces].
  apply (event_requests_spec e rs r Ers) in Hr as (p & x & Hn). apply needed_ordered in Hn.
  pose proof (search_spec (iteration traces) (stream_id (l_stream r)) (l_window r) Hn ltac:(intros id t K; eapply Hfr; by apply Hit)) as HS.
  destruct (search _ _ _); [eauto|done|eauto].
Qed.
End it.

(** ** Loading afterwards *)
Variable encode : wtrace → list B.
Variable flt : text → wtrace → option (list R).
Variable evLat evLon : event V → R.
Variable staLat staLon : station V → R.
Variable filterStr : text.
Variable resampleFreq : Q.
(** BasicProcessor with the disk cache, as used by DD::getWaveform; [basic] is the source *)
Definition processor (basic : lreq → option wtrace) d : tw → phase V → event V → station V → transform → option wtrace := λ w p e s t,
  match get (chain minLen decode encode basic d) extra info flt w (stream_of p) (p_time p) (evLat e) (evLon e) (staLat s) (staLon s) filterStr resampleFreq t with
  | ROk o => o
  | _ => None
  end.
Definition long_of e p w : Prop := ∃ i po, p_proc p = Some i ∧ pr_type i ≠ TNO ∧ xo_phase opt (pr_type i) = Some po ∧ window_long (po_win po) (e_time e) (p_time p) = Some w.

Lemma chain_same basic basic' d d' w s pick :
  (∀ W, window_to_load (minLen / 2) (minLen / 2) w pick = ROk W →
     (disk_get basic encode decode d (LReq W s) None).1 = (disk_get basic' encode decode d' (LReq W s) None).1) →
  chain minLen decode encode basic d w s pick = chain minLen decode encode basic' d' w s pick.
Proof using. intros H. unfold chain, extra_get. destruct (window_to_load _ _ w pick) as [W| |]; [|done|done]. by rewrite (H W). Qed.
Lemma waveform_same basic basic' d d' w e p x : p ∈ phs bg (e_id e) → long_of e p w →
  (∀ po i, p_proc p = Some i → xo_phase opt (pr_type i) = Some po → uses po p x) →
  (∀ r, needed e p x r → (disk_get basic encode decode d r None).1 = (disk_get basic' encode decode d' r None).1) →
  get_waveform bg (processor basic d) w e p x = get_waveform bg (processor basic' d') w e p x.
Proof using.
  intros Hp (i & po & E1 & E2 & E3 & E4) Hu H. unfold get_waveform. destruct (c_sta bg !! p_staid p) as [sta|]; cbn [at_ rbind]; [|done].
  destruct (request p x) as [[p' t]|] eqn:Er; [|done]. apply (f_equal (@Ok _)). unfold processor.
  erewrite C75_loads; [reflexivity|]. intros c Hc. destruct (request_channels _ _ _ _ _ Er Hc) as (H1 & H2 & H3). rewrite H3, H2. apply chain_same. intros W EW.
  apply H. split; [done|]. exists i, po, w, W, c. eauto 12.
Qed.
(** Where everything needed can be read, the waveforms do not depend on the source. *)
Theorem C79_offline basic basic' d w e p x : p ∈ phs bg (e_id e) → long_of e p w →
  (∀ po i, p_proc p = Some i → xo_phase opt (pr_type i) = Some po → uses po p x) →
  (∀ r, needed e p x r → readable d r ≠ None) →
  get_waveform bg (processor basic d) w e p x = get_waveform bg (processor basic' d) w e p x.
Proof using.
  intros Hp Hw Hu H. apply waveform_same; [done..|]. intros r Hr. specialize (H r Hr). unfold disk_get. fold (readable d r). destruct (readable d r); done.
Qed.

Definition needs_read d e p : Prop := ∀ x r, needed e p x r → readable d r ≠ None.
Lemma offline_any basic basic' d w e p x : p ∈ phs bg (e_id e) → (∀ i, p_proc p = Some i → pr_type i ≠ TNO) → long_window opt e p = Ok w →
  (∀ po i, p_proc p = Some i → xo_phase opt (pr_type i) = Some po → x ≠ [] → uses po p x) → needs_read d e p →
  get_waveform bg (processor basic d) w e p x = get_waveform bg (processor basic' d) w e p x.
Proof using.
  intros Hp Ht Hw Hu Hr. destruct (decide (x = [])) as [->|Hx].
  { unfold get_waveform. destruct (c_sta bg !! p_staid p); done. }
  unfold long_window in Hw. apply rbind_ok in Hw as (po & Epo & Ew). destruct (window_long _ _ _) as [w'|] eqn:EW; [|done]. injection Ew as ->.
  apply opt_of_spec in Epo as (i & E1 & E2). apply C79_offline; [done|exists i, po; eauto|intros; by eapply Hu|by apply Hr].
Qed.
(** Two picks of the catalog are cross-correlated without the source, if everything needed
    can be read and the components used for the first are also used for the second. *)
Theorem C79_xcorr_partial basic basic' d e1 p1 e2 p2 :
  p1 ∈ phs bg (e_id e1) → p2 ∈ phs bg (e_id e2) →
  (∀ i, p_proc p1 = Some i → pr_type i ≠ TNO) → (∀ i, p_proc p2 = Some i → pr_type i ≠ TNO) →
  (∀ i1 po1 i2 po2 x, p_proc p1 = Some i1 → xo_phase opt (pr_type i1) = Some po1 → p_proc p2 = Some i2 → xo_phase opt (pr_type i2) = Some po2 →
     uses po1 p1 x → uses po2 p2 x) →
  needs_read d e1 p1 → needs_read d e2 p2 →
  xcorr_phases opt bg (processor basic d) (processor basic d) e1 p1 e2 p2 = xcorr_phases opt bg (processor basic' d) (processor basic' d) e1 p1 e2 p2.
Proof using.
  intros Hp1 Hp2 Ht1 Ht2 Hu Hr1 Hr2. unfold xcorr_phases. case_decide; [|done]. case_decide; [|done].
  destruct (components opt p1) as [l| |] eqn:El; cbn [rbind]; [|done|done]. pose proof El as El'. unfold components in El'. apply rbind_ok in El' as (po1 & Epo1 & _).
  pose proof Epo1 as Eo1. apply opt_of_spec in Eo1 as (i1 & Ei1 & Exo1).
  assert (∀ x, x ∈ l → one_component opt bg (processor basic d) (processor basic d) e1 p1 e2 p2 x = one_component opt bg (processor basic' d) (processor basic' d) e1 p1 e2 p2 x) as H1.
  { intros x Hx. unfold one_component. rewrite Epo1. cbn [rbind].
    destruct (long_window opt e1 p1) as [w1| |] eqn:Ew1; cbn [rbind]; [|done|done]. destruct (long_window opt e2 p2) as [w2| |] eqn:Ew2; cbn [rbind]; [|done|done].
    rewrite (offline_any basic basic' d w1 e1 p1 x Hp1 Ht1 Ew1); [|intros po' i' K1 K2 K3; eapply (uses_spec po' p1 l x); [done|apply opt_of_spec; eauto|done|done]|done].
    rewrite (offline_any basic basic' d w2 e2 p2 x Hp2 Ht2 Ew2); [done| |done].
    intros po' i' K1 K2 K3. eapply Hu; [exact Ei1|exact Exo1|done|done|]. by eapply (uses_spec po1 p1 l x). }
  clear El. revert H1. generalize ((false, Indet, Indet) : XcorrBuild_Model.outcome). induction l as [|x l IH]; intros o H1; cbn [try_components]; [done|].
  rewrite (H1 x) by left. destruct (one_component opt bg (processor basic' d) _ _ _ _ _ x) as [o'| |]; cbn [rbind]; [|done|done]. destruct (o'.1.1); [done|]. apply IH. intros y Hy. apply H1. by right.
Qed.
End props.

(** ** A source that cuts the waveforms out of recordings *)
Section cut.
Context {N A : Type}.
Implicit Types t : trace N A.
Local Open Scope Z_scope.
(** A slice can be cut out again with its own window. *)
Lemma slice_own t W T P : period t P → t_data t ≠ [] → w_start W <= w_end W → slice t W = SlTrue T →
  slice t (time_window T) = SlTrue T ∧ w_start (time_window T) <= w_end (time_window T).
Proof using.
  intros HP Hd HW E. assert (0 < sample_count t) as Hn by (unfold sample_count; destruct (t_data t); [done|cbn; lia]).
  rewrite (slice_exact _ _ P) in E by done. case_decide as HI; [|done]. destruct HI as [I1 I2]. injection E as E.
  set (a := not_after t P (w_start W)) in *. set (b := not_before t P (w_end W)) in *.
  assert (0 <= a) as A0 by (apply Z.div_pos; lia).
  assert (b < sample_count t) as B0.
  { unfold b, not_before. assert (- (sample_count t - 1) <= (t_start t - w_end W) / Zpos P) as K; [|lia]. apply Z.div_le_lower_bound; lia. }
  assert (a <= b) as AB.
  { unfold a, b, not_after, not_before. pose proof (Z.mul_div_le (w_start W - t_start t) (Zpos P) ltac:(lia)). pose proof (Z.mul_div_le (t_start t - w_end W) (Zpos P) ltac:(lia)). nia. }
  assert (length (t_data T) = Z.to_nat (b + 1 - a)) as LT.
  { rewrite <- E. cbn [t_data]. rewrite take_length, drop_length. unfold sample_count in B0. lia. }
  assert (t_start T = t_start t + a * Zpos P) as ST by (by rewrite <- E).
  assert (end_time T = t_start t + b * Zpos P) as ET.
  { rewrite (exact_end T P); [|unfold period; by rewrite <- E|intros X; rewrite X in LT; cbn in LT; lia]. unfold sample_count. rewrite LT, ST. rewrite Z2Nat.id by lia. lia. }
  assert (time_window T = Tw (t_start t + a * Zpos P) (t_start t + b * Zpos P)) as EW.
  { unfold time_window, mk_tw, set_end. cbn [w_start w_end]. rewrite ST, ET. destruct (_ <? _) eqn:L; [apply Z.ltb_lt in L; nia|done]. }
  rewrite EW. cbn [w_start w_end]. split; [|nia]. rewrite (slice_exact _ _ P) by (done || (cbn [w_start w_end]; nia)). cbn [w_start w_end]. rewrite decide_True by nia.
  assert (not_after t P (t_start t + a * Zpos P) = a) as ->.
  { unfold not_after. replace (_ - t_start t) with (a * Zpos P) by lia. by rewrite Z.div_mul. }
  assert (not_before t P (t_start t + b * Zpos P) = b) as ->.
  { unfold not_before. replace (t_start t - _) with (- b * Zpos P) by lia. rewrite Z.div_mul by lia. lia. }
  by rewrite E.
Qed.
(** A window within a slice is cut out of the slice as out of the recording. *)
Lemma cut_again t W T w P : period t P → t_data t ≠ [] → w_start W <= w_end W → w_start w <= w_end w → slice t W = SlTrue T → w_contains (time_window T) w = true →
  ∃ u, slice T w = SlTrue u ∧ slice t w = SlTrue u ∧ (time_window T = w → u = T).
Proof using.
  intros HP Hd HW Hw E Hc. destruct (slice_own t W T P HP Hd HW E) as [E1 HO]. unfold w_contains in Hc. apply andb_true_iff in Hc as [C1 C2]. apply Z.leb_le in C1, C2.
  destruct (slice_slice t w (time_window T) T P HP Hd Hw C1 C2 E1) as (u & U1 & U2). exists u. split; [done|]. split; [done|].
  intros <-. unfold slice in U2. unfold tw_eqb in U2. rewrite !Z.eqb_refl in U2. cbn [andb] in U2. by injection U2 as ->.
Qed.
End cut.

Section recorder.
Context {V B : Type}.
Variable opt : xcorr_opt.
Variable bg : catalog V.
Variable extra minLen : Q.
Variable info : stream → Z → option comps_info.
Implicit Types (e : event V) (p : phase V) (w : tw) (r : lreq).
Notation fs := (@gmap text _ (@list_countable Ascii.ascii _ stdpp.strings.ascii_countable) (list B)).
Implicit Types d : fs.
(** The recordings of the streams *)
Variable rec : text → option wtrace.
Definition cut (q : request_t) : option wtrace :=
  match rec q.1 with Some t => match slice t q.2 with SlTrue u => Some u | _ => None end | None => None end.
Variable iteration : list (text * wtrace) → list (text * wtrace).
Variable decode : list B → option wtrace.
Variable write : text → wtrace → option (list B).
Notation readable := (Preload_Model.readable decode).
Notation needed := (needed opt bg extra minLen info).
Notation recordings := (λ l : list request_t, (λ q, (q, cut q)) <$> l).
Notation preload_catalog := (preload_catalog opt bg extra minLen info recordings iteration decode write).
Notation event_of e := (∃ k : N, c_ev bg !! k = Some e).

Hypothesis Hit : ∀ l x, x ∈ iteration l ↔ x ∈ l.
(** The sampling periods are whole numbers of microseconds. *)
Hypothesis Hrec : ∀ id t, rec id = Some t → t_data t ≠ [] ∧ ∃ P, period t P.
(** What is written is read back. *)
Hypothesis Hwrite : ∀ f t, ∃ bytes, write f t = Some bytes ∧ decode bytes = Some t.
(** The codes contain no dots and the times are those of the calendar. *)
Hypothesis Hcodes : ∀ e p x r, event_of e → needed e p x r → lreq_ok r.

Lemma cut_delivered l id t : proper l → delivered (recordings l) id t → ∃ W R P, rec id = Some R ∧ t_data R ≠ [] ∧ period R P ∧ (w_start W <= w_end W)%Z ∧ slice R W = SlTrue t.
Proof using Hrec.
  intros Hp (W & K). apply elem_of_list_fmap in K as ([id' W'] & E & K). injection E as -> -> E. specialize (Hp _ K). cbn [snd] in Hp. unfold cut in E. cbn [fst snd] in E.
  destruct (rec id') as [R|] eqn:ER; [|done]. destruct (Hrec _ _ ER) as (Hd & P & HP). destruct (slice R W') as [| |u] eqn:ES; [done|done|]. injection E as <-. exists W', R, P. done.
Qed.
Lemma cut_delivers r u : (w_start (l_window r) <= w_end (l_window r))%Z → cut (source_request r) = Some u → delivers recordings r.
Proof using Hrec.
  intros Hw E. pose proof E as E0. unfold cut in E. cbn [source_request fst snd] in E. destruct (rec (stream_id (l_stream r))) as [R|] eqn:ER; [|done].
  destruct (Hrec _ _ ER) as (Hd & P & HP). destruct (slice R (l_window r)) as [| |u'] eqn:ES; [done|done|]. injection E as ->. split.
  - intros l _ Hr. exists u. split; [exists (l_window r); apply elem_of_list_fmap; exists (source_request r); split; [unfold source_request in *; by rewrite E0|done]|].
    (* a slice contains its window *)
    rewrite (slice_exact _ _ P) in ES by done. case_decide as HI; [|done]. destruct HI as [I1 I2].
    assert (0 < sample_count R)%Z as Hn by (unfold sample_count; destruct (t_data R); [done|cbn; lia]).
    injection ES as ES. set (a := not_after R P (w_start (l_window r))) in *. set (b := not_before R P (w_end (l_window r))) in *.
    assert (0 <= a)%Z as A0 by (apply Z.div_pos; lia).
    assert (b < sample_count R)%Z as B0.
    { unfold b, not_before. assert (- (sample_count R - 1) <= (t_start R - w_end (l_window r)) / Zpos P)%Z as K; [|lia]. apply Z.div_le_lower_bound; lia. }
    pose proof (Z.mul_div_le (w_start (l_window r) - t_start R) (Zpos P) ltac:(lia)) as M1. pose proof (Z.mul_div_le (t_start R - w_end (l_window r)) (Zpos P) ltac:(lia)) as M2.
    assert (a <= b)%Z as AB by (unfold a, b, not_after, not_before; nia).
    assert (length (t_data u) = Z.to_nat (b + 1 - a)) as LT.
    { rewrite <- ES. cbn [t_data]. rewrite take_length, drop_length. unfold sample_count in B0. lia. }
    assert (t_start u = t_start R + a * Zpos P)%Z as ST by (by rewrite <- ES).
    assert (end_time u = t_start R + b * Zpos P)%Z as ET.
    { rewrite (exact_end u P); [|unfold period; by rewrite <- ES|intros X; rewrite X in LT; cbn in LT; lia]. unfold sample_count. rewrite LT, ST. rewrite Z2Nat.id by lia. lia. }
    assert (time_window u = Tw (t_start R + a * Zpos P) (t_start R + b * Zpos P)) as EW.
    { unfold time_window, mk_tw, set_end. cbn [w_start w_end]. rewrite ST, ET. destruct (_ <? _)%Z eqn:L; [apply Z.ltb_lt in L; nia|done]. }
    rewrite EW. unfold w_contains. cbn [w_start w_end]. apply andb_true_iff. rewrite !Z.leb_le. unfold a, b, not_after, not_before in *. lia.
  - intros l t Hp Hd' Hc. destruct (cut_delivered l _ t Hp Hd') as (W & R' & P' & ER' & HdR & HP' & HW & ES'). rewrite ER in ER'. injection ER' as <-.
    destruct (cut_again R W t (l_window r) P' HP' HdR HW Hw ES' Hc) as (v & V1 & _). eauto.
Qed.
Lemma cut_stored d l calls f bytes : (∀ call, call ∈ calls → proper call) → stored opt bg extra minLen info recordings decode write d l calls f bytes →
  ∃ e p x r u, e ∈ l ∧ needed e p x r ∧ f = cache_file r ∧ readable d r = None ∧ cut (source_request r) = Some u ∧ write f u = Some bytes.
Proof using Hrec.
  intros Hp (e & p & x & r & call & t & u & He & Hn & Ef & Hm & Hc & Hr & Hd & Hcon & Hu & Hwr). exists e, p, x, r, u. do 4 (split; [done|]). split; [|done].
  destruct (cut_delivered call _ t (Hp _ Hc) Hd) as (W & R & P & ER & HdR & HP & HW & ES).
  destruct (cut_again R W t (l_window r) P HP HdR HW (needed_ordered _ _ _ _ _ _ _ _ _ Hn) ES Hcon) as (v & V1 & V2 & V3).
  unfold cut. cbn [source_request fst snd]. rewrite ER, V2. f_equal. destruct Hu as [[-> Ew]|Ew]; [by apply V3|congruence].
Qed.
Lemma calls_proper d d' calls s : preload_catalog true d = Ok (d', calls, s) → ∀ call, call ∈ calls → proper call.
Proof using Hit.
  intros E call Hc. destruct (C79_calls _ _ _ _ _ _ _ _ _ Hit _ _ _ _ E) as (_ & es & _ & HF). apply elem_of_list_lookup in Hc as [i Hi]. destruct (Forall2_lookup_r _ _ _ _ _ HF Hi) as (e & _ & _ & _ & K).
  intros q Hq. destruct (K q Hq) as (p & x & r & Hn & _ & ->). by eapply needed_ordered.
Qed.
(** C79: after the preloading the cache has what it had, and of the rest what the recordings
    have. *)
Theorem C79_recorder d d' calls s e p x r : preload_catalog true d = Ok (d', calls, s) → event_of e → needed e p x r →
  readable d' r = match readable d r with Some t => Some t | None => cut (source_request r) end.
Proof using Hit Hrec Hwrite Hcodes.
  intros E He Hn. pose proof (C79_files _ _ _ _ _ _ _ _ _ Hit d d' calls s (cache_file r) E) as HF.
  assert (good_write decode write) as HW by (intros f t; destruct (Hwrite f t) as (bytes & ? & ?); eauto).
  destruct (readable d r) as [t|] eqn:Er.
  { destruct HF as [HF|(bytes & _ & HF)]; [unfold Preload_Model.readable in *; by rewrite HF|].
    destruct HF as (e' & p' & x' & r' & call & t' & u & _ & _ & Ef & Hm & _). rewrite (readable_file decode d r' r) in Hm by done. congruence. }
  destruct HF as [HF|(bytes & Hb & HF)].
  - destruct (cut (source_request r)) as [u|] eqn:Ec; [|unfold Preload_Model.readable in *; by rewrite HF]. exfalso.
    eapply (C79_available _ _ _ _ _ _ _ _ _ Hit d d' calls s e p x r E HW He Hn); [left; eapply cut_delivers; [by eapply needed_ordered|done]|].
    unfold Preload_Model.readable in *. by rewrite HF.
  - apply cut_stored in HF as (e' & p' & x' & r' & u & He' & Hn' & Ef & _ & Ec & Ew); [|by eapply calls_proper]. apply elem_of_sorted_events in He'.
    apply cache_file_inj in Ef as <-; [|by eapply (Hcodes e p x r)|by eapply (Hcodes e' p' x' r')]. rewrite Ec. unfold Preload_Model.readable. rewrite Hb. cbn [mbind option_bind].
    destruct (Hwrite (cache_file r) u) as (bytes' & E1 & E2). rewrite E1 in Ew. by injection Ew as ->.
Qed.
(** Preloading again asks only for what the recordings do not have, and changes no file. *)
Theorem C79_again d d' calls s d2 calls2 s2 : preload_catalog true d = Ok (d', calls, s) → preload_catalog true d' = Ok (d2, calls2, s2) →
  (∀ call q, call ∈ calls2 → q ∈ call → cut q = None) ∧ (∀ f, d2 !! f = d' !! f).
Proof using Hit Hrec Hwrite Hcodes.
  intros E E2. assert (∀ e p x r, event_of e → needed e p x r → readable d' r = None → cut (source_request r) = None) as H.
  { intros e p x r He Hn Hr. rewrite (C79_recorder d d' calls s e p x r E He Hn) in Hr. by destruct (readable d r). }
  split.
  - intros call q Hc Hq. destruct (C79_calls _ _ _ _ _ _ _ _ _ Hit _ _ _ _ E2) as (_ & es & Hs & HF). apply elem_of_list_lookup in Hc as [i Hi]. destruct (Forall2_lookup_r _ _ _ _ _ HF Hi) as (e & He & _ & _ & K).
    destruct (K q Hq) as (p & x & r & Hn & Hm & ->). eapply H; [|exact Hn|exact Hm]. apply elem_of_sorted_events. eapply elem_of_submseteq; [by eapply elem_of_list_lookup_2|by apply sublist_submseteq].
  - intros f. destruct (C79_files _ _ _ _ _ _ _ _ _ Hit d' d2 calls2 s2 f E2) as [K|(bytes & _ & K)]; [done|]. exfalso.
    apply cut_stored in K as (e & p & x & r & u & He & Hn & _ & Hm & Ec & _); [|by eapply calls_proper]. apply elem_of_sorted_events in He. rewrite (H e p x r He Hn Hm) in Ec. done.
Qed.
(** The waveforms obtained after the preloading, from whatever source that has nothing the
    recordings do not have, are those cut out of the recordings directly: nothing else is
    needed of the source. *)
Theorem C79_transparent encode flt evLat evLon staLat staLon filterStr resampleFreq d d' calls s basic w e p x :
  preload_catalog true d = Ok (d', calls, s) →
  (∀ r t, (∃ e p x, event_of e ∧ needed e p x r) → readable d r = Some t → cut (source_request r) = Some t) →
  event_of e → p ∈ phs bg (e_id e) → long_of opt e p w → (∀ po i, p_proc p = Some i → xo_phase opt (pr_type i) = Some po → uses po p x) →
  (∀ r, needed e p x r → cut (source_request r) = None → basic r = None) →
  get_waveform bg (processor extra minLen info decode encode flt evLat evLon staLat staLon filterStr resampleFreq basic d') w e p x =
  get_waveform bg (processor extra minLen info decode encode flt evLat evLon staLat staLon filterStr resampleFreq (λ r, cut (source_request r)) ∅) w e p x.
Proof using Hit Hrec Hwrite Hcodes.
  intros E Hf He Hp Hw Hu Hb. eapply waveform_same; [done|exact Hw|done|]. intros r Hn. pose proof (C79_recorder d d' calls s e p x r E He Hn) as K. unfold disk_get.
  rewrite lookup_empty. cbn [mbind option_bind]. fold (readable d' r). rewrite K. destruct (readable d r) as [t|] eqn:Er.
  - assert (cut (source_request r) = Some t) as -> by (apply Hf; eauto). done.
  - destruct (cut (source_request r)) as [t|] eqn:Ec; [done|]. by rewrite (Hb r Hn Ec).
Qed.
End recorder.

(** ** A catalog: two events and a station, the picks on two channels of it *)
Module PreloadCases.
Definition tx (s : string) : text := String.list_ascii_of_string s.
Definition sid : text := tx "CH.ABC.".
Definition ev (k : N) : event Z := Ev k (2000000 + 6000000 * Z.of_N k) 0%Z 0%Z 0%Z 0%Z None.
Definition pick (k : N) (cha : text) : phase Z :=
  Pha k sid (4300000 + 6000000 * Z.of_N k) 0%Z 0%Z (tx "P") (tx "CH") (tx "ABC") [] cha (Some (Proc TP 1%Z SrcCatalog)) None.
Definition p1 := pick 1 (tx "HHZ").
Definition p2 := pick 2 (tx "HHN").
Definition cat : catalog Z := Cat {[ sid := Sta sid 0%Z 0%Z 0%Z (tx "CH") (tx "ABC") [] ]} {[ 1 := ev 1; 2 := ev 2 ]}%N {[ 1 := [p1]; 2 := [p2] ]}%N.
Definition wcfg : xcorr_cfg := XcorrCfg (-(1#2)) (3#4) (1#2) 0.
Definition opt : xcorr_opt := XcorrOpt true 0 0 0 (λ t, match t with TNO => None | _ => Some (PhaseOpt wcfg []) end).
Definition info (s : stream) (t : Z) : option comps_info := None.
Definition recording : wtrace := MkTrace (Stream [] [] [] []) 0 1 (replicate 30 0%R).
Definition rec (id : text) : option wtrace := if bool_decide (id ∈ [tx "CH.ABC..HHZ"; tx "CH.ABC..HHN"]) then Some recording else None.
Definition decode (bytes : list wtrace) : option wtrace := head bytes.
Definition write (f : text) (t : wtrace) : option (list wtrace) := Some [t].
Notation source := (λ l : list request_t, (λ q, (q, cut rec q)) <$> l).
Notation run d := ( preload_catalog opt cat 1 4 info source (λ l, l) decode write true d).
Definition W (k : Z) : tw := Tw (2000000 + 6000000 * k) (7000000 + 6000000 * k).
Definition req (k : Z) (cha : string) : lreq := LReq (W k) (Stream (tx "CH") (tx "ABC") [] (tx cha)).
Example calls : match run ∅ with Ok (d, calls, s) => Some (calls, s) | _ => None end =
  Some ([[(tx "CH.ABC..HHZ", Tw 8000000 13000000)]; [(tx "CH.ABC..HHN", Tw 14000000 19000000)]], Basic).
Proof. vm_compute. reflexivity. Qed.
Example again : match run ∅ with Ok (d, _, _) => match run d with Ok (_, calls, _) => Some calls | _ => None end | _ => None end = Some [].
Proof. vm_compute. reflexivity. Qed.
Lemma events e : (∃ k : N, c_ev cat !! k = Some e) → e = ev 1 ∨ e = ev 2.
Proof. intros (k & H). cbn [cat c_ev] in H. apply lookup_insert_Some in H as [[_ <-]|[_ H]]; [by left|]. apply lookup_singleton_Some in H as [_ <-]. by right. Qed.
Lemma phases k p : (k = 1 ∨ k = 2)%N → p ∈ phs cat k → p = p1 ∧ k = 1%N ∨ p = p2 ∧ k = 2%N.
Proof.
  intros [-> | ->] Hp.
  - change (phs cat 1) with [p1] in Hp. apply elem_of_list_singleton in Hp. by left.
  - change (phs cat 2) with [p2] in Hp. apply elem_of_list_singleton in Hp. by right.
Qed.
Lemma load_window k : (k = 1 ∨ k = 2)%Z → ∃ w, window_long wcfg (2000000 + 6000000 * k) (4300000 + 6000000 * k) = Some w ∧
  window_to_load (4 / 2) (4 / 2) (w_extend w (secToDur 1) (secToDur 1)) (4300000 + 6000000 * k) = ROk (W k).
Proof. intros [-> | ->]; [exists (Tw 9300000 11550000)|exists (Tw 15300000 17550000)]; split; vm_compute; reflexivity. Qed.
Lemma needs e p x r : (∃ k : N, c_ev cat !! k = Some e) → needed opt cat 1 4 info e p x r → r = req 1 "HHZ" ∧ e = ev 1 ∨ r = req 2 "HHN" ∧ e = ev 2.
Proof.
  intros He (Hp & i & po & w & W & c & E1 & E2 & E3 & Hu & E4 & Hc & E5 & ->).
  assert (e_id e = 1 ∨ e_id e = 2)%N as Hid by (destruct (events e He) as [-> | ->]; auto).
  assert (p = p1 ∧ e = ev 1 ∨ p = p2 ∧ e = ev 2) as Hpe.
  { destruct (phases _ _ Hid Hp) as [[-> K]|[-> K]]; [left|right]; (split; [done|]); destruct (events e He) as [-> | ->]; done. }
  assert (∃ k, (k = 1 ∨ k = 2)%Z ∧ p_time p = (4300000 + 6000000 * k)%Z ∧ e_time e = (2000000 + 6000000 * k)%Z ∧ p = pick (Z.to_N k) (p_cha p)) as (k & Hk & Hpt & Het & Hpk).
  { destruct Hpe as [[-> ->]|[-> ->]]; [exists 1%Z|exists 2%Z]; split_and!; auto. }
  rewrite Hpt in *. rewrite Het in *.
  assert (i = Proc TP 1%Z SrcCatalog) as -> by (destruct Hpe as [[-> _]|[-> _]]; cbn in E1; congruence). cbn in E3. injection E3 as <-. cbn [po_win] in E4.
  destruct (load_window k Hk) as (w' & L1 & L2). rewrite E4 in L1. injection L1 as <-. rewrite E5 in L2. injection L2 as ->. unfold uses in Hu. cbn [po_components] in Hu. destruct Hu as (a & b & z & Ech & Ex).
  assert (p = p1 ∧ k = 1%Z ∨ p = p2 ∧ k = 2%Z) as Hpk'. { destruct Hpe as [[-> _]|[-> _]], Hk as [-> | ->]; cbn in Hpt; try done; auto. }
  destruct Hpe as [[-> ->]|[-> ->]]; (destruct Hpk' as [[Y ->]|[Y ->]]; [|]); try done; cbn in Ech; injection Ech as <- <- <-; subst x; [left|right]; (split; [|done]); unfold req; f_equal; f_equal.
  all: destruct Hc as [[K _]|[[K _]|[[K _]|[_ [(a & b & l & K & ->)|[K _]]]]]]; try done; try (cbn in K; injection K as <- <- <-; done); cbn in K; lia.
Qed.
Lemma req_ok cha : "."%char ∉ tx cha → lreq_ok (req 1 cha) ∧ lreq_ok (req 2 cha).
Proof. intros H. split; (split; [split_and!; [no_dot|no_dot|no_dot|done]|]); split; split; done. Qed.
Lemma req_cut k cha : (k = 1 ∨ k = 2)%Z → cha = "HHZ" ∨ cha = "HHN" → cut rec (source_request (req k cha)) ≠ None.
Proof. intros [-> | ->] [-> | ->]; vm_compute; done. Qed.
Lemma hypotheses : (∀ (l : list (text * wtrace)) x, x ∈ l ↔ x ∈ l) ∧ (∀ id t, rec id = Some t → t_data t ≠ [] ∧ ∃ P, period t P) ∧
  (∀ f t, ∃ bytes, write f t = Some bytes ∧ decode bytes = Some t) ∧
  (∀ e p x r, (∃ k : N, c_ev cat !! k = Some e) → needed opt cat 1 4 info e p x r → lreq_ok r) ∧
  ∃ d calls, run ∅ = Ok (d, calls, Basic).
Proof.
  split; [done|]. split. { intros id t E. unfold rec in E. case_bool_decide; [|done]. injection E as <-. split; [done|]. exists 1000000%positive. vm_compute. reflexivity. }
  split; [intros f t; exists [t]; done|].
  split. { intros e p x r He Hn. destruct (needs e p x r He Hn) as [[-> _]|[-> _]]; eapply req_ok; no_dot. }
  edestruct (C79_total opt cat 1 4 info source (λ l, l) decode write ltac:(done) true ∅) as ([[d calls] s] & E).
  - intros e p He Hp. exists (Proc TP 1%Z SrcCatalog). assert (e_id e = 1 ∨ e_id e = 2)%N as Hid by (destruct (events e He) as [-> | ->]; auto).
    destruct (phases _ _ Hid Hp) as [[-> K]|[-> K]]; (split; [done|]); intros _; (split; [eexists; apply lookup_singleton|]).
    + destruct (load_window 1) as (w & L1 & L2); [auto|]. exists (PhaseOpt wcfg []), w, (W 1). split; [done|]. destruct (events e He) as [-> | ->]; done.
    + destruct (load_window 2) as (w & L1 & L2); [auto|]. exists (PhaseOpt wcfg []), w, (W 2). split; [done|]. destruct (events e He) as [-> | ->]; done.
  - intros q id w t K. apply elem_of_list_fmap in K as ([id' w'] & E & _). injection E as -> -> E. unfold cut, rec in E. cbn [fst snd] in E. case_bool_decide; [|done].
    destruct (slice recording w') as [| |u] eqn:ES; [done|done|]. injection E as <-. unfold slice in ES. destruct (tw_eqb _ _); [by injection ES as <-|]. destruct (negb _); [done|].
    destruct (_ <? 0)%Z; [done|]. destruct (_ <=? _)%Z; [done|]. destruct (sub_vector _ _ _); [|done]. by injection ES as <-.
  - exists d, calls. pose proof (C79_calls opt cat 1 4 info source (λ l, l) decode write ltac:(done) _ _ _ _ E) as [-> _]. exact E.
Qed.
End PreloadCases.
(** Not everything the cross-correlation asks for is preloaded: without configured components
    the component of the first pick is used for both, which for the second may be another
    channel than the one it was picked on. *)
Theorem C79_other_channel_refuted : ∃ (bg : catalog Z) opt extra minLen info rec decode write (d : gmap text (list wtrace)) calls e1 p1 e2 p2 w x r,
  preload_catalog opt bg extra minLen info (λ l, (λ q, (q, cut rec q)) <$> l) (λ l, l) decode write true ∅ = Ok (d, calls, Basic) ∧
  (∀ e p x r, (∃ k : N, c_ev bg !! k = Some e) → needed opt bg extra minLen info e p x r → readable decode d r ≠ None) ∧
  c_ev bg !! e_id e1 = Some e1 ∧ c_ev bg !! e_id e2 = Some e2 ∧ p1 ∈ phs bg (e_id e1) ∧ p2 ∈ phs bg (e_id e2) ∧
  p_type p1 = p_type p2 ∧ band_and_instrument (p_cha p1) = band_and_instrument (p_cha p2) ∧
  components opt p1 = Ok [x] ∧ long_window opt e2 p2 = Ok w ∧ component_requests bg extra minLen info w p2 x = Ok [r] ∧
  cut rec (source_request r) ≠ None ∧ readable decode d r = None.
Proof.
  destruct PreloadCases.hypotheses as (H1 & H2 & H3 & H4 & d & calls & E). pose (w := Tw 15300000 17550000).
  exists PreloadCases.cat, PreloadCases.opt, 1%Q, 4%Q, PreloadCases.info, PreloadCases.rec, PreloadCases.decode, PreloadCases.write, d, calls.
  exists (PreloadCases.ev 1), PreloadCases.p1, (PreloadCases.ev 2), PreloadCases.p2, w, ["Z"%char].
  exists (PreloadCases.req 2 "HHZ").
  split; [exact E|].
  split. { intros e p x r He Hn. rewrite (C79_recorder PreloadCases.opt PreloadCases.cat 1 4 PreloadCases.info PreloadCases.rec (λ l, l) PreloadCases.decode PreloadCases.write H1 H2 H3 H4 ∅ d calls Basic e p x r E He Hn).
    destruct (readable PreloadCases.decode ∅ r); [done|]. destruct (PreloadCases.needs e p x r He Hn) as [[-> _]|[-> _]]; apply PreloadCases.req_cut; auto. }
  do 2 (split; [vm_compute; reflexivity|]). split; [left|]. split; [left|]. do 2 (split; [done|]). split; [vm_compute; reflexivity|]. split; [vm_compute; reflexivity|]. split; [vm_compute; reflexivity|].
  split; [apply PreloadCases.req_cut; auto|].
  destruct (C79_files PreloadCases.opt PreloadCases.cat 1 4 PreloadCases.info _ (λ l, l) PreloadCases.decode PreloadCases.write H1 ∅ d calls Basic (cache_file (PreloadCases.req 2 "HHZ")) E) as [K|(bytes & _ & (e & p & x & r & call & t & u & He & Hn & Ef & _))].
  { unfold readable. rewrite K, lookup_empty. done. }
  exfalso. apply elem_of_sorted_events in He. apply cache_file_inj in Ef as <-; [|eapply PreloadCases.req_ok; no_dot|by eapply H4].
  destruct (PreloadCases.needs e p x _ He Hn) as [[K _]|[K _]]; discriminate.
Qed.
Print Assumptions C79_calls.
Print Assumptions C79_complete.
Print Assumptions C79_files.
Print Assumptions C79_available.
Print Assumptions C79_total.
Print Assumptions C79_offline.
Print Assumptions C79_xcorr_partial.
Print Assumptions C79_recorder.
Print Assumptions C79_again.
Print Assumptions C79_transparent.
Print Assumptions C79_other_channel_refuted.
