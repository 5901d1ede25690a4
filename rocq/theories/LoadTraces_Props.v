(** Loading traces from the record stream (C61). *)
From Coq Require Import Ascii.
From stdpp Require Import numbers list sets strings.
From Verif Require Import TimeWindow_Model Time_Model WaveCache_Model WaveCache_Props LoadTraces_Model.
Local Open Scope Z_scope.

(** ** The codes *)
Lemma split_at_app cur a s : "."%char ∉ a -> split_at cur (a ++ "."%char :: s) = (rev cur ++ a) :: split_at [] s.
Proof.
  revert cur. induction a as [|c a IH]; intros cur Ha; cbn [app split_at].
  - rewrite app_nil_r. done.
  - apply not_elem_of_cons in Ha as [Hc Ha]. destruct (ascii_dec c "."); [by subst|]. rewrite IH by done. cbn [rev]. rewrite <- app_assoc. done.
Qed.
Lemma split_at_end cur a : "."%char ∉ a -> a <> [] -> split_at cur a = [rev cur ++ a].
Proof.
  revert cur. induction a as [|c a IH]; intros cur Ha Hne; [done|]. cbn [split_at].
  apply not_elem_of_cons in Ha as [Hc Ha]. destruct (ascii_dec c "."); [by subst|]. destruct a as [|d a].
  - cbn [split_at]. cbn [rev]. destruct (rev cur ++ [c]) eqn:E; [by destruct (rev cur)|]. done.
  - rewrite IH by done. cbn [rev]. rewrite <- app_assoc. done.
Qed.
Lemma split_dots_stream s : stream_ok s -> s_cha s <> [] -> split_dots (stream_id s) = [s_net s; s_sta s; s_loc s; s_cha s].
Proof.
  intros (S1 & S2 & S3 & S4) Hc. unfold split_dots. assert (stream_id s <> []) as Hne. { unfold stream_id, dot. destruct (s_net s); done. }
  destruct (stream_id s) as [|c t] eqn:E; [done|]. rewrite <- E. unfold stream_id, dot. cbn [app].
  rewrite split_at_app, split_at_app, split_at_app by done. rewrite split_at_end by done. done.
Qed.
(** The requests of a list of streams and windows *)
Definition wanted (l : list (stream * tw)) : list request_t := (fun x => (stream_id x.1, x.2)) <$> l.
Definition as_request (x : stream * tw) : request :=
  Request (s_net x.1) (s_sta x.1) (s_loc x.1) (s_cha x.1) (w_extend x.2 0 (Z.quot (w_length x.2) 100)).
Lemma make_requests_ok l : Forall (fun x => stream_ok x.1 /\ s_cha x.1 <> []) l -> make_requests (wanted l) = Some (as_request <$> l).
Proof.
  induction 1 as [|[s w] l [H1 H2] _ IH]; [done|]. unfold wanted in *. rewrite !fmap_cons. cbn [fst snd] in *. cbn [make_requests].
  unfold make_request. rewrite split_dots_stream by done. cbn [mbind option_bind]. rewrite IH. done.
Qed.

(** ** One connection *)
Section load.
Variable close : tw -> tw -> bool.
Variable groups : list request -> list (list request).
(** The groups are those of a multimap with the key net.sta: the elements are those of the
    list and two groups have different keys *)
Definition multimap_order : Prop := forall l,
  concat (groups l) ≡ₚ l /\ Forall (fun g => g <> []) (groups l) /\
  (forall i j g h r q, groups l !! i = Some g -> groups l !! j = Some h -> r ∈ g -> q ∈ h -> (key r = key q <-> i = j)).

Definition covers (c : call) (r : request) : Prop :=
  k_net c = q_net r /\ k_sta c = q_sta r /\ k_loc c = q_loc r /\ k_cha c = q_cha r /\ w_contains (k_tw c) (q_tw r) = true.
Lemma contains_refl w : w_contains w w = true.
Proof using. unfold w_contains. by rewrite !Z.leb_refl. Qed.
Lemma contains_trans a b c : w_contains a b = true -> w_contains b c = true -> w_contains a c = true.
Proof using. unfold w_contains. rewrite !andb_true_iff, !Z.leb_le. lia. Qed.
Lemma merge_contains a b : w_contains (w_merge a b) a = true /\ w_contains (w_merge a b) b = true.
Proof using.
  unfold w_contains, w_merge. rewrite !andb_true_iff, !Z.leb_le.
  destruct (Z.ltb_spec (w_start b) (w_start a)); unfold set_start; cbn [w_start w_end].
  - destruct (Z.ltb_spec (w_end a) (w_start b)); cbn [w_start w_end].
    + destruct (Z.ltb_spec (w_start b) (w_end b)); unfold set_end; cbn [w_start w_end]; [destruct (Z.ltb_spec (w_end b) (w_start b)); cbn [w_start w_end]; lia|lia].
    + destruct (Z.ltb_spec (w_end a) (w_end b)); unfold set_end; cbn [w_start w_end]; [destruct (Z.ltb_spec (w_end b) (w_start b)); cbn [w_start w_end]; lia|lia].
  - destruct (Z.ltb_spec (w_end a) (w_end b)); unfold set_end; cbn [w_start w_end]; [destruct (Z.ltb_spec (w_end b) (w_start a)); cbn [w_start w_end]; lia|lia].
Qed.
Lemma scan_spec first w l : let '(w', rest) := scan close first w l in
  w_contains w' w = true /\ (length rest <= length l)%nat /\
  (forall r, r ∈ l -> r ∈ rest \/ (q_loc first = q_loc r /\ q_cha first = q_cha r /\ w_contains w' (q_tw r) = true)) /\
  (forall r, r ∈ rest -> r ∈ l).
Proof using.
  revert w. induction l as [|r l IH]; intros w; cbn [scan].
  { split; [apply contains_refl|]. split; [done|]. split; [intros r K; by apply elem_of_nil in K|done]. }
  destruct (bool_decide _ && _ && _) eqn:E.
  - specialize (IH (w_merge w (q_tw r))). destruct (scan close first _ l) as [w' rest]. destruct IH as (I1 & I2 & I3 & I4). destruct (merge_contains w (q_tw r)) as [M1 M2].
    split; [by eapply contains_trans|]. split; [cbn [length]; lia|]. split; [|intros q Hq; right; by apply I4].
    intros q [->|Hq]%elem_of_cons; [|by apply I3]. right. apply andb_true_iff in E as [E _]. apply andb_true_iff in E as [E1 E2]. apply bool_decide_eq_true in E1, E2.
    split; [done|]. split; [done|]. by eapply contains_trans.
  - specialize (IH w). destruct (scan close first w l) as [w' rest]. destruct IH as (I1 & I2 & I3 & I4).
    split; [done|]. split; [cbn [length]; lia|]. split.
    + intros q [->|Hq]%elem_of_cons; [left; left|]. destruct (I3 q Hq); [left; by right|by right].
    + intros q [->|Hq]%elem_of_cons; [left|right; by apply I4].
Qed.
Lemma connection_spec l : multimap_order -> let '(calls, rest) := connection close groups l in
  (forall r, r ∈ l -> r ∈ rest \/ exists c, c ∈ calls /\ covers c r) /\ (forall r, r ∈ rest -> r ∈ l) /\ (length rest + length (groups l) <= length l)%nat.
Proof using.
  intros HM. destruct (HM l) as (P & NE & K). unfold connection.
  assert (forall r, r ∈ l <-> exists g, g ∈ groups l /\ r ∈ g) as Hin.
  { intros r. rewrite <- P. rewrite !elem_of_list_In, in_concat. setoid_rewrite elem_of_list_In. done. }
  assert (forall g, g ∈ groups l -> forall r q, r ∈ g -> q ∈ g -> key r = key q) as Hkey.
  { intros g Hg r q Hr Hq. apply elem_of_list_lookup in Hg as [i Hi]. apply (K i i g g r q Hi Hi Hr Hq). done. }
  split; [|split].
  - intros r Hr. apply Hin in Hr as (g & Hg & Hr). destruct (one_group close g) as [[c rest]|] eqn:Eg.
    2: { rewrite Forall_forall in NE. specialize (NE g Hg). destruct g; [done|]. cbn [one_group] in Eg. by destruct (scan _ _ _ _). }
    assert ((c, rest) ∈ omap (one_group close) (groups l)) as Ho by (apply elem_of_list_omap; eauto).
    destruct g as [|f g]; [done|]. cbn [one_group] in Eg. pose proof (scan_spec f (q_tw f) g) as S. destruct (scan close f (q_tw f) g) as [w' rest']. injection Eg as <- <-.
    destruct S as (S1 & S2 & S3 & S4). pose proof (Hkey _ Hg f r ltac:(left) Hr) as Ek. unfold key in Ek. injection Ek as Ek1 Ek2.
    apply elem_of_cons in Hr as [->|Hr].
    + right. eexists. split; [apply elem_of_list_fmap; eexists; split; [|exact Ho]; reflexivity|]. unfold covers. cbn. done.
    + destruct (S3 r Hr) as [K'|(K1 & K2 & K3)].
      * left. apply elem_of_list_In, in_concat. exists rest'. split; [|by apply elem_of_list_In]. apply elem_of_list_In, elem_of_list_fmap. eexists. split; [|exact Ho]. done.
      * right. eexists. split; [apply elem_of_list_fmap; eexists; split; [|exact Ho]; reflexivity|]. unfold covers. cbn. done.
  - intros r Hr. apply elem_of_list_In, in_concat in Hr as (rest & H1 & H2). apply elem_of_list_In in H1, H2. apply elem_of_list_fmap in H1 as ([c rest'] & -> & H1).
    apply elem_of_list_omap in H1 as (g & Hg & Eg). apply Hin. exists g. split; [done|]. destruct g as [|f g]; [done|]. cbn [one_group] in Eg.
    pose proof (scan_spec f (q_tw f) g) as S. destruct (scan close f (q_tw f) g) as [w' rest0]. injection Eg as <- <-. destruct S as (_ & _ & _ & S4). right. apply S4. exact H2.
  - transitivity (length (concat (groups l))); [|by rewrite P]. clear P K Hin Hkey. induction (groups l) as [|g gs IH]; [done|]. apply Forall_cons in NE as [NE1 NE2].
    destruct g as [|f g]; [done|]. pose proof (scan_spec f (q_tw f) g) as S. destruct (scan close f (q_tw f) g) as [w' rest0] eqn:Es. destruct S as (_ & S2 & _ & _).
    assert (omap (one_group close) ((f :: g) :: gs) = (Call (q_net f) (q_sta f) (q_loc f) (q_cha f) w', rest0) :: omap (one_group close) gs) as ->.
    { cbn [omap list_omap one_group]. rewrite Es. done. }
    rewrite fmap_cons. cbn [snd concat length]. rewrite !app_length. specialize (IH NE2). cbn [length] in *. lia.
Qed.
(** The calls of one connection are for different stations *)
Definition one_per_station (calls : list call) : Prop :=
  forall i j c d, calls !! i = Some c -> calls !! j = Some d -> k_net c = k_net d -> k_sta c = k_sta d -> i = j.
Lemma omap_total {A B} (f : A -> option B) (l : list A) : (forall x, x ∈ l -> is_Some (f x)) -> forall (i : nat) y, omap f l !! i = Some y <-> exists x, l !! i = Some x /\ f x = Some y.
Proof using.
  induction l as [|x l IH]; intros H i y. { split; [by intros [=]|by intros (x & [=] & _)]. }
  destruct (H x ltac:(left)) as [z Hz]. cbn [omap list_omap]. rewrite Hz. destruct i as [|i]; cbn [lookup list_lookup].
  - split; [intros [= ->]; by exists x|intros (x' & [= <-] & E); congruence].
  - apply IH. intros x' Hx'. apply H. by right.
Qed.
Lemma connection_stations l : multimap_order -> one_per_station (connection close groups l).1.
Proof using.
  intros HM i j c d. destruct (HM l) as (_ & NE & K). unfold connection. cbn [fst]. rewrite !list_lookup_fmap.
  intros Hc Hd Hn Hs. apply fmap_Some in Hc as ([c' rc] & Hc & Ec). apply fmap_Some in Hd as ([d' rd] & Hd & Ed). cbn [fst] in Ec, Ed. subst c' d'.
  assert (forall g, g ∈ groups l -> is_Some (one_group close g)) as HT.
  { rewrite Forall_forall in NE. intros g Hg. specialize (NE g Hg). destruct g; [done|]. cbn [one_group]. destruct (scan _ _ _ _). by eexists. }
  rewrite omap_total in Hc by done. rewrite omap_total in Hd by done. destruct Hc as (g & Hg & Eg). destruct Hd as (h & Hh & Eh).
  destruct g as [|f g]; [done|]. destruct h as [|e h]; [done|]. cbn [one_group] in Eg, Eh. destruct (scan close f _ _) as [w1 r1]. destruct (scan close e _ _) as [w2 r2].
  injection Eg as <- _. injection Eh as <- _. cbn [k_net k_sta] in Hn, Hs. apply (K i j _ _ f e Hg Hh); [left|left|]. unfold key. by rewrite Hn, Hs.
Qed.
(** C61: the loop ends (at most one connection per request), every request is contained in a
    call for its stream, whatever the order of iteration, and no connection has two calls for
    a station. *)
Lemma connections_spec opens fuel n l : multimap_order -> (forall k, opens k = true) -> (length l <= fuel)%nat ->
  exists cs, connections close groups opens fuel n l = Some cs /\ (length cs <= length l)%nat /\
    (forall r, r ∈ l -> exists calls c, calls ∈ cs /\ c ∈ calls /\ covers c r) /\ Forall one_per_station cs.
Proof using.
  intros HM HO. revert n l. induction fuel as [|fuel IH]; intros n l Hl.
  { destruct l; [|cbn in Hl; lia]. exists []. split; [done|]. split; [done|]. split; [intros r K; by apply elem_of_nil in K|constructor]. }
  destruct l as [|r0 l0]. { exists []. split; [done|]. split; [done|]. split; [intros r K; by apply elem_of_nil in K|constructor]. }
  set (l := r0 :: l0) in *. assert (connections close groups opens (S fuel) n l = (let '(calls, rest) := connection close groups l in cs ← connections close groups opens fuel (S n) rest; Some (calls :: cs))) as ->.
  { unfold l at 1. cbn [connections]. rewrite HO. done. }
  pose proof (connection_spec l HM) as HC. pose proof (connection_stations l HM) as HS. destruct (connection close groups l) as [calls rest]. cbn [fst] in HS. destruct HC as (C1 & C2 & C3).
  assert (0 < length (groups l))%nat as Hg. { destruct (HM l) as (P & _). destruct (groups l); [|cbn; lia]. cbn in P. apply Permutation_length in P. done. }
  destruct (IH (S n) rest ltac:(lia)) as (cs & -> & I0 & I1 & I2). exists (calls :: cs). split; [done|]. split; [cbn [length]; lia|]. split.
  - intros r Hr. destruct (C1 r Hr) as [K|(c & K1 & K2)].
    + destruct (I1 r K) as (calls' & c & J1 & J2). exists calls', c. split; [by right|done].
    + exists calls, c. split; [left|done].
  - constructor; done.
Qed.
Theorem C61_covered opens l : multimap_order -> (forall k, opens k = true) -> Forall (fun x => stream_ok x.1 /\ s_cha x.1 <> []) l -> Forall (fun x => w_start x.2 <= w_end x.2) l ->
  exists rs cs, make_requests (wanted l) = Some rs /\ connections close groups opens (length l) 0 rs = Some cs /\ (length cs <= length l)%nat /\
    Forall one_per_station cs /\
    forall s w, (s, w) ∈ l -> exists calls c, calls ∈ cs /\ c ∈ calls /\ Stream (k_net c) (k_sta c) (k_loc c) (k_cha c) = s /\ w_contains (k_tw c) w = true.
Proof using.
  intros HM HO Hok Hw. exists (as_request <$> l). destruct (connections_spec opens (length l) 0 (as_request <$> l) HM HO ltac:(by rewrite fmap_length)) as (cs & E & L & C & S).
  exists cs. split; [by apply make_requests_ok|]. split; [done|]. split; [by rewrite fmap_length in L|]. split; [done|]. intros s w Hs.
  destruct (C (as_request (s, w))) as (calls & c & K1 & K2 & (E1 & E2 & E3 & E4 & E5)); [by apply elem_of_list_fmap_1|]. exists calls, c. split; [done|]. split; [done|].
  cbn in E1, E2, E3, E4, E5. split; [rewrite E1, E2, E3, E4; by destruct s|]. eapply contains_trans; [exact E5|].
  rewrite Forall_forall in Hw. specialize (Hw _ Hs). cbn in Hw. assert (0 <= Z.quot (w_length w) 100) by (apply Z.quot_pos; unfold w_length; lia).
  unfold w_contains, w_extend, mk_tw, set_end. cbn [w_start w_end]. rewrite andb_true_iff, !Z.leb_le. destruct (Z.ltb_spec (w_end w + Z.quot (w_length w) 100) (w_start w - 0)); lia.
Qed.
End load.
(** A stream with an empty channel code: the whole batch fails, whatever else is requested *)
Theorem C61_empty_channel_refuted l1 l2 : make_requests (l1 ++ (stream_id (Stream (str "CH") (str "ABC") [] []), Tw 0 1) :: l2) = None.
Proof.
  induction l1 as [|[id w] l1 IH]; [reflexivity|]. cbn [app make_requests]. destruct (make_request id w); [|done]. cbn [mbind option_bind]. rewrite IH. done.
Qed.
Print Assumptions C61_covered.
Print Assumptions C61_empty_channel_refuted.
(** Iteration in the order of insertion, each group at its first element, is such an order. *)
Fixpoint group_by (fuel : nat) (l : list request) : list (list request) :=
  match fuel, l with
  | S fuel', r :: l' => (r :: filter (fun q => key q = key r) l') :: group_by fuel' (filter (fun q => key q <> key r) l')
  | _, _ => []
  end.
Lemma group_by_in fuel l g r : g ∈ group_by fuel l -> r ∈ g -> r ∈ l.
Proof.
  revert l. induction fuel as [|fuel IH]; intros [|x l] Hg Hr; cbn [group_by] in Hg; try by apply elem_of_nil in Hg.
  apply elem_of_cons in Hg as [->|Hg].
  - apply elem_of_cons in Hr as [->|Hr]; [left|]. apply elem_of_list_filter in Hr as [_ Hr]. by right.
  - specialize (IH _ Hg Hr). apply elem_of_list_filter in IH as [_ IH]. by right.
Qed.
Lemma group_by_key fuel l g r q : g ∈ group_by fuel l -> r ∈ g -> q ∈ g -> key r = key q.
Proof.
  revert l. induction fuel as [|fuel IH]; intros [|x l] Hg Hr Hq; cbn [group_by] in Hg; try by apply elem_of_nil in Hg.
  apply elem_of_cons in Hg as [->|Hg]; [|by eapply IH].
  assert (forall y, y ∈ x :: filter (fun q => key q = key x) l -> key y = key x) as H. { intros y [->|Hy]%elem_of_cons; [done|]. by apply elem_of_list_filter in Hy as [Hy _]. }
  by rewrite (H r Hr), (H q Hq).
Qed.
Lemma group_by_spec fuel l : (length l <= fuel)%nat -> concat (group_by fuel l) ≡ₚ l /\ Forall (fun g => g <> []) (group_by fuel l) /\
  (forall i j g h r q, group_by fuel l !! i = Some g -> group_by fuel l !! j = Some h -> r ∈ g -> q ∈ h -> (key r = key q <-> i = j)).
Proof.
  revert l. induction fuel as [|fuel IH]; intros l Hl.
  { destruct l; [|cbn in Hl; lia]. cbn. split; [done|]. split; [constructor|]. intros i j g h r q [=]. }
  destruct l as [|x l]. { cbn. split; [done|]. split; [constructor|]. intros i j g h r q [=]. }
  cbn [group_by length] in *. pose proof (filter_length (fun q => key q <> key x) l) as FL.
  destruct (IH (filter (fun q => key q <> key x) l) ltac:(lia)) as (I1 & I2 & I3). split; [|split].
  - cbn [concat app]. f_equiv. rewrite I1. clear. induction l as [|y l IHl]; [done|]. rewrite !filter_cons. destruct (decide (key y = key x)) as [E|E].
    + rewrite (decide_False (P := key y <> key x)) by tauto. cbn [app]. by rewrite IHl.
    + rewrite (decide_True (P := key y <> key x)) by done. rewrite <- Permutation_middle. by rewrite IHl.
  - constructor; done.
  - intros i j g h r q Hi Hj Hr Hq.
    assert (forall y, y ∈ x :: filter (fun q => key q = key x) l -> key y = key x) as HX. { intros y [->|Hy]%elem_of_cons; [done|]. by apply elem_of_list_filter in Hy as [Hy _]. }
    assert (forall k g y, group_by fuel (filter (fun q => key q <> key x) l) !! k = Some g -> y ∈ g -> key y <> key x) as HY.
    { intros k g' y Hk Hy. apply elem_of_list_lookup_2 in Hk. pose proof (group_by_in _ _ _ _ Hk Hy) as K. by apply elem_of_list_filter in K as [K _]. }
    destruct i as [|i], j as [|j]; cbn [lookup list_lookup] in Hi, Hj.
    + injection Hi as <-. injection Hj as <-. split; [done|]. intros _. by rewrite (HX r Hr), (HX q Hq).
    + injection Hi as <-. split; [|done]. intros E. exfalso. apply (HY j h q Hj Hq). by rewrite <- E, (HX r Hr).
    + injection Hj as <-. split; [|done]. intros E. exfalso. apply (HY i g r Hi Hr). by rewrite E, (HX q Hq).
    + rewrite (I3 i j g h r q Hi Hj Hr Hq). split; [by intros ->|by intros [= ->]].
Qed.
Example order_ex : multimap_order (fun l => group_by (length l) l).
Proof. intros l. by apply group_by_spec. Qed.
