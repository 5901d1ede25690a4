(** C81: the travel time plugin and the adapter. *)
From Coq Require Import Reals Ascii ZArith Lra.
From stdpp Require Import gmap strings list sorting.
From Verif Require Import Geo_Model KdTree_Model Lru_Model NllTtt_Model NllTtt_Props Plugin_Model.
Local Open Scope R_scope.

(** ** What is meant *)
(** The phase names that are sent to the grids of P and of S; a name in both lists is a P *)
Definition Sends (P S : gset text) (ph ty : text) : Prop :=
  (ph ∈ P ∧ ty = lit "P") ∨ (ph ∉ P ∧ ph ∈ S ∧ ty = lit "S").
(** An entry of the configuration, or the default *)
Definition Entry {A} (v : option A) (dflt a : A) : Prop := v = Some a ∨ v = None ∧ a = dflt.
Definition key (model : text) (name : string) : text := lit "ttt.NLLGrid." ++ model ++ lit "." ++ lit name.
Definition by_time : list tt → Prop := StronglySorted (λ a b, Rle (tt_time a) (tt_time b)).

Lemma key_eq model name : (lit "ttt.NLLGrid." ++ model ++ lit ".") ++ lit name = key model name.
Proof. unfold key. by rewrite <-!(assoc_L (++)). Qed.

(** ** setModel *)
Section setmodel.
Context {G : Type}.
Variable mk : settings → option G.
Variable g0 : G.
Variable abs_path dir_of name_of : text → text.
Notation set_model := (set_model mk g0 abs_path dir_of name_of).

Record Wanted (cfg : config) (model : text) (st : settings) (P S : gset text) : Prop := {
  w_path : ∃ tp, c_string cfg (key model "tablePath") = Some tp ∧ g_path st = dir_of (abs_path tp) ∧ g_model st = name_of (abs_path tp);
  w_dist : Entry (c_double cfg (key model "maxSearchDistance")) 10 (g_dist st);
  w_swap : Entry (c_bool cfg (key model "swapBytes")) false (g_swap st);
  w_method : Entry (c_string cfg (key model "accessMethod")) (lit "KeepOpen") (g_method st);
  w_max : ∃ z, Entry (c_int cfg (key model "maxOpenFiles")) 512%Z z ∧ (Z.of_N (g_max st) = z mod 2 ^ 32)%Z;
  w_P : ∃ l, Entry (c_strings cfg (key model "P-Phases")) [lit "P"; lit "Pg"; lit "Pn"] l ∧ ∀ ph, ph ∈ P ↔ ph ∈ l;
  w_S : ∃ l, Entry (c_strings cfg (key model "S-Phases")) [lit "S"; lit "Sg"; lit "Sn"] l ∧ ∀ ph, ph ∈ S ↔ ph ∈ l }.

(** A model that was set is the configured one, whatever the plugin was before; otherwise the plugin
    has no model and no grids *)
Theorem C81_set_model app init model s s' r : set_model app init model s = (s', r) →
  (r = Some true → (∃ cfg st, (app = Some cfg ∨ app = None ∧ init = Some cfg) ∧ Wanted cfg model st (p_P s') (p_S s') ∧
      mk st = Some (p_grids s') ∧ p_model s' = model) ∧ ∀ s2, set_model app init model s2 = (s', r)) ∧
  (r ≠ Some true → p_model s' = [] ∧ p_grids s' = g0).
Proof.
  unfold Plugin_Model.set_model. cbv zeta. intros H.
  destruct (match app with Some c => Some c | None => init end) as [cfg|] eqn:Ec; [|injection H as <- <-; done].
  rewrite !key_eq in *. destruct (c_string cfg (key model "tablePath")) as [tp|] eqn:Et; [|injection H as <- <-; done].
  set (st := Settings _ _ _ _ _ _) in *. destruct (mk st) as [g|] eqn:Em; [|injection H as <- <-; done]. injection H as <- <-.
  split; [|done]. intros _. split; [|done]. exists cfg, st. split; [destruct app; [left|right]; by rewrite Ec|]. split; [|done]. split.
  - exists tp. done.
  - unfold Entry, st. simpl. destruct (c_double _ _); [left|right]; done.
  - unfold Entry, st. simpl. destruct (c_bool _ _); [left|right]; done.
  - unfold Entry, st. simpl. destruct (c_string cfg (key model "accessMethod")); [left|right]; done.
  - unfold Entry, st. simpl. destruct (c_int _ _) as [z|].
    + exists z. split; [by left|]. unfold to_unsigned. rewrite Z2N.id; [done|]. by apply Z.mod_pos_bound.
    + exists 512%Z. split; [by right|done].
  - unfold Entry. cbn [p_P p_S]. destruct (c_strings cfg (key model "P-Phases")) as [l|]; [exists l|exists [lit "P"; lit "Pg"; lit "Pn"]]; (split; [eauto|]); intros ph; by rewrite <-(elem_of_list_to_set (C := gset text)).
  - unfold Entry. cbn [p_P p_S]. destruct (c_strings cfg (key model "S-Phases")) as [l|]; [exists l|exists [lit "S"; lit "Sg"; lit "Sn"]]; (split; [eauto|]); intros ph; by rewrite <-(elem_of_list_to_set (C := gset text)).
Qed.
(** The model is set exactly if there is a configuration with the path of the grids, and the grids are accepted *)
Theorem C81_set_model_when app init model s : (∃ s', set_model app init model s = (s', Some true)) ↔
  ∃ cfg st P S, (app = Some cfg ∨ app = None ∧ init = Some cfg) ∧ Wanted cfg model st P S ∧ mk st ≠ None.
Proof.
  split.
  - intros [s' H]. destruct (C81_set_model _ _ _ _ _ _ H) as [H1 _]. destruct (H1 eq_refl) as [(cfg & st & Hc & HW & Hm & _) _].
    exists cfg, st, (p_P s'), (p_S s'). rewrite Hm. done.
  - intros (cfg & [pa mo di sw mx me] & P & S & Hc & [(tp & Hp & E1 & E2) Hd Hs Hm (z & Hz & Ez) _ _] & HM). simpl in *.
    unfold Plugin_Model.set_model. cbv zeta. assert (match app with Some c => Some c | None => init end = Some cfg) as -> by (destruct Hc as [->|[-> ->]]; done).
    rewrite !key_eq, Hp.
    replace (get (c_double cfg (key model "maxSearchDistance")) 10) with di by (destruct Hd as [->|[-> ->]]; done).
    replace (get (c_bool cfg (key model "swapBytes")) false) with sw by (destruct Hs as [->|[-> ->]]; done).
    replace (get (c_string cfg (key model "accessMethod")) (lit "KeepOpen")) with me by (destruct Hm as [->|[-> ->]]; done).
    replace (match c_int cfg (key model "maxOpenFiles") with Some z => to_unsigned z | None => 512%N end) with mx.
    2: { destruct Hz as [->|[-> ->]].
         - unfold to_unsigned. change 4294967296%Z with (2 ^ 32)%Z. rewrite <-Ez. by rewrite N2Z.id.
         - change (Z.of_N mx = Z.of_N 512) in Ez. lia. }
    rewrite <-E1, <-E2. destruct (mk _) as [g|]; [eauto|done].
Qed.
End setmodel.
Print Assumptions C81_set_model.
Print Assumptions C81_set_model_when.

(** ** Answers, for any native table *)
Section generic.
Context {St Q G : Type}.
Variable gtime : St → text → Q → G → G * gout R.
Variable gfull : St → text → Q → G → G * gout answer.
Variable api16 : bool.
Notation pfull := (plugin_full gfull api16).
Notation ptime := (plugin_time gtime).

Lemma route_spec (s : @plugin G) ph ty : route s ph = Some ty ↔ Sends (p_P s) (p_S s) ph ty.
Proof.
  unfold route, Sends. destruct (bool_decide_reflect (ph ∈ p_P s)); [|destruct (bool_decide_reflect (ph ∈ p_S s))]; split.
  - intros [= <-]. by left.
  - by intros [[_ ->]|[? _]].
  - intros [= <-]. right. done.
  - by intros [[? _]|(_ & _ & ->)].
  - done.
  - by intros [[? _]|(_ & ? & _)].
Qed.
(** An unknown name is refused without asking the grids; a known one is answered by the grids of its type *)
Theorem C81_routed ph x q (s : @plugin G) :
  (∀ ty, Sends (p_P s) (p_S s) ph ty →
     (∀ g a, gfull x ty q (p_grids s) = (g, GVal a) → ∃ azi, pfull ph x q s = (Plugin (p_model s) (p_P s) (p_S s) g, IVal (TT ph (a_time a) (a_dtdd a) (a_dtdh a) (a_dip a) azi)) ∧ (api16 = true → azi = Some (a_azi a)) ∧ (api16 = false → azi = None)) ∧
     (∀ g, gfull x ty q (p_grids s) = (g, GOutOfGrid) → pfull ph x q s = (Plugin (p_model s) (p_P s) (p_S s) g, IRange)) ∧
     (∀ g, gfull x ty q (p_grids s) = (g, GHdd) → pfull ph x q s = (Plugin (p_model s) (p_P s) (p_S s) g, INoPhase)) ∧
     (∀ g t, gtime x ty q (p_grids s) = (g, GVal t) → ptime ph x q s = (Plugin (p_model s) (p_P s) (p_S s) g, IVal t)) ∧
     (∀ g, gtime x ty q (p_grids s) = (g, GOutOfGrid) → ptime ph x q s = (Plugin (p_model s) (p_P s) (p_S s) g, IRange)) ∧
     (∀ g, gtime x ty q (p_grids s) = (g, GHdd) → ptime ph x q s = (Plugin (p_model s) (p_P s) (p_S s) g, INoPhase))) ∧
  (ph ∉ p_P s → ph ∉ p_S s → pfull ph x q s = (s, INoPhase) ∧ ptime ph x q s = (s, INoPhase)).
Proof.
  split.
  - intros ty Hr. apply route_spec in Hr. unfold plugin_full, plugin_time, with_grids. rewrite Hr.
    split; [|split; [|split; [|split; [|split]]]].
    + intros g a ->. eexists. split; [done|]. split; by intros ->.
    + by intros g ->.
    + by intros g ->.
    + by intros g t ->.
    + by intros g ->.
    + by intros g ->.
  - intros H1 H2. unfold plugin_full, plugin_time. destruct (route s ph) as [ty|] eqn:Hr; [|done].
    apply route_spec in Hr as [[? _]|(_ & ? & _)]; done.
Qed.

(** ** Through the adapter the grids look like the native table *)
Variable eazi : Q → St → R.
Notation afull := (adapter_full pfull eazi api16).
Notation atime := (adapter_time ptime pfull api16).
Definition usual (s : @plugin G) : Prop := lit "P" ∈ p_P s ∧ lit "S" ∈ p_S s ∧ lit "S" ∉ p_P s.
Definition native {A} (r : gout A) : hout A := match r with GVal a => HVal a | GUB => HUB | GOutOfGrid | GHdd => HExc end.
Theorem C81_adapter p x q s g : usual s → let ph := [if p : bool then "P"%char else "S"%char] in
  (∀ r, gfull x ph q (p_grids s) = (g, r) →
     (afull x ph q s).1 = Plugin (p_model s) (p_P s) (p_S s) g ∧
     (api16 = true → (afull x ph q s).2 = native r) ∧
     (api16 = false → ∀ a, r = GVal a → (afull x ph q s).2 = HVal (Ans (a_time a) (radToDeg (eazi q x)) (a_dip a) (a_dtdd a) (a_dtdh a)) ∧ (atime x ph q s).2 = HVal (a_time a)) ∧
     (r = GOutOfGrid ∨ r = GHdd → (afull x ph q s).2 = HExc)) ∧
  (∀ r, api16 = true → gtime x ph q (p_grids s) = (g, r) → atime x ph q s = (Plugin (p_model s) (p_P s) (p_S s) g, native r)).
Proof.
  intros (U1 & U2 & U3) ph. assert (route s ph = Some ph) as Hr.
  { apply route_spec. subst ph. destruct p; [left; done|right; done]. }
  unfold adapter_full, adapter_time, plugin_full, plugin_time, with_grids. rewrite Hr. split.
  - intros r ->. cbn [fst snd]. split; [done|]. split; [|split].
    + intros ->. destruct r as [[]| | |]; done.
    + intros -> a ->. done.
    + intros [-> | ->]; done.
  - intros r -> ->. cbn [fst snd]. by destruct r.
Qed.

(** ** The list of arrivals, and the first *)
Variable delazi : Q → St → R.
Variable depth : Q → R.
Variable sort : list tt → list tt.
Hypothesis sort_perm : ∀ l, sort l ≡ₚ l.
Hypothesis sort_sorted : ∀ l, by_time (sort l).
Notation plist := (plugin_list gfull delazi depth sort api16).
Notation pfirst := (plugin_first gfull delazi depth sort api16).
(** The answers in the two states in which the list asks *)
Definition answersP x q s : iout tt := (pfull (lit "P") x q s).2.
Definition answersS x q s : iout tt := (pfull (lit "S") x q (pfull (lit "P") x q s).1).2.
Lemma list_cases x q s : (plist x q s).2 =
  match answersP x q s with
  | IRange => IRange | IUB => IUB
  | a => match answersS x q s with
         | IRange => IRange | IUB => IUB
         | b => IVal (TTList (delazi q x) (depth q) (sort (match a with IVal t => [t] | _ => [] end ++ match b with IVal t => [t] | _ => [] end)))
         end
  end.
Proof using.
  clear sort_perm sort_sorted. unfold plugin_list, answersP, answersS. destruct (pfull (lit "P") x q s) as [s1 r1]. cbn [fst snd].
  destruct r1; try done; destruct (pfull (lit "S") x q s1) as [s2 r2]; cbn [fst snd]; destruct r2; rewrite ?app_nil_r; done.
Qed.
Theorem C81_list x q s l : (plist x q s).2 = IVal l →
  by_time (tl_list l) ∧ tl_delta l = delazi q x ∧ tl_depth l = depth q ∧ (length (tl_list l) ≤ 2)%nat ∧
  ∀ t, t ∈ tl_list l ↔ answersP x q s = IVal t ∨ answersS x q s = IVal t.
Proof using sort_perm sort_sorted.
  clear gtime eazi.
  rewrite list_cases. intros H.
  assert (∃ l0, l = TTList (delazi q x) (depth q) (sort l0) ∧ (length l0 ≤ 2)%nat ∧ ∀ t, t ∈ l0 ↔ answersP x q s = IVal t ∨ answersS x q s = IVal t) as (l0 & -> & Hlen & Hin).
  { destruct (answersP x q s) as [a| | |], (answersS x q s) as [b| | |]; try done; injection H as <-; (eexists; split; [reflexivity|]); simpl; (split; [lia|]); intros t; rewrite ?elem_of_cons, ?elem_of_nil; naive_solver. }
  cbn [tl_list tl_delta tl_depth]. split; [apply sort_sorted|]. split; [done|]. split; [done|]. split; [by rewrite (Permutation_length (sort_perm l0))|].
  intros t. rewrite (sort_perm l0). apply Hin.
Qed.
(** No list only if the event or station is outside of the grid of P or S *)
Theorem C81_list_none x q s : answersP x q s ≠ IUB → answersS x q s ≠ IUB →
  (∃ l, (plist x q s).2 = IVal l) ∨ (plist x q s).2 = IRange ∧ (answersP x q s = IRange ∨ answersS x q s = IRange).
Proof using.
  clear sort_perm sort_sorted. intros H1 H2. rewrite list_cases. destruct (answersP x q s) as [a| | |], (answersS x q s) as [b| | |]; eauto; done.
Qed.
Theorem C81_first x q s : 
  (∀ t, (pfirst x q s).2 = IVal t → (answersP x q s = IVal t ∨ answersS x q s = IVal t) ∧
     ∀ t', answersP x q s = IVal t' ∨ answersS x q s = IVal t' → Rle (tt_time t) (tt_time t')) ∧
  ((pfirst x q s).2 = INoPhase → answersP x q s = INoPhase ∧ answersS x q s = INoPhase) ∧
  ((pfirst x q s).2 = IRange → answersP x q s = IRange ∨ answersS x q s = IRange).
Proof using sort_perm sort_sorted.
  clear gtime eazi.
  unfold plugin_first. cbn [snd]. destruct (plist x q s).2 as [l| | |] eqn:E.
  - destruct (C81_list x q s l E) as (Hs & _ & _ & _ & Hin). destruct (tl_list l) as [|t0 l0] eqn:El.
    + split; [done|]. split; [|done]. intros _. rewrite list_cases in E. destruct (answersP x q s) as [a| | |].
      * exfalso. apply (not_elem_of_nil a). apply Hin. by left.
      * destruct (answersS x q s) as [b| | |]; try done. exfalso. apply (not_elem_of_nil b). apply Hin. by right.
      * done.
      * done.
    + split; [|done]. intros t [= ->]. split; [apply Hin; left|]. intros t' Ht'. apply Hin in Ht'. apply elem_of_cons in Ht' as [->|Ht']; [lra|].
      apply StronglySorted_inv in Hs as [_ Hs]. rewrite Forall_forall in Hs. by apply Hs.
  - rewrite list_cases in E. destruct (answersP x q s), (answersS x q s); done.
  - split; [done|]. split; [done|]. intros _. rewrite list_cases in E. destruct (answersP x q s), (answersS x q s); try done; eauto.
  - done.
Qed.
End generic.
Print Assumptions C81_routed.
Print Assumptions C81_adapter.
Print Assumptions C81_list.
Print Assumptions C81_list_none.
Print Assumptions C81_first.

(** ** With the grids of NonLinLoc *)
Section grids.
Context {St Q : Type}.
Variable lab : St → text * text * text.
Variable near : kind → bool → St → @nnres R.
Variable hasvel : bool → bool.
Variable maxdist : R.
Variable tval vval : gref → Q → option R.
Variable aval : gref → Q → option (option R * R).
Variable eazi : Q → St → R.
Variable oog : St → text → Q → nll → bool.   (* the exception about the data of a grid is OutOfGrid *)
Definition classify {A} (b : bool) (r : out A) : gout A :=
  match r with Val a => GVal a | Exc EData => if b then GOutOfGrid else GHdd | Exc _ => GHdd | UB => GUB end.
Definition nll_time (can : gref → bool) (x : St) (ph : text) (q : Q) (s : nll) : nll * gout R :=
  let r := compute_time lab near maxdist tval can x ph q s in (r.1, classify (oog x ph q s) r.2).
Definition nll_full (can : gref → bool) (x : St) (ph : text) (q : Q) (s : nll) : nll * gout answer :=
  let r := compute_full lab near hasvel maxdist tval vval aval eazi can x ph q s in (r.1, classify (oog x ph q s) r.2).

Variable delazi : Q → St → R.
Variable depth : Q → R.
Variable sort : list tt → list tt.
Variable api16 : bool.
Variable can : gref → bool.
Notation pfull := (plugin_full (nll_full can) api16).
Notation ptime := (plugin_time (nll_time can)).
Notation pruns := (pruns (nll_time can) (nll_full can) delazi depth sort api16).
Notation pstep := (pstep (nll_time can) (nll_full can) delazi depth sort api16).
Notation nrun := (λ cs, (run lab near hasvel maxdist tval vval aval eazi ((λ c, (can, c)) <$> cs))).

Lemma run_app cs cs' s : (nrun (cs ++ cs') s).1 = (nrun cs' (nrun cs s).1).1.
Proof. cbv beta. revert s. induction cs as [|c cs IH]; intros s; [done|]. apply IH. Qed.
(** Whatever the plugin does to its grids is some sequence of calls of the native table *)
Definition Via (s s' : @plugin nll) : Prop :=
  p_model s' = p_model s ∧ p_P s' = p_P s ∧ p_S s' = p_S s ∧ ∃ cs, p_grids s' = (nrun cs (p_grids s)).1.
Lemma via_refl s : Via s s. Proof. split; [done|]. split; [done|]. split; [done|]. by exists []. Qed.
Lemma via_trans s1 s2 s3 : Via s1 s2 → Via s2 s3 → Via s1 s3.
Proof.
  intros (A1 & A2 & A3 & cs & A4) (B1 & B2 & B3 & cs' & B4). split; [congruence|]. split; [congruence|]. split; [congruence|].
  exists (cs ++ cs'). by rewrite run_app, <-A4.
Qed.
Lemma via_full ph x q s : Via s (pfull ph x q s).1.
Proof.
  unfold plugin_full. destruct (route s ph) as [ty|]; [|apply via_refl]. split; [done|]. split; [done|]. split; [done|].
  exists [CFull x ty q]. done.
Qed.
Lemma via_time ph x q s : Via s (ptime ph x q s).1.
Proof.
  unfold plugin_time. destruct (route s ph) as [ty|]; [|apply via_refl]. split; [done|]. split; [done|]. split; [done|].
  exists [CTime x ty q]. done.
Qed.
Lemma via_list x q s : Via s (plugin_list (nll_full can) delazi depth sort api16 x q s).1.
Proof.
  unfold plugin_list. pose proof (via_full (lit "P") x q s) as V1. pose proof (via_full (lit "S") x q (pfull (lit "P") x q s).1) as V2.
  cbv zeta. destruct (pfull (lit "P") x q s) as [s1 r1]. cbn [fst snd] in *. pose proof (via_trans _ _ _ V1 V2) as V.
  destruct (pfull (lit "S") x q s1) as [s2 r2]. cbn [fst snd] in *. destruct r1; try exact V1; destruct r2; exact V.
Qed.
Lemma via_runs cs s : Via s (pruns cs s).
Proof.
  revert s. induction cs as [|c cs IH]; intros s; [apply via_refl|]. apply (via_trans _ (pstep c s)); [|apply IH].
  destruct c; [apply via_time|apply via_full|apply via_list|apply via_list].
Qed.

Hypothesis Hok : labels_ok lab.
Hypothesis Htell : labels_tell lab near.
Hypothesis Hdef : near_defined near.
Section history.
Variables (model : text) (P S : gset text) (mx : nat).
Notation start := (Plugin model P S (nll_init mx)).
(** After any use of the plugin a phase has a travel time exactly if its type has the grids, and then it is
    the one of the grids nearest to the station, under the name that was asked for *)
Theorem C81_answer cs ph x q t : (pfull ph x q (pruns cs start)).2 = IVal t ↔
  ∃ ty gt gv ga tm v ad, Sends P S ph ty ∧
    (StationGrid near maxdist KTime ty x gt ∧ VelocityGrid hasvel ty gv ∧ StationGrid near maxdist KAngle ty x ga) ∧
    (can gt = true ∧ can gv = true ∧ can ga = true) ∧ (tval gt q = Some tm ∧ vval gv q = Some v ∧ aval ga q = Some ad) ∧
    tt_phase t = ph ∧ tt_time t = tm ∧ tt_takeoff t = ad.2 ∧ tt_dtdd t = cos (degToRad (ad.2 - 90)) / km2deg v 0 ∧ tt_dtdh t = sin (degToRad (ad.2 - 90)) / v ∧
    tt_azi t = (if api16 then Some (match ad.1 with Some a => a | None => radToDeg (eazi q x) end) else None).
Proof using Hok Htell Hdef.
  destruct (via_runs cs start) as (_ & E2 & E3 & ncs & E4). cbn [p_P p_S p_grids] in *.
  unfold plugin_full. destruct (route (pruns cs start) ph) as [ty|] eqn:Hr.
  - apply route_spec in Hr. rewrite E2, E3 in Hr. cbv zeta. rewrite E4. unfold nll_full. cbn [fst snd]. cbv beta. split.
    + intros H. destruct (compute_full _ _ _ _ _ _ _ _ _ _ _ _ _).2 as [a|e|] eqn:E; [|exfalso; destruct e; cbn [classify catch_] in H; try discriminate; destruct (oog _ _ _ _); discriminate|done].
      apply C53_full in E as (gt & gv & ga & tm & v & ad & H1 & H2 & H3 & ->); [|done..]. cbn [classify catch_] in H. injection H as <-.
      exists ty, gt, gv, ga, tm, v, ad. cbn. tauto.
    + intros (ty' & gt & gv & ga & tm & v & ad & Hs & H1 & H2 & H3 & K1 & K2 & K3 & K4 & K5 & K6).
      assert (ty' = ty) as -> by (unfold Sends in *; naive_solver).
      rewrite (proj2 (C53_full lab near hasvel maxdist tval vval aval eazi Hok Htell Hdef mx can ncs x ty q (angles eazi q x tm v ad))) by eauto 12.
      cbn [classify catch_]. f_equal. destruct t. cbn in *. subst. done.
  - split; [done|]. intros (ty & gt & gv & ga & tm & v & ad & Hs & _). assert (route (pruns cs start) ph = Some ty) by (apply route_spec; by rewrite E2, E3). congruence.
Qed.
Theorem C81_time cs ph x q t : (ptime ph x q (pruns cs start)).2 = IVal t ↔
  ∃ ty g, Sends P S ph ty ∧ StationGrid near maxdist KTime ty x g ∧ can g = true ∧ tval g q = Some t.
Proof using Hok Htell Hdef.
  destruct (via_runs cs start) as (_ & E2 & E3 & ncs & E4). cbn [p_P p_S p_grids] in *.
  unfold plugin_time. destruct (route (pruns cs start) ph) as [ty|] eqn:Hr.
  - apply route_spec in Hr. rewrite E2, E3 in Hr. cbv zeta. rewrite E4. unfold nll_time. cbn [fst snd]. cbv beta. split.
    + intros H. destruct (compute_time _ _ _ _ _ _ _ _ _).2 as [a|e|] eqn:E; [|exfalso; destruct e; cbn [classify catch_] in H; try discriminate; destruct (oog _ _ _ _); discriminate|done].
      apply (C53_time _ _ hasvel _ _ vval aval eazi) in E as (g & H1 & H2 & H3); [|done..]. cbn [classify catch_] in H. injection H as <-. exists ty, g. done.
    + intros (ty' & g & Hs & H1 & H2 & H3). assert (ty' = ty) as -> by (unfold Sends in *; naive_solver).
      rewrite (proj2 (C53_time lab near hasvel maxdist tval vval aval eazi Hok Htell Hdef mx can ncs x ty q t)) by eauto.
      done.
  - split; [done|]. intros (ty & g & Hs & _). assert (route (pruns cs start) ph = Some ty) by (apply route_spec; by rewrite E2, E3). congruence.
Qed.
(** The same time with and without the other values, whenever asked *)
Corollary C81_agree cs cs' ph x q t : (pfull ph x q (pruns cs start)).2 = IVal t → (ptime ph x q (pruns cs' start)).2 = IVal (tt_time t).
Proof using Hok Htell Hdef.
  intros (ty & gt & gv & ga & tm & v & ad & Hs & (H1 & _) & (H2 & _) & (H3 & _) & _ & -> & _)%C81_answer. apply C81_time. exists ty, gt. done.
Qed.
End history.
End grids.
Print Assumptions C81_answer.
Print Assumptions C81_time.
Print Assumptions C81_agree.

(** ** What does not hold, and cases *)
(** The names the library asks for must be in the lists: with P-Phases = Pg the plugin has P grids, and the
    adapter finds no P at all *)
Theorem C81_names_refuted {St Q G : Type} (gtime : St → text → Q → G → G * gout R) gfull (mk : settings → option G) g0 ap dof nof api eazi x q s g :
  (∀ st, mk st = Some g) → ∃ cfg s', set_model mk g0 ap dof nof (Some cfg) None (lit "iasp") s = (s', Some true) ∧
    c_strings cfg (key (lit "iasp") "P-Phases") = Some [lit "Pg"] ∧
    (adapter_full (plugin_full gfull api) eazi api x (lit "P") q s').2 = HExc ∧ (adapter_time (plugin_time gtime) (plugin_full gfull api) api x (lit "P") q s').2 = HExc.
Proof.
  intros Hmk.
  set (cfg := Config (λ k, if bool_decide (k = key (lit "iasp") "P-Phases") then Some [lit "Pg"] else None)
                     (λ k, if bool_decide (k = key (lit "iasp") "tablePath") then Some (lit "/grids/x") else None) (λ _, None) (λ _, None) (λ _, None)).
  assert (c_strings cfg (key (lit "iasp") "P-Phases") = Some [lit "Pg"]) as EP by (cbn; by rewrite bool_decide_eq_true_2).
  assert (c_string cfg (key (lit "iasp") "tablePath") = Some (lit "/grids/x")) as ET by (cbn; by rewrite bool_decide_eq_true_2).
  assert (c_strings cfg (key (lit "iasp") "S-Phases") = None) as ES by (cbn; rewrite bool_decide_eq_false_2; done).
  exists cfg. eexists. unfold set_model. cbv zeta. rewrite !key_eq, EP, ES, ET, Hmk. split; [reflexivity|]. split; [done|].
  set (s' := Plugin _ _ _ _). assert (route s' (lit "P") = None) as Hr.
  { unfold route. rewrite bool_decide_eq_false_2, bool_decide_eq_false_2; [done| |].
    - unfold s'. cbn [p_S]. rewrite elem_of_list_to_set. set_solver.
    - unfold s'. cbn [p_P]. rewrite elem_of_list_to_set. set_solver. }
  clearbody s'. clear -Hr. unfold adapter_full, adapter_time, plugin_full, plugin_time. rewrite Hr. destruct api; split; reflexivity.
Qed.
Print Assumptions C81_names_refuted.
(** Without these entries they are in the lists *)
Theorem C81_usual {G} (mk : settings → option G) g0 ap dof nof app init model s s' cfg : set_model mk g0 ap dof nof app init model s = (s', Some true) →
  app = Some cfg ∨ app = None ∧ init = Some cfg → c_strings cfg (key model "P-Phases") = None → c_strings cfg (key model "S-Phases") = None →
  usual s' ∧ ∀ ph, (∃ ty, Sends (p_P s') (p_S s') ph ty) ↔ ph ∈ [lit "P"; lit "Pg"; lit "Pn"; lit "S"; lit "Sg"; lit "Sn"].
Proof.
  intros H Hc HP HS. destruct (C81_set_model _ _ _ _ _ _ _ _ _ _ _ H) as [H1 _]. destruct (H1 eq_refl) as [(cfg' & st & Hc' & HW & _) _].
  assert (cfg' = cfg) as -> by naive_solver. destruct HW as [_ _ _ _ _ (lP & EP & HPl) (lS & ES & HSl)].
  unfold Entry in EP, ES. rewrite HP in EP. rewrite HS in ES. destruct EP as [?|[_ ->]]; [done|]. destruct ES as [?|[_ ->]]; [done|].
  split.
  - split; [apply HPl; set_solver|]. split; [apply HSl; set_solver|]. rewrite HPl. clear. intros K. repeat (apply elem_of_cons in K as [K|K]; [done|]). by apply elem_of_nil in K.
  - intros ph. unfold Sends. setoid_rewrite HPl. setoid_rewrite HSl. split.
    + intros (ty & [[K _]|(_ & K & _)]); clear -K; set_solver.
    + intros K. destruct (decide (ph ∈ [lit "P"; lit "Pg"; lit "Pn"])) as [D|D]; [exists (lit "P"); by left|]. exists (lit "S"). right. split; [done|]. split; [|done]. clear -K D. set_solver.
Qed.
Print Assumptions C81_usual.
(** After a failure there are no grids, and no phase has a travel time *)
Theorem C81_failed {St Q : Type} (lab : St → text * text * text) hasvel maxdist tval vval aval eazi oog can api (mk : settings → option nll) ap dof nof app init model s s' r mx :
  set_model mk (nll_init mx) ap dof nof app init model s = (s', r) → r ≠ Some true → ∀ ph (x : St) (q : Q),
  (plugin_full (nll_full lab (λ _ _ _, NNEmpty) hasvel maxdist tval vval aval eazi oog can) api ph x q s').2 = INoPhase ∧
  (plugin_time (nll_time lab (λ _ _ _, NNEmpty) maxdist tval oog can) ph x q s').2 = INoPhase.
Proof.
  intros H Hr ph x q. destruct (C81_set_model _ _ _ _ _ _ _ _ _ _ _ H) as [_ H2]. destruct (H2 Hr) as [_ Hg].
  assert (∀ ty, (compute_time lab (λ _ _ _, NNEmpty) maxdist tval can x ty q (nll_init mx)).2 = Exc ENotFound) as E.
  { intros ty. unfold compute_time, access, lru_get, nll_init. cbn [n_cache Lru_Model.l_map n_bad]. rewrite lookup_empty. cbn. unfold tree_search. by destruct (phase_of ty). }
  unfold plugin_full, plugin_time. destruct (route s' ph) as [ty|]; [|done]. rewrite Hg. unfold nll_full, nll_time, compute_full, obind. cbn [fst snd]. by rewrite !E.
Qed.
Print Assumptions C81_failed.
Section cases.
Notation ex_full := (nll_full (ex_lab) ex_near (λ _, true) 1 (ex_tval (λ _, 2)) (ex_tval (λ _, 5)) ex_aval (λ _ _, 0) (λ _ _ _ _, false) ex_all).
Notation ex_time := (nll_time (ex_lab) ex_near 1 (ex_tval (λ _, 2)) (λ _ _ _ _, false) ex_all).
Example C81_answer_example cs sort : ∃ t, (plugin_full ex_full true (lit "Pg") 3%nat ()
    (pruns ex_time ex_full (λ _ _, 0) (λ _, 0) sort true cs (Plugin [] {[lit "P"; lit "Pg"]} {[lit "S"]} (nll_init 1)))).2 = IVal t ∧ tt_time t = 2 ∧ tt_phase t = lit "Pg".
Proof.
  eexists (TT (lit "Pg") 2 _ _ _ _). split; [|done]. apply C81_answer; [apply ex_labels|apply ex_tell|apply ex_defined|].
  exists (lit "P"), (GTree KTime true 3), (GVel true), (GTree KAngle true 3). eexists _, _, _.
  split; [left; split; [set_solver|done]|]. split; [split; [apply ex_grid|split; [by exists true|apply ex_grid]]|]. split; [done|]. split; [done|]. cbn. done.
Qed.
End cases.
