(** C97: the tool that lists origins. *)
From Coq Require Import Ascii ZArith QArith Lqa.
From stdpp Require Import gmap list strings.
From Verif Require Import Csv_Model Csv_Props Table_Model Table_Proofs ListOrg_Model.
From Verif Require Region_Model Region_Props Catalog_Model DataSource_Model.
Local Open Scope nat_scope.
Local Notation tx := Table_Model.tx.

(** * Specification *)
(** [v] is one of the values of a comma separated list *)
Definition values (t : text) (l : list text) : Prop := l ≠ [] ∧ Forall (λ v, comma ∉ v) l ∧ csv_join l = t.
Definition listed (v t : text) : Prop := ∃ l, values t l ∧ v ∈ l.
(** Equal up to small and capital letters *)
Definition letter_eq (c d : ascii) : Prop :=
  c = d ∨ ∃ n, 65 ≤ n ≤ 90 ∧ ((c = ascii_of_nat n ∧ d = ascii_of_nat (n + 32)) ∨ (d = ascii_of_nat n ∧ c = ascii_of_nat (n + 32))).
Definition nocase : text → text → Prop := Forall2 letter_eq.
Definition included (eqv : text → text → Prop) (opt val : option text) : Prop :=
  ∀ t, opt = Some t → ∃ v w, val = Some v ∧ listed w t ∧ eqv v w.
Definition not_excluded (eqv : text → text → Prop) (opt val : option text) : Prop :=
  ∀ t v w, opt = Some t → val = Some v → listed w t → ¬ eqv v w.
(** Four numbers are given *)
Definition area_given (float : text → option Q) (t : text) (q : Q * Q * Q * Q) : Prop :=
  ∃ x1 x2 x3 x4 l, values t (x1 :: x2 :: x3 :: x4 :: l) ∧ float x1 = Some q.1.1.1 ∧ float x2 = Some q.1.1.2 ∧ float x3 = Some q.1.2 ∧ float x4 = Some q.2.
(** The rectangle is that of a region of scrtdd with these numbers *)
Definition within (q : Q * Q * Q * Q) (o : origin) : Prop :=
  o_depth o ≠ None ∧ Region_Model.is_inside (λ _ _ _ _, 0%Q) (Region_Model.Rect q.1.1.1 q.1.1.2 q.1.2 q.2) (o_lat o) (o_lon o) = true.
Definition passes (float : text → option Q) (a : options) (o : origin) : Prop :=
  (a_auto a = true → o_mode o = Some Automatic) ∧ (a_manual a = true → o_mode o = Some Manual) ∧
  included nocase (a_inc_stat a) (o_stat o) ∧ not_excluded nocase (a_excl_stat a) (o_stat o) ∧
  included eq (a_inc_author a) (o_author o) ∧ not_excluded eq (a_excl_author a) (o_author o) ∧
  included eq (a_inc_agency a) (o_agency o) ∧ not_excluded eq (a_excl_agency a) (o_agency o) ∧
  included eq (a_inc_method a) (o_method o) ∧ not_excluded eq (a_excl_method a) (o_method o) ∧
  (∀ t q, a_area a = Some t → area_given float t q → within q o).
(** What is to be large *)
Definition key (k : text) (o : origin) : option Q :=
  if decide (k = tx "last") then inject_Z <$> o_created o
  else if decide (k = tx "first") then Qopp ∘ inject_Z <$> o_created o
  else if decide (k = tx "maxPhases") then inject_Z <$> o_phases o
  else if decide (k = tx "minPhases") then Qopp ∘ inject_Z <$> o_phases o
  else if decide (k = tx "maxRMS") then o_rms o
  else if decide (k = tx "minRMS") then Qopp <$> o_rms o
  else Some 0%Q.
(** The last of the best among those that pass *)
Definition best_of (float : text → option Q) (a : options) (k : text) (l : list origin) (r : option origin) : Prop :=
  match r with
  | Some o => ∃ l1 l2 x, l = l1 ++ o :: l2 ∧ passes float a o ∧ key k o = Some x ∧
      (∀ o' y, o' ∈ l1 → passes float a o' → key k o' = Some y → (y <= x)%Q) ∧
      (∀ o' y, o' ∈ l2 → passes float a o' → key k o' = Some y → (y < x)%Q)
  | None => ∀ o, o ∈ l → passes float a o → key k o = None
  end.
(** Without these no origin of an event can raise an exception *)
Definition complete (float : text → option Q) (a : options) (k : text) (l : list origin) : Prop :=
  (k = tx "last" ∨ k = tx "first" → ∀ o, o ∈ l → o_created o ≠ None) ∧
  ((∃ t q, a_area a = Some t ∧ area_given float t q) → ∀ o, o ∈ l → o_depth o ≠ None).
(** An event that is looked at *)
Definition asked (a : options) (v : event) : Prop :=
  (∀ m, a_modified a = Some m → ∃ t, v_modified v = Some t ∧ (m <= t)%Z) ∧
  (∀ t, a_types a = Some t → listed (default [] (v_type v)) t).

(** * Lists of values *)
Lemma split_values t : values t (split t).
Proof.
  induction t as [|c t (N & F & J)]; cbn [split].
  { split; [done|]. split; [|done]. constructor; [apply not_elem_of_nil|constructor]. }
  case_decide as D; [subst c|destruct (split t) as [|h r]; [done|]]; (split; [done|]); split.
  - constructor; [apply not_elem_of_nil|done].
  - destruct (split t) as [|h r]; [done|]. cbn [csv_join app]. by rewrite <-J.
  - apply Forall_cons in F as [F1 F2]. constructor; [|done]. rewrite not_elem_of_cons. split; [congruence|done].
  - destruct r as [|h' r]; cbn [csv_join] in *; by rewrite <-J.
Qed.
Lemma comma_first (a b x y : text) : comma ∉ a → comma ∉ b → a ++ comma :: x = b ++ comma :: y → a = b ∧ x = y.
Proof.
  revert b. induction a as [|c a IH]; intros [|d b] Ha Hb E.
  - injection E as ->. done.
  - injection E as <- _. destruct Hb. by left.
  - injection E as -> _. destruct Ha. by left.
  - injection E as -> E. apply not_elem_of_cons in Ha as [_ Ha]. apply not_elem_of_cons in Hb as [_ Hb].
    by destruct (IH b Ha Hb E) as [-> ->].
Qed.
Lemma values_unique t l l' : values t l → values t l' → l = l'.
Proof.
  revert t l'. induction l as [|v l IH]; intros t l' (N & F & J) (N' & F' & J'); [done|].
  destruct l' as [|v' l']; [done|]. apply Forall_cons in F as [F1 F2]. apply Forall_cons in F' as [F1' F2'].
  destruct l as [|w l], l' as [|w' l'].
  - cbn [csv_join] in J, J'. congruence.
  - exfalso. cbn [csv_join] in J. subst t v. apply F1. cbn [csv_join]. apply elem_of_app. right. by left.
  - exfalso. cbn [csv_join] in J'. subst t v'. apply F1'. cbn [csv_join]. apply elem_of_app. right. by left.
  - rewrite <-J in J'. change (v' ++ comma :: csv_join (w' :: l') = v ++ comma :: csv_join (w :: l)) in J'.
    apply comma_first in J' as [-> J']; [|done|done]. f_equal. by apply (IH (csv_join (w :: l))).
Qed.
Lemma listed_split v t : listed v t ↔ v ∈ split t.
Proof.
  split.
  - intros (l & Hl & Hv). by rewrite <-(values_unique _ _ _ Hl (split_values t)).
  - intros H. exists (split t). split; [apply split_values|done].
Qed.

Lemma low_cases c :
  low c = c ∧ ¬ 65 ≤ nat_of_ascii c ≤ 90 ∨ ∃ n, 65 ≤ n ≤ 90 ∧ c = ascii_of_nat n ∧ low c = ascii_of_nat (n + 32).
Proof.
  unfold low. cbv zeta. destruct ((65 <=? nat_of_ascii c) && (nat_of_ascii c <=? 90)) eqn:E.
  - right. exists (nat_of_ascii c). apply andb_true_iff in E as [E1%Nat.leb_le E2%Nat.leb_le]. split; [lia|].
    split; [|done]. symmetry. apply ascii_nat_embedding.
  - left. split; [done|]. apply andb_false_iff in E as [E%Nat.leb_gt|E%Nat.leb_gt]; lia.
Qed.
Lemma low_capital n : 65 ≤ n ≤ 90 → low (ascii_of_nat n) = ascii_of_nat (n + 32) ∧ low (ascii_of_nat (n + 32)) = ascii_of_nat (n + 32).
Proof.
  intros H. unfold low. cbv zeta. rewrite !nat_ascii_embedding by lia.
  rewrite (proj2 (Nat.leb_le 65 n)), (proj2 (Nat.leb_le n 90)), (proj2 (Nat.leb_gt (n + 32) 90)) by lia.
  cbn [andb]. by rewrite andb_false_r.
Qed.
Lemma low_spec c d : low c = low d ↔ letter_eq c d.
Proof.
  unfold letter_eq. split.
  - intros E. destruct (low_cases c) as [[Ec _]|(n & Hn & -> & Ec)], (low_cases d) as [[Ed _]|(m & Hm & -> & Ed)].
    + left. congruence.
    + right. exists m. split; [done|]. right. split; [done|congruence].
    + right. exists n. split; [done|]. left. split; [done|congruence].
    + left. rewrite Ec, Ed in E. apply (f_equal nat_of_ascii) in E. rewrite !nat_ascii_embedding in E by lia. f_equal. lia.
  - intros [->|(n & Hn & [[-> ->]|[-> ->]])]; [done| |]; destruct (low_capital n Hn) as [-> ->]; done.
Qed.
Lemma lower_spec s t : lower s = lower t ↔ nocase s t.
Proof.
  unfold lower, nocase. split.
  - revert t. induction s as [|c s IH]; intros [|d t] E; try discriminate E; [constructor|].
    rewrite !fmap_cons in E. constructor; [apply low_spec|apply IH].
    + exact (f_equal (hd c) E).
    + exact (f_equal (@tail _) E).
  - induction 1 as [|c d s t H _ IH]; [done|]. rewrite !fmap_cons. apply low_spec in H. by rewrite H, IH.
Qed.

(** * The conditions *)
Lemma also_take x y : also x y = Take ↔ x = Take ∧ y = Take.
Proof. destruct x; cbn [also]; naive_solver. Qed.
Lemma skip_if_take b : skip_if b = Take ↔ b = false.
Proof. destruct b; done. Qed.
Lemma inc_spec opt f eqv val : (∀ x y, f x = f y ↔ eqv x y) → inc opt f val = Take ↔ included eqv opt val.
Proof.
  intros E. unfold inc, included. destruct opt as [t|]; [|split; [intros _ t [=]|done]].
  destruct val as [v|].
  - rewrite skip_if_take, bool_decide_eq_false. split.
    + intros H t' [= <-]. apply dec_stable in H. apply elem_of_list_fmap in H as (w & Hw & Hin).
      exists v, w. split; [done|]. split; [by apply listed_split|by apply E].
    + intros H N. apply N. destruct (H t eq_refl) as (v' & w & [= <-] & L & V). apply elem_of_list_fmap. exists w.
      split; [by apply E|by apply listed_split].
  - split; [done|]. intros H. by destruct (H t eq_refl) as (v' & w & [=] & _).
Qed.
Lemma excl_spec opt f eqv val : (∀ x y, f x = f y ↔ eqv x y) → excl opt f val = Take ↔ not_excluded eqv opt val.
Proof.
  intros E. unfold excl, not_excluded. destruct opt as [t|]; [|split; [intros _ t v w [=]|done]].
  destruct val as [v|]; [|split; [intros _ t' v w _ [=]|done]].
  rewrite skip_if_take, bool_decide_eq_false. split.
  - intros H t' v' w [= <-] [= <-] L V. apply H. apply elem_of_list_fmap. exists w. split; [by apply E|by apply listed_split].
  - intros H N. apply elem_of_list_fmap in N as (w & Hw & Hin). apply (H t v w eq_refl eq_refl); [by apply listed_split|by apply E].
Qed.
Lemma same_spec x y : same x = same y ↔ x = y.
Proof. done. Qed.
Lemma inc_raise opt f val : inc opt f val ≠ Raise.
Proof. unfold inc. destruct opt, val; try done. unfold skip_if. by case_match. Qed.
Lemma excl_raise opt f val : excl opt f val ≠ Raise.
Proof. unfold excl. destruct opt, val; try done. unfold skip_if. by case_match. Qed.
Lemma area_spec float t q : area_of float t = Some q ↔ ∃ t', t = Some t' ∧ area_given float t' q.
Proof.
  unfold area_of. destruct t as [t|]; cbn [mbind option_bind]; [|split; [done|by intros (? & ? & _)]]. split.
  - intros H. exists t. split; [done|]. pose proof (split_values t) as V.
    destruct (split t) as [|x1 [|x2 [|x3 [|x4 l]]]]; try done.
    exists x1, x2, x3, x4, l. split; [done|]. revert H.
    destruct (float x1), (float x2), (float x3), (float x4); cbn; try done. by intros [= <-].
  - intros (t' & [= <-] & x1 & x2 & x3 & x4 & l & V & F1 & F2 & F3 & F4).
    rewrite (values_unique _ _ _ (split_values t) V). rewrite F1, F2, F3, F4. by destruct q as [[[??]?]?].
Qed.
Lemma in_area_spec area o : in_area area o = Take ↔ (∀ q, area = Some q → within q o).
Proof.
  unfold in_area, position. destruct area as [[[[minLat minLon] maxLat] maxLon]|]; [|split; [intros _ q [=]|done]].
  assert (∀ b : _ → Prop, (∀ q : Q * Q * Q * Q, Some (minLat, minLon, maxLat, maxLon) = Some q → b q) ↔ b (minLat, minLon, maxLat, maxLon)) as H
    by (intros b; split; [auto|by intros H q [= <-]]).
  rewrite (H (λ q, within q o)). clear H. unfold within. cbn [fst snd Region_Model.is_inside]. unfold qlt.
  destruct (o_depth o); [|split; [done|by intros [? _]]].
  destruct (Region_Model.Qltb (o_lat o) minLat || Region_Model.Qltb maxLat (o_lat o))%bool; [split; [done|by intros [_ ?]]|].
  cbv zeta. rewrite skip_if_take.
  match goal with |- Region_Model.Qltb ?x ?y = false ↔ _ => unfold Region_Model.Qltb at 1; destruct (Qle_bool y x) end; [done|].
  split; [done|by intros [_ ?]].
Qed.
Lemma in_area_raise area o : in_area area o = Raise → area ≠ None ∧ o_depth o = None.
Proof.
  unfold in_area, position. destruct area as [[[[minLat minLon] maxLat] maxLon]|]; [|done].
  destruct (o_depth o); [|done]. destruct (_ || _)%bool; [done|]. cbv zeta. unfold skip_if. by case_match.
Qed.

(** * One event *)
Section event.
Variable float : text → option Q.
Variable a : options.
Local Notation k := (kind a).
(** The conditions but the order *)
Definition rest (o : origin) : verdict :=
  inc (a_inc_stat a) lower (o_stat o) and excl (a_excl_stat a) lower (o_stat o) and
  inc (a_inc_author a) same (o_author o) and excl (a_excl_author a) same (o_author o) and
  inc (a_inc_agency a) same (o_agency o) and excl (a_excl_agency a) same (o_agency o) and
  inc (a_inc_method a) same (o_method o) and excl (a_excl_method a) same (o_method o) and
  in_area (area_of float (a_area a)) o.
Definition modes (o : origin) : verdict :=
  skip_if (a_auto a && negb (is_mode Automatic o)) and skip_if (a_manual a && negb (is_mode Manual o)).
Lemma verdict_split best o : verdict_of float a best o = modes o and in_order k best o and rest o.
Proof. unfold verdict_of, modes, rest. by destruct (skip_if _), (skip_if _). Qed.
Lemma passes_spec o : (modes o = Take ∧ rest o = Take) ↔ passes float a o.
Proof.
  unfold modes, rest, passes. rewrite !also_take, !skip_if_take.
  rewrite (inc_spec _ _ _ _ lower_spec), (excl_spec _ _ _ _ lower_spec), !(inc_spec _ _ _ _ same_spec), !(excl_spec _ _ _ _ same_spec), in_area_spec.
  assert ((a_auto a && negb (is_mode Automatic o))%bool = false ↔ (a_auto a = true → o_mode o = Some Automatic)) as ->.
  { unfold is_mode. destruct (a_auto a), (o_mode o) as [[]|]; cbn; naive_solver. }
  assert ((a_manual a && negb (is_mode Manual o))%bool = false ↔ (a_manual a = true → o_mode o = Some Manual)) as ->.
  { unfold is_mode. destruct (a_manual a), (o_mode o) as [[]|]; cbn; naive_solver. }
  assert ((∀ q, area_of float (a_area a) = Some q → within q o) ↔ (∀ t q, a_area a = Some t → area_given float t q → within q o)) as ->.
  { split; intros H.
    - intros t q E G. apply H. apply area_spec. eauto.
    - intros q Hq. apply area_spec in Hq as (t & E & G). eauto. }
  tauto.
Qed.
Lemma also_raise x y : also x y = Raise ↔ x = Raise ∨ (x = Take ∧ y = Raise).
Proof. destruct x; cbn [also]; naive_solver. Qed.
Lemma modes_raise o : modes o ≠ Raise.
Proof. unfold modes. by do 2 destruct (_ && _)%bool. Qed.
Lemma rest_raise o : rest o = Raise → (∃ t q, a_area a = Some t ∧ area_given float t q) ∧ o_depth o = None.
Proof.
  unfold rest. intros H.
  repeat (apply also_raise in H as [H|[_ H]]; [by first [destruct (inc_raise _ _ _ H)|destruct (excl_raise _ _ _ H)]|]).
  apply in_area_raise in H as [H ?]. split; [|done].
  destruct (area_of float (a_area a)) as [q|] eqn:E; [|done]. apply area_spec in E as (t & ? & ?). eauto.
Qed.

Lemma qlt_ok x y : qlt x y = true ↔ (x < y)%Q.
Proof. apply Region_Props.Qltb_true. Qed.
Lemma qlt_no x y : qlt x y = false ↔ (y <= x)%Q.
Proof. rewrite <-not_true_iff_false, qlt_ok. split; [apply Qnot_lt_le|apply Qle_not_lt]. Qed.
(** The order, by the keys *)
Definition against (best : option origin) (o : origin) : verdict :=
  match key k o with
  | None => Skip
  | Some x => match best with
              | None => Take
              | Some b => match key k b with Some y => skip_if (qlt x y) | None => Raise end
              end
  end.
Lemma qlt_Z x y : qlt (inject_Z x) (inject_Z y) = Z.ltb x y.
Proof.
  apply eq_true_iff_eq. by rewrite qlt_ok, Z.ltb_lt, Zlt_Qlt.
Qed.
Lemma qlt_opp x y : qlt (- x) (- y) = qlt y x.
Proof. apply eq_true_iff_eq. rewrite !qlt_ok. split; intros; lra. Qed.
Lemma order_spec best o :
  (k = tx "last" ∨ k = tx "first" → o_created o ≠ None) → in_order k best o = against best o.
Proof.
  unfold against, in_order, key, by_time. intros C. repeat case_decide.
  - destruct (o_created o) as [x|]; [|by destruct C; [left|]]. destruct best as [b|]; [|done]. cbn [fmap option_fmap option_map].
    destruct (o_created b) as [y|]; [|done]. cbn [fmap option_fmap option_map]. by rewrite qlt_Z.
  - destruct (o_created o) as [x|]; [|by destruct C; [right|]]. destruct best as [b|]; [|done]. cbn [fmap option_fmap option_map compose].
    destruct (o_created b) as [y|]; [|done]. cbn [fmap option_fmap option_map compose]. by rewrite qlt_opp, qlt_Z, Z.gtb_ltb.
  - unfold by_value. destruct (o_phases o) as [x|]; [|done]. destruct best as [b|]; [|done]. destruct (o_phases b) as [y|]; [|done].
    cbn [fmap option_fmap option_map compose]. by rewrite qlt_Z.
  - unfold by_value. destruct (o_phases o) as [x|]; [|done]. destruct best as [b|]; [|done]. destruct (o_phases b) as [y|]; [|done].
    cbn [fmap option_fmap option_map compose]. by rewrite qlt_opp, qlt_Z, Z.gtb_ltb.
  - unfold by_value. destruct (o_rms o) as [x|]; [|done]. destruct best as [b|]; [|done]. by destruct (o_rms b) as [y|].
  - unfold by_value. destruct (o_rms o) as [x|]; [|done]. destruct best as [b|]; [|done]. destruct (o_rms b) as [y|]; [|done].
    cbn [fmap option_fmap option_map compose]. by rewrite qlt_opp.
  - by destruct best.
Qed.

Lemma choose_spec p best l :
  complete float a k (p ++ l) → best_of float a k p best → ∃ r, choose float a best l = Some r ∧ best_of float a k (p ++ l) r.
Proof.
  revert p best. induction l as [|o l IH]; intros p best C B.
  { exists best. rewrite app_nil_r. done. }
  replace (p ++ o :: l) with ((p ++ [o]) ++ l) in * by by rewrite <-app_assoc.
  cbn [choose]. rewrite verdict_split.
  assert (o ∈ (p ++ [o]) ++ l) as Ho by (rewrite !elem_of_app; left; right; by left).
  rewrite order_spec by (intros K; by apply C).
  assert (rest o ≠ Raise) as NR by (intros N; apply rest_raise in N as [A D]; by apply (proj2 C A o Ho)).
  (* the origin is not better *)
  assert (((passes float a o → match best with Some b => ∃ x, key k b = Some x ∧ ∀ y, key k o = Some y → (y < x)%Q | None => key k o = None end) →
           best_of float a k (p ++ [o]) best)) as KEEP.
  { intros N. destruct best as [b|]; cbn [best_of] in *.
    - destruct B as (l1 & l2 & x & -> & P & K & B1 & B2). exists l1, (l2 ++ [o]), x. split; [by rewrite <-app_assoc|].
      split; [done|]. split; [done|]. split; [done|]. intros o' y [?|E]%elem_of_app P' K'; [by eapply B2|].
      apply elem_of_list_singleton in E as ->. destruct (N P') as (x' & Kx & Hx). rewrite K in Kx. injection Kx as ->. auto.
    - intros o' [?|E]%elem_of_app P'; [auto|]. apply elem_of_list_singleton in E as ->. auto. }
  destruct (modes o) eqn:M; cbn [also]; [|apply IH; [done|apply KEEP; intros P; apply passes_spec in P as [P _]; congruence]|by destruct (modes_raise o)].
  unfold against. destruct (key k o) as [x|] eqn:Kx; [|apply IH; [done|apply KEEP]].
  2:{ intros P. destruct best as [b|]; [|done]. destruct B as (l1 & l2 & y & _ & _ & K & _). by exists y. }
  assert (match best with None => Take | Some b => match key k b with Some y => skip_if (qlt x y) | None => Raise end end = Skip ∧
            (∃ b y, best = Some b ∧ key k b = Some y ∧ (x < y)%Q) ∨
          match best with None => Take | Some b => match key k b with Some y => skip_if (qlt x y) | None => Raise end end = Take ∧
            (∀ b y, best = Some b → key k b = Some y → (y <= x)%Q)) as [[-> (b & y & -> & Ky & L)]|[-> L]].
  { destruct best as [b|]; [|right; done]. destruct B as (l1 & l2 & y & _ & _ & K & _). rewrite K.
    destruct (qlt x y) eqn:Q; [left|right]; (split; [done|]).
    - exists b, y. split; [done|]. split; [done|]. by apply qlt_ok.
    - intros b' y' [= <-] K'. rewrite K in K'. injection K' as <-. by apply qlt_no. }
  - cbn [also]. apply IH; [done|]. apply KEEP. intros _. exists y. split; [done|]. by intros ? [= <-].
  - cbn [also]. destruct (rest o) eqn:R; [|apply IH; [done|apply KEEP; intros P; apply passes_spec in P as [_ P]; congruence]|done].
    apply IH; [done|]. cbn [best_of]. exists p, [], x. split; [done|]. split; [by apply passes_spec|]. split; [done|].
    split; [|by intros o' y []%elem_of_nil].
    intros o' y Ho' P' K'. destruct best as [b|]; cbn [best_of] in B.
    + destruct B as (l1 & l2 & z & -> & Pb & Kb & B1 & B2). specialize (L b z eq_refl Kb).
      apply elem_of_app in Ho' as [Ho'|Ho'].
      * specialize (B1 o' y Ho' P' K'). lra.
      * apply elem_of_cons in Ho' as [->|Ho']; [rewrite Kb in K'; by injection K' as ->|]. specialize (B2 o' y Ho' P' K'). lra.
    + by rewrite (B o' Ho' P') in K'.
Qed.
End event.

(** * Which origin is listed *)
Section tool.
Variable float : text → option Q.
Variable a : options.
Variable get_origin : text → option origin.
Variable get_origins : text → list origin.
Variable nums : origin → list text.
Local Notation k := (default (tx "preferred") (a_kind a)).
Local Notation find := (find_origin float a get_origin get_origins).
Local Notation run := (run float a get_origin get_origins nums).
Local Notation out_lines := (out_lines float a get_origin get_origins nums).
(** The origins of an event to choose from *)
Definition offered (v : event) (l : list origin) : Prop :=
  (k = tx "preferred" → l = option_list (get_origin (v_pref v))) ∧ (k ≠ tx "preferred" → l = get_origins (v_id v)).
Lemma offered_candidates v l : offered v l → candidates a get_origin get_origins v = l.
Proof.
  intros [H1 H2]. unfold candidates, kind. case_decide as D; [rewrite (H1 D)|by rewrite (H2 D)]. by destruct (get_origin (v_pref v)).
Qed.
Theorem C97_chosen v l : offered v l → complete float a k l → ∃ r, find v = Some r ∧ best_of float a k l r.
Proof.
  intros O C. unfold find_origin. rewrite (offered_candidates _ _ O). apply (choose_spec float a [] None l C).
  intros o []%elem_of_nil.
Qed.
(** An exception has one of two causes *)
Theorem C97_exception v l : offered v l → find v = None →
  ((k = tx "last" ∨ k = tx "first") ∧ ∃ o, o ∈ l ∧ o_created o = None) ∨
  ((∃ t q, a_area a = Some t ∧ area_given float t q) ∧ ∃ o, o ∈ l ∧ o_depth o = None).
Proof.
  intros O F.
  assert (∀ {B} (f : origin → option B), (∃ o, o ∈ l ∧ f o = None) ∨ (∀ o, o ∈ l → f o ≠ None)) as missing.
  { intros B f. clear. induction l as [|o l IH]; [right; by intros o ?%elem_of_nil|].
    destruct (f o) eqn:E; [|left; exists o; split; [by left|done]].
    destruct IH as [(o' & ? & ?)|H]; [left; exists o'; split; [by right|done]|].
    right. intros o' [->|?]%elem_of_cons; [by rewrite E|auto]. }
  destruct (decide (k = tx "last" ∨ k = tx "first")) as [K|K];
    [destruct (missing _ o_created) as [E|E]; [left; split; [done|exact E]|]|].
  all: destruct (area_of float (a_area a)) as [q|] eqn:A;
    [destruct (missing _ o_depth) as [E'|E']; [right; split; [apply area_spec in A as (t & ? & ?); eauto|exact E']|]|].
  all: exfalso; destruct (C97_chosen v l O) as (r & Hr & _); [|congruence]; split; [done|]; try (intros _; exact E').
  all: intros (t & q & ? & ?); assert (area_of float (a_area a) = Some q) by (apply area_spec; eauto); congruence.
Qed.
(** A word that is not known: the last origin that passes *)
Theorem C97_unknown_word v l :
  offered v l → complete float a k l →
  k ∉ [tx "last"; tx "first"; tx "maxPhases"; tx "minPhases"; tx "maxRMS"; tx "minRMS"] →
  ∃ r, find v = Some r ∧
       match r with
       | Some o => ∃ l1 l2, l = l1 ++ o :: l2 ∧ passes float a o ∧ ∀ o', o' ∈ l2 → ¬ passes float a o'
       | None => ∀ o, o ∈ l → ¬ passes float a o
       end.
Proof.
  intros O C N. destruct (C97_chosen v l O C) as (r & Hr & B). exists r. split; [done|].
  assert (∀ o, key k o = Some 0%Q) as K.
  { intros o. unfold key. rewrite !not_elem_of_cons in N. destruct N as (N1 & N2 & N3 & N4 & N5 & N6 & _). by rewrite !decide_False. }
  destruct r as [o|]; cbn [best_of] in B.
  - destruct B as (l1 & l2 & x & E & P & Kx & _ & B2). rewrite K in Kx. injection Kx as <-. exists l1, l2. split; [done|].
    split; [done|]. intros o' Ho P'. specialize (B2 o' 0%Q Ho P' (K o')). lra.
  - intros o Ho P. specialize (B o Ho P). by rewrite K in B.
Qed.

(** * What is printed *)
Lemma wanted_asked v : wanted a v = true ↔ asked a v.
Proof.
  unfold wanted, asked. rewrite andb_true_iff.
  assert (match a_modified a with Some m => match v_modified v with Some t => negb (t <? m)%Z | None => false end | None => true end = true
          ↔ (∀ m, a_modified a = Some m → ∃ t, v_modified v = Some t ∧ (m <= t)%Z)) as ->.
  { destruct (a_modified a) as [m|]; [|split; [intros _ m [=]|done]]. destruct (v_modified v) as [t|].
    - rewrite negb_true_iff, Z.ltb_ge. split; [intros ? m' [= <-]; eauto|]. intros H. destruct (H m eq_refl) as (t' & [= <-] & ?). done.
    - split; [done|]. intros H. by destruct (H m eq_refl) as (t' & [=] & _). }
  assert (match a_types a with Some t => bool_decide (default [] (v_type v) ∈ split t) | None => true end = true
          ↔ (∀ t, a_types a = Some t → listed (default [] (v_type v)) t)) as ->; [|done].
  destruct (a_types a) as [t|]; [|split; [intros _ t [=]|done]]. rewrite bool_decide_eq_true. split.
  - intros H t' [= <-]. by apply listed_split.
  - intros H. apply listed_split. auto.
Qed.
(** The events asked for that have an origin, with their origin *)
Inductive lists : list event → list (event * origin) → Prop :=
  | lists_nil : lists [] []
  | lists_not v vs L : ¬ asked a v → lists vs L → lists (v :: vs) L
  | lists_none v vs L : asked a v → find v = Some None → lists vs L → lists (v :: vs) L
  | lists_one v vs L o : asked a v → find v = Some (Some o) → lists vs L → lists (v :: vs) ((v, o) :: L).
Local Notation line := (λ p : event * origin, out_line a nums p.1 p.2).
Lemma lists_run vs t : out_lines (filter (wanted a) vs) = (t, true) → ∃ L, lists vs L ∧ t = mjoin (line <$> L).
Proof.
  revert t. induction vs as [|v vs IH]; intros t.
  { intros [= <-]. exists []. split; [constructor|done]. }
  rewrite filter_cons. destruct (decide (wanted a v)) as [W|W].
  - cbn [ListOrg_Model.out_lines]. destruct (find v) as [r|] eqn:F; [|done].
    destruct (out_lines _) as [t' ok]. destruct r as [o|]; intros [= <- ->]; destruct (IH t' eq_refl) as (L & HL & ->).
    + exists ((v, o) :: L). split; [|done]. constructor; [by apply wanted_asked, Is_true_true|done|done].
    + exists L. split; [|done]. apply lists_none; [by apply wanted_asked, Is_true_true|done|done].
  - intros H. destruct (IH t H) as (L & HL & ->). exists L. split; [|done]. constructor; [|done].
    intros A. apply wanted_asked in A. apply W. by apply Is_true_true.
Qed.
Lemma lists_in vs L v o : lists vs L → (v, o) ∈ L → v ∈ vs ∧ asked a v ∧ find v = Some (Some o).
Proof.
  induction 1 as [|v' vs L N H IH|v' vs L A F H IH|v' vs L o' A F H IH]; intros E.
  - by apply elem_of_nil in E.
  - destruct (IH E). split; [by right|done].
  - destruct (IH E). split; [by right|done].
  - apply elem_of_cons in E as [[= -> ->]|E]; [split; [by left|done]|]. destruct (IH E). split; [by right|done].
Qed.
(** The output for the events is complete if no event raises, else it is that for the events before *)
Theorem C97_complete vs :
  (∀ v, v ∈ vs → asked a v → ∃ l, offered v l ∧ complete float a k l) → ∃ t, run vs = (t, true).
Proof.
  intros H. unfold ListOrg_Model.run.
  assert (∃ t, out_lines (filter (wanted a) vs) = (t, true)) as [t ->]; [|by eexists].
  induction vs as [|v vs IH]; [by eexists|]. rewrite filter_cons.
  destruct IH as [t Ht]; [intros v' Hv; apply H; by right|].
  destruct (decide (wanted a v)) as [W|W]; [|by exists t]. cbn [ListOrg_Model.out_lines].
  destruct (H v) as (l & O & C); [by left|by apply wanted_asked, Is_true_true|].
  destruct (C97_chosen v l O C) as (r & -> & _). rewrite Ht. by eexists.
Qed.
Theorem C97_cut vs t : run vs = (t, false) →
  ∃ vs1 v vs2, vs = vs1 ++ v :: vs2 ∧ asked a v ∧ find v = None ∧ run vs1 = (t, true).
Proof.
  unfold ListOrg_Model.run. destruct (out_lines (filter (wanted a) vs)) as [t' ok] eqn:E. intros [= <- ->].
  assert (∃ vs1 v vs2, vs = vs1 ++ v :: vs2 ∧ asked a v ∧ find v = None ∧ out_lines (filter (wanted a) vs1) = (t', true)) as
    (vs1 & v & vs2 & ? & ? & ? & E1); [|exists vs1, v, vs2; by rewrite E1].
  revert t' E. induction vs as [|v vs IH]; intros t' E; [done|]. rewrite filter_cons in E.
  destruct (decide (wanted a v)) as [W|W].
  - cbn [ListOrg_Model.out_lines] in E. destruct (find v) as [r|] eqn:F.
    + destruct (out_lines (filter _ vs)) as [t1 ok]. injection E as <- ->. destruct (IH t1 eq_refl) as (vs1 & v' & vs2 & -> & ? & ? & E1).
      exists (v :: vs1), v', vs2. split; [done|]. split; [done|]. split; [done|]. rewrite filter_cons, decide_True by done.
      cbn [ListOrg_Model.out_lines]. by rewrite F, E1.
    + injection E as <-. exists [], v, vs. split; [done|]. split; [by apply wanted_asked, Is_true_true|]. done.
  - destruct (IH t' E) as (vs1 & v' & vs2 & -> & ? & ? & E1).
    exists (v :: vs1), v', vs2. split; [done|]. split; [done|]. split; [done|]. by rewrite filter_cons, decide_False.
Qed.

(** * The output as the list of origins of rtddtool *)
(** No newline in what is printed, and nothing special in the name of the origin *)
Definition printable (v : event) (o : origin) : Prop :=
  plain (o_id o) ∧ nl ∉ v_id v ∧ nl ∉ default [] (v_type v) ∧ nl ∉ default [] (o_stat o) ∧ nl ∉ default [] (o_agency o) ∧
  nl ∉ default [] (o_author o) ∧ nl ∉ default [] (o_method o) ∧ (∀ f, f ∈ nums o → nl ∉ f).
Lemma shown_nl t : nl ∉ default [] t → nl ∉ shown t.
Proof. destruct t; [done|]. intros _. by apply (bool_decide_unpack _). Qed.
Lemma join_nl l : (∀ f, f ∈ l → nl ∉ f) → nl ∉ csv_join l.
Proof.
  induction l as [|f l IH]; intros H; [apply not_elem_of_nil|]. destruct l as [|g l]; [apply H; by left|].
  change (nl ∉ f ++ comma :: csv_join (g :: l)). rewrite not_elem_of_app, not_elem_of_cons. split; [apply H; by left|].
  split; [done|]. apply IH. intros f' Hf. apply H. by right.
Qed.
Lemma columns_nl v o : printable v o → nl ∉ csv_join (columns nums v o).
Proof.
  intros (P & N1 & N2 & N3 & N4 & N5 & N6 & N7). apply join_nl. unfold columns. intros f [Hf|Hf]%elem_of_app; [|auto].
  repeat (apply elem_of_cons in Hf as [->|Hf]); [apply P|done|done| | | | | |by apply elem_of_nil in Hf]; try by apply shown_nl.
  destruct (o_mode o) as [[]|]; by apply (bool_decide_unpack _).
Qed.
Lemma chop_keep x r : ∃ r', chop_cr (x ++ comma :: r) = x ++ comma :: r'.
Proof.
  unfold chop_cr. destruct r as [|c r _] using rev_ind.
  - exists []. rewrite rev_app_distr. done.
  - replace (x ++ comma :: r ++ [c]) with ((x ++ comma :: r) ++ [c]) by by rewrite <-app_assoc.
    rewrite rev_app_distr. cbn [rev app]. destruct (decide (c = cr)).
    + exists r. apply rev_involutive.
    + exists (r ++ [c]). by rewrite <-app_assoc.
Qed.
Lemma scan_keep t st d c x : ∃ st' d' c', fold_left csv_char t (st, d ++ [x], c) = (st', d' ++ [x], c').
Proof.
  revert st d c. induction t as [|h t IH]; intros st d c; [by exists st, d, c|]. cbn [fold_left].
  assert (∃ st' d' c', csv_char (st, d ++ [x], c) h = (st', d' ++ [x], c')) as (st' & d' & c' & ->); [|apply IH].
  unfold csv_char. destruct st; repeat case_decide; try (by eexists _, d, _); by exists Unquoted, (rev c :: d), [].
Qed.
Lemma first_field x r : plain x → nth 0 (read_row (chop_cr (x ++ comma :: r))) [] = x.
Proof.
  intros (Hc & Hq & _). destruct (chop_keep x r) as [r' ->]. unfold read_row. rewrite fold_left_app, scan_plain by done.
  cbn [fold_left]. assert (csv_char (Unquoted, [], rev x ++ []) comma = (Unquoted, [] ++ [x], [])) as ->.
  { cbn [csv_char]. rewrite decide_True by done. by rewrite app_nil_r, rev_involutive. }
  destruct (scan_keep r' Unquoted [] [] x) as (st' & d' & c' & ->). cbn [rev]. by rewrite rev_app_distr.
Qed.
Lemma lines_join (ls : list text) : Forall (λ l, nl ∉ l) ls → lines (mjoin ((λ l, l ++ [nl]) <$> ls)) = ls.
Proof.
  unfold lines. induction 1 as [|l ls H _ IH]; [done|].
  change (lines_from [] ((l ++ [nl]) ++ mjoin ((λ l, l ++ [nl]) <$> ls)) = l :: ls).
  rewrite <-app_assoc. cbn [app]. rewrite lines_from_app by done. by rewrite IH.
Qed.
Lemma header_row : read_row (chop_cr (csv_join header)) = header.
Proof. by apply (bool_decide_unpack _). Qed.
Lemma header_nodup : NoDup header.
Proof. by apply (bool_decide_unpack _). Qed.

Section import.
Context {V : Type}.
Variable ins : list (Catalog_Model.phase V) → Catalog_Model.phase V → list (Catalog_Model.phase V).
Variable zero : V → bool.
Variable nan : V.
Variable inv : text → text → text → Z → Import_Model.located V.
Theorem C97_import vs t :
  a_simple a = false → run vs = (t, true) →
  (∀ v o, v ∈ vs → find v = Some (Some o) → printable v o) →
  ∃ L, lists vs L ∧
       ∀ s c, DataSource_Model.add_file ins zero nan inv s c (Some t) = DataSource_Model.add_ids ins zero nan inv s c ((λ p, o_id p.2) <$> L).
Proof.
  intros S R P. unfold ListOrg_Model.run in R. rewrite S in R. cbv iota in R.
  destruct (out_lines (filter (wanted a) vs)) as [t' ok] eqn:E. apply pair_equal_spec in R as [<- ->].
  apply lists_run in E as (L & HL & ->). exists L. split; [done|]. intros s c. unfold DataSource_Model.add_file.
  assert (csv_line header ++ mjoin (line <$> L) =
          mjoin ((λ l, l ++ [nl]) <$> (csv_join header :: ((λ p : event * origin, csv_join (columns nums p.1 p.2)) <$> L)))) as ->.
  { rewrite fmap_cons. cbn [mjoin list_join]. f_equal. f_equal. rewrite <-list_fmap_compose. apply list_fmap_ext. intros _ p _. cbn [compose].
    unfold out_line. by rewrite S. }
  unfold read_with_header, csv_read. rewrite lines_join.
  2:{ constructor; [by apply (bool_decide_unpack _)|]. apply Forall_forall. intros l (p & -> & Hp)%elem_of_list_fmap.
      destruct p as [v o]. apply (lists_in _ _ _ _ HL) in Hp as (Hv & _ & F). apply columns_nl. by apply P. }
  rewrite fmap_cons, header_row.
  assert (mapM (λ row : gmap text text, row !! tx "origin")
            (format_row header <$> ((λ l, read_row (chop_cr l)) <$> ((λ p : event * origin, csv_join (columns nums p.1 p.2)) <$> L))) =
          Some ((λ p, o_id p.2) <$> L)) as ->; [|done].
  apply mapM_Some_2. rewrite <-!list_fmap_compose. apply Forall2_fmap_l, Forall2_fmap_r.
  apply Forall_Forall2_diag. apply Forall_forall. intros [v o] Hp. cbn [compose fst snd].
  rewrite (format_row_at header _ 0 (tx "origin")); [|apply header_nodup|done]. f_equal.
  apply (lists_in _ _ _ _ HL) in Hp as (Hv & _ & F).
  apply (first_field (o_id o) (csv_join (tail (columns nums v o)))). exact (proj1 (P v o Hv F)).
Qed.
(** With --simple there is no header: the output cannot be imported *)
Theorem C97_simple vs t :
  a_simple a = true → run vs = (t, true) →
  (∀ v o, v ∈ vs → find v = Some (Some o) → plain_last (o_id o)) →
  ∃ L, lists vs L ∧ t = mjoin ((λ p : event * origin, o_id p.2 ++ [nl]) <$> L) ∧
       ∀ s c, match L with
              | [] => DataSource_Model.add_file ins zero nan inv s c (Some t) = Catalog_Model.CUB
              | [p] => DataSource_Model.add_file ins zero nan inv s c (Some t) = DataSource_Model.add_ids ins zero nan inv s c []
              | p :: _ => o_id p.2 ≠ tx "origin" → DataSource_Model.add_file ins zero nan inv s c (Some t) = Catalog_Model.CExc c
              end.
Proof.
  intros S R P. unfold ListOrg_Model.run in R. rewrite S in R. cbv iota in R.
  destruct (out_lines (filter (wanted a) vs)) as [t' ok] eqn:E. apply pair_equal_spec in R as [<- ->].
  apply lists_run in E as (L & HL & ->). exists L. split; [done|].
  assert (mjoin (line <$> L) = mjoin ((λ p : event * origin, o_id p.2 ++ [nl]) <$> L)) as EL.
  { f_equal. apply list_fmap_ext. intros _ p _. unfold out_line. by rewrite S. }
  cbn [app]. split; [done|]. intros s c. unfold DataSource_Model.add_file.
  assert (mjoin (line <$> L) = csv_lines ((λ p : event * origin, [o_id p.2]) <$> L)) as ->.
  { rewrite EL. unfold csv_lines. clear. induction L as [|p L IH]; [done|]. rewrite !fmap_cons.
    exact (f_equal (app (o_id p.2 ++ [nl])) IH). }
  unfold read_with_header. rewrite csv_read_lines.
  2:{ apply Forall_fmap, Forall_forall. intros [v o] Hp. apply (lists_in _ _ _ _ HL) in Hp as (Hv & _ & F).
      destruct (P v o Hv F) as [P1 P2]. split; [done|]. split; [by constructor|]. by intros ? [= <-]. }
  destruct L as [|p [|p' L]]; [done|done|]. intros N. cbn [fmap list_fmap].
  assert (∀ r, format_row [o_id p.2] r !! tx "origin" = None) as Z.
  { intros r. unfold format_row. cbn [zip zip_with seq length fold_left]. rewrite lookup_insert_ne by done. apply lookup_empty. }
  cbn [mapM]. by rewrite Z.
Qed.
End import.
End tool.

(** For longitudes less than a full turn from the western side *)
Theorem C97_area minLat minLon maxLat maxLon o :
  (- (360) < o_lon o - minLon < 360)%Q → (- (360) < maxLon - minLon < 360)%Q →
  within (minLat, minLon, maxLat, maxLon) o ↔
  o_depth o ≠ None ∧ Region_Props.rect_spec minLat minLon maxLat maxLon (o_lat o) (o_lon o).
Proof. intros H1 H2. unfold within. cbn [fst snd]. by rewrite Region_Props.C58_rectangular_region. Qed.

(** * Findings *)
Local Notation opts kind excl area := (Options None None (Some kind) false false false None None None None None excl None None area).
Local Notation orig id created agency lat lon depth :=
  (Origin id (Some Automatic) None created None (Some agency) None lat lon depth (Some 10%Z) (Some (1 # 2)%Q)).
Local Notation digits := (λ t, if decide (t = tx "46") then Some 46%Q else if decide (t = tx "5") then Some 5%Q
                               else if decide (t = tx "48") then Some 48%Q else if decide (t = tx "11") then Some 11%Q else None).
(** An origin that does not pass ends the run if it has no creation time *)
Theorem C97_foreign_origin_refuted :
  ∃ float a o1 o2 v, ¬ passes float a o2 ∧
    find_origin float a (λ _, None) (λ _, [o1]) v = Some (Some o1) ∧ find_origin float a (λ _, None) (λ _, [o1; o2]) v = None.
Proof.
  exists (λ _, None), (opts (tx "last") (Some (tx "XX")) None), (orig (tx "o1") (Some 1%Z) (tx "SED") 46 8 (Some 5%Q)),
    (orig (tx "o2") None (tx "XX") 46 8 (Some 5%Q)), (Event (tx "e") (tx "o1") None None).
  split; [|done]. intros P. assert (excl (Some (tx "XX")) same (Some (tx "XX")) = Take) as E; [|done].
  apply (excl_spec _ _ _ _ same_spec). apply P.
Qed.
(** So does an origin in the area that has no depth *)
Theorem C97_depth_refuted :
  ∃ float a o v q t, a_area a = Some t ∧ area_given float t q ∧ Region_Props.rect_spec q.1.1.1 q.1.1.2 q.1.2 q.2 (o_lat o) (o_lon o) ∧
    find_origin float a (λ _, None) (λ _, [o]) v = None.
Proof.
  exists digits, (opts (tx "last") None (Some (tx "46,5,48,11"))), (orig (tx "o") (Some 1%Z) (tx "SED") 47 8 None), (Event (tx "e") (tx "o") None None),
    (46, 5, 48, 11)%Q, (tx "46,5,48,11").
  split; [done|]. split.
  { exists (tx "46"), (tx "5"), (tx "48"), (tx "11"), []. split; [|done]. split; [done|]. split; [by apply (bool_decide_unpack _)|done]. }
  split; [|done]. cbn [fst snd]. apply (Region_Props.C58_rectangular_region (λ _ _ _ _, 0%Q)); [split; cbn; lra|split; lra|done].
Qed.
(** An area with a number missing is no area *)
Theorem C97_area_text_refuted :
  ∃ float a o v, a_area a = Some (tx "46,5,48") ∧ (o_lat o < 46)%Q ∧ find_origin float a (λ _, None) (λ _, [o]) v = Some (Some o).
Proof.
  exists digits, (opts (tx "last") None (Some (tx "46,5,48"))), (orig (tx "o") (Some 1%Z) (tx "SED") 0 8 (Some 5%Q)), (Event (tx "e") (tx "o") None None).
  split; [done|]. split; [cbn; lra|done].
Qed.

(** * Examples *)
Local Notation ex_o1 := (orig (tx "o1") (Some 1%Z) (tx "SED") 47 8 (Some 5%Q)).
Local Notation ex_o2 := (orig (tx "o2") (Some 3%Z) (tx "SED") 47 9 (Some 5%Q)).
Local Notation ex_o3 := (orig (tx "o3") (Some 3%Z) (tx "SED") 47 10 (Some 5%Q)).
Local Notation ex_o4 := (orig (tx "o4") (Some 4%Z) (tx "XX") 47 8 (Some 5%Q)).
Local Notation ex_o5 := (orig (tx "o5") (Some 5%Z) (tx "SED") 47 12 (Some 5%Q)).
Local Notation ex_a := (opts (tx "last") (Some (tx "XX,YY")) (Some (tx "46,5,48,11"))).
Local Notation ex_l := [ex_o1; ex_o2; ex_o3; ex_o4; ex_o5].
Local Notation ex_v := (Event (tx "e,1") (tx "o1") (Some (tx "quarry ""blast""")) (Some 7%Z)).
Local Notation ex_nums := (λ _ : origin, [tx "0.5"; tx "10"]).
Example ex_chosen :
  offered ex_a (λ _, None) (λ _, ex_l) ex_v ex_l ∧ complete digits ex_a (tx "last") ex_l ∧
  find_origin digits ex_a (λ _, None) (λ _, ex_l) ex_v = Some (Some ex_o3) ∧
  (tx "earthquake" ∈ split (tx "earthquake,,explosion")) ∧ ([] ∈ split (tx "earthquake,,explosion")).
Proof.
  split; [split; [done|done]|]. split.
  { split; intros _ o; rewrite !elem_of_cons, elem_of_nil; intros [->|[->|[->|[->|[->|[]]]]]]; done. }
  split; [vm_compute; reflexivity|]. split; by apply (bool_decide_unpack _).
Qed.
Example ex_import :
  let '(t, ok) := ListOrg_Model.run digits ex_a (λ _, None) (λ _, ex_l) ex_nums [ex_v; ex_v] in
  ok = true ∧ printable ex_nums ex_v ex_o3 ∧
  option_map (map (λ row : gmap text text, row !! tx "origin")) (read_with_header t) = Some [Some (tx "o3"); Some (tx "o3")].
Proof.
  destruct (ListOrg_Model.run _ _ _ _ _ _) as [t ok] eqn:E. vm_compute in E. injection E as <- <-. split; [done|]. split.
  - repeat split; try by apply (bool_decide_unpack _). intros f. rewrite !elem_of_cons, elem_of_nil.
    intros [->|[->|[]]]; by apply (bool_decide_unpack _).
  - vm_compute. reflexivity.
Qed.
(** Two ties, an unknown word *)
Example ex_unknown : find_origin digits (opts (tx "Last") None None) (λ _, None) (λ _, [ex_o4; ex_o1]) ex_v = Some (Some ex_o1).
Proof. done. Qed.
Local Notation ex_simple := (Options None None (Some (tx "first")) true false false None None None None None None None None None).
Example ex_output_simple :
  ListOrg_Model.run digits ex_simple (λ _, None) (λ _, ex_l) ex_nums [ex_v; ex_v] = (tx "o1" ++ [nl] ++ tx "o1" ++ [nl], true) ∧
  plain_last (tx "o1") ∧ tx "o1" ≠ tx "origin".
Proof. split; [vm_compute; reflexivity|]. split; [split; by apply (bool_decide_unpack _)|done]. Qed.
(** The second event has an origin without creation time *)
Example ex_cut :
  ListOrg_Model.run digits ex_simple (λ _, None) (λ i, if decide (i = tx "e") then [ex_o1; orig (tx "o6") None (tx "SED") 47 8 (Some 5%Q)] else ex_l)
    ex_nums [ex_v; Event (tx "e") (tx "o1") None None; ex_v] = (tx "o1" ++ [nl], false).
Proof. vm_compute. reflexivity. Qed.
Example ex_area : (- (360) < o_lon ex_o1 - 5 < 360)%Q ∧ (- (360) < 11 - 5 < 360)%Q ∧ within (46, 5, 48, 11)%Q ex_o1.
Proof. split; [split; cbn; lra|]. split; [split; lra|]. by split. Qed.
Print Assumptions C97_chosen. Print Assumptions C97_exception. Print Assumptions C97_unknown_word. Print Assumptions C97_complete.
Print Assumptions C97_cut. Print Assumptions C97_import. Print Assumptions C97_simple. Print Assumptions C97_area.
Print Assumptions C97_foreign_origin_refuted. Print Assumptions C97_depth_refuted. Print Assumptions C97_area_text_refuted.
