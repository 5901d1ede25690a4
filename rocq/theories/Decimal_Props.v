(** C94: the numbers of catalog files. *)
From Coq Require Import ZArith Reals Lra Psatz Ascii.
From Flocq Require Import Core BinarySingleNaN.
From stdpp Require Import numbers gmap list strings sorting.
From Verif Require Import Index_Model Csv_Model Csv_Props Table_Model Table_Proofs Catalog_Model Catalog_Props CatalogFile_Model CatalogFile_Props.
From Verif Require Import Double_Model Double_Props XCorrD_Props GridD_Props Decimal_Model Decimal_Proofs.
From Verif Require Time_Model Time_Props.
Local Open Scope R_scope.
Local Instance p53 : Prec_gt_0 53 := prec53.
Local Instance flt_valid : Valid_exp (FLT_exp (-1074) 53) := FLT_exp_valid (-1074) 53.

(** * Specification ([digits], [dsum], [denotes] and [nearest_int] are in Decimal_Proofs.v) *)
(** y is x up to n decimals; infinities and NaN are unchanged *)
Definition close (n : Z) (x y : double) : Prop :=
  if is_finite x then is_finite y = true ∧ Bsign y = Bsign x ∧ Rabs (B2R y - B2R x) <= b10 (- n) else y = x.
(** y is x up to six significant digits *)
Definition close6 (x y : double) : Prop :=
  if is_finite x then is_finite y = true ∧ Bsign y = Bsign x ∧ Rabs (B2R y - B2R x) <= 51 / 10000000 * Rabs (B2R x) else y = x.
(** Not a very small number *)
Definition not_tiny (x : double) : Prop := is_finite x = true → B2R x = 0 ∨ b2 (-1021) <= Rabs (B2R x).

(** * Numbers *)
(** C94: "%.nf" prints a sign, an integer without leading zeros, a point and n decimals: the number with n decimals that
    is next to x, the even one of two *)
Theorem C94_fixed_text n (x : double) : (0 < n)%nat → is_finite x = true →
  ∃ ip fp, print_f n x = (if Bsign x then tx "-" else []) ++ ip ++ tx "." ++ fp ∧ digits ip ∧ digits fp ∧ length fp = n ∧
    (length ip = 1%nat ∨ (10 ^ (Z.of_nat (length ip) - 1) ≤ dsum ip)%Z) ∧ ip ≠ [] ∧
    nearest_int (Rabs (B2R x) * b10 (Z.of_nat n)) (dsum (ip ++ fp)).
Proof.
  intros Hn F. rewrite print_f_finite by exact F. destruct (fixed_int_spec n x F) as [HK NK]. set (K := fixed_int n x) in *.
  destruct n as [|n]; [lia|]. set (P := (10 ^ Z.of_nat (S n))%Z). assert (0 < P)%Z as HP by (apply Z.pow_pos_nonneg; lia).
  assert (0 ≤ K / P)%Z as HQ by (apply Z.div_pos; lia). destruct (put_int_spec (K / P) HQ) as (H1 & H2 & H3).
  exists (put_int (K / P)), (put_digits (S n) (K mod P)). split; [reflexivity|]. split; [exact H1|].
  split; [apply put_digits_digits|]. split; [apply put_digits_length|]. split; [|split; [exact H2|]].
  - rewrite H3. unfold put_int. rewrite put_digits_length. destruct (ndig_spec (K / P) HQ) as (_ & _ & H).
    destruct (Z.eq_dec (K / P)%Z 0%Z) as [E|E]; [left; rewrite E; reflexivity|right; apply H; lia].
  - rewrite dsum_app, H3, put_digits_length. pose proof (Z.mod_pos_bound K P HP).
    rewrite put_digits_dsum by lia. fold P. rewrite (Z.mod_small (K mod P)) by lia.
    replace (K / P * P + K mod P)%Z with K; [exact NK|]. rewrite (Z.div_mod K P) at 1 by lia. ring.
Qed.
Print Assumptions C94_fixed_text.

(** C94: std::stod gives the double next to the number that the text denotes and fails if that is too large or if the number is
    below the normal ones *)
Theorem C94_stod t s m e : denotes t s m e → let v := IZR m * b10 e in
  (v = 0 → stod t = Some (B754_zero s)) ∧
  (0 < v < b2 (-1022) → stod t = None) ∧
  (b2 1024 <= rnd v → stod t = None) ∧
  (b2 (-1022) <= v → rnd v < b2 1024 →
   ∃ y, stod t = Some y ∧ is_finite y = true ∧ B2R y = (if s then - rnd v else rnd v) ∧ Bsign y = s).
Proof.
  intros H. cbv zeta. rewrite (denotes_stod _ _ _ _ H). assert (0 ≤ m)%Z as Hm.
  { destruct H as (ip & fp & pt & ex & x & _ & H1 & _ & H2 & _ & _ & -> & _). apply dsum_nonneg, digits_app. split; assumption. }
  pose proof (bpow_gt_0 r10 e) as P. destruct (Z.eq_dec m 0%Z) as [->|N].
  - rewrite Rmult_0_l. split; [reflexivity|]. split; [lra|]. rewrite rnd_0. pose proof (bpow_gt_0 radix2 1024). pose proof (bpow_gt_0 radix2 (-1022)).
    split; intros; lra.
  - destruct (of_decimal_spec s m e ltac:(lia)) as (H1 & H2 & H3). assert (0 < IZR m) by (apply IZR_lt; lia).
    split; [nra|]. split; [intros [_ ?]; apply H1; assumption|]. split; [exact H2|exact H3].
Qed.
Print Assumptions C94_stod.

Lemma not_finite (x : double) : is_finite x = false → x = B754_nan ∨ ∃ s, x = B754_infinity s.
Proof. destruct x; try discriminate; eauto. Qed.
(** C94: a number printed with n decimals is read as a number that differs by at most 10^-n - half of it and the rounding error -
    and that is printed in the same way. A number with n decimals is read as it was *)
Theorem C94_fixed_read n (x : double) : (n ≤ 300)%nat → ∃ y, stod (print_f n x) = Some y ∧ close (Z.of_nat n) x y ∧
  print_f n y = print_f n x ∧
  (is_finite x = true → Rabs (B2R y - B2R x) <= / 2 * b10 (- Z.of_nat n) + b2 (-53) * (Rabs (B2R x) + / 2 * b10 (- Z.of_nat n))) ∧
  (∀ k, is_finite x = true → B2R x * b10 (Z.of_nat n) = IZR k → y = x).
Proof.
  intros Hn. unfold close. destruct (is_finite x) eqn:F.
  2: { exists x. destruct (not_finite x F) as [->|[s ->]].
    - split; [reflexivity|]. split; [reflexivity|]. split; [reflexivity|]. split; intros; discriminate.
    - split; [destruct s; reflexivity|]. split; [reflexivity|]. split; [reflexivity|]. split; intros; discriminate. }
  destruct (fixed_read n x F Hn) as (y & H1 & H2 & H3 & H4). pose proof (fixed_dist n x F) as FD.
  destruct (fixed_int_spec n x F) as [HK NK].
  set (D := IZR (fixed_int n x) * b10 (- Z.of_nat n)) in *.
  pose proof (bpow_gt_0 r10 (- Z.of_nat n)) as P. assert (0 <= D) as HD by (apply Rmult_le_pos; [apply IZR_le; exact HK|lra]).
  assert (B2R x = cond_Ropp (Bsign x) (Rabs (B2R x))) as EX.
  { destruct x as [s| | |s m e B]; try discriminate F; simpl.
    - rewrite Rabs_R0. destruct s; simpl; ring.
    - rewrite <-F2R_Zabs, abs_cond_Zopp. destruct s; simpl; [|reflexivity]. rewrite <-F2R_Zopp. reflexivity. }
  assert (Rabs (B2R y - B2R x) = Rabs (rnd D - Rabs (B2R x))) as EY.
  { rewrite H4. rewrite EX at 1. destruct (Bsign x); simpl; [|reflexivity]. rewrite <-Rabs_Ropp. f_equal. ring. }
  pose proof (rnd_best D _ (format_abs x)) as B.
  assert (∀ a b c, Rabs (a - c) <= Rabs (a - b) + Rabs (c - b)) as T.
  { intros a b c. replace (a - c) with ((a - b) + - (c - b)) by ring. eapply Rle_trans; [apply Rabs_triang|]. rewrite Rabs_Ropp. lra. }
  exists y. split; [exact H1|]. rewrite EY. pose proof (T (rnd D) D (Rabs (B2R x))) as T'.
  split; [split; [exact H2|split; [exact H3|lra]]|]. split; [apply (fixed_again n x F); assumption|]. split.
  - intros _. eapply Rle_trans; [exact T'|]. enough (Rabs (rnd D - D) <= b2 (-53) * (Rabs (B2R x) + / 2 * b10 (- Z.of_nat n))) by lra.
    destruct (Z.eq_dec (fixed_int n x) 0%Z) as [E|E].
    + assert (D = 0) as -> by (unfold D; rewrite E; ring). rewrite rnd_0, Rminus_0_r, Rabs_R0. apply Rmult_le_pos; [apply bpow_ge_0|].
      pose proof (Rabs_pos (B2R x)). lra.
    + eapply Rle_trans; [apply b2_1022|].
      * assert (1 <= IZR (fixed_int n x)) by (apply IZR_le; lia). assert (b10 (-300) <= b10 (- Z.of_nat n)) by (apply bpow_le; lia). pose proof b10_b2. unfold D. nra.
      * apply Rmult_le_compat_l; [apply bpow_ge_0|]. apply Rabs_le_inv in FD. lra.
  - intros k _ Hk. apply B2R_Bsign_inj; [exact H2|exact F| |exact H3].
    assert (fixed_int n x = Z.abs k) as E.
    { eapply nearest_int_unique; [exact NK|]. assert (Rabs (B2R x) * b10 (Z.of_nat n) = IZR (Z.abs k)) as ->.
      { rewrite abs_IZR, <-Hk, Rabs_mult, (Rabs_pos_eq (b10 _)) by apply bpow_ge_0. reflexivity. }
      split; rewrite Rminus_eq_0, Rabs_R0; lra. }
    assert (D = Rabs (B2R x)) as ED.
    { unfold D. rewrite E, abs_IZR, <-Hk, Rabs_mult, (Rabs_pos_eq (b10 _)) by apply bpow_ge_0.
      rewrite Rmult_assoc, <-bpow_plus, Z.add_opp_diag_r. change (b10 0) with 1. ring. }
    rewrite H4, ED, rnd_format by apply format_abs. symmetry. exact EX.
Qed.
Print Assumptions C94_fixed_read.

(** C94: a number printed with "%g", unless it is tiny, is read as a number that differs by about six units of the sixth digit
    at most and that is printed in the same way *)
Theorem C94_general_read (x : double) : not_tiny x →
  ∃ y, stod (print_g x) = Some y ∧ close6 x y ∧ print_g y = print_g x ∧
    (is_finite x = true → B2R x ≠ 0 → ∃ m e, denotes (print_g x) (Bsign x) m e ∧ (0 < m < 1000000)%Z ∧
       Rabs (IZR m * b10 e - Rabs (B2R x)) <= 5 / 1000000 * Rabs (B2R x)).
Proof.
  intros T. unfold close6. destruct (is_finite x) eqn:F.
  2: { exists x. destruct (not_finite x F) as [->|[s ->]].
    - split; [reflexivity|]. split; [reflexivity|]. split; [reflexivity|]. intros; discriminate.
    - split; [destruct s; reflexivity|]. split; [reflexivity|]. split; [reflexivity|]. intros; discriminate. }
  destruct (T F) as [Z|L].
  { assert (∃ s, x = B754_zero s) as [s ->] by (apply val_zero; split; assumption). exists (B754_zero s).
    split; [destruct s; reflexivity|]. split; [split; [reflexivity|]; split; [reflexivity|]|].
    - cbn [B2R]. rewrite Rminus_0_r, Rabs_R0. lra.
    - split; [reflexivity|]. intros _ N. exfalso. apply N. reflexivity. }
  destruct (gen_spec x F L) as (m & e & y & H1 & H2 & H3 & H4 & H5 & H6 & H7 & H8).
  rewrite Rabs_minus_sym in H3. set (D := IZR m * b10 e) in *.
  exists y. split; [exact H4|]. split; [|split; [exact H8|intros _ _; exists m, e; split; [exact H1|split; [exact H2|exact H3]]]].
  split; [exact H5|]. split; [exact H6|].
  assert (B2R x = cond_Ropp (Bsign x) (Rabs (B2R x))) as EX.
  { destruct x as [s| | |s mx ex B]; try discriminate F; simpl.
    - rewrite Rabs_R0. destruct s; simpl; ring.
    - rewrite <-F2R_Zabs, abs_cond_Zopp. destruct s; simpl; [|reflexivity]. rewrite <-F2R_Zopp. reflexivity. }
  assert (Rabs (B2R y - B2R x) = Rabs (rnd D - Rabs (B2R x))) as ->.
  { rewrite H7. rewrite EX at 1. destruct (Bsign x); simpl; [|reflexivity]. rewrite <-Rabs_Ropp. f_equal. ring. }
  set (v := Rabs (B2R x)) in *.
  assert (b2 (-1022) <= D) as DL.
  { apply Rabs_le_inv in H3. assert (b2 (-1021) = 2 * b2 (-1022)) as E2 by (change (b2 (-1021)) with (b2 (1 + -1022)); rewrite bpow_plus; reflexivity).
    pose proof (bpow_gt_0 radix2 (-1022)). lra. }
  pose proof (b2_1022 D DL) as RD.
  assert (0 < b2 (-53) < / 1000000000) as [U0 U1].
  { split; [apply bpow_gt_0|]. change (b2 (-53)) with (/ IZR (2 ^ 53)). apply Rinv_lt_contravar; [|apply IZR_lt; reflexivity].
    apply Rmult_lt_0_compat; apply IZR_lt; reflexivity. }
  pose proof (bpow_gt_0 radix2 (-1021)). apply Rabs_le_inv in H3. apply Rabs_le_inv in RD. apply Rabs_le.
  assert (b2 (-53) * D <= / 1000000000 * (2 * v)) by (apply Rmult_le_compat; lra). lra.
Qed.
Print Assumptions C94_general_read.

(** * Catalogs *)
Definition p8 := print_f 8.
Definition p6 := print_f 6.
Definition p3 := print_f 3.
(** What is read for a printed number *)
Definition rf (n : nat) (x : double) : double := default x (stod (print_f n x)).
Definition rg (x : double) : double := default x (stod (print_g x)).
Lemma rf_spec n x : (n ≤ 300)%nat → stod (print_f n x) = Some (rf n x) ∧ close (Z.of_nat n) x (rf n x) ∧ print_f n (rf n x) = print_f n x.
Proof. intros Hn. destruct (C94_fixed_read n x Hn) as (y & E & C & P & _). unfold rf. rewrite E. cbn [default]. rewrite <-E at 1. split; [exact E|split; assumption]. Qed.
Lemma rg_spec x : not_tiny x → stod (print_g x) = Some (rg x) ∧ close6 x (rg x) ∧ print_g (rg x) = print_g x.
Proof. intros Hn. destruct (C94_general_read x Hn) as (y & E & C & P & _). unfold rg. rewrite E. cbn [default]. split; [reflexivity|split; assumption]. Qed.

(** Printed numbers contain no separator *)
Definition num_char (c : ascii) : Prop := c ≠ comma ∧ c ≠ quote ∧ c ≠ nl ∧ c ≠ cr.
Lemma num_plain t : (∀ c, c ∈ t → num_char c) → plain_last t.
Proof.
  intros H. split.
  - split; [|split]; intros Q; apply H in Q; destruct Q as (?&?&?&?); congruence.
  - intros Q%last_Some_elem_of. apply H in Q. destruct Q as (?&?&?&?). congruence.
Qed.
Lemma digits_num t c : digits t → c ∈ t → num_char c.
Proof. intros H Hc%H. repeat split; intros ->; vm_compute in Hc; lia. Qed.
Lemma text_num t c : forallb (λ c, bool_decide (c ≠ comma) && bool_decide (c ≠ quote) && bool_decide (c ≠ nl) && bool_decide (c ≠ cr)) t = true → c ∈ t → num_char c.
Proof.
  rewrite forallb_forall. intros H Hc%elem_of_list_In%H. rewrite !andb_true_iff, !bool_decide_eq_true in Hc. unfold num_char. tauto.
Qed.
Lemma denotes_num t s m e c : denotes t s m e → c ∈ t → num_char c.
Proof.
  intros (ip & fp & pt & ex & x & -> & H1 & _ & H2 & H3 & H4 & _) [Hc|[Hc|[Hc|Hc]%elem_of_app]%elem_of_app]%elem_of_app.
  - eapply text_num; [|exact Hc]. destruct s; reflexivity.
  - exact (digits_num _ _ H1 Hc).
  - destruct H3 as [[-> _]| ->]; [by apply elem_of_nil in Hc|]. apply elem_of_app in Hc as [Hc|Hc].
    + eapply text_num; [|exact Hc]. reflexivity.
    + exact (digits_num _ _ H2 Hc).
  - destruct H4 as [[-> _]|(d & Hd & _ & [[-> _]|[-> _]])]; [by apply elem_of_nil in Hc| |];
      (apply elem_of_app in Hc as [Hc|Hc]; [eapply text_num; [|exact Hc]; reflexivity|exact (digits_num _ _ Hd Hc)]).
Qed.
Lemma print_f_plain n x : plain_last (print_f n x).
Proof.
  apply num_plain. intros c Hc. destruct (is_finite x) eqn:F.
  - rewrite print_f_finite in Hc by exact F. eapply denotes_num; [|exact Hc]. apply fixed_denotes. apply fixed_int_spec, F.
  - destruct (not_finite x F) as [->|[[|] ->]]; (eapply text_num; [|exact Hc]; reflexivity).
Qed.
Lemma print_g_plain x : plain_last (print_g x).
Proof.
  apply num_plain. intros c Hc. destruct (is_finite x) eqn:F.
  - destruct (Req_dec (B2R x) 0) as [E|N].
    + assert (∃ s, x = B754_zero s) as [s ->] by (apply val_zero; split; assumption). eapply text_num; [|exact Hc]. destruct s; reflexivity.
    + rewrite print_g_finite in Hc by assumption. pose proof (frac_spec x F) as FS. destruct (frac x) as [num den].
      destruct FS as (_ & Hd & _ & Hn). specialize (Hn N). pose proof (six_spec num den Hn Hd) as S. destruct (six num den) as [d X].
      destruct S as (X0 & d0 & HD & _). destruct (g_denotes (Bsign x) d X ltac:(lia)) as (m & e & H & _). eapply denotes_num; eassumption.
  - destruct (not_finite x F) as [->|[[|] ->]]; (eapply text_num; [|exact Hc]; reflexivity).
Qed.

Definition same_sta (s s' : station double) : Prop :=
  s_id s' = s_id s ∧ close 8 (s_lat s) (s_lat s') ∧ close 8 (s_lon s) (s_lon s') ∧ close 3 (s_elev s) (s_elev s') ∧
  s_net s' = s_net s ∧ s_sta s' = s_sta s ∧ s_loc s' = s_loc s.
Definition same_ev (load : bool) (e e' : event double) : Prop :=
  e_id e' = e_id e ∧ e_time e' = e_time e ∧ close 8 (e_lat e) (e_lat e') ∧ close 8 (e_lon e) (e_lon e') ∧
  close 6 (e_depth e) (e_depth e') ∧ close 3 (e_mag e) (e_mag e') ∧
  match e_reloc e, e_reloc e' with
  | Some (a, b), Some (a', b') => load = true ∧ close6 a a' ∧ close6 b b'
  | Some _, None => load = false
  | None, r => r = None
  end.
Definition same_ph (keep : bool) (p p' : phase double) : Prop :=
  p_ev p' = p_ev p ∧ p_staid p' = p_staid p ∧ p_time p' = p_time p ∧ close6 (p_lower p) (p_lower p') ∧
  close6 (p_upper p) (p_upper p') ∧ p_type p' = p_type p ∧ p_net p' = p_net p ∧ p_sta p' = p_sta p ∧ p_loc p' = p_loc p ∧
  p_cha p' = p_cha p ∧
  match p_reloc p, p_reloc p' with
  | Some (w, a, b), Some (w', a', b') => keep = true ∧ close6 w w' ∧ close6 a a' ∧ close6 b b'
  | Some _, None => keep = false
  | None, r => r = None
  end.
Definition relocated (c : catalog double) : Prop := ∃ k e, c_ev c !! k = Some e ∧ is_Some (e_reloc e).

Section catalog.
(** The stations are written in an order that depends on their ids only, phases are inserted anywhere in the group of an event *)
Context (ord : gset text → list text).
Hypothesis Hord : ∀ d, ord d ≡ₚ elements d.
Context (ins : list (phase double) → phase double → list (phase double)).
Hypothesis Hins : any_place ins.
Definition by_key (m : gmap text (station double)) : list (station double) := omap (λ k, m !! k) (ord (dom m)).
Definition sta_text := write_stations p8 p3 by_key.
Definition ev_text := write_events p8 p6 p3 print_g.
Definition ph_text := write_phases print_g.
Definition read := read_catalog stod B754_nan ins.

Lemma by_key_perm m : by_key m ≡ₚ (map_to_list m).*2.
Proof using Hord.
  unfold by_key. trans (omap (λ k, m !! k) (elements (dom m))); [by rewrite Hord|].
  trans (omap (λ k, m !! k) ((map_to_list m).*1)).
  { apply omap_Permutation. apply NoDup_Permutation; [apply NoDup_elements|apply NoDup_fst_map_to_list|].
    intros k. rewrite elem_of_elements, elem_of_dom, elem_of_list_fmap. split.
    - intros [s H]. exists (k, s). split; [done|]. by apply elem_of_map_to_list.
    - intros ([k' s] & -> & H). exists s. by apply elem_of_map_to_list. }
  enough (omap (λ k, m !! k) ((map_to_list m).*1) = (map_to_list m).*2) as -> by done.
  assert (∀ k s, (k, s) ∈ map_to_list m → m !! k = Some s) as H by (intros k s; apply elem_of_map_to_list).
  induction (map_to_list m) as [|[k s] l IH]; [done|]. cbn. rewrite (H k s) by (by left). cbn. f_equal. apply IH. intros; apply H; by right.
Qed.
Lemma by_key_fmap (f : station double → station double) m : by_key (f <$> m) = f <$> by_key m.
Proof using.
  unfold by_key. rewrite dom_fmap_L. induction (ord (dom m)) as [|k l IH]; [done|]. cbn. rewrite lookup_fmap.
  destruct (m !! k); cbn; rewrite IH; done.
Qed.

Lemma read_rounded (c : catalog double) (load : bool) : writable not_tiny c →
  ∃ c', read (sta_text c) (ev_text c) (ph_text c) load = Some c' ∧
    c_sta c' = round_sta (rf 8) (rf 3) <$> c_sta c ∧ c_ev c' = round_ev (rf 8) (rf 6) (rf 3) rg load <$> c_ev c ∧
    ∀ b, (b = true ↔ load = true ∧ relocated c) → ∀ k, phs c' k ≡ₚ round_ph rg b <$> phs c k.
Proof using Hord Hins.
  intros W.
  assert (∀ n, (n ≤ 300)%nat → ∀ v, plain_last (print_f n v) ∧ stod (print_f n v) = Some (rf n v)) as Hf.
  { intros n Hn v. split; [apply print_f_plain|]. by apply rf_spec. }
  assert (∀ v, plain_last (print_g v) ∧ (not_tiny v → stod (print_g v) = Some (rg v))) as Hg.
  { intros v. split; [apply print_g_plain|]. apply rg_spec. }
  exact (C18_catalog_roundtrip p8 p6 p3 print_g stod B754_nan (rf 8) (rf 6) (rf 3) rg not_tiny (Hf 8%nat ltac:(lia)) (Hf 6%nat ltac:(lia))
    (Hf 3%nat ltac:(lia)) Hg by_key by_key_perm ins Hins c load W).
Qed.

(** C94: a catalog of doubles that is written to files and read again has the same stations, events and phases, with coordinates
    up to 1e-8 degrees, depths up to 1e-6 km, elevations up to 1e-3 m, magnitudes up to 1e-3 and all other numbers up to six digits *)
Theorem C94_catalog (c : catalog double) (load : bool) : writable not_tiny c →
  ∃ c', read (sta_text c) (ev_text c) (ph_text c) load = Some c' ∧
    (∀ k, option_Forall2 same_sta (c_sta c !! k) (c_sta c' !! k)) ∧
    (∀ k, option_Forall2 (same_ev load) (c_ev c !! k) (c_ev c' !! k)) ∧
    ∀ keep, (keep = true ↔ load = true ∧ relocated c) →
      ∀ k, ∃ l, phs c' k ≡ₚ l ∧ Forall2 (same_ph keep) (phs c k) l.
Proof using Hord Hins.
  intros W.
  destruct (read_rounded c load W) as (c' & E & Hs & He & Hp).
  exists c'. split; [exact E|]. destruct W as [WI WS WE WP].
  assert (∀ v, close 8 v (rf 8 v)) as C8 by (intros v; apply (rf_spec 8); lia).
  assert (∀ v, close 6 v (rf 6 v)) as C6 by (intros v; apply (rf_spec 6); lia).
  assert (∀ v, close 3 v (rf 3 v)) as C3 by (intros v; apply (rf_spec 3); lia).
  assert (∀ v, not_tiny v → close6 v (rg v)) as CG by (intros v; apply rg_spec).
  split; [|split].
  - intros k. rewrite Hs, lookup_fmap. destruct (c_sta c !! k) as [s|]; constructor. unfold same_sta, round_sta. simpl. repeat split; try apply C8; try apply C3.
  - intros k. rewrite He, lookup_fmap. destruct (c_ev c !! k) as [e|] eqn:Ek; constructor. destruct (WE k e Ek) as (_ & _ & HR).
    unfold same_ev, round_ev. cbn [e_id e_time e_lat e_lon e_depth e_mag e_reloc].
    split; [done|]. split; [done|]. split; [apply C8|]. split; [apply C8|]. split; [apply C6|]. split; [apply C3|].
    destruct (e_reloc e) as [[a b]|]; destruct load; cbn; try done. destruct (HR a b eq_refl). split; [done|]. split; apply CG; done.
  - intros keep Hk k. exists (round_ph rg keep <$> phs c k). split; [by apply Hp|].
    assert (∀ p, p ∈ phs c k → same_ph keep p (round_ph rg keep p)) as H.
    { intros p Hpk. destruct (WP k p Hpk) as (_ & Hl & Hu & _ & _ & _ & _ & _ & _ & HR). unfold same_ph, round_ph.
      cbn [p_ev p_staid p_time p_lower p_upper p_type p_net p_sta p_loc p_cha p_reloc].
      do 3 (split; [done|]). split; [by apply CG|]. split; [by apply CG|]. do 5 (split; [done|]).
      destruct (p_reloc p) as [[[w a] b]|]; destruct keep; cbn; try done. destruct (HR w a b eq_refl) as (? & ? & ?).
      split; [done|]. split; [by apply CG|]. split; by apply CG. }
    revert H. generalize (phs c k) as q. induction q as [|p q IH]; intros H; [constructor|]. cbn. constructor; [apply H; by left|]. apply IH. intros; apply H; by right.
Qed.

Lemma sorted_events_fmap (f : event double → event double) m : sorted_events (f <$> m) = f <$> sorted_events m.
Proof using.
  unfold sorted_events. rewrite dom_fmap_L. induction (merge_sort N.le (elements (dom m))) as [|k l IH]; [done|]. cbn. rewrite lookup_fmap.
  destruct (m !! k); cbn; rewrite IH; done.
Qed.
Lemma bind_all (c : catalog double) (l : list N) : NoDup l → (∀ k, k ∈ dom (c_ph c) → k ∈ l) → ordered_phases c ≡ₚ (k ← l; phs c k).
Proof using.
  intros Hl Hd. unfold ordered_phases. trans (k ← elements (dom (c_ph c)); phs c k).
  { apply bind_Permutation. apply merge_sort_Permutation. }
  assert (l ≡ₚ filter (λ k, k ∈ dom (c_ph c)) l ++ filter (λ k, ¬ k ∈ dom (c_ph c)) l) as Hsplit.
  { clear. induction l as [|k l IH]; [done|]. destruct (decide (k ∈ dom (c_ph c))) as [H|H].
    - rewrite filter_cons_True by done. rewrite (filter_cons_False (λ k, ¬ k ∈ dom (c_ph c))) by tauto. cbn. by rewrite <-IH.
    - rewrite filter_cons_False by done. rewrite (filter_cons_True (λ k, ¬ k ∈ dom (c_ph c))) by done.
      rewrite <-Permutation_middle. by rewrite <-IH. }
  rewrite Hsplit, bind_app.
  assert ((k ← filter (λ k, ¬ k ∈ dom (c_ph c)) l; phs c k) = []) as ->.
  { assert (∀ k, k ∈ filter (λ k, ¬ k ∈ dom (c_ph c)) l → phs c k = []) as H.
    { intros k [Hk _]%elem_of_list_filter. unfold phs. apply not_elem_of_dom in Hk. by rewrite Hk. }
    clear - H. induction (filter (λ k, ¬ k ∈ dom (c_ph c)) l) as [|k q IH]; [done|]. cbn. rewrite H by (by left). apply IH. intros; apply H; by right. }
  rewrite app_nil_r. apply bind_Permutation. apply NoDup_Permutation; [apply NoDup_elements|by apply NoDup_filter|].
  intros k. rewrite elem_of_elements, elem_of_list_filter. split; [|tauto]. intros H. split; [done|by apply Hd].
Qed.

(** C94: writing what was read gives the same files, except that the phases of an event may be in another order *)
Theorem C94_rewrite (c c' : catalog double) : writable not_tiny c →
  read (sta_text c) (ev_text c) (ph_text c) true = Some c' →
  sta_text c' = sta_text c ∧ ev_text c' = ev_text c ∧
  ∃ header rows rows', ph_text c = csv_lines (header :: rows) ∧ ph_text c' = csv_lines (header :: rows') ∧ rows' ≡ₚ rows.
Proof using Hord Hins.
  intros W E. destruct (read_rounded c true W) as (c2 & E2 & Hs & He & Hp). rewrite E in E2. injection E2 as <-.
  destruct W as [WI WS WE WP].
  assert (∀ v, p8 (rf 8 v) = p8 v) as P8 by (intros v; apply (rf_spec 8); lia).
  assert (∀ v, p6 (rf 6 v) = p6 v) as P6 by (intros v; apply (rf_spec 6); lia).
  assert (∀ v, p3 (rf 3 v) = p3 v) as P3 by (intros v; apply (rf_spec 3); lia).
  assert (∀ v, not_tiny v → print_g (rg v) = print_g v) as PG by (intros v; apply rg_spec).
  assert (any_reloc c' = any_reloc c) as Hr.
  { unfold any_reloc. rewrite He, sorted_events_fmap. induction (sorted_events (c_ev c)) as [|e l IH]; [done|]. cbn [fmap list_fmap existsb]. rewrite IH. f_equal.
    unfold round_ev. cbn [e_reloc]. destruct (e_reloc e); reflexivity. }
  split; [|split].
  - unfold sta_text, write_stations. rewrite Hs, by_key_fmap, <-list_fmap_compose. f_equal. f_equal. apply list_fmap_ext. intros _ s _.
    cbn. unfold st_row, round_sta. cbn. by rewrite !P8, P3.
  - unfold ev_text, write_events. rewrite Hr. f_equal. f_equal. rewrite He, sorted_events_fmap, <-list_fmap_compose. apply list_fmap_ext. intros i e Hi.
    apply elem_of_list_lookup_2, elem_of_sorted_events in Hi as [k Hk]. destruct (WE k e Hk) as (_ & _ & HR).
    cbn [compose]. unfold ev_row, round_ev. cbn [compose e_id e_time e_lat e_lon e_depth e_mag e_reloc]. rewrite !P8, P6, P3. f_equal.
    destruct (any_reloc c); [|done]. destruct (e_reloc e) as [[a b]|]; [|done]. cbn. destruct (HR a b eq_refl). by rewrite !PG.
  - unfold ph_text, write_phases. rewrite Hr. eexists _, _, _. split; [reflexivity|]. split; [reflexivity|].
    set (r := any_reloc c). assert (r = true ↔ true = true ∧ relocated c) as Hk.
    { unfold r, any_reloc. rewrite existsb_exists. split.
      - intros (e & Hi & Hx). split; [done|]. apply elem_of_list_In, elem_of_sorted_events in Hi as [k Hi].
        apply bool_decide_eq_true in Hx. exists k, e. done.
      - intros (_ & k & e & Hi & Hx). exists e. split; [|by apply bool_decide_eq_true]. apply elem_of_list_In, elem_of_sorted_events. eauto. }
    set (L := elements (dom (c_ph c) ∪ dom (c_ph c'))).
    assert (ordered_phases c' ≡ₚ (k ← L; phs c' k)) as L1.
    { apply bind_all; [apply NoDup_elements|]. intros k Q. apply elem_of_elements, elem_of_union. right. exact Q. }
    assert (ordered_phases c ≡ₚ (k ← L; phs c k)) as L2.
    { apply bind_all; [apply NoDup_elements|]. intros k Q. apply elem_of_elements, elem_of_union. left. exact Q. }
    trans (ph_row print_g r <$> (k ← L; phs c' k)); [by apply fmap_Permutation|].
    trans (ph_row print_g r <$> (k ← L; phs c k)); [|symmetry; by apply fmap_Permutation]. clear L1 L2.
    clearbody L. induction L as [|k L IH]; [done|]. cbn [mbind list_bind]. rewrite !fmap_app. apply Permutation_app; [|exact IH].
    trans (ph_row print_g r <$> (round_ph rg r <$> phs c k)); [apply fmap_Permutation, Hp, Hk|]. rewrite <-list_fmap_compose. apply Permutation_refl'. apply list_fmap_ext. intros i p Hi. apply elem_of_list_lookup_2 in Hi.
    destruct (WP k p Hi) as (_ & Hl & Hu & _ & _ & _ & _ & _ & _ & HR). cbn [compose]. unfold ph_row, round_ph.
    cbn [compose p_ev p_staid p_time p_lower p_upper p_type p_net p_sta p_loc p_cha p_reloc]. rewrite !PG by done. f_equal.
    destruct r; [|done]. destruct (p_reloc p) as [[[w a] b]|]; [|done]. cbn. destruct (HR w a b eq_refl) as (? & ? & ?). by rewrite !PG.
Qed.
End catalog.
Print Assumptions C94_catalog.
Print Assumptions C94_rewrite.

(** * Instances and counterexamples *)
Definition num (a b : Z) : double := ddiv (of_Z a) (of_Z b).
Definition sample (tiny : double) : catalog double :=
  Cat {[ tx "N.A." := Sta (tx "N.A.") (num 465 10) (num (-71) 10) (of_Z 1200) (tx "N") (tx "A") [] ]}
      {[ 5%N := Ev 5 1000001%Z (num 1 3) (num 2 3) (num 71 7) (num 31 10) (Some (tiny, num 1 8)) ]}
      {[ 5%N := [Pha 5 (tx "N.A.") 2000000%Z (num 1 10) (num 1 10) (tx "P") (tx "N") (tx "A") [] (tx "HHZ") None
                   (Some (num 1 2, num 1 3, num 1 7))] ]}.
Definition tinyb (x : double) : bool :=
  match x with B754_finite _ _ e _ => (e <? -1000)%Z | _ => false end.
Lemma not_tiny_test (x : double) : tinyb x = false → not_tiny x.
Proof.
  intros H F. destruct x as [s| | |s m e B]; try discriminate F; [left; reflexivity|]. right. simpl in H. apply Z.ltb_ge in H.
  cbn [B2R]. rewrite <-F2R_Zabs, abs_cond_Zopp. unfold F2R. cbn [Fnum Fexp]. change (Z.abs (Z.pos m)) with (Z.pos m).
  assert (1 <= IZR (Z.pos m)) by (apply IZR_le; lia). assert (b2 (-1021) <= b2 e) by (apply bpow_le; lia). pose proof (bpow_gt_0 radix2 e). nra.
Qed.
Lemma sample_writable x : not_tiny x → writable not_tiny (sample x).
Proof.
  intros Hx. split.
  - split.
    + intros k e H. cbn [sample c_ev] in H. apply lookup_singleton_Some in H as [<- <-]. done.
    + intros k s H. cbn [sample c_sta] in H. apply lookup_singleton_Some in H as [<- <-]. done.
    + intros k p H. unfold phs in H. cbn [sample c_ph] in H. destruct (decide (k = 5%N)) as [->|D].
      * rewrite lookup_singleton in H. apply elem_of_list_singleton in H as ->. split; [done|].
        split; simpl; rewrite lookup_singleton; eauto.
      * rewrite lookup_singleton_ne in H by done. by apply elem_of_nil in H.
  - intros k s H. cbn [sample c_sta] in H. apply lookup_singleton_Some in H as [<- <-].
    split; [|split; [|split]]; try (apply good_bool; vm_compute; reflexivity). done.
  - intros k e H. cbn [sample c_ev] in H. apply lookup_singleton_Some in H as [<- <-]. split; [reflexivity|].
    split; [split; [discriminate|reflexivity]|]. cbn [e_reloc]. intros a b Q. apply (inj Some) in Q. apply pair_equal_spec in Q as [<- <-].
    split; [exact Hx|]. apply not_tiny_test. vm_compute. reflexivity.
  - intros k p H. unfold phs in H. cbn [sample c_ph] in H. destruct (decide (k = 5%N)) as [->|D].
    + rewrite lookup_singleton in H. apply elem_of_list_singleton in H as ->.
      cbn [p_time p_lower p_upper p_type p_net p_sta p_loc p_cha p_staid p_reloc].
      split; [split; [discriminate|reflexivity]|]. split; [apply not_tiny_test; vm_compute; reflexivity|].
      split; [apply not_tiny_test; vm_compute; reflexivity|].
      split; [apply good_bool; vm_compute; reflexivity|]. split; [apply good_bool; vm_compute; reflexivity|].
      split; [apply good_bool; vm_compute; reflexivity|]. split; [apply good_bool; vm_compute; reflexivity|].
      split; [split; [apply good_bool; vm_compute; reflexivity|discriminate]|]. split; [reflexivity|].
      intros w a b Q. apply (inj Some) in Q. apply pair_equal_spec in Q as [Q <-]. apply pair_equal_spec in Q as [<- <-].
      split; [|split]; apply not_tiny_test; vm_compute; reflexivity.
    + rewrite lookup_singleton_ne in H by done. by apply elem_of_nil in H.
Qed.
Definition ex_ord (d : gset text) : list text := elements d.
Definition ex_ins (l : list (phase double)) (p : phase double) : list (phase double) := p :: l.
Example C94_sample : ∃ c', read ex_ins (sta_text ex_ord (sample (num 1 4))) (ev_text (sample (num 1 4))) (ph_text (sample (num 1 4))) true = Some c' ∧
  ev_text c' = ev_text (sample (num 1 4)).
Proof.
  assert (writable not_tiny (sample (num 1 4))) as W by (apply sample_writable, not_tiny_test; vm_compute; reflexivity).
  destruct (C94_catalog ex_ord (λ d, reflexivity _) ex_ins (λ l p, reflexivity _) _ true W) as (c' & E & _). exists c'. split; [exact E|].
  apply (C94_rewrite ex_ord (λ d, reflexivity _) ex_ins (λ l p, reflexivity _) _ c' W E).
Qed.
Example C94_texts :
  print_f 8 (num (-1) 3) = tx "-0.33333333" ∧ print_f 3 (num 1 16) = tx "0.062" ∧ print_f 3 (num 3 16) = tx "0.188" ∧
  print_g (num 1 3) = tx "0.333333" ∧ print_g (of_Z 100000) = tx "100000" ∧ print_g (num 19999995 10) = tx "2e+06" ∧
  print_g (num (-1) 100000) = tx "-1e-05" ∧ print_g (num 9999995 10) = tx "1e+06".
Proof. repeat split; vm_compute; reflexivity. Qed.

(** C94 (refuted): every coordinate is read as it was *)
Theorem C94_exact_refuted : ∃ x y : double, Rabs (B2R x) <= 90 ∧ stod (print_f 8 x) = Some y ∧ y ≠ x.
Proof.
  destruct (C94_fixed_read 8 (num 1 3) ltac:(lia)) as (y & E & _).
  assert ((match stod (print_f 8 (num 1 3)) with Some y => Beqb y (num 1 3) | None => true end) = false) as T by (vm_compute; reflexivity).
  rewrite E in T. exists (num 1 3), y. split; [|split; [exact E|]].
  - assert (val (of_Z 1) 1) as V1 by (apply (of_Z_val 1); lia). assert (val (of_Z 3) 3) as V3 by (apply (of_Z_val 3); lia).
    destruct (div_val _ _ _ _ V1 V3) as [_ V].
    + lra.
    + rewrite Rabs_pos_eq by lra. assert (1 <= b2 1000) by (change 1 with (b2 0); apply bpow_le; lia). lra.
    + unfold num. rewrite V. assert (0 <= rnd (1 / 3)) by (apply rnd_pos; lra). rewrite Rabs_pos_eq by assumption.
      assert (rnd (1 / 3) <= rnd 1) as H1 by (apply round_le; [apply flt_valid|apply valid_rnd_N|lra]).
      rewrite (rnd_format 1) in H1 by (change 1 with (b2 0); apply generic_format_bpow; unfold FLT_exp; lia). lra.
  - intros ->. assert (Beqb (num 1 3) (num 1 3) = true) as T' by (vm_compute; reflexivity). congruence.
Qed.
Print Assumptions C94_exact_refuted.

(** C94 (refuted): what was written can be read. A very small residual is printed as a number that std::stod refuses *)
Definition tiny : double := ddiv (num 1 (10 ^ 300)) (of_Z (10 ^ 20)).
Theorem C94_tiny_refuted : ∃ x : double, is_finite x = true ∧ print_g x = tx "9.99989e-321" ∧ stod (print_g x) = None.
Proof. exists tiny. split; [vm_compute; reflexivity|]. split; [vm_compute; reflexivity|]. vm_compute. reflexivity. Qed.
Print Assumptions C94_tiny_refuted.

(** C94 (refuted): a catalog that was written can be read. With a very small residual the files are refused *)
Theorem C94_unreadable_refuted : ∃ c : catalog double, integrity c ∧
  read ex_ins (sta_text ex_ord c) (ev_text c) (ph_text c) true = None ∧
  is_Some (read ex_ins (sta_text ex_ord c) (ev_text c) (ph_text c) false).
Proof.
  exists (sample tiny). split; [|split].
  - assert (writable not_tiny (sample (num 1 4))) as [W _ _ _] by (apply sample_writable, not_tiny_test; vm_compute; reflexivity).
    destruct W as [W1 W2 W3]. split.
    + intros k e H. cbn [sample c_ev] in H. apply lookup_singleton_Some in H as [<- <-]. done.
    + exact W2.
    + intros k p H. destruct (W3 k p H) as (H1 & H2 & H3). split; [exact H1|]. split; [|exact H3].
      clear -H2. destruct H2 as [e H2]. cbn [sample c_ev] in H2. apply lookup_singleton_Some in H2 as [<- _]. eexists. apply lookup_singleton.
  - vm_compute. reflexivity.
  - assert ((match read ex_ins (sta_text ex_ord (sample tiny)) (ev_text (sample tiny)) (ph_text (sample tiny)) false with Some _ => true | None => false end) = true) as T by (vm_compute; reflexivity).
    destruct (read _ _ _ _ _); [eexists; reflexivity|discriminate].
Qed.
Print Assumptions C94_unreadable_refuted.
