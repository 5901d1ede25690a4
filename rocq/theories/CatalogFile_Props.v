(** Theorems about catalog files: C18. *)
From Coq Require Import Ascii.
From stdpp Require Import gmap list strings sorting.
From Verif Require Import Index_Model Csv_Model Csv_Props Table_Model Table_Proofs Catalog_Model Catalog_Props CatalogFile_Model.
From Verif Require Time_Model Time_Props Time_Proofs.
Local Open Scope nat_scope.

(** ** Specification *)

(** Text without separators, quotes, line ends and NUL; the last field of a line
    must not end in CR. *)
Definition good (t : text) : Prop := plain t ∧ zero ∉ t.
Definition good_last (t : text) : Prop := good t ∧ last t ≠ Some cr.

Section spec.
Context {V : Type} (r8 r6 r3 rg : V → V) (gok : V → Prop).
(** The catalog with its numbers rounded to the printed precision. *)
Definition round_sta (s : station V) : station V :=
  Sta (s_id s) (r8 (s_lat s)) (r8 (s_lon s)) (r3 (s_elev s)) (s_net s) (s_sta s) (s_loc s).
Definition round_ev (reloc : bool) (e : event V) : event V :=
  Ev (e_id e) (e_time e) (r8 (e_lat e)) (r8 (e_lon e)) (r6 (e_depth e)) (r3 (e_mag e))
     (if reloc then (λ x : V * V, (rg x.1, rg x.2)) <$> e_reloc e else None).
Definition round_ph (reloc : bool) (p : phase V) : phase V :=
  Pha (p_ev p) (p_staid p) (p_time p) (rg (p_lower p)) (rg (p_upper p)) (p_type p) (p_net p) (p_sta p) (p_loc p)
      (p_cha p) None
      (if reloc then (λ x : V * V * V, (rg x.1.1, rg x.1.2, rg x.2)) <$> p_reloc p else None).

Definition good_time (t : Z) : Prop := (0 ≤ t < Time_Props.year_10000)%Z.
(** What can be written faithfully. *)
Record writable (c : catalog V) : Prop := Writable {
  w_int : integrity c;
  w_sta : ∀ k s, c_sta c !! k = Some s → good (s_net s) ∧ good (s_sta s) ∧ good_last (s_loc s);
  w_ev : ∀ k e, c_ev c !! k = Some e → (k < 2 ^ 32)%N ∧ good_time (e_time e) ∧
           ∀ a b, e_reloc e = Some (a, b) → gok a ∧ gok b;
  w_ph : ∀ k p, p ∈ phs c k → good_time (p_time p) ∧ gok (p_lower p) ∧ gok (p_upper p) ∧
           good (p_type p) ∧ good (p_net p) ∧ good (p_sta p) ∧ good (p_loc p) ∧ good_last (p_cha p) ∧
           p_staid p = code_id (p_net p) (p_sta p) (p_loc p) ∧
           ∀ w a b, p_reloc p = Some (w, a, b) → gok w ∧ gok a ∧ gok b }.
End spec.

(** ** Text *)
Lemma c_str_good t : zero ∉ t → c_str t = t.
Proof.
  induction t as [|a t IH]; [done|]. intros [H1 H2]%not_elem_of_cons. simpl.
  rewrite decide_False by congruence. by rewrite IH.
Qed.
Lemma plain_app a b : plain a → plain b → plain (a ++ b).
Proof. unfold plain. rewrite !not_elem_of_app. tauto. Qed.
Lemma plain_char a : a ≠ comma → a ≠ quote → a ≠ nl → plain [a].
Proof. unfold plain. rewrite !elem_of_list_singleton. intuition. Qed.
Lemma digits_plain' d : Forall (λ c, Time_Model.is_dig c = true) d → plain d.
Proof.
  intros H. apply digits_plain. apply forallb_forall. intros x Hx. rewrite Forall_forall in H. apply H.
  by apply elem_of_list_In.
Qed.
Lemma dec_plain n : (0 ≤ n)%Z → plain (Time_Model.dec n).
Proof. intros Hn. rewrite <-(Z2N.id n Hn). apply put_u_plain. Qed.
Lemma repeat0_plain k : plain (repeat "0"%char k).
Proof.
  induction k; [repeat split; apply not_elem_of_nil|]. simpl. apply (plain_app [_]); [|done].
  apply plain_char; discriminate.
Qed.
Lemma fmt_plain w n : plain (Time_Model.fmt w n).
Proof.
  unfold Time_Model.fmt, Time_Model.zpad. destruct (Z.ltb_spec n 0).
  - apply (plain_app [_]); [apply plain_char; discriminate|].
    apply plain_app; [apply repeat0_plain|apply dec_plain; lia].
  - apply plain_app; [apply repeat0_plain|apply dec_plain; lia].
Qed.
Lemma drop_zeros_sub s a : a ∈ Time_Model.drop_zeros s → a ∈ s.
Proof.
  induction s as [|b s IH]; [done|]. simpl. destruct (ascii_dec b "0"); [|done]. intros H. right. by apply IH.
Qed.
Lemma strip0_plain s : plain s → plain (Time_Model.strip0 s).
Proof.
  assert (∀ a, a ∈ Time_Model.strip0 s → a ∈ s) as H.
  { intros a. unfold Time_Model.strip0. rewrite !elem_of_list_In, <-in_rev, <-elem_of_list_In.
    intros Ha%drop_zeros_sub. apply elem_of_list_In in Ha. by rewrite <-in_rev in Ha. }
  unfold plain. intuition.
Qed.
Lemma to_string_plain t : plain (Time_Model.to_string t).
Proof.
  unfold Time_Model.to_string.
  repeat first [apply plain_app; [apply fmt_plain|] | apply plain_app; [apply plain_char; discriminate|] ].
  apply plain_app; [|apply plain_char; discriminate].
  unfold Time_Model.usec_str. destruct (_ =? 0)%Z; [apply (repeat0_plain 4)|apply strip0_plain, fmt_plain].
Qed.
Lemma get_time_ok t : good_time t → get_time (Time_Model.to_string t) = Some t.
Proof. intros H. unfold get_time. by rewrite Time_Props.C09_text_roundtrip. Qed.

Lemma cell_at header row j name v :
  NoDup header → header !! j = Some (tx name) → row !! j = Some v → cell (format_row header row) name = Some v.
Proof.
  intros H1 H2 H3. unfold cell. rewrite (format_row_at header row j) by done. f_equal. by apply nth_lookup_Some.
Qed.
Lemma cell_none header row name : tx name ∉ header → cell (format_row header row) name = None.
Proof. apply format_row_none. Qed.

Lemma nodup_st : NoDup st_header.
Proof. apply (bool_decide_unpack _). vm_compute. exact I. Qed.
Lemma nodup_ev r : NoDup (ev_header r).
Proof. destruct r; apply (bool_decide_unpack _); vm_compute; exact I. Qed.
Lemma nodup_ph r : NoDup (ph_header r).
Proof. destruct r; apply (bool_decide_unpack _); vm_compute; exact I. Qed.
Lemma plain_names (l : list text) : forallb (λ t, bool_decide (plain t)) l = true → Forall plain l.
Proof.
  intros H. rewrite forallb_forall in H. apply Forall_forall. intros x Hx. eapply bool_decide_eq_true_1, H.
  by apply elem_of_list_In.
Qed.
Lemma plain_st_header : plain_row st_header.
Proof. split; [done|]. split; [apply plain_names; vm_compute; done|]. intros t [= <-]. done. Qed.
Lemma plain_ev_header r : plain_row (ev_header r).
Proof. destruct r; (split; [done|]; split; [apply plain_names; vm_compute; done|]; intros t [= <-]; done). Qed.
Lemma plain_ph_header r : plain_row (ph_header r).
Proof. destruct r; (split; [done|]; split; [apply plain_names; vm_compute; done|]; intros t [= <-]; done). Qed.

Lemma stb_true : str_to_bool (tx "true") = true.
Proof. vm_compute. reflexivity. Qed.
Lemma stb_false : str_to_bool (tx "false") = false.
Proof. vm_compute. reflexivity. Qed.
Lemma plain_true : plain (tx "true").
Proof. apply (bool_decide_unpack _). vm_compute. exact I. Qed.
Lemma plain_false : plain (tx "false").
Proof. apply (bool_decide_unpack _). vm_compute. exact I. Qed.
Lemma plain_nil : plain [].
Proof. apply (bool_decide_unpack _). vm_compute. exact I. Qed.
Lemma no_relocated : tx "relocated" ∉ ev_header false.
Proof. apply (bool_decide_unpack _). vm_compute. exact I. Qed.
Lemma no_usedInReloc : tx "usedInReloc" ∉ ph_header false.
Proof. apply (bool_decide_unpack _). vm_compute. exact I. Qed.

Section proofs.
Context {V : Type} (pf8 pf6 pf3 pg : V → text) (stod : text → option V) (nan : V).
Context (r8 r6 r3 rg : V → V) (gok : V → Prop).
(** Printed numbers contain no separators and are read back as rounded values;
    with "%g" only for values that std::stod accepts (not the subnormal ones). *)
Hypothesis H8 : ∀ v, plain_last (pf8 v) ∧ stod (pf8 v) = Some (r8 v).
Hypothesis H6 : ∀ v, plain_last (pf6 v) ∧ stod (pf6 v) = Some (r6 v).
Hypothesis H3 : ∀ v, plain_last (pf3 v) ∧ stod (pf3 v) = Some (r3 v).
Hypothesis Hg : ∀ v, plain_last (pg v) ∧ (gok v → stod (pg v) = Some (rg v)).
Context (sord : gmap text (station V) → list (station V)).
Hypothesis Hsord : ∀ m, sord m ≡ₚ (map_to_list m).*2.
Context (ins : list (phase V) → phase V → list (phase V)).
Hypothesis Hins : any_place ins.

Ltac row_plain := split; [done|]; split; [repeat (apply Forall_cons; split); try apply Forall_nil; try done;
    first [apply put_u_plain|apply to_string_plain|apply H8|apply H6|apply H3|apply Hg|apply plain_true|apply plain_false|apply plain_nil|idtac] |].

Lemma station_row s :
  good (s_net s) → good (s_sta s) → good_last (s_loc s) → s_id s = sta_id s →
  plain_row (st_row pf8 pf3 s) ∧
  get_station stod (format_row st_header (st_row pf8 pf3 s)) = Some (round_sta r8 r3 s).
Proof.
  intros [A1 A2] [B1 B2] [[C1 C2] C3] Hid. unfold st_row. rewrite !c_str_good by done. split.
  - row_plain. by intros t [= <-].
  - set (R := format_row _ _).
    assert (cell R "latitude" = Some (pf8 (s_lat s))) as E1 by (by apply (cell_at _ _ 0); [apply nodup_st|..]).
    assert (cell R "longitude" = Some (pf8 (s_lon s))) as E2 by (by apply (cell_at _ _ 1); [apply nodup_st|..]).
    assert (cell R "elevation" = Some (pf3 (s_elev s))) as E3 by (by apply (cell_at _ _ 2); [apply nodup_st|..]).
    assert (cell R "networkCode" = Some (s_net s)) as E4 by (by apply (cell_at _ _ 3); [apply nodup_st|..]).
    assert (cell R "stationCode" = Some (s_sta s)) as E5 by (by apply (cell_at _ _ 4); [apply nodup_st|..]).
    assert (cell R "locationCode" = Some (s_loc s)) as E6 by (by apply (cell_at _ _ 5); [apply nodup_st|..]).
    clearbody R. unfold get_station, num. rewrite E1, E2, E3, E4, E5, E6. cbn [mbind option_bind].
    rewrite (proj2 (H8 _)). cbn [mbind option_bind]. rewrite (proj2 (H8 _)). cbn [mbind option_bind].
    rewrite (proj2 (H3 _)). cbn [mbind option_bind]. unfold round_sta. by rewrite Hid.
Qed.

Lemma get_event_eq load R s1 s2 id tm lat lon dep mag rel :
  cell R "id" = Some s1 → stoul s1 = Some id → cell R "isotime" = Some s2 → get_time s2 = Some tm →
  num stod R "latitude" = Some lat → num stod R "longitude" = Some lon → num stod R "depth" = Some dep →
  num stod R "magnitude" = Some mag →
  (if load && bool_decide (is_Some (cell R "relocated")) && str_to_bool (default [] (cell R "relocated"))
   then (s ← num stod R "startRms"; f ← num stod R "finalRms"; Some (Some (s, f)))
   else Some None) = Some rel →
  get_event stod nan load R = Some (Ev (u32 id) tm lat lon dep mag rel).
Proof.
  intros E1 E1' E2 E2' E3 E4 E5 E6 E7. unfold get_event. rewrite E7, E1, E2, E3, E4, E5, E6. cbn [mbind option_bind].
  rewrite E1', E2'. done.
Qed.
Lemma get_phase_eq load R s1 s2 id tm lo up ty n s l ch rel :
  cell R "eventId" = Some s1 → stoul s1 = Some id → cell R "isotime" = Some s2 → get_time s2 = Some tm →
  num stod R "lowerUncertainty" = Some lo → num stod R "upperUncertainty" = Some up → cell R "type" = Some ty →
  cell R "networkCode" = Some n → cell R "stationCode" = Some s → cell R "locationCode" = Some l →
  cell R "channelCode" = Some ch →
  (if load && bool_decide (is_Some (cell R "usedInReloc")) && str_to_bool (default [] (cell R "usedInReloc"))
   then (s ← num stod R "startResidual"; f ← num stod R "finalResidual"; w ← num stod R "weight"; Some (Some (w, s, f)))
   else Some None) = Some rel →
  get_phase stod nan load R = Some (Pha (u32 id) (code_id n s l) tm lo up ty n s l ch None rel).
Proof.
  intros E1 E1' E2 E2' E3 E4 E5 E6 E7 E8 E9 E10. unfold get_phase. rewrite E10, E1, E2, E3, E4, E5, E6, E7, E8, E9.
  cbn [mbind option_bind]. rewrite E1', E2'. done.
Qed.
Lemma num_eq R name t v : cell R name = Some t → stod t = Some v → num stod R name = Some v.
Proof. intros H1 H2. unfold num. rewrite H1. done. Qed.

Lemma event_row load r e :
  (e_id e < 2 ^ 32)%N → good_time (e_time e) → (∀ a b, e_reloc e = Some (a, b) → gok a ∧ gok b) →
  (r = false → e_reloc e = None) →
  plain_row (ev_row pf8 pf6 pf3 pg r e) ∧
  get_event stod nan load (format_row (ev_header r) (ev_row pf8 pf6 pf3 pg r e)) = Some (round_ev r8 r6 r3 rg load e).
Proof.
  intros Hid Ht Hrel Hr. split.
  - unfold ev_row. destruct r; simpl.
    + destruct (e_reloc e) as [[a b]|].
      * row_plain. intros t [= <-]. apply Hg.
      * row_plain.  
        by intros t [= <-].
    + row_plain. intros t [= <-]. apply H3.
  - set (R := format_row _ _).
    assert (cell R "id" = Some (put_u (e_id e))) as E1 by (by apply (cell_at _ _ 0); [apply nodup_ev|..]).
    assert (cell R "isotime" = Some (Time_Model.to_string (e_time e))) as E2 by (by apply (cell_at _ _ 1); [apply nodup_ev|..]).
    assert (cell R "latitude" = Some (pf8 (e_lat e))) as E3 by (by apply (cell_at _ _ 2); [apply nodup_ev|..]).
    assert (cell R "longitude" = Some (pf8 (e_lon e))) as E4 by (by apply (cell_at _ _ 3); [apply nodup_ev|..]).
    assert (cell R "depth" = Some (pf6 (e_depth e))) as E5 by (by apply (cell_at _ _ 4); [apply nodup_ev|..]).
    assert (cell R "magnitude" = Some (pf3 (e_mag e))) as E6 by (by apply (cell_at _ _ 5); [apply nodup_ev|..]).
    assert ((if load && bool_decide (is_Some (cell R "relocated")) && str_to_bool (default [] (cell R "relocated"))
         then (s ← num stod R "startRms"; f ← num stod R "finalRms"; Some (Some (s, f)))
         else Some None) = Some (if load then (λ x : V * V, (rg x.1, rg x.2)) <$> e_reloc e else None)) as E7.
    { destruct load; [|done]. rewrite andb_true_l. destruct r.
      - destruct (e_reloc e) as [[a b]|] eqn:E.
        + assert (cell R "relocated" = Some (tx "true")) as F1
            by (apply (cell_at _ _ 6); [apply nodup_ev|done|unfold ev_row; rewrite E; done]).
          assert (cell R "startRms" = Some (pg a)) as F2
            by (apply (cell_at _ _ 7); [apply nodup_ev|done|unfold ev_row; rewrite E; done]).
          assert (cell R "finalRms" = Some (pg b)) as F3
            by (apply (cell_at _ _ 8); [apply nodup_ev|done|unfold ev_row; rewrite E; done]).
          clearbody R. destruct (Hrel a b eq_refl) as [Ga Gb]. rewrite F1, bool_decide_eq_true_2 by eauto.
          cbn [from_option id]. unfold id. rewrite stb_true. cbn [andb].
          unfold num. rewrite F2, F3. cbn [mbind option_bind].
          rewrite (proj2 (Hg a) Ga). cbn [mbind option_bind]. by rewrite (proj2 (Hg b) Gb).
        + assert (cell R "relocated" = Some (tx "false")) as F1
            by (apply (cell_at _ _ 6); [apply nodup_ev|done|unfold ev_row; rewrite E; done]).
          clearbody R. rewrite F1. cbn [from_option id]. unfold id. rewrite stb_false. by rewrite andb_false_r.
      - assert (cell R "relocated" = None) as F1.
        { apply cell_none, no_relocated. }
        clearbody R. rewrite F1. rewrite bool_decide_eq_false_2 by (by intros [? ?]). simpl. by rewrite Hr. }
    clearbody R. assert (e_id e < 2 ^ 64)%N as Hid' by lia.
    rewrite (get_event_eq load R _ _ _ _ _ _ _ _ _ E1 (stoul_put_u _ Hid') E2 (get_time_ok _ Ht)
      (num_eq _ _ _ _ E3 (proj2 (H8 _))) (num_eq _ _ _ _ E4 (proj2 (H8 _))) (num_eq _ _ _ _ E5 (proj2 (H6 _)))
      (num_eq _ _ _ _ E6 (proj2 (H3 _))) E7).
    unfold u32. rewrite N.mod_small by exact Hid. reflexivity.
Qed.

Lemma phase_row load r p :
  (p_ev p < 2 ^ 32)%N → good_time (p_time p) → gok (p_lower p) → gok (p_upper p) →
  good (p_type p) → good (p_net p) → good (p_sta p) → good (p_loc p) → good_last (p_cha p) →
  p_staid p = code_id (p_net p) (p_sta p) (p_loc p) →
  (∀ w a b, p_reloc p = Some (w, a, b) → gok w ∧ gok a ∧ gok b) →
  plain_row (ph_row pg r p) ∧
  get_phase stod nan load (format_row (ph_header r) (ph_row pg r p)) = Some (round_ph rg (load && r) p).
Proof.
  intros Hid Ht Gl Gu [A1 A2] [B1 B2] [C1 C2] [D1 D2] [[F1 F2] F3] Hsid Hrel. split.
  - unfold ph_row. rewrite !c_str_good by done. destruct r; simpl.
    + destruct (p_reloc p) as [[[w a] b]|].
      * row_plain. intros t [= <-]. apply Hg.
      * row_plain.  
         by intros t [= <-].
    + row_plain. by intros t [= <-].
  - set (R := format_row _ _).
    assert (cell R "eventId" = Some (put_u (p_ev p))) as E1 by (by apply (cell_at _ _ 0); [apply nodup_ph|..]).
    assert (cell R "isotime" = Some (Time_Model.to_string (p_time p))) as E2 by (by apply (cell_at _ _ 1); [apply nodup_ph|..]).
    assert (cell R "lowerUncertainty" = Some (pg (p_lower p))) as E3 by (by apply (cell_at _ _ 2); [apply nodup_ph|..]).
    assert (cell R "upperUncertainty" = Some (pg (p_upper p))) as E4 by (by apply (cell_at _ _ 3); [apply nodup_ph|..]).
    assert (cell R "type" = Some (p_type p)) as E5
      by (apply (cell_at _ _ 4); [apply nodup_ph|done|unfold ph_row; rewrite !c_str_good by done; done]).
    assert (cell R "networkCode" = Some (p_net p)) as E6
      by (apply (cell_at _ _ 5); [apply nodup_ph|done|unfold ph_row; rewrite !c_str_good by done; done]).
    assert (cell R "stationCode" = Some (p_sta p)) as E7
      by (apply (cell_at _ _ 6); [apply nodup_ph|done|unfold ph_row; rewrite !c_str_good by done; done]).
    assert (cell R "locationCode" = Some (p_loc p)) as E8
      by (apply (cell_at _ _ 7); [apply nodup_ph|done|unfold ph_row; rewrite !c_str_good by done; done]).
    assert (cell R "channelCode" = Some (p_cha p)) as E9
      by (apply (cell_at _ _ 8); [apply nodup_ph|done|unfold ph_row; rewrite !c_str_good by done; done]).
    assert ((if load && bool_decide (is_Some (cell R "usedInReloc")) && str_to_bool (default [] (cell R "usedInReloc"))
         then (s ← num stod R "startResidual"; f ← num stod R "finalResidual"; w ← num stod R "weight"; Some (Some (w, s, f)))
         else Some None)
       = Some (if load && r then (λ x : V * V * V, (rg x.1.1, rg x.1.2, rg x.2)) <$> p_reloc p else None)) as E10.
    { destruct load; [|done]. rewrite !andb_true_l. destruct r.
      - destruct (p_reloc p) as [[[w a] b]|] eqn:E.
        + assert (cell R "usedInReloc" = Some (tx "true")) as G1
            by (apply (cell_at _ _ 9); [apply nodup_ph|done|unfold ph_row; rewrite E; done]).
          assert (cell R "weight" = Some (pg w)) as G2
            by (apply (cell_at _ _ 10); [apply nodup_ph|done|unfold ph_row; rewrite E; done]).
          assert (cell R "startResidual" = Some (pg a)) as G3
            by (apply (cell_at _ _ 11); [apply nodup_ph|done|unfold ph_row; rewrite E; done]).
          assert (cell R "finalResidual" = Some (pg b)) as G4
            by (apply (cell_at _ _ 12); [apply nodup_ph|done|unfold ph_row; rewrite E; done]).
          clearbody R. destruct (Hrel w a b eq_refl) as (Gw & Ga & Gb). rewrite G1, bool_decide_eq_true_2 by eauto.
          cbn [from_option id]. unfold id. rewrite stb_true. cbn [andb].
          unfold num. rewrite G2, G3, G4. cbn [mbind option_bind].
          rewrite (proj2 (Hg a) Ga). cbn [mbind option_bind]. rewrite (proj2 (Hg b) Gb). cbn [mbind option_bind].
          by rewrite (proj2 (Hg w) Gw).
        + assert (cell R "usedInReloc" = Some (tx "false")) as G1
            by (apply (cell_at _ _ 9); [apply nodup_ph|done|unfold ph_row; rewrite E; done]).
          clearbody R. rewrite G1. cbn [from_option id]. unfold id. rewrite stb_false. by rewrite andb_false_r.
      - assert (cell R "usedInReloc" = None) as G1.
        { apply cell_none, no_usedInReloc. }
        clearbody R. rewrite G1. rewrite bool_decide_eq_false_2 by (by intros [? ?]). done. }
    clearbody R. assert (p_ev p < 2 ^ 64)%N as Hid' by lia.
    rewrite (get_phase_eq load R _ _ _ _ _ _ _ _ _ _ _ _ E1 (stoul_put_u _ Hid') E2 (get_time_ok _ Ht)
      (num_eq _ _ _ _ E3 (proj2 (Hg _) Gl)) (num_eq _ _ _ _ E4 (proj2 (Hg _) Gu)) E5 E6 E7 E8 E9 E10).
    unfold u32. rewrite N.mod_small by exact Hid. unfold round_ph. rewrite Hsid. reflexivity.
Qed.

(** ** Reading tables *)
Lemma read_all_spec {A B : Type} (get : gmap text text → option A) (put : catalog V → A → option (catalog V))
    (putb : catalog V → A → catalog V) (P : catalog V → Prop) (rows : list B) (fmt : B → gmap text text) (val : B → A) :
  (∀ b, b ∈ rows → get (fmt b) = Some (val b)) →
  (∀ c b, P c → b ∈ rows → put c (val b) = Some (putb c (val b)) ∧ P (putb c (val b))) →
  ∀ c, P c → read_all get put c (fmt <$> rows) = Some (fold_left putb (val <$> rows) c).
Proof.
  induction rows as [|b rows IH]; intros Hget Hput c Pc; [done|].
  rewrite !fmap_cons. cbn [read_all fold_left].
  rewrite (Hget b) by (by left). cbn [mbind option_bind].
  destruct (Hput c b Pc) as [-> P']; [by left|]. cbn [mbind option_bind]. apply IH; [..|done].
  - intros. apply Hget. by right.
  - intros. apply Hput; [done|by right].
Qed.
Lemma fold_put_station (l : list (station V)) : ∀ c k,
  c_ev (fold_left put_station l c) = c_ev c ∧ c_ph (fold_left put_station l c) = c_ph c ∧
  (NoDup (s_id <$> l) → ∀ s, c_sta (fold_left put_station l c) !! k = Some s ↔
     (s ∈ l ∧ s_id s = k) ∨ (k ∉ s_id <$> l) ∧ c_sta c !! k = Some s).
Proof.
  induction l as [|x l IH]; intros c k.
  { split; [done|]. split; [done|]. intros _ s. simpl. rewrite elem_of_nil. split; [|by intros [[? _]|[_ ?]]].
    intros H. right. split; [apply not_elem_of_nil|done]. }
  simpl. destruct (IH (put_station c x) k) as (-> & -> & H). split; [done|]. split; [done|].
  intros [N1 N2]%NoDup_cons s. rewrite H by done. unfold put_station. cbn [c_sta].
  rewrite lookup_insert_Some, elem_of_cons, not_elem_of_cons. split.
  - intros [[H1 H2]|[H1 [[H2 H4]|[H2 H4]]]].
    + left. split; [by right|done].
    + left. subst. split; [by left|done].
    + right. split; [|done]. split; [congruence|done].
  - intros [[[->|H1] H2]|[[H1 H2] H4]].
    + right. subst k. split; [done|]. by left.
    + left. done.
    + right. split; [done|]. right. split; congruence.
Qed.
Lemma fold_put_event (l : list (event V)) : ∀ c k,
  c_sta (fold_left put_event l c) = c_sta c ∧ c_ph (fold_left put_event l c) = c_ph c ∧
  (NoDup (e_id <$> l) → ∀ s, c_ev (fold_left put_event l c) !! k = Some s ↔
     (s ∈ l ∧ e_id s = k) ∨ (k ∉ e_id <$> l) ∧ c_ev c !! k = Some s).
Proof.
  induction l as [|x l IH]; intros c k.
  { split; [done|]. split; [done|]. intros _ s. simpl. rewrite elem_of_nil. split; [|by intros [[? _]|[_ ?]]].
    intros H. right. split; [apply not_elem_of_nil|done]. }
  simpl. destruct (IH (put_event c x) k) as (-> & -> & H). split; [done|]. split; [done|].
  intros [N1 N2]%NoDup_cons s. rewrite H by done. unfold put_event. cbn [c_ev].
  rewrite lookup_insert_Some, elem_of_cons, not_elem_of_cons. split.
  - intros [[H1 H2]|[H1 [[H2 H4]|[H2 H4]]]].
    + left. split; [by right|done].
    + left. subst. split; [by left|done].
    + right. split; [|done]. split; [congruence|done].
  - intros [[[->|H1] H2]|[[H1 H2] H4]].
    + right. subst k. split; [done|]. by left.
    + left. done.
    + right. split; [done|]. right. split; congruence.
Qed.

Lemma elem_of_ordered_phases (c : catalog V) p :
  integrity c → p ∈ ordered_phases c ↔ p ∈ phs c (p_ev p).
Proof.
  intros I. unfold ordered_phases. rewrite elem_of_list_bind. split.
  - intros (k & Hp & _). destruct (in_ph _ I _ _ Hp) as [<- _]. done.
  - intros Hp. exists (p_ev p). split; [done|]. rewrite merge_sort_Permutation, elem_of_elements.
    apply elem_of_dom. unfold phs in Hp. destruct (c_ph c !! p_ev p); [eauto|]. by apply elem_of_nil in Hp.
Qed.
Lemma ordered_phases_at (c : catalog V) k :
  integrity c → filter (λ p, p_ev p = k) (ordered_phases c) = phs c k.
Proof.
  intros I. unfold ordered_phases.
  assert (NoDup (merge_sort N.le (elements (dom (c_ph c))))) as Hn
    by (rewrite merge_sort_Permutation; apply NoDup_elements).
  assert (k ∉ merge_sort N.le (elements (dom (c_ph c))) → phs c k = []) as Hnot.
  { rewrite merge_sort_Permutation, elem_of_elements, not_elem_of_dom. intros E. unfold phs. by rewrite E. }
  revert Hn Hnot. generalize (merge_sort N.le (elements (dom (c_ph c)))) as l.
  induction l as [|k' l IH]; intros Hn Hnot.
  { rewrite Hnot by apply not_elem_of_nil. done. }
  apply NoDup_cons in Hn as [N1 N2]. rewrite bind_cons, filter_app.
  destruct (decide (k' = k)) as [->|D].
  - assert (filter (λ p, p_ev p = k) (phs c k) = phs c k) as ->.
    { assert (∀ p, p ∈ phs c k → p_ev p = k) as H by (intros p Hp; by destruct (in_ph _ I _ _ Hp)).
      revert H. generalize (phs c k) as q. induction q as [|p q IHq]; intros H; [done|].
      rewrite filter_cons_True by (apply H; by left). f_equal. apply IHq. intros. apply H. by right. }
    assert (filter (λ p, p_ev p = k) (k0 ← l; phs c k0) = []) as ->; [|apply app_nil_r].
    assert (∀ p, p ∈ (k0 ← l; phs c k0) → p_ev p ≠ k) as H.
    { intros p (k' & Hp & Hl)%elem_of_list_bind. destruct (in_ph _ I _ _ Hp) as [-> _]. by intros ->. }
    revert H. generalize (k0 ← l; phs c k0) as q. induction q as [|p q IHq]; intros H; [done|].
    rewrite filter_cons_False by (apply H; by left). apply IHq. intros. apply H. by right.
  - assert (filter (λ p, p_ev p = k) (phs c k') = []) as ->.
    { assert (∀ p, p ∈ phs c k' → p_ev p ≠ k) as H by (intros p Hp; destruct (in_ph _ I _ _ Hp) as [-> _]; done).
      revert H. generalize (phs c k') as q. induction q as [|p q IHq]; intros H; [done|].
      rewrite filter_cons_False by (apply H; by left). apply IHq. intros. apply H. by right. }
    simpl. apply IH; [done|]. intros H. apply Hnot. by intros [?|?]%elem_of_cons.
Qed.

(** C18: reading the three files gives the catalog with rounded numbers; relocation
    information of phases survives only if some event has been relocated. *)
Theorem C18_catalog_roundtrip (c : catalog V) (load : bool) :
  writable gok c →
  ∃ c', read_catalog stod nan ins (write_stations pf8 pf3 sord c) (write_events pf8 pf6 pf3 pg c)
          (write_phases pg c) load = Some c' ∧
    c_sta c' = round_sta r8 r3 <$> c_sta c ∧
    c_ev c' = round_ev r8 r6 r3 rg load <$> c_ev c ∧
    ∀ b, (b = true ↔ load = true ∧ ∃ k e, c_ev c !! k = Some e ∧ is_Some (e_reloc e)) →
      ∀ k, phs c' k ≡ₚ round_ph rg b <$> phs c k.
Proof.
  intros [I Ws We Wp]. unfold read_catalog, write_stations, write_events, write_phases.
  set (r := any_reloc c).
  assert (r = true ↔ ∃ k e, c_ev c !! k = Some e ∧ is_Some (e_reloc e)) as Hr.
  { unfold r, any_reloc. rewrite existsb_exists. split.
    - intros (e & He & Hx). apply elem_of_list_In, elem_of_sorted_events in He as [k He].
      apply bool_decide_eq_true in Hx. eauto.
    - intros (k & e & He & Hx). exists e. split; [|by apply bool_decide_eq_true].
      apply elem_of_list_In, elem_of_sorted_events. eauto. }
  assert (∀ s, s ∈ sord (c_sta c) → c_sta c !! s_id s = Some s ∧ s_id s = sta_id s ∧
     good (s_net s) ∧ good (s_sta s) ∧ good_last (s_loc s)) as HS.
  { intros s Hs. rewrite Hsord in Hs. apply elem_of_list_fmap in Hs as ([k s'] & -> & Hs).
    apply elem_of_map_to_list in Hs. simpl. destruct (in_sta _ I _ _ Hs) as [-> ->]. split; [done|]. split; [done|].
    by eapply Ws. }
  assert (∀ e, e ∈ sorted_events (c_ev c) → c_ev c !! e_id e = Some e) as HE.
  { intros e He. apply elem_of_sorted_events in He as [k He]. by rewrite (in_ev _ I _ _ He). }
  assert (∀ p, p ∈ ordered_phases c → p ∈ phs c (p_ev p)) as HP by (intros p; by apply elem_of_ordered_phases).
  rewrite (read_back st_header). 2: { apply Forall_cons. split; [apply plain_st_header|]. apply Forall_fmap, Forall_forall.
    intros s Hs. destruct (HS s Hs) as (_ & ? & ? & ? & ?). by apply station_row. }
  cbn [mbind option_bind]. rewrite <-list_fmap_compose.
  rewrite (read_all_spec (get_station stod) _ put_station (λ _, True) (sord (c_sta c)) _ (round_sta r8 r3)); [|..|done].
  2: { intros s Hs. destruct (HS s Hs) as (_ & ? & ? & ? & ?). by apply station_row. }
  2: { done. }
  cbn [mbind option_bind]. set (c1 := fold_left put_station _ _).
  rewrite (read_back (ev_header r)). 2: { apply Forall_cons. split; [apply plain_ev_header|]. apply Forall_fmap, Forall_forall.
    intros e He. apply HE in He. destruct (We _ _ He) as (? & ? & ?). apply (event_row load); [done..|].
    intros Hf. destruct (e_reloc e) eqn:E; [|done]. assert (r = true); [|congruence]. apply Hr. eauto. }
  cbn [mbind option_bind]. rewrite <-list_fmap_compose.
  rewrite (read_all_spec (get_event stod nan load) _ put_event (λ _, True) (sorted_events (c_ev c)) _ (round_ev r8 r6 r3 rg load)); [|..|done].
  2: { intros e He. apply HE in He. destruct (We _ _ He) as (? & ? & ?). apply (event_row load); [done..|].
    intros Hf. destruct (e_reloc e) eqn:E; [|done]. assert (r = true); [|congruence]. apply Hr. eauto. }
  2: { done. }
  cbn [mbind option_bind]. set (c2 := fold_left put_event _ _).
  assert (NoDup (s_id <$> (round_sta r8 r3 <$> sord (c_sta c)))) as NDs.
  { rewrite <-list_fmap_compose. change (s_id ∘ round_sta r8 r3) with (@s_id V).
    rewrite (fmap_Permutation s_id _ _ (Hsord (c_sta c))).
    assert (s_id <$> (map_to_list (c_sta c)).*2 = (map_to_list (c_sta c)).*1) as ->; [|apply NoDup_fst_map_to_list].
    rewrite <-list_fmap_compose. apply list_fmap_ext. intros i [k s] Hi. apply elem_of_list_lookup_2, elem_of_map_to_list in Hi.
    simpl. by destruct (in_sta _ I _ _ Hi). }
  assert (c_sta c1 = round_sta r8 r3 <$> c_sta c) as Hc1.
  { apply map_eq. intros k. apply option_eq. intros s. destruct (fold_put_station (round_sta r8 r3 <$> sord (c_sta c)) empty_cat k) as (_ & _ & H).
    unfold c1. rewrite H by done. rewrite lookup_fmap, fmap_Some. split.
    - intros [[Hs <-]|[_ Hs]]; [|simpl in Hs; by rewrite lookup_empty in Hs].
      apply elem_of_list_fmap in Hs as (s0 & -> & Hs). exists s0. split; [exact (proj1 (HS s0 Hs))|done].
    - intros (s0 & Hs & ->). left. destruct (in_sta _ I _ _ Hs) as [Hid _]. split; [|done].
      apply elem_of_list_fmap. exists s0. split; [done|]. rewrite Hsord. apply elem_of_list_fmap. exists (k, s0).
      split; [done|]. by apply elem_of_map_to_list. }
  assert (c_ev c2 = round_ev r8 r6 r3 rg load <$> c_ev c ∧ c_sta c2 = c_sta c1 ∧ c_ph c2 = c_ph c1) as (Hc2 & Hc2s & Hc2p).
  { destruct (fold_put_event (round_ev r8 r6 r3 rg load <$> sorted_events (c_ev c)) c1 0%N) as (A1 & A2 & _).
    split; [|done]. apply map_eq. intros k. apply option_eq. intros e.
    destruct (fold_put_event (round_ev r8 r6 r3 rg load <$> sorted_events (c_ev c)) c1 k) as (_ & _ & H).
    unfold c2. rewrite H.
    2: { rewrite <-list_fmap_compose. change (e_id ∘ round_ev r8 r6 r3 rg load) with (@e_id V). by apply (sorted_events_NoDup ins). }
    rewrite lookup_fmap, fmap_Some. split.
    - intros [[Hs <-]|[_ Hs]].
      + apply elem_of_list_fmap in Hs as (e0 & -> & Hs). exists e0. split; [exact (HE e0 Hs)|done].
      + destruct (fold_put_station (round_sta r8 r3 <$> sord (c_sta c)) empty_cat []) as (B & _ & _).
        unfold c1 in Hs. rewrite B in Hs. simpl in Hs. by rewrite lookup_empty in Hs.
    - intros (e0 & Hs & ->). left. pose proof (in_ev _ I _ _ Hs) as Hid. split; [|done].
      apply elem_of_list_fmap. exists e0. split; [done|]. apply elem_of_sorted_events. eauto. }
  assert (c_ph c1 = ∅) as Hc1p.
  { destruct (fold_put_station (round_sta r8 r3 <$> sord (c_sta c)) empty_cat []) as (_ & B & _). done. }
  assert (∀ p, p ∈ ordered_phases c →
     plain_row (ph_row pg r p) ∧ get_phase stod nan load (format_row (ph_header r) (ph_row pg r p)) = Some (round_ph rg (load && r) p)) as HPR.
  { intros p Hp. apply HP in Hp. destruct (in_ph _ I _ _ Hp) as (_ & [e He] & _).
    destruct (Wp _ _ Hp) as (?&?&?&?&?&?&?&?&?&?). destruct (We _ _ He) as (? & _). by apply phase_row. }
  rewrite (read_back (ph_header r)). 2: { apply Forall_cons. split; [apply plain_ph_header|]. apply Forall_fmap, Forall_forall.
    intros p Hp. by apply HPR. }
  cbn [mbind option_bind]. rewrite <-list_fmap_compose.
  rewrite (read_all_spec (get_phase stod nan load) _ (add_phase ins) (λ c0, c_sta c0 = c_sta c1) (ordered_phases c) _ (round_ph rg (load && r))); [|..|exact Hc2s].
  2: { intros p Hp. by apply HPR. }
  2: { intros c0 p Hc0 Hp. unfold put_phase. apply HP in Hp. destruct (in_ph _ I _ _ Hp) as (_ & _ & [s Hs]).
       rewrite Hc0, Hc1. cbn [round_ph p_staid]. rewrite lookup_fmap, Hs. split; [done|]. by rewrite <-Hc1, <-Hc0. }
  eexists. split; [done|].
  destruct (fold_add_phase_ev ins (round_ph rg (load && r) <$> ordered_phases c) c2) as [-> ->].
  split; [congruence|]. split; [done|]. intros b Hb k.
  assert (load && r = b) as <-.
  { apply eq_bool_prop_intro. rewrite !Is_true_true, andb_true_iff, Hr, Hb. done. }
  rewrite fold_add_phase by done. unfold phs at 1. rewrite Hc2p, Hc1p, lookup_empty. simpl. rewrite (app_nil_r (filter _ _)).
  rewrite <-(ordered_phases_at c k I). generalize (ordered_phases c) as l. clear.
  induction l as [|p l IH]; [done|]. rewrite fmap_cons. destruct (decide (p_ev p = k)) as [D|D].
  - rewrite filter_cons_True by done. rewrite (filter_cons_True (λ p0, p_ev p0 = k) p) by done.
    rewrite fmap_cons. by constructor.
  - rewrite filter_cons_False by done. rewrite (filter_cons_False (λ p0, p_ev p0 = k) p) by done. done.
Qed.
End proofs.
Print Assumptions C18_catalog_roundtrip.

(** ** Counterexamples and instances *)
(** Numbers that are printed modulo 2^32 satisfy the hypotheses on printing. *)
Definition ex_pf (v : N) : text := put_u (v `mod` 2 ^ 32).
Definition ex_r (v : N) : N := (v `mod` 2 ^ 32)%N.
Lemma ex_num : ∀ v, plain_last (ex_pf v) ∧ stoul (ex_pf v) = Some (ex_r v).
Proof.
  intros v. split; [apply put_u_plain|]. apply stoul_put_u. eapply N.lt_trans; [by apply N.mod_lt|done].
Qed.
Definition ex_sord (m : gmap text (station N)) : list (station N) := (map_to_list m).*2.
Definition ex_insN (l : list (phase N)) (p : phase N) : list (phase N) := p :: l.
Definition exf_sta : station N := Sta (tx "N.A.") 1%N 2%N 3%N (tx "N") (tx "A") [].
Definition exf_ev (rel : option (N * N)) : event N := Ev 5 1000001%Z 1%N 2%N 3%N 4%N rel.
Definition exf_ph : phase N :=
  Pha 5 (tx "N.A.") 2000000%Z 1%N 1%N (tx "P") (tx "N") (tx "A") [] (tx "HHZ") None (Some (7, 8, 9)%N).
Definition exf_cat (rel : option (N * N)) : catalog N :=
  Cat {[ tx "N.A." := exf_sta ]} {[ 5%N := exf_ev rel ]} {[ 5%N := [exf_ph] ]}.

Lemma exf_int rel : integrity (exf_cat rel).
Proof.
  split.
  - intros k e H. cbn [exf_cat c_ev] in H. apply lookup_singleton_Some in H as [<- <-]. done.
  - intros k s H. cbn [exf_cat c_sta] in H. apply lookup_singleton_Some in H as [<- <-]. done.
  - intros k p H. unfold phs in H. cbn [exf_cat c_ph] in H. destruct (decide (k = 5%N)) as [->|D].
    + rewrite lookup_singleton in H. apply elem_of_list_singleton in H as ->. split; [done|].
      split; simpl; rewrite lookup_singleton; eauto.
    + rewrite lookup_singleton_ne in H by done. by apply elem_of_nil in H.
Qed.
Lemma good_bool t : bool_decide (plain t) && bool_decide (zero ∉ t) = true → good t.
Proof. intros [H1 H2]%andb_true_iff. split; by eapply bool_decide_eq_true_1. Qed.
Example exf_writable rel : writable (λ _, True) (exf_cat rel).
Proof.
  split.
  - apply exf_int.
  - intros k s H. cbn [exf_cat c_sta] in H. apply lookup_singleton_Some in H as [<- <-].
    split; [|split; [|split]]; try (apply good_bool; vm_compute; reflexivity). done.
  - intros k e H. cbn [exf_cat c_ev] in H. apply lookup_singleton_Some in H as [<- <-]. split; [done|]. split; [by vm_compute|]. done.
  - intros k p H. unfold phs in H. cbn [exf_cat c_ph] in H. destruct (decide (k = 5%N)) as [->|D].
    + rewrite lookup_singleton in H. apply elem_of_list_singleton in H as ->.
      split; [by vm_compute|]. split; [done|]. split; [done|].
      split; [apply good_bool; vm_compute; reflexivity|]. split; [apply good_bool; vm_compute; reflexivity|].
      split; [apply good_bool; vm_compute; reflexivity|]. split; [apply good_bool; vm_compute; reflexivity|].
      split; [split; [apply good_bool; vm_compute; reflexivity|done]|]. done.
    + rewrite lookup_singleton_ne in H by done. by apply elem_of_nil in H.
Qed.

(** The relocation information of a phase is lost if no event of the catalog is
    marked as relocated. *)
Theorem C18_phase_reloc_lost_refuted :
  ∃ (c c' : catalog N) p p', writable (λ _, True) c ∧
    read_catalog stoul 0%N ex_insN (write_stations ex_pf ex_pf ex_sord c) (write_events ex_pf ex_pf ex_pf ex_pf c)
      (write_phases ex_pf c) true = Some c' ∧
    phs c 5 = [p] ∧ phs c' 5 = [p'] ∧ is_Some (p_reloc p) ∧ p_reloc p' = None.
Proof.
  destruct (C18_catalog_roundtrip ex_pf ex_pf ex_pf ex_pf stoul 0%N ex_r ex_r ex_r ex_r (λ _, True)
    ex_num ex_num ex_num (λ v, conj (proj1 (ex_num v)) (λ _, proj2 (ex_num v))) ex_sord (λ m, reflexivity _) ex_insN
    (λ l p, reflexivity _) (exf_cat None) true (exf_writable None)) as (c' & H & _ & _ & Hp).
  specialize (Hp false). assert (phs (exf_cat None) 5 = [exf_ph]) as E by reflexivity.
  exists (exf_cat None), c', exf_ph, (round_ph ex_r false exf_ph).
  split; [apply exf_writable|]. split; [exact H|]. split; [exact E|]. split; [|split; [by eexists|done]].
  apply Permutation_singleton_r. rewrite Hp.
  - by rewrite E.
  - split; [done|]. intros (_ & k & e & He & [x Hx]). cbn [exf_cat c_ev] in He. apply lookup_singleton_Some in He as [<- <-]. done.
Qed.
Print Assumptions C18_phase_reloc_lost_refuted.

(** A comma in a code is not protected: the row is misread (here: the phase type
    becomes the part before the comma). *)
Definition comma_row : list text := ph_row (V := N) ex_pf false
  (Pha 5 (tx "N.A.") 2000000%Z 1%N 1%N (tx "P,x") (tx "N") (tx "A") [] (tx "HHZ") None None).
Theorem C18_separator_refuted :
  csv_read (csv_line comma_row) ≠ [comma_row].
Proof. vm_compute. discriminate. Qed.
Print Assumptions C18_separator_refuted.
