(** The waveform caches (C44, C45, C46). *)
From Coq Require Import Ascii.
From stdpp Require Import numbers list gmap sets strings.
From Coq Require Import QArith.
From Verif Require Import TimeWindow_Model Time_Model Time_Proofs Time_Props Trace_Model Trace_Props WaveCache_Model.
Local Open Scope Z_scope.

(** ** The ids are unique *)
Lemma cut {A} (c : A) a x b y : c ∉ a -> c ∉ b -> a ++ c :: x = b ++ c :: y -> a = b /\ x = y.
Proof.
  revert b. induction a as [|h a IH]; intros [|k b] Ha Hb E; cbn [app] in E.
  - by simplify_eq.
  - simplify_eq. exfalso. apply Hb. left.
  - simplify_eq. exfalso. apply Ha. left.
  - simplify_eq. apply not_elem_of_cons in Ha as [_ Ha]. apply not_elem_of_cons in Hb as [_ Hb]. destruct (IH b Ha Hb ltac:(done)) as [-> ->]. done.
Qed.
Lemma digits_no_Z (s : text) : forallb is_dig s = true -> "Z"%char ∉ s.
Proof. intros H K. apply elem_of_list_In in K. rewrite forallb_forall in H. apply H in K. done. Qed.
Lemma dec_no_Z n : 0 <= n -> "Z"%char ∉ dec n.
Proof.
  intros H. unfold dec. destruct (dec_aux_spec (S (Z.to_nat n)) n [] H ltac:(lia)) as (p & -> & _ & D & _). rewrite app_nil_r. by apply digits_no_Z.
Qed.
Lemma zpad_no_Z w s : "Z"%char ∉ s -> "Z"%char ∉ zpad w s.
Proof. intros H K. unfold zpad in K. apply elem_of_app in K as [K|K]; [|done]. apply elem_of_list_In, repeat_spec in K. done. Qed.
Lemma fmt_no_Z w n : "Z"%char ∉ fmt w n.
Proof.
  unfold fmt. destruct (n <? 0) eqn:E.
  - apply Z.ltb_lt in E. apply not_elem_of_cons. split; [done|]. apply zpad_no_Z, dec_no_Z. lia.
  - apply Z.ltb_ge in E. apply zpad_no_Z, dec_no_Z. done.
Qed.
Lemma usec_str_no_Z u : "Z"%char ∉ usec_str u.
Proof.
  unfold usec_str. destruct (u =? 0); [by apply digits_no_Z|]. intros K. destruct (strip0_spec (fmt 6 u)) as [k E].
  apply (fmt_no_Z 6 u). rewrite E. apply elem_of_app. by left.
Qed.
Lemma to_string_body t : exists b, to_string t = b ++ ["Z"%char] /\ "Z"%char ∉ b.
Proof.
  unfold to_string. generalize (to_date t). intros f.
  eexists (fmt 4 (f_year f) ++ ["-"%char] ++ fmt 2 (f_mon f) ++ ["-"%char] ++ fmt 2 (f_day f) ++ ["T"%char] ++ fmt 2 (f_hour f) ++ [":"%char] ++ fmt 2 (f_min f) ++ [":"%char] ++ fmt 2 (f_sec f) ++ ["."%char] ++ usec_str (f_usec f)).
  split. { rewrite <- !app_assoc. reflexivity. }
  rewrite !not_elem_of_app. pose proof fmt_no_Z. pose proof (usec_str_no_Z (f_usec f)).
  split_and!; auto; intros K; apply elem_of_list_singleton in K; done.
Qed.
Lemma to_string_cut t t' x y : to_string t ++ x = to_string t' ++ y -> to_string t = to_string t' /\ x = y.
Proof.
  destruct (to_string_body t) as (b & -> & Hb). destruct (to_string_body t') as (b' & -> & Hb'). rewrite <- !app_assoc. cbn [app].
  intros E. destruct (cut _ _ _ _ _ Hb Hb' E) as [-> ->]. done.
Qed.
Definition in_range (t : Z) : Prop := 0 <= t < year_10000.
Lemma to_string_inj t t' : in_range t -> in_range t' -> to_string t = to_string t' -> t = t'.
Proof. intros H H' E. apply C09_text_roundtrip in H, H'. rewrite E in H. congruence. Qed.

(** Codes without a dot, times the text of which can be read back *)
Definition stream_ok (s : stream) : Prop := "."%char ∉ s_net s /\ "."%char ∉ s_sta s /\ "."%char ∉ s_loc s /\ "."%char ∉ s_cha s.
Definition window_ok (w : tw) : Prop := in_range (w_start w) /\ in_range (w_end w).
Lemma waveform_id_inj w s w' s' : window_ok w -> window_ok w' -> stream_ok s -> stream_ok s' ->
  waveform_id w s = waveform_id w' s' -> w = w' /\ s = s'.
Proof.
  intros [A1 A2] [B1 B2] (S1 & S2 & S3 & S4) (T1 & T2 & T3 & T4). unfold waveform_id, dot. cbn [app]. intros E.
  apply cut in E as [E1 E]; [|done..]. apply cut in E as [E2 E]; [|done..]. apply cut in E as [E3 E]; [|done..]. apply cut in E as [E4 E]; [|done..].
  apply to_string_cut in E as [E5 E]. injection E as E6. apply to_string_inj in E5, E6; [|done..]. destruct w, w', s, s'. cbn in *. by subst.
Qed.
Lemma stream_id_inj s s' : stream_ok s -> stream_ok s' -> stream_id s = stream_id s' -> s = s'.
Proof.
  intros (S1 & S2 & S3 & S4) (T1 & T2 & T3 & T4). unfold stream_id, dot. cbn [app]. intros E.
  apply cut in E as [E1 E]; [|done..]. apply cut in E as [E2 E]; [|done..]. apply cut in E as [E3 E]; [|done..]. destruct s, s'. cbn in *. by subst.
Qed.

(** ** C44 *)
Section mem.
Context {T X S : Type}.
Notation req := (preq X).
Implicit Types (r : req).
Variable aux : S -> req -> option T * S.

(** The answer of the processor: a function of the request, whatever happened before *)
Definition answers (f : req -> option T) : Prop := forall s r, (aux s r).1 = f r.
Definition preq_ok r : Prop := stream_ok (p_stream r) /\ window_ok (p_window r).
(** The stream a request is about: for a transformed trace the last letter of the channel does
    not matter *)
Definition same_trace r r' : Prop :=
  p_window r = p_window r' /\ s_net (p_stream r) = s_net (p_stream r') /\ s_sta (p_stream r) = s_sta (p_stream r') /\ s_loc (p_stream r) = s_loc (p_stream r') /\
  p_trans r = p_trans r' /\
  (if decide (p_trans r = TNone) then s_cha (p_stream r) = s_cha (p_stream r') else band_and_instrument (s_cha (p_stream r)) = band_and_instrument (s_cha (p_stream r'))).
(** Requests for the same trace are made with the same parameters, as far as they matter *)
Definition same_parameters (f : req -> option T) (l : list req) : Prop :=
  forall r r', r ∈ l -> r' ∈ l -> same_trace r r' -> f r = f r'.
(** No channel is called like a transformed one *)
Definition no_clash (l : list req) : Prop :=
  forall r r', r ∈ l -> r' ∈ l -> p_trans r = TNone -> p_trans r' <> TNone -> s_cha (p_stream r) <> id_channel (s_cha (p_stream r')) (p_trans r').

Lemma preq_id_same r r' : preq_ok r -> preq_ok r' ->
  (p_trans r = TNone -> p_trans r' <> TNone -> s_cha (p_stream r) <> id_channel (s_cha (p_stream r')) (p_trans r')) ->
  (p_trans r' = TNone -> p_trans r <> TNone -> s_cha (p_stream r') <> id_channel (s_cha (p_stream r)) (p_trans r)) ->
  preq_id r = preq_id r' -> same_trace r r'.
Proof using.
  intros [(S1 & S2 & S3 & S4) Hw] [(T1 & T2 & T3 & T4) Hw'] N1 N2 E. unfold preq_id, waveform_id_trans in E.
  assert (forall c t, "."%char ∉ c -> "."%char ∉ id_channel c t) as Hid.
  { intros c t Hc. assert ("."%char ∉ band_and_instrument c) as Hb.
    { unfold band_and_instrument. case_decide; [|apply not_elem_of_nil]. intros K. apply Hc. rewrite <- (take_drop 2 c). apply elem_of_app. by left. }
    destruct t; cbn [id_channel]; [done|..]; apply not_elem_of_app; split; try done; intros K; apply elem_of_list_singleton in K; done. }
  apply waveform_id_inj in E as [E1 E2]; [|done|done|repeat split; cbn; auto|repeat split; cbn; auto]. injection E2 as E3 E4 E5 E6.
  unfold same_trace. assert (p_trans r = p_trans r') as Et.
  { destruct (decide (p_trans r = TNone)) as [Z1|Z1], (decide (p_trans r' = TNone)) as [Z2|Z2].
    - congruence.
    - exfalso. apply (N1 Z1 Z2). rewrite Z1 in E6. exact E6.
    - exfalso. apply (N2 Z2 Z1). rewrite Z2 in E6. symmetry. exact E6.
    - destruct (p_trans r), (p_trans r'); try done; cbn [id_channel] in E6; apply app_inj_2 in E6 as [_ E6]; done. }
  split_and!; try done. rewrite <- Et in E6. case_decide as D; [rewrite D in E6; exact E6|].
  destruct (p_trans r); [done|..]; cbn [id_channel] in E6; by apply app_inv_tail in E6.
Qed.

Definition mem_sound (f : req -> option T) (l : list req) (c : mem T) : Prop :=
  (forall r t, r ∈ l -> m_traces c !! preq_id r = Some t -> f r = Some t) /\
  (forall r, r ∈ l -> preq_id r ∈ m_unloadables c -> f r = None).
Lemma mem_get_sound f l s c r : answers f -> same_parameters f l -> no_clash l -> Forall preq_ok l -> mem_sound f l c -> r ∈ l ->
  let '(a, s', c') := mem_get aux s c r in a = f r /\ mem_sound f l c'.
Proof using.
  intros Ha Hs Hc Hok [M1 M2] Hr. unfold mem_get.
  assert (forall r', r' ∈ l -> preq_id r' = preq_id r -> f r' = f r) as Hid.
  { rewrite Forall_forall in Hok. intros r' Hr' E. apply Hs; [done|done|]. apply preq_id_same; auto. }
  destruct (m_traces c !! preq_id r) as [t|] eqn:E. { split; [symmetry; by eapply M1|by split]. }
  case_decide as HU. { split; [symmetry; by apply M2|by split]. }
  specialize (Ha s r). destruct (aux s r) as [[t|] s'] eqn:EA; cbn [fst] in Ha; (split; [done|]).
  - split; cbn [m_traces m_unloadables]; [|done]. intros r' t' Hr' L. destruct (decide (preq_id r' = preq_id r)) as [K|K].
    + rewrite K, lookup_insert in L. injection L as <-. rewrite (Hid r' Hr' K). done.
    + rewrite lookup_insert_ne in L by done. by eapply M1.
  - split; cbn [m_traces m_unloadables]; [done|]. intros r' Hr' L. apply elem_of_union in L as [L%elem_of_singleton|L]; [|by apply M2]. rewrite (Hid r' Hr' L). done.
Qed.
Lemma mem_run_sound f l s c l1 : answers f -> same_parameters f l -> no_clash l -> Forall preq_ok l -> mem_sound f l c -> (forall r, r ∈ l1 -> r ∈ l) ->
  (mem_run aux s c l1).1.1 = f <$> l1.
Proof using.
  intros Ha Hs Hc Hok. revert s c. induction l1 as [|r l1 IH]; intros s c HM Hsub; [done|]. cbn [mem_run].
  pose proof (mem_get_sound f l s c r Ha Hs Hc Hok HM ltac:(apply Hsub; left)) as G. destruct (mem_get aux s c r) as [[a s'] c']. destruct G as [-> HM'].
  specialize (IH s' c' HM' ltac:(intros r' Hr'; apply Hsub; by right)). destruct (mem_run aux s' c' l1) as [[as_ s''] c'']. cbn [fst] in IH. rewrite IH, fmap_cons. done.
Qed.
(** C44: with the same parameters for the same traces, and no channel called like a
    transformed one, every request gets the answer of the processor. *)
Theorem C44_transparent_partial f s l : answers f -> same_parameters f l -> no_clash l -> Forall preq_ok l ->
  (mem_run aux s (Mem ∅ ∅) l).1.1 = f <$> l.
Proof using. intros Ha Hs Hc Hok. apply (mem_run_sound f l); done. Qed.
End mem.
(** C44: the processor is asked once for each id. *)
Section once.
Context {T X : Type}.
Variable f : preq X -> option T.
Definition asked (s : list text) (r : preq X) : option T * list text := (f r, preq_id r :: s).
Lemma asked_inv l : forall s c, NoDup s -> (forall i, i ∈ s -> is_Some (m_traces c !! i) \/ i ∈ m_unloadables c) -> NoDup (mem_run asked s c l).1.2.
Proof using.
  induction l as [|r l IH]; intros s c Hs Hc; [done|]. cbn [mem_run]. unfold mem_get. destruct (m_traces c !! preq_id r) as [t|] eqn:E.
  { specialize (IH s c Hs Hc). destruct (mem_run asked s c l) as [[??]?]. done. }
  case_decide as HU. { specialize (IH s c Hs Hc). destruct (mem_run asked s c l) as [[??]?]. done. }
  unfold asked at 1. assert (preq_id r ∉ s) as Hn. { intros K. destruct (Hc _ K) as [[? K']|K']; [congruence|done]. }
  destruct (f r) as [t|].
  - specialize (IH (preq_id r :: s) (Mem (<[preq_id r := t]> (m_traces c)) (m_unloadables c)) ltac:(by constructor)).
    destruct (mem_run asked _ _ l) as [[??]?]. apply IH. cbn [m_traces m_unloadables]. intros i [->|Hi]%elem_of_cons; [left; rewrite lookup_insert; by eexists|].
    destruct (decide (preq_id r = i)) as [<-|K]; [left; rewrite lookup_insert; by eexists|]. rewrite lookup_insert_ne by done. by apply Hc.
  - specialize (IH (preq_id r :: s) (Mem (m_traces c) ({[preq_id r]} ∪ m_unloadables c)) ltac:(by constructor)).
    destruct (mem_run asked _ _ l) as [[??]?]. apply IH. cbn [m_traces m_unloadables]. intros i [->|Hi]%elem_of_cons; [right; clear; set_solver|].
    destruct (Hc i Hi) as [|K]; [by left|right; clear -K; set_solver].
Qed.
Theorem C44_asked_once l : NoDup (mem_run asked [] (Mem ∅ ∅) l).1.2.
Proof using. apply asked_inv; [constructor|]. intros i Hi. by apply elem_of_nil in Hi. Qed.
End once.

Definition str (s : string) : text := String.list_ascii_of_string s.
Definition hhz : stream := Stream (str "CH") (str "ABC") (str "") (str "HHZ").
Definition hhl : stream := Stream (str "CH") (str "ABC") (str "") (str "HHL").
Ltac no_dot := match goal with |- "."%char ∉ ?t => let K := fresh in intros K; apply elem_of_list_In in K; cbn in K; intuition discriminate end.
Lemma hhz_ok : stream_ok hhz.
Proof. split_and!; no_dot. Qed.
Lemma hhl_ok : stream_ok hhl.
Proof. split_and!; no_dot. Qed.
Lemma window_ex : window_ok (Tw 0 1000000).
Proof. split; split; done. Qed.
(** Not transparent if the filter (or the sampling frequency) is changed between requests *)
Theorem C44_parameters_refuted : exists (aux : unit -> preq string -> option string * unit) l,
  answers aux (fun r => Some (p_rest r)) /\ Forall preq_ok l /\ (mem_run aux tt (Mem ∅ ∅) l).1.1 <> (fun r => Some (p_rest r)) <$> l.
Proof.
  exists (fun s r => (Some (p_rest r), s)), [PReq (Tw 0 1000000) hhz TNone "BW(3,1,10)"%string; PReq (Tw 0 1000000) hhz TNone "none"%string].
  split; [by intros ??|]. split; [|vm_compute; discriminate].
  repeat (apply Forall_cons; split; [split; [auto using hhz_ok, hhl_ok|exact window_ex]|]). by apply Forall_nil.
Qed.
(** Not transparent if a stream has a channel with the letter L, or R or T, and the same
    transformation is used *)
Theorem C44_clash_refuted : exists (aux : unit -> preq unit -> option string * unit) f l,
  answers aux f /\ same_parameters f l /\ Forall preq_ok l /\ (mem_run aux tt (Mem ∅ ∅) l).1.1 <> f <$> l.
Proof.
  set (f := fun r : preq unit => match p_trans r with TL2 => Some "length of the horizontals" | _ => Some "channel HHL" end%string).
  exists (fun s r => (f r, s)), f, [PReq (Tw 0 1000000) hhl TNone tt; PReq (Tw 0 1000000) hhl TL2 tt].
  split; [by intros ??|]. split. { intros r r' _ _ (_ & _ & _ & _ & E & _). unfold f. by rewrite E. }
  split; [|vm_compute; discriminate].
  repeat (apply Forall_cons; split; [split; [auto using hhz_ok, hhl_ok|exact window_ex]|]). by apply Forall_nil.
Qed.
(** A failure is remembered: once a trace was not available it never will be *)
Theorem C44_failure_refuted : exists (aux : bool -> preq unit -> option string * bool) r,
  (mem_run aux false (Mem ∅ ∅) [r; r]).1.1 = [None; None] /\ (aux (aux false r).2 r).1 = Some "data"%string.
Proof. exists (fun (s : bool) (_ : preq unit) => if s then (Some "data"%string, true) else (None, true)), (PReq (Tw 0 1000000) hhz TNone tt). split; vm_compute; reflexivity. Qed.
Print Assumptions C44_transparent_partial.
Print Assumptions C44_asked_once.
Print Assumptions C44_parameters_refuted.
Print Assumptions C44_clash_refuted.
Print Assumptions C44_failure_refuted.
Example mem_ex : let l := [PReq (Tw 0 1000000) hhz TNone tt; PReq (Tw 0 1000000) hhz TRadial tt; PReq (Tw 0 1000000) hhl TRadial tt] in
  let f := fun r : preq unit => match p_trans r with TNone => Some 1 | _ => Some 2 end in
  same_parameters f l /\ no_clash l /\ Forall preq_ok l.
Proof.
  cbv zeta. split. { intros r r' _ _ (_ & _ & _ & _ & E & _). by rewrite E. }
  split. { intros r r' H H' N N'. apply elem_of_list_In in H, H'. cbn in H, H'. destruct H as [<-|[<-|[<-|[]]]]; try done; destruct H' as [<-|[<-|[<-|[]]]]; done. }
  repeat (apply Forall_cons; split; [split; [auto using hhz_ok, hhl_ok|exact window_ex]|]). by apply Forall_nil.
Qed.

(** ** C45 *)
Section disk.
Context {T B : Type}.
Variable aux : lreq -> option T.
Variable encode : T -> list B.
Variable decode : list B -> option T.
Notation fs := (gmap text (list B)).
Definition lreq_ok (r : lreq) : Prop := stream_ok (l_stream r) /\ window_ok (l_window r).
Lemma cache_file_inj r r' : lreq_ok r -> lreq_ok r' -> cache_file r = cache_file r' -> r = r'.
Proof using.
  intros [S1 W1] [S2 W2] E. unfold cache_file in E. apply app_inv_tail in E. apply waveform_id_inj in E as [E1 E2]; [|done..]. destruct r, r'. cbn in *. by subst.
Qed.
(** What a file may contain, after any interruption: the beginning of the trace of its name *)
Definition disk_sound (d : fs) : Prop :=
  forall r bytes, lreq_ok r -> d !! cache_file r = Some bytes -> exists t n, aux r = Some t /\ bytes = take n (encode t).
Lemma disk_get_sound d r w : lreq_ok r -> disk_sound d -> disk_sound (disk_get aux encode decode d r w).2.
Proof using.
  intros Hr Hd. unfold disk_get. destruct (_ ≫= _) as [t|]; [done|]. destruct (aux r) as [t|] eqn:E; [|done]. cbn [snd].
  intros r' bytes Hr' L. destruct (decide (cache_file r = cache_file r')) as [K|K].
  - rewrite <- K, lookup_insert in L. injection L as <-. apply cache_file_inj in K as <-; [|done..]. exists t. destruct w as [n|].
    + exists n. done.
    + exists (length (encode t)). rewrite firstn_all. done.
  - rewrite lookup_insert_ne in L by done. by apply Hd.
Qed.
(** C45: if no beginning of a file can be read as a trace (or the whole file is there), the
    answers are those of the loader, whatever is cached and wherever a write was interrupted. *)
Theorem C45_transparent_partial d l :
  (forall t n t', decode (take n (encode t)) = Some t' -> t' = t) ->
  disk_sound d -> Forall (fun x => lreq_ok x.1) l ->
  (disk_run aux encode decode d l).1 = (fun x => aux x.1) <$> l.
Proof using.
  intros HD. revert d. induction l as [|[r w] l IH]; intros d Hd Hl; [done|]. apply Forall_cons in Hl as [Hr Hl]. cbn [fst] in Hr. cbn [disk_run].
  pose proof (disk_get_sound d r w Hr Hd) as Hd'. destruct (disk_get aux encode decode d r w) as [a d'] eqn:E. cbn [snd] in Hd'.
  specialize (IH d' Hd' Hl). destruct (disk_run aux encode decode d' l) as [as_ d'']. cbn [fst] in IH |- *. rewrite IH, fmap_cons. f_equal. cbn [fst].
  unfold disk_get in E. destruct (d !! cache_file r) as [bytes|] eqn:L; cbn [mbind option_bind] in E.
  - destruct (Hd r bytes Hr L) as (t & n & Ea & ->). destruct (decode (take n (encode t))) as [t'|] eqn:ED.
    + apply HD in ED as ->. injection E as <- _. done.
    + rewrite Ea in E. injection E as <- _. done.
  - destruct (aux r); injection E as <- _; done.
Qed.
(** C45: without interruptions it is enough that what is written can be read back. *)
Definition complete (d : fs) : Prop :=
  forall r bytes, lreq_ok r -> d !! cache_file r = Some bytes -> exists t, aux r = Some t /\ bytes = encode t.
Theorem C45_uninterrupted d l :
  (forall t t', decode (encode t) = Some t' -> t' = t) ->
  complete d -> Forall lreq_ok l ->
  (disk_run aux encode decode d ((fun r => (r, None)) <$> l)).1 = aux <$> l.
Proof using.
  intros HD. revert d. induction l as [|r l IH]; intros d Hd Hl; [done|]. apply Forall_cons in Hl as [Hr Hl]. rewrite !fmap_cons. cbn [disk_run].
  assert (let x := disk_get aux encode decode d r None in x.1 = aux r /\ complete x.2) as HX.
  { unfold disk_get. destruct (d !! cache_file r) as [bytes|] eqn:L; cbn [mbind option_bind].
    - destruct (Hd r bytes Hr L) as (t & Ea & ->). destruct (decode (encode t)) as [t'|] eqn:ED.
      + apply HD in ED as ->. by split.
      + rewrite Ea. split; [done|]. cbn [snd]. intros r' bytes Hr' L'. destruct (decide (cache_file r = cache_file r')) as [K|K].
        * rewrite <- K, lookup_insert in L'. injection L' as <-. apply cache_file_inj in K as <-; [|done..]. by exists t.
        * rewrite lookup_insert_ne in L' by done. by apply Hd.
    - destruct (aux r) as [t|] eqn:Ea; [|by split]. split; [done|]. cbn [snd]. intros r' bytes Hr' L'. destruct (decide (cache_file r = cache_file r')) as [K|K].
      * rewrite <- K, lookup_insert in L'. injection L' as <-. apply cache_file_inj in K as <-; [|done..]. by exists t.
      * rewrite lookup_insert_ne in L' by done. by apply Hd. }
  cbv zeta in HX. destruct (disk_get aux encode decode d r None) as [a d']. cbn [fst snd] in HX. destruct HX as [-> Hd'].
  specialize (IH d' Hd' Hl). destruct (disk_run aux encode decode d' _) as [as_ d'']. cbn [fst] in *. rewrite IH. done.
Qed.
End disk.
(** A file is a sequence of records, each with some samples; it is read up to its end
    (readTrace, libs/hddsc/waveform.cpp 393-427), wherever that is. *)
Definition records (t : list Z) : list (list Z) := (fun x => [x]) <$> t.
Definition read_records (b : list (list Z)) : option (list Z) := match b with [] => None | _ => Some (concat b) end.
(** C45 after an interruption between two records: the next request gets a shorter trace *)
Theorem C45_interrupted_refuted : exists (aux : lreq -> option (list Z)) r,
  lreq_ok r /\ (forall t, t <> [] -> read_records (records t) = Some t) /\
  (disk_run aux records read_records ∅ [(r, Some 2%nat); (r, None)]).1 = [Some [1; 2; 3; 4]; Some [1; 2]].
Proof.
  exists (fun _ => Some [1; 2; 3; 4]), (LReq (Tw 0 1000000) hhz). split.
  { split; [exact hhz_ok|exact window_ex]. }
  split; [|vm_compute; reflexivity]. intros [|x t] Ht; [done|]. unfold read_records, records. rewrite fmap_cons. cbn [concat app]. do 2 f_equal.
  induction t as [|y t IH]; [done|]. rewrite fmap_cons. cbn [concat app]. f_equal. apply IH. done.
Qed.
Print Assumptions C45_transparent_partial.
Print Assumptions C45_uninterrupted.
Print Assumptions C45_interrupted_refuted.
(** A format with the number of samples at the beginning meets the first condition. *)
Definition counted (t : list Z) : list Z := Z.of_nat (length t) :: t.
Definition read_counted (b : list Z) : option (list Z) := match b with n :: t => if decide (n = Z.of_nat (length t)) then Some t else None | [] => None end.
Example counted_ex : (forall t n t', read_counted (take n (counted t)) = Some t' -> t' = t) /\ disk_sound (fun _ => None : option (list Z)) counted ∅.
Proof.
  split; [|intros r b _ L; by rewrite lookup_empty in L]. intros t [|n] t'; [done|]. cbn [counted firstn read_counted]. case_decide as H; [|done]. intros [= <-].
  apply Nat2Z.inj in H. rewrite take_length in H. apply take_ge. lia.
Qed.

(** ** C46 *)
Section batch.
Context {N A : Type}.
Notation tr := (trace N A).
Variable load_traces : list request_t -> list (text * tw * option tr).
Variable iteration : list (text * tr) -> list (text * tr).
Notation step := (batch_step load_traces iteration).
Implicit Types b : @batch N A.
(** The requests made by a program before the first load *)
Fixpoint requested (l : list bop) : list request_t :=
  match l with
  | [] => []
  | BGet w s :: l' | BRequest w s :: l' => (stream_id s, w) :: requested l'
  | BLoad :: _ => []
  end.
Lemma has_request_spec l id w : has_request l id w = true <-> (id, w) ∈ l.
Proof using.
  unfold has_request. rewrite existsb_exists. split.
  - intros ([id' w'] & H & K). apply andb_true_iff in K as [K1 K2]. apply bool_decide_eq_true in K1. cbn in K1, K2. unfold tw_eqb in K2. apply andb_true_iff in K2 as [K2 K3].
    apply Z.eqb_eq in K2, K3. apply elem_of_list_In in H. destruct w, w'. cbn in *. by subst.
  - intros H. exists (id, w). split; [by apply elem_of_list_In|]. cbn. rewrite bool_decide_eq_true_2 by done. unfold tw_eqb. by rewrite !Z.eqb_refl.
Qed.
Lemma request_step b w s : b_loaded b = false -> exists b', batch_request b w s = Some b' /\ b_loaded b' = false /\ b_traces b' = b_traces b /\
  (NoDup (b_requests b) -> NoDup (b_requests b')) /\ (forall x, x ∈ b_requests b' <-> x ∈ b_requests b \/ x = (stream_id s, w)).
Proof using.
  intros H. unfold batch_request. rewrite H. destruct (has_request _ _ _) eqn:E.
  - exists b. apply has_request_spec in E. split; [done|]. split; [done|]. split; [done|]. split; [done|]. intros x. split; [by left|]. intros [| ->]; done.
  - eexists. split; [reflexivity|]. cbn [b_loaded b_traces b_requests]. split; [done|]. split; [done|]. split.
    + intros ND. constructor; [|done]. intros K. apply has_request_spec in K. congruence.
    + intros x. rewrite elem_of_cons. tauto.
Qed.
Lemma requests_inv l b : b_loaded b = false -> NoDup (b_requests b) -> (forall o, o ∈ l -> o <> BLoad) ->
  let b' := fold_left step l b in b_loaded b' = false /\ NoDup (b_requests b') /\ b_traces b' = b_traces b /\ (forall x, x ∈ b_requests b' <-> x ∈ b_requests b \/ x ∈ requested l).
Proof using.
  revert b. induction l as [|o l IH]; intros b Hb ND Hl; cbv zeta.
  { cbn [fold_left requested]. split; [done|]. split; [done|]. split; [done|]. intros x. split; [by left|]. intros [|K]; [done|by apply elem_of_nil in K]. }
  cbn [fold_left]. assert (exists w s, (o = BGet w s \/ o = BRequest w s)) as (w & s & Ho).
  { destruct o as [w s|w s|]; [by exists w, s; left|by exists w, s; right|]. exfalso. apply (Hl BLoad); [left|done]. }
  destruct (request_step b w s Hb) as (b' & Er & L' & T' & N' & R').
  assert (step b o = b') as ->. { destruct Ho as [-> | ->]; cbn [batch_step]; [unfold batch_get; rewrite Hb, Er; done|by rewrite Er]. }
  destruct (IH b' L' (N' ND) ltac:(intros o' Ho'; apply Hl; by right)) as (I1 & I2 & I3 & I4). split; [done|]. split; [done|]. split; [congruence|].
  intros x. rewrite I4, R'. assert (requested (o :: l) = (stream_id s, w) :: requested l) as -> by (destruct Ho as [-> | ->]; done). rewrite elem_of_cons. tauto.
Qed.
(** C46: load issues every distinct request once, and only those; *)
Theorem C46_requests_once l : (forall o, o ∈ l -> o <> BLoad) ->
  let b := fold_left step l batch_init in
  b_loaded b = false /\ NoDup (b_requests b) /\ (forall x, x ∈ b_requests b <-> x ∈ requested l).
Proof using.
  intros Hl. cbv zeta. destruct (requests_inv l batch_init eq_refl ltac:(constructor) Hl) as (I1 & I2 & _ & I3). split; [done|]. split; [done|].
  intros x. rewrite I3. split; [intros [K|]; [by apply elem_of_nil in K|done]|by right].
Qed.
(** and nothing is requested or loaded afterwards. *)
Theorem C46_loaded_once b l : b_loaded b = true -> fold_left step l b = b.
Proof using.
  intros H. induction l as [|o l IH]; [done|]. cbn [fold_left]. enough (step b o = b) as -> by done.
  destruct o; cbn [batch_step]; unfold batch_get, batch_request, batch_load; rewrite H; done.
Qed.
(** What the answer to a request must be: made of a trace delivered for the stream *)
Definition delivered (calls : list (text * tw * option tr)) (id : text) (t : tr) : Prop := exists w, (id, w, Some t) ∈ calls.
Lemma search_spec (l : list (text * tr)) (id : text) (w : tw) : (w_start w <= w_end w) -> (forall id' t, (id', t) ∈ l -> (0 < t_freq t)%Q) ->
  match search l id w with
  | Got t' => exists t, (id, t) ∈ l /\ w_contains (time_window t) w = true /\ (t' = t /\ time_window t = w \/ slice t w = SlTrue t')
  | Null => (forall t, (id, t) ∈ l -> w_contains (time_window t) w = false) \/
            exists t, (id, t) ∈ l /\ w_contains (time_window t) w = true /\ slice t w = SlFalse t
  | Undef => False
  end.
Proof using.
  intros Hw. induction l as [|[id' t] l IH]; intros Hf; cbn [search]. { left. intros t K. by apply elem_of_nil in K. }
  assert (match search l id w with
    | Got t' => exists t, (id, t) ∈ l /\ w_contains (time_window t) w = true /\ (t' = t /\ time_window t = w \/ slice t w = SlTrue t')
    | Null => (forall t, (id, t) ∈ l -> w_contains (time_window t) w = false) \/ exists t, (id, t) ∈ l /\ w_contains (time_window t) w = true /\ slice t w = SlFalse t
    | Undef => False end) as IH' by (apply IH; intros id'' t' K; eapply Hf; right; exact K). clear IH.
  assert ((id' <> id \/ w_contains (time_window t) w = false) -> match search l id w with
    | Got t' => exists t0, (id, t0) ∈ (id', t) :: l /\ w_contains (time_window t0) w = true /\ (t' = t0 /\ time_window t0 = w \/ slice t0 w = SlTrue t')
    | Null => (forall t0, (id, t0) ∈ (id', t) :: l -> w_contains (time_window t0) w = false) \/ exists t0, (id, t0) ∈ (id', t) :: l /\ w_contains (time_window t0) w = true /\ slice t0 w = SlFalse t0
    | Undef => False end) as Hskip.
  { intros Hne. destruct (search l id w) as [| |t']; [|done|].
    - destruct IH' as [K|(t0 & K1 & K2)]; [left|right; exists t0; split; [by right|done]].
      intros t0 [E|K0]%elem_of_cons; [|by apply K]. injection E as -> ->. destruct Hne; done.
    - destruct IH' as (t0 & K1 & K2). exists t0. split; [by right|done]. }
  case_decide as Hid; [|apply Hskip; by left]. subst id'. destruct (w_contains (time_window t) w) eqn:Ec; [|apply Hskip; by right]. clear Hskip.
  assert (0 < t_freq t)%Q as Hft by (eapply Hf; left). destruct (C48_defined t w Hft Hw) as [D1 D2].
  destruct (tw_eqb _ _) eqn:Eq.
  - exists t. split; [left|]. split; [done|]. left. split; [done|]. unfold tw_eqb in Eq. apply andb_true_iff in Eq as [E1 E2]. apply Z.eqb_eq in E1, E2. destruct (time_window t), w. cbn in *. by subst.
  - destruct (slice t w) as [|t1|t1] eqn:Es; [done| |].
    + right. exists t. split; [left|]. split; [done|]. by rewrite (D2 t1 eq_refl) in Es.
    + exists t. split; [left|]. split; [done|]. by right.
Qed.
(** C46: after a load a request is answered with a trace that the data source delivered for
    the stream, cut to the window; or with nothing, if none covers the window or the first
    one found could not be cut. Missing: the trace may be one delivered for another window,
    and the request fails if that one cannot be cut (see below). *)
Theorem C46_answer_partial b w s : (forall l x, x ∈ iteration l <-> x ∈ l) -> b_loaded b = false -> b_traces b = [] -> (w_start w <= w_end w) ->
  (forall id w' t, (id, w', Some t) ∈ load_traces (b_requests b) -> (0 < t_freq t)%Q) ->
  let calls := match b_requests b with [] => [] | l => load_traces l end in
  match (batch_get iteration (batch_load load_traces b) w s).1 with
  | Got t' => exists t, delivered calls (stream_id s) t /\ w_contains (time_window t) w = true /\ (t' = t /\ time_window t = w \/ slice t w = SlTrue t')
  | Null => (forall t, delivered calls (stream_id s) t -> w_contains (time_window t) w = false) \/
            exists t, delivered calls (stream_id s) t /\ w_contains (time_window t) w = true /\ slice t w = SlFalse t
  | Undef => False
  end.
Proof using.
  intros Hit Hl Ht Hw Hf calls. unfold batch_load. rewrite Hl.
  set (traces := omap (fun c : text * tw * option tr => match c.2 with Some t => Some (c.1.1, t) | None => None end) calls).
  assert (forall id t, (id, t) ∈ traces <-> delivered calls id t) as Hd.
  { intros id t. unfold traces, delivered. rewrite elem_of_list_omap. split.
    - intros ([[id' w'] o] & K & E). cbn in E. destruct o as [t'|]; [|done]. injection E as -> ->. by exists w'.
    - intros (w' & K). exists (id, w', Some t). split; [exact K|done]. }
  assert (forall id t, delivered calls id t -> (0 < t_freq t)%Q) as Hfreq.
  { intros id t (w' & K). unfold calls in K. destruct (b_requests b) as [|x l]; [by apply elem_of_nil in K|]. by eapply Hf. }
  assert (match b_requests b with [] => Batch true [] (b_traces b) | _ => Batch true [] (omap (fun c : text * tw * option tr => match c.2 with Some t => Some (c.1.1, t) | None => None end) (load_traces (b_requests b))) end = Batch true [] traces) as ->.
  { unfold traces, calls. rewrite Ht. destruct (b_requests b); done. }
  unfold batch_get. cbn [b_loaded b_traces fst].
  pose proof (search_spec (iteration traces) (stream_id s) w Hw ltac:(intros id t K; apply (Hfreq id); apply Hd; by apply Hit)) as HS.
  destruct (search _ _ _) as [| |t'].
  - destruct HS as [K|(t & K1 & K2)]; [left; intros t K1; apply K; apply Hit; by apply Hd|right]. exists t. split; [apply Hd; by apply Hit|done].
  - done.
  - destruct HS as (t & K1 & K2). exists t. split; [apply Hd; by apply Hit|done].
Qed.
End batch.
(** C46: three samples per second; the second window was delivered a trace, but the request
    for it is answered with nothing. *)
Theorem C46_answer_refuted : exists (load : list request_t -> list (text * tw * option (trace unit Z))) w1 w2 s t,
  (forall l, fst <$> load l = l) /\ (forall l id w' t', (id, w', Some t') ∈ load l -> w_contains (time_window t') w' = true) /\
  (stream_id s, w2, Some t) ∈ load [(stream_id s, w2); (stream_id s, w1)] /\ slice t w2 = SlTrue t /\
  let b := fold_left (batch_step load (@rev _)) [BGet w1 s; BGet w2 s; BLoad] batch_init in
  (batch_get (@rev _) b w2 s).1 = Null.
Proof.
  set (tA := MkTrace tt 0 3 [1; 2; 3] : trace unit Z). set (tB := MkTrace tt 333333 3 [2; 3; 4] : trace unit Z).
  set (w1 := Tw 0 666667). set (w2 := Tw 333333 666667).
  exists (fun l => (fun r : request_t => (r, if tw_eqb r.2 w1 then Some tA else if tw_eqb r.2 w2 then Some tB else None)) <$> l), w1, w2, hhz, tB.
  split. { intros l. rewrite <- list_fmap_compose. rewrite <- (list_fmap_id l) at 2. apply list_fmap_ext. done. }
  split. { intros l id w' t' K. apply elem_of_list_fmap in K as ([id' w''] & E & _). cbn [snd] in E. injection E as -> -> E.
    unfold tw_eqb in E. destruct (_ && _) eqn:E1 in E.
    - injection E as ->. apply andb_true_iff in E1 as [E1 E2]. apply Z.eqb_eq in E1, E2. unfold w_contains. rewrite E1, E2. done.
    - destruct (_ && _) eqn:E3 in E; [|done]. injection E as ->. apply andb_true_iff in E3 as [E3 E4]. apply Z.eqb_eq in E3, E4. unfold w_contains. rewrite E3, E4. done. }
  split; [left|]. split; vm_compute; reflexivity.
Qed.
Print Assumptions C46_requests_once.
Print Assumptions C46_loaded_once.
Print Assumptions C46_answer_partial.
Print Assumptions C46_answer_refuted.
