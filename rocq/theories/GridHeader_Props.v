(** C77: grid headers and the grids of a model. *)
From Coq Require Import Ascii String.
From stdpp Require Import numbers list strings.
From Verif Require Import GridHeader_Model.
Local Open Scope N_scope.

(** ** Specification *)
(** The words of a line are what is separated by white space: space, tab, newline, vertical tab,
    form feed and carriage return. *)
Definition white (c : ascii) : Prop := c ∈ [" "; "009"; "010"; "011"; "012"; "013"]%char.
Inductive spaced : text → list text → Prop :=
| sp_nil b : Forall white b → spaced b []
| sp_cons b w l ws : Forall white b → w ≠ [] → Forall (λ c, ¬ white c) w →
    match l with c :: _ => white c | [] => True end → spaced l ws → spaced (b ++ w ++ l) (w :: ws).
(** The lines of a file: all but perhaps the last end with a newline. *)
Definition newline : ascii := "010"%char.
Definition has_lines (file : text) (ls : list text) : Prop :=
  Forall (λ l, newline ∉ l) ls ∧
  (file = concat ((λ l, l ++ [newline]) <$> ls) ∨ ∃ ls' l, ls = ls' ++ [l] ∧ l ≠ [] ∧ file = concat ((λ l, l ++ [newline]) <$> ls') ++ l).
(** The lines that are not blank, as words *)
Definition rows (file : text) (rs : list (list text)) : Prop :=
  ∃ ls wss, has_lines file ls ∧ Forall2 spaced ls wss ∧ rs = filter (λ ws, ws ≠ []) wss.

Section spec.
Context {D : Type}.
Variable stod : text → option D.
Variable stoull : text → option N.
Variable stol : text → option Z.
Variable beyond : Z → D → bool.
Variable nonzero : D → bool.
Variable one : D.
Variable ell_ok : text → bool.
Notation transform := (@transform D).
Notation info := (@info D).
Notation dims := (@dims D).
Notation org := (@org D).

Definition key (ts : list text) : Prop := ∃ rest, ts = lit "TRANSFORM" :: rest ∨ ts = lit "TRANS" :: rest.
Definition origin_of (a b c : text) (o : org) : Prop :=
  stod a = Some (og_lat o) ∧ stod b = Some (og_lon o) ∧ stod c = Some (og_rot o) ∧
  beyond 90 (og_lat o) = false ∧ beyond 180 (og_lon o) = false ∧ beyond 360 (og_rot o) = false.
(** A line that describes a transform *)
Definition is_transform (ts : list text) (t : transform) : Prop := key ts ∧ ∃ rest,
  match t with
  | TGlobal => tail ts = lit "GLOBAL" :: rest
  | TSimple o => ∃ a b c, origin_of a b c o ∧ tail ts = [lit "SIMPLE"; lit "LatOrig"; a; lit "LongOrig"; b; lit "RotCW"; c] ++ rest
  | TSdc o => ∃ a b c, origin_of a b c o ∧ tail ts = [lit "SDC"; lit "LatOrig"; a; lit "LongOrig"; b; lit "RotCW"; c] ++ rest
  | TLambert e o pha phb => ∃ a b c p q, origin_of a b c o ∧ ell_ok e = true ∧ stod p = Some pha ∧ stod q = Some phb ∧ beyond 90 pha = false ∧ beyond 90 phb = false ∧
      tail ts = [lit "LAMBERT"; lit "RefEllipsoid"; e; lit "LatOrig"; a; lit "LongOrig"; b; lit "FirstStdParal"; p; lit "SecondStdParal"; q; lit "RotCW"; c] ++ rest
  | TTransMerc e o uf fe sc => ∃ a b c, origin_of a b c o ∧ ell_ok e = true ∧
      tail ts = [lit "TRANS_MERC"; lit "RefEllipsoid"; e; lit "LatOrig"; a; lit "LongOrig"; b; lit "RotCW"; c] ++ rest ∧
      (* the three optional parts *)
      ((rest = [] ∧ uf = false ∧ fe = 500000%Z ∧ sc = None) ∨
       ∃ u x rest1, rest = [lit "UseFalseEasting"; u] ++ rest1 ∧ stod u = Some x ∧ uf = nonzero x ∧
         ((rest1 = [] ∧ fe = 500000%Z ∧ sc = None) ∨
          ∃ f rest2, rest1 = [lit "FalseEasting"; f] ++ rest2 ∧ stol f = Some fe ∧
            ((rest2 = [] ∧ sc = None) ∨
             ∃ s y rest3, rest2 = [lit "ScaleFactor"; s] ++ rest3 ∧ stod s = Some y ∧ sc = Some y)))
  | TAzimuthal e o => ∃ a b c, origin_of a b c o ∧ ell_ok e = true ∧
      tail ts = [lit "AZIMUTHAL_EQUIDIST"; lit "RefEllipsoid"; e; lit "LatOrig"; a; lit "LongOrig"; b; lit "RotCW"; c] ++ rest
  end.
(** The first line: numbers of nodes, origin, steps, type, and perhaps the type of the values *)
Definition is_first (ts : list text) (d : dims) (ty : text) : Prop :=
  ∃ a b c e f g h i j nx ny nz ox oy oz dx dy dz opt, ts = [a; b; c; e; f; g; h; i; j; ty] ++ opt ∧
    stoull a = Some nx ∧ stoull b = Some ny ∧ stoull c = Some nz ∧
    stod e = Some ox ∧ stod f = Some oy ∧ stod g = Some oz ∧ stod h = Some dx ∧ stod i = Some dy ∧ stod j = Some dz ∧
    d = Dims (nx, ny, nz) (ox, oy, oz) (dx, dy, dz) (bool_decide (opt = [lit "DOUBLE"])) ∧ (length opt ≤ 1)%nat.
Definition is_source (ts : list text) (label : text) (p : D * D * D) : Prop :=
  ∃ a b c, ts = [label; a; b; c] ∧ stod a = Some p.1.1 ∧ stod b = Some p.1.2 ∧ stod c = Some p.2.
(** The step in x of a grid with a single plane is set to one. *)
Definition adjusted (d d' : dims) : Prop :=
  d_num d' = d_num d ∧ d_orig d' = d_orig d ∧ d_double d' = d_double d ∧ (d_step d').1.2 = (d_step d).1.2 ∧ (d_step d').2 = (d_step d).2 ∧
  ((d_num d).1.1 = 1 → (d_step d').1.1 = one) ∧ ((d_num d).1.1 ≠ 1 → (d_step d').1.1 = (d_step d).1.1).
Definition unkeyed (rs : list (list text)) : Prop := Forall (λ ts, ¬ key ts) rs.
(** A header of a time or angle grid, and of a velocity grid: lines in this order, between any
    lines that cannot be taken for one of them *)
Definition tree_header (rs : list (list text)) (d : dims) (ty label : text) (p : D * D * D) (t : transform) : Prop :=
  ∃ pre first mid src mid2 tr post, rs = pre ++ [first] ++ mid ++ [src] ++ mid2 ++ [tr] ++ post ∧
    unkeyed pre ∧ Forall (λ ts, length ts ≠ 10 ∧ length ts ≠ 11)%nat pre ∧ is_first first d ty ∧
    unkeyed mid ∧ Forall (λ ts, length ts ≠ 4)%nat mid ∧ is_source src label p ∧ unkeyed mid2 ∧ is_transform tr t ∧ unkeyed post.
Definition vel_header (rs : list (list text)) (d : dims) (ty : text) (t : transform) : Prop :=
  ∃ pre first mid tr post, rs = pre ++ [first] ++ mid ++ [tr] ++ post ∧
    unkeyed pre ∧ Forall (λ ts, length ts ≠ 10 ∧ length ts ≠ 11)%nat pre ∧ is_first first d ty ∧
    unkeyed mid ∧ is_transform tr t ∧ unkeyed post.
End spec.

(** At most one row describes a transform, and a row of 10 or 11 words precedes it. *)
Definition sound_rows (rs : list (list text)) : Prop :=
  ∀ pre ts post, rs = pre ++ ts :: post → key ts → unkeyed pre ∧ unkeyed post ∧ Exists (λ r, length r = 10 ∨ length r = 11)%nat pre.
(** The names of the grids of a model *)
Definition tree_name (model phase kind name : text) : Prop :=
  ∃ station, station ≠ [] ∧ name = model ++ lit "." ++ phase ++ lit "." ++ station ++ lit "." ++ kind ++ lit ".hdr".
Definition vel_name (model phase name : text) : Prop := name = model ++ lit "." ++ phase ++ lit ".mod.hdr".
(** Those entries, in their order, that give a grid *)
Inductive taken {E P : Type} (ok : E → P → Prop) : list E → list P → Prop :=
| taken_nil : taken ok [] []
| taken_take e p es ps : ok e p → taken ok es ps → taken ok (e :: es) (p :: ps)
| taken_skip e es ps : (∀ p, ¬ ok e p) → taken ok es ps → taken ok (e :: es) ps.

(** ** Words and lines *)
Lemma blank_true c : blank c = true ↔ white c.
Proof.
  enough (blank c = bool_decide (white c)) as -> by apply bool_decide_eq_true. unfold white.
  destruct c as [[] [] [] [] [] [] [] []]; vm_compute; done.
Qed.
Lemma blank_false c : blank c = false ↔ ¬ white c.
Proof. rewrite <-blank_true. destruct (blank c); naive_solver. Qed.
Lemma split_blank b l : Forall white b → split_go true [] (b ++ l) = split_go true [] l.
Proof. induction 1 as [|c b H _ IH]; [done|]. cbn. apply blank_true in H. by rewrite H. Qed.
Lemma split_word w l b cur : w ≠ [] → Forall (λ c, ¬ white c) w → split_go b cur (w ++ l) = split_go false (rev w ++ cur) l.
Proof.
  intros Hw H. revert b cur Hw. induction H as [|c w Hc H IH]; intros b cur Hw; [done|]. cbn. apply blank_false in Hc. rewrite Hc. destruct w as [|c' w]; [done|].
  rewrite IH by done. f_equal. cbn. by rewrite <-!app_assoc.
Qed.
Lemma split_spaced l ws : spaced l ws → split_go true [] l = ws.
Proof.
  induction 1 as [b Hb|b w l ws Hb Hw HW Hl H IH].
  - rewrite <-(app_nil_r b), split_blank by done. done.
  - rewrite split_blank, split_word, app_nil_r by done. destruct l as [|c l]; cbn.
    + cbn in IH. subst ws. assert (rev w ≠ []) as E by (intros E; apply (f_equal (@rev _)) in E; rewrite rev_involutive in E; done).
      destruct (rev w) eqn:Er; [done|]. rewrite <-Er, rev_involutive. done.
    + cbn in IH. apply blank_true in Hl. rewrite Hl in *. rewrite rev_involutive. by rewrite IH.
Qed.
Lemma spaced_words l ws : spaced l ws → Forall (λ w, w ≠ []) ws.
Proof. induction 1; constructor; done. Qed.
Lemma tokens_spaced l ws : spaced l ws → tokens_of l = ws.
Proof.
  intros H. pose proof (split_spaced l ws H) as E. unfold tokens_of, split_string. destruct l as [|c l]; [done|].
  cbn in E. cbn. destruct (blank c); [done|]. rewrite E. pose proof (spaced_words _ _ H) as HW. destruct ws as [|[|] ws]; [done| |done].
  by inversion HW.
Qed.
Lemma spaced_exists l : ∃ ws, spaced l ws.
Proof.
  induction l as [|c l [ws IH]]; [exists []; by constructor|]. destruct (blank c) eqn:E.
  - apply blank_true in E. exists ws. inversion IH; subst; [constructor; by constructor|]. change (c :: b ++ w ++ l0) with ((c :: b) ++ w ++ l0). constructor; try done. by constructor.
  - apply blank_false in E. destruct l as [|c' l].
    + exists [[c]]. apply (sp_cons [] [c] []); try done; [by constructor|]. by constructor.
    + destruct (blank c') eqn:E'; [apply blank_true in E'|apply blank_false in E'].
      * exists ([c] :: ws). apply (sp_cons [] [c] (c' :: l)); try done. by constructor.
      * inversion IH as [b Hb EB|b w l' ws' Hb Hw HW Hl H EB]; subst.
        -- by inversion Hb.
        -- destruct b as [|c0 b]; [|cbn in EB; injection EB as -> _; by inversion Hb].
           cbn in EB |- *. exists ((c :: w) :: ws'). try rewrite <-EB. change (c :: w ++ l') with ([] ++ (c :: w) ++ l'). constructor; try done. by constructor.
Qed.
(** The words of a line are found, whatever the blanks; every line has words. *)
Theorem C77_words l : (∀ ws, spaced l ws → tokens_of l = ws) ∧ spaced l (tokens_of l).
Proof.
  split; [apply tokens_spaced|]. destruct (spaced_exists l) as [ws H]. by rewrite (tokens_spaced _ _ H).
Qed.
Lemma getlines_line l : newline ∉ l → ∀ cur rest, getlines cur (l ++ newline :: rest) = (rev cur ++ l) :: getlines [] rest.
Proof.
  induction l as [|c l IH]; intros H cur rest; cbn; [by rewrite app_nil_r|].
  rewrite decide_False by (intros ->; apply H; by left). rewrite IH by (intros ?; apply H; by right). cbn. by rewrite <-app_assoc.
Qed.
Lemma getlines_last l : newline ∉ l → ∀ cur, rev cur ++ l ≠ [] → getlines cur l = [rev cur ++ l].
Proof.
  induction l as [|c l IH]; intros H cur Hn; cbn.
  - rewrite app_nil_r in *. by destruct cur.
  - rewrite decide_False by (intros ->; apply H; by left). rewrite IH; [|intros ?; apply H; by right|cbn; destruct (rev cur); done].
    cbn. by rewrite <-app_assoc.
Qed.
Theorem C77_lines file ls : has_lines file ls → getlines [] file = ls.
Proof.
  assert (∀ ls rest, Forall (λ l, newline ∉ l) ls → getlines [] (concat ((λ l, l ++ [newline]) <$> ls) ++ rest) = ls ++ getlines [] rest) as H.
  { clear. induction ls as [|l ls IH]; intros rest HF; [done|]. inversion HF; subst. rewrite fmap_cons. cbn. rewrite <-!app_assoc. cbn.
    rewrite getlines_line by done. cbn. by rewrite IH. }
  intros [HF [->|(ls' & l & -> & Hl & ->)]].
  - specialize (H ls [] HF). rewrite app_nil_r in H. rewrite H. by rewrite app_nil_r.
  - apply Forall_app in HF as [HF1 HF2]. rewrite H by done. f_equal. inversion HF2; subst. by rewrite getlines_last.
Qed.

(** ** Names *)
Lemma suffix_differs a b : a ++ lit ".time.hdr" = b ++ lit ".angle.hdr" → False.
Proof. intros E. apply (f_equal (@rev _)) in E. rewrite !rev_app_distr in E. cbn in E. done. Qed.
Lemma suffix_time a b : a ++ lit ".time.hdr" = b ++ lit ".mod.hdr" → False.
Proof. intros E. apply (f_equal (@rev _)) in E. rewrite !rev_app_distr in E. cbn in E. done. Qed.
Lemma suffix_angle a b : a ++ lit ".angle.hdr" = b ++ lit ".mod.hdr" → False.
Proof. intros E. apply (f_equal (@rev _)) in E. rewrite !rev_app_distr in E. cbn in E. done. Qed.
Lemma phase_differs (model a b : text) : model ++ lit "." ++ lit "P" ++ a = model ++ lit "." ++ lit "S" ++ b → False.
Proof. intros E. apply app_inv_head in E. cbn in E. done. Qed.
(** A name is that of a grid for a phase exactly if it matches. *)
Theorem C77_name model phase kind name : matches_tree model phase kind name = true ↔ tree_name model phase kind name.
Proof.
  unfold matches_tree, strip_prefix, tree_name. set (p := model ++ lit "." ++ phase ++ lit "."). set (s := lit "." ++ kind ++ lit ".hdr"). split.
  - case_decide as E; [|done]. rewrite andb_true_iff, !bool_decide_eq_true. intros [Hl Hs].
    set (r := drop (length p) name) in *. exists (take (length r - length s) r). split.
    + intros E0. apply (f_equal length) in E0. rewrite take_length in E0. cbn [length] in E0. lia.
    + rewrite <-(take_drop (length p) name) at 1. fold r. rewrite E. rewrite <-(take_drop (length r - length s) r) at 1. rewrite Hs.
      unfold p, s. by rewrite <-!app_assoc.
  - intros (x & Hx & ->). assert (model ++ lit "." ++ phase ++ lit "." ++ x ++ s = p ++ (x ++ s)) as -> by (unfold p; by rewrite <-!app_assoc).
    rewrite decide_True by by rewrite take_app_alt. rewrite drop_app_alt by done. rewrite andb_true_iff, !bool_decide_eq_true. rewrite app_length. split.
    + destruct x; [done|]. cbn [length]. lia.
    + rewrite drop_app_alt; [done|]. lia.
Qed.

(** ** Transforms *)
Lemma rbind_done {A B} (r : result A) (f : A → result B) b : rbind r f = Done b ↔ ∃ a, r = Done a ∧ f a = Done b.
Proof. destruct r; cbn; [split; [intros H; by eexists|intros (a' & [= <-] & H); done]| |]; (split; [done|intros (? & ? & ?); done]). Qed.
Lemma of_option_done {A} (o : option A) a : of_option o = Done a ↔ o = Some a.
Proof. destruct o; cbn; split; congruence. Qed.

Section proofs.
Context {D : Type}.
Variable stod : text → option D.
Variable stoull : text → option N.
Variable stol : text → option Z.
Variable beyond : Z → D → bool.
Variable nonzero : D → bool.
Variable one : D.
Variable ell_ok : text → bool.
Notation parse_transform := (parse_transform stod stol beyond nonzero ell_ok).
Notation is_transform := (is_transform stod stol beyond nonzero ell_ok).
Notation origin_of := (origin_of stod beyond).

Lemma num_done ts i x : num stod ts i = Done x ↔ ∃ s, ts !! i = Some s ∧ stod s = Some x.
Proof. unfold num, at_. rewrite rbind_done. setoid_rewrite of_option_done. done. Qed.
Lemma at_done ts i s : at_ ts i = Done s ↔ ts !! i = Some s.
Proof. apply of_option_done. Qed.
Lemma expect_done ts l u : expect ts l = Done u ↔ Forall (λ p, ts !! p.1 = Some p.2) l.
Proof.
  destruct u. induction l as [|[i s] l IH]; cbn; [by split|]. rewrite rbind_done. setoid_rewrite at_done. rewrite Forall_cons, <-IH. cbn. split.
  - intros (t & Ht & H). case_decide; [subst; done|done].
  - intros [Ht H]. exists s. by rewrite decide_True.
Qed.
Lemma check_org_done o o' : check_org beyond o = Done o' ↔ o' = o ∧ beyond 90 (og_lat o) = false ∧ beyond 180 (og_lon o) = false ∧ beyond 360 (og_rot o) = false.
Proof. unfold check_org. destruct (beyond 90 _), (beyond 180 _), (beyond 360 _); naive_solver. Qed.
Lemma check_ell_done e u : check_ell ell_ok e = Done u ↔ ell_ok e = true.
Proof. unfold check_ell. destruct (ell_ok e), u; naive_solver. Qed.
Definition keyword (k : text) : Prop := k = lit "TRANSFORM" ∨ k = lit "TRANS".
Lemma key_cons k ts : key (k :: ts) ↔ keyword k.
Proof. unfold key, keyword. split; [intros (r & [[= -> ->] | [= -> ->]]); auto|intros [-> | ->]; eauto]. Qed.

Ltac inv :=
  repeat match goal with
  | H : rbind _ _ = Done _ |- _ => apply rbind_done in H as (? & ? & ?)
  | H : at_ _ _ = Done _ |- _ => apply at_done in H
  | H : num _ _ _ = Done _ |- _ => apply num_done in H as (? & ? & ?)
  | H : expect _ _ = Done _ |- _ => apply expect_done in H
  | H : check_org _ _ = Done _ |- _ => apply check_org_done in H as (? & ? & ? & ?)
  | H : check_ell _ _ = Done _ |- _ => apply check_ell_done in H
  | H : of_option _ = Done _ |- _ => apply of_option_done in H
  | H : Forall _ (_ :: _) |- _ => apply Forall_cons in H as [? H]
  | H : Forall _ [] |- _ => clear H
  | H : Done (_, _) = Done (_, _) |- _ => injection H as <- <-
  | H : Done _ = Done _ |- _ => injection H as H
  | H : Throws = Done _ |- _ => discriminate H
  | H : Some _ = Some _ |- _ => injection H as H
  | H : (if ?b then Throws else _) = Done _ |- _ => destruct b eqn:?; [discriminate H|]
  end; cbn [fst snd] in *.

Lemma transform_complete ts t : is_transform ts t → parse_transform ts = Done t.
Proof.
  intros [HK [rest H]]. destruct ts as [|k ts]; [by destruct HK as (r & [?|?])|]. apply key_cons in HK. cbn [tail] in H.
    unfold parse_transform. cbn [at_ of_option lookup list_lookup rbind].
    assert (negb (bool_decide (k = lit "TRANSFORM")) && negb (bool_decide (k = lit "TRANS")) = false) as ->.
    { apply andb_false_iff. rewrite !negb_false_iff, !bool_decide_eq_true. done. }
    clear HK. destruct t as [|[la lo ro]|[la lo ro]|e [la lo ro] pha phb|e [la lo ro] uf fe sc|e [la lo ro]]; cbn in H.
    + subst ts. done.
    + destruct H as (a & b & c & (Ha & Hb & Hc & H1 & H2 & H3) & ->). cbn in *. unfold num. cbn. rewrite Ha, Hb, Hc. cbn. unfold check_org. cbn. by rewrite H1, H2, H3.
    + destruct H as (a & b & c & (Ha & Hb & Hc & H1 & H2 & H3) & ->). cbn in *. unfold num. cbn. rewrite Ha, Hb, Hc. cbn. unfold check_org. cbn. by rewrite H1, H2, H3.
    + destruct H as (a & b & c & p & q & (Ha & Hb & Hc & H1 & H2 & H3) & He & Hp & Hq & H4 & H5 & ->). cbn in *. unfold num. cbn. rewrite Ha, Hb, Hc, Hp, Hq. cbn.
      unfold check_org. cbn. rewrite H1, H2, H3, H4, H5. unfold check_ell. by rewrite He.
    + destruct H as (a & b & c & (Ha & Hb & Hc & H1 & H2 & H3) & He & -> & H). cbn in *. unfold num. cbn. rewrite Ha, Hb, Hc. cbn.
      unfold check_org. cbn. rewrite H1, H2, H3. unfold check_ell. rewrite He.
      destruct H as [(-> & -> & -> & ->)|(u & x & r1 & -> & Hu & -> & H)]; [done|]. cbn. rewrite Hu. cbn.
      destruct H as [(-> & -> & ->)|(f & r2 & -> & Hf & H)]; [done|]. cbn. rewrite Hf. cbn.
      destruct H as [(-> & ->)|(s & y & r3 & -> & Hs & ->)]; [done|]. cbn. rewrite Hs. done.
    + destruct H as (a & b & c & (Ha & Hb & Hc & H1 & H2 & H3) & He & ->). cbn in *. unfold num. cbn. rewrite Ha, Hb, Hc. cbn.
      unfold check_org. cbn. rewrite H1, H2, H3. unfold check_ell. by rewrite He.
Qed.
Local Arguments expect : simpl never.
Local Arguments at_ : simpl never.
Local Arguments num : simpl never.
Local Arguments list_ascii_of_string : simpl never.
Local Arguments int : simpl never.
Lemma transform_sound ts t : parse_transform ts = Done t → is_transform ts t.
Proof.
  intros H. unfold parse_transform in H. apply rbind_done in H as (k & Hk & H). apply at_done in Hk.
    destruct ts as [|k' ts]; [done|]. injection Hk as ->. unfold is_transform. rewrite key_cons. cbn [tail].
    destruct (negb _ && negb _) eqn:EK; [done|]. assert (keyword k) as HK.
    { unfold keyword. apply andb_false_iff in EK as [E|E]; apply negb_false_iff, bool_decide_eq_true in E; auto. }
    clear EK. split; [done|]. apply rbind_done in H as (ty & Hty & H). apply at_done in Hty.
    destruct ts as [|ty' ts]; [done|]. cbn in Hty. injection Hty as ->.
    case_decide as E1. { injection H as <-. subst ty. by eexists. }
    destruct (bool_decide (ty = lit "SDC") || bool_decide (ty = lit "SIMPLE")) eqn:E2.
    { apply orb_true_iff in E2. rewrite !bool_decide_eq_true in E2. inv. subst.
      do 6 (destruct ts as [|? ts]; [done|]). cbn in *. inv. subst. exists ts.
      case_decide as E; inv; subst.
      - do 3 eexists. split; [unfold origin_of; cbn; eauto 10|done].
      - destruct E2 as [-> | ->]; [|done]. do 3 eexists. split; [unfold origin_of; cbn; eauto 10|done]. }
    case_decide as E3.
    { inv. subst. do 12 (destruct ts as [|? ts]; [done|]). cbn in *. inv. subst. exists ts. do 5 eexists.
      split; [unfold origin_of; cbn; eauto 10|]. eauto 10. }
    case_decide as E4.
    { inv. subst. do 8 (destruct ts as [|? ts]; [done|]). cbn in *. inv. subst. exists ts. do 3 eexists.
      split; [unfold origin_of; cbn; eauto 10|]. split; [done|]. split; [done|].
      destruct ts as [|w1 ts].
      { left. repeat (rewrite decide_False in * by (cbn; lia)). inv. subst. done. }
      right. rewrite decide_True in * by (cbn; lia). inv. subst. cbn in *. inv. subst. destruct ts as [|w2 ts]; [done|]. cbn in *. inv. subst.
      do 3 eexists. split; [done|]. split; [eassumption|]. split; [done|].
      destruct ts as [|w3 ts].
      { left. repeat (rewrite decide_False in * by (cbn; lia)). inv. subst. done. }
      right. rewrite decide_True in * by (cbn; lia). inv. subst. cbn in *. inv. subst. destruct ts as [|w4 ts]; [done|]. cbn in *. inv. subst.
      do 2 eexists. split; [done|]. split; [eassumption|].
      destruct ts as [|w5 ts].
      { left. repeat (rewrite decide_False in * by (cbn; lia)). inv. subst. done. }
      right. rewrite decide_True in * by (cbn; lia). inv. subst. cbn in *. inv. subst. destruct ts as [|w6 ts]; [done|]. cbn in *. inv. subst.
      do 3 eexists. split; [done|]. split; [eassumption|done]. }
    case_decide as E5; [|done].
    inv. subst. do 8 (destruct ts as [|? ts]; [done|]). cbn in *. inv. subst. exists ts. do 3 eexists.
    split; [unfold origin_of; cbn; eauto 10|]. done.
Qed.
(** A line is accepted with a transform exactly if it describes it. *)
Theorem C77_transform ts t : parse_transform ts = Done t ↔ is_transform ts t.
Proof. split; [apply transform_sound|apply transform_complete]. Qed.

(** ** Rows *)
Notation parse_line := (parse_line stod stoull stol beyond nonzero ell_ok).
Notation parse_lines := (parse_lines stod stoull stol beyond nonzero ell_ok).
Notation parse := (parse stod stoull stol beyond nonzero one ell_ok).
Notation is_first := (is_first stod stoull).
Notation is_source := (is_source stod).
Notation info := (@info D).
Notation dims := (@dims D).

Lemma int_done ts i x : int stoull ts i = Done x ↔ ∃ s, ts !! i = Some s ∧ stoull s = Some x.
Proof. unfold int, at_. rewrite rbind_done. setoid_rewrite of_option_done. done. Qed.
Definition tree (gt : gtype) : Prop := match gt with GVelocity => False | _ => True end.
Definition idle (gt : gtype) (n : nat) (ts : list text) : Prop :=
  ¬ key ts ∧ (n = 0%nat → length ts ≠ 10%nat ∧ length ts ≠ 11%nat) ∧ (n = 1%nat → tree gt → length ts ≠ 4%nat).
Definition steps (gt : gtype) (n : nat) (i : info) (ts : list text) (i' : info) : Prop :=
  (n = 0%nat ∧ ∃ d ty, is_first ts d ty ∧ i' = Info (Some d) ty (i_label i) (i_src i) (i_trans i)) ∨
  (n = 1%nat ∧ tree gt ∧ ∃ lb p, is_source ts lb p ∧ i' = Info (i_dims i) (i_type i) lb (Some p) (i_trans i)) ∨
  (∃ t, is_transform ts t ∧ i' = Info (i_dims i) (i_type i) (i_label i) (i_src i) (Some t) ∧
     ¬ (n = 0%nat ∧ (length ts = 10%nat ∨ length ts = 11%nat)) ∧ ¬ (n = 1%nat ∧ tree gt ∧ length ts = 4%nat)).

Lemma parse_line_done gt i n ts i' n' : ts ≠ [] → parse_line gt (i, n) ts = Done (i', n') ↔
  (n' = S n ∧ steps gt n i ts i') ∨ (n' = n ∧ i' = i ∧ idle gt n ts).
Proof.
  intros Hts. unfold parse_line.
  destruct (bool_decide (n = 0%nat) && (bool_decide (length ts = 10%nat) || bool_decide (length ts = 11%nat))) eqn:E1.
  { apply andb_true_iff in E1 as [En%bool_decide_eq_true El]. apply orb_true_iff in El. rewrite !bool_decide_eq_true in El. subst n. split.
    - intros H. inv. left. split; [done|]. left. split; [done|].
      do 10 (destruct ts as [|? ts]; [done|]).
      repeat match goal with H : int _ _ _ = Done _ |- _ => apply int_done in H as (? & ? & ?) end. cbn in *. inv. subst.
      do 2 eexists. split; [|done]. do 18 eexists. exists ts. split; [done|].
      do 9 (split; [eassumption|]). split; [|destruct El; lia]. f_equal. destruct ts as [|w [|]]; cbn in *.
      + rewrite decide_False in H9 by lia. injection H9 as <-. done.
      + rewrite decide_True in H9 by lia. inv. cbn in *. inv. subst. apply bool_decide_ext. split; [by intros ->|by intros [= ->]].
      + destruct El; lia.
    - intros [[-> H]|(-> & -> & H)].
      + destruct H as [(_ & d & ty & H & ->)|[(? & _)|(t & _ & _ & H & _)]]; [|done|by destruct H].
        destruct H as (a & b & c & e & f & g & h & j & k & nx & ny & nz & ox & oy & oz & dx & dy & dz & opt & -> & ? & ? & ? & ? & ? & ? & ? & ? & ? & -> & Hopt).
        unfold int, num, at_. cbn [lookup list_lookup app of_option rbind].
        repeat (match goal with H : _ = Some _ |- _ => rewrite H; clear H end; cbn [of_option rbind]).
        destruct opt as [|w [|]]; cbn in *; [done| |lia]. rewrite decide_True by done. cbn [rbind]. do 5 f_equal. apply bool_decide_ext. split; [by intros ->|by intros [= ->]].
      + destruct H as (_ & H & _). destruct (H eq_refl). naive_solver. }
  assert (¬ (n = 0%nat ∧ (length ts = 10%nat ∨ length ts = 11%nat))) as N1.
  { intros [-> [H|H]]; rewrite bool_decide_true in E1 by done; cbn in E1; rewrite H in E1; done. }
  assert (∀ d ty, is_first ts d ty → n ≠ 0%nat) as N1'.
  { intros d ty H ->. apply N1. split; [done|]. destruct H as (?&?&?&?&?&?&?&?&?&?&?&?&?&?&?&?&?&?&opt& -> &?&?&?&?&?&?&?&?&?&?&Ho). cbn. destruct opt as [|? [|]]; cbn in *; lia. }
  destruct (bool_decide (n = 1%nat) && bool_decide (length ts = 4%nat) && match gt with GVelocity => false | _ => true end) eqn:E2.
  { apply andb_true_iff in E2 as [E2 Eg]. apply andb_true_iff in E2 as [En El]. rewrite bool_decide_eq_true in En, El. subst n.
    assert (tree gt) as Hg by by destruct gt. split.
    - intros H. inv. left. split; [done|]. right. left. split; [done|]. split; [done|].
      do 5 (destruct ts as [|? ts]; [done| ]) || (destruct ts; [|done]). cbn in *. inv. subst. eexists _, (_, _, _). split; [|done]. do 3 eexists. cbn. eauto.
    - intros [[-> H]|(-> & -> & H)].
      + destruct H as [(? & _)|[(_ & _ & lb & [[x y] z] & H & ->)|(t & _ & _ & _ & H)]]; [done| |by destruct H].
        destruct H as (a & b & c & -> & Ha & Hb & Hc). cbn in *. unfold num, at_. cbn. rewrite Ha, Hb, Hc. done.
      + destruct H as (_ & _ & H). by destruct (H eq_refl Hg). }
  assert (¬ (n = 1%nat ∧ tree gt ∧ length ts = 4%nat)) as N2.
  { intros (-> & Hg & H). rewrite H in E2. destruct gt; done. }
  destruct ts as [|k ts]; [done|]. unfold at_. cbn [lookup list_lookup of_option rbind].
  destruct (bool_decide (k = lit "TRANSFORM") || bool_decide (k = lit "TRANS")) eqn:EK.
  - apply orb_true_iff in EK. rewrite !bool_decide_eq_true in EK. rewrite rbind_done. split.
    + intros (t & Ht & [= <- <-]). left. split; [done|]. right. right. exists t. split; [by apply C77_transform|]. done.
    + intros [[-> H]|(-> & -> & [H _])]; [|destruct H; by apply key_cons].
      destruct H as [(-> & d & ty & H & _)|[(-> & Hg & lb & p & H & _)|(t & Ht & -> & _ & _)]].
      * by destruct (N1' _ _ H).
      * destruct N2. destruct H as (a & b & c & -> & _). done.
      * exists t. split; [by apply C77_transform|done].
  - apply orb_false_iff in EK. rewrite !bool_decide_eq_false in EK.
    assert (¬ key (k :: ts)) as NK by (rewrite key_cons; unfold keyword; tauto). split.
    + intros [= <- <-]. right. split; [done|]. split; [done|]. split; [done|]. split; [intros ->; split; intros ?; apply N1; auto|intros -> ? ?; by apply N2].
    + intros [[-> H]|(-> & -> & _)]; [|done].
      destruct H as [(-> & d & ty & H & _)|[(-> & Hg & lb & p & H & _)|(t & Ht & -> & _ & _)]].
      * by destruct (N1' _ _ H).
      * destruct N2. destruct H as (a & b & c & Hl & _). by rewrite Hl.
      * by destruct Ht.
Qed.

Lemma parse_lines_cons gt st ts rs : ts ≠ [] → parse_lines gt st (ts :: rs) = rbind (parse_line gt st ts) (λ st', parse_lines gt st' rs).
Proof. by destruct ts. Qed.
Lemma parse_lines_idle gt i n pre rs : Forall (idle gt n) pre → parse_lines gt (i, n) (pre ++ rs) = parse_lines gt (i, n) rs.
Proof.
  induction 1 as [|ts pre H _ IH]; [done|]. destruct (decide (ts = [])) as [->|Ht]; [done|]. cbn [app].
  rewrite parse_lines_cons by done. assert (parse_line gt (i, n) ts = Done (i, n)) as -> by (apply parse_line_done; auto). done.
Qed.
Lemma parse_lines_step gt i n ts i' rs : ts ≠ [] → steps gt n i ts i' → parse_lines gt (i, n) (ts :: rs) = parse_lines gt (i', S n) rs.
Proof.
  intros Ht H. rewrite parse_lines_cons by done. assert (parse_line gt (i, n) ts = Done (i', S n)) as -> by (apply parse_line_done; auto). done.
Qed.
Lemma parse_lines_inv gt rs : ∀ i n i' n', parse_lines gt (i, n) rs = Done (i', n') →
  (n' = n ∧ i' = i ∧ Forall (idle gt n) rs) ∨
  ∃ pre ts rs' i1, rs = pre ++ ts :: rs' ∧ Forall (idle gt n) pre ∧ steps gt n i ts i1 ∧ parse_lines gt (i1, S n) rs' = Done (i', n').
Proof.
  induction rs as [|ts rs IH]; intros i n i' n' H.
  { injection H as <- <-. auto. }
  destruct (decide (ts = [])) as [->|Ht].
  - assert (idle gt n []) as Hi. { split; [intros (r & [?|?]); done|]. split; cbn; lia. }
    apply (IH i n) in H as [(-> & -> & H)|(pre & ts & rs' & i1 & -> & HF & HS & H)].
    + left. split; [done|]. split; [done|]. by constructor.
    + right. exists ([] :: pre), ts, rs', i1. split; [done|]. split; [by constructor|]. done.
  - rewrite parse_lines_cons in H by done. apply rbind_done in H as ([i1 n1] & H1 & H).
    apply parse_line_done in H1 as [[-> HS]|(-> & -> & Hi)]; [| |done].
    + right. exists [], ts, rs, i1. split; [done|]. split; [constructor|]. done.
    + apply IH in H as [(-> & -> & H)|(pre & ts' & rs' & i1 & -> & HF & HS & H)].
      * left. split; [done|]. split; [done|]. by constructor.
      * right. exists (ts :: pre), ts', rs', i1. split; [done|]. split; [by constructor|]. done.
Qed.
Lemma parse_lines_grows gt rs : ∀ i n i' n', parse_lines gt (i, n) rs = Done (i', n') → (n ≤ n')%nat.
Proof.
  induction rs as [|ts rs IH]; intros i n i' n' H; [injection H as <- <-; done|].
  destruct (decide (ts = [])) as [->|Ht]; [by apply (IH _ _ _ _ H)|].
  rewrite parse_lines_cons in H by done. apply rbind_done in H as ([i1 n1] & H1 & H).
  apply IH in H. apply parse_line_done in H1 as [[-> HS]|(-> & -> & Hi)]; [lia|lia|done].
Qed.
Lemma steps_nonempty gt n i ts i' : steps gt n i ts i' → ts ≠ [].
Proof.
  intros [(_ & d & ty & H & _)|[(_ & _ & lb & p & (a & b & c & -> & _) & _)|(t & [(r & [-> | ->]) _] & _)]]; try done.
  destruct H as (?&?&?&?&?&?&?&?&?&?&?&?&?&?&?&?&?&?&opt& -> &_). done.
Qed.

Lemma parse_lines_filter gt rs : ∀ st, parse_lines gt st rs = parse_lines gt st (filter (λ ws, ws ≠ []) rs).
Proof.
  induction rs as [|ts rs IH]; intros st; [done|]. rewrite filter_cons. destruct (decide (ts = [])) as [->|Ht].
  - rewrite decide_False by (intros H; by apply H). apply IH.
  - rewrite decide_True by done. rewrite !parse_lines_cons by done. destruct (parse_line gt st ts); cbn; [apply IH|done|done].
Qed.
Lemma rows_tokens file rs : rows file rs → filter (λ ws, ws ≠ []) (tokens_of <$> getlines [] file) = rs.
Proof.
  intros (ls & wss & Hl & H2 & ->). rewrite (C77_lines file ls) by done. f_equal.
  clear -H2. induction H2 as [|l ws ls wss H _ IH]; [done|]. rewrite fmap_cons, IH. f_equal. by apply tokens_spaced.
Qed.
Lemma parse_rows gt sw file rs : rows file rs → parse gt sw file =
  rbind (parse_lines gt (info0, 0%nat) rs) (λ st, let '(i, n) := st in
    if negb (bool_decide (n = match gt with GVelocity => 2 | _ => 3 end)%nat) then Throws else
    match i_dims i with
    | None => Undefined
    | Some d =>
        let '(nx, _, _) := d_num d in let '(dx, dy, dz) := d_step d in
        let d := Dims (d_num d) (d_orig d) (if decide (nx = 1) then one else dx, dy, dz) (d_double d) in
        if d_double d && sw then Throws else Done (Info (Some d) (i_type i) (i_label i) (i_src i) (i_trans i))
    end).
Proof. intros H. unfold parse. by rewrite parse_lines_filter, (rows_tokens _ _ H). Qed.
Lemma parse_done gt sw file rs i : rows file rs → parse gt sw file = Done i ↔
  ∃ i0 d d', parse_lines gt (info0, 0%nat) rs = Done (i0, match gt with GVelocity => 2 | _ => 3 end%nat) ∧ i_dims i0 = Some d ∧
    adjusted one d d' ∧ ¬ (d_double d = true ∧ sw = true) ∧ i = Info (Some d') (i_type i0) (i_label i0) (i_src i0) (i_trans i0).
Proof.
  intros HR. rewrite (parse_rows _ _ _ _ HR), rbind_done. split.
  - intros ([i0 n] & HP & H). destruct (bool_decide _) eqn:En; [|done]. apply bool_decide_eq_true in En. subst n. cbn [negb] in H.
    destruct (i_dims i0) as [[[[nx ny] nz] og [[dx dy] dz] db]|] eqn:Ed; [|done]. cbn in H.
    destruct (db && sw) eqn:Ew; [done|]. injection H as <-. eexists i0, _, _. split; [done|]. split; [done|]. split; [|split; [|done]].
    + unfold adjusted. cbn. repeat (split; [done|]). split; intros E; case_decide; done.
    + cbn. intros [-> ->]. done.
  - intros (i0 & d & d' & HP & Ed & HA & Hw & ->). eexists. split; [exact HP|]. cbv beta iota. rewrite bool_decide_true by done. cbn [negb]. rewrite Ed.
    destruct d as [[[nx ny] nz] og [[dx dy] dz] db], d' as [[[nx' ny'] nz'] og' [[dx' dy'] dz'] db']. cbn in *.
    destruct HA as (H1 & H2 & H3 & H4 & H5 & H6 & H7). cbn in *. injection H1 as -> -> ->. subst.
    destruct (db && sw) eqn:Ew. { apply andb_true_iff in Ew. by destruct Hw. }
    do 3 f_equal. case_decide; [by rewrite H6|by rewrite H7].
Qed.
Lemma idle_unkeyed gt n rs : Forall (idle gt n) rs → unkeyed rs.
Proof. unfold unkeyed, idle. intros H. eapply Forall_impl; [exact H|]. naive_solver. Qed.
Lemma idle0 gt rs : Forall (idle gt 0) rs ↔ unkeyed rs ∧ Forall (λ ts, length ts ≠ 10 ∧ length ts ≠ 11)%nat rs.
Proof. unfold unkeyed, idle. rewrite <-Forall_and. apply Forall_iff. intros ts. split; [naive_solver lia|]. intros [? ?]. split; [done|]. split; [done|]. lia. Qed.
Lemma idle1 gt rs : tree gt → Forall (idle gt 1) rs ↔ unkeyed rs ∧ Forall (λ ts, length ts ≠ 4)%nat rs.
Proof. intros Hg. unfold unkeyed, idle. rewrite <-Forall_and. apply Forall_iff. intros ts. split; [naive_solver|]. intros [? ?]. split; [done|]. split; [lia|]. done. Qed.
Lemma idle_more gt n rs : (n = 1%nat → ¬ tree gt) → (n ≠ 0)%nat → Forall (idle gt n) rs ↔ unkeyed rs.
Proof. intros Hg Hn. unfold unkeyed, idle. apply Forall_iff. intros ts. split; [naive_solver|]. intros ?. split; [done|]. split; [lia|]. intros ? ?. by destruct Hg. Qed.

(** The rows of every file are determined by it. *)
Lemma getlines_spec l : ∀ cur, newline ∉ cur → ∃ ls, has_lines (rev cur ++ l) ls ∧ getlines cur l = ls.
Proof.
  induction l as [|c l IH]; intros cur Hc; cbn.
  - rewrite app_nil_r. destruct cur as [|c cur]; [exists []; split; [|done]; split; [constructor|by left]|].
    exists [rev (c :: cur)]. split; [|done]. assert (newline ∉ rev (c :: cur)) by (by rewrite elem_of_list_In, <-in_rev, <-elem_of_list_In).
    split; [by constructor|]. right. exists [], (rev (c :: cur)). split; [done|]. split; [|done].
    intros E. apply (f_equal (@rev _)) in E. by rewrite rev_involutive in E.
  - case_decide as E.
    + destruct (IH []) as (ls & [HF Hls] & Eg); [by apply not_elem_of_nil|]. exists (rev cur :: ls). subst c. rewrite Eg. split; [|done].
      assert (newline ∉ rev cur) by (by rewrite elem_of_list_In, <-in_rev, <-elem_of_list_In).
      split; [by constructor|]. cbn in Hls. destruct Hls as [->|(ls' & l0 & -> & Hl0 & ->)].
      * left. rewrite fmap_cons. cbn. by rewrite <-app_assoc.
      * right. exists (rev cur :: ls'), l0. split; [done|]. split; [done|]. rewrite fmap_cons. cbn. by rewrite <-!app_assoc.
    + destruct (IH (c :: cur)) as (ls & Hls & Eg); [by apply not_elem_of_cons|]. exists ls. split; [|done]. cbn in Hls. by rewrite <-app_assoc in Hls.
Qed.
Theorem C77_rows file : ∃ rs, rows file rs ∧ ∀ rs', rows file rs' → rs' = rs.
Proof.
  destruct (getlines_spec file []) as (ls & Hl & _); [by apply not_elem_of_nil|]. cbn in Hl.
  assert (∃ wss, Forall2 spaced ls wss) as [wss H2].
  { clear. induction ls as [|l ls [wss IH]]; [exists []; constructor|]. exists (tokens_of l :: wss). constructor; [apply C77_words|done]. }
  assert (rows file (filter (λ ws, ws ≠ []) wss)) as HR by (exists ls, wss; done).
  eexists. split; [exact HR|]. intros rs' HR'. apply rows_tokens in HR, HR'. congruence.
Qed.

(** A header of a time or angle grid is accepted with a source exactly if it has the lines of
    such a header, and the result has the values of those lines. *)
Theorem C77_tree gt sw file rs i : gt ≠ GVelocity → rows file rs →
  (parse gt sw file = Done i ∧ i_src i ≠ None) ↔
  ∃ d d' ty label p t, tree_header stod stoull stol beyond nonzero ell_ok rs d ty label p t ∧ adjusted one d d' ∧
    ¬ (d_double d = true ∧ sw = true) ∧ i = Info (Some d') ty label (Some p) (Some t).
Proof.
  intros Hg HR. assert (tree gt) as HT by by destruct gt.
  assert (match gt with GVelocity => 2 | _ => 3 end = 3)%nat as E3 by by destruct gt.
  rewrite (parse_done _ _ _ _ _ HR), E3. split.
  - intros [(i0 & d & d' & HP & Ed & HA & Hw & ->) Hs]. cbn in Hs.
    apply parse_lines_inv in HP as [(? & _)|(pre & first & rs1 & i1 & -> & Hpre & S1 & HP)]; [done|].
    apply parse_lines_inv in HP as [(? & _)|(mid & src & rs2 & i2 & -> & Hmid & S2 & HP)]; [done|].
    apply parse_lines_inv in HP as [(? & _)|(mid2 & tr & rs3 & i3 & -> & Hmid2 & S3 & HP)]; [done|].
    apply parse_lines_inv in HP as [(_ & -> & Hpost)|(pre' & ts & rs' & i4 & -> & _ & _ & HP)]; [|apply parse_lines_grows in HP; lia].
    destruct S3 as [(? & _)|[(? & _)|(t & Ht & -> & _)]]; [done..|]. cbn in *.
    destruct S1 as [(_ & d0 & ty & Hf & ->)|[(? & _)|(t1 & _ & -> & _)]]; [|done|].
    2: { destruct S2 as [(? & _)|[(_ & _ & lb & p & _ & ->)|(t2 & _ & -> & _)]]; done. }
    destruct S2 as [(? & _)|[(_ & _ & lb & p & Hsrc & ->)|(t2 & _ & -> & _)]]; [done| |done]. cbn in *. injection Ed as ->.
    exists d, d', ty, lb, p, t. split; [|done]. exists pre, first, mid, src, mid2, tr, rs3. split; [done|].
    apply idle0 in Hpre as [? ?]. apply idle1 in Hmid as [? ?]; [|done]. do 8 (split; [first [done|by eapply idle_unkeyed]|]). by eapply idle_unkeyed.
  - intros (d & d' & ty & lb & p & t & (pre & first & mid & src & mid2 & tr & post & -> & ? & ? & Hf & ? & ? & Hs & ? & Ht & ?) & HA & Hw & ->). split; [|done].
    eexists (Info (Some d) ty lb (Some p) (Some t)), d, d'. split; [|done].
    assert (steps gt 0 info0 first (Info (Some d) ty [] None None)) as S1 by (left; eauto).
    assert (steps gt 1 (Info (Some d) ty [] None None) src (Info (Some d) ty lb (Some p) None)) as S2 by (right; left; eauto 10).
    assert (steps gt 2 (Info (Some d) ty lb (Some p) None) tr (Info (Some d) ty lb (Some p) (Some t))) as S3.
    { right. right. exists t. split; [done|]. split; [done|]. split; lia. }
    rewrite parse_lines_idle by by apply idle0. cbn [app]. erewrite parse_lines_step; [|by eapply steps_nonempty|exact S1].
    rewrite parse_lines_idle by by apply idle1. cbn [app]. erewrite parse_lines_step; [|by eapply steps_nonempty|exact S2].
    rewrite parse_lines_idle by (apply idle_more; [lia|lia|done]). cbn [app]. erewrite parse_lines_step; [|by eapply steps_nonempty|exact S3].
    rewrite <-(app_nil_r post). rewrite parse_lines_idle by (apply idle_more; [lia|lia|done]). done.
Qed.
Theorem C77_velocity sw file rs i : rows file rs → parse GVelocity sw file = Done i ↔
  ∃ d d' ty t, vel_header stod stoull stol beyond nonzero ell_ok rs d ty t ∧ adjusted one d d' ∧
    ¬ (d_double d = true ∧ sw = true) ∧ i = Info (Some d') ty [] None (Some t).
Proof.
  intros HR. rewrite (parse_done _ _ _ _ _ HR). split.
  - intros (i0 & d & d' & HP & Ed & HA & Hw & ->).
    apply parse_lines_inv in HP as [(? & _)|(pre & first & rs1 & i1 & -> & Hpre & S1 & HP)]; [done|].
    apply parse_lines_inv in HP as [(? & _)|(mid & tr & rs2 & i2 & -> & Hmid & S2 & HP)]; [done|].
    apply parse_lines_inv in HP as [(_ & -> & Hpost)|(pre' & ts & rs' & i4 & -> & _ & _ & HP)]; [|apply parse_lines_grows in HP; lia].
    destruct S2 as [(? & _)|[(_ & [] & _)|(t & Ht & -> & _)]]; [done|]. cbn in *.
    destruct S1 as [(_ & d0 & ty & Hf & ->)|[(? & _)|(t1 & _ & -> & _)]]; [|done|done]. cbn in *. injection Ed as ->.
    exists d, d', ty, t. split; [|done]. exists pre, first, mid, tr, rs2. split; [done|].
    apply idle0 in Hpre as [? ?]. do 5 (split; [first [done|by eapply idle_unkeyed]|]). by eapply idle_unkeyed.
  - intros (d & d' & ty & t & (pre & first & mid & tr & post & -> & ? & ? & Hf & ? & Ht & ?) & HA & Hw & ->).
    eexists (Info (Some d) ty [] None (Some t)), d, d'. split; [|done].
    assert (steps GVelocity 0 info0 first (Info (Some d) ty [] None None)) as S1 by (left; eauto).
    assert (steps GVelocity 1 (Info (Some d) ty [] None None) tr (Info (Some d) ty [] None (Some t))) as S3.
    { right. right. exists t. split; [done|]. split; [done|]. split; [lia|]. cbn. tauto. }
    rewrite parse_lines_idle by by apply idle0. cbn [app]. erewrite parse_lines_step; [|by eapply steps_nonempty|exact S1].
    rewrite parse_lines_idle by (apply idle_more; [cbn; tauto|lia|done]). cbn [app]. erewrite parse_lines_step; [|by eapply steps_nonempty|exact S3].
    rewrite <-(app_nil_r post). rewrite parse_lines_idle by (apply idle_more; [cbn; tauto|lia|done]). done.
Qed.

(** ** Undefined behaviour *)
Local Notation def r := (r ≠ Undefined).
Lemma def_bind {A B} (r : result A) (f : A → result B) : def r → (∀ a, r = Done a → def (f a)) → def (rbind r f).
Proof. destruct r; cbn; auto. Qed.
Lemma def_option {A} (o : option A) : def (of_option o).
Proof. by destruct o. Qed.
Lemma def_at ts i : def (at_ ts i). Proof. apply def_option. Qed.
Lemma def_num ts i : def (num stod ts i). Proof. apply def_bind; [apply def_at|intros; apply def_option]. Qed.
Lemma def_int ts i : def (int stoull ts i). Proof. apply def_bind; [apply def_at|intros; apply def_option]. Qed.
Lemma def_expect ts l : def (expect ts l).
Proof. induction l as [|[i s] l IH]; [done|]. unfold expect; fold expect. apply def_bind; [apply def_at|]. intros t _. by case_decide. Qed.
Lemma def_org o : def (check_org beyond o).
Proof. unfold check_org. by repeat case_match. Qed.
Lemma def_ell e : def (check_ell ell_ok e).
Proof. unfold check_ell. by case_match. Qed.
Ltac solve_def := repeat first
  [ done | apply def_at | apply def_num | apply def_int | apply def_expect | apply def_org | apply def_ell | apply def_option
  | apply def_bind; [|intros ? ?] | case_match ].
Lemma def_transform ts : def (parse_transform ts).
Proof. unfold parse_transform. solve_def. Qed.
Lemma def_line gt st ts : def (parse_line gt st ts).
Proof. unfold parse_line. destruct st as [i n]. destruct (bool_decide _ && (_ || _)); [solve_def|]. destruct (_ && _ && _); [solve_def|]. apply def_bind; [apply def_at|]. intros k _. destruct (_ || _); [|done]. apply def_bind; [apply def_transform|done]. Qed.
Lemma def_lines gt rs : ∀ st, def (parse_lines gt st rs).
Proof.
  induction rs as [|ts rs IH]; intros st; [done|]. destruct (decide (ts = [])) as [->|Ht]; [apply IH|].
  rewrite parse_lines_cons by done. apply def_bind; [apply def_line|]. intros; apply IH.
Qed.
Lemma parse_lines_dims gt rs : ∀ i n i' n' d, parse_lines gt (i, n) rs = Done (i', n') → n ≠ 0%nat → i_dims i = Some d → i_dims i' = Some d.
Proof.
  induction rs as [|ts rs IH]; intros i n i' n' d H Hn Hd; [by injection H as <- <-|].
  destruct (decide (ts = [])) as [->|Ht]; [by apply (IH _ _ _ _ _ H)|].
  rewrite parse_lines_cons in H by done. apply rbind_done in H as ([i1 n1] & H1 & H).
  apply parse_line_done in H1 as [[-> HS]|(-> & -> & Hi)]; [| |done].
  - eapply IH; [exact H|lia|]. destruct HS as [(-> & _)|[(_ & _ & lb & p & _ & ->)|(t & _ & -> & _)]]; done.
  - by eapply IH.
Qed.
Lemma first_is_transform gt i rs pre ts rs' i1 : sound_rows rs → rs = pre ++ ts :: rs' → Forall (idle gt 0) pre → steps gt 0 i ts i1 →
  ∃ d ty, is_first ts d ty ∧ i1 = Info (Some d) ty (i_label i) (i_src i) (i_trans i).
Proof.
  intros HS -> Hp [(_ & d & ty & Hf & ->)|[(? & _)|(t & Ht & _)]]; [by exists d, ty|done|].
  destruct (HS _ _ _ eq_refl) as (_ & _ & HE); [by destruct Ht|]. apply idle0 in Hp as [_ Hp].
  apply Exists_exists in HE as (r & Hr & HE). rewrite Forall_forall in Hp. specialize (Hp r Hr). lia.
Qed.
(** With at most one row for the transform, after a row of 10 or 11 words, parsing is defined
    and accepted time and angle grids have a source. *)
Theorem C77_defined gt sw file rs : rows file rs → sound_rows rs →
  parse gt sw file ≠ Undefined ∧ (gt ≠ GVelocity → ∀ i, parse gt sw file = Done i → i_src i ≠ None).
Proof.
  intros HR HS. split.
  - rewrite (parse_rows _ _ _ _ HR). apply def_bind; [apply def_lines|]. intros [i0 n] HP.
    destruct (bool_decide _) eqn:En; [|done]. apply bool_decide_eq_true in En. cbn [negb].
    apply parse_lines_inv in HP as [(-> & _)|(pre & first & rs1 & i1 & Hrs & Hpre & S1 & HP)]; [by destruct gt|].
    destruct (first_is_transform _ _ _ _ _ _ _ HS Hrs Hpre S1) as (d & ty & _ & ->).
    apply (parse_lines_dims _ _ _ _ _ _ d) in HP as ->; [|lia|done]. destruct (d_num d) as [[? ?] ?], (d_step d) as [[? ?] ?]. cbn. by destruct (d_double d && sw).
  - intros Hg i H. apply (parse_done _ _ _ _ _ HR) in H as (i0 & d & d' & HP & Ed & _ & _ & ->). cbn.
    assert (match gt with GVelocity => 2 | _ => 3 end = 3)%nat as E3 by by destruct gt. rewrite E3 in HP.
    apply parse_lines_inv in HP as [(? & _)|(pre & first & rs1 & i1 & Hrs & Hpre & S1 & HP)]; [done|].
    destruct (first_is_transform _ _ _ _ _ _ _ HS Hrs Hpre S1) as (d0 & ty & _ & ->).
    apply parse_lines_inv in HP as [(? & _)|(mid & src & rs2 & i2 & -> & Hmid & S2 & HP)]; [done|].
    apply parse_lines_inv in HP as [(? & _)|(mid2 & tr & rs3 & i3 & -> & Hmid2 & S3 & HP)]; [done|].
    apply parse_lines_inv in HP as [(_ & -> & Hpost)|(pre' & ts & rs' & i4 & -> & _ & _ & HP)]; [|apply parse_lines_grows in HP; lia].
    destruct S3 as [(? & _)|[(? & _)|(t & Ht & -> & _)]]; [done..|]. cbn in *.
    destruct S2 as [(? & _)|[(_ & _ & lb & p & Hsrc & ->)|(t2 & Ht2 & -> & _)]]; [done|done|].
    exfalso. destruct (HS (pre ++ first :: mid) src (mid2 ++ tr :: rs3)) as (_ & HU & _); [by rewrite Hrs, <-!app_assoc|by destruct Ht2|].
    unfold unkeyed in HU. rewrite Forall_app, Forall_cons in HU. by destruct HU as (_ & HU & _), Ht.
Qed.

(** ** The grids of a model *)
Variable locate : @transform D → D → D → D * D.
Notation point := (@point D).
Notation tree_point := (tree_point stod stoull stol beyond nonzero one ell_ok locate).
Notation make_grid := (make_grid stod stoull stol beyond nonzero one ell_ok).
Notation add_entry := (add_entry stod stoull stol beyond nonzero one ell_ok locate).
Notation discover := (discover stod stoull stol beyond nonzero one ell_ok locate).
(** An entry that gives a grid with times or angles, and one with velocities *)
Definition tree_ok (model phase kind type : text) (gt : gtype) (sw : bool) (e : entry) (p : point) : Prop :=
  tree_name model phase kind (e_name e) ∧ e_buf e = true ∧ ∃ i x y z t, parse gt sw (e_text e) = Done i ∧
    (i_type i = type ∨ i_type i = type ++ lit "2D") ∧ i_src i = Some (x, y, z) ∧ i_trans i = Some t ∧ t ≠ TGlobal ∧
    (pt_lat p, pt_lon p) = locate t x y ∧ pt_depth p = z ∧ pt_info p = i.
Definition vel_ok (model phase : text) (sw : bool) (e : entry) (i : info) : Prop :=
  vel_name model phase (e_name e) ∧ e_buf e = true ∧ parse GVelocity sw (e_text e) = Done i ∧
  ∃ d, i_dims i = Some d ∧ 2 ≤ (d_num d).1.1.
Definition type_of (gt : gtype) : text := match gt with GTime => lit "TIME" | _ => lit "ANGLE" end.
Definition tree_part (gt : gtype) (sw : bool) (e : entry) (p : point) : Prop :=
  e_buf e = true ∧ ∃ i x y z t, parse gt sw (e_text e) = Done i ∧
    (i_type i = type_of gt ∨ i_type i = type_of gt ++ lit "2D") ∧ i_src i = Some (x, y, z) ∧ i_trans i = Some t ∧ t ≠ TGlobal ∧
    (pt_lat p, pt_lon p) = locate t x y ∧ pt_depth p = z ∧ pt_info p = i.
Lemma tree_point_done gt sw e p : gt ≠ GVelocity → tree_point gt sw e = Done p ↔ tree_part gt sw e p.
Proof.
  intros Hg. unfold tree_part, tree_point, make_grid. rewrite rbind_done. split.
  - intros (i & H & H2). apply rbind_done in H as (i' & HP & H). destruct (e_buf e); [|done]. split; [done|]. cbn [negb] in H.
    assert ((i_type i' = type_of gt ∨ i_type i' = type_of gt ++ lit "2D") ∧ i = i') as [Hty ->].
    { destruct gt; [| |done]; destruct (_ || _) eqn:E; try done; injection H as <-; apply orb_true_iff in E; rewrite !bool_decide_eq_true in E; done. }
    destruct (i_trans i') as [t|] eqn:Et; [|done].
    assert (t ≠ TGlobal ∧ match i_src i' with None => Undefined | Some (x, y, z) => let '(lat, lon) := locate t x y in Done (Point lat lon z i') end = Done p) as [Ht H3] by by destruct t.
    clear H2. destruct (i_src i') as [[[x y] z]|] eqn:Es; [|done]. destruct (locate t x y) as [la lo] eqn:El. injection H3 as <-.
    exists i', x, y, z, t. rewrite El. done.
  - intros (Hb & i & x & y & z & t & HP & Hty & Hs & Ht & Hn & Hl & Hd & Hi). exists i. split.
    + apply rbind_done. exists i. split; [done|]. rewrite Hb. cbn [negb].
      assert (bool_decide (i_type i = type_of gt) || bool_decide (i_type i = type_of gt ++ lit "2D") = true) as E.
      { apply orb_true_iff. by rewrite !bool_decide_eq_true. }
      destruct gt; [| |done].
      * change (bool_decide (i_type i = lit "TIME") || bool_decide (i_type i = lit "TIME2D") = true) in E. by rewrite E.
      * change (bool_decide (i_type i = lit "ANGLE") || bool_decide (i_type i = lit "ANGLE2D") = true) in E. by rewrite E.
    + rewrite Ht, Hs. destruct p as [pla plo pd pi]. cbn in *. subst. rewrite <-Hl. by destruct t.
Qed.
Lemma make_vel_done sw e i : make_grid GVelocity sw (e_text e) (e_buf e) = Done i ↔
  e_buf e = true ∧ parse GVelocity sw (e_text e) = Done i ∧ ∃ d, i_dims i = Some d ∧ 2 ≤ (d_num d).1.1.
Proof.
  unfold make_grid. rewrite rbind_done. split.
  - intros (i' & HP & H). destruct (e_buf e); [|done]. cbn [negb] in H. split; [done|]. destruct (i_dims i') as [d|] eqn:Ed; [|done].
    destruct (d_num d) as [[nx ny] nz] eqn:En. destruct (N.ltb_spec nx 2); [done|]. injection H as <-. split; [done|]. exists d. rewrite En. done.
  - intros (Hb & HP & d & Ed & Hn). exists i. split; [done|]. rewrite Hb, Ed. cbn [negb]. destruct (d_num d) as [[nx ny] nz]. cbn in Hn. destruct (N.ltb_spec nx 2); [lia|done].
Qed.
Lemma vel_match model phase name : matches_vel model phase name = true ↔ vel_name model phase name.
Proof. apply bool_decide_eq_true. Qed.

(** Names of different kinds are different. *)
Lemma name_phases model kind kind' name : tree_name model (lit "P") kind name → tree_name model (lit "S") kind' name → False.
Proof. intros (x & _ & ->) (y & _ & E). by apply phase_differs in E. Qed.
Lemma name_kinds model phase phase' name : tree_name model phase (lit "time") name → tree_name model phase' (lit "angle") name → False.
Proof.
  intros (x & _ & ->) (y & _ & E). apply (suffix_differs (model ++ lit "." ++ phase ++ lit "." ++ x) (model ++ lit "." ++ phase' ++ lit "." ++ y)).
  rewrite <-!app_assoc. exact E.
Qed.
Lemma name_vel_time model phase phase' name : tree_name model phase (lit "time") name → vel_name model phase' name → False.
Proof.
  intros (x & _ & ->) E. apply (suffix_time (model ++ lit "." ++ phase ++ lit "." ++ x) (model ++ lit "." ++ phase')). rewrite <-!app_assoc. exact E.
Qed.
Lemma name_vel_angle model phase phase' name : tree_name model phase (lit "angle") name → vel_name model phase' name → False.
Proof.
  intros (x & _ & ->) E. apply (suffix_angle (model ++ lit "." ++ phase ++ lit "." ++ x) (model ++ lit "." ++ phase')). rewrite <-!app_assoc. exact E.
Qed.
Lemma name_vels model name : vel_name model (lit "P") name → vel_name model (lit "S") name → False.
Proof. intros -> E. by apply phase_differs in E. Qed.

(** What is taken for each of the six kinds *)
Definition opt {A} (r : result A) : list A := match r with Done a => [a] | _ => [] end.
Definition tk (model phase kind : text) gt sw (e : entry) : list point :=
  if matches_tree model phase kind (e_name e) then opt (tree_point gt sw e) else [].
Definition tv (model phase : text) sw (e : entry) : list info :=
  if matches_vel model phase (e_name e) then opt (make_grid GVelocity sw (e_text e) (e_buf e)) else [].
Definition over {A} (o : option A) (l : list A) : option A := match last l with Some a => Some a | None => o end.
Lemma add_entry_spec model sw f e f' : add_entry model sw f e = Done f' →
  f' = Found (f_ptime f ++ tk model (lit "P") (lit "time") GTime sw e) (f_stime f ++ tk model (lit "S") (lit "time") GTime sw e)
             (f_pangle f ++ tk model (lit "P") (lit "angle") GAngle sw e) (f_sangle f ++ tk model (lit "S") (lit "angle") GAngle sw e)
             (over (f_pvel f) (tv model (lit "P") sw e)) (over (f_svel f) (tv model (lit "S") sw e)).
Proof.
  unfold add_entry, tk, tv.
  pose proof (C77_name model (lit "P") (lit "time") (e_name e)) as N1. pose proof (C77_name model (lit "S") (lit "time") (e_name e)) as N2.
  pose proof (C77_name model (lit "P") (lit "angle") (e_name e)) as N3. pose proof (C77_name model (lit "S") (lit "angle") (e_name e)) as N4.
  pose proof (vel_match model (lit "P") (e_name e)) as N5. pose proof (vel_match model (lit "S") (e_name e)) as N6.
  destruct f as [f1 f2 f3 f4 f5 f6]. cbn [f_ptime f_stime f_pangle f_sangle f_pvel f_svel].
  destruct (matches_tree model (lit "P") (lit "time") (e_name e)).
  { assert (matches_tree model (lit "S") (lit "time") (e_name e) = false) as -> by (apply not_true_is_false; rewrite N2; intros H; by eapply name_phases; [by apply N1|]).
    assert (matches_tree model (lit "P") (lit "angle") (e_name e) = false) as -> by (apply not_true_is_false; rewrite N3; intros H; by eapply name_kinds; [by apply N1|]).
    assert (matches_tree model (lit "S") (lit "angle") (e_name e) = false) as -> by (apply not_true_is_false; rewrite N4; intros H; by eapply name_kinds; [by apply N1|]).
    assert (matches_vel model (lit "P") (e_name e) = false) as -> by (apply not_true_is_false; rewrite N5; intros H; by eapply name_vel_time; [by apply N1|]).
    assert (matches_vel model (lit "S") (e_name e) = false) as -> by (apply not_true_is_false; rewrite N6; intros H; by eapply name_vel_time; [by apply N1|]).
    destruct (tree_point GTime sw e); cbn; intros [= <-]; by rewrite ?app_nil_r. }
  destruct (matches_tree model (lit "S") (lit "time") (e_name e)).
  { assert (matches_tree model (lit "P") (lit "angle") (e_name e) = false) as -> by (apply not_true_is_false; rewrite N3; intros H; by eapply name_kinds; [by apply N2|]).
    assert (matches_tree model (lit "S") (lit "angle") (e_name e) = false) as -> by (apply not_true_is_false; rewrite N4; intros H; by eapply name_kinds; [by apply N2|]).
    assert (matches_vel model (lit "P") (e_name e) = false) as -> by (apply not_true_is_false; rewrite N5; intros H; by eapply name_vel_time; [by apply N2|]).
    assert (matches_vel model (lit "S") (e_name e) = false) as -> by (apply not_true_is_false; rewrite N6; intros H; by eapply name_vel_time; [by apply N2|]).
    destruct (tree_point GTime sw e); cbn; intros [= <-]; by rewrite ?app_nil_r. }
  destruct (matches_tree model (lit "P") (lit "angle") (e_name e)).
  { assert (matches_tree model (lit "S") (lit "angle") (e_name e) = false) as -> by (apply not_true_is_false; rewrite N4; intros H; by eapply name_phases; [by apply N3|]).
    assert (matches_vel model (lit "P") (e_name e) = false) as -> by (apply not_true_is_false; rewrite N5; intros H; by eapply name_vel_angle; [by apply N3|]).
    assert (matches_vel model (lit "S") (e_name e) = false) as -> by (apply not_true_is_false; rewrite N6; intros H; by eapply name_vel_angle; [by apply N3|]).
    destruct (tree_point GAngle sw e); cbn; intros [= <-]; by rewrite ?app_nil_r. }
  destruct (matches_tree model (lit "S") (lit "angle") (e_name e)).
  { assert (matches_vel model (lit "P") (e_name e) = false) as -> by (apply not_true_is_false; rewrite N5; intros H; by eapply name_vel_angle; [by apply N4|]).
    assert (matches_vel model (lit "S") (e_name e) = false) as -> by (apply not_true_is_false; rewrite N6; intros H; by eapply name_vel_angle; [by apply N4|]).
    destruct (tree_point GAngle sw e); cbn; intros [= <-]; by rewrite ?app_nil_r. }
  destruct (matches_vel model (lit "P") (e_name e)).
  { assert (matches_vel model (lit "S") (e_name e) = false) as -> by (apply not_true_is_false; rewrite N6; intros H; by eapply name_vels; [by apply N5|]).
    destruct (make_grid GVelocity sw (e_text e) (e_buf e)); cbn; intros [= <-]; by rewrite ?app_nil_r. }
  destruct (matches_vel model (lit "S") (e_name e)).
  { destruct (make_grid GVelocity sw (e_text e) (e_buf e)); cbn; intros [= <-]; by rewrite ?app_nil_r. }
  cbn. intros [= <-]. by rewrite ?app_nil_r.
Qed.
Lemma discover_spec model sw es : ∀ f f', discover model sw f es = Done f' →
  f' = Found (f_ptime f ++ mjoin (tk model (lit "P") (lit "time") GTime sw <$> es)) (f_stime f ++ mjoin (tk model (lit "S") (lit "time") GTime sw <$> es))
             (f_pangle f ++ mjoin (tk model (lit "P") (lit "angle") GAngle sw <$> es)) (f_sangle f ++ mjoin (tk model (lit "S") (lit "angle") GAngle sw <$> es))
             (over (f_pvel f) (mjoin (tv model (lit "P") sw <$> es))) (over (f_svel f) (mjoin (tv model (lit "S") sw <$> es))).
Proof.
  induction es as [|e es IH]; intros f f' H.
  - injection H as <-. rewrite !fmap_nil. cbn. rewrite !app_nil_r. by destruct f.
  - change (rbind (add_entry model sw f e) (λ f1, discover model sw f1 es) = Done f') in H.
    apply rbind_done in H as (f1 & H1 & H). apply add_entry_spec in H1. apply IH in H. subst f1 f'. rewrite !fmap_cons.
    cbn [f_ptime f_stime f_pangle f_sangle f_pvel f_svel]. unfold mjoin, list_join. cbn [list_join]. fold (@mjoin list _ point) (@mjoin list _ info). rewrite <-!app_assoc.
    assert (∀ A (o : option A) l l', over (over o l) l' = over o (l ++ l')) as Ho.
    { intros A o l l'. unfold over. rewrite last_app. by destruct (last l'). }
    f_equal; apply Ho.
Qed.
Lemma taken_join {P} (ok : entry → P → Prop) (g : entry → list P) es :
  (∀ e p, g e = [p] ↔ ok e p) → (∀ e, (length (g e) ≤ 1)%nat) → taken ok es (mjoin (g <$> es)).
Proof.
  intros Hg Hl. induction es as [|e es IH]; [constructor|]. rewrite fmap_cons. change (mjoin (g e :: (g <$> es))) with (g e ++ mjoin (g <$> es)).
  specialize (Hl e). destruct (g e) as [|p [|]] eqn:E; [| |cbn in Hl; lia]; cbn [app].
  - constructor; [|done]. intros p Hp. apply Hg in Hp. congruence.
  - constructor; [by apply Hg|done].
Qed.
Lemma opt_one {A} (r : result A) a : opt r = [a] ↔ r = Done a.
Proof. destruct r; cbn; naive_solver. Qed.
Lemma opt_length {A} (r : result A) : (length (opt r) ≤ 1)%nat.
Proof. destruct r; cbn; lia. Qed.
(** The grids that are found: in each list, in the order of the directory, those of the entries
    with a name of the kind whose header, data file and type are right; a velocity grid is that
    of the last such entry. *)
Theorem C77_discover model sw es f : discover model sw found0 es = Done f →
  taken (tree_ok model (lit "P") (lit "time") (lit "TIME") GTime sw) es (f_ptime f) ∧
  taken (tree_ok model (lit "S") (lit "time") (lit "TIME") GTime sw) es (f_stime f) ∧
  taken (tree_ok model (lit "P") (lit "angle") (lit "ANGLE") GAngle sw) es (f_pangle f) ∧
  taken (tree_ok model (lit "S") (lit "angle") (lit "ANGLE") GAngle sw) es (f_sangle f) ∧
  (∃ l, taken (vel_ok model (lit "P") sw) es l ∧ f_pvel f = last l) ∧
  (∃ l, taken (vel_ok model (lit "S") sw) es l ∧ f_svel f = last l).
Proof.
  intros H. apply discover_spec in H. subst f. unfold found0. cbn [f_ptime f_stime f_pangle f_sangle f_pvel f_svel app].
  assert (∀ phase kind gt, gt ≠ GVelocity → taken (tree_ok model phase kind (type_of gt) gt sw) es (mjoin (tk model phase kind gt sw <$> es))) as HT.
  { intros phase kind gt Hg. apply taken_join.
    - intros e p. unfold tk, tree_ok. rewrite <-C77_name. destruct (matches_tree model phase kind (e_name e)); [|split; [done|intros [? _]; done]].
      rewrite opt_one, (tree_point_done _ _ _ _ Hg). unfold tree_part. split; [done|]. intros [_ ?]; done.
    - intros e. unfold tk. destruct (matches_tree _ _ _ _); [apply opt_length|cbn; lia]. }
  assert (∀ phase, taken (vel_ok model phase sw) es (mjoin (tv model phase sw <$> es))) as HV.
  { intros phase. apply taken_join.
    - intros e i. unfold tv, vel_ok. rewrite <-vel_match. destruct (matches_vel model phase (e_name e)); [|split; [done|intros [? _]; done]].
      rewrite opt_one, make_vel_done. split; [done|]. intros [_ ?]; done.
    - intros e. unfold tv. destruct (matches_vel _ _ _); [apply opt_length|cbn; lia]. }
  split; [by apply (HT _ _ GTime)|]. split; [by apply (HT _ _ GTime)|]. split; [by apply (HT _ _ GAngle)|]. split; [by apply (HT _ _ GAngle)|].
  split; (eexists; split; [apply HV|]); unfold over; by destruct (last _).
Qed.
(** Sound headers of whatever content never make the search fail. *)
Theorem C77_discover_defined model sw es : Forall (λ e, ∀ rs, rows (e_text e) rs → sound_rows rs) es → ∃ f, discover model sw found0 es = Done f.
Proof.
  intros HE. generalize (@found0 D). induction HE as [|e es He _ IH]; intros f; [by eexists|].
  assert (∀ gt i, parse gt sw (e_text e) = Done i → i_dims i ≠ None ∧ i_trans i ≠ None ∧ (gt ≠ GVelocity → i_src i ≠ None)) as HD.
  { intros gt i HP. destruct (C77_rows (e_text e)) as (rs & HR & _). destruct (C77_defined gt sw _ _ HR (He _ HR)) as [_ HS].
    destruct gt.
    - apply (C77_tree GTime sw _ _ i) in HR; [|done]. destruct (proj1 HR) as (d & d' & ty & lb & p & t & _ & _ & _ & ->); [split; [done|]; by apply HS|done].
    - apply (C77_tree GAngle sw _ _ i) in HR; [|done]. destruct (proj1 HR) as (d & d' & ty & lb & p & t & _ & _ & _ & ->); [split; [done|]; by apply HS|done].
    - apply (C77_velocity sw _ _ i) in HR. destruct (proj1 HR HP) as (d & d' & ty & t & _ & _ & _ & ->). done. }
  assert (∀ gt, def (parse gt sw (e_text e))) as HN.
  { intros gt. destruct (C77_rows (e_text e)) as (rs & HR & _). by destruct (C77_defined gt sw _ _ HR (He _ HR)). }
  assert (∀ gt, def (make_grid gt sw (e_text e) (e_buf e)) ∧ ∀ i, make_grid gt sw (e_text e) (e_buf e) = Done i → parse gt sw (e_text e) = Done i) as HM.
  { intros gt. unfold make_grid. specialize (HN gt). destruct (parse gt sw (e_text e)) as [i| |] eqn:EP; cbn [rbind]; [|done|done].
    destruct (HD gt i EP) as (Hd & _). destruct (negb _); [done|]. destruct gt.
    - destruct (_ || _); split; try done; congruence.
    - destruct (_ || _); split; try done; congruence.
    - destruct (i_dims i) as [d|]; [|done]. destruct (d_num d) as [[nx ny] nz]. destruct (nx <? 2); split; try done; congruence. }
  assert (∀ gt, gt ≠ GVelocity → def (tree_point gt sw e)) as HT.
  { intros gt Hg. unfold tree_point. destruct (HM gt) as [HM1 HM2]. apply def_bind; [done|]. intros i Hi. apply HM2 in Hi.
    destruct (HD gt i Hi) as (_ & Ht & Hs). specialize (Hs Hg). destruct (i_trans i) as [t|]; [|done]. destruct (i_src i) as [[[x y] z]|]; [|done].
    destruct t; try done; by destruct (locate _ x y). }
  assert (∃ f1, add_entry model sw f e = Done f1) as [f1 Hf1].
  { assert (def (add_entry model sw f e)) as Hdef.
    { unfold add_entry. pose proof (HT GTime ltac:(done)). pose proof (HT GAngle ltac:(done)). destruct (HM GVelocity) as [? _].
      destruct (matches_tree model (lit "P") (lit "time") (e_name e)); [by destruct (tree_point GTime sw e)|].
      destruct (matches_tree model (lit "S") (lit "time") (e_name e)); [by destruct (tree_point GTime sw e)|].
      destruct (matches_tree model (lit "P") (lit "angle") (e_name e)); [by destruct (tree_point GAngle sw e)|].
      destruct (matches_tree model (lit "S") (lit "angle") (e_name e)); [by destruct (tree_point GAngle sw e)|].
      destruct (matches_vel model (lit "P") (e_name e)); [by destruct (make_grid GVelocity sw (e_text e) (e_buf e))|].
      destruct (matches_vel model (lit "S") (e_name e)); [by destruct (make_grid GVelocity sw (e_text e) (e_buf e))|done]. }
    destruct (add_entry model sw f e) as [f1| |] eqn:E; [by exists f1| |done].
    exfalso. unfold add_entry in E. cbv zeta in E. by case_match. }
  destruct (IH f1) as [f2 Hf2]. exists f2. change (rbind (add_entry model sw f e) (λ f1, discover model sw f1 es) = Done f2). rewrite Hf1. done.
Qed.
End proofs.

(** ** Examples and what does not hold *)
Fixpoint digits (acc : Z) (l : text) : option Z :=
  match l with
  | [] => Some acc
  | c :: l => let n := (Z.of_N (N_of_ascii c) - 48)%Z in if (0 <=? n)%Z && (n <=? 9)%Z then digits (10 * acc + n) l else None
  end.
Definition ex_num (l : text) : option Z := match l with [] => None | c :: l' => if decide (c = "-"%char) then Z.opp <$> digits 0 l' else digits 0 l end.
Definition ex_int (l : text) : option N := Z.to_N <$> ex_num l.
Definition ex_beyond (z x : Z) : bool := (z <? Z.abs x)%Z.
Notation ex_parse := (parse ex_num ex_int ex_num ex_beyond (λ x, negb (x =? 0)%Z) 1%Z (λ e, bool_decide (e = lit "WGS-84"))).
Notation ex_discover := (discover ex_num ex_int ex_num ex_beyond (λ x, negb (x =? 0)%Z) 1%Z (λ e, bool_decide (e = lit "WGS-84")) (λ _ x y, (y, x))).
Definition nl : text := [newline].
Definition row1 : text := lit "  1  3 4   0 0 -2  7 1 1   TIME  DOUBLE ".
Definition row2 : text := lit "STA 5 6 -1".
Definition row3 : text := lit "TRANSFORM  TRANS_MERC RefEllipsoid WGS-84  LatOrig 46  LongOrig 8  RotCW -10 UseFalseEasting 1".
Definition file1 : text := row1 ++ nl ++ nl ++ row2 ++ nl ++ lit "a comment" ++ nl ++ row3.
Definition info1 : @info Z :=
  Info (Some (Dims (1, 3, 4) (0, 0, -2)%Z (1, 1, 1)%Z true)) (lit "TIME") (lit "STA") (Some (5, 6, -1)%Z)
       (Some (TTransMerc (lit "WGS-84") (Org 46 8 (-10))%Z true 500000 None)).
Example C77_ex_parse : ex_parse GTime false file1 = Done info1 ∧ ex_parse GTime true file1 = Throws ∧ ex_parse GVelocity false file1 = Done (Info (i_dims info1) (lit "TIME") [] None (i_trans info1)).
Proof. vm_compute. done. Qed.
Example C77_ex_words : spaced row1 [lit "1"; lit "3"; lit "4"; lit "0"; lit "0"; lit "-2"; lit "7"; lit "1"; lit "1"; lit "TIME"; lit "DOUBLE"].
Proof. apply (C77_words row1). Qed.
Example C77_ex_rows : ∃ rs, rows file1 rs ∧ length rs = 4%nat ∧ sound_rows rs.
Proof.
  destruct (C77_rows file1) as (rs & HR & _). exists rs. split; [done|]. rewrite <-(rows_tokens _ _ HR). split; [by vm_compute|].
  set (l := filter _ _). vm_compute in l. subst l. intros pre ts post E HK.
  destruct pre as [|a pre]; [injection E as <- <-; destruct HK as (r & [E|E]); done|].
  destruct pre as [|b pre]; [injection E as <- <- <-; destruct HK as (r & [E|E]); done|].
  destruct pre as [|c pre]; [injection E as <- <- <- <-; destruct HK as (r & [E|E]); done|].
  destruct pre as [|d pre]; [injection E as <- <- <- <- <-|destruct pre; done].
  split; [|split; [constructor|left; by right]].
  unfold unkeyed. do 3 (constructor; [intros (r & [E|E]); done|]). constructor.
Qed.
Definition entries : list entry :=
  [ Entry (lit "m.P.STA.time.hdr") file1 true; Entry (lit "m.P..time.hdr") file1 true; Entry (lit "m.S.A.B.time.hdr") file1 true;
    Entry (lit "m.S.STA.time.hdr") (lit "nonsense") true; Entry (lit "m.P.X.time.hdr") file1 false; Entry (lit "m.P.STA.angle.hdr") file1 true ].
Example C77_ex_discover : ex_discover (lit "m") false found0 entries =
  Done (Found [Point 6 5 (-1) info1]%Z [Point 6 5 (-1) info1]%Z [] [] None None).
Proof. vm_compute. done. Qed.

(** A header with three lines for transforms and no first line is accepted by the count of lines:
    the number of nodes is then read without having been set. *)
Theorem C77_unset_refuted : ∃ file, ex_parse GTime false file = Undefined.
Proof. exists (lit "TRANS GLOBAL" ++ nl ++ lit "TRANS GLOBAL" ++ nl ++ lit "TRANS GLOBAL"). vm_compute. done. Qed.
(** A header of a time grid with two lines for transforms is accepted without a source; finding
    it in the directory reads the coordinates of the source without having been set. *)
Theorem C77_no_source_refuted : ∃ file i, ex_parse GTime false file = Done i ∧ i_src i = None ∧
  ex_discover (lit "m") false found0 [Entry (lit "m.P.STA.time.hdr") file true] = Undefined.
Proof.
  exists (lit "2 3 4 0 0 0 1 1 1 TIME" ++ nl ++ lit "TRANS GLOBAL" ++ nl ++ lit "TRANS SIMPLE LatOrig 46 LongOrig 8 RotCW 0").
  eexists. split; [vm_compute; reflexivity|]. split; [done|]. vm_compute. done.
Qed.
Print Assumptions C77_words. Print Assumptions C77_lines. Print Assumptions C77_rows. Print Assumptions C77_name. Print Assumptions C77_transform.
Print Assumptions C77_tree. Print Assumptions C77_velocity. Print Assumptions C77_defined. Print Assumptions C77_discover. Print Assumptions C77_discover_defined.
Print Assumptions C77_unset_refuted. Print Assumptions C77_no_source_refuted.
