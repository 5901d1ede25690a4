(** C50: a grid file is read within its bounds and every node has its own bytes *)
From stdpp Require Import numbers list.
From Verif Require Import GridFile_Model.
Local Open Scope N_scope.

(** ** Specification *)
(** Uses of a grid *)
Inductive use := Open (m : omode) (y : sys) | Close.
Definition apply (f : list N) (g : grid) (u : use) : grid :=
  match u with Open m y => (grid_open f m y g).2 | Close => grid_close g end.
Definition history (f : list N) (m0 : omode) (us : list use) : grid := fold_left (apply f) us (grid_init m0).
(** Loading a file in memory read all of it *)
Definition whole (f : list N) (u : use) : Prop :=
  match u with Open MLoad y => (length f <= y_read y)%nat | _ => True end.
(** The place of a node in the file and its bytes *)
Definition node (h : header) (ix iy iz : N) : Prop := ix < h_nx h ∧ iy < h_ny h ∧ iz < h_nz h.
Definition place (sz : N) (h : header) (ix iy iz : N) : N := ((ix * h_ny h + iy) * h_nz h + iz) * sz.
Definition bytes_at (f : list N) (off len : N) (v : list N) : Prop :=
  N.of_nat (length v) = len ∧ ∀ i, (i < N.to_nat len)%nat → v !! i = f !! (N.to_nat off + i)%nat.
(** The sizes fit: the whole grid is addressable *)
Definition fits (sz : N) (h : header) : Prop := h_nx h * h_ny h * h_nz h * sz < 2 ^ 64.

(** ** Nodes *)
Theorem C50_place sz h ix iy iz : node h ix iy iz → place sz h ix iy iz + sz <= h_nx h * h_ny h * h_nz h * sz.
Proof.
  intros (Hx & Hy & Hz). unfold place.
  assert (H1 : ix * h_ny h + iy + 1 <= h_nx h * h_ny h) by nia.
  assert (H2 : (ix * h_ny h + iy + 1) * h_nz h <= h_nx h * h_ny h * h_nz h) by (apply N.mul_le_mono_r; done).
  assert (H3 : (ix * h_ny h + iy) * h_nz h + iz + 1 <= h_nx h * h_ny h * h_nz h) by lia.
  apply (N.mul_le_mono_r _ _ sz) in H3. lia.
Qed.
Theorem C50_disjoint sz h ix iy iz jx jy jz : node h ix iy iz → node h jx jy jz → (ix, iy, iz) ≠ (jx, jy, jz) →
  place sz h ix iy iz + sz <= place sz h jx jy jz ∨ place sz h jx jy jz + sz <= place sz h ix iy iz.
Proof.
  intros (Hx & Hy & Hz) (Gx & Gy & Gz) Hne. unfold place.
  set (a := (ix * h_ny h + iy) * h_nz h + iz). set (b := (jx * h_ny h + jy) * h_nz h + jz).
  assert (a ≠ b) as Hab.
  { intros E. apply Hne. unfold a, b in E.
    assert (E1 : (ix * h_ny h + iy) = (jx * h_ny h + jy)) by nia.
    assert (E2 : iz = jz) by nia. assert (E3 : ix = jx) by nia. assert (E4 : iy = jy) by nia. by subst. }
  destruct (N.lt_ge_cases a b); [left|right]; nia.
Qed.
Print Assumptions C50_place.
Print Assumptions C50_disjoint.

(** ** The states of a grid *)
Lemma slice_bytes f off len : off + len <= N.of_nat (length f) → bytes_at f off len (slice off len f).
Proof.
  intros H. unfold bytes_at, slice. rewrite take_length, drop_length. split; [lia|]. intros i Hi. rewrite lookup_take by lia. by rewrite lookup_drop.
Qed.
Lemma slice_short f off len : N.of_nat (length (slice off len f)) = N.min len (N.of_nat (length f) - off).
Proof. unfold slice. rewrite take_length, drop_length. lia. Qed.

Record inv (f : list N) (g : grid) : Prop := {
  i_map : g_map g = true → g_size g = N.of_nat (length f);
  i_mode : g_map g = true → g_mode g = MMmap;
  i_mem : g_mem g ≠ [] → g_mode g = MLoad ∧ length (g_mem g) = length f }.
Lemma resize_length n l : length (resize n l) = n.
Proof. unfold resize. rewrite app_length, take_length, replicate_length. lia. Qed.
Lemma inv_history f m0 us : inv f (history f m0 us).
Proof.
  unfold history. assert (H0 : inv f (grid_init m0)) by (split; done). revert H0. generalize (grid_init m0). induction us as [|u us IH]; intros g H; [done|].
  cbn [fold_left]. apply IH. clear IH. destruct H as [H1 H2 H3]. destruct u as [m y|]; [|split; done]. cbn [apply]. unfold grid_open.
  destruct (is_open g) eqn:E; [split; done|]. unfold is_open in E.
  assert (Hm : g_map g = false) by (destruct (g_map g) eqn:Em; [|done]; rewrite H2 in E by done; done).
  assert (Hmem : g_mem g = []).
  { destruct (g_mem g) as [|b l] eqn:Em; [done|]. destruct H3 as [Ho _]; [done|]. rewrite Ho in E. rewrite bool_decide_eq_false_2 in E; done. }
  rewrite Hm, Hmem. cbv zeta. destruct (negb (g_fd g || y_open y)); [split; cbn; done|]. destruct (negb (y_stat y)); [split; cbn; done|]. destruct m; cbn [snd orb].
  - clear E; destruct (bool_decide (_ = length f)); split; cbn [g_map g_mem g_mode snd]; try done; intros _; (split; [done|]); rewrite app_length, take_length, drop_length, resize_length; lia.
  - destruct (_ && _); split; cbn; done.
  - split; cbn; done.
Qed.
Lemma whole_history f m0 us : Forall (whole f) us → g_mem (history f m0 us) = [] ∨ g_mem (history f m0 us) = f.
Proof.
  unfold history. assert (H0 : g_mem (grid_init m0) = [] ∨ g_mem (grid_init m0) = f) by by left. revert H0. generalize (grid_init m0).
  induction us as [|u us IH]; intros g H Hu; [done|]. inversion Hu as [|? ? Hw Hus]; subst. cbn [fold_left]. apply IH; [|done]. clear IH Hus Hu.
  destruct u as [m y|]; [|by left]. cbn [apply]. unfold grid_open. destruct (is_open g); [done|]. cbv zeta. destruct (negb (g_fd g || y_open y)); [done|]. destruct (negb (y_stat y)); [done|].
  destruct m; cbn [snd]; [|by destruct (_ || _)|done]. cbn in Hw. rewrite Nat.min_r by done. rewrite bool_decide_eq_true_2 by done. cbn [snd g_mem]. right.
  rewrite take_ge by done. rewrite drop_ge by (by rewrite resize_length). apply app_nil_r.
Qed.

(** ** C50 *)
Lemma index_exact sz h ix iy iz : node h ix iy iz → fits sz h → 0 < sz →
  wrap (wrap (wrap (wrap (wrap (ix * h_ny h) * h_nz h) + wrap (iy * h_nz h)) + iz) * sz) = place sz h ix iy iz ∧ place sz h ix iy iz + sz < 2 ^ 64.
Proof.
  intros Hn Hf Hsz. pose proof (C50_place sz h ix iy iz Hn) as Hp. unfold fits in Hf. destruct Hn as (Hx & Hy & Hz). unfold wrap.
  set (I := (ix * h_ny h + iy) * h_nz h + iz). assert (HI : I * sz + sz < 2 ^ 64) by (unfold place in Hp; fold I in Hp; lia).
  assert (HI1 : I <= I * sz) by (rewrite <- (N.mul_1_r I) at 1; apply N.mul_le_mono_l; lia).
  assert (HI2 : ix * h_ny h * h_nz h + iy * h_nz h + iz = I) by (unfold I; ring).
  assert (HI3 : ix * h_ny h <= ix * h_ny h * h_nz h) by (rewrite <- (N.mul_1_r (ix * h_ny h)) at 1; apply N.mul_le_mono_l; lia).
  rewrite (N.mod_small (ix * h_ny h)) by lia. rewrite (N.mod_small (ix * h_ny h * h_nz h)) by lia. rewrite (N.mod_small (iy * h_nz h)) by lia.
  rewrite (N.mod_small (ix * h_ny h * h_nz h + iy * h_nz h)) by lia. rewrite (N.mod_small (_ + iz)) by lia. rewrite HI2. rewrite N.mod_small by lia.
  unfold place. fold I. split; [done|lia].
Qed.
(** For every history of opening and closing, whatever the system calls do, as long as a load
    in memory is not cut short: a node of the grid has the bytes at its place in the file, in
    reverse order if asked, or an exception says what is missing. *)
Theorem C50_read sz f h read m0 us ix iy iz : 0 < sz → fits sz h → N.of_nat (length f) < 2 ^ 63 → Forall (whole f) us →
  let g := history f m0 us in
  match get_at sz f h read g ix iy iz with
  | GVal v => is_open g = true ∧ node h ix iy iz ∧ ∃ w, bytes_at f (place sz h ix iy iz) sz w ∧ v = (if h_swap h && (bool_decide (sz = 4) || bool_decide (sz = 8)) then rev w else w)
  | GClosed => is_open g = false
  | GOut => is_open g = true ∧ ¬ node h ix iy iz
  | GEof => is_open g = true ∧ node h ix iy iz ∧ (N.of_nat (length f) < place sz h ix iy iz + sz ∨ g_mode g = MPread ∧ read < sz)
  | GBad => False
  end.
Proof.
  intros Hsz Hfit Hlen Hw g. unfold get_at. destruct (is_open g) eqn:Eo; cbn [negb]; [|done]. unfold inside.
  destruct (decide (node h ix iy iz)) as [Hn|Hn].
  2: { replace (bool_decide (ix < h_nx h) && bool_decide (iy < h_ny h) && bool_decide (iz < h_nz h)) with false; [done|].
       symmetry. apply not_true_iff_false. rewrite !andb_true_iff, !bool_decide_eq_true. unfold node in Hn. tauto. }
  destruct Hn as (Hx & Hy & Hz). rewrite !bool_decide_eq_true_2 by done. cbn [andb negb]. assert (Hn : node h ix iy iz) by done.
  cbv zeta. destruct (index_exact sz h ix iy iz Hn Hfit Hsz) as [-> Hpl]. set (p := place sz h ix iy iz) in *.
  pose proof (inv_history f m0 us) as Hi. fold g in Hi. pose proof (whole_history f m0 us Hw) as Hmem. fold g in Hmem.
  assert (Hwr : wrap (p + sz) = p + sz) by (unfold wrap; apply N.mod_small; done).
  assert (Hsw : ∀ w, bytes_at f p sz w → swapped h w = if h_swap h && (bool_decide (sz = 4) || bool_decide (sz = 8)) then rev w else w).
  { intros w [Hl _]. unfold swapped.
    assert (bool_decide (length w = 4%nat) = bool_decide (sz = 4)) as -> by (apply bool_decide_ext; lia).
    assert (bool_decide (length w = 8%nat) = bool_decide (sz = 8)) as -> by (apply bool_decide_ext; lia). done. }
  unfold is_open in Eo. destruct (g_mode g) eqn:Em.
  - assert (Hne : g_mem g ≠ []) by (intros E; rewrite E in Eo; by rewrite bool_decide_eq_true_2 in Eo). assert (Hf : g_mem g = f) by (destruct Hmem; done). rewrite Hf, Hwr.
    destruct (decide _) as [Hlt|Hge]; [split; [done|]; split; [done|]; left; lia|]. unfold copy. rewrite decide_True by lia.
    split; [done|]. split; [done|]. eexists. split; [apply slice_bytes; lia|]. apply Hsw, slice_bytes. lia.
  - rewrite (i_map _ _ Hi) by done. rewrite Hwr. destruct (decide _) as [Hlt|Hge]; [split; [done|]; split; [done|]; left; lia|]. unfold copy. rewrite decide_True by lia.
    split; [done|]. split; [done|]. eexists. split; [apply slice_bytes; lia|]. apply Hsw, slice_bytes. lia.
  - destruct (decide (2 ^ 63 <= p)) as [Hb|Hb]; [split; [done|]; split; [done|]; left; lia|]. rewrite slice_short.
    destruct (decide _) as [Hv|Hv].
    + split; [done|]. split; [done|]. replace (N.min sz read) with sz in * by lia. eexists. split; [apply slice_bytes; lia|]. apply Hsw, slice_bytes. lia.
    + split; [done|]. split; [done|]. destruct (decide (read < sz)); [right; done|left; lia].
Qed.
Print Assumptions C50_read.

(** After close the grid is not open; after a successful open it is, unless the file is empty;
    memory mapping an empty file fails *)
Theorem C50_close g : is_open (grid_close g) = false.
Proof. destruct g as [[] ? ? ? ?]; done. Qed.
Theorem C50_open f m0 us m y : let g := history f m0 us in
  (grid_open f m y g).1 = true → is_open (grid_open f m y g).2 = true ∨ f = [] ∧ m = MLoad.
Proof.
  intros g. pose proof (inv_history f m0 us) as Hi. fold g in Hi. unfold grid_open. destruct (is_open g) eqn:Eo; [by left|]. cbv zeta.
  destruct (negb (g_fd g || y_open y)) eqn:En; [done|]. apply negb_false_iff in En. destruct (negb (y_stat y)); [done|]. destruct m.
  - destruct (bool_decide _) eqn:Ek; [|done]. intros _. apply bool_decide_eq_true in Ek. destruct f as [|b f]; [by right|left]. unfold is_open. cbn [snd g_mode g_mem].
    rewrite Ek. rewrite take_ge by done. done.
  - destruct (g_map g || _); [by left|done].
  - left. unfold is_open. cbn. done.
Qed.
Print Assumptions C50_open.

(** ** What fails outside the hypotheses *)
(** Sizes that do not fit 64 bits: two nodes share their bytes; a read before the mapping *)
Theorem C50_overflow_refuted : ∃ h f g, g = history f MLoad [Open MMmap (Sys true true true 0)] ∧
  ((∃ v, get_at 4 f h 0 g 0 0 0 = GVal v ∧ get_at 4 f h 0 g 1 0 0 = GVal v) ∧ node h 0 0 0 ∧ node h 1 0 0 ∧ place 4 h 0 0 0 ≠ place 4 h 1 0 0) ∧
  ∃ h', h_nx h' * h_ny h' * h_nz h' * 4 = 2 ^ 64 ∧ node h' 0 0 (2 ^ 62 - 1) ∧ get_at 4 f h' 0 g 0 0 (2 ^ 62 - 1) = GBad.
Proof.
  exists (Hdr 2 (2 ^ 63) 2 false), [1; 2; 3; 4], (Grid MMmap false true 4 []). split; [done|]. split.
  - split; [exists [1; 2; 3; 4]; split; vm_compute; reflexivity|]. split; [done|]. split; [done|]. done.
  - exists (Hdr 1 1 (2 ^ 62) false). split; [done|]. split; [done|]. vm_compute. reflexivity.
Qed.
Print Assumptions C50_overflow_refuted.
(** A load cut short throws, but the grid is open afterwards and gives zeros for the missing
    bytes *)
Theorem C50_short_load_refuted : ∃ f y, (grid_open f MLoad y (grid_init MLoad)).1 = false ∧
  let g := (grid_open f MLoad y (grid_init MLoad)).2 in
  is_open g = true ∧ (∃ v, get_at 4 f (Hdr 1 1 2 false) 4 g 0 0 1 = GVal v ∧ ¬ bytes_at f (place 4 (Hdr 1 1 2 false) 0 0 1) 4 v).
Proof.
  exists [1; 2; 3; 4; 5; 6; 7; 8], (Sys true true true 4). split; [done|]. split; [done|]. exists [0; 0; 0; 0]. split; [done|].
  intros [_ H]. specialize (H 0%nat ltac:(cbn; lia)). done.
Qed.
Print Assumptions C50_short_load_refuted.

(** A concrete case: 2 x 2 x 3 nodes of 4 bytes, loaded, closed, then mapped *)
Definition ex_h : header := Hdr 2 2 3 true.
Definition ex_f : list N := N.of_nat <$> seq 0 48.
Definition ex_us : list use := [Open MLoad (Sys true true false 100); Close; Open MMmap (Sys true true true 0)].
Example ex_read : 0 < 4 ∧ fits 4 ex_h ∧ N.of_nat (length ex_f) < 2 ^ 63 ∧ Forall (whole ex_f) ex_us ∧ node ex_h 1 0 2 ∧
  get_at 4 ex_f ex_h 0 (history ex_f MPread ex_us) 1 0 2 = GVal [35; 34; 33; 32].
Proof.
  split; [done|]. split; [done|]. split; [done|]. split; [|done].
  apply Forall_cons_2; [cbn; lia|]. apply Forall_cons_2; [done|]. apply Forall_cons_2; [done|]. apply Forall_nil_2.
Qed.
