(** Proofs about Config_Model.v: the keys of the configuration *)
From Coq Require Import Ascii String ZArith QArith Lia.
From stdpp Require Import numbers list strings.
From Verif Require Import Region_Model Config_Model Config_Spec Config_Proofs.
Local Open Scope string_scope.

(** ** The keys of different profiles are different *)
Lemma app_suffix (a b x y : list ascii) : (a ++ x = b ++ y)%list -> (length x <= length y)%nat -> exists z, (y = z ++ x)%list /\ (a = b ++ z)%list.
Proof.
  revert b. induction a as [|h a IH]; intros b E L.
  - destruct b as [|k b]; [exists []; cbn in *; rewrite E; auto|]. cbn in E. subst x. cbn in L. rewrite app_length in L. lia.
  - destruct b as [|k b].
    + cbn in E. exists (h :: a)%list. rewrite <- E. auto.
    + cbn in E. injection E as <- E. destruct (IH b E L) as (z & -> & ->). exists z. auto.
Qed.
Fixpoint proper_suffix (x y : list ascii) : bool :=
  match y with [] => false | _ :: y => bool_decide (x = y) || proper_suffix x y end.
Lemma proper_suffix_app x z y : z <> [] -> (y = z ++ x)%list -> proper_suffix x y = true.
Proof.
  intros Hz ->. destruct z as [|a z]; [contradiction|]. clear Hz. revert a. induction z as [|b z IH]; intros a; cbn [app proper_suffix].
  - rewrite bool_decide_eq_true_2 by reflexivity. reflexivity.
  - change (bool_decide (x = b :: z ++ x)%list || proper_suffix x ((b :: z) ++ x)%list = true). rewrite (IH b), orb_true_r. reflexivity.
Qed.
Lemma doc_keys_check : forallb (fun k => forallb (fun k' => negb (proper_suffix ("." :: list_ascii_of_string k)%char (list_ascii_of_string k'))) doc_keys) doc_keys = true.
Proof. vm_compute. reflexivity. Qed.
Lemma las_app a b : list_ascii_of_string (a ++ b) = (list_ascii_of_string a ++ list_ascii_of_string b)%list.
Proof. induction a as [|x a IH]; [reflexivity|]. change (x :: list_ascii_of_string (a ++ b) = x :: (list_ascii_of_string a ++ list_ascii_of_string b))%list. rewrite IH. reflexivity. Qed.
Lemma las_inj a b : list_ascii_of_string a = list_ascii_of_string b -> a = b.
Proof. intros E. rewrite <- (string_of_list_ascii_of_string a), <- (string_of_list_ascii_of_string b), E. reflexivity. Qed.
Lemma key_las n k : list_ascii_of_string (key n k) = (list_ascii_of_string "profile." ++ (list_ascii_of_string n ++ ("." :: list_ascii_of_string k)))%char%list.
Proof. unfold key. rewrite !las_app. reflexivity. Qed.
Lemma keys_apart_le n k n' k' : In k doc_keys -> In k' doc_keys -> (String.length k <= String.length k')%nat -> key n k = key n' k' -> n = n'.
Proof.
  intros Hk Hk' L E. apply (f_equal list_ascii_of_string) in E. rewrite !key_las in E. apply app_inv_head in E.
  assert (Ll : forall s, length (list_ascii_of_string s) = String.length s) by (intros s; induction s; cbn; auto).
  apply app_suffix in E; [|cbn; rewrite !Ll; lia]. destruct E as (z & E1 & E2). destruct z as [|a z]; [rewrite app_nil_r in E2; apply las_inj; exact E2|exfalso].
  cbn in E1. injection E1 as _ E1. pose proof (proj1 (forallb_forall _ _) doc_keys_check k Hk) as H. cbv beta in H.
  pose proof (proj1 (forallb_forall _ _) H k' Hk') as H1. cbv beta in H1.
  destruct z as [|b z].
  - cbn in E1. (* '.' is the first character of k' *)
    clear -E1 Hk'. assert (F : forallb (fun k => match list_ascii_of_string k with "."%char :: _ => false | _ => true end) doc_keys = true) by (vm_compute; reflexivity).
    pose proof (proj1 (forallb_forall _ _) F k' Hk') as G. cbv beta in G. rewrite E1 in G. discriminate G.
  - rewrite (proper_suffix_app _ (b :: z) _ ltac:(discriminate) E1) in H1. discriminate H1.
Qed.
Lemma keys_apart n k n' k' : In k doc_keys -> In k' doc_keys -> key n k = key n' k' -> n = n'.
Proof.
  intros Hk Hk' E. destruct (Nat.le_ge_cases (String.length k) (String.length k')) as [L|L].
  - exact (keys_apart_le n k n' k' Hk Hk' L E).
  - symmetry. exact (keys_apart_le n' k' n k Hk' Hk L (eq_sym E)).
Qed.

(** ** A profile depends on its keys only *)
Section frame.
Variable from_string : string → option Q.
Variable abs_path : string → string.
Variable url : string.
Variable o : cmd.
Notation rp c := (read_profile from_string abs_path c url o).
Notation rps c := (read_profiles from_string abs_path c url o).
Definition st0 : state := State true false [].
Record same_at (c c' : cfg) (name : string) : Prop := SameAt {
  sa_string k : In k doc_keys -> g_string c (key name k) = g_string c' (key name k);
  sa_strings k : In k doc_keys -> g_strings c (key name k) = g_strings c' (key name k);
  sa_path k : In k doc_keys -> g_path c (key name k) = g_path c' (key name k);
  sa_bool k : In k doc_keys -> g_bool c (key name k) = g_bool c' (key name k);
  sa_int k : In k doc_keys -> g_int c (key name k) = g_int c' (key name k);
  sa_double k : In k doc_keys -> g_double c (key name k) = g_double c' (key name k);
  sa_doubles k : In k doc_keys -> g_doubles c (key name k) = g_doubles c' (key name k) }.
Lemma in_doc k : existsb (String.eqb k) doc_keys = true -> In k doc_keys.
Proof. intros H. apply existsb_exists in H. destruct H as (x & H & E). apply String.eqb_eq in E. subst x. exact H. Qed.
Ltac indoc := apply in_doc; vm_compute; reflexivity.
Lemma read_profile_same c c' st name : same_at c c' name -> rp c st name = rp c' st name.
Proof.
  intros H. unfold read_profile, read_region, read_files, read_xphase, read_pair, typed_list. cbv zeta. keys name.
  repeat match goal with
  | |- context [g_string c (key name ?k)] => rewrite (sa_string _ _ _ H k) by indoc
  | |- context [g_strings c (key name ?k)] => rewrite (sa_strings _ _ _ H k) by indoc
  | |- context [g_path c (key name ?k)] => rewrite (sa_path _ _ _ H k) by indoc
  | |- context [g_bool c (key name ?k)] => rewrite (sa_bool _ _ _ H k) by indoc
  | |- context [g_int c (key name ?k)] => rewrite (sa_int _ _ _ H k) by indoc
  | |- context [g_double c (key name ?k)] => rewrite (sa_double _ _ _ H k) by indoc
  | |- context [g_doubles c (key name ?k)] => rewrite (sa_doubles _ _ _ H k) by indoc
  end.
  reflexivity.
Qed.
Lemma read_profile_frame c st name : rp c st name =
  (State (st_ok st && st_ok (rp c st0 name).1) (st_db st || st_db (rp c st0 name).1) (st_profiles st ++ st_profiles (rp c st0 name).1)%list, (rp c st0 name).2).
Proof.
  unfold read_profile. destruct (String.eqb name ""); [cbn; rewrite andb_true_r, orb_false_r, app_nil_r; destruct st; reflexivity|]. cbv zeta.
  destruct (read_region from_string c ("profile." ++ name ++ ".")); [|cbn; rewrite andb_false_r, orb_false_r, app_nil_r; reflexivity].
  destruct (match g_strings c (("profile." ++ name ++ ".") ++ "pickUncertaintyClasses") with Some l => read_classes from_string l | None => _ end) as [classes cok].
  destruct (read_files abs_path c ("profile." ++ name ++ ".catalog.")) as [[[sf pf] ef] idf].
  repeat match goal with |- context [match read_pair ?c ?k ?d with _ => _ end] => destruct (read_pair c k d) end;
    cbn [st0 st_ok st_db st_profiles fst snd app andb orb]; rewrite ?andb_false_r, ?app_nil_r; reflexivity.
Qed.
Lemma read_profiles_profiles c st names : st_ok (rps c st names) = true ->
  st_profiles (rps c st names) = (st_profiles st ++ concat ((fun n => st_profiles (rp c st0 n).1) <$> names))%list.
Proof.
  revert st. induction names as [|n names IH]; intros st; cbn [read_profiles]; [intros _; cbn; rewrite app_nil_r; reflexivity|].
  rewrite (read_profile_frame c st n). destruct (rp c st0 n) as [s b] eqn:E. cbn [fst snd]. destruct b.
  - cbn [st_ok]. intros H. exfalso. assert (F : st_ok s = false); [|rewrite F, andb_false_r in H; discriminate].
    revert E. unfold read_profile. destruct (String.eqb n ""); [intros E; injection E; discriminate|]. cbv zeta.
    repeat match goal with |- context [match ?x with _ => _ end] => lazymatch x with context [match _ with _ => _ end] => fail | _ => destruct x end end;
      intros E; injection E; intros; subst; try discriminate; reflexivity.
  - intros H. rewrite IH by exact H. cbn [st_profiles]. rewrite <- app_assoc. cbn. rewrite E. reflexivity.
Qed.
Lemma read_profiles_same c c' st names : Forall (same_at c c') names -> rps c st names = rps c' st names.
Proof.
  revert st. induction names as [|n names IH]; intros st F; cbn [read_profiles]; [reflexivity|].
  inversion F as [|? ? Fn Fns]; subst. rewrite (read_profile_same c c' st n Fn). destruct (rp c' st n) as [s []]; [reflexivity|]. apply IH. exact Fns.
Qed.
End frame.

(** ** Lists of words *)
Lemma split_from_one sep cur b s : length (split_from sep cur b s) = 1%nat <-> (b = false -> ~ In sep s) /\ (b = true -> Forall (fun x => x = sep) s \/ (exists s1 s2, s = (s1 ++ s2)%list /\ Forall (fun x => x = sep) s1 /\ ~ In sep s2)).
Proof.
  revert cur b. induction s as [|a s IH]; intros cur b; cbn [split_from].
  - cbn. split; [|reflexivity]. intros _. split; [auto|]. intros _. left. constructor.
  - destruct (ascii_dec a sep) as [->|Ha].
    + destruct b.
      * rewrite IH. split.
        -- intros [_ H]. split; [discriminate|]. intros _. destruct (H eq_refl) as [F|(s1 & s2 & -> & F & N)]; [left; constructor; auto|].
           right. exists (sep :: s1)%list, s2. split; [reflexivity|]. split; [constructor; auto|exact N].
        -- intros [_ H]. split; [discriminate|]. intros _. destruct (H eq_refl) as [F|(s1 & s2 & E & F & N)]; [left; inversion F; assumption|].
           right. destruct s1 as [|b s1]; [exfalso; apply N; cbn in E; rewrite <- E; left; reflexivity|]. cbn in E. injection E as <- ->. exists s1, s2. inversion F; auto.
      * cbn [length]. split.
        -- intros H. exfalso. assert (L : forall cur b s, (length (split_from sep cur b s) > 0)%nat).
           { clear. intros cur b s. revert cur b. induction s as [|a s IH]; intros cur b; cbn [split_from]; [cbn; lia|].
             destruct (ascii_dec a sep); [destruct b; [apply IH|cbn; lia]|apply IH]. }
           specialize (L [] true s). lia.
        -- intros [H _]. exfalso. apply (H eq_refl). left. reflexivity.
    + rewrite IH. split.
      * intros [H _]. specialize (H eq_refl). split; [intros _ [E|E]; [congruence|contradiction]|]. intros _. right. exists [], (a :: s)%list.
        split; [reflexivity|]. split; [constructor|]. intros [E|E]; [congruence|contradiction].
      * intros H. split; [|discriminate]. intros _. destruct b.
        -- destruct (proj2 H eq_refl) as [F|(s1 & s2 & E & F & N)]; [inversion F; congruence|].
           destruct s1 as [|x s1]; [cbn in E; subst s2; intros I; apply N; right; exact I|]. cbn in E. injection E as <- ->. inversion F; congruence.
        -- intros I. apply (proj1 H eq_refl). right. exact I.
Qed.
Lemma split_one s sep : length (split_string s sep) = 1%nat <-> ~ In sep (list_ascii_of_string s).
Proof. unfold split_string. rewrite fmap_length, split_from_one. split; [intros [H _]; auto|intros H; split; [auto|discriminate]]. Qed.
