(** * The file tree functions of help/utils/files.go *)
From Verif Require Import GoStr PathModel FsModel FsSpec FsProofs.
From Verif Require PathProps PathSpec.
Local Open Scope Z_scope.

(** ** C81: what the tests tell *)
Definition nothing_at (P : proc) (s : tree) (follow : bool) (p : gostr) : Prop := ∀ k q, ¬ denotes_place P s follow k p q.
(** IsDir is exact *)
Theorem is_dir_exact P s p : is_dir P s p = true ↔ at_path P s true p NDir.
Proof. rewrite <- stat_ok. unfold is_dir, stat. destruct (stat_of true P s p) as [[]|]; split; intros H; congruence || done. Qed.
(** a negative answer of FileIsExisted and FileExist can be relied on *)
Theorem tests_sound P s p : good_tree s → good_proc P s →
  (file_is_existed P s p = false → nothing_at P s true p) ∧
  (file_exist P s p = false → nothing_at P s false p ∨ at_path P s false p NDir) ∧
  (path_exists P s p = (false, None) → nothing_at P s true p).
Proof.
  intros Hg Hp. unfold file_is_existed, file_exist, path_exists, stat, lstat. split_and!.
  - destruct (stat_of true P s p) as [|[]] eqn:E; try done. intros _ k q H. destruct (stat_err _ _ _ _ _ Hg Hp E _ _ H); done.
  - destruct (stat_of false P s p) as [[]|e] eqn:E; try done; [intros _; right; by apply stat_ok|]. destruct (bool_decide_reflect (e = ENOENT)) as [->|]; [|done]. intros _. left. intros k q H. destruct (stat_err _ _ _ _ _ Hg Hp E _ _ H); done.
  - destruct (stat_of true P s p) as [[]|[]] eqn:E; try done. intros _ k q H. destruct (stat_err _ _ _ _ _ Hg Hp E _ _ H); done.
Qed.
(** and what is there is reported, if it can be reached *)
Theorem tests_complete P s p : 
  (∀ n, at_path P s true p n → file_is_existed P s p = true ∧ is_file P s p = bool_decide (n ≠ NDir) ∧ path_exists P s p = (bool_decide (n = NDir), if bool_decide (n = NDir) then None else Some None)) ∧
  (∀ n, at_path P s false p n → file_exist P s p = bool_decide (n ≠ NDir)).
Proof.
  split; intros n H%stat_ok.
  - unfold file_is_existed, is_file, is_dir, path_exists, stat. rewrite H. by destruct n.
  - unfold file_exist, lstat. rewrite H. by destruct n.
Qed.
(** only "no such entry" counts as absent: a path through a file, through too many links or a directory
    that must not be searched is said to exist; IsFile is true of everything that is not there *)
Definition demo : tree := λ p,
  if decide (p = []) then Some NDir else if decide (p = [str "f"]) then Some (NFile (str "x")) else if decide (p = [str "d"]) then Some NDir
  else if decide (p = [str "d"; str "g"]) then Some (NFile (str "y")) else if decide (p = [str "l"]) then Some (NLink (str "gone")) else if decide (p = [str "d"; str "m"]) then Some (NLink (str "/d/../d/m")) else None.
Definition demo_proc : proc := Proc [] (str "/") (λ _, false).
Lemma demo_good : good_tree demo ∧ good_proc demo_proc demo.
Proof.
  split; [|done]. split; [done|]. intros p c. unfold demo. rewrite !(decide_False (P := p ++ [c] = [])) by (by destruct p).
  destruct (decide (p ++ [c] = [str "f"])) as [E|_]; [by apply (app_inj_tail p []) in E as [-> _]|]. destruct (decide (p ++ [c] = [str "d"])) as [E|_]; [by apply (app_inj_tail p []) in E as [-> _]|].
  destruct (decide (p ++ [c] = [str "d"; str "g"])) as [E|_]; [by apply (app_inj_tail p [str "d"]) in E as [-> _]|]. destruct (decide (p ++ [c] = [str "l"])) as [E|_]; [by apply (app_inj_tail p []) in E as [-> _]|].
  destruct (decide (p ++ [c] = [str "d"; str "m"])) as [E|_]; [by apply (app_inj_tail p [str "d"]) in E as [-> _]|]. done.
Qed.
Lemma nothing_by_walk P s p follow : p ≠ [] → (∃ e, namei P s follow p = Err e ∧ e ≠ ELOOP) → nothing_at P s follow p.
Proof. intros Hp (e & E & He) k q [_ H]. unfold namei in E. rewrite bool_decide_eq_false_2, (leads_walk _ _ _ _ _ _ _ H) in E by done. by destruct (decide _); simplify_eq. Qed.
Theorem tests_refuted : good_tree demo ∧ good_proc demo_proc demo ∧
  (nothing_at demo_proc demo true (str "/f/x") ∧ file_is_existed demo_proc demo (str "/f/x") = true) ∧
  (nothing_at demo_proc demo false (str "/f/x") ∧ file_exist demo_proc demo (str "/f/x") = true) ∧
  (nothing_at demo_proc demo true (str "/none") ∧ is_file demo_proc demo (str "/none") = true) ∧
  (file_is_existed demo_proc demo (str "d/m") = true ∧ stat demo_proc demo (str "d/m") = Err ELOOP) ∧
  (file_exist demo_proc demo (str "l") = true ∧ file_is_existed demo_proc demo (str "l") = false) ∧
  (∃ P, good_proc P demo ∧ nothing_at P demo true (str "d/none") ∧ file_is_existed P demo (str "d/none") = true ∧ file_exist P demo (str "d/none") = true).
Proof.
  destruct demo_good as [H1 H2]. split_and!; try done; try (by vm_compute); try (by apply nothing_by_walk; [done|eexists; split; [by vm_compute|done]]).
  exists (Proc [] (str "/") (λ p, bool_decide (p = [str "d"]))). split_and!; try done; try (by vm_compute). apply nothing_by_walk; [done|eexists; split; [by vm_compute|done]].
Qed.

(** ** C82: CreateDir and MkDir *)
(** always return; add directories only; on success the directories are there *)
Theorem mk_dir_safe P s p : good_tree s → ∃ s' e, mk_dir P s p = Ret (s', e) ∧ only_dirs_added s s' ∧ good_tree s' ∧ (e = None → at_path P s' true p NDir).
Proof. intros Hg. apply mkdir_all_spec; [lia|done]. Qed.
Lemma at_path_mono P s s' follow p n : (∀ q, s q ≠ None → s' q = s q) → at_path P s follow p n → at_path P s' follow p n.
Proof. intros Hm (k & q & Hk & [Hp HL] & Hq). exists k, q. split_and!; [done| |rewrite Hm; [done|by rewrite Hq]]. split; [done|]. by eapply leads_mono. Qed.
Theorem create_dir_safe P s dirs : good_tree s → ∃ s' e, create_dir P s dirs = Ret (s', e) ∧ only_dirs_added s s' ∧ good_tree s' ∧ (e = None → Forall (λ v, at_path P s' true v NDir) dirs).
Proof.
  revert s. induction dirs as [|v dirs IH]; intros s Hg; [exists s, None; by split_and!; [|apply added_refl|..]|]. cbn [create_dir]. destruct (path_exists P s v) as [b e] eqn:Ee. destruct e as [e|]; [exists s, (Some e); by split_and!; [destruct b|apply added_refl|..]|]. destruct b.
  - destruct (IH s Hg) as (s' & e & E & Ha & Hg' & Hok). exists s', e. split_and!; try done. intros He. constructor; [|auto]. eapply at_path_mono; [by apply added_keeps|]. apply stat_ok. unfold path_exists, stat in Ee. by destruct (stat_of true P s v) as [[]|[]].
  - destruct (mk_dir_safe P s v Hg) as (s1 & e1 & E1 & Ha1 & Hg1 & Hok1). rewrite E1. cbn [mbind go_bind]. destruct e1 as [e1|]; [by exists s1, (Some (Some e1))|]. destruct (IH s1 Hg1) as (s' & e & E & Ha & Hg' & Hok). exists s', e. split_and!; try done; [by eapply added_trans|]. intros He. constructor; [|auto]. eapply at_path_mono; [by apply added_keeps|]. auto.
Qed.
(** a path of names whose existing part consists of directories: it is completed, and nothing else changes *)
Theorem mk_dir_plain P s p st : st = (if is_abs p then [] else cwd P) → good_tree s → (∀ q, deny P q = false) → p ≠ [] → Forall (λ c, c = [] ∨ name c) (comps p) → s st = Some NDir →
  let cs := nonempty (comps p) in
  (∀ i, (i ≤ length cs)%nat → s (st ++ take i cs) = None ∨ s (st ++ take i cs) = Some NDir) →
  ∃ s', mk_dir P s p = Ret (s', None) ∧ (∀ i, (i ≤ length cs)%nat → s' (st ++ take i cs) = Some NDir) ∧ ∀ q, (∀ i, (i ≤ length cs)%nat → q ≠ st ++ take i cs) → s' q = s q.
Proof.
  intros Est Hg Hd Hp Hpl Hst cs Hpre. destruct (mkdir_all_plain P (S (length p)) s p st Est ltac:(lia) Hg Hd Hp Hpl Hst Hpre) as (s' & E & Ha & Hg' & Hs & Ho). exists s'. split_and!; try done. intros i Hi.
  destruct (decide (i = length cs)) as [->|Hne]; [by rewrite firstn_all|]. apply (good_prefix s' _ (drop i cs)); [done| |intros En; apply (f_equal length) in En; rewrite drop_length in En; simpl in En; lia]. rewrite <- app_assoc, take_drop. unfold cs. by rewrite Hs.
Qed.
(** an error may come after some of the directories were made *)
Theorem mk_dir_refuted : ∃ s', create_dir demo_proc demo [str "n"; str "f/x"] = Ret (s', Some (Some ENOTDIR)) ∧ s' [str "n"] = Some NDir ∧ demo [str "n"] = None.
Proof. eexists. split; [by vm_compute|]. by vm_compute. Qed.

(** ** C83: FileMove *)
Lemma below_spec a b : below a b = true ↔ a `prefix_of` b.
Proof.
  unfold below. rewrite bool_decide_eq_true. split; [intros E; exists (drop (length a) b); rewrite <- E at 1; symmetry; apply take_drop|]. intros [r ->]. by rewrite take_app.
Qed.
Lemma move_moved s a b : ¬ a `prefix_of` b → (∀ r, s (b ++ r) ≠ None → r = []) → s a ≠ None → good_tree s → moved s (move s a b) a b.
Proof.
  intros Hab Hb Ha Hg. unfold move, moved. split_and!.
  - intros r. rewrite (proj2 (below_spec b (b ++ r))) by (by eexists). by rewrite drop_app.
  - intros r. destruct (below b (a ++ r)) eqn:E.
    + apply below_spec in E as [r' E]. destruct (decide (a `prefix_of` b)) as [|_]; [done|]. assert (Hpre : b `prefix_of` a). { destruct (prefix_weak_total a b (a ++ r)) as [?|?]; [by eexists|rewrite E; by eexists|done|done]. }
      destruct Hpre as [r2 ->]. destruct (decide (r2 = [])) as [->|H2]; [destruct Hab; by rewrite app_nil_r|]. by apply Hb in Ha.
    + by rewrite (proj2 (below_spec a (a ++ r))) by (by eexists).
  - intros q H1 H2. destruct (below b q) eqn:E1; [by apply below_spec in E1|]. destruct (below a q) eqn:E2; [by apply below_spec in E2|]. done.
Qed.
Lemma move_good s a d c : good_tree s → ¬ a `prefix_of` (d ++ [c]) → a ≠ [] → s d = Some NDir → good_tree (move s a (d ++ [c])).
Proof.
  intros Hg Hab Ha Hd. destruct (Hg) as [Hr Hg']. assert (Hnb : ∀ q, below (d ++ [c]) q = false → below a q = false → move s a (d ++ [c]) q = s q) by (intros q E1 E2; unfold move; by rewrite E1, E2).
  assert (Hb : ∀ x y, (¬ x `prefix_of` y) → below x y = false) by (intros x y H; destruct (below x y) eqn:E; [by apply below_spec in E|done]).
  split.
  - rewrite Hnb; [done| |]; apply Hb; intros ?%prefix_nil_inv; [by destruct d|done].
  - intros p x H. unfold move in H. destruct (below (d ++ [c]) (p ++ [x])) eqn:E1.
    + apply below_spec in E1 as E1'. destruct E1' as [r E]. destruct r as [|y r _] using rev_ind.
      * rewrite app_nil_r in E. apply app_inj_tail in E as [-> ->]. rewrite Hnb; [done| |]; apply Hb.
        -- intros Hpre%prefix_length. rewrite app_length in Hpre. simpl in Hpre. lia.
        -- intros Hpre. apply Hab. by apply prefix_app_r.
      * rewrite app_assoc in E. apply app_inj_tail in E as [-> ->]. rewrite <- app_assoc, drop_app, app_assoc in H. unfold move. rewrite (proj2 (below_spec _ _)) by (by eexists). rewrite drop_app. by apply Hg' in H.
    + destruct (below a (p ++ [x])) eqn:E2; [done|]. apply Hg' in H. rewrite Hnb; [done| |]; apply Hb; intros Hpre; (apply not_true_iff_false in E1; apply not_true_iff_false in E2); [apply E1|apply E2]; apply below_spec; by apply prefix_app_r.
Qed.
Lemma rename_spec P s old new s' e : rename P s old new = (s', e) → good_tree s → good_tree s' ∧ ((e ≠ None ∧ s' = s) ∨
  (e = None ∧ ∃ a b, entry_at P s old a ∧ entry_at P s new b ∧ s a ≠ None ∧ (a = b ∧ s' = s ∨ ¬ a `prefix_of` b ∧ s b ≠ Some NDir ∧ (s a = Some NDir → s b = None) ∧ moved s s' a b))).
Proof.
  intros H Hg. unfold rename in H. destruct (lookup_parent P s old) as [[| | |d c]|e1] eqn:E1; destruct (lookup_parent P s new) as [[| | |d' c']|e2] eqn:E2; try (injection H as <- <-; split; [done|by left]).
  apply lookup_name in E1 as (_ & pre1 & n1 & k1 & ? & ? & ? & ? & ? & ?), E2 as (_ & pre2 & n2 & k2 & ? & ? & ? & ? & Hd' & ?).
  assert (Ho : entry_at P s old (d ++ [c])) by (exists pre1, c, n1, k1, d; by split_and!). assert (Hn : entry_at P s new (d' ++ [c'])) by (exists pre2, c', n2, k2, d'; by split_and!).
  destruct (s (d ++ [c])) as [n|] eqn:Ea; [|injection H as <- <-; split; [done|by left]]. destruct (bool_decide_reflect (d ++ [c] = d' ++ [c'])) as [E|E].
  { injection H as <- <-. split; [done|]. right. split; [done|]. exists (d ++ [c]), (d' ++ [c']). split_and!; try done; [by rewrite Ea|by left]. }
  destruct (below (d ++ [c]) (d' ++ [c'])) eqn:Eb; [injection H as <- <-; split; [done|by left]|]. assert (Hnp : ¬ (d ++ [c]) `prefix_of` (d' ++ [c'])) by (intros Hpre%below_spec; congruence).
  assert (Hm : s (d' ++ [c']) ≠ Some NDir → (n = NDir → s (d' ++ [c']) = None) → (move s (d ++ [c]) (d' ++ [c']), None) = (s', e) → good_tree s' ∧ ((e ≠ None ∧ s' = s) ∨
  (e = None ∧ ∃ a b, entry_at P s old a ∧ entry_at P s new b ∧ s a ≠ None ∧ (a = b ∧ s' = s ∨ ¬ a `prefix_of` b ∧ s b ≠ Some NDir ∧ (s a = Some NDir → s b = None) ∧ moved s s' a b)))).
  { intros Hb Hdir [= <- <-]. split; [apply move_good; try done; by destruct d|]. right. split; [done|]. exists (d ++ [c]), (d' ++ [c']). split_and!; try done; [by rewrite Ea|]. right. split_and!; try done; [rewrite Ea; intros [= ->]; auto|]. apply move_moved; try done; [|by rewrite Ea].
    intros r Hr. destruct (decide (r = [])) as [|Hr']; [done|]. by apply (good_prefix _ _ _ Hg Hr) in Hr'. }
  destruct n, (s (d' ++ [c'])) as [[]|] eqn:Eb'; try (injection H as <- <-; split; [done|by left]); apply Hm; try done; by intros [= ].
Qed.
Lemma os_rename_spec P s old new s' e : os_rename P s old new = (s', e) → good_tree s → good_tree s' ∧ ((e ≠ None ∧ s' = s) ∨
  (e = None ∧ ∃ a b, entry_at P s old a ∧ entry_at P s new b ∧ s a ≠ None ∧ (a = b ∧ s' = s ∨ ¬ a `prefix_of` b ∧ s b ≠ Some NDir ∧ (s a = Some NDir → s b = None) ∧ moved s s' a b))).
Proof.
  intros H Hg. unfold os_rename in H. destruct (lstat P s new) as [[]|]; try (by eapply rename_spec).
  destruct (namei P s false old), (namei P s false new); try (injection H as <- <-; split; [done|by left]). destruct (_ || _); [injection H as <- <-; split; [done|by left]|]. by eapply rename_spec.
Qed.
(** FileMove always returns.  If it fails it has at most added directories.  If it reports success and the
    destination is not empty it has added directories, and in the tree with them the two paths name entries
    [a] and [b], and what was at [a] is now at [b], or [a] is [b]. *)
Definition did_move (P : proc) (s s' : tree) (src dst : gostr) : Prop :=
  ∃ s1 a b, only_dirs_added s s1 ∧ entry_at P s1 (path_str (abs_path P src)) a ∧ entry_at P s1 (path_str (abs_path P dst)) b ∧ s1 a ≠ None ∧
    (a = b ∧ s' = s1 ∨ ¬ a `prefix_of` b ∧ s1 b ≠ Some NDir ∧ (s1 a = Some NDir → s1 b = None) ∧ moved s1 s' a b).
Theorem file_move_safe P s src dst : good_tree s → ∃ s' e, file_move P s src dst = Ret (s', e) ∧ good_tree s' ∧
  ((e ≠ None ∧ only_dirs_added s s') ∨ (e = None ∧ dst = [] ∧ s' = s) ∨ (e = None ∧ dst ≠ [] ∧ did_move P s s' src dst)).
Proof.
  intros Hg. unfold file_move. destruct (bool_decide_reflect (dst = [])) as [->|Hdst]; [exists s, None; split_and!; auto|].
  set (a := path_str (abs_path P src)). set (b := path_str (abs_path P dst)). set (dir := path_str (up (abs_path P dst))).
  assert (HR : ∀ s1, good_tree s1 → only_dirs_added s s1 → ∃ s' e, Ret (os_rename P s1 a b) = Ret (s', e) ∧ good_tree s' ∧ ((e ≠ None ∧ only_dirs_added s s') ∨ (e = None ∧ dst = [] ∧ s' = s) ∨ (e = None ∧ dst ≠ [] ∧ did_move P s s' src dst))).
  { intros s1 Hg1 Ha1. destruct (os_rename P s1 a b) as [s' e] eqn:E. exists s', e. split; [done|]. apply os_rename_spec in E as [Hg' E]; [|done]. split; [done|]. destruct E as [[He ->]|(He & x & y & H1 & H2 & H3 & H4)]; [by left|]. right. right. split_and!; try done. by exists s1, x, y. }
  destruct (stat P s dir); [apply HR; auto using added_refl|]. destruct (mk_dir_safe P s dir Hg) as (s1 & e1 & E1 & Ha1 & Hg1 & Hok). rewrite E1. cbn [mbind go_bind]. destruct e1 as [e1|]; [exists s1, (Some e1); split_and!; auto|].
  destruct (stat P s1 dir); [by apply HR|]. destruct (mk_dir_safe P s1 dir Hg1) as (s2 & e2 & E2 & Ha2 & Hg2 & _). rewrite E2. cbn [mbind go_bind]. pose proof (added_trans _ _ _ Ha1 Ha2). destruct e2 as [e2|]; [exists s2, (Some e2); split_and!; auto|]. by apply HR.
Qed.

(** *** absolute paths *)
Definition good_name (c : gostr) : Prop := name c ∧ 47 ∉ c.
Lemma comps_no_slash s c : c ∈ comps s → 47 ∉ c.
Proof.
  revert c. induction s as [|x s IH]; intros c; simpl; [by intros ->%elem_of_list_singleton ?%elem_of_nil|]. destruct (Z.eqb_spec x 47) as [->|Hx].
  - intros [->|Hc]%elem_of_cons; [by intros ?%elem_of_nil|by apply IH].
  - destruct (comps s) as [|y l]; intros [->|Hc]%elem_of_cons; rewrite ?elem_of_cons.
    + rewrite elem_of_nil. naive_solver.
    + by apply elem_of_nil in Hc.
    + intros [?|?]; [congruence|]. by apply (IH y); [left|].
    + apply IH. by right.
Qed.
Lemma clean_names s : is_abs s = true → Forall good_name (p_comps (clean s)).
Proof.
  intros Ha. unfold clean. rewrite Ha. simpl. assert (H : ∀ cs st, Forall (λ c, 47 ∉ c) cs → Forall good_name st → Forall good_name (foldl (clean_step true) st cs)).
  { intros cs. induction cs as [|c cs IH]; intros st Hcs Hst; [done|]. inversion Hcs; subst. simpl. apply IH; [done|]. unfold clean_step. destruct (bool_decide_reflect (c = [])); [done|]. destruct (bool_decide_reflect (c = dot)); [done|]. simpl.
    destruct (bool_decide_reflect (c = dotdot)) as [->|].
    - destruct st as [|x st]; [done|]. inversion Hst as [|? ? [(? & ? & ?) ?]]; subst. by rewrite bool_decide_eq_false_2.
    - by constructor. }
  apply Forall_reverse. apply H; [|done]. apply Forall_forall. intros c. apply comps_no_slash.
Qed.
Lemma abs_names P p : is_abs (wd P) = true → Forall good_name (abs_path P p).
Proof.
  intros Hw. unfold abs_path. destruct (is_abs p) eqn:Ha; [by apply clean_names|]. unfold path_join. destruct (bool_decide_reflect (wd P = [])) as [E|]; [by rewrite E in Hw|]. apply clean_names. unfold is_abs in *. by destruct (wd P).
Qed.
(** the absolute path is where a walk along the names leads, links ignored *)
Theorem abs_path_walk P p : is_abs (wd P) = true → abs_path P p = PathSpec.walk (if is_abs p then [] else PathSpec.walk [] (comps (wd P))) (comps p).
Proof.
  intros Hw. pose proof (abs_names P p Hw) as Hn. assert (E : ∀ cs st, Forall good_name cs → PathSpec.walk st cs = st ++ cs).
  { intros cs. induction cs as [|c cs IH] using rev_ind; intros st Hcs; [by rewrite app_nil_r|]. apply Forall_app in Hcs as [Hcs Hc]. apply Forall_singleton in Hc as [(H1 & H2 & H3) _]. rewrite PathProps.walk_snoc, IH, PathProps.walk_step_down by done. by rewrite <- app_assoc. }
  pose proof (E _ [] Hn) as E1. simpl in E1. rewrite <- E1. unfold abs_path in *. destruct (is_abs p) eqn:Ha; [by apply PathProps.clean_walk|]. unfold path_join in *. destruct (bool_decide_reflect (wd P = [])) as [Ew|Hne]; [by rewrite Ew in Hw|].
  destruct (PathProps.clean_walk (wd P ++ [47] ++ p) [] ltac:(done)) as (_ & -> & _). simpl app. rewrite PathProps.comps_app. unfold PathSpec.walk. by rewrite foldl_app.
Qed.
Lemma comps_flat c r : 47 ∉ c → comps (c ++ (r ≫= λ c, 47 :: c)) = match r with [] => [c] | _ => c :: tail (comps (r ≫= λ c, 47 :: c)) end.
Proof.
  intros Hc. destruct r as [|y r]; [simpl; pose proof (comps_tail c 0 Hc) as E; simpl in E; by rewrite app_nil_r in E |- *|]. cbn [mbind list_bind app]. rewrite PathProps.comps_app. pose proof (comps_tail c 0 Hc) as E. simpl in E. rewrite app_nil_r in E. rewrite E. done.
Qed.
Lemma comps_path_str cs : Forall good_name cs → cs ≠ [] → comps (path_str cs) = [] :: cs.
Proof.
  intros H Hne. unfold path_str. rewrite bool_decide_eq_false_2 by done. assert (HH : ∀ cs, Forall good_name cs → cs ≠ [] → comps (cs ≫= λ c, 47 :: c) = [] :: cs); [|by apply HH]. clear. intros cs H. induction H as [|c cs [_ Hc] Hcs IH]; [done|]. intros _. cbn [mbind list_bind app]. change (47 :: ?x) with ([] ++ 47 :: x). rewrite PathProps.comps_app. simpl comps at 1. cbn [app]. f_equal. rewrite comps_flat by done. destruct cs as [|y cs]; [done|]. f_equal. by rewrite IH.
Qed.
Lemma path_str_abs cs : is_abs (path_str cs) = true ∧ path_str cs ≠ [].
Proof. unfold path_str. destruct cs; by rewrite ?bool_decide_eq_true_2, ?bool_decide_eq_false_2 by done. Qed.
Lemma plain_names cs : Forall good_name cs → plain_comps (comps (path_str cs)) ∧ nonempty (comps (path_str cs)) = cs.
Proof.
  intros H. destruct (decide (cs = [])) as [->|Hne].
  - split; [|done]. repeat constructor; by left.
  - rewrite comps_path_str by done. split.
    + constructor; [by left|]. eapply Forall_impl; [done|]. intros c [? _]. by right.
    + unfold nonempty. rewrite filter_cons, decide_False by auto. clear Hne. induction H as [|c cs [(Hc & _) _] _ IH]; [done|]. rewrite filter_cons, decide_True by done. by rewrite IH.
Qed.
Lemma entry_names P s d c : Forall good_name (d ++ [c]) → good_tree s → (∀ q, deny P q = false) → s d = Some NDir → lookup_parent P s (path_str (d ++ [c])) = Ok (LName d c).
Proof.
  intros Hn Hg Hd Hs. pose proof (comps_path_str _ Hn ltac:(by destruct d)) as Ec. apply Forall_app in Hn as [Hn Hc]. apply Forall_singleton in Hc as [Hc _].
  eapply (lookup_name_intro P s _ ([] :: d) c 0 0); try done; [lia| ]. rewrite (proj1 (path_str_abs _)). apply leads_slash; [apply Hg|].
  assert (En : nonempty d = d). { unfold nonempty. clear -Hn. induction Hn as [|x l [(Hx & _) _] _ IH]; [done|]. rewrite filter_cons, decide_True by done. by rewrite IH. }
  pose proof (leads_plain (deny P) s [] d Hd) as HL. rewrite En in HL. apply HL; try done; [|apply Hg]. eapply Forall_impl; [done|]. intros x [? _]. by right.
Qed.
Lemma walk_names deny s f d : ∀ pre r, Forall good_name d → good_tree s → (∀ q, deny q = false) → s (pre ++ d) = Some NDir → walk 40 deny s f pre (d ++ r) = walk 40 deny s f (pre ++ d) r.
Proof.
  induction d as [|c d IH]; intros pre r Hn Hg Hd Hs; [by rewrite app_nil_r|]. apply Forall_cons in Hn as [[(Hc1 & Hc2 & Hc3) _] Hn]. rewrite <- app_comm_cons, walk_eq.
  assert (Hp : s pre = Some NDir) by (apply (good_prefix s pre (c :: d)); [done|by rewrite Hs|done]). assert (Hs' : s ((pre ++ [c]) ++ d) = Some NDir) by (by rewrite <- app_assoc).
  assert (Hpc : s (pre ++ [c]) = Some NDir). { destruct d as [|y d]; [by rewrite app_nil_r in Hs'|]. apply (good_prefix s _ (y :: d)); [done|by rewrite Hs'|done]. }
  rewrite Hp, Hd, Hpc, !bool_decide_eq_false_2 by done. rewrite IH by done. by rewrite <- app_assoc.
Qed.
Lemma namei_names P s d c : Forall good_name (d ++ [c]) → good_tree s → (∀ q, deny P q = false) → s d = Some NDir →
  namei P s false (path_str (d ++ [c])) = match s (d ++ [c]) with Some _ => Ok (d ++ [c]) | None => Err ENOENT end.
Proof.
  intros Hn Hg Hd Hs. unfold namei. destruct (path_str_abs (d ++ [c])) as [-> Hne]. rewrite bool_decide_eq_false_2 by done. rewrite comps_path_str by (done || by destruct d). apply Forall_app in Hn as [Hn Hc]. apply Forall_singleton in Hc as [(Hc1 & Hc2 & Hc3) _].
  rewrite walk_eq, (proj1 Hg), bool_decide_eq_true_2 by done. rewrite walk_names by done. simpl app. rewrite walk_eq, Hs, Hd, !bool_decide_eq_false_2 by done. destruct (s (d ++ [c])) as [[]|]; try done.
Qed.
(** without links in the way: FileMove moves.  [a] and [b] are the two absolute paths, as names. *)
Theorem file_move_partial P s src dst n : let a := abs_path P src in let b := abs_path P dst in
  good_tree s → (∀ q, deny P q = false) → is_abs (wd P) = true → dst ≠ [] → b ≠ [] →
  s a = Some n → s b ≠ Some NDir → (n = NDir → s b = None) → ¬ a `prefix_of` b → (∀ i, (i < length b)%nat → s (take i b) = None ∨ s (take i b) = Some NDir) →
  ∃ s1 s', file_move P s src dst = Ret (s', None) ∧ (∀ i, (i < length b)%nat → s1 (take i b) = Some NDir) ∧ (∀ q, (∀ i, (i < length b)%nat → q ≠ take i b) → s1 q = s q) ∧ moved s1 s' a b.
Proof.
  intros a b Hg Hd Hw Hdst Hb Ha Hbd Hnd Hpre Hway. pose proof (abs_names P src Hw) as Han. pose proof (abs_names P dst Hw) as Hbn. fold a in Han. fold b in Hbn. unfold file_move. rewrite bool_decide_eq_false_2 by done. fold a b.
  assert (Ea : a ≠ []) by (intros E; apply Hpre; rewrite E; apply prefix_nil). clearbody a b.
  destruct b as [|c' d' _] using rev_ind; [done|]. destruct a as [|c d _] using rev_ind; [done|].
  assert (Hup : up (d' ++ [c']) = d'). { unfold up. rewrite app_length, take_app_le by (simpl; lia). simpl. by rewrite firstn_all2 by lia. } rewrite Hup.
  apply Forall_app in Hbn as Hbn'. destruct Hbn' as [Hd'n _]. destruct (plain_names d' Hd'n) as [Hpl Hnon]. destruct (path_str_abs d') as [Habs Hne].
  assert (Hs : s d = Some NDir) by (apply (proj2 Hg _ c); by rewrite Ha). assert (Ht : ∀ i, (i < length (d' ++ [c']))%nat → take i (d' ++ [c']) = take i d') by (intros i Hi; rewrite app_length in Hi; simpl in Hi; apply take_app_le; lia).
  (* a tree in which the parent exists *)
  assert (HR : ∀ s1, good_tree s1 → only_dirs_added s s1 → s1 d' = Some NDir → (∀ q, (∀ i, (i < length (d' ++ [c']))%nat → q ≠ take i (d' ++ [c'])) → s1 q = s q) → ∃ s', os_rename P s1 (path_str (d ++ [c])) (path_str (d' ++ [c'])) = (s', None) ∧ moved s1 s' (d ++ [c]) (d' ++ [c'])).
  { intros s1 Hg1 Hadd Hs1 Hoth. assert (Ea1 : s1 (d ++ [c]) = Some n) by (rewrite (added_keeps _ _ Hadd); [done|by rewrite Ha]). assert (Ed1 : s1 d = Some NDir) by (rewrite (added_keeps _ _ Hadd); [done|by rewrite Hs]).
    assert (Eb1 : s1 (d' ++ [c']) = s (d' ++ [c'])). { apply Hoth. intros i Hi E. apply (f_equal length) in E. rewrite take_length in E. lia. }
    assert (Er : rename P s1 (path_str (d ++ [c])) (path_str (d' ++ [c'])) = (move s1 (d ++ [c]) (d' ++ [c']), None)).
    { unfold rename. rewrite !entry_names by done. rewrite Ea1, bool_decide_eq_false_2 by (intros E; apply Hpre; by rewrite E). destruct (below (d ++ [c]) (d' ++ [c'])) eqn:Ebl; [by apply below_spec in Ebl|]. rewrite Eb1. destruct n; [|by rewrite Hnd by done|]; destruct (s (d' ++ [c'])) as [[]|]; try done. }
    exists (move s1 (d ++ [c]) (d' ++ [c'])). split.
    - unfold os_rename, lstat, stat_of. rewrite (namei_names P s1 d' c') by done. rewrite Eb1. destruct (s (d' ++ [c'])) as [m|] eqn:Em; [|done]. rewrite Eb1. by destruct m.
    - apply move_moved; try done; [|by rewrite Ea1]. rewrite <- Eb1 in Hbd. intros r Hr. destruct (decide (r = [])) as [|Hr']; [done|]. by apply (good_prefix _ _ _ Hg1 Hr) in Hr'. }
  assert (Hlast : s d' = None ∨ s d' = Some NDir). { specialize (Hway (length d') ltac:(rewrite app_length; simpl; lia)). by rewrite take_app in Hway. }
  destruct (mkdir_all_plain P (S (length (path_str d'))) s (path_str d') []) as (s1 & Emk & Hadd & Hg1 & Hs1 & Hoth); try done; [by rewrite Habs|lia|apply Hg| |].
  { rewrite Hnon. intros i Hi. specialize (Hway i ltac:(rewrite app_length; simpl; lia)). by rewrite take_app_le in Hway. }
  rewrite Hnon in Hs1, Hoth. simpl in Hs1, Hoth.
  assert (Hdirs : ∀ i, (i < length (d' ++ [c']))%nat → s1 (take i (d' ++ [c'])) = Some NDir).
  { intros i Hi. rewrite Ht by done. destruct (decide (i = length d')) as [->|Hi']; [by rewrite firstn_all|]. apply (good_prefix s1 _ (drop i d')); [done|by rewrite take_drop, Hs1|]. intros E. apply (f_equal length) in E. rewrite app_length in Hi. rewrite drop_length in E. simpl in *. lia. }
  assert (Hoth' : ∀ q, (∀ i, (i < length (d' ++ [c']))%nat → q ≠ take i (d' ++ [c'])) → s1 q = s q).
  { intros q Hq. apply Hoth. intros i Hi. rewrite <- Ht by (rewrite app_length; simpl; lia). apply Hq. rewrite app_length. simpl. lia. }
  assert (Est : ∀ s0, good_tree s0 → s0 d' = Some NDir → stat P s0 (path_str d') = Ok NDir).
  { intros s0 Hg0 H0. apply stat_ok. exists 0%nat, d'. split_and!; [lia| |done]. split; [done|]. rewrite Habs. pose proof (leads_plain (deny P) s0 [] (comps (path_str d')) Hd Hpl) as HX. rewrite Hnon in HX. apply HX; [done|done|apply Hg0]. }
  destruct (HR s1 Hg1 Hadd Hs1 Hoth') as (s' & Eos & Hm). exists s1, s'. split; [|done].
  destruct (stat P s (path_str d')) as [x|e] eqn:Es.
  - (* already there *)
    assert (Hsd : s d' = Some NDir). { destruct Hlast as [Hl|]; [|done]. exfalso. unfold mk_dir in *. cbn [mkdir_all] in Emk. rewrite Es in Emk. destruct x; simplify_eq; congruence. }
    cbn [mkdir_all] in Emk. rewrite Es in Emk. assert (Ex : x = NDir) by (rewrite (Est s Hg Hsd) in Es; congruence). subst x. injection Emk as <-. by rewrite Eos.
  - unfold mk_dir. rewrite Emk. cbn [mbind go_bind]. rewrite (Est s1 Hg1 Hs1). by rewrite Eos.
Qed.
(** the destination "" is reported as a success; a failed move may leave new directories, even inside the
    directory that was to be moved; after a move through a link inside the moved directory nothing is at the
    destination path *)
Definition demo2 : tree := λ p, if decide (p = []) then Some NDir else if decide (p = [str "a"]) then Some NDir else if decide (p = [str "a"; str "l"]) then Some (NLink (str "/d")) else if decide (p = [str "d"]) then Some NDir else None.
Theorem file_move_refuted :
  (∀ P s src, file_move P s src [] = Ret (s, None)) ∧
  (∃ s', file_move demo_proc demo (str "d") (str "d/n/m") = Ret (s', Some EINVAL) ∧ demo [str "d"; str "n"] = None ∧ s' [str "d"; str "n"] = Some NDir) ∧
  (∃ s', file_move demo_proc demo (str "none") (str "n/m") = Ret (s', Some ENOENT) ∧ s' [str "n"] = Some NDir) ∧
  (∃ s', file_move demo_proc demo2 (str "a") (str "a/l/b") = Ret (s', None) ∧ stat demo_proc s' (str "a/l/b") = Err ENOENT ∧ s' [str "d"; str "b"] = Some NDir).
Proof.
  split_and!; [done|..]; (eexists; split; [by vm_compute|]; by vm_compute).
Qed.

(** ** C84: DeLFile *)
Lemma prune_removed s q : removed s (prune s q) q.
Proof.
  unfold prune. split; [intros r; by rewrite (proj2 (below_spec q (q ++ r))) by (by eexists)|]. intros x Hx. destruct (below q x) eqn:E; [by apply below_spec in E|done].
Qed.
(** a path that names an entry: exactly the entry and everything below it is removed, links are not followed *)
Theorem del_file_entry P s p q : ends_with_dot p = false → entry_at P s p q → ∃ s', del_file P s p = (s', None) ∧ (if decide (s q = None) then s' = s else removed s s' q).
Proof.
  intros He (pre & c & n & k & d & Ec & Hc & Hk & HL & Hd & Hdn & ->). unfold del_file. rewrite bool_decide_eq_false_2, He.
  2: { intros ->. simpl in Ec. destruct pre as [|? []]; simpl in Ec; simplify_eq. by destruct Hc. }
  rewrite (lookup_name_intro P s p pre c n k d) by done. destruct (s (d ++ [c])) eqn:E.
  - eexists. split; [done|]. rewrite decide_False by done. apply prune_removed.
  - eexists. split; [done|]. by rewrite decide_True.
Qed.
(** if DeLFile reports success, nothing else was removed *)
Theorem del_file_ok P s p s' : del_file P s p = (s', None) → s' = s ∨ ∃ q, entry_at P s p q ∧ removed s s' q.
Proof.
  unfold del_file. destruct (bool_decide _); [intros [= <-]; by left|]. destruct (ends_with_dot p); [done|]. destruct (lookup_parent P s p) as [[| | |d c]|[]] eqn:E; try done; try (intros [= <-]; by left).
  apply lookup_name in E as (_ & pre & n & k & ? & ? & ? & ? & ? & ?). destruct (s (d ++ [c])) eqn:Es; intros [= <-]; [|by left]. right. exists (d ++ [c]). split; [exists pre, c, n, k, d; by split_and!|apply prune_removed].
Qed.
(** but: a path that denotes nothing can remove a file; with an error everything in a directory may be gone;
    the contents of the working directory or of its parent are removed with "./" and ".." *)
Theorem del_file_refuted :
  (nothing_at demo_proc demo true (str "f/") ∧ ∃ s', del_file demo_proc demo (str "f/") = (s', None) ∧ demo [str "f"] ≠ None ∧ s' [str "f"] = None) ∧
  (∃ s', del_file demo_proc demo (str "d/..") = (s', Some ENOTEMPTY) ∧ s' [str "f"] = None ∧ s' [str "d"; str "g"] = None) ∧
  (∃ s', del_file demo_proc demo (str "d/./") = (s', Some EINVAL) ∧ s' [str "d"; str "g"] = None) ∧
  del_file demo_proc demo (str "d/.") = (demo, Some EINVAL) ∧
  (∃ s', del_file demo_proc demo (str "/") = (s', Some EBUSY) ∧ ∀ q, q ≠ [] → s' q = None).
Proof.
  split_and!.
  - apply nothing_by_walk; [done|eexists; split; [by vm_compute|done]].
  - eexists. split; [by vm_compute|]. by vm_compute.
  - eexists. split; [by vm_compute|]. by vm_compute.
  - eexists. split; [by vm_compute|]. by vm_compute.
  - by vm_compute.
  - exists (empty_dir demo []). split; [done|]. intros q Hq. unfold empty_dir. rewrite (proj2 (below_spec [] q)) by apply prefix_nil. by rewrite bool_decide_eq_false_2.
Qed.

(** concrete cases *)
Example fs_ex1 : ∃ s', create_dir demo_proc demo [str "d"; str "x/y//z/"] = Ret (s', None) ∧ s' [str "x"; str "y"; str "z"] = Some NDir ∧ s' [str "f"] = Some (NFile (str "x")).
Proof. eexists. split; [by vm_compute|]. by vm_compute. Qed.
Example fs_ex2 : ∃ s', file_move demo_proc demo (str "d") (str "n/../o/p") = Ret (s', None) ∧ s' [str "o"; str "p"; str "g"] = Some (NFile (str "y")) ∧ s' [str "d"; str "g"] = None ∧ s' [str "n"] = None.
Proof. eexists. split; [by vm_compute|]. by vm_compute. Qed.
Example fs_ex3 : ∃ s', del_file demo_proc demo (str "d") = (s', None) ∧ s' [str "d"; str "g"] = None ∧ s' [str "f"] = demo [str "f"].
Proof. eexists. split; [by vm_compute|]. by vm_compute. Qed.
Example abs_ex : abs_path (Proc [str "x"] (str "/w/v") (λ _, false)) (str "../a//./b") = [str "w"; str "a"; str "b"].
Proof. by vm_compute. Qed.
(** the hypotheses of [file_move_partial] *)
Example fs_ex4 : ∃ s1 s', file_move demo_proc demo (str "f") (str "x/y") = Ret (s', None) ∧ moved s1 s' [str "f"] [str "x"; str "y"].
Proof.
  pose proof (file_move_partial demo_proc demo (str "f") (str "x/y") (NFile (str "x"))) as H. cbv zeta in H. change (abs_path demo_proc (str "f")) with [str "f"] in H. change (abs_path demo_proc (str "x/y")) with [str "x"; str "y"] in H.
  destruct H as (s1 & s' & E & _ & _ & H); [apply demo_good|done..| | |by exists s1, s'].
  - by intros [r [= ]].
  - intros [|[|i]] Hi; [by right|by left|simpl in Hi; lia].
Qed.
Print Assumptions is_dir_exact.
Print Assumptions tests_sound.
Print Assumptions tests_complete.
Print Assumptions tests_refuted.
Print Assumptions mk_dir_safe.
Print Assumptions create_dir_safe.
Print Assumptions mk_dir_plain.
Print Assumptions mk_dir_refuted.
Print Assumptions file_move_safe.
Print Assumptions file_move_partial.
Print Assumptions abs_path_walk.
Print Assumptions file_move_refuted.
Print Assumptions del_file_entry.
Print Assumptions del_file_ok.
Print Assumptions del_file_refuted.
