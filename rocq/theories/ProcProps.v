(** * Properties of the helpers around the process *)
From Verif Require Import GoStr GoBase ConvModel ConvSpec ConvProps Base64Model Base64Props PathModel PathSpec PathProps FsModel FsSpec FsProofs FsProps ZipfsModel ZipfsSpec ZipfsProps SniffModel ProcModel ProcSpec.
Local Open Scope Z_scope.

(** ** ImageFileToBase64 *)
Theorem image_base64_exact P s p :
  (∀ data, readable P s p data → ∃ t, image_file_to_base64 P s p = str "data:image/png;base64," ++ t ∧ t = base64_encode data ∧ (Forall byte data → base64_decode t = data)) ∧
  ((¬ ∃ data, readable P s p data) → image_file_to_base64 P s p = []).
Proof.
  unfold image_file_to_base64, read_res, readable. split.
  - intros data H. apply stat_ok in H. fold stat in H. unfold stat at 1. unfold stat in H. rewrite H. exists (base64_encode data). split_and!; [done|done|]. apply base64_round_trip.
  - intros Hn. destruct (stat P s p) as [[x| |t]|e] eqn:E; try done. destruct Hn. exists x. by apply stat_ok.
Qed.
Definition one_file (data : gostr) : tree := λ q, match q with [] => Some NDir | [c] => if bool_decide (c = str "a.gif") then Some (NFile data) else None | _ => None end.
Definition root_proc : proc := Proc [] (str "/") (λ _, false).
Theorem image_base64_type_refuted : ∃ P s p data, readable P s p data ∧ detect data = str "image/gif" ∧ is_image_file data = true ∧ has_prefix (str "data:image/png;") (image_file_to_base64 P s p) = true.
Proof. exists root_proc, (one_file (str "GIF89a")), (str "/a.gif"), (str "GIF89a"). split; [apply stat_ok; by vm_compute|]. split_and!; by vm_compute. Qed.
(** whatever is in the file is called an image *)
Theorem image_base64_kind_refuted : ∃ P s p data, readable P s p data ∧ is_image_file data = false ∧ image_file_to_base64 P s p = str "data:image/png;base64,aGVsbG8=".
Proof. exists root_proc, (one_file (str "hello")), (str "/a.gif"), (str "hello"). split; [apply stat_ok; by vm_compute|]. split_and!; by vm_compute. Qed.

(** ** GetCurrentDir *)
Lemma comps_some a : comps a ≠ [].
Proof. destruct a; [done|]. simpl. by repeat case_match. Qed.
Lemma up_to_slash_comps a : ∃ pre c, comps a = pre ++ [c] ∧ comps (up_to_slash a) = pre ++ [[]] ∧ (is_abs (up_to_slash a) = is_abs a).
Proof.
  unfold up_to_slash. induction a as [|x a IH] using rev_ind; [exists [], []; done|]. rewrite reverse_app. change (reverse [x]) with [x]. cbn [app drop_while].
  destruct (Z.eqb_spec x 47) as [->|Hx]; cbn [negb].
  - exists (comps a), []. change (drop_while _ (47 :: reverse a)) with (47 :: reverse a). rewrite reverse_cons, reverse_involutive, PathProps.comps_app. by split_and!.
  - destruct IH as (pre & c & E1 & E2 & E3). exists pre, (c ++ [x]). split_and!.
    + clear -E1 Hx. revert pre c E1. induction a as [|y a IH]; intros pre c E1; simpl in *.
      * destruct (Z.eqb_spec x 47); [done|]. destruct pre as [|? [|]]; simplify_eq/=. done.
      * destruct (Z.eqb_spec y 47) as [->|Hy].
        -- destruct pre as [|z pre]; simplify_eq/=; [by destruct (comps_some a)|]. by rewrite (IH pre c).
        -- destruct (comps a) as [|w l] eqn:El; [by destruct (comps_some a)|]. destruct pre as [|z pre]; simplify_eq/=; [by rewrite (IH [] w)|]. by rewrite (IH (w :: pre) c).
    + exact E2.
    + rewrite E3. destruct a as [|y a]; [|done]. unfold is_abs. cbn [app has_prefix]. by destruct (Z.eqb_spec 47 x); [congruence|].
Qed.
Lemma render_comps q : Forall (λ c, 47 ∉ c) (p_comps q) → (∃ n r, p_comps q = replicate n (str "..") ++ r ∧ str ".." ∉ r ∧ (p_rooted q = true → n = 0%nat)) → Forall (λ c, c ≠ [] ∧ c ≠ str ".") (p_comps q) →
  is_abs (render q) = p_rooted q ∧ ∀ from, (p_rooted q = true → from = []) → PathSpec.walk from (comps (render q)) = PathSpec.walk from (p_comps q).
Proof.
  destruct q as [rooted cs]. cbn [p_rooted p_comps]. intros Hs (n & r & E & Hr & Hn) Hc. unfold render. cbn [p_rooted p_comps]. destruct rooted.
  - specialize (Hn eq_refl). subst n. simpl in E. subst cs. split; [apply path_str_abs|]. intros from _. destruct (decide (r = [])) as [->|Hne].
    + simpl. unfold PathSpec.walk. simpl. by rewrite !walk_step_skip by tauto.
    + rewrite comps_path_str; [|apply Forall_forall; intros c Hin; rewrite Forall_forall in Hs, Hc; destruct (Hc _ Hin); split; [split_and!; try done; by intros ->|by apply Hs]|done].
      change ([] :: r) with ([[]] ++ r). unfold PathSpec.walk. rewrite foldl_app. simpl. by rewrite walk_step_skip by tauto.
  - destruct cs as [|c cs]; [split; [done|]; intros from _; unfold PathSpec.walk; simpl; by rewrite walk_step_skip by tauto|]. inversion Hs as [|? ? Hs1 Hs2]; subst. inversion Hc as [|? ? Hc1 Hc2]; subst. split.
    + destruct c as [|x c]; [naive_solver|]. unfold is_abs. cbn [app has_prefix]. destruct (Z.eqb_spec 47 x) as [<-|]; [|done]. exfalso. apply Hs1. by left.
    + intros from _. f_equal. clear E Hr Hn. revert c Hs1 Hs Hc Hc1. induction Hs2 as [|y cs Hy Hys IH]; intros c Hs1 Hs Hc Hc1; [by rewrite comps_flat|]. cbn [mbind list_bind app]. rewrite PathProps.comps_app. pose proof (comps_tail c 0 Hs1) as Et. simpl in Et. rewrite app_nil_r in Et. rewrite Et. cbn [app]. f_equal.
      apply Forall_cons_1 in Hs as [_ Hs]. apply Forall_cons_1 in Hc as [_ Hc]. apply IH; try done; by inversion Hc.
Qed.
Lemma clean_no_slash s : Forall (λ c, 47 ∉ c) (p_comps (clean s)).
Proof.
  unfold clean. cbn [p_comps]. apply Forall_reverse. assert (H : ∀ rooted cs st, Forall (λ c, 47 ∉ c) cs → Forall (λ c, 47 ∉ c) st → Forall (λ c, 47 ∉ c) (foldl (clean_step rooted) st cs)).
  { intros rooted cs. induction cs as [|c cs IH]; intros st Hcs Hst; [done|]. inversion Hcs; subst. simpl. apply IH; [done|]. unfold clean_step. repeat case_match; try done; try (by constructor); by inversion Hst. }
  apply H; [|done]. apply Forall_forall. intros c. apply comps_no_slash.
Qed.
(** filepath.Dir, walked *)
Lemma dir_text_walk a pre c : comps a = pre ++ [c] → is_abs (dir_text a) = is_abs a ∧ ∀ from, (is_abs a = true → from = []) → PathSpec.walk from (comps (dir_text a)) = PathSpec.walk from pre.
Proof.
  intros E. destruct (up_to_slash_comps a) as (pre' & c' & E1 & E2 & E3). rewrite E in E1. apply app_inj_tail in E1 as [<- _]. unfold dir_text. set (d := up_to_slash a) in *.
  destruct (clean_walk d [] ltac:(done)) as (H1 & _ & H3 & H4). destruct (render_comps (clean d)) as [R1 R2]; [apply clean_no_slash|by rewrite H1|done|]. rewrite R1, H1, E3. split; [done|]. intros from Hf. rewrite R2 by (by rewrite H1, E3).
  destruct (clean_walk d from) as (_ & -> & _); [by rewrite E3|]. rewrite E2, walk_snoc. by rewrite walk_step_skip by tauto.
Qed.
(** a walk without links that ends at a file *)
Lemma leads_plain deny s follow cur cs q : good_tree s → leads deny s follow 0 cur cs q → cs ≠ [] → s q ≠ Some NDir → ∃ pre c, cs = pre ++ [c] ∧ q = PathSpec.walk cur pre ++ [c] ∧ name c.
Proof.
  intros [Hg0 Hg] H. remember 0%nat as k eqn:Ek. induction H as [cur|k cur r p Hd Hl IH|k cur r p Hd Hn Hl IH|k cur r p Hd Hn Hl IH|k cur c r p Hc Hd Hn Hs Hl IH|cur c x Hc Hd Hn Hs|cur c t Hc Hd Hn Hs Hf|k cur c t r p Hc Hd Hn Hs Hf Hl IH]; intros Hne Hq; try done.
  - destruct (decide (r = [])) as [->|Hr]; [by inversion Hl; subst|]. destruct (IH Ek Hr Hq) as (pre & c & -> & -> & Hc). exists ([] :: pre), c. split_and!; [done| |done]. unfold PathSpec.walk. simpl. by rewrite walk_step_skip by tauto.
  - destruct (decide (r = [])) as [->|Hr]; [by inversion Hl; subst|]. destruct (IH Ek Hr Hq) as (pre & c & -> & -> & Hc). exists (dot :: pre), c. split_and!; [done| |done]. unfold PathSpec.walk. simpl. by rewrite walk_step_skip by tauto.
  - destruct (decide (r = [])) as [->|Hr].
    + inversion Hl; subst. destruct Hq. unfold up. destruct cur as [|x cur _] using rev_ind; [done|]. rewrite app_length. simpl. rewrite take_app_alt by lia. apply (Hg _ x). by rewrite Hd.
    + destruct (IH Ek Hr Hq) as (pre & c & -> & -> & Hc). exists (dotdot :: pre), c. split_and!; [done| |done]. unfold PathSpec.walk. simpl. by rewrite walk_step_up.
  - destruct (decide (r = [])) as [->|Hr]; [inversion Hl; subst; done|]. destruct (IH Ek Hr Hq) as (pre & c' & -> & -> & Hc'). exists (c :: pre), c'. split_and!; [done| |done]. unfold PathSpec.walk. simpl. destruct Hc as (? & ? & ?). by rewrite walk_step_down.
  - exists [], c. done.
  - exists [], c. done.
Qed.
Definition swap (c : Z) : Z := if c =? 92 then 47 else c.
Lemma replaced_swap s t : replaced (str "\") (str "/") s t → t = swap <$> s.
Proof.
  assert (HN : ∀ a b, (∀ j, (j < length a)%nat → ¬ occurs (str "\") (a ++ b) j) → swap <$> a = a).
  { intros a b H. rewrite <- (list_fmap_id a) at 2. apply list_fmap_ext. intros i c Hi. unfold swap. destruct (Z.eqb_spec c 92) as [->|]; [|done]. exfalso. apply (H i); [by eapply lookup_lt_Some|]. exists (drop (S i) a ++ b). pose proof (lookup_lt_Some _ _ _ Hi). rewrite drop_app_le by lia. by rewrite (drop_S _ _ _ Hi). }
  induction 1 as [s Hn|a b b' Hn Hb IH].
  - symmetry. apply (HN s []). intros j _. rewrite app_nil_r. apply Hn.
  - rewrite !fmap_app, IH. by rewrite (HN a (str "\" ++ b)).
Qed.
Lemma swap_no_backslash (s : gostr) : 92 ∉ s → swap <$> s = s.
Proof. intros H. rewrite <- (list_fmap_id s) at 2. apply list_fmap_ext. intros i c Hi. unfold swap. destruct (Z.eqb_spec c 92) as [->|]; [|done]. destruct H. by eapply elem_of_list_lookup_2. Qed.
(** what it returns, for all arguments *)
Theorem current_dir_value P getwd a rest pre c : is_abs (wd P) = true → comps a = pre ++ [c] → getwd = true ∨ is_abs a = true →
  get_current_dir P getwd (a :: rest) = Ret (Some (swap <$> path_str (PathSpec.walk (if is_abs a then [] else PathSpec.walk [] (comps (wd P))) pre))).
Proof.
  intros Hw E Hg. destruct (dir_text_walk a pre c E) as [D1 D2]. unfold get_current_dir. rewrite D1. destruct (is_abs a) eqn:Ha; cbn [negb andb].
  - do 2 f_equal. rewrite (replaced_swap _ _ (go_replace_exact (path_str (abs_path P (dir_text a))) (str "\") (str "/") ltac:(done))). do 2 f_equal. rewrite abs_path_walk, D1 by done. by apply D2.
  - destruct Hg as [-> |?]; [|done]. cbn [negb]. do 2 f_equal. rewrite (replaced_swap _ _ (go_replace_exact (path_str (abs_path P (dir_text a))) (str "\") (str "/") ltac:(done))). do 2 f_equal. rewrite abs_path_walk, D1 by done. by apply D2.
Qed.
Lemma walk_names from cs : Forall (λ c, name c ∧ 47 ∉ c) cs → PathSpec.walk from cs = from ++ cs.
Proof. induction cs as [|c cs IH] using rev_ind; intros H; [by rewrite app_nil_r|]. apply Forall_app in H as [H Hc]. apply Forall_singleton in Hc as [(H1 & H2 & H3) _]. rewrite walk_snoc, IH, walk_step_down by done. by rewrite <- app_assoc. Qed.
Lemma wd_walk P : proper_wd P → is_abs (wd P) = true ∧ PathSpec.walk [] (comps (wd P)) = cwd P.
Proof.
  intros [-> H]. split; [apply path_str_abs|]. destruct (decide (cwd P = [])) as [->|Hne]; [done|]. rewrite comps_path_str by done. change ([] :: cwd P) with ([[]] ++ cwd P). unfold PathSpec.walk. rewrite foldl_app. simpl. rewrite walk_step_skip by tauto. by apply (walk_names []).
Qed.
(** the directory of the program, if the name it was called by leads to it without links *)
Theorem current_dir_exact P s getwd a rest q x : good_tree s → proper_wd P → denotes_place P s true 0 a q → s q = Some (NFile x) → getwd = true ∨ is_abs a = true → 92 ∉ path_str (up q) →
  get_current_dir P getwd (a :: rest) = Ret (Some (path_str (up q))).
Proof.
  intros Hg Hwd [_ HL] Hq Hget Hb. destruct (wd_walk P Hwd) as [Hw Hc]. apply leads_plain in HL as (pre & c & E & -> & Hn); [|done|apply comps_some|by rewrite Hq].
  rewrite (current_dir_value P getwd a rest pre c Hw E Hget), Hc. unfold up in *. rewrite app_length in *. simpl in *. rewrite take_app_alt in * by lia. by rewrite swap_no_backslash.
Qed.
(** it always returns an absolute path without backslashes, unless the process ends *)
Theorem current_dir_shape P getwd a rest : is_abs (wd P) = true →
  (get_current_dir P getwd (a :: rest) = Ret None ∧ getwd = false ∧ is_abs a = false) ∨ ∃ d, get_current_dir P getwd (a :: rest) = Ret (Some d) ∧ is_abs d = true ∧ 92 ∉ d.
Proof.
  intros Hw. destruct (up_to_slash_comps a) as (pre & c & E & _). destruct (decide (getwd = true ∨ is_abs a = true)) as [Hg|Hg].
  - right. eexists. split; [by apply (current_dir_value P getwd a rest pre c)|]. set (cs := PathSpec.walk _ _). destruct (path_str_abs cs) as [H1 H2]. split.
    + apply has_prefix_iff in H1 as [t H1]. rewrite H1. done.
    + intros (y & Hy & _)%elem_of_list_fmap. unfold swap in Hy. by destruct (Z.eqb_spec y 92).
  - left. assert (is_abs a = false) by (destruct (is_abs a); tauto). assert (getwd = false) by (destruct getwd; tauto). split_and!; [|done|done]. unfold get_current_dir. destruct (dir_text_walk a pre c E) as [-> _]. subst. by rewrite H.
Qed.
(** a tree given by its entries *)
Definition tree_of (l : list (place * node)) : tree := λ q, match q with [] => Some NDir | _ => snd <$> find (λ e, bool_decide (fst e = q)) l end.
Definition at_home : proc := Proc [str "home"] (str "/home") (λ _, false).
Definition w_tree : tree := tree_of [([str "home"], NDir); ([str "a\b"], NDir); ([str "a\b"; str "prog"], NFile []); ([str "bin"], NDir); ([str "bin"; str "prog"], NFile []);
  ([str "x"], NDir); ([str "x"; str "y"], NDir); ([str "x"; str "prog"], NFile []); ([str "l"], NLink (str "/x/y"))].
Theorem current_dir_refuted : proper_wd at_home ∧
  (* a backslash in the name of the directory *)
  (namei at_home w_tree true (str "/a\b/prog") = Ok [str "a\b"; str "prog"] ∧ get_current_dir at_home true [str "/a\b/prog"] = Ret (Some (str "/a/b")) ∧ stat at_home w_tree (str "/a/b") = Err ENOENT) ∧
  (* a program that the shell found in its list of directories *)
  (namei at_home w_tree true (str "/bin/prog") = Ok [str "bin"; str "prog"] ∧ get_current_dir at_home true [str "prog"] = Ret (Some (str "/home"))) ∧
  (* two dots behind a link *)
  (namei at_home w_tree true (str "/l/../prog") = Ok [str "x"; str "prog"] ∧ get_current_dir at_home true [str "/l/../prog"] = Ret (Some (str "/"))) ∧
  (* no arguments at all, no working directory *)
  get_current_dir at_home true [] = Panic PIndex ∧ get_current_dir at_home false [str "prog"] = Ret None.
Proof. split; [split; [by vm_compute|]; repeat constructor; try done; by apply (bool_decide_unpack _)|]. split_and!; by vm_compute. Qed.
(** a name without slashes has the directory "."; with one slash at its front, "/" *)
Theorem dir_text_plain a : 47 ∉ a → dir_text a = str "." ∧ dir_text (47 :: a) = str "/".
Proof.
  intros H. assert (E : drop_while (λ c, negb (c =? 47)) (reverse a) = [] ∧ drop_while (λ c, negb (c =? 47)) (reverse a ++ [47]) = [47]).
  { assert (H' : 47 ∉ reverse a) by by rewrite elem_of_reverse. clear H. induction (reverse a) as [|x l IH]; [done|]. apply not_elem_of_cons in H' as [H1 H2]. simpl. destruct (Z.eqb_spec x 47); [congruence|]. by apply IH. }
  unfold dir_text, up_to_slash. rewrite reverse_cons. destruct E as [-> ->]. done.
Qed.
Example current_dir_ex : get_current_dir at_home true [str "../bin/./prog"; str "-v"] = Ret (Some (str "/bin")) ∧ get_current_dir at_home false [str "/bin//prog"] = Ret (Some (str "/bin")).
Proof. by vm_compute. Qed.

(** ** Reload *)
Lemma find_pid ps me q : NoDup (pr_pid <$> ps) → q ∈ ps → pr_pid q = me → find (λ r, pr_pid r =? me) ps = Some q.
Proof.
  intros Hn Hin Hq. induction ps as [|r ps IH]; [by apply elem_of_nil in Hin|]. rewrite fmap_cons in Hn. apply NoDup_cons in Hn as [Hr Hn]. simpl. destruct (Z.eqb_spec (pr_pid r) me) as [E|E].
  - apply elem_of_cons in Hin as [->|Hin]; [done|]. destruct Hr. rewrite E, <- Hq. by apply elem_of_list_fmap_1.
  - apply elem_of_cons in Hin as [->|Hin]; [done|]. by apply IH.
Qed.
Lemma filter_pid ps q : NoDup (pr_pid <$> ps) → q ∈ ps → filter (λ r, pr_pid r = pr_pid q) ps = [q].
Proof.
  intros Hn Hin. induction ps as [|r ps IH]; [by apply elem_of_nil in Hin|]. rewrite fmap_cons in Hn. apply NoDup_cons in Hn as [Hr Hn]. rewrite filter_cons. destruct (decide (pr_pid r = pr_pid q)) as [E|E].
  - assert (Hno : ∀ l, pr_pid q ∉ pr_pid <$> l → filter (λ r, pr_pid r = pr_pid q) l = []). { intros l. induction l as [|y l IHl]; [done|]. rewrite fmap_cons, not_elem_of_cons. intros [H1 H2]. rewrite filter_cons, decide_False by congruence. by apply IHl. }
    rewrite Hno by (by rewrite <- E). apply elem_of_cons in Hin as [->|Hin]; [done|]. destruct Hr. rewrite E. by apply elem_of_list_fmap_1.
  - apply elem_of_cons in Hin as [->|Hin]; [done|]. by apply IH.
Qed.
(** one hangup, for the parent and for nobody else *)
Theorem reload_exact ps me g q p : NoDup (pr_pid <$> ps) → q ∈ ps → pr_pid q = me → p ∈ ps → pr_pid p = pr_parent q → 0 < pr_pid p < 2 ^ 63 → reload false ps me g = (true, [(pr_pid p, 1)]).
Proof.
  intros Hn Hq Hme Hp Hpar Hr. unfold reload, getppid. rewrite (find_pid ps me q) by done. assert (existsb (λ r, pr_pid r =? pr_parent q) ps = true) as ->. { apply existsb_exists. exists p. split; [by apply elem_of_list_In|]. by apply Z.eqb_eq. }
  destruct (conv_round_trip (pr_parent q)) as [_ ->]; [unfold is_i64; lia|]. unfold kill. destruct (Z.ltb_spec 0 (pr_parent q)); [|lia]. rewrite <- Hpar, filter_pid by done. done.
Qed.
Theorem reload_windows ps me g : reload true ps me g = (false, []).
Proof. done. Qed.
(** the parent is outside: the process and everything else in its group is told to hang up *)
Theorem reload_group_refuted : ∃ ps me g q, NoDup (pr_pid <$> ps) ∧ q ∈ ps ∧ pr_pid q = me ∧ pr_group q = g ∧ reload false ps me g = (true, [(me, 1); (8, 1)]) ∧ ∀ t, (pr_parent q, t) ∉ (reload false ps me g).2.
Proof.
  exists [Process 1 0 1; Process 7 55 7; Process 8 7 7], 7, 7, (Process 7 55 7). assert (E : reload false [Process 1 0 1; Process 7 55 7; Process 8 7 7] 7 7 = (true, [(7, 1); (8, 1)])) by (by vm_compute). rewrite E. split_and!; [|by right; left|done|done|done|].
  - apply (bool_decide_unpack _). by vm_compute.
  - intros t. simpl. rewrite !elem_of_cons, elem_of_nil. naive_solver.
Qed.
Example reload_ex : reload false [Process 1 0 1; Process 5 1 5; Process 7 5 5] 7 5 = (true, [(5, 1)]) ∧ getppid [Process 1 0 1; Process 5 1 5; Process 7 5 5] 7 = 5.
Proof. by vm_compute. Qed.

(** ** ShellExec *)
Lemma cut_line_app l r : 10 ∉ l → cut_line (l ++ 10 :: r) = (l, r).
Proof. induction l as [|c l IH]; intros H; [done|]. apply not_elem_of_cons in H as [H1 H2]. simpl. destruct (Z.eqb_spec c 10); [congruence|]. by rewrite IH. Qed.
Definition as_lines (ls : list gostr) : gostr := concat ((λ l, l ++ [10]) <$> ls).
Section shell.
Context (command : gostr → gostr → did) (out err : gostr → gostr) (status : gostr → Z).
Definition last_status (st : Z) (ls : list gostr) : Z := match last ls with Some l => status l | None => st end.
Lemma last_status_cons st l ls : last_status st (l :: ls) = last_status (status l) ls.
Proof. unfold last_status. destruct ls as [|y ls]; [done|]. rewrite last_cons. by destruct (last (y :: ls)) eqn:E; [|apply last_None in E]. Qed.
Lemma sh_lines ls : Forall (λ l, l ≠ [] ∧ l ≠ str "exit" ∧ 10 ∉ l ∧ ∀ rest, command l rest = Did (out l) (err l) (status l) rest) ls → ∀ fuel st, (length (as_lines ls) + 5 ≤ fuel)%nat →
  sh command fuel st (as_lines ls ++ str "exit" ++ [10]) = (concat (out <$> ls), concat (err <$> ls), last_status st ls).
Proof.
  induction 1 as [|l ls (H1 & H2 & H3 & H4) Hls IH]; intros fuel st Hf.
  - destruct fuel as [|fuel]; [simpl in Hf; lia|]. done.
  - unfold as_lines in *. rewrite !fmap_cons in *. cbn [concat] in *. rewrite !app_length in Hf. simpl in Hf. destruct fuel as [|fuel]; [lia|]. rewrite <- !app_assoc. cbn [app]. destruct l as [|c l]; [done|]. cbn [sh app].
    change (c :: l ++ 10 :: ?x) with ((c :: l) ++ 10 :: x). rewrite cut_line_app by done. rewrite !bool_decide_eq_false_2 by done. rewrite H4. cbn [d_out d_err d_status d_rest].
    rewrite IH; [|simpl in Hf; lia]. by rewrite last_status_cons.
Qed.
(** commands that leave the input alone: their outputs one after the other; an error if the last one failed *)
Theorem shell_exec_lines ls : ls ≠ [] → Forall (λ l, l ≠ [] ∧ l ≠ str "exit" ∧ 10 ∉ l ∧ ∀ rest, command l rest = Did (out l) (err l) (status l) rest) ls →
  shell_exec command true (script ls) = if decide (last_status 0 ls = 0) then inl (concat (out <$> ls)) else inr (concat (err <$> ls)).
Proof.
  intros Hne H. unfold shell_exec. cbn [negb]. assert (E : ∀ t, script ls ++ [10] ++ t = as_lines ls ++ t).
  { intros t. clear H. unfold as_lines. induction ls as [|l ls IH]; [done|]. rewrite fmap_cons. cbn [script concat]. destruct ls as [|y ls]; [simpl; by rewrite !app_nil_r, <- !app_assoc|]. rewrite <- !app_assoc. f_equal. change (10 :: script (y :: ls)) with ([10] ++ script (y :: ls)). rewrite <- app_assoc. f_equal. by apply IH. }
  rewrite E. rewrite sh_lines; [|done|rewrite !app_length; simpl; lia]. by destruct (Z.eqb_spec (last_status 0 ls) 0); case_decide.
Qed.
(** a command that reads all of its input gets the rest of the script and the line exit, and nothing runs after it *)
Theorem shell_exec_reader l more o e st : l ≠ [] → l ≠ str "exit" → 10 ∉ l → (∀ rest, command l rest = Did (o rest) (e rest) (st rest) []) →
  let input := more ++ [10] ++ str "exit" ++ [10] in
  shell_exec command true (l ++ [10] ++ more) = if decide (st input = 0) then inl (o input) else inr (e input).
Proof.
  intros H1 H2 H3 H4. cbv zeta. set (input := more ++ _). unfold shell_exec. cbn [negb]. rewrite <- !app_assoc. fold input. destruct l as [|c l]; [done|]. cbn [app length sh].
  change (c :: l ++ 10 :: input) with ((c :: l) ++ 10 :: input). rewrite cut_line_app by done. rewrite !bool_decide_eq_false_2 by done. rewrite H4. cbn [d_out d_err d_status d_rest].
  destruct (length _); simpl; rewrite !app_nil_r; by destruct (Z.eqb_spec (st input) 0); case_decide.
Qed.
End shell.
(** no shell: an error without a text *)
Theorem shell_exec_missing command cmd : shell_exec command false cmd = inr [].
Proof. done. Qed.
(** a few commands *)
Definition few (line rest : gostr) : did :=
  if bool_decide (line = str "cat") then Did rest [] 0 [] else if bool_decide (line = str "false") then Did [] [] 1 rest
  else if bool_decide (line = str "echo hi") then Did (str "hi" ++ [10]) [] 0 rest else if bool_decide (line = str "true") then Did [] [] 0 rest else Did [] (str "sh: not found") 127 rest.
Theorem shell_exec_refuted :
  (* a command that reads its input gets the text that should end the shell *)
  shell_exec few true (str "cat") = inl (str "exit" ++ [10]) ∧
  shell_exec few true (script [str "cat"; str "echo hi"]) = inl (str "echo hi" ++ [10] ++ str "exit" ++ [10]) ∧
  (* failures before the last command are not reported *)
  shell_exec few true (script [str "false"; str "true"]) = inl [] ∧
  (* a failure may come without a text, and the output before it is lost *)
  shell_exec few true (script [str "echo hi"; str "false"]) = inr [].
Proof. by vm_compute. Qed.
Example shell_exec_ex : shell_exec few true (script [str "echo hi"; str "echo hi"]) = inl (str "hi" ++ [10] ++ str "hi" ++ [10]) ∧ shell_exec few true (str "nosuch") = inr (str "sh: not found").
Proof. by vm_compute. Qed.
