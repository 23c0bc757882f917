(** * Opening files for writing, and the paths of an upload *)
From Verif Require Import GoStr PathModel PathProps FsModel FsSpec FsProofs FsProps UpfsModel UpfsSpec.
Local Open Scope Z_scope.

Section open.
Context (deny : place → bool) (s : tree).
Lemma open_walk_eq links cur cs : open_walk links deny s cur cs =
  match cs with
  | [] => Err EISDIR
  | c :: r =>
    match s cur with
    | Some NDir =>
      if bool_decide (c = []) then open_walk links deny s cur r
      else if deny cur then Err EACCES
      else if bool_decide (c = dot) then open_walk links deny s cur r
      else if bool_decide (c = dotdot) then open_walk links deny s (up cur) r
      else match s (cur ++ [c]) with
        | None => if bool_decide (r = []) then Ok (cur ++ [c]) else Err (if slashes r then EISDIR else ENOENT)
        | Some NDir => open_walk links deny s (cur ++ [c]) r
        | Some (NFile _) => if bool_decide (r = []) then Ok (cur ++ [c]) else Err (if slashes r then EISDIR else ENOTDIR)
        | Some (NLink t) =>
          match links with O => Err ELOOP | S k => open_walk k deny s (if is_abs t then [] else cur) (comps t ++ r) end
        end
    | _ => Err ENOTDIR
    end
  end.
Proof. destruct links, cs; reflexivity. Qed.
(** the place that is opened can be written, and afterwards the path leads to it *)
Lemma open_walk_ok x links : ∀ cur cs q, open_walk links deny s cur cs = Ok q →
  s q ≠ Some NDir ∧ (∀ t, s q ≠ Some (NLink t)) ∧ (∃ d c, q = d ++ [c] ∧ s d = Some NDir) ∧
  ∃ k, (k ≤ links)%nat ∧ leads deny (set s q (Some (NFile x))) true k cur cs q.
Proof.
  assert (Hset : ∀ q p n, s q ≠ Some NDir → (∀ t, s q ≠ Some (NLink t)) → s p = Some n → (∀ y, n ≠ NFile y) → set s q (Some (NFile x)) p = Some n).
  { intros q p n H1 H2 Hp Hn. rewrite set_other; [done|]. intros ->. destruct n; [by eapply Hn|done|by eapply H2]. }
  induction links as [|links IHl]; intros cur cs; revert cur; induction cs as [|c r IH]; intros cur q; rewrite open_walk_eq; try done.
  all: destruct (s cur) as [[| |]|] eqn:Ec; try done; destruct (bool_decide_reflect (c = [])) as [->|H1].
  1, 3: intros (A1 & A2 & A3 & k & Hk & HL)%IH; split_and!; [done..|]; exists k; split; [done|]; apply leads_slash; [by apply Hset|done].
  all: destruct (deny cur) eqn:Ed; [done|]; destruct (bool_decide_reflect (c = dot)) as [->|H2].
  1, 3: intros (A1 & A2 & A3 & k & Hk & HL)%IH; split_and!; [done..|]; exists k; split; [done|]; apply leads_here; [by apply Hset|done|done].
  all: destruct (bool_decide_reflect (c = dotdot)) as [->|H3].
  1, 3: intros (A1 & A2 & A3 & k & Hk & HL)%IH; split_and!; [done..|]; exists k; split; [done|]; apply leads_up; [by apply Hset|done|done].
  all: assert (Hn : name c) by done; destruct (s (cur ++ [c])) as [[y| |t]|] eqn:E; try done.
  1, 4: destruct (bool_decide_reflect (r = [])) as [->|]; [|done]; intros [= <-]; split_and!; [by rewrite E|by rewrite E|by exists cur, c|]; exists 0%nat; split; [lia|]; eapply leads_file; [done|apply Hset; by rewrite ?E|done|apply set_same].
  1, 3: intros (A1 & A2 & A3 & k & Hk & HL)%IH; split_and!; [done..|]; exists k; split; [done|]; apply leads_dir; [done|by apply Hset|done|by apply Hset|done].
  2: intros (A1 & A2 & A3 & k & Hk & HL)%IHl; split_and!; [done..|]; exists (S k); split; [lia|]; eapply leads_link; [done|by apply Hset|done|by apply Hset|by left|done].
  all: destruct (bool_decide_reflect (r = [])) as [->|]; [|done]; intros [= <-]; split_and!; [by rewrite E|by rewrite E|by exists cur, c|]; exists 0%nat; split; [lia|]; eapply leads_file; [done|apply Hset; by rewrite ?E|done|apply set_same].
Qed.
End open.
Lemma open_place_ok P s p q x : open_place P s p = Ok q → s q ≠ Some NDir ∧ (∀ t, s q ≠ Some (NLink t)) ∧ (∃ d c, q = d ++ [c] ∧ s d = Some NDir) ∧ at_path P (set s q (Some (NFile x))) true p (NFile x).
Proof.
  unfold open_place. destruct (bool_decide_reflect (p = [])) as [|Hp]; [done|]. intros H. destruct (open_walk_ok _ _ x _ _ _ _ H) as (? & ? & ? & k & ? & ?). split_and!; try done. exists k, q. split_and!; [done|by split|apply set_same].
Qed.
Lemma set_file_good s d c x : good_tree s → s d = Some NDir → s (d ++ [c]) ≠ Some NDir → good_tree (set s (d ++ [c]) (Some (NFile x))).
Proof.
  intros [Hr Hg] Hd Hn. split; [rewrite set_other; [done|by destruct d]|]. intros p y. destruct (decide (p ++ [y] = d ++ [c])) as [E|E].
  - apply app_inj_tail in E as [-> ->]. intros _. rewrite set_other; [done|apply app_single_ne].
  - rewrite set_other by done. intros H. apply Hg in H. rewrite set_other; [done|]. intros ->. done.
Qed.
(** ** the directories MkdirAll creates *)
Lemma drop_while_app f a b : Forall (λ c, f c = true) a → drop_while f (a ++ b) = drop_while f b.
Proof. induction 1 as [|c a H _ IH]; [done|]. simpl. by rewrite H. Qed.
Lemma parent_path_app q c n : q ≠ [] → c ≠ [] → 47 ∉ c → parent_path (q ++ 47 :: c ++ replicate n 47) = Some q.
Proof.
  intros Hq Hc H47. unfold parent_path. rewrite reverse_app, reverse_cons, reverse_app, reverse_replicate. rewrite <- !app_assoc. rewrite drop_while_app by (apply Forall_replicate; done).
  assert (E : drop_while (λ c, c =? 47) (reverse c ++ [47] ++ reverse q) = reverse c ++ [47] ++ reverse q).
  { destruct (reverse c) as [|y l] eqn:Er; [apply (f_equal reverse) in Er; by rewrite reverse_involutive in Er|]. simpl. rewrite (proj2 (Z.eqb_neq y 47)); [done|]. intros ->. apply H47. rewrite <- elem_of_reverse, Er. left. }
  rewrite E, drop_while_app. 2: { apply Forall_forall. intros y Hy. apply negb_true_iff, Z.eqb_neq. intros ->. by rewrite elem_of_reverse in Hy. }
  simpl. assert (length (reverse q) ≠ 0%nat). { rewrite reverse_length. by destruct q. }
  destruct (length (reverse q)) eqn:El; [done|]. simpl. by rewrite reverse_involutive.
Qed.
Definition with_dir (s : tree) (q : place) : tree := match s q with None => set s q (Some NDir) | Some _ => s end.
Lemma with_dir_same s q : may_dir s q → with_dir s q q = Some NDir.
Proof. unfold with_dir. intros [E|E]; rewrite E; [apply set_same|done]. Qed.
Lemma with_dir_other s q p : p ≠ q → with_dir s q p = s p.
Proof. intros H. unfold with_dir. destruct (s q); [done|by apply set_other]. Qed.
Lemma with_dir_good s d c : good_tree s → s d = Some NDir → good_tree (with_dir s (d ++ [c])).
Proof. intros Hg Hd. unfold with_dir. destruct (s (d ++ [c])) eqn:E; [done|by apply set_good]. Qed.
Lemma with_dir_old s q : s q ≠ None → with_dir s q = s.
Proof. unfold with_dir. by destruct (s q). Qed.
Lemma with_dir_added s q : only_dirs_added s (with_dir s q).
Proof. intros p. destruct (decide (p = q)) as [->|Hp]; [|left; by apply with_dir_other]. unfold with_dir. destruct (s q) eqn:E; [by left|]. right. by rewrite set_same. Qed.
Lemma mkdir_entry P s p pre c n d : comps p = pre ++ c :: replicate n [] → name c → leads (deny P) s true 0 (if is_abs p then [] else cwd P) pre d → s d = Some NDir → deny P d = false → s (d ++ [c]) = None → mkdir P s p = (set s (d ++ [c]) (Some NDir), None).
Proof. intros. unfold mkdir. rewrite (lookup_name_intro P s p pre c n 0 d) by (done || lia). by rewrite H4. Qed.
(** one step of MkdirAll from a directory that was found or made *)
Lemma stat_none P s p pre c r d : comps p = pre ++ c :: r → name c → leads (deny P) s true 0 (if is_abs p then [] else cwd P) pre d → s d = Some NDir → deny P d = false → s (d ++ [c]) = None → ∃ e, stat P s p = Err e.
Proof.
  intros Ec Hc HL Hd Hdn Hn. destruct (stat P s p) as [m|e] eqn:E; [|by exists e]. exfalso. apply stat_ok in E as (k & q & Hk & [_ HL'] & Hq). rewrite Ec in HL'.
  revert HL' HL. generalize (if is_abs p then [] else cwd P) as st. clear Ec. induction pre as [|x pre IH]; intros st HL' HL.
  - simpl in HL'. inversion HL; subst. inversion HL'; subst; try congruence; try (by destruct Hc as (? & ? & ?)).
  - inversion HL; subst; cbn [app] in HL'.
    all: inversion HL'; subst; try congruence; try (eapply IH; eassumption); exfalso; repeat match goal with H : name _ |- _ => destruct H as (? & ? & ?) end; done.
Qed.
Lemma mkdir_all_step P fuel s s1 p q c n d : p = q ++ 47 :: c ++ replicate n 47 → plain_name c → q ≠ [] → (∀ x, deny P x = false) → 
  mkdir_all fuel P s q = Ret (s1, None) → leads (deny P) s1 true 0 (if is_abs q then [] else cwd P) (comps q) d → s1 d = Some NDir → may_dir s1 (d ++ [c]) →
  (s1 = s ∨ ∃ e, stat P s p = Err e) →
  mkdir_all (S fuel) P s p = Ret (with_dir s1 (d ++ [c]), None).
Proof.
  intros -> [Hc H47] Hq Hdn Hm HL Hd Hmay Hst. set (p := q ++ 47 :: c ++ replicate n 47). cbn [mkdir_all].
  assert (Ecomps : comps p = comps q ++ c :: replicate n []) by (unfold p; by rewrite comps_app, comps_tail).
  assert (Eabs : is_abs p = is_abs q) by (unfold p; by destruct q).
  assert (Hp : p ≠ []) by (unfold p; by destruct q).
  assert (Hstat : s1 (d ++ [c]) = Some NDir → stat P s1 p = Ok NDir).
  { intros E. apply stat_ok. exists 0%nat, (d ++ [c]). split_and!; [lia| |done]. split; [done|]. rewrite Eabs, Ecomps. apply leads_entry; auto. }
  assert (Hpar : parent_path p = Some q) by (apply parent_path_app; [done|by destruct Hc|done]).
  assert (Hgo : ∀ e, stat P s p = Err e → match stat P s p with
    | Ok NDir => Ret (s, None) | Ok _ => Ret (s, Some ENOTDIR)
    | Err _ => '(s1, e) ← match parent_path p with Some q => mkdir_all fuel P s q | None => Ret (s, None) end;
      match e with Some e => Ret (s1, Some e) | None =>
        match mkdir P s1 p with (s2, None) => Ret (s2, None) | (s2, Some e) => match lstat P s2 p with Ok NDir => Ret (s2, None) | _ => Ret (s2, Some e) end end end end = Ret (with_dir s1 (d ++ [c]), None)).
  { intros e ->. rewrite Hpar, Hm. cbn [mbind go_bind]. destruct Hmay as [E|E].
    - rewrite (mkdir_entry P s1 p (comps q) c n d); try done; [|by rewrite Eabs]. unfold with_dir. by rewrite E.
    - assert (Em : mkdir P s1 p = (s1, Some EEXIST)). { unfold mkdir. rewrite (lookup_name_intro P s1 p (comps q) c n 0 d); try done; [by rewrite E|lia|by rewrite Eabs]. }
      rewrite Em. assert (El : lstat P s1 p = Ok NDir).
      { unfold lstat. apply stat_ok. exists 0%nat, (d ++ [c]). split_and!; [lia| |done]. split; [done|]. rewrite Eabs, Ecomps.
        assert (HL' : leads (deny P) s1 true 0 (if is_abs q then [] else cwd P) (comps q ++ c :: replicate n []) (d ++ [c])) by (by apply leads_entry).
        revert HL'. generalize (comps q ++ c :: replicate n []). generalize (if is_abs q then [] else cwd P). intros st cs. clear. remember true as f. remember 0%nat as k. intros HL. revert Heqf Heqk. induction HL; intros; subst; try done; try (by constructor; auto). by eapply leads_file. }
      rewrite El. unfold with_dir. by rewrite E. }
  destruct Hst as [->|[e E]].
  - destruct Hmay as [E|E].
    + destruct (stat_none P s p (comps q) c (replicate n []) d) as [e Ee]; try done; [by rewrite Eabs|]. by eapply Hgo.
    + rewrite Hstat by done. unfold with_dir. by rewrite E.
  - by eapply Hgo.
Qed.

Section paths.
Context (P : proc) (s : tree) (Hop : open_proc P s).
Lemma leads_cwd s' r k q : open_proc P s' → leads (deny P) s' true k (cwd P) r q → leads (deny P) s' true k (cwd P) (dot :: r) q.
Proof. intros [Ha Hb] HL. by apply leads_here. Qed.
Lemma mkdir_dot fuel : mkdir_all (S fuel) P s dot = Ret (s, None).
Proof.
  destruct Hop as [H1 H2]. cbn [mkdir_all]. assert (E : stat P s dot = Ok NDir); [|by rewrite E].
  apply stat_ok. exists 0%nat, (cwd P). split_and!; [lia| |done]. split; [done|]. apply leads_cwd; [done|]. constructor.
Qed.
Lemma mkdir_one fuel c n : plain_name c → may_dir s (cwd P ++ [c]) → mkdir_all (S (S fuel)) P s (dot ++ 47 :: c ++ replicate n 47) = Ret (with_dir s (cwd P ++ [c]), None).
Proof.
  intros Hc Hm. eapply mkdir_all_step; [done|done|done|apply Hop|by apply mkdir_dot| |apply Hop|done|by left]. apply leads_cwd; [done|constructor].
Qed.
Lemma mkdir_two fuel c c' n : plain_name c → plain_name c' → may_dir s (cwd P ++ [c]) → may_dir s (cwd P ++ [c; c']) →
  mkdir_all (S (S (S fuel))) P s ((dot ++ 47 :: c) ++ 47 :: c' ++ replicate n 47) = Ret (with_dir (with_dir s (cwd P ++ [c])) (cwd P ++ [c; c']), None).
Proof.
  intros Hc Hc' Hm Hm'. destruct Hop as [Hcwd Hdn]. assert (Hcwd1 : with_dir s (cwd P ++ [c]) (cwd P) = Some NDir) by (rewrite with_dir_other; [done|apply app_single_ne]).
  assert (Ec : comps (dot ++ 47 :: c) = [dot; c]). { rewrite comps_app. change (comps dot) with [dot]. cbn [app]. f_equal. pose proof (comps_tail c 0 (proj2 Hc)) as E. by rewrite app_nil_r in E. }
  change (cwd P ++ [c; c']) with (cwd P ++ [c] ++ [c']) in *. rewrite app_assoc in *. eapply mkdir_all_step.
  - done.
  - done.
  - done.
  - done.
  - pose proof (mkdir_one fuel c 0 Hc Hm) as E. by rewrite app_nil_r in E.
  - rewrite Ec. change (is_abs (dot ++ 47 :: c)) with false. cbn iota. apply leads_cwd; [by split|]. apply leads_dir; [apply Hc|done|done|by apply with_dir_same|]. constructor.
  - by apply with_dir_same.
  - unfold may_dir. rewrite with_dir_other; [done|]. intros E. symmetry in E. by apply app_single_ne in E.
  - destruct Hm as [E|E]; [right|left; apply with_dir_old; by rewrite E]. eapply (stat_none P s _ [dot] c (c' :: replicate n []) (cwd P)); try done.
    + rewrite comps_app, Ec, comps_tail; [done|apply Hc'].
    + apply Hc.
    + apply leads_cwd; [done|constructor].
Qed.
End paths.
