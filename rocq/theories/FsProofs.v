(** * Path resolution and directory creation *)
From Verif Require Import GoStr PathModel FsModel FsSpec.
Local Open Scope Z_scope.

Section walk.
Context (deny : place → bool) (s : tree).
Lemma walk_eq links follow cur cs : walk links deny s follow cur cs =
  match cs with
  | [] => Ok cur
  | c :: r =>
    match s cur with
    | Some NDir =>
      if bool_decide (c = []) then walk links deny s follow cur r
      else if deny cur then Err EACCES
      else if bool_decide (c = dot) then walk links deny s follow cur r
      else if bool_decide (c = dotdot) then walk links deny s follow (up cur) r
      else match s (cur ++ [c]) with
        | None => Err ENOENT
        | Some NDir => walk links deny s follow (cur ++ [c]) r
        | Some (NFile _) => if bool_decide (r = []) then Ok (cur ++ [c]) else Err ENOTDIR
        | Some (NLink t) =>
          if bool_decide (r = []) && negb follow then Ok (cur ++ [c])
          else match links with O => Err ELOOP | S k => walk k deny s follow (if is_abs t then [] else cur) (comps t ++ r) end
        end
    | _ => Err ENOTDIR
    end
  end.
Proof. destruct links, cs; reflexivity. Qed.
Ltac w := rewrite walk_eq; repeat match goal with H : s _ = _ |- _ => rewrite H end; repeat match goal with H : deny _ = _ |- _ => rewrite H end.
Ltac nm H := destruct H as (? & ? & ?); rewrite !bool_decide_eq_false_2 by done.
Lemma leads_walk follow k cur cs p : leads deny s follow k cur cs p → ∀ links, walk links deny s follow cur cs = if decide (k ≤ links)%nat then Ok p else Err ELOOP.
Proof.
  induction 1 as [| | | |? ? ? ? ? Hn| ? ? ? Hn|? ? ? Hn ? ? ? Hf|k cur c t r p Hn ? ? ? Hf ? IH]; intros links.
  - w. by rewrite decide_True by lia.
  - w. by rewrite bool_decide_eq_true_2.
  - w. rewrite bool_decide_eq_false_2 by done. by rewrite bool_decide_eq_true_2.
  - w. rewrite !bool_decide_eq_false_2 by done. by rewrite bool_decide_eq_true_2.
  - w. nm Hn. done.
  - w. nm Hn. by rewrite decide_True by lia.
  - w. nm Hn. rewrite Hf. by rewrite decide_True by lia.
  - w. nm Hn. assert (bool_decide (r = []) && negb follow = false) as -> by (destruct Hf as [->|Hf]; [apply andb_false_r|by rewrite bool_decide_eq_false_2]).
    destruct links as [|links]; [by rewrite decide_False by lia|]. rewrite IH. destruct (decide (k ≤ links)%nat), (decide (S k ≤ S links)%nat); done || lia.
Qed.
Lemma walk_leads follow links : ∀ cur cs p, walk links deny s follow cur cs = Ok p → ∃ k, (k ≤ links)%nat ∧ leads deny s follow k cur cs p.
Proof.
  induction links as [|links IHl]; intros cur cs; revert cur; induction cs as [|c r IH]; intros cur p; rewrite walk_eq; try (intros [= <-]; exists 0%nat; split; [lia|constructor]).
  all: destruct (s cur) as [[| |]|] eqn:Ec; try done; destruct (bool_decide_reflect (c = [])) as [->|H1];
    [intros (k & ? & ?)%IH; exists k; split; [done|by constructor]|]; destruct (deny cur) eqn:Ed; [done|]; destruct (bool_decide_reflect (c = dot)) as [->|H2]; [intros (k & ? & ?)%IH; exists k; split; [done|by constructor]|];
    destruct (bool_decide_reflect (c = dotdot)) as [->|H3]; [intros (k & ? & ?)%IH; exists k; split; [done|by constructor]|]; destruct (s (cur ++ [c])) as [[x| |t]|] eqn:E; try done.
  - destruct (bool_decide_reflect (r = [])) as [->|]; [|done]. intros [= <-]. exists 0%nat. split; [lia|]. by eapply leads_file.
  - intros (k & ? & ?)%IH. exists k. split; [done|]. by apply leads_dir.
  - destruct (bool_decide_reflect (r = [])) as [->|]; destruct follow; try done. intros [= <-]. exists 0%nat. split; [lia|]. by eapply leads_link_self.
  - destruct (bool_decide_reflect (r = [])) as [->|]; [|done]. intros [= <-]. exists 0%nat. split; [lia|]. by eapply leads_file.
  - intros (k & ? & ?)%IH. exists k. split; [done|]. by apply leads_dir.
  - assert (Hn : name c) by done. destruct (bool_decide_reflect (r = [])) as [->|]; destruct follow; simpl.
    + intros (k & ? & ?)%IHl. exists (S k). split; [lia|]. eapply leads_link; eauto.
    + intros [= <-]. exists 0%nat. split; [lia|]. by eapply leads_link_self.
    + intros (k & ? & ?)%IHl. exists (S k). split; [lia|]. eapply leads_link; eauto.
    + intros (k & ? & ?)%IHl. exists (S k). split; [lia|]. eapply leads_link; eauto.
Qed.
Lemma leads_app k k' cur a d b p : leads deny s true k cur a d → s d = Some NDir → leads deny s true k' d b p → leads deny s true (k + k') cur (a ++ b) p.
Proof.
  intros H Hd Hb. induction H as [| | | | | | |]; cbn [app]; try congruence.
  - done.
  - apply leads_slash; auto.
  - apply leads_here; auto.
  - apply leads_up; auto.
  - apply leads_dir; auto.
  - cbn [Nat.add]. eapply leads_link; eauto. rewrite app_assoc. auto.
Qed.
Lemma leads_follow k cur cs p : leads deny s false k cur cs p → (∀ t, s p ≠ Some (NLink t)) → leads deny s true k cur cs p.
Proof.
  intros H Hp. induction H as [| | | | | | |]; try (by constructor; auto).
  - by eapply leads_file.
  - exfalso. by eapply Hp.
  - eapply leads_link; eauto.
Qed.
Lemma leads_unique follow k cur cs p k' p' : leads deny s follow k cur cs p → leads deny s follow k' cur cs p' → p = p'.
Proof. intros H1 H2. pose proof (leads_walk _ _ _ _ _ H1 (k + k')) as E. rewrite (leads_walk _ _ _ _ _ H2 (k + k')), !decide_True in E by lia. by injection E. Qed.
Lemma leads_node follow k cur cs p : good_tree s → s cur = Some NDir → leads deny s follow k cur cs p → s p ≠ None.
Proof.
  intros [Hr Hg] Hc H. induction H as [| | | | | | |]; try (by auto); try congruence.
  - apply IHleads. unfold up. destruct (decide (cur = [])) as [->|Hne]; [done|]. destruct cur as [|x l _] using rev_ind; [done|]. rewrite app_length, take_app_le by (simpl; lia). simpl. rewrite firstn_all2 by lia. eapply (Hg _ x). by rewrite Hc.
  - apply IHleads. by case_match.
Qed.
End walk.
Lemma leads_mono deny s s' follow k cur cs p : (∀ q, s q ≠ None → s' q = s q) → leads deny s follow k cur cs p → leads deny s' follow k cur cs p.
Proof.
  intros Hm. assert (Hm' : ∀ q n, s q = Some n → s' q = Some n) by (intros q n E; rewrite Hm; [done|by rewrite E]).
  induction 1; [constructor|constructor|constructor|constructor|apply leads_dir|eapply leads_file|eapply leads_link_self|eapply leads_link]; eauto.
Qed.

Lemma stat_ok follow P s p n : stat_of follow P s p = Ok n ↔ at_path P s follow p n.
Proof.
  unfold stat_of, namei, at_path, denotes_place. destruct (bool_decide_reflect (p = [])) as [->|Hp].
  - split; [done|]. by intros (? & ? & _ & [? _] & _).
  - split.
    + destruct (walk _ _ _ _ _ _) as [q|] eqn:E; [|done]. destruct (s q) eqn:Eq; [|done]. intros [= ->]. apply walk_leads in E as (k & ? & ?). eauto 10.
    + intros (k & q & Hk & [_ H] & Hq). rewrite (leads_walk _ _ _ _ _ _ _ H), decide_True by done. by rewrite Hq.
Qed.
Definition good_proc (P : proc) (s : tree) : Prop := s (cwd P) = Some NDir.
Lemma stat_err follow P s p e : good_tree s → good_proc P s → stat_of follow P s p = Err e → ∀ k q, denotes_place P s follow k p q → e = ELOOP ∧ (40 < k)%nat.
Proof.
  intros Hg Hp H k q [Hne HL]. unfold stat_of, namei in H. rewrite bool_decide_eq_false_2 in H by done. rewrite (leads_walk _ _ _ _ _ _ _ HL) in H. destruct (decide (k ≤ 40)%nat); [|injection H as <-; split; [done|lia]].
  assert (Hq : s q ≠ None) by (eapply leads_node; [done| |done]; case_match; [apply Hg|done]). by destruct (s q).
Qed.

(** ** Strings and components *)
From Verif Require PathProps.
Lemma drop_while_spec f l : ∃ a, l = a ++ drop_while f l ∧ Forall (λ c, f c = true) a ∧ (∀ c r, drop_while f l = c :: r → f c = false).
Proof.
  induction l as [|c l (a & E & Ha & Hd)]; [by exists []|]. simpl. destruct (f c) eqn:Ef.
  - exists (c :: a). split; [by rewrite E at 1|]. split; [by constructor|done].
  - exists []. split_and!; [done|done|]. by intros ? ? [= <- _].
Qed.
Lemma comps_tail c n : 47 ∉ c → comps (c ++ replicate n 47) = c :: replicate n [].
Proof.
  induction c as [|x c IH]; [intros _|rewrite not_elem_of_cons; intros [Hx Hc]].
  - simpl. induction n as [|n IH]; [done|]. simpl. by rewrite IH.
  - simpl. rewrite (proj2 (Z.eqb_neq x 47)) by lia. by rewrite IH.
Qed.
Lemma Forall_replicate_eq (a : gostr) : Forall (λ c, (c =? 47) = true) a → a = replicate (length a) 47.
Proof. induction 1 as [|c a H _ IH]; [done|]. simpl. f_equal; [lia|done]. Qed.
Lemma reverse_replicate (n : nat) (x : Z) : reverse (replicate n x) = replicate n x.
Proof. induction n as [|n IH]; [done|]. by rewrite replicate_S, reverse_cons, IH, <- replicate_S_end. Qed.
Lemma reverse_eq (a b : gostr) : reverse a = b → a = reverse b.
Proof. intros <-. by rewrite reverse_involutive. Qed.
Lemma parent_path_spec p : p ≠ [] → ∃ c n, 47 ∉ c ∧
  match parent_path p with
  | Some q => q ≠ [] ∧ c ≠ [] ∧ p = q ++ 47 :: c ++ replicate n 47
  | None => p = c ++ replicate n 47 ∨ p = 47 :: c ++ replicate n 47
  end.
Proof.
  intros Hp. unfold parent_path. destruct (drop_while_spec (λ c, c =? 47) (reverse p)) as (a & E1 & Ha & Hd1). set (l1 := drop_while _ (reverse p)) in *.
  destruct (drop_while_spec (λ c, negb (c =? 47)) l1) as (b & E2 & Hb & Hd2). set (l2 := drop_while _ l1) in *. apply Forall_replicate_eq in Ha. rewrite Ha in E1. rewrite E2 in E1. apply reverse_eq in E1. rewrite !reverse_app, reverse_replicate in E1. rewrite <- app_assoc in E1.
  exists (reverse b), (length a). assert (H47 : 47 ∉ reverse b) by (rewrite elem_of_reverse; intros Hin; by pose proof (proj1 (Forall_forall _ _) Hb _ Hin)).
  split; [done|]. destruct l2 as [|x l2']; [by left|]. pose proof (Hd2 x l2' eq_refl) as Hx. apply negb_false_iff, Z.eqb_eq in Hx as ->. rewrite reverse_cons in E1. destruct (Nat.ltb_spec 1 (length (47 :: l2'))) as [Hl|Hl].
  - simpl in Hl. simpl tail. split_and!.
    + destruct l2'; [simpl in Hl; lia|]. rewrite reverse_cons. by intros [_ ?]%app_nil.
    + intros Hb0. apply (f_equal reverse) in Hb0. rewrite reverse_involutive in Hb0. subst b. simpl in E2. rewrite E2 in Hd1. by pose proof (Hd1 _ _ eq_refl).
    + rewrite E1, <- app_assoc. done.
  - simpl in Hl. destruct l2'; [|simpl in Hl; lia]. right. by rewrite E1.
Qed.
(** the components before the last element, that element, slashes *)
Lemma parent_comps p : p ≠ [] → ∃ pre c n, comps p = pre ++ c :: replicate n [] ∧
  match parent_path p with Some q => q ≠ [] ∧ c ≠ [] ∧ pre = comps q ∧ is_abs q = is_abs p ∧ (length q < length p)%nat | None => pre = [] ∨ pre = [[]] end.
Proof.
  intros Hp. destruct (parent_path_spec p Hp) as (c & n & Hc & H). destruct (parent_path p) as [q|].
  - destruct H as (H1 & H2 & ->). exists (comps q), c, n. split_and!; try done.
    + by rewrite PathProps.comps_app, comps_tail.
    + unfold is_abs. by destruct q.
    + rewrite app_length. simpl. lia.
  - destruct H as [->| ->]; [exists [], c, n|exists [[]], c, n]; split; auto; [by rewrite comps_tail|]. change (47 :: c ++ replicate n 47) with ([] ++ 47 :: (c ++ replicate n 47)). by rewrite PathProps.comps_app, comps_tail.
Qed.
Lemma drop_empty_spec cs : ∃ n, cs = replicate n [] ++ drop_empty cs ∧ ∀ c r, drop_empty cs = c :: r → c ≠ [].
Proof.
  induction cs as [|[|x c] cs (n & E & H)].
  - exists 0%nat. done.
  - exists (S n). simpl. split; [by f_equal|done].
  - exists 0%nat. split; [done|]. by intros ? ? [= <- _].
Qed.
Lemma reverse_replicate' (n : nat) (x : gostr) : reverse (replicate n x) = replicate n x.
Proof. induction n as [|n IH]; [done|]. by rewrite replicate_S, reverse_cons, IH, <- replicate_S_end. Qed.
Lemma lookup_name P s p d c : lookup_parent P s p = Ok (LName d c) → p ≠ [] ∧ ∃ pre n k, comps p = pre ++ c :: replicate n [] ∧ name c ∧ (k ≤ 40)%nat ∧ leads (deny P) s true k (if is_abs p then [] else cwd P) pre d ∧ s d = Some NDir ∧ deny P d = false.
Proof.
  unfold lookup_parent. destruct (bool_decide_reflect (p = [])) as [|Hp]; [done|]. destruct (drop_empty_spec (reverse (comps p))) as (n & E & H). destruct (drop_empty _) as [|x r]; [done|]. specialize (H x r eq_refl).
  destruct (walk _ _ _ _ _ _) as [d'|] eqn:Ew; [|done]. destruct (s d') as [[]|] eqn:Es; try done. destruct (deny P d') eqn:Ed; [done|]. intros E'. injection E' as E'.
  destruct (bool_decide_reflect (x = dot)); [done|]. destruct (bool_decide_reflect (x = dotdot)); [done|]. injection E' as <- <-. split; [done|]. apply walk_leads in Ew as (k & ? & ?). exists (reverse r), n, k.
  split_and!; try done. apply (f_equal reverse) in E. rewrite reverse_involutive, reverse_app, reverse_replicate', reverse_cons, <- app_assoc in E. done.
Qed.
Lemma lookup_name_intro P s p pre c n k d : comps p = pre ++ c :: replicate n [] → name c → (k ≤ 40)%nat → leads (deny P) s true k (if is_abs p then [] else cwd P) pre d → s d = Some NDir → deny P d = false → lookup_parent P s p = Ok (LName d c).
Proof.
  intros Ec (Hc & Hc1 & Hc2) Hk HL Hd Hdeny. unfold lookup_parent. rewrite bool_decide_eq_false_2.
  2: { intros ->. simpl in Ec. destruct pre as [|? []]; simpl in Ec; simplify_eq. }
  assert (E : drop_empty (reverse (comps p)) = c :: reverse pre).
  { rewrite Ec, reverse_app, reverse_cons, reverse_replicate', <- app_assoc. clear Ec. induction n as [|n IH]; [|done]. simpl. by destruct c. }
  rewrite E, reverse_involutive, (leads_walk _ _ _ _ _ _ _ HL), decide_True, Hd, Hdeny by done. by rewrite !bool_decide_eq_false_2.
Qed.
Lemma leads_slashes deny s n d : s d = Some NDir → leads deny s true 0 d (replicate n []) d.
Proof. intros H. induction n as [|n IH]; [constructor|]. simpl. by apply leads_slash. Qed.
Lemma leads_entry deny s k st pre d c n : leads deny s true k st pre d → s d = Some NDir → deny d = false → name c → s (d ++ [c]) = Some NDir → leads deny s true k st (pre ++ c :: replicate n []) (d ++ [c]).
Proof. intros H1 H2 H3 H4 H5. replace k with (k + 0)%nat by lia. eapply leads_app; [done|done|]. apply leads_dir; [done..|]. by apply leads_slashes. Qed.

(** ** mkdir and MkdirAll *)
Lemma set_same s p n : set s p n p = n.
Proof. unfold set. by rewrite bool_decide_eq_true_2. Qed.
Lemma set_other s p n q : q ≠ p → set s p n q = s q.
Proof. intros. unfold set. by rewrite bool_decide_eq_false_2. Qed.
Lemma added_refl s : only_dirs_added s s.
Proof. by left. Qed.
Lemma added_trans s1 s2 s3 : only_dirs_added s1 s2 → only_dirs_added s2 s3 → only_dirs_added s1 s3.
Proof. intros H1 H2 q. destruct (H1 q) as [E1|[E1 E1']], (H2 q) as [E2|[E2 E2']]; try congruence; [left; congruence|right; split; congruence|right; split; congruence]. Qed.
Lemma added_keeps s s' : only_dirs_added s s' → ∀ q, s q ≠ None → s' q = s q.
Proof. intros H q Hq. by destruct (H q) as [|[]]. Qed.
Lemma set_added s d c : s (d ++ [c]) = None → only_dirs_added s (set s (d ++ [c]) (Some NDir)).
Proof. intros H q. destruct (decide (q = d ++ [c])) as [->|Hq]; [right; by rewrite set_same|left; by rewrite set_other]. Qed.
Lemma app_single_ne (d : place) (c : gostr) : d ≠ d ++ [c].
Proof. intros E. apply (f_equal length) in E. rewrite app_length in E. simpl in E. lia. Qed.
Lemma set_good s d c : good_tree s → s d = Some NDir → s (d ++ [c]) = None → good_tree (set s (d ++ [c]) (Some NDir)).
Proof.
  intros [Hr Hg] Hd Hn. split; [rewrite set_other; [done|by destruct d]|]. intros p x. destruct (decide (p ++ [x] = d ++ [c])) as [E|E].
  - apply app_inj_tail in E as [-> ->]. intros _. rewrite set_other; [done|apply app_single_ne].
  - rewrite set_other by done. intros H. apply Hg in H. destruct (decide (p = d ++ [c])) as [->|]; [by rewrite set_same|by rewrite set_other].
Qed.
Lemma mkdir_spec P s p s' e : mkdir P s p = (s', e) → good_tree s → only_dirs_added s s' ∧ good_tree s' ∧ (e = None → at_path P s' true p NDir).
Proof.
  unfold mkdir. destruct (lookup_parent P s p) as [l|] eqn:El; [|by intros [= <- <-] ?; split_and!; [apply added_refl|..]]. destruct l as [| | |d c]; try (by intros [= <- <-] ?; split_and!; [apply added_refl|..]).
  destruct (s (d ++ [c])) eqn:Es; [by intros [= <- <-] ?; split_and!; [apply added_refl|..]|]. intros [= <- <-] Hg. apply lookup_name in El as (Hp & pre & n & k & Ec & Hc & Hk & HL & Hd & Hdn). pose proof (set_added s d c Es) as Ha. split_and!; [done|by apply set_good|]. intros _.
  exists k, (d ++ [c]). split_and!; [done| |by rewrite set_same]. split; [done|]. rewrite Ec. apply leads_entry; [|by rewrite set_other by apply app_single_ne|done|done|by rewrite set_same]. eapply leads_mono; [|done]. by apply added_keeps.
Qed.
Lemma added_good_proc P s s' : only_dirs_added s s' → good_proc P s → good_proc P s'.
Proof. unfold good_proc. intros H E. rewrite (added_keeps _ _ H); [done|by rewrite E]. Qed.
Lemma lstat_dir P s p : at_path P s false p NDir → at_path P s true p NDir.
Proof. intros (k & q & Hk & [Hp HL] & Hq). exists k, q. split_and!; try done. split; [done|]. apply leads_follow; [done|]. by rewrite Hq. Qed.
Lemma mkdir_all_spec P fuel : ∀ s p, (length p < fuel)%nat → good_tree s →
  ∃ s' e, mkdir_all fuel P s p = Ret (s', e) ∧ only_dirs_added s s' ∧ good_tree s' ∧ (e = None → at_path P s' true p NDir).
Proof.
  induction fuel as [|fuel IH]; [lia|]. intros s p Hf Hg. cbn [mkdir_all]. destruct (stat P s p) as [[x| |t]|es] eqn:Es.
  - exists s, (Some ENOTDIR). by split_and!; [|apply added_refl|..].
  - exists s, None. split_and!; auto using added_refl. intros _. by apply stat_ok.
  - exists s, (Some ENOTDIR). by split_and!; [|apply added_refl|..].
  - assert (HR : ∃ s1 e1, match parent_path p with Some q => mkdir_all fuel P s q | None => Ret (s, None) end = Ret (s1, e1) ∧ only_dirs_added s s1 ∧ good_tree s1).
    { destruct (parent_path p) as [q|] eqn:Eq; [|exists s, None; auto using added_refl]. assert (Hp : p ≠ []) by (by intros ->). destruct (parent_comps p Hp) as (pre & c & n & _ & H). rewrite Eq in H. destruct H as (_ & _ & _ & _ & Hl). destruct (IH s q ltac:(lia) Hg) as (s1 & e1 & E & ? & ? & _). eauto. }
    destruct HR as (s1 & e1 & E & Ha & Hg1). rewrite E. cbn [mbind go_bind]. destruct e1 as [e1|]; [by exists s1, (Some e1)|]. destruct (mkdir P s1 p) as [s2 e2] eqn:Em. destruct (mkdir_spec _ _ _ _ _ Em Hg1) as (Ha2 & Hg2 & Hok). pose proof (added_trans _ _ _ Ha Ha2) as Ha'. destruct e2 as [e2|]; [|by exists s2, None]. destruct (lstat P s2 p) as [[]|] eqn:El; try (by exists s2, (Some e2)). exists s2, None. split_and!; try done. intros _. apply lstat_dir, stat_ok, El.
Qed.

(** ** Paths without dots and links *)
Definition nonempty (cs : list gostr) : list gostr := filter (λ c, c ≠ []) cs.
Definition plain_comps (cs : list gostr) : Prop := Forall (λ c, c = [] ∨ name c) cs.
Lemma good_prefix s p r : good_tree s → s (p ++ r) ≠ None → r ≠ [] → s p = Some NDir.
Proof.
  intros [_ Hg]. induction r as [|x r IH] using rev_ind; [done|]. rewrite app_assoc. intros H _. apply Hg in H. destruct r as [|y r]; [by rewrite app_nil_r in H|]. apply IH; [by rewrite H|done].
Qed.
Lemma leads_plain deny s st cs : (∀ q, deny q = false) → plain_comps cs → s (st ++ nonempty cs) = Some NDir → good_tree s → s st = Some NDir → leads deny s true 0 st cs (st ++ nonempty cs).
Proof.
  intros Hd Hp Hn Hg. revert st Hn. induction Hp as [|c cs Hc Hp IH]; intros st Hn Hs; [rewrite app_nil_r; constructor|]. unfold nonempty in *. rewrite filter_cons in *. destruct (decide (c ≠ [])) as [H|H].
  - destruct Hc as [|Hc]; [done|]. change (c :: filter _ cs) with ([c] ++ filter (λ c, c ≠ []) cs) in *. rewrite app_assoc in Hn |- *.
    assert (Hsc : s (st ++ [c]) = Some NDir). { destruct (decide (filter (λ c, c ≠ []) cs = [])) as [E|E]; [by rewrite E, app_nil_r in Hn|]. eapply good_prefix; [done| |done]. by rewrite Hn. }
    apply leads_dir; try done. by apply IH.
  - apply dec_stable in H as ->. apply leads_slash; [done|]. by apply IH.
Qed.
Lemma nonempty_slashes n : nonempty (replicate n []) = [].
Proof. unfold nonempty. induction n as [|n IH]; [done|]. simpl. by rewrite filter_cons, decide_False by auto. Qed.
Lemma nonempty_entry pre c n : c ≠ [] → nonempty (pre ++ c :: replicate n []) = nonempty pre ++ [c].
Proof. intros H. unfold nonempty. rewrite filter_app, filter_cons, decide_True by done. pose proof (nonempty_slashes n) as E. unfold nonempty in E. by rewrite E. Qed.
Lemma mkdir_all_plain P fuel : ∀ s p st, st = (if is_abs p then [] else cwd P) → (length p < fuel)%nat → good_tree s → (∀ q, deny P q = false) → p ≠ [] → plain_comps (comps p) → s st = Some NDir →
  (∀ i, (i ≤ length (nonempty (comps p)))%nat → s (st ++ take i (nonempty (comps p))) = None ∨ s (st ++ take i (nonempty (comps p))) = Some NDir) →
  ∃ s', mkdir_all fuel P s p = Ret (s', None) ∧ only_dirs_added s s' ∧ good_tree s' ∧ s' (st ++ nonempty (comps p)) = Some NDir ∧
    ∀ q, (∀ i, (i ≤ length (nonempty (comps p)))%nat → q ≠ st ++ take i (nonempty (comps p))) → s' q = s q.
Proof.
  induction fuel as [|fuel IH]; [lia|]. intros s p st Est Hf Hg Hd Hp Hpl Hst Hpre. cbn [mkdir_all].
  destruct (Hpre (length (nonempty (comps p)))%nat ltac:(lia)) as [Hn|Hn]; rewrite firstn_all in Hn.
  2: { assert (E : stat P s p = Ok NDir). { apply stat_ok. exists 0%nat, (st ++ nonempty (comps p)). split_and!; [lia| |done]. split; [done|]. rewrite <- Est. by apply leads_plain. }
       rewrite E. exists s. split_and!; auto using added_refl. }
  destruct (parent_comps p Hp) as (pre & c & n & Ec & Hpar).
  assert (Hc0 : c ≠ []). { intros ->. destruct (parent_path p); [by destruct_and!|]. rewrite Ec in Hn. assert (E : nonempty (pre ++ [] :: replicate n []) = []). { destruct Hpar as [->| ->]; [exact (nonempty_slashes (S n))|exact (nonempty_slashes (S (S n)))]. } rewrite E, app_nil_r in Hn. congruence. }
  assert (Hstat : ∃ e, stat P s p = Err e).
  { destruct (stat P s p) as [m|e] eqn:E; [|by exists e]. exfalso. apply stat_ok in E as (k & q & Hk & [_ HL] & Hq).
    (* where the path leads exists *)
    rewrite <- Est in HL. clear -HL Hn Hpl Hg Hst Hpre. revert HL. revert Hst Hn Hpre. revert st. induction Hpl as [|x cs Hx Hp IH]; intros st Hst Hn Hpre HL; [simpl in Hn; rewrite app_nil_r in Hn; congruence|].
    unfold nonempty in *. rewrite filter_cons in *. destruct (decide (x ≠ [])) as [Hx'|Hx'].
    - destruct Hx as [|Hx]; [done|]. pose proof (Hpre 1%nat ltac:(simpl; lia)) as H1. simpl in H1. rewrite take_0 in H1. inversion HL; subst; try (by destruct Hx as (? & ? & ?)); try (by destruct H1; congruence).
      eapply (IH (st ++ [x])); [done| | |done].
      + by rewrite <- app_assoc.
      + intros i Hi. specialize (Hpre (S i) ltac:(simpl; lia)). simpl in Hpre. by rewrite <- app_assoc.
    - apply dec_stable in Hx' as ->. inversion HL as [| | | | ? ? ? ? ? Hnm|? ? ? Hnm|? ? ? Hnm|? ? ? ? ? ? Hnm]; subst; try (by destruct Hnm). by eapply IH. }
  destruct Hstat as [e ->].
  rewrite Ec, nonempty_entry in Hn, Hpre |- * by done. rewrite Ec in Hpl. unfold plain_comps in Hpl. rewrite Forall_app, Forall_cons in Hpl. destruct Hpl as (Hpl1 & Hcn & _). destruct Hcn as [|Hcn]; [done|].
  assert (HR : ∃ s1, match parent_path p with Some q => mkdir_all fuel P s q | None => Ret (s, None) end = Ret (s1, None) ∧ only_dirs_added s s1 ∧ good_tree s1 ∧ s1 (st ++ nonempty pre) = Some NDir ∧ ∀ q, (∀ i, (i ≤ length (nonempty pre))%nat → q ≠ st ++ take i (nonempty pre)) → s1 q = s q).
  { destruct (parent_path p) as [q|].
    - destruct Hpar as (Hq & _ & -> & Habs & Hl). apply IH; try done; [by rewrite Habs|lia|]. intros i Hi. specialize (Hpre i ltac:(rewrite app_length; lia)). by rewrite take_app_le in Hpre.
    - exists s. assert (E : nonempty pre = []) by (by destruct Hpar as [->| ->]). rewrite E, app_nil_r. auto using added_refl. }
  destruct HR as (s1 & -> & Ha & Hg1 & Hs1 & Hoth). cbn [mbind go_bind].
  assert (Hn1 : s1 ((st ++ nonempty pre) ++ [c]) = None).
  { rewrite <- app_assoc, Hoth; [done|]. intros i Hi E. apply app_inv_head in E. apply (f_equal length) in E. rewrite app_length, take_length in E. simpl in E. lia. }
  assert (Hst1 : s1 st = Some NDir) by (rewrite (added_keeps _ _ Ha); [done|by rewrite Hst]).
  assert (Em : mkdir P s1 p = (set s1 ((st ++ nonempty pre) ++ [c]) (Some NDir), None)).
  { unfold mkdir. rewrite (lookup_name_intro P s1 p pre c n 0 (st ++ nonempty pre)); try done; [by rewrite Hn1|lia|]. rewrite <- Est. by apply leads_plain. }
  rewrite Em. eexists. split; [done|]. pose proof (set_added _ _ _ Hn1) as Ha2. split_and!.
  - by eapply added_trans.
  - by apply set_good.
  - by rewrite app_assoc, set_same.
  - intros q Hq. rewrite set_other.
    + apply Hoth. intros i Hi. specialize (Hq i ltac:(rewrite app_length; lia)). by rewrite take_app_le in Hq.
    + intros ->. eapply (Hq (length (nonempty pre ++ [c]))); [lia|]. by rewrite firstn_all, <- app_assoc.
Qed.
