(** * Path strings, and walks without links *)
From Verif Require Import GoStr PathModel PathProps FsModel FsSpec FsProofs FsProps UpfsModel UpfsSpec UpfsProofs UpfsProps ZipfsModel ZipfsSpec.
Local Open Scope Z_scope.

(** ** strings of paths *)
Lemma comps_rel cs : Forall plain_name cs → cs ≠ [] → comps (rel_str cs) = cs.
Proof.
  intros H Hne. destruct H as [|c r [_ Hc] Hr]; [done|]. simpl. rewrite comps_flat by done. destruct (decide (r = [])) as [->|Hr0]; [done|].
  pose proof (comps_path_str r Hr Hr0) as E. unfold path_str in E. rewrite bool_decide_eq_false_2 in E by done. rewrite E. by destruct r.
Qed.
Lemma rel_not_abs cs : Forall plain_name cs → is_abs (rel_str cs) = false ∧ rel_str cs ≠ [].
Proof.
  intros H. destruct H as [|c r [(Hc & _) H47] _]; [done|]. destruct c as [|x c]; [done|]. split; [|done]. apply not_true_is_false. intros [t Ht]%has_prefix_iff. cbn [rel_str app] in Ht. injection Ht as -> _. apply H47. left.
Qed.
Lemma nonempty_id cs : Forall plain_name cs → nonempty cs = cs ∧ plain_comps cs.
Proof.
  induction 1 as [|c cs Hc _ [IH1 IH2]]; [split; [done|constructor]|]. unfold nonempty in *. rewrite filter_cons, decide_True by apply Hc. rewrite IH1. split; [done|]. constructor; [right; apply Hc|done].
Qed.
Lemma path_string_ok q : Forall plain_name (p_comps q) → p_comps q ≠ [] ∨ p_rooted q = true →
  is_abs (path_string q) = p_rooted q ∧ path_string q ≠ [] ∧ plain_comps (comps (path_string q)) ∧ nonempty (comps (path_string q)) = p_comps q.
Proof.
  destruct q as [b cs]. unfold path_string. simpl. intros H Hne. destruct b.
  - destruct (path_str_abs cs) as [-> H2]. destruct (plain_names cs H) as [H3 H4]. done.
  - destruct Hne as [Hne|]; [|done]. destruct (rel_not_abs cs H) as [-> H2]. rewrite comps_rel by done. destruct (nonempty_id cs H). done.
Qed.
Lemma parts_filter n : filter (λ c, plain c = true) (comps n) = parts n ∨ dotdot ∈ comps n.
Proof.
  unfold parts. destruct (decide (dotdot ∈ comps n)) as [|Hn]; [by right|left]. revert Hn. generalize (comps n) as l. induction l as [|c l IH]; [done|]. intros [Hc Hl]%not_elem_of_cons. rewrite !filter_cons, IH by done. unfold plain. destruct (bool_decide_reflect (c = [])) as [->|H1]; [done|]. destruct (bool_decide_reflect (c = dot)) as [->|H2]; [done|].
  destruct (bool_decide_reflect (c = dotdot)) as [->|H3]; [done|]. rewrite decide_True by done. by rewrite decide_True by done.
Qed.
Lemma parts_names n : dotdot ∉ comps n → Forall plain_name (parts n).
Proof. intros Hn. apply Forall_forall. intros c [[H1 H2] Hc]%elem_of_list_filter. split; [|by eapply comps_no_slash]. split_and!; [done|done|]. by intros ->. Qed.
Lemma join_comps dest n : inside dest n → path_join dest n = Path (is_abs dest) (p_comps (clean dest) ++ parts n).
Proof.
  intros [Hn Hd]. change (dotdot ∉ comps n) in Hn. destruct (parts_filter n) as [<-|]; [|done]. unfold path_join. destruct (bool_decide_reflect (dest = [])) as [->|Hd'].
  - destruct Hd as [|Hd]; [done|]. unfold clean. rewrite Hd. f_equal. rewrite (clean_plain _ _ Hn). by rewrite app_nil_r, reverse_involutive.
  - unfold clean. change (dest ++ [47] ++ n) with (dest ++ 47 :: n). assert (Ea : is_abs (dest ++ 47 :: n) = is_abs dest) by (by destruct dest). rewrite Ea. cbn [p_comps]. f_equal. rewrite comps_app, foldl_app, (clean_plain _ _ Hn). by rewrite reverse_app, reverse_involutive.
Qed.
Lemma ends_slash_iff n : ends_slash n = true ↔ last n = Some 47.
Proof. unfold ends_slash. destruct (last n) as [x|]; [|done]. rewrite Z.eqb_eq. split; [by intros ->|by intros [= ->]]. Qed.
Lemma entry_dir_iff e : entry_dir e = true ↔ dir_entry e.
Proof. unfold entry_dir, dir_entry. by rewrite orb_true_iff, ends_slash_iff. Qed.

(** ** walks along names, no links on the way *)
Definition link_free (s : tree) (st cs : place) : Prop := ∀ i t, s (st ++ take i cs) ≠ Some (NLink t).
Lemma link_free_cons s st c cs : link_free s st (c :: cs) → link_free s (st ++ [c]) cs ∧ ∀ t, s (st ++ [c]) ≠ Some (NLink t).
Proof. intros H. split; [intros i t; specialize (H (S i) t); simpl in H; by rewrite <- app_assoc|]. intros t. specialize (H 1%nat t). by rewrite firstn_cons, take_0 in H. Qed.
Lemma nonempty_cons c cs : nonempty (c :: cs) = if decide (c = []) then nonempty cs else c :: nonempty cs.
Proof. unfold nonempty. rewrite filter_cons. destruct (decide (c = [])) as [->|]; [by rewrite decide_False by auto|by rewrite decide_True]. Qed.
Lemma leads_link_free deny s k st cs q : leads deny s true k st cs q → plain_comps cs → link_free s st (nonempty cs) → q = st ++ nonempty cs.
Proof.
  induction 1 as [cur|k cur r p Hd HL IH|k cur r p Hd Hn HL IH|k cur r p Hd Hn HL IH|k cur c r p Hc Hd Hn Hs HL IH|cur c x Hc Hd Hn Hs|cur c t Hc Hd Hn Hs Hf|k cur c t r p Hc Hd Hn Hs Hf HL IH]; intros Hp Hlf.
  - by rewrite app_nil_r.
  - apply IH; [by inversion Hp|done].
  - inversion Hp as [|? ? [?|(_ & ? & _)] ?]; done.
  - inversion Hp as [|? ? [?|(_ & _ & ?)] ?]; done.
  - inversion Hp; subst. rewrite nonempty_cons in *. rewrite decide_False in * by apply Hc. apply link_free_cons in Hlf as [Hlf _]. rewrite IH by done. by rewrite <- app_assoc.
  - rewrite nonempty_cons. by rewrite decide_False by apply Hc.
  - done.
  - rewrite nonempty_cons, decide_False in Hlf by apply Hc. apply link_free_cons in Hlf as [_ Hlf]. by apply Hlf in Hs.
Qed.
Lemma open_link_free deny s l cs : ∀ st q, open_walk l deny s st cs = Ok q → plain_comps cs → link_free s st (nonempty cs) → q = st ++ nonempty cs.
Proof.
  induction cs as [|c r IH]; intros st q; rewrite open_walk_eq; [done|]. destruct (s st) as [[| |]|]; try done. intros H Hp Hlf. inversion Hp as [|? ? Hc Hp']; subst. destruct (bool_decide_reflect (c = [])) as [->|Hne]; [by apply IH|]. destruct Hc as [|(Hc1 & Hc2 & Hc3)]; [done|].
  destruct (deny st); [done|]. rewrite !(bool_decide_eq_false_2 (c = _)) in H by done. rewrite nonempty_cons, decide_False in * by done. apply link_free_cons in Hlf as [Hlf Hl].
  destruct (s (st ++ [c])) as [[x| |t]|] eqn:E.
  - destruct (bool_decide_reflect (r = [])) as [->|]; [|done]. by injection H as <-.
  - apply IH in H; [|done|done]. by rewrite <- app_assoc in H.
  - by destruct (Hl t).
  - destruct (bool_decide_reflect (r = [])) as [->|]; [|done]. by injection H as <-.
Qed.
Lemma added_link_free s s' st cs : only_dirs_added s s' → link_free s st cs → link_free s' st cs.
Proof. intros Ha H i t. destruct (Ha (st ++ take i cs)) as [->|[_ ->]]; [apply H|done]. Qed.
Lemma link_free_app s st cs cs' : link_free s st (cs ++ cs') → link_free s st cs.
Proof. intros H i t. destruct (decide (i ≤ length cs)%nat). - specialize (H i t). by rewrite take_app_le in H. - specialize (H (length cs) t). rewrite take_app in H. by rewrite firstn_all2 by lia. Qed.
Definition dirs_on (s s' : tree) (d : place) : Prop := ∀ q, s' q = s q ∨ (s q = None ∧ s' q = Some NDir ∧ q `prefix_of` d).
Lemma dirs_on_added s s' d : dirs_on s s' d → only_dirs_added s s'.
Proof. intros H q. destruct (H q) as [?|(? & ? & _)]; auto. Qed.
Lemma dirs_on_trans s1 s2 s3 d : dirs_on s1 s2 d → dirs_on s2 s3 d → dirs_on s1 s3 d.
Proof. intros H1 H2 q. destruct (H1 q) as [E1|(E1 & E1' & ?)], (H2 q) as [E2|(E2 & E2' & ?)]; try congruence; [left; congruence|right; split_and!; congruence|right; split_and!; congruence]. Qed.
Lemma dirs_on_prefix s s' d d' : dirs_on s s' d → d `prefix_of` d' → dirs_on s s' d'.
Proof. intros H Hp q. destruct (H q) as [?|(? & ? & ?)]; [by left|right; split_and!; try done]. by etrans. Qed.
Lemma mkdir_dirs_on P s p : plain_comps (comps p) → link_free s (base_place P p) (nonempty (comps p)) → dirs_on s (mkdir P s p).1 (base_place P p ++ nonempty (comps p)).
Proof.
  intros Hp Hlf. unfold mkdir. destruct (lookup_parent P s p) as [l|] eqn:El; [|by left]. destruct l as [| | |d c]; try (by left). destruct (s (d ++ [c])) eqn:Es; [by left|]. apply lookup_name in El as (_ & pre & n & k & Ec & Hc & _ & HL & _ & _). rewrite Ec, nonempty_entry in * by apply Hc.
  unfold plain_comps in Hp. apply Forall_app in Hp as [Hp _]. apply leads_link_free in HL; [|done|by eapply link_free_app]. fold (base_place P p) in HL. intros q. simpl. destruct (decide (q = d ++ [c])) as [->|Hq]; [right|left; by apply set_other]. rewrite set_same. split_and!; [done|done|]. by rewrite HL, <- app_assoc.
Qed.
Lemma mkdir_all_dirs_on P fuel : ∀ s p s' e, mkdir_all fuel P s p = Ret (s', e) → plain_comps (comps p) → link_free s (base_place P p) (nonempty (comps p)) → dirs_on s s' (base_place P p ++ nonempty (comps p)).
Proof.
  induction fuel as [|fuel IH]; [done|]. intros s p s' e. cbn [mkdir_all]. destruct (stat P s p) as [[x| |t]|es]; try (by intros [= <- <-]; left). intros H Hp Hlf.
  destruct (match parent_path p with Some q => mkdir_all fuel P s q | None => Ret (s, None) end) as [[s1 e1]| |] eqn:E; [|done|done]. cbn [mbind go_bind] in H.
  assert (H1 : dirs_on s s1 (base_place P p ++ nonempty (comps p))).
  { destruct (parent_path p) as [q|] eqn:Eq; [|injection E as <- <-; by left]. assert (Hpne : p ≠ []) by (by intros ->). destruct (parent_comps p Hpne) as (pre & c & n & Ec & HH). rewrite Eq in HH. destruct HH as (_ & Hc & -> & Eabs & _). rewrite Ec, nonempty_entry in * by done.
    assert (Eb : base_place P q = base_place P p) by (unfold base_place; by rewrite Eabs). rewrite <- Eb in *. unfold plain_comps in Hp. apply Forall_app in Hp as [Hp _]. eapply dirs_on_prefix; [eapply IH; [done|done|by eapply link_free_app]|]. rewrite app_assoc. by eexists. }
  destruct e1 as [e1|]; [by injection H as <- <-|]. assert (H2 : dirs_on s1 (mkdir P s1 p).1 (base_place P p ++ nonempty (comps p))). { apply mkdir_dirs_on; [done|]. eapply added_link_free; [by eapply dirs_on_added|done]. }
  destruct (mkdir P s1 p) as [s2 e2]. simpl in H2. destruct e2 as [e2|]; [destruct (lstat P s2 p) as [[]|]|]; injection H as <- <-; by eapply dirs_on_trans.
Qed.

(** ** mk_dir and open of the string of a cleaned path *)
Definition path_base (P : proc) (q : path) : place := if p_rooted q then [] else cwd P.
Lemma path_cases q : q = Path false [] ∨ p_comps q ≠ [] ∨ p_rooted q = true.
Proof. destruct q as [[] [|c cs]]; auto. Qed.
Lemma mk_dir_dot P s s' e : mk_dir P s dot = Ret (s', e) → s' = s.
Proof.
  unfold mk_dir. change (S (length dot)) with 2%nat. cbn [mkdir_all]. destruct (stat P s dot) as [[]|]; try (by intros [= <- <-]). change (parent_path dot) with (@None gostr). cbn [mbind go_bind].
  assert (E : (mkdir P s dot).1 = s). { unfold mkdir, lookup_parent. rewrite bool_decide_eq_false_2 by done. change (drop_empty (reverse (comps dot))) with [dot]. cbv iota. destruct (walk _ _ _ _ _ _); [|done]. destruct (s _) as [[]|]; try done. by destruct (deny P _). }
  destruct (mkdir P s dot) as [s2 [e2|]]; simpl in E; subst s2; [|by intros [= <- <-]]. by destruct (lstat P s dot) as [[]|]; intros [= <- <-].
Qed.
Lemma mk_dir_frame P s q s' e : Forall plain_name (p_comps q) → link_free s (path_base P q) (p_comps q) → mk_dir P s (path_string q) = Ret (s', e) → dirs_on s s' (path_base P q ++ p_comps q).
Proof.
  intros Hn Hl H. destruct (path_cases q) as [->|Hc]; [apply mk_dir_dot in H as ->; by left|]. destruct (path_string_ok q Hn Hc) as (Ha & Hne & Hp & En). assert (Eb : base_place P (path_string q) = path_base P q) by (unfold base_place, path_base; by rewrite Ha).
  rewrite <- Eb, <- En in Hl |- *. by eapply mkdir_all_dirs_on.
Qed.
Lemma mk_dir_path P s q : good_tree s → open_proc P s → Forall plain_name (p_comps q) → (∀ i, may_dir s (path_base P q ++ take i (p_comps q))) →
  ∃ s', mk_dir P s (path_string q) = Ret (s', None) ∧ good_tree s' ∧ dirs_on s s' (path_base P q ++ p_comps q) ∧ s' (path_base P q ++ p_comps q) = Some NDir.
Proof.
  intros Hg Hop Hn Hm. destruct (mk_dir_safe P s (path_string q) Hg) as (s' & e & E & _ & Hg' & _). assert (Hl : link_free s (path_base P q) (p_comps q)) by (intros i t E'; destruct (Hm i); congruence). pose proof (mk_dir_frame _ _ _ _ _ Hn Hl E) as Hd. destruct (path_cases q) as [->|Hc].
  - exists s. simpl. rewrite app_nil_r. split_and!; [by apply (mkdir_dot P s Hop)|done|by left|by destruct Hop].
  - destruct (path_string_ok q Hn Hc) as (Ha & Hne & Hp & En). assert (Eb : path_base P q = if is_abs (path_string q) then [] else cwd P) by (unfold path_base; by rewrite Ha).
    destruct (mk_dir_plain P s (path_string q) (path_base P q) Eb Hg (proj2 Hop) Hne Hp) as (s2 & E2 & H2 & _).
    + unfold path_base. destruct (p_rooted q); [by destruct Hg|by destruct Hop].
    + rewrite En. intros i _. apply Hm.
    + rewrite E in E2. injection E2 as <- ->. exists s'. split_and!; [done|done|done|]. rewrite En in H2. specialize (H2 (length (p_comps q)) (le_n _)). by rewrite firstn_all in H2.
Qed.
Lemma open_names deny s l cs : (∀ q, deny q = false) → ∀ st, cs ≠ [] → Forall plain_name cs → (∀ i, (i < length cs)%nat → s (st ++ take i cs) = Some NDir) → may_file s (st ++ cs) → open_walk l deny s st cs = Ok (st ++ cs).
Proof.
  intros Hd. induction cs as [|c r IH]; [done|]. intros st _ Hn Hi Hm. inversion Hn as [|? ? Hc Hr]; subst. assert (Hst : s st = Some NDir). { specialize (Hi 0%nat). rewrite take_0, app_nil_r in Hi. apply Hi. simpl. lia. }
  destruct (decide (r = [])) as [->|Hr0]; [by apply open_last|]. assert (Hsc : s (st ++ [c]) = Some NDir). { specialize (Hi 1%nat). simpl in Hi. rewrite take_0 in Hi. apply Hi. destruct r; [done|simpl; lia]. }
  rewrite open_sub by done. change (c :: r) with ([c] ++ r) in Hm |- *. rewrite app_assoc in Hm |- *. apply IH; try done. intros i Hi'. specialize (Hi (S i)). simpl in Hi. rewrite <- app_assoc. apply Hi. lia.
Qed.
Lemma open_path P s q : good_tree s → open_proc P s → Forall plain_name (p_comps q) → p_comps q ≠ [] → s (path_base P q ++ take (length (p_comps q) - 1) (p_comps q)) = Some NDir → may_file s (path_base P q ++ p_comps q) → open_place P s (path_string q) = Ok (path_base P q ++ p_comps q).
Proof.
  intros Hg Hop Hn Hne Hd Hm. destruct (path_string_ok q Hn (or_introl Hne)) as (Ha & Hs & _ & _). unfold open_place. rewrite bool_decide_eq_false_2 by done. rewrite Ha. fold (path_base P q).
  assert (Hb : s (path_base P q) = Some NDir) by (unfold path_base; destruct (p_rooted q); [by destruct Hg|by destruct Hop]).
  assert (Ew : open_walk 40 (deny P) s (path_base P q) (p_comps q) = Ok (path_base P q ++ p_comps q)).
  { apply open_names; try done; [by destruct Hop|]. intros i Hi. destruct (decide (i = length (p_comps q) - 1)%nat) as [->|]; [done|]. eapply (good_prefix s _ (drop i (take (length (p_comps q) - 1) (p_comps q)))); [done| |].
    - rewrite <- app_assoc. replace (take i (p_comps q)) with (take i (take (length (p_comps q) - 1) (p_comps q))) by (rewrite take_take; f_equal; lia). by rewrite take_drop, Hd.
    - intros E. apply (f_equal length) in E. rewrite drop_length, take_length in E. simpl in E. lia. }
  unfold path_string. destruct (p_rooted q); [|by rewrite comps_rel]. rewrite comps_path_str by done. rewrite open_walk_eq, Hb. by rewrite bool_decide_eq_true_2.
Qed.
Lemma open_frame P s q p : Forall plain_name (p_comps q) → link_free s (path_base P q) (p_comps q) → open_place P s (path_string q) = Ok p → p = path_base P q ++ p_comps q.
Proof.
  intros Hn Hl. destruct (path_cases q) as [->|Hc].
  - unfold open_place. change (path_string (Path false [])) with dot. rewrite bool_decide_eq_false_2 by done. change (comps dot) with [dot]. rewrite open_walk_eq. destruct (s _) as [[]|]; try done. rewrite bool_decide_eq_false_2 by done. destruct (deny P _); [done|]. rewrite bool_decide_eq_true_2 by done. by rewrite open_walk_eq.
  - destruct (path_string_ok q Hn Hc) as (Ha & Hne & Hp & En). unfold open_place. rewrite bool_decide_eq_false_2 by done. rewrite Ha. fold (path_base P q). rewrite <- En in Hl |- *. intros H. by eapply open_link_free.
Qed.
