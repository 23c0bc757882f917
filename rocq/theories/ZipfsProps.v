(** * ZipFiles and Unzip on the file tree *)
From stdpp Require Import countable.
From Verif Require Import GoStr GoBase PathModel PathProps FsModel FsSpec FsProofs FsProps UpfsModel UpfsSpec UpfsProofs UpfsProps ZipfsModel ZipfsSpec ZipfsProofs.
Local Open Scope Z_scope.

(** ** strings.Replace *)
Lemma occurs_prefix old s j : occurs old s j ↔ has_prefix old (drop j s) = true.
Proof. symmetry. apply has_prefix_iff. Qed.
Lemma replace_fuel_ok old new : old ≠ [] → ∀ fuel s, (length s < fuel)%nat → replaced old new s (replace_fuel fuel old new s).
Proof.
  intros Ho. induction fuel as [|fuel IH]; intros s Hf; [lia|]. cbn [replace_fuel]. destruct (go_index old s) as [i|] eqn:Ei.
  - destruct (go_index_Some _ _ _ Ei) as [Hi Es]. pose proof (go_index_first _ _ _ Ei) as Hfirst. rewrite Es at 1. apply replaced_step.
    + intros j Hj. rewrite take_length in Hj. rewrite <- Es, occurs_prefix, Hfirst by lia. done.
    + apply IH. rewrite drop_length. destruct old; [done|]. destruct s; [by destruct i|]. simpl in *. lia.
  - apply replaced_end. intros j. rewrite occurs_prefix. destruct (decide (j ≤ length s)%nat); [by rewrite (go_index_None _ _ Ei)|]. rewrite drop_ge by lia. by destruct old.
Qed.
Lemma replace_same fuel old : ∀ s, replace_fuel fuel old old s = s.
Proof. induction fuel as [|fuel IH]; intros s; [done|]. cbn [replace_fuel]. destruct (go_index old s) as [i|] eqn:Ei; [|done]. destruct (go_index_Some _ _ _ Ei) as [_ Es]. by rewrite IH. Qed.
Theorem go_replace_exact s old new : old ≠ [] → replaced old new s (go_replace s old new).
Proof.
  intros Ho. unfold go_replace. destruct (bool_decide_reflect (old = new)) as [<-|_].
  - rewrite <- (replace_same (S (length s)) old s) at 2. apply replace_fuel_ok; [done|lia].
  - rewrite bool_decide_eq_false_2 by done. apply replace_fuel_ok; [done|lia].
Qed.
Theorem replaced_unique old new s t t' : replaced old new s t → replaced old new s t' → t = t'.
Proof.
  intros H. revert t'. induction H as [s Hn|a b b' Hn Hb IH]; intros t' H'; inversion H' as [s0 Hn' E1 E2|a2 b2 b2' Hn' Hb2 E1 E2]; subst.
  - done.
  - destruct (Hn (length a2)). exists b2. by rewrite drop_app.
  - destruct (Hn' (length a)). exists b. by rewrite drop_app.
  - assert (Hl : length a = length a2).
    { destruct (lt_eq_lt_dec (length a) (length a2)) as [[Hl|Hl]|Hl]; [|done|].
      - destruct (Hn' _ Hl). exists b. by rewrite E1, drop_app.
      - destruct (Hn _ Hl). exists b2. by rewrite <- E1, drop_app. }
    apply app_inj_1 in E1 as [-> E1]; [|done]. apply app_inv_head in E1 as ->. by rewrite (IH b2').
Qed.

(** ** ZipFiles *)
Lemma leads_set deny s q n follow k cur cs p : s q ≠ Some NDir → (∀ t, s q ≠ Some (NLink t)) → leads deny s follow k cur cs p → p ≠ q → leads deny (set s q n) follow k cur cs p.
Proof.
  intros H1 H2. assert (HD : ∀ c, s c = Some NDir → set s q n c = Some NDir) by (intros c E; rewrite set_other; [done|by intros ->]). assert (HK : ∀ c t, s c = Some (NLink t) → set s q n c = Some (NLink t)) by (intros c t E; rewrite set_other; [done|intros ->; by apply H2 in E]).
  induction 1; intros Hp; [constructor|constructor|constructor|constructor|apply leads_dir|eapply leads_file|eapply leads_link_self|eapply leads_link]; eauto. rewrite set_other; eauto.
Qed.
Lemma namei_ok P s f k p : (k ≤ 40)%nat → denotes_place P s true k f p → namei P s true f = Ok p.
Proof. intros Hk [Hf HL]. unfold namei. rewrite bool_decide_eq_false_2 by done. rewrite (leads_walk _ _ _ _ _ _ _ HL). by rewrite decide_True. Qed.
Lemma ok_namei P s f p : namei P s true f = Ok p → ∃ k, (k ≤ 40)%nat ∧ denotes_place P s true k f p.
Proof. unfold namei. destruct (bool_decide_reflect (f = [])) as [|Hf]; [done|]. intros (k & ? & ?)%walk_leads. by exists k. Qed.
Definition entries (files : list gostr) (old new : gostr) (xs : list gostr) : list entry := zip_with (λ f x, Entry (go_replace f old new) false x) files xs.
Definition slash_ok (old new f x : gostr) : Prop := ends_slash (go_replace f old new) = false ∨ x = [].
Lemma zip_loop_ok P s files old new xs : ∀ i, Forall2 (λ f x, ∃ p, namei P s true f = Ok p ∧ s p = Some (NFile x)) files xs → Forall2 (slash_ok old new) files xs → ∀ z, (∀ j g, z = ZFails j g → (i + length files ≤ j)%nat) →
  zip_loop P s files old new z i = (entries files old new xs, None).
Proof.
  intros i H. revert i. induction H as [|f x files xs (p & Hp & Hx) H IH]; intros i Hs z Hz; [done|]. inversion Hs as [|? ? ? ? Hsl Hs']; subst. cbn [zip_loop]. rewrite Hp, Hx.
  assert (Ez : match z with ZFails j _ => (j =? i)%nat | _ => false end = false). { destruct z as [|j g|]; try done. apply Nat.eqb_neq. specialize (Hz j g eq_refl). simpl in Hz. lia. }
  rewrite Ez. assert (Eb : ends_slash (go_replace f old new) && negb (bool_decide (x = [])) = false). { destruct Hsl as [->| ->]; [done|]. by rewrite bool_decide_eq_true_2, andb_false_r. }
  rewrite Eb, IH; [done|done|]. intros j g E. specialize (Hz j g E). simpl in Hz. lia.
Qed.
Lemma zip_loop_nil P s files old new z : ∀ i es, zip_loop P s files old new z i = (es, None) → (∀ j g, z = ZFails j g → (j < i)%nat ∨ (i + length files ≤ j)%nat) ∧
  ∃ xs, Forall2 (λ f x, ∃ p, namei P s true f = Ok p ∧ s p = Some (NFile x)) files xs ∧ Forall2 (slash_ok old new) files xs ∧ es = entries files old new xs.
Proof.
  induction files as [|f files IH]; intros i es; cbn [zip_loop].
  - intros [= <-]. split; [intros j g _; simpl; lia|]. exists []. by split_and!; [constructor|constructor|].
  - destruct (namei P s true f) as [p|] eqn:Ep; [|done]. destruct (match z with ZFails j _ => (j =? i)%nat | _ => false end) eqn:Ez; [done|]. destruct (s p) as [[x| |]|] eqn:Es; try done. destruct (ends_slash _ && _) eqn:Eb; [done|].
    destruct (zip_loop P s files old new z (S i)) as [es' e] eqn:El. intros [= <- ->]. apply IH in El as (Hz & xs & H1 & H2 & ->). split.
    + intros j g E. destruct (Hz j g E) as [H|H]; simpl; [|lia]. subst z. apply Nat.eqb_neq in Ez. lia.
    + exists (x :: xs). split_and!; [constructor; [by exists p|done]| |done]. constructor; [|done]. unfold slash_ok. destruct (ends_slash _); [|by left]. right. destruct (bool_decide_reflect (x = [])); done.
Qed.
(** the archive gets every file, under its name with the replacements; nothing else changes *)
Theorem zip_files_exact P enc s filename files old new q xs : open_place P s filename = Ok q → Forall2 (source P s q) files xs → Forall2 (slash_ok old new) files xs →
  ∃ s', zip_files P enc s filename files old new ZDone = (s', None) ∧ s' q = Some (NFile (enc (entries files old new xs))) ∧ at_path P s' true filename (NFile (enc (entries files old new xs))) ∧ ∀ p, p ≠ q → s' p = s p.
Proof.
  intros Hq Hsrc Hsl. destruct (open_place_ok P s filename q (enc (entries files old new xs)) Hq) as (H1 & H2 & _ & H4). unfold zip_files. rewrite Hq. rewrite (zip_loop_ok _ _ _ _ _ xs 0); [| |done|done].
  - eexists. split; [done|]. assert (Hsm : ∀ p, set (set s q (Some (NFile []))) q (Some (NFile (enc (entries files old new xs)))) p = set s q (Some (NFile (enc (entries files old new xs)))) p). { intros p. destruct (decide (p = q)) as [->|Hne]; [by rewrite !set_same|by rewrite !set_other by done]. }
    split_and!; [by rewrite set_same| |intros p Hp; by rewrite !set_other by done]. eapply at_path_mono; [|exact H4]. intros p _. apply Hsm.
  - eapply Forall2_impl; [exact Hsrc|]. intros f x (k & p & Hk & [Hf HL] & Hx & Hne). exists p. split; [|by rewrite set_other]. eapply namei_ok; [exact Hk|]. split; [done|]. by apply leads_set.
Qed.
(** whatever happens, at most the place of the archive changes, and it is a regular file then *)
Theorem zip_files_frame P enc s filename files old new z : ∀ s' e, zip_files P enc s filename files old new z = (s', e) →
  (s' = s ∧ ∃ e', e = Some (ZSys e') ∧ open_place P s filename = Err e') ∨
  ∃ q x, open_place P s filename = Ok q ∧ s q ≠ Some NDir ∧ (∀ t, s q ≠ Some (NLink t)) ∧ s' q = Some (NFile x) ∧ at_path P s' true filename (NFile x) ∧ ∀ p, p ≠ q → s' p = s p.
Proof.
  intros s' e. unfold zip_files. destruct (open_place P s filename) as [q|e0] eqn:Hq; [|intros [= <- <-]; left; eauto]. destruct (zip_loop _ _ _ _ _ _ _) as [es e1]. intros E. right. set (x := match z, e1 with ZClose g, _ | ZFails _ g, Some ZIo => g | _, _ => enc es end) in *. injection E as <- <-. exists q, x.
  destruct (open_place_ok P s filename q x Hq) as (H1 & H2 & _ & H4). split_and!; [done|done|done|by rewrite set_same| |intros p Hp; by rewrite !set_other by done].
  eapply at_path_mono; [|exact H4]. intros p _. destruct (decide (p = q)) as [->|Hne]; [by rewrite !set_same|by rewrite !set_other by done].
Qed.
(** without an error, every path led to a regular file, read after the archive was created, and unless the last
    Close failed the archive has them all *)
Theorem zip_files_nil P enc s filename files old new z s' : zip_files P enc s filename files old new z = (s', None) →
  ∃ q xs, open_place P s filename = Ok q ∧ Forall2 (λ f x, at_path P (set s q (Some (NFile []))) true f (NFile x)) files xs ∧ Forall2 (slash_ok old new) files xs ∧
    ((∀ g, z ≠ ZClose g) → s' q = Some (NFile (enc (entries files old new xs)))).
Proof.
  unfold zip_files. destruct (open_place P s filename) as [q|] eqn:Hq; [|done]. destruct (zip_loop _ _ _ _ _ _ _) as [es e] eqn:El. intros [= <- ->]. apply zip_loop_nil in El as (_ & xs & H1 & H2 & ->). exists q, xs. split_and!; [done| |done|].
  - eapply Forall2_impl; [exact H1|]. intros f x (p & Hp & Hx). apply ok_namei in Hp as (k & Hk & HL). by exists k, p.
  - intros Hz. rewrite set_same. destruct z as [| |g]; [done|done|by destruct (Hz g)].
Qed.

(** ** Unzip stays below the destination *)
Lemma contained_refl s d : contained s s d.
Proof. by left. Qed.
Lemma contained_trans s1 s2 s3 d : contained s1 s2 d → contained s2 s3 d → contained s1 s3 d.
Proof.
  intros H1 H2 q. destruct (H1 q) as [E1|[(E1 & E1' & Hp)|(Hp & E1 & E1')]], (H2 q) as [E2|[(E2 & E2' & Hp')|(Hp' & E2 & E2')]].
  - left. congruence.
  - right. left. split_and!; congruence.
  - right. right. split_and!; [done|congruence|done].
  - right. left. split_and!; congruence.
  - congruence.
  - done.
  - right. right. split_and!; [done|done|]. intros t. rewrite E2. apply E1'.
  - right. right. split_and!; [done|done|]. intros t. by rewrite E2'.
  - right. right. by split_and!.
Qed.
Lemma prefix_either {A} (a b q : list A) : q `prefix_of` a ++ b → q `prefix_of` a ∨ a `prefix_of` q.
Proof.
  revert q. induction a as [|x a IH]; intros q H; [right; apply prefix_nil|]. destruct q as [|y q]; [left; apply prefix_nil|]. assert (y = x) as -> by (by eapply prefix_cons_inv_1). apply prefix_cons_inv_2 in H. destruct (IH q H); [left|right]; by apply prefix_cons.
Qed.
Lemma dirs_contained s s' d r : dirs_on s s' (d ++ r) → contained s s' d.
Proof. intros H q. destruct (H q) as [E|(E & E' & Hp)]; [by left|right]. apply prefix_either in Hp as [Hp|Hp]; [by left|right]. split_and!; [done|by rewrite E|by rewrite E']. Qed.
Lemma contained_no_links s s' st cs : no_links s st cs → contained s s' (st ++ cs) → no_links s' st cs.
Proof.
  intros [H1 H2] Hc. split; [intros i t; destruct (Hc (st ++ take i cs)) as [->|[(_ & -> & _)|(_ & _ & ?)]]; [apply H1|done|auto]|].
  intros r t. destruct (Hc (st ++ cs ++ r)) as [->|[(_ & -> & _)|(_ & _ & ?)]]; [apply H2|done|auto].
Qed.
Lemma no_links_free s st cs r : no_links s st cs → link_free s st (cs ++ r).
Proof.
  intros [H1 H2] i t. destruct (decide (i ≤ length cs)%nat); [rewrite take_app_le by done; apply H1|]. rewrite take_app_ge by lia. apply H2.
Qed.
Lemma link_free_take s st cs k : link_free s st cs → link_free s st (take k cs).
Proof. intros H i t. rewrite take_take. apply H. Qed.
Lemma join_string_eq dest n : inside dest n → n ≠ [] ∨ dest ≠ [] → join_string dest n = path_string (Path (is_abs dest) (p_comps (clean dest) ++ parts n)).
Proof. intros H Hne. unfold join_string. rewrite join_comps by done. destruct (bool_decide_reflect (dest = [])), (bool_decide_reflect (n = [])); try done. by destruct Hne. Qed.
Lemma open_nil P s : open_place P s [] = Err ENOENT.
Proof. done. Qed.
Lemma set_contained s q x d : d `prefix_of` q → s q ≠ Some NDir → contained s (set s q (Some (NFile x))) d.
Proof. intros H1 H2 p. destruct (decide (p = q)) as [->|Hne]; [right; right; by rewrite set_same|left; by apply set_other]. Qed.
Lemma unzip_loop_contained P dest cs lim : dest_names dest cs → ∀ es s i paths, good_tree s → Forall (λ e, inside dest (e_name e)) es → no_links s (base_place P dest) cs →
  ∃ s' ps e, unzip_loop P s dest es lim i paths = Ret (s', ps, e) ∧ good_tree s' ∧ contained s s' (base_place P dest ++ cs).
Proof.
  intros [Hd Hcs]. induction es as [|e es IH]; intros s i paths Hg Hin Hnl; [exists s, paths, None; by split_and!; [| |apply contained_refl]|]. inversion Hin as [|? ? He Hin']; subst. cbn [unzip_loop].
  set (pt := Path (is_abs dest) (p_comps (clean dest) ++ parts (e_name e))). assert (Hpt : Forall plain_name (p_comps pt)) by (apply Forall_app; split; [done|apply parts_names, He]).
  assert (Hlf : link_free s (path_base P pt) (p_comps pt)) by (by apply no_links_free). set (D := base_place P dest ++ p_comps (clean dest)).
  assert (ED : path_base P pt ++ p_comps pt = D ++ parts (e_name e)) by (unfold D; by rewrite <- app_assoc).
  assert (Hj : join_string dest (e_name e) = path_string pt ∨ join_string dest (e_name e) = []).
  { destruct (decide (e_name e = [])) as [E0|], (decide (dest = [])) as [E1|]; [right; by rewrite E0, E1|left; apply join_string_eq; auto..]. }
  assert (Hgo : ∀ s1 p s2 e2, good_tree s1 → no_links s1 (base_place P dest) (p_comps (clean dest)) → mk_dir P s1 p = Ret (s2, e2) → (p = path_string pt ∨ p = [] ∨ p = path_string (path_dir pt)) → good_tree s2 ∧ contained s1 s2 D).
  { intros s1 p s2 e2 Hg1 Hn1 E Hp. split; [destruct (mk_dir_safe P s1 p Hg1) as (? & ? & E' & _ & ? & _); congruence|]. assert (Hl1 : link_free s1 (path_base P pt) (p_comps pt)) by (by apply no_links_free). destruct Hp as [-> | [-> | ->]].
    - apply mk_dir_frame in E; [|done|done]. rewrite ED in E. by eapply dirs_contained.
    - vm_compute in E. injection E as <- _. apply contained_refl.
    - apply mk_dir_frame in E; [|by apply Forall_take|by apply link_free_take]. eapply dirs_contained. eapply dirs_on_prefix; [exact E|]. rewrite <- ED. apply prefix_app. exists (drop (length (p_comps pt) - 1) (p_comps pt)). cbn [path_dir p_comps]. by rewrite take_drop. }
  destruct (entry_dir e).
  - destruct (mk_dir_safe P s (join_string dest (e_name e)) Hg) as (s1 & e1 & E1 & _). destruct (Hgo _ _ _ _ Hg Hnl E1) as [Hg1 Hc1]; [tauto|]. rewrite E1. cbn [mbind go_bind]. destruct (IH s1 (S i) (paths ++ [join_string dest (e_name e)])) as (s' & ps & e' & E & Hg' & Hc); [done|done|by eapply contained_no_links|]. exists s', ps, e'. split_and!; [done|done|by eapply contained_trans].
  - rewrite (join_comps dest) by done. fold pt. destruct (mk_dir_safe P s (path_string (path_dir pt)) Hg) as (s1 & e1 & E1 & _). destruct (Hgo _ _ _ _ Hg Hnl E1) as [Hg1 Hc1]; [tauto|]. assert (Hnl1 := contained_no_links _ _ _ _ Hnl Hc1). rewrite E1. cbn [mbind go_bind]. destruct e1 as [e1|]; [by exists s1, [], (Some (USys e1))|].
    destruct (open_place P s1 (join_string dest (e_name e))) as [q|e2] eqn:Eq; [|by exists s1, [], (Some (USys e2))].
    assert (Hq : q = D ++ parts (e_name e)). { destruct Hj as [Ej|Ej]; rewrite Ej in Eq; [|by rewrite open_nil in Eq]. apply open_frame in Eq; [by rewrite Eq|done|by apply no_links_free]. }
    assert (Hs : ∀ x, good_tree (set s1 q (Some (NFile x))) ∧ contained s (set s1 q (Some (NFile x))) D).
    { intros x. destruct (open_place_ok _ _ _ _ x Eq) as (Q1 & Q2 & (d & c & Q3 & Q4) & _). split; [rewrite Q3; apply set_file_good; [done|done|by rewrite <- Q3]|]. eapply contained_trans; [exact Hc1|]. apply set_contained; [subst q; by eexists|done]. }
    destruct (match lim with Some (k, j) => if (k =? i)%nat then Some j else None | None => None end) as [j|].
    + destruct (Hs (take j (e_data e))) as [? ?]. by eexists _, _, _.
    + destruct (Hs (e_data e)) as [Hg2 Hc2]. destruct (IH (set s1 q (Some (NFile (e_data e)))) (S i) (paths ++ [join_string dest (e_name e)])) as (s' & ps & e' & E & Hg' & Hc); [done|done|exact (contained_no_links _ _ _ _ Hnl Hc2)|]. exists s', ps, e'. split_and!; [done|done|by eapply contained_trans].
Qed.
(** no entry name has ".." and no links are at the destination: whatever fails, only the way to it is made, and
    what is below it changed *)
Theorem unzip_file_contained P dec s zipname dest cs lim : good_tree s → dest_names dest cs → no_links s (base_place P dest) cs →
  (∀ x es, at_path P s true zipname (NFile x) → dec x = Some es → Forall (λ e, inside dest (e_name e)) es) →
  ∃ s' ps e, unzip_file P dec s zipname dest lim = Ret (s', ps, e) ∧ good_tree s' ∧ contained s s' (base_place P dest ++ cs).
Proof.
  intros Hg Hd Hn Hdec. assert (Hsame : ∀ (ps : list gostr) (e : option uerr), ∃ s' ps' e', Ret (s, ps, e) = Ret (s', ps', e') ∧ good_tree s' ∧ contained s s' (base_place P dest ++ cs)) by (intros ps e; exists s, ps, e; split_and!; [done|done|apply contained_refl]).
  unfold unzip_file. destruct (namei P s true zipname) as [q|e] eqn:Eq; [|apply Hsame]. destruct (s q) as [[x| |t]|] eqn:Es; try apply Hsame.
  destruct (dec x) as [es|] eqn:E; [|apply Hsame]. apply unzip_loop_contained; [done|done| |done]. eapply Hdec; [|done]. apply ok_namei in Eq as (k & Hk & HL). by exists k, q.
Qed.

(** ** Unzip extracts *)
Definition made (P : proc) (s s' : tree) (dest : gostr) (cs : list gostr) (es : list entry) : Prop :=
  (∀ e, e ∈ es → s' (entry_place P dest cs e) = Some (if entry_dir e then NDir else NFile (e_data e))) ∧
  ∀ p, (∀ e, e ∈ es → ¬ dir_entry e → p ≠ entry_place P dest cs e) → s' p = s p ∨ (s p = None ∧ s' p = Some NDir ∧ ∃ e, e ∈ es ∧ p `prefix_of` entry_place P dest cs e).
Lemma made_extracted P s s' dest cs es : made P s s' dest cs es → extracted P s s' dest cs es.
Proof. intros [H1 H2]. split; [|done]. intros e He. specialize (H1 e He). destruct (entry_dir e) eqn:Ed; split; intros Hd; try done; [by rewrite <- entry_dir_iff, Ed in Hd|by rewrite <- entry_dir_iff, Ed in Hd]. Qed.
Lemma separate_tail e es : separate (e :: es) → separate es.
Proof. intros H i j a b Ha Hb Hij. apply (H (S i) (S j)); [done|done|lia]. Qed.
Lemma prefix_places P dest cs a b : entry_place P dest cs a `prefix_of` entry_place P dest cs b → parts (e_name a) `prefix_of` parts (e_name b).
Proof. unfold entry_place. intros [k E]. rewrite <- !app_assoc in E. apply app_inv_head, app_inv_head in E. by exists k. Qed.
Lemma take_place P dest cs e i : (base_place P dest ++ take i (cs ++ parts (e_name e))) `prefix_of` entry_place P dest cs e.
Proof. apply prefix_app. exists (drop i (cs ++ parts (e_name e))). by rewrite take_drop. Qed.
Lemma room_keep P s s' dest cs e : room P s dest cs e → (∀ p, p `prefix_of` entry_place P dest cs e → s' p = s p ∨ (s p = None ∧ s' p = Some NDir ∧ (¬ dir_entry e → p ≠ entry_place P dest cs e))) → room P s' dest cs e.
Proof.
  intros (R1 & R2 & R3) H. split_and!.
  - intros i Hi. destruct (H _ (take_place P dest cs e i)) as [E|(_ & E & _)]; [|by right]. specialize (R1 i Hi). unfold may_dir in *. by rewrite E.
  - intros Hd. destruct (H (entry_place P dest cs e)) as [E|(_ & E & _)]; [done| |by right]. unfold may_dir. rewrite E. by apply R2.
  - intros Hd. destruct (R3 Hd) as [R4 R5]. split; [done|]. destruct (H (entry_place P dest cs e)) as [E|(_ & _ & E)]; [done| |by destruct (E Hd)]. unfold may_file. by rewrite E.
Qed.
Definition out_path (dest : gostr) (cs : list gostr) (e : entry) : gostr := path_string (Path (is_abs dest) (cs ++ parts (e_name e))).
Lemma unzip_loop_exact P dest cs : dest_names dest cs → ∀ es s i paths, good_tree s → open_proc P s → Forall (λ e, inside dest (e_name e) ∧ (e_name e ≠ [] ∨ dest ≠ []) ∧ room P s dest cs e) es → separate es →
  ∃ s', unzip_loop P s dest es None i paths = Ret (s', paths ++ (out_path dest cs <$> es), None) ∧ good_tree s' ∧ made P s s' dest cs es.
Proof.
  intros [Hd Hcs]. induction es as [|e es IH]; intros s i paths Hg Hop Hall Hsep.
  { exists s. rewrite app_nil_r. split_and!; [done|done|]. split; [by intros ? ?%elem_of_nil|by left]. }
  inversion Hall as [|? ? (He & Hne & R1 & R2 & R3) Hall']; subst. cbn [unzip_loop]. rewrite join_string_eq by done. set (cs := p_comps (clean dest)) in *. fold (out_path dest cs e). set (pt := Path (is_abs dest) (cs ++ parts (e_name e))).
  assert (Hpt : Forall plain_name (p_comps pt)) by (apply Forall_app; split; [done|apply parts_names, He]). set (T := entry_place P dest cs e) in *. assert (ET : path_base P pt ++ p_comps pt = T) by done.
  (* the rest, from a tree that differs at the place of this entry and by directories on the way *)
  assert (Hrest : ∀ s1, good_tree s1 → s1 T = Some (if entry_dir e then NDir else NFile (e_data e)) → (∀ p, p ≠ T ∨ dir_entry e → s1 p = s p ∨ (s p = None ∧ s1 p = Some NDir ∧ p `prefix_of` T)) →
    ∃ s', unzip_loop P s1 dest es None (S i) (paths ++ [out_path dest cs e]) = Ret (s', paths ++ (out_path dest cs <$> e :: es), None) ∧ good_tree s' ∧ made P s s' dest cs (e :: es)).
  { intros s1 Hg1 HT Hfr.
    assert (Hop1 : open_proc P s1). { destruct Hop as [Hw Hdn]. split; [|done]. destruct (decide (cwd P = T)) as [Ew|Ew]; [|destruct (Hfr (cwd P)) as [->|(E & _)]; [by left|done|congruence]].
      rewrite Ew, HT. destruct (entry_dir e) eqn:Ed; [done|]. assert (Hnd : ¬ dir_entry e) by (by rewrite <- entry_dir_iff, Ed). destruct (R3 Hnd) as [_ [E|[x E]]]; rewrite <- Ew in E; congruence. }
    destruct (IH s1 (S i) (paths ++ [out_path dest cs e]) Hg1 Hop1) as (s' & E & Hg' & Hm1 & Hm2).
    - rewrite Forall_forall in Hall' |- *. intros b Hb. destruct (Hall' b Hb) as (Hb1 & Hb2 & Hb3). split_and!; [done|done|]. apply elem_of_list_lookup in Hb as [j Hj]. eapply room_keep; [exact Hb3|]. intros p Hp. destruct (decide (dir_entry e)) as [Hde|Hnd].
      + destruct (Hfr p (or_intror Hde)) as [?|(? & ? & Hpp)]; [by left|right]. split_and!; [done|done|]. intros Hnb ->. apply (Hsep (S j) 0%nat b e Hj eq_refl); [done|done|]. by eapply prefix_places.
      + assert (Hpt' : p ≠ T). { intros ->. apply (Hsep 0%nat (S j) e b eq_refl Hj); [done|done|]. by eapply prefix_places. }
        destruct (Hfr p (or_introl Hpt')) as [?|(? & ? & Hpp)]; [by left|right]. split_and!; [done|done|]. intros Hnb ->. apply (Hsep (S j) 0%nat b e Hj eq_refl); [done|done|]. by eapply prefix_places.
    - by eapply separate_tail.
    - exists s'. split_and!; [rewrite E; f_equal; f_equal; by rewrite fmap_cons, <- app_assoc|done|]. split.
      + intros b [->|Hb]%elem_of_cons; [|by apply Hm1]. fold T. rewrite <- HT. destruct (Hm2 T) as [?|(E0 & _)]; [|done|by rewrite HT in E0]. intros b Hb Hnb ET'. apply elem_of_list_lookup in Hb as [j Hj]. apply (Hsep (S j) 0%nat b e Hj eq_refl); [done|done|]. eapply (prefix_places P dest cs). fold T. by rewrite <- ET'.
      + intros p Hp. destruct (Hm2 p) as [E1|(E1 & E2 & b & Hb & Hpb)]; [intros b Hb; apply Hp; by right| |].
        * rewrite E1. destruct (Hfr p) as [?|(? & ? & ?)]; [|by left|right]. { destruct (decide (dir_entry e)) as [|Hnd]; [by right|left]. apply Hp; [left|done]. } split_and!; [done|done|]. exists e. split; [left|done].
        * right. assert (s p = None). { destruct (Hfr p) as [<-|(? & ? & ?)]; [|done|done]. destruct (decide (dir_entry e)) as [|Hnd]; [by right|left]. apply Hp; [left|done]. } split_and!; [done|done|]. exists b. split; [by right|done]. }
  destruct (entry_dir e) eqn:Ed.
  - assert (Hde : dir_entry e) by (by apply entry_dir_iff). destruct (mk_dir_path P s pt Hg Hop Hpt) as (s1 & E1 & Hg1 & Hd1 & HT1).
    { intros k. destruct (decide (k < length (cs ++ parts (e_name e)))%nat) as [Hk|Hk]; [by apply R1|]. cbn [p_comps pt]. rewrite firstn_all2 by (simpl; lia). by apply R2. }
    change (path_string pt) with (out_path dest cs e) in E1. rewrite E1. cbn [mbind go_bind]. apply Hrest; [done|done|]. intros p _. rewrite ET in Hd1. apply Hd1.
  - assert (Hnd : ¬ dir_entry e) by (by rewrite <- entry_dir_iff, Ed). destruct (R3 Hnd) as [Hp0 Hf]. rewrite (join_comps dest) by done. fold cs. fold pt. assert (Hl : (0 < length (p_comps pt))%nat) by (cbn [p_comps pt]; rewrite app_length; destruct (parts (e_name e)); [done|simpl; lia]).
    destruct (mk_dir_path P s (path_dir pt) Hg Hop) as (s1 & E1 & Hg1 & Hd1 & HT1).
    { by apply Forall_take. }
    { intros k. cbn [path_dir p_comps]. rewrite take_take. apply R1. change (p_comps pt) with (cs ++ parts (e_name e)) in *. lia. }
    rewrite E1. cbn [mbind go_bind]. change (path_base P (path_dir pt)) with (path_base P pt) in *. cbn [path_dir p_comps] in Hd1, HT1. assert (HTn : ∀ p, p `prefix_of` path_base P pt ++ take (length (p_comps pt) - 1) (p_comps pt) → p ≠ T).
    { intros p Hp ->. apply prefix_length in Hp. rewrite <- ET in Hp. rewrite !app_length, take_length in Hp. lia. }
    assert (E1T : s1 T = s T). { destruct (Hd1 T) as [?|(_ & _ & Hp)]; [done|]. by apply HTn in Hp. }
    assert (Hop1 : open_proc P s1). { destruct Hop as [Hw Hdn]. split; [|done]. destruct (Hd1 (cwd P)) as [->|(E & _)]; [done|congruence]. }
    assert (Eo : open_place P s1 (out_path dest cs e) = Ok T). { apply (open_path P s1 pt); try done; [intros E0; rewrite E0 in Hl; simpl in Hl; lia|]. rewrite ET. unfold may_file. by rewrite E1T. }
    rewrite Eo. destruct (open_place_ok _ _ _ _ (e_data e) Eo) as (Q1 & _ & (d & c & Q3 & Q4) & _). apply Hrest.
    + rewrite Q3. apply set_file_good; [done|done|by rewrite <- Q3].
    + by rewrite set_same.
    + intros p [Hp|]; [|done]. rewrite set_other by done. destruct (Hd1 p) as [?|(? & ? & Hpp)]; [by left|right]. split_and!; [done|done|]. etrans; [exact Hpp|]. rewrite <- ET. apply prefix_app. exists (drop (length (p_comps pt) - 1) (p_comps pt)). by rewrite take_drop.
Qed.
(** every entry is extracted to its place, and nothing else changes but for directories on the way *)
Theorem unzip_file_exact P dec s zipname dest cs a es : good_tree s → open_proc P s → at_path P s true zipname (NFile a) → dec a = Some es → dest_names dest cs →
  Forall (λ e, inside dest (e_name e) ∧ (e_name e ≠ [] ∨ dest ≠ []) ∧ room P s dest cs e) es → separate es →
  ∃ s', unzip_file P dec s zipname dest None = Ret (s', out_path dest cs <$> es, None) ∧ good_tree s' ∧ extracted P s s' dest cs es.
Proof.
  intros Hg Hop (k & q & Hk & HL & Hq) Hdec Hd Hall Hsep. unfold unzip_file. rewrite (namei_ok _ _ _ _ _ Hk HL), Hq, Hdec. destruct (unzip_loop_exact P dest cs Hd es s 0 [] Hg Hop Hall Hsep) as (s' & E & Hg' & Hm). exists s'. split_and!; [done|done|by apply made_extracted].
Qed.

(** ** Both *)
Theorem zip_unzip P enc dec s filename files old new q xs dest cs : let es := entries files old new xs in
  good_tree s → open_proc P s → dec (enc es) = Some es → open_place P s filename = Ok q → Forall2 (source P s q) files xs → dest_names dest cs →
  Forall (λ e, inside dest (e_name e) ∧ ¬ dir_entry e ∧ room P s dest cs e ∧ ¬ q `prefix_of` entry_place P dest cs e) es → separate es →
  ∃ s1 s2, zip_files P enc s filename files old new ZDone = (s1, None) ∧ unzip_file P dec s1 filename dest None = Ret (s2, out_path dest cs <$> es, None) ∧
    (∀ i f x, files !! i = Some f → xs !! i = Some x → s2 (base_place P dest ++ cs ++ parts (go_replace f old new)) = Some (NFile x)) ∧ s2 q = Some (NFile (enc es)) ∧
    ∀ p, p ≠ q → (∀ f, f ∈ files → p ≠ base_place P dest ++ cs ++ parts (go_replace f old new)) → s2 p = s p ∨ (s p = None ∧ s2 p = Some NDir ∧ ∃ f, f ∈ files ∧ p `prefix_of` base_place P dest ++ cs ++ parts (go_replace f old new)).
Proof.
  intros es Hg Hop Hdec Hq Hsrc Hd Hall Hsep. assert (Hin : ∀ e, e ∈ es → ∃ i f x, files !! i = Some f ∧ xs !! i = Some x ∧ e = Entry (go_replace f old new) false x).
  { intros e He. apply elem_of_list_lookup in He as [i Hi]. apply lookup_zip_with_Some in Hi as (f & x & -> & ? & ?). by exists i, f, x. }
  assert (Hout : ∀ i f x, files !! i = Some f → xs !! i = Some x → Entry (go_replace f old new) false x ∈ es). { intros i f x Hf Hx. apply elem_of_list_lookup. exists i. apply lookup_zip_with_Some. by exists f, x. }
  rewrite Forall_forall in Hall. destruct (zip_files_exact P enc s filename files old new q xs Hq Hsrc) as (s1 & E1 & Eq1 & Hat & Hfr).
  { apply Forall2_same_length_lookup. split; [by eapply Forall2_length|]. intros i f x Hf Hx. left. destruct (Hall _ (Hout i f x Hf Hx)) as (_ & Hnd & _). apply not_true_is_false. intros Hs. apply Hnd. right. by apply ends_slash_iff. }
  destruct (open_place_ok P s filename q [] Hq) as (Q1 & Q2 & (d & c & Q3 & Q4) & _).
  assert (Hg1 : good_tree s1). { subst q. eapply (good_file_change s s1 d c); try done. }
  assert (Hop1 : open_proc P s1). { destruct Hop as [Hw Hdn]. split; [|done]. rewrite Hfr; [done|]. intros <-. done. }
  destruct (unzip_file_exact P dec s1 filename dest cs _ es Hg1 Hop1 Hat Hdec Hd) as (s2 & E2 & _ & [X1 X2]); [|done|].
  { apply Forall_forall. intros e He. destruct (Hall e He) as (I1 & I2 & I3 & I4). split_and!; [done| |].
    - left. intros E0. destruct I3 as (_ & _ & I3). destruct (I3 I2) as [I5 _]. rewrite E0 in I5. by apply I5.
    - eapply room_keep; [exact I3|]. intros p Hp. left. apply Hfr. by intros ->. }
  exists s1, s2. split_and!; [done|done| | |].
  - intros i f x Hf Hx. pose proof (Hout i f x Hf Hx) as He. destruct (Hall _ He) as (_ & Hnd & _). exact (proj2 (X1 _ He) Hnd).
  - destruct (X2 q) as [->|(E0 & _)]; [|done|congruence]. intros e He _ E0. destruct (Hall e He) as (_ & _ & _ & H). apply H. by rewrite E0.
  - intros p Hpq Hp. rewrite <- (Hfr p Hpq). destruct (X2 p) as [?|(? & ? & e & He & Hpe)]; [|by left|right].
    + intros e He _. destruct (Hin e He) as (i & f & x & Hf & _ & ->). apply Hp. by eapply elem_of_list_lookup_2.
    + split_and!; [done|done|]. destruct (Hin e He) as (i & f & x & Hf & _ & ->). exists f. split; [by eapply elem_of_list_lookup_2|done].
Qed.

(** ** Where they fall short *)
Definition box_list : list (place * node) :=
  [([], NDir); ([w], NDir); ([w; str "a"], NDir); ([w; str "a"; str "x"], NFile (str "one")); ([w; str "b"], NDir); ([w; str "b"; str "x"], NFile (str "two"));
   ([w; str "z"], NFile (str "old archive")); ([w; str "out"], NDir); ([w; str "out"; str "f"], NFile (str "file")); ([w; str "out"; str "l"], NLink (str "/etc"));
   ([str "etc"], NDir); ([str "etc"; str "conf"], NFile (str "good")); ([str "key"], NFile (str "secret"))].
Definition box : tree := λ q, snd <$> find (λ e, bool_decide (e.1 = q)) box_list.
Definition box_proc : proc := Proc [w] (str "/w") (λ _, false).
Lemma box_some q : box q ≠ None → q ∈ box_list.*1.
Proof.
  unfold box. destruct (find _ box_list) as [[p n]|] eqn:E; [|done]. intros _. apply find_some in E as [H1 H2]. apply bool_decide_eq_true in H2. simpl in H2. subst. apply elem_of_list_fmap. exists (q, n). split; [done|]. by apply elem_of_list_In.
Qed.
Lemma box_good : good_tree box ∧ open_proc box_proc box.
Proof.
  split; [split; [done|]|by split]. intros p c H. apply box_some in H.
  assert (HF : Forall (λ q, q = [] ∨ box (take (length q - 1) q) = Some NDir) box_list.*1) by (repeat constructor; try (by left); by right).
  rewrite Forall_forall in HF. destruct (HF _ H) as [E|E]; [by destruct p|]. rewrite app_length in E. simpl in E. rewrite Nat.add_sub, take_app in E. done.
Qed.
(** a missing file costs the old archive; a failing Close goes unnoticed; a directory is an error but has its entry *)
Theorem zip_files_refuted : ∀ enc,
  (∃ s', zip_files box_proc enc box (str "z") [str "nope"] (str "a") (str "b") ZDone = (s', Some (ZSys ENOENT)) ∧ box [w; str "z"] = Some (NFile (str "old archive")) ∧ s' [w; str "z"] = Some (NFile (enc []))) ∧
  (∀ g, ∃ s', zip_files box_proc enc box (str "z") [str "a/x"] (str "a") (str "b") (ZClose g) = (s', None) ∧ s' [w; str "z"] = Some (NFile g)) ∧
  (∃ s', zip_files box_proc enc box (str "z") [str "a/x"; str "b"] (str "w") (str "v") ZDone = (s', Some (ZSys EISDIR)) ∧ s' [w; str "z"] = Some (NFile (enc [Entry (str "a/x") false (str "one"); Entry (str "b") true []]))).
Proof.
  intros enc. split_and!.
  - eexists. split; [by vm_compute|]. by split; vm_compute.
  - intros g. eexists. split; [by vm_compute|]. by vm_compute.
  - eexists. split; [by vm_compute|]. by vm_compute.
Qed.
(** the replacement can make names collide, and then one file is lost; a path with ".." goes into the archive
    and comes out beside the destination; an empty oldForm spreads newForm over the name *)
Theorem zip_unzip_refuted : ∀ enc dec, (∀ es, dec (enc es) = Some es) →
  (∃ s1 s2 ps, zip_files box_proc enc box (str "z") [str "a/x"; str "b/x"] (str "a") (str "b") ZDone = (s1, None) ∧ unzip_file box_proc dec s1 (str "z") (str "new") None = Ret (s2, ps, None) ∧
    s2 [w; str "new"; str "b"; str "x"] = Some (NFile (str "two")) ∧ s2 [w; str "new"; str "a"; str "x"] = None ∧ ps = [str "new/b/x"; str "new/b/x"]) ∧
  (∃ s1 s2 ps, zip_files box_proc enc box (str "z") [str "../key"] (str "w") (str "v") ZDone = (s1, None) ∧ unzip_file box_proc dec s1 (str "z") (str "new") None = Ret (s2, ps, None) ∧
    box [w; str "key"] = None ∧ s2 [w; str "key"] = Some (NFile (str "secret")) ∧ s2 [w; str "new"] = None) ∧
  (∃ s1, zip_files box_proc enc box (str "z") [str "a/x"] [] (str "-") ZDone = (s1, None) ∧ s1 [w; str "z"] = Some (NFile (enc [Entry (str "-a-/-x-") false (str "one")]))).
Proof.
  intros enc dec Hed. split_and!.
  - set (es := [Entry (str "b/x") false (str "one"); Entry (str "b/x") false (str "two")]). exists (set (set box [w; str "z"] (Some (NFile []))) [w; str "z"] (Some (NFile (enc es)))). eexists _, _. split; [by vm_compute|].
    assert (E : ∀ s, s = set (set box [w; str "z"] (Some (NFile []))) [w; str "z"] (Some (NFile (enc es))) → unzip_file box_proc dec s (str "z") (str "new") None = unzip_loop box_proc s (str "new") es None 0 []).
    { intros s Es. unfold unzip_file. assert (En : namei box_proc s true (str "z") = Ok [w; str "z"]) by (subst s; by vm_compute). rewrite En. assert (Eq : s [w; str "z"] = Some (NFile (enc es))) by (subst s; by rewrite set_same). by rewrite Eq, Hed. }
    rewrite (E _ eq_refl). split; [by vm_compute|]. split_and!; by vm_compute.
  - set (es := [Entry (str "../key") false (str "secret")]). exists (set (set box [w; str "z"] (Some (NFile []))) [w; str "z"] (Some (NFile (enc es)))). eexists _, _. split; [by vm_compute|].
    assert (E : ∀ s, s = set (set box [w; str "z"] (Some (NFile []))) [w; str "z"] (Some (NFile (enc es))) → unzip_file box_proc dec s (str "z") (str "new") None = unzip_loop box_proc s (str "new") es None 0 []).
    { intros s Es. unfold unzip_file. assert (En : namei box_proc s true (str "z") = Ok [w; str "z"]) by (subst s; by vm_compute). rewrite En. assert (Eq : s [w; str "z"] = Some (NFile (enc es))) by (subst s; by rewrite set_same). by rewrite Eq, Hed. }
    rewrite (E _ eq_refl). split; [by vm_compute|]. split_and!; by vm_compute.
  - eexists. split; [by vm_compute|]. by vm_compute.
Qed.
(** files outside are overwritten through "..", through a link that is already there, and by an absolute name
    without a destination; a directory that cannot be made is no error; an error leaves files and reports none *)
Theorem unzip_file_refuted : let unz es dest lim := unzip_file box_proc (λ _, Some es) box (str "z") dest lim in
  (∃ s' ps, unz [Entry (str "../../etc/conf") false (str "evil")] (str "out") None = Ret (s', ps, None) ∧ box [str "etc"; str "conf"] = Some (NFile (str "good")) ∧ s' [str "etc"; str "conf"] = Some (NFile (str "evil"))) ∧
  (∃ s' ps, unz [Entry (str "l/conf") false (str "evil")] (str "out") None = Ret (s', ps, None) ∧ s' [str "etc"; str "conf"] = Some (NFile (str "evil"))) ∧
  (∃ s' ps, unz [Entry (str "/etc/conf") false (str "evil")] [] None = Ret (s', ps, None) ∧ s' [str "etc"; str "conf"] = Some (NFile (str "evil"))) ∧
  (∃ s', unz [Entry (str "f/") false []] (str "out") None = Ret (s', [str "out/f"], None) ∧ s' [w; str "out"; str "f"] = Some (NFile (str "file"))) ∧
  (∃ s', unz [Entry (str "n") false (str "new"); Entry (str "m") false (str "more")] (str "out") (Some (1, 2)%nat) = Ret (s', [], Some UWrite) ∧ s' [w; str "out"; str "n"] = Some (NFile (str "new")) ∧ s' [w; str "out"; str "m"] = Some (NFile (str "mo"))).
Proof.
  assert (HL : ∀ (g : go (tree * list gostr * option uerr)) (Q : tree → list gostr → option uerr → Prop), match g with Ret (s', ps, e) => Q s' ps e | _ => False end → ∃ s' ps e, g = Ret (s', ps, e) ∧ Q s' ps e) by (intros [[[s' ps] e]| |] Q H; [by exists s', ps, e|done|done]).
  intros unz. split; [|split; [|split; [|split]]].
  - destruct (HL (unz [Entry (str "../../etc/conf") false (str "evil")] (str "out") None) (λ s' _ e, e = None ∧ s' [str "etc"; str "conf"] = Some (NFile (str "evil")))) as (s' & ps & e & E & -> & H); [by vm_compute|]. by exists s', ps.
  - destruct (HL (unz [Entry (str "l/conf") false (str "evil")] (str "out") None) (λ s' _ e, e = None ∧ s' [str "etc"; str "conf"] = Some (NFile (str "evil")))) as (s' & ps & e & E & -> & H); [by vm_compute|]. by exists s', ps.
  - destruct (HL (unz [Entry (str "/etc/conf") false (str "evil")] [] None) (λ s' _ e, e = None ∧ s' [str "etc"; str "conf"] = Some (NFile (str "evil")))) as (s' & ps & e & E & -> & H); [by vm_compute|]. by exists s', ps.
  - destruct (HL (unz [Entry (str "f/") false []] (str "out") None) (λ s' ps e, ps = [str "out/f"] ∧ e = None ∧ s' [w; str "out"; str "f"] = Some (NFile (str "file")))) as (s' & ps & e & E & -> & -> & H); [by vm_compute|]. by exists s'.
  - destruct (HL (unz [Entry (str "n") false (str "new"); Entry (str "m") false (str "more")] (str "out") (Some (1, 2)%nat)) (λ s' ps e, ps = [] ∧ e = Some UWrite ∧ s' [w; str "out"; str "n"] = Some (NFile (str "new")) ∧ s' [w; str "out"; str "m"] = Some (NFile (str "mo")))) as (s' & ps & e & E & -> & -> & H); [by vm_compute|]. by exists s'.
Qed.

(** ** Instances *)
Definition pack (es : list entry) : gostr := [Zpos (encode ((λ e, (e_name e, e_isdir e, e_data e)) <$> es))].
Definition unpack (a : gostr) : option (list entry) :=
  match a with [Zpos n] => match decode n : option (list (gostr * bool * list Z)) with Some ts => Some ((λ t, Entry t.1.1 t.1.2 t.2) <$> ts) | None => None end | _ => None end.
Lemma unpack_pack es : unpack (pack es) = Some es.
Proof. unfold pack, unpack. rewrite countable.decode_encode. simpl. f_equal. rewrite <- list_fmap_compose. rewrite <- (list_fmap_id es) at 2. apply list_fmap_ext. by intros ? [] ?. Qed.
Example go_replace_ex : replaced (str "aa") (str "b") (str "xaaaaay") (str "xbbay") ∧ go_replace (str "xaaaaay") (str "aa") (str "b") = str "xbbay".
Proof. split; [|by vm_compute]. exact (go_replace_exact (str "xaaaaay") (str "aa") (str "b") ltac:(done)). Qed.
Lemma box_source f p x : namei box_proc box true f = Ok p → box p = Some (NFile x) → p ≠ [w; str "z"] → source box_proc box [w; str "z"] f x.
Proof. intros (k & Hk & HL)%ok_namei Hx Hp. by exists k, p. Qed.
Lemma box_room e : bool_decide (Forall (λ i, box ([w] ++ take i ([str "new"] ++ parts (e_name e))) = None ∨ box ([w] ++ take i ([str "new"] ++ parts (e_name e))) = Some NDir) (seq 0 (length ([str "new"] ++ parts (e_name e))))) = true →
  box ([w] ++ [str "new"] ++ parts (e_name e)) = None → parts (e_name e) ≠ [] → room box_proc box (str "new") [str "new"] e.
Proof.
  intros H1%bool_decide_eq_true H2 H3. rewrite Forall_forall in H1. split_and!; [|by left|by split; [|left]]. intros i Hi. apply (H1 i). apply elem_of_seq. split; [lia|done].
Qed.
(** two files, one renamed, and back *)
Example zip_unzip_ex : ∃ s1 s2, zip_files box_proc pack box (str "z") [str "a/x"; str "./b/x"] (str "a") (str "c") ZDone = (s1, None) ∧ unzip_file box_proc unpack s1 (str "z") (str "new") None = Ret (s2, [str "new/c/x"; str "new/b/x"], None) ∧
  s2 [w; str "new"; str "c"; str "x"] = Some (NFile (str "one")) ∧ s2 [w; str "new"; str "b"; str "x"] = Some (NFile (str "two")) ∧ s2 [w; str "out"; str "f"] = Some (NFile (str "file")).
Proof.
  destruct box_good as [Hg Hop]. destruct (zip_unzip box_proc pack unpack box (str "z") [str "a/x"; str "./b/x"] (str "a") (str "c") [w; str "z"] [str "one"; str "two"] (str "new") [str "new"] Hg Hop (unpack_pack _)) as (s1 & s2 & E1 & E2 & X1 & _ & X2).
  - by vm_compute.
  - constructor; [|constructor; [|constructor]]; (eapply box_source; [by vm_compute|by vm_compute|done]).
  - split; [by vm_compute|]. constructor; [|constructor]. split; [done|]. apply (bool_decide_unpack _). by vm_compute.
  - assert (HE : ∀ n x, bool_decide (str ".." ∉ comps n) = true → last n ≠ Some 47 → room box_proc box (str "new") [str "new"] (Entry n false x) → inside (str "new") n ∧ ¬ dir_entry (Entry n false x) ∧ room box_proc box (str "new") [str "new"] (Entry n false x) ∧ ¬ [w; str "z"] `prefix_of` entry_place box_proc (str "new") [str "new"] (Entry n false x)).
    { intros n x H1%bool_decide_eq_true H2 H3. split_and!; [split; [done|by left]|intros [?|?]; done|done|]. intros [k E]. done. }
    constructor; [|constructor; [|constructor]]; (apply HE; [by vm_compute|by vm_compute|]); (apply box_room; by vm_compute).
  - intros [|[|i]] [|[|j]] a b Ha Hb Hij _; try done; injection Ha as <-; injection Hb as <-; intros [k E]; by vm_compute in E.
  - exists s1, s2. split_and!; [done|by rewrite E2; vm_compute|exact (X1 0%nat _ _ eq_refl eq_refl)|exact (X1 1%nat _ _ eq_refl eq_refl)|].
    destruct (X2 [w; str "out"; str "f"]) as [->|(E0 & _)]; [done| |done|done]. intros f [->|[->|[]%elem_of_nil]%elem_of_cons]%elem_of_cons; by vm_compute.
Qed.
(** hostile but harmless names: nothing outside "new" changes *)
Example unzip_contained_ex : no_links box (base_place box_proc (str "new")) [str "new"] ∧
  ∃ s' ps e, unzip_file box_proc (λ _, Some [Entry (str "/etc/conf") false (str "evil"); Entry (str ".//a/...") false (str "x")]) box (str "z") (str "new/../new/") (Some (1, 0)%nat) = Ret (s', ps, e) ∧ contained box s' [w; str "new"].
Proof.
  destruct box_good as [Hg Hop]. assert (Hn : no_links box (base_place box_proc (str "new")) [str "new"]).
  { assert (HB : ∀ p t, box p = Some (NLink t) → p = [w; str "out"; str "l"]). { intros p t E. assert (Hp : box p ≠ None) by (by rewrite E). apply box_some in Hp. cbv [box_list fmap list_fmap fst] in Hp. rewrite !elem_of_cons, elem_of_nil in Hp. naive_solver. }
    split; [intros i t E%HB|intros r t E%HB]; [|done]. by destruct i as [|[|i]]. }
  split; [done|]. destruct (unzip_file_contained box_proc (λ _, Some [Entry (str "/etc/conf") false (str "evil"); Entry (str ".//a/...") false (str "x")]) box (str "z") (str "new/../new/") [str "new"] (Some (1, 0)%nat)) as (s' & ps & e & E & _ & Hc); [done| |done| |by exists s', ps, e].
  - split; [by vm_compute|]. constructor; [|constructor]. split; [done|]. apply (bool_decide_unpack _). by vm_compute.
  - intros x es _ [= <-]. constructor; [|constructor; [|constructor]]; (split; [apply (bool_decide_unpack _); by vm_compute|by left]).
Qed.
