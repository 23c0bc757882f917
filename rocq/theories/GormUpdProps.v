(** * Batched updates: theorems *)
From stdpp Require Import gmap.
From Verif Require Import GoBase GoStr GormModel GormSpec GormProps.
Local Open Scope Z_scope.

(** ** C69 *)
Lemma list_to_map_snoc' (l : entries) (e : Z * fields) : e.1 ∉ l.*1 → list_to_map (l ++ [e]) = <[e.1 := e.2]> (list_to_map l : updates).
Proof. intros H. destruct e as [k v]. by apply list_to_map_snoc. Qed.
Lemma split_batches_lists (order : entries) : NoDup order.*1 → ∃ ls : list entries, concat ls = order ∧ split_batches order = list_to_map <$> ls ∧ 
  Forall (λ l, (1 ≤ length l ≤ 500)%nat) ls ∧ ∀ i l, ls !! i = Some l → (S i < length ls)%nat → length l = 500%nat.
Proof.
  intros Hnd. unfold split_batches. set (T := Z.of_nat (length order)).
  assert (HI : ∀ post pre, pre ++ post = order → post ≠ [] ∨ pre = [] → ∃ (ls : list entries) cur index num tmp out, foldl (split_step T) (0, 0, ∅, []) pre = (index, num, tmp, out) ∧ num = Z.of_nat (length pre) ∧ pre = concat ls ++ cur ∧
     out = list_to_map <$> ls ∧ Forall (λ l, length l = 500%nat) ls ∧ index = Z.of_nat (length cur) ∧ (length cur < 500)%nat ∧ (cur ≠ [] → tmp = list_to_map cur)).
  { intros post pre. revert post. induction pre as [|e pre IH] using rev_ind; intros post Hpp Hpost.
    - exists [], [], 0, 0, ∅, []. split_and!; [done|done|done|done|constructor|done|simpl; lia|done].
    - destruct (IH (e :: post)) as (ls & cur & index & num & tmp & out & E & Hn & Hp & Ho & Hf & Hi & Hc & Ht); [by rewrite <- Hpp, <- app_assoc|by left|]. rewrite foldl_app, E. cbn [foldl]. unfold split_step.
      assert (Hlt : Z.of_nat (length pre) + 1 < T). { unfold T. rewrite <- Hpp, !app_length. simpl. destruct Hpost as [Hpost|Hpost]; [|by destruct pre]. destruct post; [done|]. simpl. lia. }
      assert (He : e.1 ∉ cur.*1). { rewrite <- Hpp, Hp in Hnd. rewrite !fmap_app in Hnd. apply NoDup_app in Hnd as (Hnd & _ & _). apply NoDup_app in Hnd as (_ & Hx & _). intros Hin. apply (Hx e.1); [apply elem_of_app; by right|by left]. }
      assert (Hins : <[e.1 := e.2]> (if index =? 0 then ∅ else tmp) = list_to_map (cur ++ [e]) :> updates).
      { rewrite list_to_map_snoc' by done. f_equal. destruct (Z.eqb_spec index 0) as [H0|H0]; [destruct cur; [done|simpl in *; lia]|]. apply Ht. intros ->. done. }
      rewrite Hins. destruct (Z.eqb_spec (num + 1) T) as [HT|HT]; [lia|]. rewrite orb_false_r. destruct (Z.eqb_spec (index + 1) 500) as [H5|H5].
      + exists (ls ++ [cur ++ [e]]), [], 0, (num + 1), (list_to_map (cur ++ [e])), (out ++ [list_to_map (cur ++ [e])]). split_and!; [done|rewrite app_length; simpl; lia| | | |done|simpl; lia|done].
        * rewrite concat_app. cbn [concat]. rewrite !app_nil_r, Hp. by rewrite app_assoc.
        * by rewrite fmap_app, Ho.
        * apply Forall_app. split; [done|]. apply Forall_singleton. rewrite app_length. simpl. lia.
      + exists ls, (cur ++ [e]), (index + 1), (num + 1), (list_to_map (cur ++ [e])), out. split_and!; [done|rewrite app_length; simpl; lia|by rewrite Hp, app_assoc|done|done|rewrite app_length; simpl; lia|rewrite app_length; simpl; lia|done]. }
  destruct (decide (order = [])) as [Eo|Eo].
  { rewrite Eo. exists []. split_and!; [done|done|constructor|]. intros i l H. by rewrite lookup_nil in H. }
  destruct (exists_last Eo) as (pre & e & Ee). assert (HT : T = Z.of_nat (length pre) + 1) by (unfold T; rewrite Ee, app_length; simpl; lia). clearbody T. subst order. destruct (HI [e] pre) as (ls & cur & index & num & tmp & out & E & Hn & Hp & Ho & Hf & Hi & Hc & Ht); [done|by left|]. rewrite foldl_app, E. cbn [foldl]. unfold split_step.
  assert (He : e.1 ∉ cur.*1). { rewrite Hp in Hnd. rewrite !fmap_app in Hnd. apply NoDup_app in Hnd as (_ & Hx & _). intros Hin. apply (Hx e.1); [apply elem_of_app; by right|by left]. }
  assert (Hins : <[e.1 := e.2]> (if index =? 0 then ∅ else tmp) = list_to_map (cur ++ [e]) :> updates).
  { rewrite list_to_map_snoc' by done. f_equal. destruct (Z.eqb_spec index 0) as [H0|H0]; [destruct cur; [done|simpl in *; lia]|]. apply Ht. intros ->. done. }
  rewrite Hins. assert (num + 1 =? T = true) as ->. { apply Z.eqb_eq. lia. } rewrite orb_true_r. cbn [snd].
  exists (ls ++ [cur ++ [e]]). split_and!.
  - rewrite concat_app. cbn [concat]. rewrite app_nil_r, Hp. by rewrite app_assoc.
  - by rewrite fmap_app, Ho.
  - apply Forall_app. split; [eapply Forall_impl; [exact Hf|]; simpl; intros; lia|]. apply Forall_singleton. rewrite app_length. simpl. lia.
  - intros i l Hl Hlast. rewrite app_length in Hlast. simpl in Hlast. rewrite lookup_app_l in Hl by lia. rewrite Forall_forall in Hf. apply Hf. apply elem_of_list_lookup. by exists i.
Qed.
(** for every iteration order: non-empty batches of at most 500, all but the last full, disjoint,
    together the whole map *)
Theorem split_update_batches (m : updates) order : order ≡ₚ map_to_list m → let bs := split_batches order in
  (∀ b, b ∈ bs → (1 ≤ size b ≤ 500)%nat) ∧ (∀ i b, bs !! i = Some b → (S i < length bs)%nat → size b = 500%nat) ∧
  (∀ i j b b' k, bs !! i = Some b → bs !! j = Some b' → is_Some (b !! k) → is_Some (b' !! k) → i = j) ∧
  ∀ k f, m !! k = Some f ↔ ∃ b, b ∈ bs ∧ b !! k = Some f.
Proof.
  intros Hord. assert (Hnd : NoDup order.*1) by (rewrite Hord; apply NoDup_fst_map_to_list). destruct (split_batches_lists order Hnd) as (ls & Hc & -> & Hlen & Hfull). cbv zeta.
  assert (HN : ∀ i l, ls !! i = Some l → NoDup l.*1).
  { intros i l Hl. rewrite <- Hc in Hnd. apply elem_of_list_split_length in Hl as (l1 & l2 & -> & _). rewrite concat_app in Hnd. cbn [concat] in Hnd. rewrite !fmap_app in Hnd. apply NoDup_app in Hnd as (_ & _ & Hnd). by apply NoDup_app in Hnd as (Hnd & _ & _). }
  assert (HS : ∀ i l, ls !! i = Some l → size (list_to_map l : updates) = length l).
  { intros i l Hl. change (size (list_to_map l : updates)) with (length (map_to_list (list_to_map l : updates))). by rewrite map_to_list_to_map by (by eapply HN). }
  assert (HK : ∀ i l k f, ls !! i = Some l → ((list_to_map l : updates) !! k = Some f ↔ (k, f) ∈ l)) by (intros i l k f Hl; symmetry; apply elem_of_list_to_map; by eapply HN).
  split_and!.
  - intros b Hb. apply elem_of_list_fmap in Hb as (l & -> & Hl). apply elem_of_list_lookup in Hl as [i Hi]. rewrite (HS _ _ Hi). rewrite Forall_forall in Hlen. apply Hlen. apply elem_of_list_lookup. by exists i.
  - intros i b Hb Hlast. rewrite fmap_length in Hlast. apply list_lookup_fmap_Some in Hb as (l & Hl & ->). rewrite (HS _ _ Hl). by eapply Hfull.
  - intros i j b b' k Hb Hb' [f Hf] [f' Hf']. apply list_lookup_fmap_Some in Hb as (l & Hl & ->), Hb' as (l' & Hl' & ->). apply (HK _ _ _ _ Hl) in Hf. apply (HK _ _ _ _ Hl') in Hf'.
    assert (HH : ∀ i j l l' f f', ls !! i = Some l → ls !! j = Some l' → (k, f) ∈ l → (k, f') ∈ l' → (i < j)%nat → False).
    { clear -Hnd Hc. intros i j l l' f f' Hl Hl' Hf Hf' Hij. apply elem_of_list_split_length in Hl as (l1 & l2 & -> & Hi). rewrite lookup_app_r in Hl' by lia. destruct (j - length l1)%nat as [|d] eqn:Ed; [lia|]. cbn [lookup list_lookup] in Hl'. rewrite <- Hc, concat_app in Hnd. cbn [concat] in Hnd. rewrite !fmap_app in Hnd. apply NoDup_app in Hnd as (_ & _ & Hnd). apply NoDup_app in Hnd as (_ & Hx & _). apply (Hx k); [apply elem_of_list_fmap; by exists (k, f)|]. apply elem_of_list_fmap. exists (k, f'). split; [done|]. apply elem_of_list_In, in_concat. exists l'. split; [apply elem_of_list_In, elem_of_list_lookup; by exists d|by apply elem_of_list_In]. }
    destruct (Nat.lt_trichotomy i j) as [?|[?|?]]; [by exfalso; eapply (HH i j)|done|by exfalso; eapply (HH j i)].
  - intros k f. rewrite <- elem_of_map_to_list, <- Hord, <- Hc. split.
    + intros H. apply elem_of_list_In, in_concat in H as (l & Hl & Hin). apply elem_of_list_In in Hl, Hin. exists (list_to_map l). split; [apply elem_of_list_fmap; by eexists|]. apply elem_of_list_lookup in Hl as [i Hi]. by apply (HK _ _ _ _ Hi).
    + intros (b & Hb & Hk). apply elem_of_list_fmap in Hb as (l & -> & Hl). assert (Hl' := Hl). apply elem_of_list_lookup in Hl' as [i Hi]. apply (HK _ _ _ _ Hi) in Hk. apply elem_of_list_In, in_concat. exists l. split; by apply elem_of_list_In.
Qed.
(** they are passed on in turn until the first error *)
Theorem split_update_order db table log order os log' e : length os = length (split_batches order) → split_update db table log order os = (log', e) → 
  ∃ n, (e = None → n = length (split_batches order)) ∧ (∀ x, e = Some x → ∃ b o l1, split_batches order !! n = Some b ∧ os !! n = Some o ∧ update_all db table log (take n (split_batches order)) (take n os) = (l1, None) ∧ batch_update db table l1 b o = (log', Some x)) ∧ (e = None → update_all db table log (take n (split_batches order)) (take n os) = (log', None)).
Proof.
  unfold split_update. generalize (split_batches order). intros bs. revert os log. induction bs as [|b bs IH]; intros [|o os] log Hl E; try done.
  - injection E as <- <-. by exists 0%nat.
  - cbn [update_all] in E. destruct (batch_update db table log b o) as [l1 [x|]] eqn:Eb.
    + injection E as <- <-. exists 0%nat. split_and!; [done| |done]. intros x' [= <-]. by exists b, o, log.
    + destruct (IH os l1 ltac:(simpl in Hl; lia) E) as (n & H1 & H2 & H3). exists (S n). cbn [take update_all length]. rewrite Eb. split_and!; [|exact H2|exact H3]. intros He. by rewrite H1.
Qed.
Example split_update_example : let m := list_to_map ((λ k, (Z.of_nat k, ∅)) <$> seq 0 1100) : updates in map_to_list m ≡ₚ map_to_list m ∧ (size <$> split_batches (map_to_list m)) = [500; 500; 100]%nat.
Proof. split; [done|]. by vm_compute. Qed.

(** ** C70 *)
(** the values given for one field, in iteration order *)
Definition given (f : gostr) (es : entries) : list (Z * val) := (λ e, (e.1, default VNull (e.2 !! f))) <$> es.
Lemma cases_spec f es : Forall (λ e, is_Some (e.2 !! f)) es → ∃ s a, cases f es = Some (s, a) ∧ ∀ r args, expand false (s ++ r) (a ++ args) = (given f es ≫= case_tokens) ++ expand false r args.
Proof.
  induction 1 as [|[id m] es [v Hv] Hes IH]; [by exists [], []|]. destruct IH as (s & a & E & HX). cbn [fst snd] in Hv. exists (str "when id = ? then ? " ++ s), (AVal (VInt id) :: AVal v :: a). cbn [cases]. rewrite Hv, E. split; [done|]. intros r args. unfold given. cbn [fmap list_fmap fst snd mbind list_bind]. rewrite Hv. cbn [default from_option].
  change (str "when id = ? then ? ") with (str "when id = " ++ [63] ++ str " then " ++ [63] ++ [32]). rewrite <- !app_assoc. rewrite expand_plain by (by apply (bool_decide_eq_true (plain (str "when id = ")))). cbn [app]. 
  change (match last (str "when id = ") with Some b => b =? 40 | None => false end) with false. change (expand false (63 :: str " then " ++ 63 :: 32 :: s ++ r) (AVal (VInt id) :: AVal v :: a ++ args)) with (TV (VInt id) :: expand false (str " then " ++ 63 :: 32 :: s ++ r) (AVal v :: a ++ args)).
  rewrite expand_plain by (by apply (bool_decide_eq_true (plain (str " then ")))). change (match last (str " then ") with Some b => b =? 40 | None => false end) with false. change (expand false (63 :: 32 :: s ++ r) (AVal v :: a ++ args)) with (TV v :: TB 32 :: expand false (s ++ r) (a ++ args)). rewrite HX. unfold case_tokens at 2. cbn [fst snd]. rewrite <- !app_assoc. cbn [app]. rewrite <- !app_assoc. done.
Qed.
Lemma cases_None f es : Exists (λ e, e.2 !! f = None) es → cases f es = None.
Proof. induction 1 as [[id m] es H|[id m] es H IH]; cbn [cases fst snd] in *; [by rewrite H|]. rewrite IH. by destruct (m !! f). Qed.
Definition sets_of (k : nat) (o : orders) (fs : list gostr) : list (gostr * list (Z * val)) := imap (λ i f, (f, given f (o_field o (k + i)%nat))) fs.
Lemma sets_of_cons k o f fs : sets_of k o (f :: fs) = (f, given f (o_field o k)) :: sets_of (S k) o fs.
Proof. unfold sets_of. cbn [imap]. rewrite Nat.add_0_r. f_equal. apply imap_ext. intros i x _. simpl. do 3 f_equal. lia. Qed.
Lemma case_sql_spec o fs : ∀ k, fs ≠ [] → Forall plain fs → (∀ f i, f ∈ fs → Forall (λ e, is_Some (e.2 !! f)) (o_field o i)) → ∃ s a, case_sql k o fs = Some (s ++ [44], a) ∧ ∀ r args, expand false (s ++ r) (a ++ args) = commas (set_tokens <$> sets_of k o fs) ++ expand false r args.
Proof.
  induction fs as [|f fs IH]; intros k Hne Hp Hall; [done|]. apply Forall_cons_1 in Hp as [Hpf Hp]. cbn [case_sql]. destruct (cases_spec f (o_field o k)) as (s & a & E & HX); [apply Hall; by left|]. rewrite E.
  assert (HF : ∀ r args, expand false (f ++ str "= case " ++ s ++ str "end" ++ r) (a ++ args) = set_tokens (f, given f (o_field o k)) ++ expand (match last (str "end") with Some b => b =? 40 | None => false end) r args).
  { intros r args. rewrite app_assoc. assert (Hp1 : plain (f ++ str "= case ")). { unfold plain. intros H. apply elem_of_app in H as [H|H]; [done|]. revert H. by apply (bool_decide_eq_true (63 ∉ str "= case ")). }
    rewrite expand_plain by done. rewrite last_app. change (last (str "= case ")) with (Some 32). cbv iota. change (32 =? 40) with false. rewrite HX. rewrite expand_plain by (by apply (bool_decide_eq_true (plain (str "end")))). unfold set_tokens. cbn [fst snd]. rewrite text_app. by rewrite <- !app_assoc. }
  change (match last (str "end") with Some b => b =? 40 | None => false end) with false in HF.
  destruct fs as [|f2 fs].
  - cbn [case_sql]. exists (f ++ str "= case " ++ s ++ str "end"), a. rewrite !app_nil_r. split; [by rewrite <- !app_assoc|]. intros r args. rewrite <- !app_assoc, HF. rewrite sets_of_cons. done.
  - destruct (IH (S k) ltac:(done) Hp) as (s' & a' & E' & HX'); [intros g i Hg; apply Hall; by right|]. rewrite E'. exists (f ++ str "= case " ++ s ++ str "end" ++ [44] ++ s'), (a ++ a'). split; [by rewrite <- !app_assoc|]. intros r args.
    rewrite <- !app_assoc. rewrite HF. rewrite sets_of_cons. rewrite (sets_of_cons (S k)) in *. cbn [fmap list_fmap] in *. rewrite commas_cons. rewrite <- app_assoc. f_equal. cbn [app]. change (expand false (44 :: s' ++ r) (a' ++ args)) with (TB 44 :: expand false (s' ++ r) (a' ++ args)). by rewrite HX'.
Qed.
Lemma case_sql_None o fs : ∀ k f, f ∈ fs → (∀ i, Exists (λ e, e.2 !! f = None) (o_field o i)) → case_sql k o fs = None.
Proof.
  induction fs as [|g fs IH]; intros k f Hf He; [by apply elem_of_nil in Hf|]. cbn [case_sql]. apply elem_of_cons in Hf as [<-|Hf]; [by rewrite cases_None|]. rewrite (IH (S k) f) by done. by destruct (cases g (o_field o k)) as [[? ?]|].
Qed.
Lemma expand_where ids args : ids ≠ [] → args = [ASlice (VInt <$> ids)] → expand false (str " where id in (?)") args = text (str " where id in (") ++ values_of (VInt <$> ids) ++ [TB 41].
Proof.
  intros Hne ->. change (str " where id in (?)") with (str " where id in (" ++ [63; 41]). rewrite expand_plain by (by apply (bool_decide_eq_true (plain (str " where id in (")))). f_equal. change (match last (str " where id in (") with Some b => b =? 40 | None => false end) with true. destruct ids as [|i ids]; [done|]. done.
Qed.
(** restricted to the fields of the first entry *)
Definition only (g : fields) (f : fields) : fields := filter (λ p, is_Some (g !! p.1)) f.
Lemma case_value_given (f : gostr) (es : entries) (m : updates) (k : Z) (r : fields) : es ≡ₚ map_to_list m → m !! k = Some r → case_value (Some (VInt k)) (given f es) = default VNull (r !! f).
Proof.
  intros Hp Hk. assert (Hin : (k, r) ∈ es) by (rewrite Hp; by apply elem_of_map_to_list). assert (Hall : ∀ e, e ∈ es → m !! e.1 = Some e.2) by (intros [k' r'] He; rewrite Hp in He; by apply elem_of_map_to_list). clear Hp.
  induction es as [|[k' r'] es IH]; [by apply elem_of_nil in Hin|]. cbn [given fmap list_fmap case_value fst snd]. destruct (decide (Some (VInt k) = Some (VInt k'))) as [E|E].
  - injection E as <-. specialize (Hall (k, r') ltac:(by left)). cbn [fst snd] in Hall. rewrite Hk in Hall. by injection Hall as <-.
  - apply elem_of_cons in Hin as [[= <- <-]|Hin]; [done|]. apply IH; [done|]. intros e He. apply Hall. by right.
Qed.
Lemma assign_other fs k o (r : trow) g : g ∉ fs → foldl assign r (sets_of k o fs) !! g = r !! g.
Proof.
  revert k r. induction fs as [|f fs IH]; intros k r Hg; [done|]. apply not_elem_of_cons in Hg as [Hg1 Hg]. rewrite sets_of_cons. cbn [foldl]. rewrite IH by done. unfold assign. cbn [fst]. by rewrite lookup_insert_ne.
Qed.
Lemma assign_fields fs o (m : updates) k0 r0 : (∀ i, o_field o i ≡ₚ map_to_list m) → m !! k0 = Some r0 → col_id ∉ fs → NoDup fs → ∀ k (r : trow) f, r !! col_id = Some (VInt k0) → f ∈ fs → foldl assign r (sets_of k o fs) !! f = Some (default VNull (r0 !! f)).
Proof.
  intros Ho Hm. induction fs as [|g fs IH]; intros Hid Hnd k r f Hr Hf; [by apply elem_of_nil in Hf|]. apply not_elem_of_cons in Hid as [Hg Hid]. apply NoDup_cons in Hnd as [Hgn Hnd]. rewrite sets_of_cons. cbn [foldl].
  assert (Hr' : assign r (g, given g (o_field o k)) !! col_id = Some (VInt k0)) by (unfold assign; cbn [fst]; by rewrite lookup_insert_ne).
  apply elem_of_cons in Hf as [->|Hf]; [|by apply IH]. rewrite assign_other by done. unfold assign. cbn [fst snd]. rewrite lookup_insert, Hr. f_equal. by apply (case_value_given _ _ m).
Qed.
(** the statement sent and its effect on every row *)
Theorem batch_update_effect db table log (m : updates) o log' e : orders_for m o → (o_first o).2 ≠ ∅ → plain table → (∀ f, is_Some ((o_first o).2 !! f) → plain f) → (o_first o).2 !! col_id = None →
  batch_update db table log m o = (log', e) → e ≠ Some EFields →
  (∀ k f, m !! k = Some f → ∀ g, is_Some ((o_first o).2 !! g) → is_Some (f !! g)) ∧
  ∃ u, log' = log ++ [update_tokens u] ∧ up_table u = table ∧ up_ids u ≡ₚ (map_to_list m).*1 ∧ (e = None ↔ an_err (db log (update_tokens u)) = None) ∧ ∀ r, update_row u r = wanted (only (o_first o).2 <$> m) r.
Proof.
  intros (Hf1 & Hf2 & Hf3 & Hf4) Hne Ht Hp Hid E He. set (first := (o_first o).2) in *.
  assert (Hks : ∀ f, f ∈ o_fields o ↔ is_Some (first !! f)) by (intros f; rewrite Hf2; apply keys_spec).
  assert (Hsz : Z.of_nat (size m) =? 0 = false). { apply Z.eqb_neq. assert (size m ≠ 0%nat); [|lia]. intros H. apply map_size_empty_inv in H. by rewrite H, lookup_empty in Hf1. }
  unfold batch_update in E. rewrite Hsz in E.
  assert (Hsub : ∀ k f, m !! k = Some f → ∀ g, is_Some (first !! g) → is_Some (f !! g)).
  { intros k f Hk g Hg. destruct (f !! g) as [v|] eqn:Efg; [by eexists|]. exfalso. rewrite (case_sql_None o (o_fields o) 0 g) in E; [by injection E as <- <-|by apply Hks|]. intros i. apply Exists_exists. exists (k, f). split; [rewrite Hf3; by apply elem_of_map_to_list|done]. }
  split; [done|]. destruct (case_sql_spec o (o_fields o) 0) as (s & a & Ec & HX).
  { intros Hn. rewrite Hn in Hf2. apply Permutation_nil, fmap_nil_inv in Hf2. by apply Hne, map_to_list_empty_iff. }
  { apply Forall_forall. intros f Hf. by apply Hp, Hks. }
  { intros f i Hf. apply Forall_forall. intros [k g] Hin. rewrite Hf3 in Hin. apply elem_of_map_to_list in Hin. apply (Hsub k g Hin). by apply Hks. }
  rewrite Ec in E. cbv zeta in E. rewrite trim_comma_snoc in E. set (u := Update table (sets_of 0 o (o_fields o)) (o_last o).*1).
  assert (Hst : gorm_exec ((str "update " ++ table ++ str " set ") ++ s ++ str " where id in (?)") (a ++ [ASlice (VInt ∘ fst <$> o_last o)]) = update_tokens u).
  { unfold gorm_exec. assert (Hpl : plain (str "update " ++ table ++ str " set ")). { unfold plain. intros H. apply elem_of_app in H as [H|H]; [revert H; by apply (bool_decide_eq_true (63 ∉ str "update "))|]. apply elem_of_app in H as [H|H]; [done|]. revert H. by apply (bool_decide_eq_true (63 ∉ str " set ")). }
    rewrite expand_plain by done. rewrite !last_app. change (last (str " set ")) with (Some 32). cbv iota. change (32 =? 40) with false. rewrite HX. rewrite (expand_where (o_last o).*1).
    - unfold update_tokens, u. cbn [up_table up_sets up_ids]. rewrite !text_app. by rewrite <- !app_assoc.
    - intros Hn. apply fmap_nil_inv in Hn. rewrite Hn in Hf4. apply Permutation_nil, map_to_list_empty_iff in Hf4. by rewrite Hf4, lookup_empty in Hf1.
    - do 2 f_equal. by rewrite list_fmap_compose. }
  rewrite Hst in E. exists u. injection E as <- E. split_and!; [done|done|unfold u; cbn [up_ids]; by rewrite Hf4| |].
  - rewrite <- E. by destruct (an_err _).
  - intros r. unfold update_row, wanted. destruct (r !! col_id) as [[|k|]|] eqn:Er; try done. rewrite lookup_fmap. 
    assert (Hids : k ∈ up_ids u ↔ is_Some (m !! k)). { unfold u. cbn [up_ids]. rewrite Hf4, elem_of_list_fmap. split; [intros ([? f] & -> & H); apply elem_of_map_to_list in H; by eexists|]. intros [f H]. exists (k, f). split; [done|by apply elem_of_map_to_list]. }
    destruct (m !! k) as [f|] eqn:Em.
    + rewrite decide_True by (apply Hids; by eexists). cbn [fmap option_fmap option_map]. apply map_eq. intros g. unfold u. cbn [up_sets]. 
      assert (Hidn : col_id ∉ o_fields o) by (rewrite Hks, Hid; by intros [? ?]). assert (Hndf : NoDup (o_fields o)) by (rewrite Hf2; apply NoDup_fst_map_to_list).
      destruct (decide (g ∈ o_fields o)) as [Hg|Hg].
      * rewrite (assign_fields _ _ m k f) by done. assert (Hg' := Hg). apply Hks in Hg'. destruct (Hsub k f Em g Hg') as [v Hv]. rewrite Hv. symmetry. apply lookup_union_Some_l. unfold only. by apply map_filter_lookup_Some.
      * rewrite assign_other by done. symmetry. apply lookup_union_r. unfold only. apply map_filter_lookup_None. right. intros v _ H. by apply Hg, Hks.
    + rewrite decide_False; [done|]. rewrite Hids. by intros [? ?].
Qed.
(** equal field sets, none of them the id: exactly the given values in exactly the given rows *)
Theorem batch_update_partial db table log (m : updates) o log' e : orders_for m o → (o_first o).2 ≠ ∅ → plain table → (∀ f, is_Some ((o_first o).2 !! f) → plain f) → (o_first o).2 !! col_id = None →
  (∀ k f, m !! k = Some f → dom f = dom (o_first o).2) → batch_update db table log m o = (log', e) → 
  ∃ u, log' = log ++ [update_tokens u] ∧ up_table u = table ∧ (e = None ↔ an_err (db log (update_tokens u)) = None) ∧ ∀ r, update_row u r = wanted m r.
Proof.
  intros Ho Hne Ht Hp Hid Hdom E. assert (He : e ≠ Some EFields).
  { intros ->. revert E. destruct Ho as (Hf1 & Hf2 & Hf3 & Hf4). unfold batch_update. destruct (Z.of_nat (size m) =? 0); [done|]. destruct (case_sql_spec o (o_fields o) 0) as (s & a & Ec & _).
    { intros Hn. rewrite Hn in Hf2. apply Permutation_nil, fmap_nil_inv in Hf2. by apply Hne, map_to_list_empty_iff. }
    { apply Forall_forall. intros f Hf. rewrite Hf2 in Hf. apply Hp. by apply keys_spec. }
    { intros f i Hf. apply Forall_forall. intros [k g] Hin. rewrite Hf3 in Hin. apply elem_of_map_to_list in Hin. cbn [snd]. rewrite <- elem_of_dom, (Hdom k g Hin), elem_of_dom. rewrite Hf2 in Hf. by apply keys_spec. }
    rewrite Ec. cbv zeta. destruct (an_err _); by intros [= _]. }
  destruct (batch_update_effect db table log m o log' e Ho Hne Ht Hp Hid E He) as (_ & u & H1 & H2 & _ & H3 & H4). exists u. split_and!; [done|done|done|]. intros r. rewrite H4. f_equal. apply map_eq. intros k. rewrite lookup_fmap. destruct (m !! k) as [f|] eqn:Ek; [|done]. cbn [fmap option_fmap option_map]. f_equal. unfold only. apply map_filter_id. intros g v Hg. cbn [fst]. rewrite <- elem_of_dom, <- (Hdom k f Ek), elem_of_dom. by eexists.
Qed.
(** an entry lacking a field of the first entry: rejected, nothing sent *)
Theorem batch_update_rejects db table log (m : updates) o k f g : orders_for m o → m !! k = Some f → is_Some ((o_first o).2 !! g) → f !! g = None → batch_update db table log m o = (log, Some EFields).
Proof.
  intros (Hf1 & Hf2 & Hf3 & Hf4) Hk Hg Hn. unfold batch_update. assert (Hsz : Z.of_nat (size m) =? 0 = false). { apply Z.eqb_neq. assert (size m ≠ 0%nat); [|lia]. intros H. apply map_size_empty_inv in H. by rewrite H, lookup_empty in Hf1. }
  rewrite Hsz, (case_sql_None o (o_fields o) 0 g); [done|rewrite Hf2; by apply keys_spec|]. intros i. apply Exists_exists. exists (k, f). split; [rewrite Hf3; by apply elem_of_map_to_list|done].
Qed.
(** the number of bound values *)
Theorem update_values u : Forall (λ s, length s.2 = length (up_ids u)) (up_sets u) → n_values (update_tokens u) = (2 * Z.of_nat (length (up_sets u)) + 1) * Z.of_nat (length (up_ids u)).
Proof.
  intros Hs. unfold update_tokens. rewrite !n_values_app, !n_values_text, n_values_of, fmap_length, n_values_commas. cbn [n_values].
  assert (HH : foldr (λ x a, n_values x + a) 0 (set_tokens <$> up_sets u) = 2 * Z.of_nat (length (up_sets u)) * Z.of_nat (length (up_ids u))); [|lia].
  revert Hs. generalize (up_sets u). intros sets Hs. induction Hs as [|s sets Hl Hs IH]; [done|]. cbn [fmap list_fmap foldr length]. cbn [fmap list_fmap] in IH. rewrite IH. unfold set_tokens. rewrite !n_values_app, !n_values_text. 
  assert (HC : ∀ cs, n_values (cs ≫= case_tokens) = 2 * Z.of_nat (length cs)). { clear. induction cs as [|c cs IH]; [done|]. cbn [mbind list_bind length]. rewrite n_values_app. cbn [mbind] in IH. rewrite IH. unfold case_tokens. rewrite n_values_app, n_values_text. cbn [n_values]. rewrite n_values_app, n_values_text. cbn [n_values]. lia. }
  rewrite HC, Hl. lia.
Qed.

(** witnesses *)
Definition one (m : updates) (fs : list gostr) (es : entries) : orders := Orders (default (0, ∅) (head es)) fs (λ _, es) es.
Definition e1 : fields := {[str "a" := VInt 10]}.
Definition e2 : fields := <[str "a" := VInt 20]> {[str "b" := VInt 21]}.
Definition m12 : updates := <[1 := e1]> {[2 := e2]}.
(** differing field sets: one iteration order drops a value silently, another reports an error *)
Theorem batch_update_fields_refuted : ∃ o1 o2 u, orders_for m12 o1 ∧ orders_for m12 o2 ∧ 
  batch_update ok_db (str "t") [] m12 o1 = ([update_tokens u], None) ∧ batch_update ok_db (str "t") [] m12 o2 = ([], Some EFields) ∧
  ∃ r : trow, update_row u r ≠ wanted m12 r.
Proof.
  exists (Orders (1, e1) [str "a"] (λ _, [(1, e1); (2, e2)]) [(2, e2); (1, e1)]), (Orders (2, e2) [str "b"; str "a"] (λ _, [(1, e1); (2, e2)]) [(1, e1); (2, e2)]), (Update (str "t") [(str "a", [(1, VInt 10); (2, VInt 20)])] [2; 1]).
  assert (HP : [(1, e1); (2, e2)] ≡ₚ map_to_list m12) by (unfold m12; rewrite map_to_list_insert by done; by rewrite map_to_list_singleton).
  split; [|split; [|split_and!; [by vm_compute..|]]].
  - split_and!; [done|unfold e1; cbn [o_first snd o_fields]; by rewrite map_to_list_singleton|intros i; exact HP|cbn [o_last]; rewrite <- HP; apply perm_swap].
  - split_and!; [done|unfold e2; cbn [o_first snd o_fields]; rewrite map_to_list_insert, map_to_list_singleton by done; apply perm_swap|intros i; exact HP|exact HP].
  - exists {[col_id := VInt 2]}. intros H. apply (f_equal (λ r : trow, r !! str "b")) in H. by vm_compute in H.
Qed.
(** the id among the fields: the other fields of the row may become NULL, depending on the order *)
Definition e5 : fields := <[str "id" := VInt 5]> {[str "a" := VInt 10]}.
Definition m5 : updates := {[1 := e5]}.
Theorem batch_update_id_refuted : ∃ o1 o2 u1 u2 (r : trow), orders_for m5 o1 ∧ orders_for m5 o2 ∧ batch_update ok_db (str "t") [] m5 o1 = ([update_tokens u1], None) ∧ batch_update ok_db (str "t") [] m5 o2 = ([update_tokens u2], None) ∧
  update_row u1 r !! str "a" = Some (VInt 10) ∧ update_row u2 r !! str "a" = Some VNull.
Proof.
  exists (Orders (1, e5) [str "a"; str "id"] (λ _, [(1, e5)]) [(1, e5)]), (Orders (1, e5) [str "id"; str "a"] (λ _, [(1, e5)]) [(1, e5)]), (Update (str "t") [(str "a", [(1, VInt 10)]); (str "id", [(1, VInt 5)])] [1]), (Update (str "t") [(str "id", [(1, VInt 5)]); (str "a", [(1, VInt 10)])] [1]), {[col_id := VInt 1]}.
  assert (HP : [(1, e5)] ≡ₚ map_to_list m5) by (unfold m5; by rewrite map_to_list_singleton). assert (HK : [str "id"; str "a"] ≡ₚ (map_to_list e5).*1) by (unfold e5; rewrite map_to_list_insert, map_to_list_singleton by done; done).
  split; [|split; [|split_and!; by vm_compute]].
  - split_and!; [done|cbn [o_first snd o_fields]; rewrite <- HK; apply perm_swap|intros i; exact HP|exact HP].
  - split_and!; [done|exact HK|intros i; exact HP|exact HP].
Qed.
(** no fields at all: a statement without assignments is sent *)
Theorem batch_update_empty_refuted : ∃ o, orders_for {[1 := ∅]} o ∧ batch_update ok_db (str "t") [] {[1 := ∅]} o = ([text (str "update t set  where id in (") ++ [TV (VInt 1); TB 41]], None).
Proof.
  exists (Orders (1, ∅) [] (λ _, [(1, ∅)]) [(1, ∅)]). split; [|by vm_compute]. split_and!; [done|cbn [o_first snd o_fields]; by rewrite map_to_list_empty|intros i; cbn [o_field]; by rewrite map_to_list_singleton|cbn [o_last]; by rewrite map_to_list_singleton].
Qed.
Definition n1 : fields := {[str "a" := VInt 10]}.
Definition n2 : fields := {[str "a" := VStr (str "x")]}.
Definition m2 : updates := <[1 := n1]> {[2 := n2]}.
Example batch_update_example : ∃ o u, orders_for m2 o ∧ (o_first o).2 ≠ ∅ ∧ (∀ k f, m2 !! k = Some f → dom f = dom (o_first o).2) ∧ batch_update ok_db (str "t") [] m2 o = ([update_tokens u], None) ∧
  update_row u (<[col_id := VInt 2]> {[str "c" := VInt 7]}) = <[str "a" := VStr (str "x")]> (<[col_id := VInt 2]> {[str "c" := VInt 7]}) ∧ update_row u {[col_id := VInt 3]} = {[col_id := VInt 3]}.
Proof.
  exists (Orders (2, n2) [str "a"] (λ i, if decide (i = 0%nat) then [(2, n2); (1, n1)] else [(1, n1); (2, n2)]) [(1, n1); (2, n2)]), (Update (str "t") [(str "a", [(2, VStr (str "x")); (1, VInt 10)])] [1; 2]).
  assert (HP : [(1, n1); (2, n2)] ≡ₚ map_to_list m2) by (unfold m2; rewrite map_to_list_insert by done; by rewrite map_to_list_singleton).
  split; [|split; [|split; [|split_and!; by vm_compute]]].
  - split_and!; [done|unfold n2; cbn [o_first snd o_fields]; by rewrite map_to_list_singleton| |exact HP]. intros i. cbn [o_field]. destruct (decide _); [rewrite <- HP; apply perm_swap|exact HP].
  - cbn [o_first snd]. unfold n2. apply map_non_empty_singleton.
  - intros k f H. unfold m2 in H. cbn [o_first snd]. apply lookup_insert_Some in H as [[_ <-]|[_ H]]; [|apply lookup_singleton_Some in H as [_ <-]]; unfold n1, n2; by rewrite !dom_singleton_L.
Qed.
(** a full batch with 66 fields binds more values than MySQL allows (65535) *)
Example update_many : ∀ u, length (up_sets u) = 66%nat → length (up_ids u) = Z.to_nat 500 → Forall (λ s, length s.2 = length (up_ids u)) (up_sets u) → n_values (update_tokens u) = 66500.
Proof. intros u H1 H2 H3. rewrite update_values, H1, H2 by done. lia. Qed.
Print Assumptions split_update_batches.
Print Assumptions split_update_order.
Print Assumptions batch_update_effect.
Print Assumptions batch_update_partial.
Print Assumptions batch_update_rejects.
Print Assumptions update_values.
Print Assumptions batch_update_fields_refuted.
Print Assumptions batch_update_id_refuted.
Print Assumptions batch_update_empty_refuted.
