(** * File helpers: theorems *)
From Verif Require Import GoBase GoStr ConvModel ConvSpec ConvProps FilesModel FilesSpec.
Local Open Scope Z_scope.

(** ** C61 *)
(** the exact effect of a successful call *)
Theorem copy_file_partial fs dst src can_open lim fs' n : copy_file fs dst src can_open lim = (fs', n, true) →
  ∃ data, fs !! src = Some data ∧ n = Z.of_nat (length data) ∧ fs' !! dst = Some (data ++ drop (length data) (default [] (fs !! dst))) ∧ (∀ f, f ≠ dst → fs' !! f = fs !! f) ∧
    ((length (default [] (fs !! dst)) ≤ length data)%nat → fs' !! dst = Some data).
Proof.
  unfold copy_file. destruct (fs !! src) as [data|] eqn:Es; [|done]. destruct can_open; [|done]. intros E. injection E as <- <- Hl. apply bool_decide_eq_true in Hl as ->. exists data. split_and!; [done|done| | |].
  - by rewrite lookup_insert.
  - intros f Hf. by rewrite lookup_insert_ne.
  - intros Hle. rewrite lookup_insert. unfold overwrite. by rewrite drop_ge, app_nil_r.
Qed.
(** a failed call changes at most the destination, and only by bytes of the source *)
Theorem copy_file_failed fs dst src can_open lim fs' n : copy_file fs dst src can_open lim = (fs', n, false) → ∀ f, f ≠ dst → fs' !! f = fs !! f.
Proof.
  unfold copy_file. destruct (fs !! src) as [data|]; [|by intros [= <- <-]]. destruct can_open; [|by intros [= <- <-]]. intros [= <- <- _] f Hf. by rewrite lookup_insert_ne.
Qed.
(** a longer destination keeps its tail *)
Theorem copy_file_tail_refuted : ∃ fs dst src fs' n, copy_file fs dst src true None = (fs', n, true) ∧ fs' !! dst ≠ fs' !! src ∧ fs' !! dst = Some (str "newtent").
Proof.
  exists (<[str "a" := str "new"]> (<[str "b" := str "content"]> ∅)), (str "b"), (str "a"). eexists _, _. split; [done|]. split; by vm_compute.
Qed.
Example copy_example : ∃ fs' n, copy_file (<[str "a" := str "hello"]> (<[str "b" := str "hi"]> ∅)) (str "b") (str "a") true None = (fs', n, true) ∧ fs' !! str "b" = Some (str "hello") ∧ n = 5.
Proof. eexists _, _. split; [done|]. split; by vm_compute. Qed.

(** ** C62 *)
Lemma node_ind' (P : node → Prop) : P File → (∀ b cs, Forall (λ p, P p.2) cs → P (Dir b cs)) → ∀ t, P t.
Proof.
  intros HF HD. fix IH 1. intros [|b cs]; [done|]. apply HD. induction cs as [|[n c] cs IHc]; constructor; [apply IH|apply IHc].
Qed.
Lemma trim_suffix_id s : last s ≠ Some 47 → trim_suffix s = s.
Proof. unfold trim_suffix. destruct (last s) as [z|]; [|done]. intros H. destruct z as [|p|p]; try done. do 6 (destruct p as [p|p|]; try done). Qed.
Lemma trim_file dir name : name ≠ [] → 47 ∉ name → trim_suffix (dir ++ [47] ++ name) = dir ++ [47] ++ name.
Proof.
  intros Hn H47. apply trim_suffix_id. destruct (exists_last Hn) as (l & x & ->). rewrite !app_assoc, last_snoc. intros [= ->]. apply H47. apply elem_of_app. right. by left.
Qed.
Lemma scan_nil dir : scan dir (Dir true []) = Some [].
Proof. done. Qed.
Lemma scan_cons dir name c r : scan dir (Dir true ((name, c) :: r)) =
  match c with
  | File => (λ l, (dir ++ [47] ++ name) :: l) <$> scan dir (Dir true r)
  | Dir _ _ => match scan (trim_suffix (dir ++ [47] ++ name)) c with None => None | Some l => (λ l', l ++ l') <$> scan dir (Dir true r) end
  end.
Proof. done. Qed.
Lemma sep_inj (n m r r' : gostr) : 47 ∉ n → 47 ∉ m → (r = [] ∨ head r = Some 47) → (r' = [] ∨ head r' = Some 47) → n ++ r = m ++ r' → n = m ∧ r = r'.
Proof.
  revert m. induction n as [|x n IH]; intros [|y m] Hn Hm Hr Hr' E; simpl in E.
  - done.
  - subst r. destruct Hr as [Hr|Hr]; [done|]. injection Hr as ->. exfalso. apply Hm. by left.
  - subst r'. destruct Hr' as [Hr'|Hr']; [done|]. injection Hr' as ->. exfalso. apply Hn. by left.
  - injection E as -> E. apply not_elem_of_cons in Hn as [_ Hn], Hm as [_ Hm]. destruct (IH m Hn Hm Hr Hr' E) as [-> ->]. done.
Qed.
Lemma path_of_inj dir p q : Forall (λ n, 47 ∉ n) p → Forall (λ n, 47 ∉ n) q → path_of dir p = path_of dir q → p = q.
Proof.
  unfold path_of. intros Hp Hq E. apply app_inv_head in E. revert q Hq E. induction Hp as [|n p Hn Hp IH]; intros [|m q] Hq E; [done|done|done|]. apply Forall_cons_1 in Hq as [Hm Hq]. cbn [mbind list_bind] in E. simpl in E. injection E as E.
  assert (HH : ∀ l : list gostr, list_bind gostr Z (λ name, 47 :: name) l = [] ∨ head (list_bind gostr Z (λ name, 47 :: name) l) = Some 47) by (intros [|? ?]; [by left|by right]).
  apply sep_inj in E as [-> E]; [|done..]. f_equal. by apply IH.
Qed.
Lemma path_of_cons dir n p : path_of dir (n :: p) = path_of (dir ++ [47] ++ n) p.
Proof. unfold path_of. cbn [mbind list_bind]. by rewrite <- !app_assoc. Qed.
Lemma leaf_names t p : leaf t p → proper t → p ≠ [] ∧ Forall (λ n, 47 ∉ n) p.
Proof.
  induction 1 as [b cs name Hin|b cs name b' cs' p Hin Hl IH]; intros Hp; inversion Hp as [|? ? _ Hall]; subst; rewrite Forall_forall in Hall; specialize (Hall _ Hin) as (_ & H47 & Hpr).
  - split; [done|]. by constructor.
  - destruct (IH Hpr) as [_ Hf]. split; [done|]. by constructor.
Qed.
(** the head of a leaf's path is a name of the directory *)
Lemma leaf_head b cs p : leaf (Dir b cs) p → ∃ n p', p = n :: p' ∧ n ∈ cs.*1.
Proof. inversion 1; subst; (eexists _, _; split; [done|]; apply elem_of_list_fmap; by eexists (_, _)). Qed.
Lemma leaf_cons b b0 n c r p : leaf (Dir b ((n, c) :: r)) p ↔ (match c with File => p = [n] | Dir _ _ => ∃ p', p = n :: p' ∧ leaf c p' end) ∨ leaf (Dir b0 r) p.
Proof.
  split.
  - inversion 1 as [? ? name Hin|? ? name b' cs' p' Hin Hl]; subst; apply elem_of_cons in Hin as [[= <- <-]|Hin].
    + by left.
    + right. by constructor.
    + left. by eexists.
    + right. by econstructor.
  - intros [H|H].
    + destruct c as [|b' cs']; [subst; constructor; by left|]. destruct H as (p' & -> & Hl). econstructor; [by left|done].
    + inversion H; subst; [constructor; by right|econstructor; [by right|done]].
Qed.
Theorem scan_files t dir : proper t → readable t → t ≠ File → ∃ l, scan dir t = Some l ∧ NoDup l ∧ ∀ x, x ∈ l ↔ ∃ p, leaf t p ∧ x = path_of dir p.
Proof.
  revert dir. induction t as [|b cs IH] using node_ind'; intros dir Hp Hr Hf; [done|]. clear Hf. inversion Hr as [|? Hrs]; subst. inversion Hp as [|? ? Hnd Hps]; subst. clear Hr.
  induction cs as [|[n c] r IHr].
  { exists []. split_and!; [done|constructor|]. intros x. split; [intros H; by apply elem_of_nil in H|]. intros (p & Hl & _). inversion Hl; subst; by match goal with H : _ ∈ [] |- _ => apply elem_of_nil in H end. }
  apply Forall_cons_1 in IH as [IHc IH]. apply Forall_cons_1 in Hrs as [Hrc Hrs]. apply Forall_cons_1 in Hps as [(Hne & H47 & Hpc) Hps]. cbn [fmap list_fmap] in Hnd. apply NoDup_cons in Hnd as [Hn Hnd]. cbn [fst snd] in *.
  assert (Hpr : proper (Dir true r)) by (by constructor). destruct (IHr IH Hpr Hrs Hnd Hps) as (l2 & E2 & Hd2 & HI2).
  assert (HX : ∀ p1 p2 : list gostr, leaf (Dir true ((n, c) :: r)) (n :: p1) → leaf (Dir true r) p2 → path_of dir (n :: p1) ≠ path_of dir p2).
  { intros p1 p2 H1 H2 E. apply path_of_inj in E; [|by apply (leaf_names _ _ H1)|by apply (leaf_names _ _ H2)]. apply leaf_head in H2 as (m & p' & -> & Hm). by injection E as -> _. }
  rewrite scan_cons. destruct c as [|b' cs'].
  - rewrite E2. eexists. split; [done|]. split.
    + constructor; [|done]. rewrite HI2. intros (p & Hl & E). apply (HX [] p); [apply (leaf_cons _ true); by left|done|]. rewrite <- E. unfold path_of. cbn [mbind list_bind]. by rewrite app_nil_r.
    + intros x. rewrite elem_of_cons, HI2. split.
      * intros [->|(p & Hl & ->)]; [exists [n]; split; [apply (leaf_cons _ true); by left|]; unfold path_of; cbn [mbind list_bind]; by rewrite app_nil_r|]. exists p. split; [|done]. apply (leaf_cons _ true). by right.
      * intros (p & Hl & ->). apply (leaf_cons _ true) in Hl as [->|Hl]; [left; unfold path_of; cbn [mbind list_bind]; by rewrite app_nil_r|]. right. by exists p.
  - rewrite trim_file by done. destruct (IHc (dir ++ [47] ++ n) Hpc Hrc ltac:(done)) as (l1 & E1 & Hd1 & HI1). rewrite E1, E2. eexists. split; [done|]. split.
    + apply NoDup_app. split_and!; [done| |done]. intros x H1 H2. apply HI1 in H1 as (p1 & Hl1 & ->). apply HI2 in H2 as (p2 & Hl2 & E). rewrite <- path_of_cons in E. apply (HX p1 p2); [|done|done]. apply (leaf_cons _ true). left. by eexists.
    + intros x. rewrite elem_of_app, HI1, HI2. split.
      * intros [(p & Hl & ->)|(p & Hl & ->)]; [exists (n :: p)|exists p]; (split; [apply (leaf_cons _ true)|]); [left; by eexists|symmetry; apply path_of_cons|by right|done].
      * intros (p & Hl & ->). apply (leaf_cons _ true) in Hl as [(p' & -> & Hl)|Hl]; [left; exists p'; split; [done|apply path_of_cons]|right; by exists p].
Qed.
(** it fails exactly if some directory on the way cannot be read *)
Theorem scan_fails t dir : t ≠ File → (is_Some (scan dir t) ↔ readable t).
Proof.
  revert dir. induction t as [|b cs IH] using node_ind'; intros dir Hf; [done|]. clear Hf. destruct b.
  2:{ split; [by intros [? ?]|]. intros H. inversion H. }
  induction cs as [|[n c] r IHr]. { split; [intros _; by constructor|]. intros _. by eexists. }
  apply Forall_cons_1 in IH as [IHc IH]. specialize (IHr IH). rewrite scan_cons. simpl in IHc. assert (HR : readable (Dir true ((n, c) :: r)) ↔ readable c ∧ readable (Dir true r)).
  { split; [intros H; inversion H as [|? Hf]; subst; apply Forall_cons_1 in Hf as [? ?]; split; [done|by constructor]|]. intros [H1 H2]. inversion H2; subst. constructor. by constructor. }
  rewrite HR, <- IHr. destruct c as [|b' cs'].
  - rewrite fmap_is_Some. split; [intros H; split; [constructor|done]|by intros [_ H]].
  - rewrite <- (IHc (trim_suffix (dir ++ [47] ++ n)) ltac:(done)). destruct (scan _ (Dir b' cs')); [rewrite fmap_is_Some; split; [intros H; split; [by eexists|done]|by intros [_ H]]|]. split; [by intros [? ?]|]. intros [[? ?] _]. done.
Qed.
(** directory order: the listing of a directory is that of its first part followed by the rest *)
Theorem scan_order dir cs1 cs2 l1 l2 : scan dir (Dir true cs1) = Some l1 → scan dir (Dir true cs2) = Some l2 → scan dir (Dir true (cs1 ++ cs2)) = Some (l1 ++ l2).
Proof.
  revert l1. induction cs1 as [|[n c] r IH]; intros l1 E1 E2; [injection E1 as <-; done|]. cbn [app]. rewrite scan_cons in *. destruct c as [|b' cs'].
  - destruct (scan dir (Dir true r)) as [l|] eqn:E; [|done]. injection E1 as <-. by rewrite (IH l).
  - destruct (scan _ (Dir b' cs')) as [lc|]; [|done]. destruct (scan dir (Dir true r)) as [l|] eqn:E; [|done]. injection E1 as <-. rewrite (IH l) by done. simpl. by rewrite app_assoc.
Qed.
Theorem scan_dir_partial root dir t : root (trim_suffix dir) = Some t → trim_suffix dir ≠ [] → proper t → t ≠ File →
  (readable t → ∃ l, scan_dir root dir = Some l ∧ NoDup l ∧ ∀ x, x ∈ l ↔ ∃ p, leaf t p ∧ x = path_of (trim_suffix dir) p) ∧ (¬ readable t → scan_dir root dir = None).
Proof.
  intros Ht Hd Hp Hf. unfold scan_dir. rewrite bool_decide_eq_false_2, Ht by done. split; [intros Hr; by apply scan_files|]. intros Hr. destruct (scan _ t) eqn:E; [|done]. exfalso. apply Hr, (scan_fails t (trim_suffix dir)); [done|by eexists].
Qed.
(** the root directory itself cannot be scanned *)
Theorem scan_root_refuted root : scan_dir root (str "/") = None.
Proof. done. Qed.
Definition sample : node := Dir true [(str "a", File); (str "d", Dir true [(str "x", File); (str "e", Dir true [])]); (str "z", File)].
Example scan_example : scan_dir (λ p, if decide (p = str "top") then Some sample else None) (str "top/") = Some [str "top/a"; str "top/d/x"; str "top/z"] ∧ proper sample ∧ readable sample ∧ leaf sample [str "d"; str "x"].
Proof.
  assert (HN : ∀ s : gostr, (negb (bool_decide (s = [])) && match go_index [47] s with None => true | _ => false end = true) → s ≠ [] ∧ 47 ∉ s).
  { intros s H. apply andb_true_iff in H as [H1 H2]. apply negb_true_iff, bool_decide_eq_false in H1. split; [done|]. apply go_index_char_None. by destruct (go_index [47] s). }
  assert (HP : ∀ s t, (negb (bool_decide (s = [])) && match go_index [47] s with None => true | _ => false end = true) → proper t → s ≠ [] ∧ 47 ∉ s ∧ proper t) by (intros s t H1 H2; destruct (HN s H1); done).
  assert (ND : ∀ l : list gostr, bool_decide (NoDup l) = true → NoDup l) by (intros l H; by apply bool_decide_eq_true in H).
  split_and!.
  - by vm_compute.
  - constructor; [apply ND; by vm_compute|]. constructor; [|constructor; [|constructor; [|constructor]]]; (apply HP; [by vm_compute|]); [constructor| |constructor].
    constructor; [apply ND; by vm_compute|]. constructor; [|constructor; [|constructor]]; (apply HP; [by vm_compute|]); [constructor|]. constructor; [constructor|constructor].
  - repeat (constructor || simpl).
  - eapply leaf_dir; [right; by left|]. constructor. by left.
Qed.

(** ** C60 *)
(** one upload call *)
Record upload := Upload { u_file : gostr; u_num : Z; u_content : list Z; u_end : put_end }.
Definition run_uploads (md5 : gostr) (us : list upload) (s : store) : store := foldl (λ s u, (put_chunk s (u_content u) (u_file u) (u_num u) md5 (u_end u)).1) s us.

Lemma int_to_string_inj a b : is_i64 a → is_i64 b → int_to_string a = int_to_string b → a = b.
Proof. intros Ha Hb E. destruct (conv_round_trip a Ha) as [_ H1], (conv_round_trip b Hb) as [_ H2]. rewrite <- H1, <- H2. by rewrite E. Qed.
Lemma int_no_underscore n : is_i64 n → 95 ∉ int_to_string n.
Proof.
  intros Hn Hin. destruct (int_to_string_decimal n Hn) as [Hd _]. destruct (not_decimal_digits _ _ Hd _ Hin) as [H|[H|H]]; [unfold digit in H; lia|lia|lia].
Qed.
Lemma chunk_name_inj f n g m : is_i64 n → is_i64 m → chunk_name f n = chunk_name g m → f = g ∧ n = m.
Proof.
  intros Hn Hm E. unfold chunk_name in E. pose proof (int_no_underscore n Hn) as H1. pose proof (int_no_underscore m Hm) as H2.
  assert (HR : ∀ a b x y : gostr, 95 ∉ x → 95 ∉ y → a ++ [95] ++ x = b ++ [95] ++ y → x = y ∧ a = b).
  { intros a b x y Hx Hy E'. assert (HL : ∀ a b x y : gostr, 95 ∉ x → a ++ [95] ++ x = b ++ [95] ++ y → (length x ≤ length y)%nat).
    { intros a' b' x' y' Hx' E2. destruct (decide (length x' ≤ length y')%nat); [done|]. exfalso. apply Hx'.
      assert (HD : drop (length a' + 1) (a' ++ [95] ++ x') = drop (length a' + 1) (b' ++ [95] ++ y')) by (by rewrite E2). assert (length a' + length x' = length b' + length y')%nat as HLn by (apply (f_equal length) in E2; rewrite !app_length in E2; simpl in E2; lia).
      rewrite <- drop_drop, drop_app in HD. simpl in HD. rewrite drop_0 in HD. rewrite drop_app_le in HD by lia. rewrite HD. apply elem_of_app. right. by left. }
    assert (length x = length y) as Hl. { pose proof (HL _ _ _ _ Hx E'). symmetry in E'. pose proof (HL _ _ _ _ Hy E'). lia. }
    apply app_inj_2 in E' as [-> [= ->]]; [done|simpl; lia]. }
  apply HR in E as [E ->]; [|done|done]. split; [done|]. by apply int_to_string_inj.
Qed.
Lemma run_dir md5 us s d0 : st_chunks s !! md5 = d0 → st_done (run_uploads md5 us s) = st_done s ∧
  (us ≠ [] → st_chunks (run_uploads md5 us s) !! md5 = Some (foldl (λ d u, match u_end u with PutDone => <[chunk_name (u_file u) (u_num u) := u_content u]> d | PutNothing => d | PutPart k => <[chunk_name (u_file u) (u_num u) := take k (u_content u)]> d end) (default ∅ d0) us)).
Proof.
  revert s d0. induction us as [|u us IH] using rev_ind; intros s d0 Hd; [done|]. unfold run_uploads. rewrite !foldl_app. cbn [foldl]. destruct (IH s d0 Hd) as [H1 H2]. fold (run_uploads md5 us s). assert (HN : us = [] → run_uploads md5 us s = s) by (by intros ->). revert H1 H2 HN. generalize (run_uploads md5 us s). intros s1 H1 H2 HN. unfold put_chunk.
  destruct (decide (us = [])) as [->|Hne].
  - cbn [foldl]. rewrite HN, Hd by done. destruct (u_end u); (split; [done|]; intros _; cbn; by rewrite lookup_insert).
  - specialize (H2 Hne). rewrite H2. destruct (u_end u); (split; [done|]; intros _; cbn; by rewrite lookup_insert).
Qed.
Definition add_chunk (d : files) (u : upload) : files :=
  match u_end u with PutDone => <[chunk_name (u_file u) (u_num u) := u_content u]> d | PutNothing => d | PutPart k => <[chunk_name (u_file u) (u_num u) := take k (u_content u)]> d end.
Lemma add_chunks_other key us d : (∀ u, u ∈ us → chunk_name (u_file u) (u_num u) ≠ key) → foldl add_chunk d us !! key = d !! key.
Proof.
  revert d. induction us as [|u us IH]; intros d H; [done|]. cbn [foldl]. rewrite IH by (intros; apply H; by right). unfold add_chunk. pose proof (H u ltac:(by left)). destruct (u_end u); [by rewrite lookup_insert_ne|done|by rewrite lookup_insert_ne].
Qed.
(** all chunks of the file arrived, in any order, with any number of failed or repeated attempts,
    mixed with the chunks of other files *)
Theorem upload_complete_partial s md5 file (c : nat → list Z) n us : 
  st_chunks s !! md5 = None → st_done s !! file = None → us ≠ [] → is_i64 (Z.of_nat (length us)) →
  Forall (λ u, is_i64 (u_num u) ∧ (u_file u = file → 0 ≤ u_num u < Z.of_nat n)) us → 
  (∀ k, (k < n)%nat → ∃ us1 us2, us = us1 ++ Upload file (Z.of_nat k) (c k) PutDone :: us2 ∧ Forall (λ u, ¬ (u_file u = file ∧ u_num u = Z.of_nat k)) us2) → 
  ∃ s', make_file (run_uploads md5 us s) file md5 MakeDone = (s', true) ∧ st_done s' !! file = Some (seq 0 n ≫= c).
Proof.
  intros Hs Hd Hne Hlen Hall Hlast. destruct (run_dir md5 us s None Hs) as [HD HC]. specialize (HC Hne). simpl in HC. change (st_chunks (run_uploads md5 us s) !! md5 = Some (foldl add_chunk ∅ us)) in HC. set (d := foldl add_chunk ∅ us) in *.
  unfold make_file. rewrite HC. eexists. split; [done|]. cbn [st_done]. rewrite lookup_insert, HD, Hd. cbn [default app]. f_equal.
  assert (Hk : ∀ k, (k < n)%nat → d !! chunk_name file (Z.of_nat k) = Some (c k)).
  { intros k Hk. destruct (Hlast k Hk) as (us1 & us2 & E & Hus2). unfold d. rewrite E, foldl_app. cbn [foldl]. 
    assert (Hki : is_i64 (Z.of_nat k)). { rewrite Forall_forall in Hall. apply (Hall (Upload file (Z.of_nat k) (c k) PutDone)). rewrite E. apply elem_of_app. right. by left. }
    rewrite add_chunks_other; [unfold add_chunk; simpl; by rewrite lookup_insert|]. intros u Hu En. assert (is_i64 (u_num u)) as Hui. { rewrite Forall_forall in Hall. apply Hall. rewrite E. apply elem_of_app. right. by right. }
    apply chunk_name_inj in En as [E1 E2]; [|done|done]. rewrite Forall_forall in Hus2. by apply (Hus2 u Hu). }
  assert (Hz : ∀ k, (n ≤ k)%nat → is_i64 (Z.of_nat k) → d !! chunk_name file (Z.of_nat k) = None).
  { intros k Hk' Hki. unfold d. rewrite add_chunks_other; [apply lookup_empty|]. intros u Hu En. rewrite Forall_forall in Hall. destruct (Hall u Hu) as [Hui Hur]. apply chunk_name_inj in En as [E1 E2]; [|done|done]. specialize (Hur E1). lia. }
  assert (Hsize : (n ≤ size d)%nat).
  { rewrite <- size_dom. assert (HNN : ∀ m, (m ≤ n)%nat → NoDup ((λ k, chunk_name file (Z.of_nat k)) <$> seq 0 m)).
    { intros m Hm. apply NoDup_fmap_2_strong; [|apply NoDup_seq]. intros x y Hx Hy E. apply elem_of_seq in Hx, Hy.
      assert (HI : ∀ k, (k < n)%nat → is_i64 (Z.of_nat k)). { intros k Hk'. destruct (Hlast k Hk') as (us1 & us2 & E' & _). rewrite Forall_forall in Hall. apply (Hall (Upload file (Z.of_nat k) (c k) PutDone)). rewrite E'. apply elem_of_app. right. by left. }
      apply chunk_name_inj in E as [_ E]; [lia|apply HI; lia|apply HI; lia]. }
    specialize (HNN n ltac:(done)). rewrite <- (seq_length n 0) at 1. rewrite <- (fmap_length (λ k, chunk_name file (Z.of_nat k))). rewrite <- (size_list_to_set (C := gset gostr)) by done.
    apply subseteq_size. intros x Hx. apply elem_of_list_to_set, elem_of_list_fmap in Hx as (k & -> & Hin). apply elem_of_seq in Hin. apply elem_of_dom. rewrite Hk by lia. by eexists. }
  (* chunks past the last one read as nothing *)
  assert (Hrest : ∀ k, (n ≤ k < size d)%nat → read_chunk d file k = []).
  { intros k Hk'. unfold read_chunk. destruct (d !! chunk_name file (Z.of_nat k)) eqn:E; [|done]. exfalso.
    destruct (decide (is_i64 (Z.of_nat k))) as [Hi|Hi]; [by rewrite Hz in E by (done || lia)|].
    assert (HL : (size d ≤ length us)%nat).
    { clear. unfold d. assert (H : ∀ d0, (size (foldl add_chunk d0 us) ≤ size d0 + length us)%nat).
      { induction us as [|u us IH]; intros d0; [simpl; lia|]. cbn [foldl length]. etransitivity; [apply IH|]. assert ((size (add_chunk d0 u) ≤ S (size d0))%nat); [|lia].
        assert (HI : ∀ k v, (size (<[k := v]> d0 : files) ≤ S (size d0))%nat). { intros k v. rewrite map_size_insert. destruct (d0 !! k); unfold id; lia. }
        unfold add_chunk. destruct (u_end u); [apply HI|lia|apply HI]. }
      etransitivity; [apply H|]. rewrite map_size_empty. lia. }
    unfold is_i64 in Hi, Hlen. lia. }
  rewrite <- (Nat.sub_add n (size d)) by done. rewrite Nat.add_comm, seq_app, bind_app. simpl.
  assert (HA : ∀ m, (m ≤ n)%nat → seq 0 m ≫= read_chunk d file = seq 0 m ≫= c).
  { induction m as [|m IH]; intros Hm; [done|]. rewrite seq_S, !bind_app, IH by lia. f_equal. cbn [mbind list_bind]. unfold read_chunk. by rewrite Hk by lia. }
  assert (HB : ∀ j, (n + j ≤ size d)%nat → seq n j ≫= read_chunk d file = []).
  { induction j as [|j IH]; intros Hj; [done|]. rewrite seq_S, bind_app, IH by lia. cbn [mbind list_bind app]. rewrite Hrest by lia. done. }
  rewrite HA, HB by lia. apply app_nil_r.
Qed.

(** the exact content MakeFile produces, whatever the chunks *)
Theorem make_file_content s file md5 s' : make_file s file md5 MakeDone = (s', true) → ∃ d, st_chunks s !! md5 = Some d ∧ st_chunks s' = st_chunks s ∧
  st_done s' !! file = Some (default [] (st_done s !! file) ++ (seq 0 (size d) ≫= λ k, default [] (d !! chunk_name file (Z.of_nat k)))).
Proof. unfold make_file. destruct (st_chunks s !! md5) as [d|]; [|done]. intros [= <-]. exists d. split_and!; [done|done|]. simpl. by rewrite lookup_insert. Qed.
(** RemoveChunk removes the chunks of its own upload and nothing else; a later upload under the
    same hash starts from nothing *)
Theorem remove_chunk_exact s md5 : st_done (remove_chunk s md5) = st_done s ∧ st_chunks (remove_chunk s md5) !! md5 = None ∧
  (∀ m, m ≠ md5 → st_chunks (remove_chunk s md5) !! m = st_chunks s !! m) ∧ ∀ file e, make_file (remove_chunk s md5) file md5 e = (remove_chunk s md5, false).
Proof.
  assert (H : st_chunks (remove_chunk s md5) !! md5 = None) by (simpl; apply lookup_delete). split_and!; [done|done| |].
  - intros m Hm. simpl. by rewrite lookup_delete_ne.
  - intros file e. unfold make_file. by rewrite H.
Qed.
Definition start : store := Store ∅ ∅.
Definition f : gostr := str "f".
Definition md : gostr := str "0123".
Definition up k s := Upload f k (str s) PutDone.
Definition made (s : store) (e : make_end) : store := (make_file s f md e).1.
(** a missing chunk is not noticed, and the chunk after it is lost *)
Theorem upload_missing_refuted : ∃ us s', us = [up 0 "aa"; up 2 "cc"] ∧ make_file (run_uploads md us start) f md MakeDone = (s', true) ∧ st_done s' !! f = Some (str "aa").
Proof. eexists _, _. split; [done|]. split; [done|]. by vm_compute. Qed.
(** making the file twice doubles it; a crash inside the first call leaves a prefix behind *)
Theorem make_again_refuted : ∃ us, us = [up 1 "bb"; up 0 "aa"] ∧ (let s := run_uploads md us start in
  st_done (made (made s MakeDone) MakeDone) !! f = Some (str "aabbaabb") ∧ st_done (made (made s (MakeCrash 1)) MakeDone) !! f = Some (str "aaaabb")).
Proof. eexists. split; [done|]. by vm_compute. Qed.
(** repeating MakeFile after a complete upload appends the whole file once more, always *)
Theorem make_again s file md5 s1 s2 x : make_file s file md5 MakeDone = (s1, true) → st_done s !! file = None → st_done s1 !! file = Some x → make_file s1 file md5 MakeDone = (s2, true) → st_done s2 !! file = Some (x ++ x).
Proof.
  intros E1 H0 Hx E2. destruct (make_file_content _ _ _ _ E1) as (d & Hd & Hc & H1). destruct (make_file_content _ _ _ _ E2) as (d2 & Hd2 & _ & H2). rewrite Hc, Hd in Hd2. injection Hd2 as <-. rewrite H0 in H1. cbn [default app] in H1. rewrite Hx in H1. injection H1 as ->. rewrite H2, Hx. done.
Qed.
Example upload_example : let us := [up 2 "cc"; Upload f 0 (str "xyz") (PutPart 1); up 1 "bb"; Upload (str "g") 0 (str "other") PutDone; up 0 "aa"; Upload f 1 (str "q") PutNothing; up 1 "bb"] in
  st_done (made (run_uploads md us start) MakeDone) !! f = Some (str "aabbcc").
Proof. by vm_compute. Qed.
Print Assumptions copy_file_partial.
Print Assumptions copy_file_failed.
Print Assumptions copy_file_tail_refuted.
Print Assumptions scan_files.
Print Assumptions scan_fails.
Print Assumptions scan_order.
Print Assumptions scan_dir_partial.
Print Assumptions scan_root_refuted.
Print Assumptions upload_complete_partial.
Print Assumptions make_file_content.
Print Assumptions make_again.
Print Assumptions remove_chunk_exact.
Print Assumptions upload_missing_refuted.
Print Assumptions make_again_refuted.
