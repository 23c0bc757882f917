(** * Chunked uploads on the file tree *)
From Verif Require Import GoStr PathModel PathProps FsModel FsSpec FsProofs FsProps ConvModel ConvSpec ConvProps UpfsModel UpfsSpec UpfsProofs.
From Verif Require FilesProps.
From stdpp Require Import list_numbers.
Local Open Scope Z_scope.

Lemma entry_plain file n : 47 ∉ file → is_i64 n → plain_name (chunk_entry file n).
Proof.
  intros Hf Hn. assert (H95 : 95 ∈ chunk_entry file n) by (unfold chunk_entry; rewrite elem_of_app; right; left).
  split; [split_and!; intros E; rewrite E in H95; revert H95; apply (bool_decide_unpack _); by vm_compute|]. unfold chunk_entry. rewrite !elem_of_app. intros [H|[H|H]]; [done|by apply elem_of_list_singleton in H|].
  destruct (int_to_string_decimal n Hn) as [Hd _]. destruct (not_decimal_digits _ _ Hd _ H) as [H1|[H1|H1]]; [unfold digit in H1; lia|lia|lia].
Qed.
Lemma comps_one c : 47 ∉ c → comps c = [c].
Proof. intros H. pose proof (comps_tail c 0 H) as E. by rewrite app_nil_r in E. Qed.
Lemma bp_plain : plain_name bp_name.
Proof. split; [by split_and!|]. apply (bool_decide_unpack _). by vm_compute. Qed.
Lemma done_plain : plain_name done_name.
Proof. split; [by split_and!|]. apply (bool_decide_unpack _). by vm_compute. Qed.
Lemma bp_split md5 : bp_dir ++ md5 = (dot ++ 47 :: bp_name) ++ 47 :: md5.
Proof. done. Qed.
Lemma comps_bp md5 r : comps (bp_dir ++ md5 ++ r) = dot :: bp_name :: comps (md5 ++ r).
Proof. rewrite bp_split, comps_app. done. Qed.
Lemma comps_chunk md5 x : 47 ∉ md5 → 47 ∉ x → comps ((bp_dir ++ md5 ++ str "/") ++ x) = [dot; bp_name; md5; x].
Proof. intros H1 H2. rewrite <- !app_assoc, comps_bp. change (md5 ++ str "/" ++ x) with (md5 ++ 47 :: x). by rewrite comps_app, !comps_one. Qed.
Lemma comps_done x : 47 ∉ x → comps (done_dir ++ x) = [dot; done_name; x].
Proof. intros H. change (done_dir ++ x) with ((dot ++ 47 :: done_name) ++ 47 :: x). by rewrite comps_app, (comps_one x). Qed.
Lemma not_abs_bp x : is_abs (bp_dir ++ x) = false.
Proof. done. Qed.

(** opening and looking up places in directories that are there *)
Section steps.
Context (deny : place → bool) (s : tree) (cur : place) (Hcur : s cur = Some NDir) (Hd : deny cur = false).
Lemma open_dot l r : open_walk l deny s cur (dot :: r) = open_walk l deny s cur r.
Proof. by rewrite open_walk_eq, Hcur, Hd, bool_decide_eq_false_2, bool_decide_eq_true_2. Qed.
Lemma open_sub l c r : plain_name c → s (cur ++ [c]) = Some NDir → open_walk l deny s cur (c :: r) = open_walk l deny s (cur ++ [c]) r.
Proof. intros [(? & ? & ?) _] E. by rewrite open_walk_eq, Hcur, Hd, !(bool_decide_eq_false_2 (c = _)), E by done. Qed.
Lemma open_last l c : plain_name c → may_file s (cur ++ [c]) → open_walk l deny s cur [c] = Ok (cur ++ [c]).
Proof. intros [(? & ? & ?) _] E. rewrite open_walk_eq, Hcur, Hd, !(bool_decide_eq_false_2 (c = _)) by done. destruct E as [->|[x ->]]; by rewrite bool_decide_eq_true_2. Qed.
Lemma walk_dot l f r : walk l deny s f cur (dot :: r) = walk l deny s f cur r.
Proof. by rewrite walk_eq, Hcur, Hd, bool_decide_eq_false_2, bool_decide_eq_true_2. Qed.
Lemma walk_sub l f c r : plain_name c → s (cur ++ [c]) = Some NDir → walk l deny s f cur (c :: r) = walk l deny s f (cur ++ [c]) r.
Proof. intros [(? & ? & ?) _] E. by rewrite walk_eq, Hcur, Hd, !(bool_decide_eq_false_2 (c = _)), E by done. Qed.
Lemma walk_last l f c : plain_name c → may_file s (cur ++ [c]) → walk l deny s f cur [c] = match s (cur ++ [c]) with None => Err ENOENT | Some _ => Ok (cur ++ [c]) end.
Proof. intros [(? & ? & ?) _] E. rewrite walk_eq, Hcur, Hd, !(bool_decide_eq_false_2 (c = _)) by done. destruct E as [->|[x ->]]; [done|]. by rewrite bool_decide_eq_true_2. Qed.
End steps.
Lemma app_two {A} (l : list A) a b : l ++ [a; b] = (l ++ [a]) ++ [b].
Proof. by rewrite <- app_assoc. Qed.
Lemma app_three {A} (l : list A) a b c : l ++ [a; b; c] = ((l ++ [a]) ++ [b]) ++ [c].
Proof. by rewrite <- !app_assoc. Qed.
Lemma open_two P s p c c' : open_proc P s → p ≠ [] → is_abs p = false → comps p = [dot; c; c'] → plain_name c → plain_name c' → s (cwd P ++ [c]) = Some NDir → may_file s (cwd P ++ [c; c']) → open_place P s p = Ok (cwd P ++ [c; c']).
Proof.
  intros [Hcwd Hd] Hp Ha Ec ? ? G1 G2. rewrite app_two in *. unfold open_place. rewrite bool_decide_eq_false_2, Ha, Ec by done. rewrite open_dot, open_sub by done. by apply open_last.
Qed.
Lemma open_three P s p c c' c'' : open_proc P s → p ≠ [] → is_abs p = false → comps p = [dot; c; c'; c''] → plain_name c → plain_name c' → plain_name c'' → s (cwd P ++ [c]) = Some NDir → s (cwd P ++ [c; c']) = Some NDir → may_file s (cwd P ++ [c; c'; c'']) → open_place P s p = Ok (cwd P ++ [c; c'; c'']).
Proof.
  intros [Hcwd Hd] Hp Ha Ec ? ? ? G1 G2 G3. rewrite app_two in G2. rewrite app_three in *. unfold open_place. rewrite bool_decide_eq_false_2, Ha, Ec by done. rewrite open_dot, !open_sub by done. by apply open_last.
Qed.
Lemma namei_two P s p c c' : open_proc P s → p ≠ [] → is_abs p = false → comps p = [dot; c; c'] → plain_name c → plain_name c' → s (cwd P ++ [c]) = Some NDir → s (cwd P ++ [c; c']) = Some NDir → namei P s true p = Ok (cwd P ++ [c; c']).
Proof.
  intros [Hcwd Hd] Hp Ha Ec ? ? G1 G2. rewrite app_two in *. unfold namei. rewrite bool_decide_eq_false_2, Ha, Ec by done. rewrite walk_dot, !walk_sub by done. by rewrite walk_eq.
Qed.
Lemma read_three P s p c c' c'' : open_proc P s → p ≠ [] → is_abs p = false → comps p = [dot; c; c'; c''] → plain_name c → plain_name c' → plain_name c'' → s (cwd P ++ [c]) = Some NDir → s (cwd P ++ [c; c']) = Some NDir → may_file s (cwd P ++ [c; c'; c'']) → read_file P s p = old_data s (cwd P ++ [c; c'; c'']).
Proof.
  intros [Hcwd Hd] Hp Ha Ec ? ? ? G1 G2 G3. rewrite app_two in G2. rewrite app_three in *. unfold read_file, namei. rewrite bool_decide_eq_false_2, Ha, Ec by done. rewrite walk_dot, !walk_sub by done. rewrite walk_last by done. unfold old_data, content. destruct G3 as [->|[x G3]]; [done|]. by rewrite G3, G3.
Qed.

(** ** C93: where a chunk goes *)
Definition dir_a (P : proc) : place := cwd P ++ [bp_name].
Definition dir_b (P : proc) (md5 : gostr) : place := cwd P ++ [bp_name; md5].
Lemma places_ne P md5 x : dir_a P ≠ dir_b P md5 ∧ dir_a P ≠ cwd P ++ [bp_name; md5; x] ∧ dir_b P md5 ≠ cwd P ++ [bp_name; md5; x] ∧ cwd P ≠ dir_a P ∧ cwd P ≠ dir_b P md5 ∧ cwd P ≠ cwd P ++ [bp_name; md5; x].
Proof. unfold dir_a, dir_b. split_and!; intros E; apply (f_equal length) in E; rewrite ?app_length in E; simpl in E; lia. Qed.
Theorem bp_continue_exact P s data file n total md5 lim : good_tree s → open_proc P s → plain_name md5 → 47 ∉ file → is_i64 n →
  may_dir s (cwd P ++ [bp_name]) → may_dir s (cwd P ++ [bp_name; md5]) → may_file s (chunk_place (cwd P) md5 file n) →
  ∃ s', bp_continue P s data file n total md5 lim = Ret (s', str "./breakpointDir/" ++ md5 ++ str "/" ++ chunk_entry file n, match lim with None => None | Some _ => Some UWrite end) ∧ good_tree s' ∧
    s' (cwd P ++ [bp_name]) = Some NDir ∧ s' (cwd P ++ [bp_name; md5]) = Some NDir ∧
    s' (chunk_place (cwd P) md5 file n) = Some (NFile (match lim with None => data | Some k => take k data end)) ∧
    ∀ q, q ≠ cwd P ++ [bp_name] → q ≠ cwd P ++ [bp_name; md5] → q ≠ chunk_place (cwd P) md5 file n → s' q = s q.
Proof.
  intros Hg Hop Hmd Hf Hn HA HB HC. destruct (entry_plain file n Hf Hn) as [Hc1 Hc2]. assert (Hc : plain_name (chunk_entry file n)) by done. destruct (places_ne P md5 (chunk_entry file n)) as (N1 & N2 & N3 & N4 & N5 & N6). unfold chunk_place in *. fold (dir_a P) in *. fold (dir_b P md5) in *. set (C := cwd P ++ [bp_name; md5; chunk_entry file n]) in *.
  set (s1 := with_dir s (dir_a P)). set (s2 := with_dir s1 (dir_b P md5)).
  assert (HB1 : may_dir s1 (dir_b P md5)) by (unfold may_dir, s1; rewrite with_dir_other; done).
  assert (A2 : s2 (dir_a P) = Some NDir) by (unfold s2; rewrite with_dir_other by done; by apply with_dir_same).
  assert (B2 : s2 (dir_b P md5) = Some NDir) by (by apply with_dir_same).
  assert (C2 : s2 C = s C) by (unfold s2, s1; by rewrite !with_dir_other).
  assert (Hg1 : good_tree s1) by (by apply with_dir_good, Hop).
  assert (Hg2 : good_tree s2). { unfold s2, dir_b. change [bp_name; md5] with ([bp_name] ++ [md5]). rewrite app_assoc. apply with_dir_good; [done|]. by apply with_dir_same. }
  assert (Hop2 : open_proc P s2). { split; [|apply Hop]. unfold s2, s1. rewrite !with_dir_other by done. apply Hop. }
  unfold bp_continue, mk_dir. change (bp_dir ++ md5 ++ str "/") with ((dot ++ 47 :: bp_name) ++ 47 :: md5 ++ replicate 1 47).
  assert (Em : ∀ p, p = (dot ++ 47 :: bp_name) ++ 47 :: md5 ++ replicate 1 47 → mkdir_all (S (length p)) P s p = Ret (with_dir (with_dir s (cwd P ++ [bp_name])) (cwd P ++ [bp_name; md5]), None)).
  { intros p ->. change (length ((dot ++ 47 :: bp_name) ++ 47 :: md5 ++ replicate 1 47)) with (S (S (length (bp_name ++ 47 :: md5 ++ replicate 1 47)))). apply mkdir_two; [done|apply bp_plain|done|done|done]. }
  rewrite Em by done. fold (dir_a P). fold (dir_b P md5). fold s1 s2. cbn [mbind go_bind].
  unfold put_content. change ((dot ++ 47 :: bp_name) ++ 47 :: md5 ++ replicate 1 47) with (bp_dir ++ md5 ++ str "/"). fold (chunk_entry file n).
  rewrite (open_three P s2 _ bp_name md5 (chunk_entry file n)); try done; [| apply comps_chunk; [apply Hmd|done]|apply bp_plain|unfold may_file; fold C; by rewrite C2]. fold C.
  assert (Hgood : ∀ x, good_tree (set s2 C (Some (NFile x)))).
  { intros x. unfold C. change [bp_name; md5; chunk_entry file n] with ([bp_name; md5] ++ [chunk_entry file n]). rewrite app_assoc. apply set_file_good; [done|done|]. rewrite <- app_assoc. simpl. fold C. rewrite C2. by destruct HC as [->|[? ->]]. }
  assert (Epath : (bp_dir ++ md5 ++ str "/") ++ chunk_entry file n = str "./breakpointDir/" ++ md5 ++ str "/" ++ chunk_entry file n) by (by rewrite <- !app_assoc).
  destruct lim as [k|]; rewrite Epath; (eexists; split; [done|]); split_and!; try done; try (by rewrite set_other by done); try apply set_same; intros q Q1 Q2 Q3; rewrite set_other by done; unfold s2, s1; by rewrite !with_dir_other.
Qed.
(** whatever the names and the tree: at most one file is written, no directory and no link is replaced, and
    after a success the path that is returned leads to the data *)
Theorem bp_continue_any P s data file n total md5 lim : good_tree s → ∃ s' p e, bp_continue P s data file n total md5 lim = Ret (s', p, e) ∧ good_tree s' ∧
  one_write s s' (match lim with None => data | Some k => take k data end) ∧ (e = None → at_path P s' true p (NFile data)).
Proof.
  intros Hg. unfold bp_continue. destruct (mk_dir_safe P s (bp_dir ++ md5 ++ str "/") Hg) as (s1 & e & -> & Ha & Hg1 & _). cbn [mbind go_bind]. destruct e as [e|]; [eexists s1, _, _; split_and!; [done|done|by left|done]|].
  unfold put_content. set (p := (bp_dir ++ _) ++ _). destruct (open_place P s1 p) as [q|e] eqn:Eo; [|eexists s1, _, _; split_and!; [done|done|by left|done]].
  assert (HW : ∀ x, good_tree (set s1 q (Some (NFile x))) ∧ one_write s (set s1 q (Some (NFile x))) x ∧ at_path P (set s1 q (Some (NFile x))) true p (NFile x)).
  { intros x. destruct (open_place_ok P s1 p q x Eo) as (H1 & H2 & (d & c & -> & H3) & H4). split_and!; [by apply set_file_good| |done]. right. exists (d ++ [c]).
    split_and!; [| |apply set_same|].
    - destruct (Ha (d ++ [c])) as [<-|[-> ]]; done.
    - intros t. destruct (Ha (d ++ [c])) as [<-|[-> ]]; done.
    - intros p' Hp. rewrite set_other by done. apply Ha. }
  destruct lim as [k|]; (eexists _, _, _; split; [done|]); [destruct (HW (take k data)) as (? & ? & ?)|destruct (HW data) as (? & ? & ?)]; by split_and!.
Qed.
(** two chunks never share a place *)
Theorem chunk_place_inj cwd md5 file n md5' file' n' : is_i64 n → is_i64 n' → chunk_place cwd md5 file n = chunk_place cwd md5' file' n' → md5 = md5' ∧ file = file' ∧ n = n'.
Proof.
  intros Hn Hn' E. unfold chunk_place in E. apply app_inv_head in E. injection E as E1 E2. destruct (FilesProps.chunk_name_inj file n file' n' Hn Hn') as [-> ->]; [|done].
  exact E2.
Qed.

(** ** C94: MakeFile *)
Lemma good_file_change s s' d c n : good_tree s → s d = Some NDir → s (d ++ [c]) ≠ Some NDir → s' (d ++ [c]) = n → n ≠ Some NDir → (∀ q, q ≠ d ++ [c] → s' q = s q) → good_tree s'.
Proof.
  intros [Hr Hg] Hd Hn Hn1 Hn2 Ho. split; [rewrite Ho; [done|by destruct d]|]. intros p y. destruct (decide (p ++ [y] = d ++ [c])) as [E|E].
  - apply app_inj_tail in E as [-> ->]. intros _. rewrite Ho; [done|apply app_single_ne].
  - rewrite Ho by done. intros H. apply Hg in H. rewrite Ho; [done|]. by intros ->.
Qed.
Definition chunks_data (s : tree) (cwd : place) (md5 file : gostr) (ks : list nat) : gostr := ks ≫= λ k, old_data s (chunk_place cwd md5 file (Z.of_nat k)).
Section make.
Context (P : proc) (file md5 : gostr) (Hmd : plain_name md5) (Hf : plain_name file).
Definition dir_d : place := cwd P ++ [done_name].
Definition file_f : place := cwd P ++ [done_name; file].
Lemma f_ne c r : c ≠ done_name → cwd P ++ c :: r ≠ file_f ∧ cwd P ++ c :: r ≠ dir_d.
Proof. intros H. unfold file_f, dir_d. split; intros E; apply app_inv_head in E; congruence. Qed.
Lemma bp_done : bp_name ≠ done_name.
Proof. done. Qed.
Lemma append_spec lim m : ∀ s i, open_proc P s → (∀ k, is_i64 (Z.of_nat k) ∨ (i + m ≤ k)%nat) → s (cwd P ++ [bp_name]) = Some NDir → s (cwd P ++ [bp_name; md5]) = Some NDir →
  (∀ k, (i ≤ k < i + m)%nat → may_file s (chunk_place (cwd P) md5 file (Z.of_nat k))) → s dir_d = Some NDir → (∃ x, s file_f = Some (NFile x)) →
  ∃ s' e, append_chunks P s file_f file md5 lim i m = (s', e) ∧ (∀ q, q ≠ file_f → s' q = s q) ∧
    match lim with
    | Some (k, _) => if decide (i ≤ k < i + m)%nat then e = Some UWrite ∧ s' file_f = None else e = None ∧ s' file_f = Some (NFile (old_data s file_f ++ chunks_data s (cwd P) md5 file (seq i m)))
    | None => e = None ∧ s' file_f = Some (NFile (old_data s file_f ++ chunks_data s (cwd P) md5 file (seq i m)))
    end.
Proof.
  induction m as [|m IH]; intros s i Hop Hi HA HB Hch HD [x HF].
  - exists s, None. split; [done|]. split; [done|]. assert (Eo : old_data s file_f = x) by (unfold old_data; by rewrite HF). rewrite Eo. unfold chunks_data. simpl. rewrite app_nil_r. destruct lim as [[k j]|]; [rewrite decide_False by lia|]; by split.
  - cbn [append_chunks].
    assert (Hii : is_i64 (Z.of_nat i)) by (destruct (Hi i); [done|lia]).
    pose proof (entry_plain file (Z.of_nat i) (proj2 Hf) Hii) as He.
    assert (Er : ∀ s', open_proc P s' → s' (cwd P ++ [bp_name]) = Some NDir → s' (cwd P ++ [bp_name; md5]) = Some NDir → may_file s' (chunk_place (cwd P) md5 file (Z.of_nat i)) → read_file P s' (bp_dir ++ md5 ++ str "/" ++ file ++ str "_" ++ int_to_string (Z.of_nat i)) = old_data s' (chunk_place (cwd P) md5 file (Z.of_nat i))).
    { intros s' ? ? ? ?. apply read_three; try done; [|apply bp_plain]. fold (chunk_entry file (Z.of_nat i)). rewrite <- (comps_chunk md5 (chunk_entry file (Z.of_nat i))); [by rewrite <- !app_assoc|apply Hmd|apply He]. }
    rewrite Er by (done || apply Hch; lia). clear Er. set (xi := old_data s (chunk_place (cwd P) md5 file (Z.of_nat i))).
    assert (Ec : content s file_f = old_data s file_f) by done. rewrite Ec. 
    assert (Hother : ∀ y c r, c ≠ done_name → set s file_f (Some (NFile y)) (cwd P ++ c :: r) = s (cwd P ++ c :: r)) by (intros y c r Hc; rewrite set_other; [done|by apply f_ne]).
    assert (Hop' : ∀ y, open_proc P (set s file_f (Some (NFile y)))). { intros y. split; [|apply Hop]. rewrite set_other; [apply Hop|]. intros E. apply (f_equal length) in E. unfold file_f in E. rewrite app_length in E. simpl in E. lia. }
    assert (HD' : ∀ y, set s file_f (Some (NFile y)) dir_d = Some NDir). { intros y. rewrite set_other; [done|]. unfold dir_d, file_f. intros E. by apply app_inv_head in E. }
    destruct (match lim with Some (k, j) => if (k =? i)%nat then Some j else None | None => None end) as [j|] eqn:Ebad.
    + destruct lim as [[k j']|]; [|done]. destruct (Nat.eqb_spec k i) as [->|]; [|done]. injection Ebad as ->.
      set (s1 := set s file_f _). unfold remove_quiet.
      rewrite (lookup_name_intro P s1 (done_dir ++ file) [dot; done_name] file 0 0 dir_d).
      * change (dir_d ++ [file]) with ((cwd P ++ [done_name]) ++ [file]). rewrite <- app_two. fold file_f. unfold s1 at 1. rewrite set_same. eexists _, _. split; [done|]. rewrite decide_True by lia. split_and!; [|done|apply set_same]. intros q Hq. unfold s1. by rewrite !set_other.
      * rewrite comps_done by apply Hf. done.
      * apply Hf.
      * lia.
      * apply leads_here; [apply Hop'|apply Hop|]. apply leads_dir; [apply done_plain|apply Hop'|apply Hop|apply HD'|]. constructor.
      * apply HD'.
      * apply Hop.
    + destruct (IH (set s file_f (Some (NFile (old_data s file_f ++ xi)))) (S i)) as (s' & e & E & Ho & Hres).
      * apply Hop'.
      * intros k. destruct (Hi k); [by left|right; lia].
      * rewrite Hother; [done|apply bp_done].
      * rewrite Hother; [done|apply bp_done].
      * intros k Hk. unfold may_file. unfold chunk_place. rewrite Hother by apply bp_done. apply Hch. lia.
      * apply HD'.
      * eexists. apply set_same.
      * exists s', e. split; [done|]. split; [intros q Hq; rewrite Ho, set_other by done; done|].
        assert (Edata : old_data (set s file_f (Some (NFile (old_data s file_f ++ xi)))) file_f ++ chunks_data (set s file_f (Some (NFile (old_data s file_f ++ xi)))) (cwd P) md5 file (seq (S i) m) = old_data s file_f ++ chunks_data s (cwd P) md5 file (seq i (S m))).
        { unfold old_data at 1. rewrite set_same. rewrite <- app_assoc. f_equal. unfold chunks_data. cbn [seq]. cbn [mbind list_bind]. f_equal. generalize (seq (S i) m). intros l. induction l as [|k l IHl]; [done|]. cbn [mbind list_bind]. f_equal; [|apply IHl]. unfold old_data at 1, chunk_place at 1. rewrite Hother by apply bp_done. done. }
        rewrite Edata in Hres. destruct lim as [[k j]|]; [|done]. destruct (Nat.eqb_spec k i) as [->|Hne]; [done|]. destruct (decide (S i ≤ k < S i + m)%nat); [rewrite decide_True by lia|rewrite decide_False by lia]; done.
Qed.
End make.
Theorem mk_file_exact P rd s file md5 lim : good_tree s → open_proc P s → plain_name md5 → plain_name file →
  s (cwd P ++ [bp_name]) = Some NDir → s (cwd P ++ [bp_name; md5]) = Some NDir → may_dir s (cwd P ++ [done_name]) → may_file s (cwd P ++ [done_name; file]) →
  let m := length (rd (cwd P ++ [bp_name; md5])) in is_i64 (Z.of_nat m) → (∀ k, (k < m)%nat → may_file s (chunk_place (cwd P) md5 file (Z.of_nat k))) →
  let fails := match lim with Some (k, _) => (k < m)%nat | None => False end in
  ∃ s' e, mk_file P rd s file md5 lim = Ret (s', str "./fileDir/" ++ file, e) ∧ good_tree s' ∧ s' (cwd P ++ [done_name]) = Some NDir ∧
    (∀ q, q ≠ cwd P ++ [done_name] → q ≠ cwd P ++ [done_name; file] → s' q = s q) ∧
    (¬ fails → e = None ∧ s' (cwd P ++ [done_name; file]) = Some (NFile (old_data s (cwd P ++ [done_name; file]) ++ (seq 0 m ≫= λ k, old_data s (chunk_place (cwd P) md5 file (Z.of_nat k)))))) ∧
    (fails → e = Some UWrite ∧ s' (cwd P ++ [done_name; file]) = None).
Proof.
  intros Hg Hop Hmd Hf HA HB HD HF m Hm Hch fails. unfold mk_file.
  assert (En : namei P s true (bp_dir ++ md5) = Ok (cwd P ++ [bp_name; md5])). { apply namei_two; try done; [|apply bp_plain]. rewrite bp_split, comps_app, (comps_one md5) by apply Hmd. done. }
  rewrite En, HB. fold (dir_d P) (file_f P file) in *. set (s1 := with_dir s (dir_d P)).
  assert (Em : mk_dir P s done_dir = Ret (s1, None)).
  { unfold mk_dir. change (S (length done_dir)) with (S (S 9)). change done_dir with (dot ++ 47 :: done_name ++ replicate 1 47). apply mkdir_one; [done|apply done_plain|done]. }
  rewrite Em. cbn [mbind go_bind]. assert (Nd : file_f P file ≠ dir_d P) by (unfold file_f, dir_d; intros E; by apply app_inv_head in E).
  assert (Nc : cwd P ≠ dir_d P) by apply app_single_ne.
  assert (Hop1 : open_proc P s1). { split; [|apply Hop]. unfold s1. rewrite with_dir_other; [apply Hop|done]. }
  assert (HD1 : s1 (dir_d P) = Some NDir) by (by apply with_dir_same).
  assert (HF1 : s1 (file_f P file) = s (file_f P file)) by (by apply with_dir_other).
  assert (Ho : ∀ c r, c ≠ done_name → s1 (cwd P ++ c :: r) = s (cwd P ++ c :: r)) by (intros c r Hc; apply with_dir_other; by apply f_ne).
  assert (Hg1 : good_tree s1) by (apply with_dir_good; [done|apply Hop]).
  assert (Eo : open_place P s1 (done_dir ++ file) = Ok (file_f P file)). { apply open_two; try done; [apply comps_done; apply Hf|apply done_plain|]. unfold may_file. fold (file_f P file). by rewrite HF1. }
  rewrite Eo. fold m. assert (Ec : content s1 (file_f P file) = old_data s (file_f P file)) by (unfold content, old_data; by rewrite HF1). rewrite Ec. set (s2 := set s1 _ _).
  assert (Ho2 : ∀ c r, c ≠ done_name → s2 (cwd P ++ c :: r) = s (cwd P ++ c :: r)) by (intros c r Hc; unfold s2; rewrite set_other; [by apply Ho|by apply f_ne]).
  destruct (append_spec P file md5 Hmd Hf lim m s2 0) as (s' & e & E & Hoth & Hres).
  - split; [|apply Hop]. unfold s2. rewrite set_other; [apply Hop1|]. unfold file_f. intros E. apply (f_equal length) in E. rewrite app_length in E. simpl in E. lia.
  - intros k. unfold is_i64 in *. destruct (decide (k < m)%nat); [left|right]; lia.
  - rewrite Ho2; [done|apply bp_done].
  - rewrite Ho2; [done|apply bp_done].
  - intros k Hk. unfold may_file, chunk_place. rewrite Ho2 by apply bp_done. apply Hch. lia.
  - unfold s2. by rewrite set_other.
  - eexists. apply set_same.
  - rewrite E. exists s', e. split; [done|].
    assert (Hq : ∀ q, q ≠ file_f P file → s' q = s1 q) by (intros q Hq; rewrite Hoth by done; unfold s2; by rewrite set_other).
    assert (Edata : old_data s2 (file_f P file) ++ chunks_data s2 (cwd P) md5 file (seq 0 m) = old_data s (file_f P file) ++ (seq 0 m ≫= λ k, old_data s (chunk_place (cwd P) md5 file (Z.of_nat k)))).
    { unfold old_data at 1. unfold s2 at 1. rewrite set_same. f_equal. unfold chunks_data. generalize (seq 0 m). intros l. induction l as [|k l IHl]; [done|]. cbn [mbind list_bind]. f_equal; [|apply IHl]. unfold old_data, chunk_place. by rewrite Ho2 by apply bp_done. }
    rewrite Edata in Hres.
    assert (Hres' : (¬ fails → e = None ∧ s' (file_f P file) = Some (NFile (old_data s (file_f P file) ++ (seq 0 m ≫= λ k, old_data s (chunk_place (cwd P) md5 file (Z.of_nat k)))))) ∧ (fails → e = Some UWrite ∧ s' (file_f P file) = None)).
    { unfold fails. destruct lim as [[k j]|]; [|by split]. destruct (decide (0 ≤ k < 0 + m)%nat); split; try done; lia. }
    split_and!; [|rewrite Hq by done; done| |apply Hres'|apply Hres'].
    + unfold file_f in *. change [done_name; file] with ([done_name] ++ [file]) in *. rewrite app_assoc in *. fold (dir_d P) in *. eapply good_file_change; [exact Hg1|exact HD1| |reflexivity| |done].
      * rewrite HF1. by destruct HF as [->|[? ->]].
      * destruct Hres' as [R1 R2]. destruct lim as [[k j]|]; [|by destruct (R1 id) as [_ ->]]. destruct (decide (k < m)%nat) as [Hk|Hk]; [by destruct (R2 Hk) as [_ ->]|by destruct (R1 Hk) as [_ ->]].
    + intros q Q1 Q2. rewrite Hq by done. by apply with_dir_other.
Qed.

(** ** C95: RemoveChunk *)
Theorem rm_chunk_exact P s md5 : open_proc P s → plain_name md5 → s (cwd P ++ [bp_name]) = Some NDir →
  ∃ s', rm_chunk P s md5 = (s', None) ∧ (if decide (s (cwd P ++ [bp_name; md5]) = None) then s' = s else removed s s' (cwd P ++ [bp_name; md5])).
Proof.
  intros [Hcwd Hd] Hmd HA. unfold rm_chunk. apply del_file_entry.
  - unfold ends_with_dot. rewrite bool_decide_eq_false_2 by done. cbn [orb]. rewrite reverse_app. destruct Hmd as [(H1 & H2 & _) H47]. destruct md5 as [|x l _] using rev_ind; [done|]. rewrite reverse_app. change (reverse [x]) with [x]. cbn [app]. destruct (decide (x = 46)) as [->|Hx].
    + destruct l as [|y l _] using rev_ind; [done|]. rewrite reverse_app. change (reverse [y]) with [y]. cbn [app]. destruct (decide (y = 47)) as [->|Hy]; [exfalso; apply H47; rewrite !elem_of_app; left; right; left|]. destruct y as [|y|y]; try done; repeat (destruct y as [y|y|]; try done).
    + destruct x as [|x|x]; try done; repeat (destruct x as [x|x|]; try done).
  - exists [dot; bp_name], md5, 0%nat, 0%nat, (cwd P ++ [bp_name]). split_and!; try done; [|apply Hmd|lia| |by rewrite app_two].
    + rewrite bp_split, comps_app, (comps_one md5) by apply Hmd. done.
    + apply leads_here; [done..|]. apply leads_dir; [apply bp_plain|done..|]. constructor.
Qed.

(** ** C96: a whole upload *)
Lemma lists_length rd s d l : lists rd s → NoDup l → (∀ c, c ∈ l ↔ s (d ++ [c]) ≠ None) → length (rd d) = length l.
Proof. intros H Hl Hi. destruct (H d) as [Hn Hc]. apply Permutation_length, NoDup_Permutation; [done|done|]. intros c. by rewrite Hc, Hi. Qed.
Fixpoint run_all (P : proc) (s : tree) (file md5 : gostr) (total : Z) (us : list upload) : go tree :=
  match us with
  | [] => Ret s
  | (k, data, lim) :: r => '(s1, _, _) ← bp_continue P s data file (Z.of_nat k) total md5 lim; run_all P s1 file md5 total r
  end.
(** the contents of the places of the chunks, as the uploads leave them *)
Fixpoint stored (us : list upload) (k : nat) : option gostr :=
  match us with
  | [] => None
  | (k', data, lim) :: r => match stored r k with Some x => Some x | None => if (k' =? k)%nat then Some (match lim with None => data | Some j => take j data end) else None end
  end.
Lemma stored_finally us k x : finally us k x → stored us k = Some x.
Proof.
  intros (a & b & -> & Hb). assert (Eb : stored b k = None). { clear a x. induction Hb as [|[[k' d] l] b Hk Hb IH]; [done|]. simpl. rewrite IH. simpl in Hk. by rewrite (proj2 (Nat.eqb_neq k' k)). }
  induction a as [|[[k' d] l] a IH]; simpl; [by rewrite Eb, Nat.eqb_refl|]. by rewrite IH.
Qed.
Lemma run_all_spec P file md5 total n (Hmd : plain_name md5) (Hf : 47 ∉ file) (Hn : is_i64 (Z.of_nat n)) us : ∀ s, good_tree s → open_proc P s → Forall (λ u : upload, (u.1.1 < n)%nat) us →
  may_dir s (cwd P ++ [bp_name]) → may_dir s (cwd P ++ [bp_name; md5]) → (∀ k, (k < n)%nat → may_file s (chunk_place (cwd P) md5 file (Z.of_nat k))) →
  ∃ s', run_all P s file md5 total us = Ret s' ∧ good_tree s' ∧ (us ≠ [] → s' (cwd P ++ [bp_name]) = Some NDir ∧ s' (cwd P ++ [bp_name; md5]) = Some NDir) ∧
    (∀ k, (k < n)%nat → s' (chunk_place (cwd P) md5 file (Z.of_nat k)) = match stored us k with Some x => Some (NFile x) | None => s (chunk_place (cwd P) md5 file (Z.of_nat k)) end) ∧
    (∀ q, q ≠ cwd P ++ [bp_name] → q ≠ cwd P ++ [bp_name; md5] → (∀ k, (k < n)%nat → q ≠ chunk_place (cwd P) md5 file (Z.of_nat k)) → s' q = s q).
Proof.
  induction us as [|[[k data] lim] us IH]; intros s Hg Hop Hk HA HB HC; [exists s; by split_and!|]. apply Forall_cons in Hk as [Hk Hks]. simpl in Hk.
  assert (Hi : ∀ k, (k < n)%nat → is_i64 (Z.of_nat k)) by (intros j Hj; unfold is_i64 in *; lia).
  destruct (bp_continue_exact P s data file (Z.of_nat k) total md5 lim Hg Hop Hmd Hf (Hi k Hk) HA HB (HC k Hk)) as (s1 & E & Hg1 & A1 & B1 & C1 & O1). cbn [run_all]. rewrite E. cbn [mbind go_bind].
  assert (Hne : ∀ j, (j < n)%nat → j ≠ k → chunk_place (cwd P) md5 file (Z.of_nat j) ≠ chunk_place (cwd P) md5 file (Z.of_nat k)). { intros j Hj Hjk E'. apply chunk_place_inj in E' as (_ & _ & ?); [lia|by apply Hi|by apply Hi]. }
  assert (HN : ∀ j, chunk_place (cwd P) md5 file (Z.of_nat j) ≠ cwd P ++ [bp_name] ∧ chunk_place (cwd P) md5 file (Z.of_nat j) ≠ cwd P ++ [bp_name; md5]) by (intros j; unfold chunk_place; split; intros E'; apply app_inv_head in E'; congruence).
  assert (Hop1 : open_proc P s1). { split; [|apply Hop]. destruct (places_ne P md5 (chunk_entry file (Z.of_nat k))) as (_ & _ & _ & N4 & N5 & N6). rewrite O1; [apply Hop|done..]. }
  assert (C1' : ∀ j, (j < n)%nat → j ≠ k → s1 (chunk_place (cwd P) md5 file (Z.of_nat j)) = s (chunk_place (cwd P) md5 file (Z.of_nat j))) by (intros j Hj Hjk; apply O1; [apply HN|apply HN|by apply Hne]).
  destruct (IH s1 Hg1 Hop1 Hks) as (s' & E' & Hg' & AB' & C' & O'); [by right|by right| |].
  { intros j Hj. destruct (decide (j = k)) as [->|Hjk]; [right; eauto|]. unfold may_file. rewrite C1' by done. by apply HC. }
  exists s'. split; [done|]. split; [done|]. split; [|split].
  - intros _. destruct us as [|u us]; [|by apply AB']. cbn [run_all] in E'. injection E' as <-. done.
  - intros j Hj. rewrite C' by done. cbn [stored]. destruct (stored us j); [done|]. destruct (Nat.eqb_spec k j) as [->|Hjk]; [done|]. by apply C1'.
  - intros q Q1 Q2 Q3. rewrite O' by done. apply O1; [done|done|by apply Q3].
Qed.
(** uploading the chunks in any order, with failed, cut off and repeated ones in between, then MakeFile, then
    RemoveChunk: the file has the data appended, the chunks are gone, and nothing else has changed *)
Theorem upload_flow P s file md5 total n (c : nat → gostr) us rd : good_tree s → open_proc P s → plain_name md5 → plain_name file → (0 < n)%nat → is_i64 (Z.of_nat n) →
  may_dir s (cwd P ++ [bp_name]) → may_dir s (cwd P ++ [bp_name; md5]) → (∀ x, s (cwd P ++ [bp_name; md5; x]) = None) → may_dir s (cwd P ++ [done_name]) → may_file s (cwd P ++ [done_name; file]) →
  Forall (λ u : upload, (u.1.1 < n)%nat) us → (∀ k, (k < n)%nat → finally us k (c k)) →
  ∃ s1, run_all P s file md5 total us = Ret s1 ∧ (lists rd s1 → ∃ s2 s3, mk_file P rd s1 file md5 None = Ret (s2, str "./fileDir/" ++ file, None) ∧ rm_chunk P s2 md5 = (s3, None) ∧ good_tree s2 ∧
    s3 (cwd P ++ [done_name; file]) = Some (NFile (old_data s (cwd P ++ [done_name; file]) ++ (seq 0 n ≫= c))) ∧
    s3 (cwd P ++ [done_name]) = Some NDir ∧ s3 (cwd P ++ [bp_name]) = Some NDir ∧ (∀ r, s3 (cwd P ++ bp_name :: md5 :: r) = None) ∧
    (∀ q, q ≠ cwd P ++ [bp_name] → q ≠ cwd P ++ [done_name] → q ≠ cwd P ++ [done_name; file] → ¬ (cwd P ++ [bp_name; md5]) `prefix_of` q → s3 q = s q)).
Proof.
  intros Hg Hop Hmd Hf Hn0 Hn HA HB HC HD HF Hus Hfin.
  destruct (run_all_spec P file md5 total n Hmd (proj2 Hf) Hn us s Hg Hop Hus HA HB) as (s1 & E1 & Hg1 & AB1 & C1 & O1); [intros k _; left; apply HC|].
  exists s1. split; [done|]. intros Hrd.
  assert (Hi : ∀ k, (k < n)%nat → is_i64 (Z.of_nat k)) by (intros j Hj; unfold is_i64 in *; lia).
  assert (Hus0 : us ≠ []). { intros ->. destruct (Hfin 0%nat Hn0) as (a & b & E & _). by destruct a. }
  destruct (AB1 Hus0) as [A1 B1].
  assert (C1' : ∀ k, (k < n)%nat → s1 (chunk_place (cwd P) md5 file (Z.of_nat k)) = Some (NFile (c k))) by (intros k Hk; rewrite C1 by done; by rewrite (stored_finally us k (c k)) by auto).
  assert (Hcwd : ∀ r, r ≠ [] → cwd P ≠ cwd P ++ r). { intros r Hr E. apply (f_equal length) in E. rewrite app_length in E. destruct r; [done|]. simpl in E. lia. }
  assert (Hop1 : open_proc P s1). { split; [|apply Hop]. rewrite O1; [apply Hop|by apply Hcwd|by apply Hcwd|]. intros k _. by apply Hcwd. }
  assert (Hd1 : ∀ r, s1 (cwd P ++ done_name :: r) = s (cwd P ++ done_name :: r)). { intros r. apply O1; [..|intros k _; unfold chunk_place]; intros E; apply app_inv_head in E; by injection E. }
  assert (Hlen : length (rd (cwd P ++ [bp_name; md5])) = n).
  { rewrite (lists_length rd s1 _ ((λ k, chunk_entry file (Z.of_nat k)) <$> seq 0 n) Hrd); [by rewrite fmap_length, seq_length|..].
    - apply NoDup_fmap_2_strong; [|apply NoDup_ListNoDup, seq_NoDup]. intros x y Hx%elem_of_seq Hy%elem_of_seq E. destruct (chunk_place_inj [] md5 file (Z.of_nat x) md5 file (Z.of_nat y)) as (_ & _ & ?); [apply Hi; lia|apply Hi; lia|unfold chunk_place; by rewrite E|lia].
    - intros x. rewrite <- app_assoc. cbn [app]. split.
      + intros (k & -> & Hk%elem_of_seq)%elem_of_list_fmap. change (cwd P ++ [bp_name; md5; chunk_entry file (Z.of_nat k)]) with (chunk_place (cwd P) md5 file (Z.of_nat k)). rewrite C1' by lia. done.
      + intros Hx. destruct (decide (x ∈ ((λ k, chunk_entry file (Z.of_nat k)) <$> seq 0 n))) as [|Hnx]; [done|]. exfalso. apply Hx. rewrite O1; [apply HC|..].
        * intros E. apply app_inv_head in E. by injection E.
        * intros E. apply app_inv_head in E. by injection E.
        * intros k Hk E. apply Hnx. unfold chunk_place in E. apply app_inv_head in E. injection E as E. apply elem_of_list_fmap. exists k. split; [done|]. apply elem_of_seq. lia. }
  destruct (mk_file_exact P rd s1 file md5 None Hg1 Hop1 Hmd Hf A1 B1) as (s2 & e & E2 & Hg2 & D2 & O2 & R2 & _).
  - unfold may_dir. by rewrite Hd1.
  - unfold may_file. by rewrite Hd1.
  - by rewrite Hlen.
  - rewrite Hlen. intros k Hk. right. eexists. by apply C1'.
  - destruct (R2 id) as [-> F2]. rewrite Hlen in F2.
    assert (Hb2 : ∀ r, s2 (cwd P ++ bp_name :: r) = s1 (cwd P ++ bp_name :: r)). { intros r. apply O2; intros E; apply app_inv_head in E; by injection E. }
    destruct (rm_chunk_exact P s2 md5) as (s3 & E3 & R3).
    + split; [|apply Hop]. rewrite O2; [apply Hop1|by apply Hcwd|by apply Hcwd].
    + done.
    + by rewrite Hb2.
    + rewrite decide_False in R3 by (rewrite Hb2; by rewrite B1). destruct R3 as [R3 O3]. exists s2, s3. split; [done|]. split; [done|]. split; [done|].
      assert (Hpre : ∀ r, ¬ (cwd P ++ [bp_name; md5]) `prefix_of` (cwd P ++ done_name :: r)). { intros r [t E]. rewrite <- app_assoc in E. apply app_inv_head in E. by injection E. }
      split_and!.
      * rewrite O3, F2 by apply Hpre. do 2 f_equal. f_equal; [unfold old_data; by rewrite Hd1|]. clear -C1' Hi. assert (HS : ∀ k, k ∈ seq 0 n → (k < n)%nat) by (intros k Hk%elem_of_seq; lia). revert HS. generalize (seq 0 n). intros l Hl. induction l as [|k l IH]; [done|]. cbn [mbind list_bind]. f_equal; [|apply IH; intros; apply Hl; by right]. unfold old_data. rewrite C1'; [done|]. apply Hl. left.
      * rewrite O3 by apply Hpre. done.
      * rewrite O3. 2: { intros [t E]. rewrite <- app_assoc in E. apply app_inv_head in E. by injection E. } by rewrite Hb2.
      * intros r. specialize (R3 r). rewrite <- app_assoc in R3. done.
      * intros q Q1 Q2 Q3 Q4. rewrite O3 by done. rewrite O2 by done. apply O1; [done|intros ->; by apply Q4|]. intros k Hk ->. apply Q4. exists [chunk_entry file (Z.of_nat k)]. unfold chunk_place. by rewrite <- app_assoc.
Qed.

(** ** Names that are not plain *)
Definition w := str "w".
Definition srv_list : list (place * node) :=
  [([], NDir); ([w], NDir); ([w; str "main.go"], NFile (str "code")); ([str "secret"], NFile (str "key")); ([str "log_0"], NFile (str "log"));
   ([w; done_name], NDir); ([w; done_name; str "a"], NFile (str "done"));
   ([w; bp_name], NDir); ([w; bp_name; str "m1"], NDir); ([w; bp_name; str "m1"; str "f_0"], NFile (str "x"));
   ([w; bp_name; str "m2"], NDir); ([w; bp_name; str "m2"; str "g_0"], NFile (str "y"))].
Definition srv : tree := λ q, snd <$> find (λ e, bool_decide (e.1 = q)) srv_list.
Definition srv_proc : proc := Proc [w] (str "/w") (λ _, false).
Lemma srv_some q : srv q ≠ None → q ∈ srv_list.*1.
Proof.
  unfold srv. destruct (find _ srv_list) as [[p n]|] eqn:E; [|done]. intros _. apply find_some in E as [H1 H2]. apply bool_decide_eq_true in H2. simpl in H2. subst. apply elem_of_list_fmap. exists (q, n). split; [done|]. by apply elem_of_list_In.
Qed.
Lemma srv_good : good_tree srv ∧ open_proc srv_proc srv.
Proof.
  split; [split; [done|]|by split]. intros p c H. apply srv_some in H.
  assert (HF : Forall (λ q, q = [] ∨ srv (take (length q - 1) q) = Some NDir) srv_list.*1) by (repeat constructor; try (by left); by right).
  rewrite Forall_forall in HF. destruct (HF _ H) as [E|E]; [by destruct p|]. rewrite app_length in E. simpl in E. rewrite Nat.add_sub, take_app in E. done.
Qed.
(** a chunk can be written anywhere its name allows: over a file outside, with ".." in either name, and over
    the chunk of another upload *)
Theorem bp_continue_refuted :
  (∃ s' p, bp_continue srv_proc srv (str "evil") (str "../../../log") 0 1 (str "m1") None = Ret (s', p, None) ∧ srv [str "log_0"] = Some (NFile (str "log")) ∧ s' [str "log_0"] = Some (NFile (str "evil"))) ∧
  (∃ s' p, bp_continue srv_proc srv (str "evil") (str "log") 0 1 (str "../..") None = Ret (s', p, None) ∧ s' [str "log_0"] = Some (NFile (str "evil"))) ∧
  (∃ s1 s2 p, bp_continue srv_proc srv (str "one") (str "c") 0 1 (str "a/b") None = Ret (s1, p, None) ∧ s1 [w; bp_name; str "a"; str "b"; str "c_0"] = Some (NFile (str "one")) ∧
    bp_continue srv_proc s1 (str "two") (str "b/c") 0 1 (str "a") None = Ret (s2, p, None) ∧ s2 [w; bp_name; str "a"; str "b"; str "c_0"] = Some (NFile (str "two"))).
Proof.
  split_and!.
  - eexists _, _. split; [by vm_compute|]. by vm_compute.
  - eexists _, _. split; [by vm_compute|]. by vm_compute.
  - eexists _, _, _. split; [by vm_compute|]. split; [by vm_compute|]. split; by vm_compute.
Qed.
(** with two calls chosen data is appended to a chosen file outside; an error leaves fileDir behind *)
Theorem mk_file_refuted :
  (∃ s1 p1, bp_continue srv_proc srv (str "evil") (str "../../secret") 0 1 (str "m1") None = Ret (s1, p1, None) ∧
    ∀ rd, lists rd s1 → ∃ s2 p2, mk_file srv_proc rd s1 (str "../../secret") (str "m1") None = Ret (s2, p2, None) ∧ srv [str "secret"] = Some (NFile (str "key")) ∧ s2 [str "secret"] = Some (NFile (str "keyevil"))) ∧
  (∀ rd, mk_file srv_proc rd srv [] (str "m1") None = Ret (srv, str "./fileDir/", Some (USys EISDIR))).
Proof.
  split.
  - exists (set srv [w; str "secret_0"] (Some (NFile (str "evil")))), (str "./breakpointDir/m1/../../secret_0"). split; [by vm_compute|]. intros rd Hrd.
    assert (Hl : length (rd [w; bp_name; str "m1"]) = 1%nat).
    { rewrite (lists_length rd _ [w; bp_name; str "m1"] [str "f_0"] Hrd); [done|apply NoDup_singleton|]. intros c. rewrite elem_of_list_singleton. split; [intros ->; by vm_compute|].
      intros H. change ([w; bp_name; str "m1"] ++ [c]) with [w; bp_name; str "m1"; c] in H. rewrite set_other in H by done. apply srv_some in H. cbv [srv_list fmap list_fmap fst] in H. rewrite !elem_of_cons, elem_of_nil in H. naive_solver. }
    unfold mk_file. set (s1 := set srv _ _). assert (En : namei srv_proc s1 true (bp_dir ++ str "m1") = Ok [w; bp_name; str "m1"]) by (by vm_compute). rewrite En. assert (Es : s1 [w; bp_name; str "m1"] = Some NDir) by (by vm_compute). rewrite Es. rewrite Hl.
    eexists _, _. split; [by vm_compute|]. by vm_compute.
  - intros rd. by vm_compute.
Qed.
(** the empty FileMd5 removes every upload, ".." empties the working directory, "../fileDir" removes the
    finished files *)
Theorem rm_chunk_refuted :
  (∃ s', rm_chunk srv_proc srv [] = (s', None) ∧ s' [w; bp_name; str "m1"; str "f_0"] = None ∧ s' [w; bp_name; str "m2"; str "g_0"] = None) ∧
  (∃ s', rm_chunk srv_proc srv (str "..") = (s', Some ENOTEMPTY) ∧ (∀ c r, s' (w :: c :: r) = None) ∧ srv [w; str "main.go"] = Some (NFile (str "code"))) ∧
  (∃ s', rm_chunk srv_proc srv (str "../fileDir") = (s', None) ∧ s' [w; done_name; str "a"] = None).
Proof.
  split_and!.
  - eexists. split; [by vm_compute|]. by vm_compute.
  - exists (empty_dir srv [w]). split; [by vm_compute|]. split; [|done]. intros c r. unfold empty_dir. rewrite (proj2 (below_spec [w] (w :: c :: r))) by (by eexists). by rewrite bool_decide_eq_false_2.
  - eexists. split; [by vm_compute|]. by vm_compute.
Qed.
(** the hypotheses of [upload_flow]: three chunks out of order, one cut off and repeated, onto an existing file *)
Example upload_ex : ∃ s1, run_all srv_proc srv (str "a") (str "m3") 3 [(2%nat, str "ef", None); (0%nat, str "ab", Some 1%nat); (1%nat, str "cd", None); (0%nat, str "ab", None)] = Ret s1 ∧
  ∀ rd, lists rd s1 → ∃ s2 s3, mk_file srv_proc rd s1 (str "a") (str "m3") None = Ret (s2, str "./fileDir/a", None) ∧ rm_chunk srv_proc s2 (str "m3") = (s3, None) ∧ s3 [w; done_name; str "a"] = Some (NFile (str "doneabcdef")) ∧ s3 [w; bp_name; str "m1"; str "f_0"] = Some (NFile (str "x")).
Proof.
  destruct srv_good as [Hg Hop].
  assert (Hpl : ∀ c, bool_decide (c ≠ [] ∧ c ≠ str "." ∧ c ≠ str ".." ∧ 47 ∉ c) = true → plain_name c) by (intros c (? & ? & ? & ?)%bool_decide_eq_true; by repeat split).
  set (us := [(2%nat, str "ef", None); (0%nat, str "ab", Some 1%nat); (1%nat, str "cd", None); (0%nat, str "ab", None)] : list upload).
  assert (Hsome : ∀ x, srv (cwd srv_proc ++ [bp_name; str "m3"; x]) = None).
  { intros x. destruct (srv (cwd srv_proc ++ [bp_name; str "m3"; x])) eqn:E; [|done]. assert (H : srv (cwd srv_proc ++ [bp_name; str "m3"; x]) ≠ None) by (by rewrite E). apply srv_some in H. cbv [srv_list fmap list_fmap fst] in H. rewrite !elem_of_cons, elem_of_nil in H. exfalso. clear -H. naive_solver. }
  assert (HX : ∀ rd, ∃ s1, run_all srv_proc srv (str "a") (str "m3") 3 us = Ret s1 ∧ (lists rd s1 → ∃ s2 s3, mk_file srv_proc rd s1 (str "a") (str "m3") None = Ret (s2, str "./fileDir/a", None) ∧ rm_chunk srv_proc s2 (str "m3") = (s3, None) ∧ s3 [w; done_name; str "a"] = Some (NFile (str "doneabcdef")) ∧ s3 [w; bp_name; str "m1"; str "f_0"] = Some (NFile (str "x")))).
  { intros rd. destruct (upload_flow srv_proc srv (str "a") (str "m3") 3 3 (λ k, match k with 0 => str "ab" | 1 => str "cd" | _ => str "ef" end)%nat us rd) as (s1 & E & H); try done.
    - by apply Hpl.
    - by apply Hpl.
    - lia.
    - by right.
    - by left.
    - by right.
    - right. by exists (str "done").
    - unfold us. repeat constructor; simpl; lia.
    - intros k Hk. destruct k as [|[|[|k]]]; [| | |lia].
      + exists [(2%nat, str "ef", None); (0%nat, str "ab", Some 1%nat); (1%nat, str "cd", None)], []. by split.
      + exists [(2%nat, str "ef", None); (0%nat, str "ab", Some 1%nat)], [(0%nat, str "ab", None)]. split; [done|]. by repeat constructor.
      + exists [], [(0%nat, str "ab", Some 1%nat); (1%nat, str "cd", None); (0%nat, str "ab", None)]. split; [done|]. by repeat constructor.
    - exists s1. split; [done|]. intros Hrd. destruct (H Hrd) as (s2 & s3 & E2 & E3 & _ & F3 & _ & _ & _ & O3). exists s2, s3. split_and!; [done|done|exact F3|]. etransitivity; [apply O3|done]; [done..|]. by intros [t [= ]]. }
  destruct (HX (λ _, [])) as (s1 & E & _). exists s1. split; [done|]. intros rd Hrd. destruct (HX rd) as (s1' & E' & H). rewrite E in E'. injection E' as <-. auto.
Qed.
Print Assumptions bp_continue_exact.
Print Assumptions bp_continue_any.
Print Assumptions chunk_place_inj.
Print Assumptions bp_continue_refuted.
Print Assumptions mk_file_exact.
Print Assumptions mk_file_refuted.
Print Assumptions rm_chunk_exact.
Print Assumptions rm_chunk_refuted.
Print Assumptions upload_flow.
