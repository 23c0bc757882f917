(** * Masking helpers: theorems *)
From Verif Require Import GoBase GoStr MaskModel MaskSpec.
Local Open Scope Z_scope.

(** ** Slices within the length *)
Definition caps (cp : nat → nat) : Prop := ∀ n, (n ≤ cp n)%nat.
Lemma slice_in cp rs a b : caps cp → (a ≤ b ≤ length rs)%nat → slice_runes cp rs a b = Ret (take (b - a) (drop a rs)).
Proof.
  intros HC H. unfold slice_runes. pose proof (HC (length rs)). rewrite decide_True by lia. f_equal. rewrite drop_app_le by lia. rewrite take_app_le; [done|]. rewrite drop_length. lia.
Qed.
Lemma mobile_iff s : is_mobile s = true ↔ mobile s.
Proof.
  unfold mobile. split.
  - intros H. unfold is_mobile in H. destruct s as [|x r]; [done|]. assert (x = 49 ∧ ((length r =? 10)%nat && forallb (between 48 57) r = true)) as [-> H'] by (by repeat match type of H with context [match ?p with _ => _ end] => is_var p; destruct p; try done end).
    apply andb_true_iff in H' as [H1 H2]. exists r. apply Nat.eqb_eq in H1. split_and!; [done..|]. apply Forall_forall. intros y Hy. rewrite forallb_forall in H2. apply between_iff, H2. by apply elem_of_list_In.
  - intros (r & -> & H1 & H2). simpl. rewrite H1. simpl. apply forallb_forall. intros y Hy. apply between_iff. rewrite Forall_forall in H2. apply H2. by apply elem_of_list_In.
Qed.
Lemma mobile_ascii s : mobile s → length s = 11%nat ∧ ascii_text s ∧ s ≠ [] ∧ go_index [64] s = None.
Proof.
  intros (r & -> & Hl & Hr). split_and!; [simpl; lia| |done|].
  - constructor; [lia|]. eapply Forall_impl; [exact Hr|]. simpl. intros. lia.
  - apply go_index_char_None. intros Hi. apply elem_of_cons in Hi as [?|Hi]; [lia|]. rewrite Forall_forall in Hr. specialize (Hr _ Hi). simpl in Hr. lia.
Qed.
Lemma ascii_runes s : ascii_text s → runes s = s.
Proof. intros H. apply runes_ascii. eapply Forall_impl; [exact H|]. simpl. lia. Qed.
Lemma substr_ascii cp s a b : caps cp → ascii_text s → (a ≤ b ≤ length s)%nat → substr2 cp s a b = Ret (take (b - a) (drop a s)).
Proof.
  intros HC Hs H. unfold substr2. rewrite ascii_runes by done. rewrite slice_in by done. cbn. f_equal. apply of_runes_ascii. by apply Forall_take, Forall_drop.
Qed.

(** ** C53 *)
(** a mobile number: the exact result *)
Lemma hide_mobile_value cp s : caps cp → mobile s → hide_star cp s = Ret (take 3 s ++ star 4 ++ drop 7 s).
Proof.
  intros HC Hm. destruct (mobile_ascii s Hm) as (Hl & Ha & Hn & Hi). unfold hide_star. rewrite decide_False by done. rewrite Hi. apply mobile_iff in Hm as ->.
  rewrite !substr_ascii by (done || lia). cbn [mbind go_bind]. rewrite drop_0. rewrite (take_ge (drop 7 s)) by (rewrite drop_length; lia). done.
Qed.
Theorem hide_mobile cp s t : caps cp → mobile s → mobile t → agree_outside 3 7 s t → hide_star cp s = hide_star cp t ∧ hide_star cp s = Ret (take 3 s ++ str "****" ++ drop 7 s).
Proof.
  intros HC Hs Ht [Hl Hag]. rewrite !hide_mobile_value by done. split; [|done]. f_equal. f_equal; [|f_equal].
  - apply list_eq. intros i. destruct (decide (i < 3)%nat); [rewrite !lookup_take by done; apply Hag; lia|rewrite !lookup_take_ge by lia; done].
  - apply list_eq. intros i. rewrite !lookup_drop. apply Hag. lia.
Qed.
(** a name: neither an address nor a number *)
Definition name_result (rs : list Z) : gostr :=
  let n := length rs in
  if (n <=? 1)%nat then star 3 else if (n =? 2)%nat then of_runes (take 1 rs) ++ star 1
  else of_runes (take (shown n) rs) ++ star (if (n =? 3)%nat then 1 else if (n =? 4)%nat then 2 else 3) ++ of_runes (drop (n - shown n) rs).
Lemma hide_name_value cp s : caps cp → s ≠ [] → 64 ∉ s → ¬ mobile s → hide_star cp s = Ret (name_result (runes s)).
Proof.
  intros HC Hs H64 Hm. unfold hide_star, name_result, shown. rewrite decide_False by done. rewrite (proj2 (go_index_char_None 64 s)) by done. destruct (is_mobile s) eqn:Em; [by apply mobile_iff in Em|].
  set (rs := runes s). destruct (Nat.leb_spec (length rs) 1); [done|].
  destruct (Nat.eqb_spec (length rs) 2) as [E|]; [rewrite slice_in by (done || lia); cbn; by rewrite drop_0|].
  destruct (Nat.eqb_spec (length rs) 3) as [E|].
  { rewrite !slice_in by (done || lia). rewrite E. cbn [Nat.leb]. cbn [mbind go_bind]. rewrite drop_0. do 3 f_equal. rewrite take_ge by (rewrite drop_length; lia). done. }
  destruct (Nat.eqb_spec (length rs) 4) as [E|].
  { rewrite !slice_in by (done || lia). rewrite E. cbn [Nat.leb]. cbn [mbind go_bind]. rewrite drop_0. do 3 f_equal. rewrite take_ge by (rewrite drop_length; lia). done. }
  destruct (Nat.leb_spec (length rs) 4); [lia|]. rewrite !slice_in by (done || lia). cbn [mbind go_bind]. rewrite drop_0. do 3 f_equal. rewrite take_ge by (rewrite drop_length; lia). done.
Qed.
Theorem hide_name cp s t : caps cp → s ≠ [] → t ≠ [] → 64 ∉ s → 64 ∉ t → ¬ mobile s → ¬ mobile t →
  agree_outside (shown (length (runes s))) (length (runes s) - shown (length (runes s))) (runes s) (runes t) → hide_star cp s = hide_star cp t.
Proof.
  intros HC Hs Ht H1 H2 H3 H4 [Hl Hag]. rewrite !hide_name_value by done. f_equal. unfold name_result. rewrite <- Hl. set (n := length (runes s)) in *. 
  destruct (Nat.leb_spec n 1); [done|]. assert (Hh : take (shown n) (runes s) = take (shown n) (runes t)).
  { apply list_eq. intros i. destruct (decide (i < shown n)%nat); [rewrite !lookup_take by done; apply Hag; lia|rewrite !lookup_take_ge by lia; done]. }
  destruct (Nat.eqb_spec n 2) as [E|]; [rewrite E in Hh; cbn in Hh; by rewrite Hh|]. rewrite Hh. do 2 f_equal. f_equal. apply list_eq. intros i. rewrite !lookup_drop. apply Hag. lia.
Qed.
(** for names of two characters the second is hidden as well, and from five characters on not
    even the number of hidden characters shows *)
Theorem hide_name_short cp s t : caps cp → 64 ∉ s → 64 ∉ t → length (runes s) = 2%nat → length (runes t) = 2%nat → head (runes s) = head (runes t) → hide_star cp s = hide_star cp t.
Proof.
  intros HC H1 H2 L1 L2 Hh. assert (Hm : ∀ u, length (runes u) = 2%nat → u ≠ [] ∧ ¬ mobile u).
  { intros u Hu. split; [by intros ->|]. intros Hm. destruct (mobile_ascii u Hm) as (Hl & Ha & _). rewrite ascii_runes in Hu by done. lia. }
  destruct (Hm s L1), (Hm t L2). rewrite !hide_name_value by done. f_equal. unfold name_result. rewrite L1, L2. cbn [Nat.leb Nat.eqb]. destruct (runes s) as [|x ?]; [done|]. destruct (runes t) as [|y ?]; [done|]. injection Hh as ->. done.
Qed.
Theorem hide_name_long cp s t : caps cp → 64 ∉ s → 64 ∉ t → ¬ mobile s → ¬ mobile t → (5 ≤ length (runes s))%nat → (5 ≤ length (runes t))%nat →
  take 2 (runes s) = take 2 (runes t) → drop (length (runes s) - 2) (runes s) = drop (length (runes t) - 2) (runes t) → hide_star cp s = hide_star cp t.
Proof.
  intros HC H1 H2 H3 H4 L1 L2 Ht Hd. assert (Hm : ∀ u, (5 ≤ length (runes u))%nat → u ≠ []). { intros u Hu ->. simpl in Hu. lia. }
  rewrite !hide_name_value by auto. f_equal. unfold name_result, shown. 
  assert (HB : ∀ n, (5 ≤ n)%nat → (n <=? 1)%nat = false ∧ (n =? 2)%nat = false ∧ (n =? 3)%nat = false ∧ (n =? 4)%nat = false ∧ (n <=? 4)%nat = false).
  { intros n Hn. repeat split; first [apply Nat.leb_gt; lia|apply Nat.eqb_neq; lia]. }
  destruct (HB _ L1) as (-> & -> & -> & -> & ->). destruct (HB _ L2) as (-> & -> & -> & -> & ->). by rewrite Ht, Hd.
Qed.
(** an address: the local part only matters up to its third character *)
Lemma idx_head {A} (x : A) l : idx (x :: l) 0 = Ret x. Proof. done. Qed.
Lemma idx_tail {A} (x : A) l : idx (x :: l) 1 = idx l 0. Proof. done. Qed.
Lemma hide_email_value cp l d : caps cp → 64 ∉ l → hide_star cp (l ++ 64 :: d) =
  (let r1 := default [] (head (go_split [64] d)) in
   if (length l <? 3)%nat then Ret (star 3 ++ [64] ++ r1)
   else r2 ← substr2 cp (l ++ 64 :: d) 0 3; Ret (r2 ++ star 3 ++ [64] ++ r1)).
Proof.
  intros HC Hl. unfold hide_star. rewrite decide_False by (by destruct l). rewrite go_index_char by done. unfold go_split at 1 2. rewrite app_length. cbn [length]. rewrite Nat.add_succ_r. cbn [split_fuel].
  rewrite go_index_char by done. rewrite take_app. change (length [64]) with 1%nat. rewrite <- drop_drop, drop_app. cbn [drop]. rewrite drop_0. rewrite idx_head, idx_tail. cbn [mbind go_bind].
  assert (HS : ∀ n, (length d ≤ n)%nat → idx (split_fuel n [64] d) 0 = Ret (default [] (head (go_split [64] d)))).
  { intros n Hn. unfold go_split. assert (HH : ∀ m e, (length e ≤ m)%nat → head (split_fuel m [64] e) = Some (match go_index [64] e with None => e | Some i => take i e end)).
    { intros m e He. destruct m as [|m]; [destruct e; [done|simpl in He; lia]|]. cbn [split_fuel]. by destruct (go_index [64] e). }
    rewrite (HH (length d) d) by done. pose proof (HH n d Hn) as H1. destruct (split_fuel n [64] d); [done|]. injection H1 as ->. done. }
  rewrite HS by lia. cbn [mbind go_bind]. done.
Qed.
Theorem hide_email cp l1 l2 d : caps cp → 64 ∉ l1 → 64 ∉ l2 → (3 ≤ length (runes l1))%nat → (3 ≤ length (runes l2))%nat → take 3 (runes l1) = take 3 (runes l2) →
  hide_star cp (l1 ++ 64 :: d) = hide_star cp (l2 ++ 64 :: d).
Proof.
  intros HC H1 H2 L1 L2 Ht. rewrite !hide_email_value by done. pose proof (runes_length l1). pose proof (runes_length l2). destruct (Nat.ltb_spec (length l1) 3); [lia|]. destruct (Nat.ltb_spec (length l2) 3); [lia|].
  cbn zeta. assert (HX : ∀ l, (3 ≤ length (runes l))%nat → substr2 cp (l ++ 64 :: d) 0 3 = Ret (of_runes (take 3 (runes l)))).
  { intros l Hl. unfold substr2. rewrite runes_app_ascii by lia. rewrite slice_in; [|done|rewrite app_length; lia]. cbn [mbind go_bind]. rewrite drop_0. change (3 - 0)%nat with 3%nat. by rewrite take_app_le. }
  by rewrite !HX, Ht.
Qed.
(** with at least three runes of capacity (a stack buffer of 32 in the compiled code) it never panics *)
Theorem hide_star_total cp s : caps cp → (∀ n, 3 ≤ cp n)%nat → ∃ r, hide_star cp s = Ret r.
Proof.
  intros HC H3. destruct (decide (s = [])) as [->|Hs]; [by eexists|]. destruct (go_index [64] s) as [i|] eqn:Ei.
  - pose proof (go_index_Some _ _ _ Ei) as [Hi E]. pose proof (go_index_first _ _ _ Ei) as Hf. simpl in E.
    assert (H64 : 64 ∉ take i s). { intros Hin. apply elem_of_list_lookup in Hin as [j Hj]. assert (j < i)%nat as Hji. { apply lookup_lt_Some in Hj. rewrite take_length in Hj. lia. } specialize (Hf j Hji). rewrite lookup_take in Hj by done. rewrite (drop_S _ _ _ Hj) in Hf. simpl in Hf. done. }
    rewrite E. rewrite hide_email_value by done. cbn zeta. destruct (_ <? _)%nat; [by eexists|]. unfold substr2, slice_runes. rewrite decide_True; [by eexists|]. split; [lia|apply H3].
  - destruct (is_mobile s) eqn:Em; [apply mobile_iff in Em; rewrite hide_mobile_value by done; by eexists|].
    rewrite hide_name_value; [by eexists|done|done|by apply go_index_char_None|]. intros Hm. apply mobile_iff in Hm. congruence.
Qed.
(** with no spare capacity, an address with a short non-ASCII local part would panic *)
Definition cjk (l : list Z) : gostr := of_runes l.
Theorem hide_star_capacity : hide_star (λ n, n) (cjk [20013] ++ [64]) = Panic PIndex.
Proof. by vm_compute. Qed.
Example hide_example : hide_star (λ _, 32%nat) (str "13812345678") = Ret (str "138****5678") ∧ hide_star (λ _, 32%nat) (str "alice@example.org") = Ret (str "ali***@example.org") ∧
  hide_star (λ _, 32%nat) (str "Katherine") = Ret (str "Ka***ne") ∧ mobile (str "13812345678") ∧ 64 ∉ str "alice" ∧ (3 ≤ length (runes (str "alice")))%nat.
Proof.
  split_and!; [by vm_compute..|apply mobile_iff; by vm_compute| |vm_compute; lia]. apply go_index_char_None. by vm_compute.
Qed.

(** ** C54 *)
Definition starred (lo hi : Z) (p : nat * Z) : Z := if (lo <=? Z.of_nat p.1) && (Z.of_nat p.1 <? hi) then 42 else p.2.
Lemma foldl_insert_length (f : nat * Z → Z) l (rs : list Z) : length (foldl (λ rs p, <[p.1 := f p]> rs) rs l) = length rs.
Proof. revert rs. induction l as [|p l IH]; intros rs; [done|]. cbn [foldl]. rewrite IH. apply insert_length. Qed.
Lemma foldl_insert_out (f : nat * Z → Z) l (rs : list Z) j : j ∉ l.*1 → foldl (λ rs p, <[p.1 := f p]> rs) rs l !! j = rs !! j.
Proof.
  revert rs. induction l as [|p l IH]; intros rs Hj; [done|]. cbn [foldl fmap list_fmap] in *. apply not_elem_of_cons in Hj as [H1 H2]. rewrite IH by done. by rewrite list_lookup_insert_ne.
Qed.
Lemma foldl_insert_in (f : nat * Z → Z) l (rs : list Z) j c : NoDup l.*1 → (j, c) ∈ l → (j < length rs)%nat → foldl (λ rs p, <[p.1 := f p]> rs) rs l !! j = Some (f (j, c)).
Proof.
  revert rs. induction l as [|p l IH]; intros rs Hn Hj Hl; [by apply elem_of_nil in Hj|]. cbn [foldl fmap list_fmap] in *. apply NoDup_cons in Hn as [H1 H2]. apply elem_of_cons in Hj as [<-|Hj].
  - rewrite foldl_insert_out by done. simpl. by rewrite list_lookup_insert.
  - apply IH; [done|done|]. by rewrite insert_length.
Qed.
Lemma range_bounds s : ∀ k i j c, (j, c) ∈ range_from k i s → (i ≤ j < i + length s)%nat.
Proof.
  induction s as [|b s IH]; intros k i j c Hj; [by apply elem_of_nil in Hj|]. cbn [range_from length] in *. destruct k as [|k].
  - destruct (decode_rune (b :: s)) as [c' w]. apply elem_of_cons in Hj as [[= -> ->]|Hj]; [lia|]. apply IH in Hj. lia.
  - apply IH in Hj. lia.
Qed.
Lemma range_NoDup s : ∀ k i, NoDup (range_from k i s).*1.
Proof.
  induction s as [|b s IH]; intros k i; [constructor|]. cbn [range_from]. destruct k as [|k]; [|apply IH]. destruct (decode_rune (b :: s)) as [c' w]. cbn [fmap list_fmap]. constructor; [|apply IH].
  intros Hin. apply elem_of_list_fmap in Hin as ([j c] & E & Hj). simpl in E. subst. apply range_bounds in Hj. lia.
Qed.
(** for text in any encoding: as many characters as the input has bytes; at the masked positions
    a star, or NUL where no character starts *)
Theorem mask_any s lo hi : Forall byte s → hi < Z.of_nat (length s) → ∃ rs, mask_loop s lo hi = of_runes rs ∧ runes (mask_loop s lo hi) = rs ∧ length rs = length s ∧
  (∀ j c, (j, c) ∈ go_range s → rs !! j = Some (starred lo hi (j, c))) ∧ (∀ j, j ∉ (go_range s).*1 → (j < length s)%nat → rs !! j = Some 0).
Proof.
  intros Hb Hh. unfold mask_loop. destruct (Z.ltb_spec hi (Z.of_nat (length s))); [|lia]. set (rs := foldl _ _ _). exists rs.
  assert (H1 : length rs = length s) by (unfold rs; rewrite (foldl_insert_length (starred lo hi)); apply replicate_length).
  assert (H2 : ∀ j c, (j, c) ∈ go_range s → rs !! j = Some (starred lo hi (j, c))).
  { intros j c Hj. apply (foldl_insert_in (starred lo hi)); [apply range_NoDup|done|]. rewrite replicate_length. apply range_bounds in Hj. lia. }
  assert (H3 : ∀ j, j ∉ (go_range s).*1 → (j < length s)%nat → rs !! j = Some 0).
  { intros j Hj Hl. unfold rs. rewrite (foldl_insert_out (starred lo hi)) by done. by apply lookup_replicate. }
  split_and!; [done| |done..]. apply runes_of_runes_nil. apply Forall_lookup. intros j x Hx. destruct (decide (j ∈ (go_range s).*1)) as [Hj|Hj].
  - apply elem_of_list_fmap in Hj as ([j' c] & E & Hj). simpl in E. subst j'. rewrite (H2 _ _ Hj) in Hx. injection Hx as <-. unfold starred. destruct (_ && _); [done|]. simpl.
    pose proof (runes_valid s Hb) as Hv. rewrite Forall_forall in Hv. apply Hv. unfold runes. apply elem_of_list_fmap. by exists (j, c).
  - rewrite H3 in Hx; [by injection Hx as <-|done|]. apply lookup_lt_Some in Hx. lia.
Qed.
(** for ASCII text: exactly the requested characters *)
Lemma mask_loop_ascii s off n : ascii_text s → (off + n < length s)%nat → mask_loop s (Z.of_nat off) (Z.of_nat (off + n)) = masked off n s.
Proof.
  intros Ha Hl. assert (Hb : Forall byte s) by (eapply Forall_impl; [exact Ha|]; unfold byte; simpl; lia).
  destruct (mask_any s (Z.of_nat off) (Z.of_nat (off + n)) Hb ltac:(lia)) as (rs & E & _ & H1 & H2 & _). rewrite E. 
  assert (Hr : rs = masked off n s).
  { apply list_eq. intros j. destruct (decide (j < length s)%nat) as [Hj|Hj].
    - destruct (lookup_lt_is_Some_2 s j Hj) as [c Hc]. rewrite (H2 j c).
      2:{ unfold go_range. rewrite range_ascii by (eapply Forall_impl; [exact Ha|]; simpl; lia). apply elem_of_list_lookup. exists j. rewrite list_lookup_imap, Hc. done. }
      unfold starred, masked. cbn [fst snd]. destruct (Z.leb_spec (Z.of_nat off) (Z.of_nat j)) as [Hoj|Hoj]; cbn [andb].
      + rewrite lookup_app_r by (rewrite take_length; lia). rewrite take_length, Nat.min_l by lia. destruct (Z.ltb_spec (Z.of_nat j) (Z.of_nat (off + n))) as [Hjn|Hjn].
        * rewrite lookup_app_l by (rewrite replicate_length; lia). symmetry. apply lookup_replicate. split; [done|lia].
        * rewrite lookup_app_r by (rewrite replicate_length; lia). rewrite replicate_length, lookup_drop, <- Hc. f_equal. lia.
      + rewrite lookup_app_l by (rewrite take_length; lia). rewrite lookup_take by lia. done.
    - rewrite !lookup_ge_None_2; [done| |lia]. unfold masked. rewrite !app_length, take_length, replicate_length, drop_length. lia. }
  rewrite Hr. apply of_runes_ascii. unfold masked. apply Forall_app. split; [by apply Forall_take|]. apply Forall_app. split; [apply Forall_replicate; lia|by apply Forall_drop].
Qed.
Definition offset_mobile (s : gostr) : nat := if (11 <? length s)%nat then 5 else 3.
Definition extra_backcard (s : gostr) : nat := (length s - 16)%nat.
Theorem mask_ascii_partial s n : ascii_text s →
  ((offset_mobile s + n < length s)%nat → is_i64 (Z.of_nat (offset_mobile s + n)) → mask_mobile s (Z.of_nat n) = masked (offset_mobile s) n s) ∧
  ((4 + n < length s)%nat → is_i64 (Z.of_nat (4 + n)) → mask_idcard s (Z.of_nat n) = masked 4 n s) ∧
  ((4 + n + extra_backcard s < length s)%nat → is_i64 (Z.of_nat (4 + n + extra_backcard s)) → mask_backcard s (Z.of_nat n) = masked 4 (n + extra_backcard s) s).
Proof.
  intros Ha. split_and!; intros Hl Hi.
  - unfold mask_mobile, offset_mobile in *. destruct (11 <? length s)%nat; rewrite i64_id by (unfold is_i64 in *; lia).
    + replace (Z.of_nat n + 5) with (Z.of_nat (5 + n)) by lia. by apply (mask_loop_ascii s 5).
    + replace (Z.of_nat n + 3) with (Z.of_nat (3 + n)) by lia. by apply (mask_loop_ascii s 3).
  - unfold mask_idcard. rewrite i64_id by (unfold is_i64 in *; lia). replace (Z.of_nat n + 4) with (Z.of_nat (4 + n)) by lia. by apply (mask_loop_ascii s 4).
  - unfold mask_backcard, extra_backcard in *. rewrite (i64_id (Z.of_nat n + 4)) by (unfold is_i64 in *; lia). destruct (Nat.ltb_spec 16 (length s)).
    + rewrite i64_id by (unfold is_i64 in *; lia). replace (Z.of_nat n + 4 + (Z.of_nat (length s) - 16)) with (Z.of_nat (4 + (n + (length s - 16)))) by lia. apply (mask_loop_ascii s 4); [done|lia].
    + replace (length s - 16)%nat with 0%nat in * by lia. replace (Z.of_nat n + 4) with (Z.of_nat (4 + (n + 0))) by lia. apply (mask_loop_ascii s 4); [done|lia].
Qed.
(** too large a number masks nothing at all *)
Theorem mask_too_many_refuted s n : is_i64 (n + 4) → Z.of_nat (length s) ≤ n + 3 → (length s ≤ 11)%nat → mask_mobile s n = s ∧ mask_idcard s n = s ∧ mask_backcard s n = s.
Proof.
  intros Hi Hn Hl. unfold mask_mobile, mask_idcard, mask_backcard, mask_loop. destruct (Nat.ltb_spec 11 (length s)); [lia|]. destruct (Nat.ltb_spec 16 (length s)); [lia|]. rewrite !i64_id by (unfold is_i64 in *; lia).
  destruct (Z.ltb_spec (n + 3) (Z.of_nat (length s))); [lia|]. destruct (Z.ltb_spec (n + 4) (Z.of_nat (length s))); [lia|]. done.
Qed.
Theorem mask_unmasked_refuted : ∃ s n, ascii_text s ∧ length s = 11%nat ∧ n = 8 ∧ mask_mobile s n = s ∧ mask_idcard s n = s ∧ mask_backcard s n = s.
Proof. exists (str "13812345678"), 8. split_and!; [|by vm_compute..]. apply Forall_forall. intros x Hx. apply elem_of_list_In in Hx. vm_compute in Hx. repeat (destruct Hx as [<-|Hx]; [lia|]). done. Qed.
(** non-ASCII text: NUL characters appear, the length changes and fewer characters are masked *)
Theorem mask_wide_refuted : ∃ s n, Forall byte s ∧ length (runes s) = 4%nat ∧ length (runes (mask_idcard s n)) = 12%nat ∧ 0 ∈ runes (mask_idcard s n) ∧ count_occ Z.eq_dec (runes (mask_idcard s n)) 42 = 1%nat ∧ n = 3.
Proof.
  exists (cjk [20013; 25991; 23383; 31526]), 3. split_and!; [|by vm_compute|by vm_compute| |by vm_compute|done].
  - apply Forall_forall. intros x Hx. apply elem_of_list_In in Hx. vm_compute in Hx. unfold byte. repeat (destruct Hx as [<-|Hx]; [lia|]). done.
  - apply elem_of_list_lookup. exists 1%nat. by vm_compute.
Qed.
Example mask_example : mask_mobile (str "13812345678") 4 = str "138****5678" ∧ mask_idcard (str "110101199003071234") 10 = str "1101**********1234" ∧ mask_backcard (str "6222021234567890123") 8 = str "6222***********0123".
Proof. split_and!; by vm_compute. Qed.

(** ** C55 *)
Lemma mask_customer_value cp s : caps cp → mask_customer cp s =
  if (4 <? length s)%nat then Ret (of_runes (take 2 (runes s)) ++ star 3 ++ of_runes (drop (length (runes s) - 2) (runes s)))
  else if (length s <? 1)%nat then Ret [] else Ret (of_runes (take 1 (runes s)) ++ star 3).
Proof.
  intros HC. unfold mask_customer. pose proof (runes_length4 s) as H4. destruct (Nat.ltb_spec 4 (length s)).
  - rewrite !slice_in by (done || lia). cbn [mbind go_bind]. rewrite decide_True by lia. cbn [mbind go_bind]. rewrite drop_0. rewrite (take_ge (drop _ _)) by (rewrite drop_length; lia). done.
  - destruct (Nat.ltb_spec (length s) 1); [done|]. rewrite slice_in by (done || lia). cbn [mbind go_bind]. by rewrite drop_0.
Qed.
Theorem mask_name_total cp s : caps cp → ∃ r, mask_customer cp s = Ret r.
Proof. intros HC. rewrite mask_customer_value by done. destruct (_ <? _)%nat; [by eexists|]. destruct (_ <? _)%nat; by eexists. Qed.
(** names of two to four characters and more than four bytes are shown in full: among the names of
    the same number of characters no other has this result *)
Lemma runes_masked a b : Forall (λ c, valid_rune c = true) a → Forall (λ c, valid_rune c = true) b → runes (of_runes a ++ star 3 ++ of_runes b) = a ++ [42; 42; 42] ++ b.
Proof.
  intros Ha Hb. rewrite runes_of_runes by done. f_equal. change (star 3) with (of_runes [42; 42; 42]). rewrite runes_of_runes; [|repeat constructor]. f_equal. by apply runes_of_runes_nil.
Qed.
Theorem mask_name_revealed_refuted cp s : caps cp → Forall byte s → Forall (λ c, c ≠ rune_error) (runes s) → (4 < length s)%nat → (2 ≤ length (runes s) ≤ 4)%nat →
  ∀ t, Forall byte t → length (runes t) = length (runes s) → mask_customer cp t = mask_customer cp s → t = s.
Proof.
  intros HC Hb He Hl Hn t Hbt Hlt E. rewrite !mask_customer_value in E by done. destruct (Nat.ltb_spec 4 (length s)); [|lia]. pose proof (runes_valid s Hb) as Hv. pose proof (runes_valid t Hbt) as Hvt.
  assert (H4 : (4 < length t)%nat ∧ of_runes (take 2 (runes t)) ++ star 3 ++ of_runes (drop (length (runes t) - 2) (runes t)) = of_runes (take 2 (runes s)) ++ star 3 ++ of_runes (drop (length (runes s) - 2) (runes s))) .
  { destruct (Nat.ltb_spec 4 (length t)); [by injection E|]. exfalso. destruct (Nat.ltb_spec (length t) 1); [injection E as E; by destruct (of_runes (take 2 (runes s)))|]. injection E as E.
    assert (HR : length (runes (of_runes (take 1 (runes t)) ++ star 3)) = length (runes (of_runes (take 2 (runes s)) ++ star 3 ++ of_runes (drop (length (runes s) - 2) (runes s))))) by (by rewrite E).
    rewrite runes_masked in HR by (by apply Forall_take || by apply Forall_drop). rewrite runes_of_runes in HR by (by apply Forall_take). rewrite !app_length, !take_length, drop_length in HR. change (length (runes (star 3))) with 3%nat in HR. cbn [length] in HR. lia. }
  destruct H4 as [H4 E2]. assert (HR : runes (of_runes (take 2 (runes t)) ++ star 3 ++ of_runes (drop (length (runes t) - 2) (runes t))) = runes (of_runes (take 2 (runes s)) ++ star 3 ++ of_runes (drop (length (runes s) - 2) (runes s)))) by (by rewrite E2).
  rewrite !runes_masked in HR by (by apply Forall_take || by apply Forall_drop). apply app_inj_1 in HR as [R1 R2]; [|rewrite !take_length; lia]. apply app_inv_head in R2.
  assert (Er : runes t = runes s).
  { apply list_eq. intros i. destruct (decide (i < 2)%nat) as [Hi|Hi].
    - assert (take 2 (runes t) !! i = take 2 (runes s) !! i) as H2 by (by rewrite R1). by rewrite !lookup_take in H2.
    - assert (drop (length (runes t) - 2) (runes t) !! (i - (length (runes s) - 2))%nat = drop (length (runes s) - 2) (runes s) !! (i - (length (runes s) - 2))%nat) as H2 by (by rewrite R2).
      rewrite !lookup_drop in H2. rewrite Hlt in H2. replace (length (runes s) - 2 + (i - (length (runes s) - 2)))%nat with i in H2 by lia. done. }
  rewrite <- (of_runes_runes s Hb He), <- Er. symmetry. apply of_runes_runes; [done|]. by rewrite Er.
Qed.
Theorem mask_name_shown_refuted : ∃ s, Forall byte s ∧ length (runes s) = 3%nat ∧ (4 < length s)%nat ∧ Forall (λ c, c ≠ rune_error) (runes s) ∧
  ∀ cp, caps cp → mask_customer cp s = Ret (of_runes (take 2 (runes s)) ++ str "***" ++ of_runes (drop 1 (runes s))).
Proof.
  exists (cjk [20013; 25991; 23383]). split_and!; [|by vm_compute|vm_compute; lia| |].
  - apply Forall_forall. intros x Hx. apply elem_of_list_In in Hx. vm_compute in Hx. unfold byte. repeat (destruct Hx as [<-|Hx]; [lia|]). done.
  - apply Forall_forall. intros x Hx. apply elem_of_list_In in Hx. vm_compute in Hx. unfold rune_error. repeat (destruct Hx as [<-|Hx]; [lia|]). done.
  - intros cp HC. rewrite mask_customer_value by done. by vm_compute.
Qed.
(** names of five or more characters, and names of at most four bytes, hide the rest *)
Theorem mask_name_hidden_partial cp s t : caps cp →
  ((5 ≤ length (runes s))%nat → (5 ≤ length (runes t))%nat → take 2 (runes s) = take 2 (runes t) → drop (length (runes s) - 2) (runes s) = drop (length (runes t) - 2) (runes t) → mask_customer cp s = mask_customer cp t) ∧
  ((1 ≤ length s ≤ 4)%nat → (1 ≤ length t ≤ 4)%nat → head (runes s) = head (runes t) → mask_customer cp s = mask_customer cp t).
Proof.
  intros HC. rewrite !mask_customer_value by done. split.
  - intros H1 H2 Ht Hd. pose proof (runes_length s). pose proof (runes_length t). destruct (Nat.ltb_spec 4 (length s)); [|lia]. destruct (Nat.ltb_spec 4 (length t)); [|lia]. by rewrite Ht, Hd.
  - intros H1 H2 Hh. destruct (Nat.ltb_spec 4 (length s)); [lia|]. destruct (Nat.ltb_spec 4 (length t)); [lia|]. destruct (Nat.ltb_spec (length s) 1); [lia|]. destruct (Nat.ltb_spec (length t) 1); [lia|].
    pose proof (runes_length4 s). pose proof (runes_length4 t). destruct (runes s) as [|x ?]; [simpl in *; lia|]. destruct (runes t) as [|y ?]; [simpl in *; lia|]. injection Hh as ->. done.
Qed.
Example mask_name_example : mask_customer (λ n, n) (str "Anderson") = Ret (str "An***on") ∧ mask_customer (λ n, n) (str "Li") = Ret (str "L***").
Proof. split; by vm_compute. Qed.
Print Assumptions hide_mobile.
Print Assumptions hide_name.
Print Assumptions hide_name_short.
Print Assumptions hide_name_long.
Print Assumptions hide_email.
Print Assumptions hide_star_total.
Print Assumptions hide_star_capacity.
Print Assumptions mask_any.
Print Assumptions mask_ascii_partial.
Print Assumptions mask_too_many_refuted.
Print Assumptions mask_unmasked_refuted.
Print Assumptions mask_wide_refuted.
Print Assumptions mask_name_total.
Print Assumptions mask_name_revealed_refuted.
Print Assumptions mask_name_shown_refuted.
Print Assumptions mask_name_hidden_partial.
