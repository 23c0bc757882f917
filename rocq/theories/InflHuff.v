(** * Huffman codes: the decoder's table has exactly the codes of RFC 1951 *)
From Verif Require Import GoBase GoStr InflModel InflSpec.
Local Open Scope Z_scope.

Lemma sum_app a b : sum_Z (a ++ b) = sum_Z a + sum_Z b.
Proof. induction a as [|x a IH]; cbn; [done|]. unfold sum_Z in *. cbn. lia. Qed.
Lemma sum_cons x a : sum_Z (x :: a) = x + sum_Z a.
Proof. done. Qed.
Lemma sum_map_mul k (f g : nat → Z) l : (∀ x, x ∈ l → g x = k * f x) → sum_Z (g <$> l) = k * sum_Z (f <$> l).
Proof. induction l as [|x l IH]; intros H; [cbn; lia|]. rewrite !fmap_cons, !sum_cons, IH, H; [lia|left|]. intros y Hy. apply H. by right. Qed.
Lemma sum_map_add (f g h : nat → Z) l : (∀ x, x ∈ l → h x = f x + g x) → sum_Z (h <$> l) = sum_Z (f <$> l) + sum_Z (g <$> l).
Proof. induction l as [|x l IH]; intros H; [done|]. rewrite !fmap_cons, !sum_cons, IH, H; [lia|left|]. intros y Hy. apply H. by right. Qed.
Lemma sum_map_ext (f g : nat → Z) l : (∀ x, x ∈ l → f x = g x) → sum_Z (f <$> l) = sum_Z (g <$> l).
Proof. induction l as [|x l IH]; intros H; [done|]. rewrite !fmap_cons, !sum_cons, IH, H; [done|left|]. intros y Hy. apply H. by right. Qed.
Lemma sum_map_le (f g : nat → Z) l : (∀ x, x ∈ l → f x ≤ g x) → sum_Z (f <$> l) ≤ sum_Z (g <$> l).
Proof. induction l as [|x l IH]; intros H; [done|]. rewrite !fmap_cons, !sum_cons. specialize (IH (λ y Hy, H y (elem_of_list_further _ _ _ Hy))). specialize (H x (elem_of_list_here _ _)). lia. Qed.
Lemma sum_map_0 (f : nat → Z) l : (∀ x, x ∈ l → f x = 0) → sum_Z (f <$> l) = 0.
Proof. intros H. rewrite (sum_map_ext f (λ _, 0)) by done. clear. induction l; [done|]. rewrite fmap_cons, sum_cons. lia. Qed.
Lemma count_sum lens n : count_len lens n = sum_Z ((λ m, if decide (m = n) then 1 else 0) <$> lens).
Proof. unfold count_len. induction lens as [|m l IH]; [done|]. rewrite filter_cons, fmap_cons, sum_cons. destruct (decide (m = n)); cbn [length]; lia. Qed.
Lemma count_nonneg lens n : 0 ≤ count_len lens n.
Proof. unfold count_len. lia. Qed.
Lemma shorter_nonneg lens n : 0 ≤ shorter lens n.
Proof. unfold shorter. etransitivity; [|apply (sum_map_le (λ _, 0))]; [by rewrite sum_map_0|]. intros m _. destruct (decide _); [apply Z.pow_nonneg; lia|done]. Qed.
Lemma shorter_S lens n : (0 < n)%nat → shorter lens (S n) = 2 * (shorter lens n + count_len lens n).
Proof.
  intros Hn. rewrite count_sum. unfold shorter. rewrite <- (sum_map_add _ _ (λ m, (if decide (0 < m < n)%nat then 2 ^ Z.of_nat (n - m) else 0) + if decide (m = n) then 1 else 0)) by done.
  apply sum_map_mul. intros m _. destruct (decide (0 < m < S n)%nat), (decide (0 < m < n)%nat), (decide (m = n)); try lia.
  - replace (S n - m)%nat with (S (n - m)) by lia. rewrite Nat2Z.inj_succ, Z.pow_succ_r by lia. lia.
  - subst. replace (S n - n)%nat with 1%nat by lia. done.
Qed.
Lemma same_le lens n s : same lens n s ≤ count_len lens n.
Proof.
  rewrite count_sum. unfold same. rewrite <- (take_drop s lens) at 2. rewrite fmap_app, sum_app.
  assert (0 ≤ sum_Z ((λ m, if decide (m = n) then 1 else 0) <$> drop s lens)); [|lia]. rewrite <- count_sum. apply count_nonneg.
Qed.
Lemma same_nonneg lens n s : 0 ≤ same lens n s.
Proof. unfold same. rewrite <- count_sum. apply count_nonneg. Qed.
Lemma same_lt lens n s t : (s < t)%nat → lens !! s = Some n → same lens n s < same lens n t.
Proof.
  intros Hst Hs. unfold same. replace t with (s + S (t - s - 1))%nat by lia. rewrite <- take_take_drop, fmap_app, sum_app. rewrite (drop_S _ _ _ Hs). cbn [take]. rewrite fmap_cons, sum_cons. rewrite decide_True by done.
  assert (0 ≤ sum_Z ((λ m, if decide (m = n) then 1 else 0) <$> take (t - s - 1) (drop (S s) lens))); [|lia]. rewrite <- count_sum. apply count_nonneg.
Qed.
Lemma same_step lens n s m : lens !! s = Some m → same lens n (S s) = same lens n s + if decide (m = n) then 1 else 0.
Proof. intros Hs. unfold same. rewrite (take_S_r _ _ _ Hs), fmap_app, sum_app. cbn. lia. Qed.
Lemma same_lt_count lens n s : lens !! s = Some n → same lens n s < count_len lens n.
Proof. intros Hs. pose proof (same_step lens n s n Hs) as E. rewrite decide_True in E by done. pose proof (same_le lens n (S s)). lia. Qed.

(** ** the loops of init *)
Lemma max_len_le lens n : n ∈ lens → (n ≤ max_len lens)%nat.
Proof. induction 1 as [n l|n m l _ IH]; cbn; [lia|]. unfold max_len in *. cbn. lia. Qed.
Lemma max_len_in lens : max_len lens ≠ 0%nat → max_len lens ∈ lens.
Proof. induction lens as [|n l IH]; [done|]. cbn. intros H. destruct (Nat.max_spec n (max_len l)) as [[H1 E]|[H1 E]]; unfold max_len in *; cbn in *; rewrite E in *; [right; auto|left]. Qed.
Lemma max_len_15 lens : Forall (λ n, n ≤ 15)%nat lens → (max_len lens ≤ 15)%nat.
Proof. induction 1; cbn; [lia|]. unfold max_len in *. cbn. lia. Qed.
Lemma min_len_from lens : ∀ m, let r := foldl (λ m n, if (n =? 0)%nat then m else if (m =? 0)%nat || (n <? m)%nat then n else m) m lens in
  (m ≠ 0%nat → r ≠ 0%nat ∧ r ≤ m)%nat ∧ (∀ n, n ∈ lens → n ≠ 0%nat → r ≠ 0%nat ∧ r ≤ n)%nat ∧ (r ≤ max_len lens ∨ r = m)%nat.
Proof.
  induction lens as [|a l IH]; intros m; cbn zeta. { cbn. split_and!; [lia| |lia]. intros n Hn. by apply elem_of_nil in Hn. }
  cbn [foldl]. set (m' := if (a =? 0)%nat then m else if (m =? 0)%nat || (a <? m)%nat then a else m). specialize (IH m'). cbn zeta in IH. destruct IH as (I1 & I2 & I3).
  assert (Hm : (m ≠ 0 → m' ≠ 0 ∧ m' ≤ m)%nat). { unfold m'. intros. destruct (Nat.eqb_spec a 0), (Nat.eqb_spec m 0), (Nat.ltb_spec a m); cbn; lia. }
  assert (Ha : (a ≠ 0 → m' ≠ 0 ∧ m' ≤ a)%nat). { unfold m'. intros. destruct (Nat.eqb_spec a 0), (Nat.eqb_spec m 0), (Nat.ltb_spec a m); cbn; lia. }
  assert (Hx : (m' = a ∨ m' = m)%nat). { unfold m'. destruct (Nat.eqb_spec a 0), (Nat.eqb_spec m 0), (Nat.ltb_spec a m); cbn; lia. }
  split_and!.
  - intros H. destruct (Hm H). destruct I1; [done|]. lia.
  - intros n Hn H. apply elem_of_cons in Hn as [->|Hn]; [|by apply I2]. destruct (Ha H). destruct I1; [done|]. lia.
  - unfold max_len in *. cbn [foldr]. destruct Hx, I3; lia.
Qed.
Lemma next_codes_ok lens k : ∀ i code next, (0 < i)%nat → 2 * code = shorter lens i → length next = 16%nat → (i + k ≤ 16)%nat →
  let '(code', next') := next_codes lens k i code next in 2 * code' = shorter lens (i + k) ∧ length next' = 16%nat ∧
    (∀ j, (i ≤ j < i + k)%nat → nth j next' 0 = shorter lens j) ∧ ∀ j, (j < i)%nat → nth j next' 0 = nth j next 0.
Proof.
  induction k as [|k IH]; intros i code next Hi Hc Hl Hk; cbn [next_codes]. { rewrite Nat.add_0_r. split_and!; [done|done|lia|done]. }
  cbv zeta. specialize (IH (S i) (2 * code + count_len lens i) (<[i:=2 * code]> next)). destruct (next_codes _ _ _ _ _) as [code' next']. destruct IH as (H1 & H2 & H3 & H4).
  - lia. - rewrite shorter_S by lia. lia. - by rewrite insert_length. - lia.
  - replace (i + S k)%nat with (S i + k)%nat by lia. split_and!; [done|done| |].
    + intros j Hj. destruct (decide (j = i)) as [->|]; [|apply H3; lia]. rewrite H4 by lia. rewrite nth_lookup, list_lookup_insert by lia. cbn. lia.
    + intros j Hj. rewrite H4 by lia. by rewrite !nth_lookup, list_lookup_insert_ne by lia.
Qed.
Lemma assign_ok all : ∀ lens pre next, all = pre ++ lens → length next = 16%nat → Forall (λ n, n ≤ 15)%nat lens →
  (∀ n, n ∈ lens → n ≠ 0%nat → nth n next 0 = shorter all n + same all n (length pre)) →
  ∀ n c s, HCode n c s ∈ assign lens (length pre) next ↔ n ≠ 0%nat ∧ (length pre ≤ s)%nat ∧ all !! s = Some n ∧ c = shorter all n + same all n s.
Proof.
  induction lens as [|a l IH]; intros pre next Ea Hl Hf Hn n c s; cbn [assign].
  - split; [intros H; by apply elem_of_nil in H|]. intros (_ & Hs & H & _). subst. rewrite app_nil_r in H. apply lookup_lt_Some in H. lia.
  - inversion Hf as [|?? Hf1 Hf2]; subst. assert (Hh : (pre ++ a :: l) !! length pre = Some a) by (by rewrite list_lookup_middle).
    assert (Ea' : pre ++ a :: l = (pre ++ [a]) ++ l) by (by rewrite <- app_assoc). assert (El : length (pre ++ [a]) = S (length pre)) by (rewrite app_length; cbn; lia).
    destruct (Nat.eqb_spec a 0) as [->|Ha].
    + rewrite <- El. rewrite (IH (pre ++ [0%nat]) next Ea' Hl Hf2). 2: { intros m Hm Hm0. rewrite El, (same_step _ _ _ 0%nat) by done. rewrite decide_False by done. rewrite Z.add_0_r. apply Hn; [by right|done]. }
      rewrite El. split; intros (H1 & H2 & H3 & H4); (split_and!; [done| |done|done]); [lia|]. destruct (decide (s = length pre)) as [->|]; [congruence|lia].
    + cbv zeta. rewrite elem_of_cons. rewrite <- El. rewrite (IH (pre ++ [a]) _ Ea').
      2: by rewrite insert_length. 2: done.
      2: { intros m Hm Hm0. rewrite El, (same_step _ _ _ a) by done. rewrite Forall_forall in Hf2. specialize (Hf2 m Hm). destruct (decide (a = m)) as [<-|].
        - rewrite nth_lookup, list_lookup_insert by lia. cbn. rewrite Hn by (done || left). lia.
        - rewrite nth_lookup, list_lookup_insert_ne by done. rewrite <- nth_lookup. rewrite Z.add_0_r. apply Hn; [by right|done]. }
      rewrite El. rewrite Hn by (done || left). split.
      * intros [[= -> -> ->]|(H1 & H2 & H3 & H4)]; split_and!; try done; lia.
      * intros (H1 & H2 & H3 & H4). destruct (decide (s = length pre)) as [->|]; [left|right; split_and!; try done; lia]. rewrite Hh in H3. by simplify_eq.
Qed.
(** the entries for accepted lengths *)
Definition entries_ok (lens : list nat) (t : list hcode) : Prop := ∀ n c s, HCode n c s ∈ t ↔ n ≠ 0%nat ∧ lens !! s = Some n ∧ c = shorter lens n + same lens n s.
Lemma shorter_all lens n : (∀ m, m ∈ lens → m < n)%nat → shorter lens n = sum_Z ((λ m, if decide (0 < m)%nat then 2 ^ Z.of_nat (n - m) else 0) <$> lens).
Proof. intros H. apply sum_map_ext. intros m Hm. specialize (H m Hm). destruct (decide (0 < m < n)%nat), (decide (0 < m)%nat); try done; lia. Qed.
Lemma full_shorter lens : Forall (λ n, n ≤ 15)%nat lens → full lens ↔ shorter lens (S (max_len lens)) = 2 ^ Z.of_nat (S (max_len lens)).
Proof.
  intros Hf. pose proof (max_len_15 _ Hf) as Hm. rewrite shorter_all by (intros m Hm'; apply max_len_le in Hm'; lia). unfold full.
  assert (E : 2 * sum_Z ((λ m, if decide (0 < m)%nat then 2 ^ Z.of_nat (15 - m) else 0) <$> lens) = 2 ^ Z.of_nat (15 - max_len lens) * sum_Z ((λ m, if decide (0 < m)%nat then 2 ^ Z.of_nat (S (max_len lens) - m) else 0) <$> lens)).
  { rewrite <- (sum_map_mul 2 _ (λ m, if decide (0 < m)%nat then 2 ^ Z.of_nat (16 - m) else 0)).
    - apply sum_map_mul. intros m Hm'. apply max_len_le in Hm'. destruct (decide (0 < m)%nat); [|lia]. rewrite <- Z.pow_add_r by lia. f_equal. lia.
    - intros m Hm'. apply max_len_le in Hm'. destruct (decide (0 < m)%nat); [|lia]. replace (Z.of_nat (16 - m)) with (Z.succ (Z.of_nat (15 - m))) by lia. rewrite Z.pow_succ_r by lia. done. }
  set (A := sum_Z _) in *. set (B := sum_Z _) in *. assert (E2 : 2 ^ Z.of_nat (15 - max_len lens) * 2 ^ Z.of_nat (S (max_len lens)) = 2 * 2 ^ 15). { rewrite <- Z.pow_add_r by lia. replace (Z.of_nat (15 - max_len lens) + Z.of_nat (S (max_len lens))) with 16 by lia. done. }
  pose proof (Z.pow_pos_nonneg 2 (Z.of_nat (15 - max_len lens))). split; intros H'; nia.
Qed.
Lemma unused_max lens : unused lens ↔ max_len lens = 0%nat.
Proof. unfold unused, max_len. induction lens as [|n l IH]; [done|]. cbn. rewrite Forall_cons, IH. lia. Qed.
Lemma single_count lens : single lens ↔ max_len lens = 1%nat ∧ count_len lens 1 = 1.
Proof.
  split.
  - intros (s & Hs & Ho). assert (Hin : ∀ n, n ∈ lens → (n ≤ 1)%nat). { intros n [t Ht]%elem_of_list_lookup. destruct (decide (t = s)) as [->|E]; [simplify_eq; lia|]. rewrite (Ho t n Ht E). lia. }
    split.
    + pose proof (max_len_le lens 1). assert (max_len lens ≠ 0%nat) by (intros E; rewrite E in *; assert (1 ≤ 0)%nat by (apply H; by eapply elem_of_list_lookup_2); lia). apply max_len_in in H0. apply Hin in H0. pose proof (H (elem_of_list_lookup_2 _ _ _ Hs)). lia.
    + pose proof (same_step lens 1 s 1 Hs) as E. rewrite decide_True in E by done. rewrite count_sum. rewrite <- (take_drop (S s) lens) at 1. rewrite fmap_app, sum_app. change (sum_Z ((λ m, if decide (m = 1%nat) then 1 else 0) <$> take (S s) lens)) with (same lens 1 (S s)). rewrite E.
      unfold same. rewrite sum_map_0, sum_map_0; [done|..].
      * intros x [t Ht]%elem_of_list_lookup. rewrite lookup_drop in Ht. rewrite (Ho _ _ Ht) by lia. done.
      * intros x [t Ht]%elem_of_list_lookup. assert (t < s)%nat by (apply lookup_lt_Some in Ht; rewrite take_length in Ht; lia). rewrite lookup_take in Ht by done. rewrite (Ho _ _ Ht) by lia. done.
  - intros [Hm Hc]. assert (H1 : 1%nat ∈ lens) by (rewrite <- Hm; apply max_len_in; lia). apply elem_of_list_lookup in H1 as [s Hs]. exists s. split; [done|]. intros t n Ht Hts. assert (Hn : (n ≤ 1)%nat) by (rewrite <- Hm; apply max_len_le; by eapply elem_of_list_lookup_2).
    destruct n as [|[|n]]; [done| |lia]. exfalso. destruct (decide (s < t)%nat) as [Hlt|Hge].
    + pose proof (same_lt lens 1 s t Hlt Hs). pose proof (same_lt_count lens 1 t Ht). pose proof (same_nonneg lens 1 s). lia.
    + pose proof (same_lt lens 1 t s ltac:(lia) Ht). pose proof (same_lt_count lens 1 s Hs). pose proof (same_nonneg lens 1 t). lia.
Qed.
Lemma huff_init_ok lens : Forall (λ n, n ≤ 15)%nat lens → match huff_init lens with Some t => usable lens ∧ entries_ok lens t | None => ¬ usable lens end.
Proof.
  intros Hf. unfold huff_init. cbv zeta. pose proof (max_len_15 _ Hf) as H15. destruct (Nat.eqb_spec (max_len lens) 0) as [Hm|Hm].
  { split; [split; [done|]; right; right; by apply unused_max|]. intros n c s. split; [intros H; by apply elem_of_nil in H|]. intros (H1 & H2 & _). apply elem_of_list_lookup_2, max_len_le in H2. lia. }
  pose proof (min_len_from lens 0) as Hmin. cbn zeta in Hmin. fold (min_len lens) in Hmin. destruct Hmin as (_ & M1 & M2). destruct (M1 _ (max_len_in lens Hm) Hm) as [M3 M4]. clear M2.
  assert (Hsh : shorter lens (min_len lens) = 0). { unfold shorter. apply sum_map_0. intros m Hmm. destruct (decide (0 < m < min_len lens)%nat); [|done]. destruct (M1 m Hmm); lia. }
  pose proof (next_codes_ok lens (max_len lens - min_len lens + 1) (min_len lens) 0 (replicate 16 0)) as Hnc. destruct (next_codes _ _ _ _ _) as [code next]. destruct Hnc as (N1 & N2 & N3 & _); [lia|lia|done|lia|].
  replace (min_len lens + (max_len lens - min_len lens + 1))%nat with (S (max_len lens)) in * by lia.
  assert (Hfull : full lens ↔ code = 2 ^ Z.of_nat (max_len lens)). { rewrite full_shorter by done. rewrite <- N1, Nat2Z.inj_succ, Z.pow_succ_r by lia. lia. }
  assert (Hs1 : shorter lens 1 = 0) by (apply sum_map_0; intros m _; rewrite decide_False by lia; done).
  assert (Hsing : single lens ↔ code = 1 ∧ max_len lens = 1%nat).
  { rewrite single_count. split; intros [H1 H2]; [rewrite H1 in N1|rewrite H2 in N1]; rewrite shorter_S, Hs1 in N1 by lia; split; try done; lia. }
  assert (Hent : entries_ok lens (assign lens 0 next)).
  { intros n c s. pose proof (assign_ok lens lens [] next eq_refl N2 Hf) as HA. cbn [length] in HA. rewrite HA; [split; intros; destruct_and!; split_and!; try done; lia|]. intros m Hmm Hm0. unfold same. cbn [take fmap list_fmap sum_Z foldr]. rewrite Z.add_0_r. apply N3. destruct (M1 m Hmm Hm0). apply max_len_le in Hmm. lia. }
  destruct (Z.eqb_spec code (2 ^ Z.of_nat (max_len lens))) as [E|E]; cbn [negb andb].
  { split; [split; [done|]; left; by apply Hfull|done]. }
  destruct (Z.eqb_spec code 1) as [E1|E1], (Nat.eqb_spec (max_len lens) 1) as [E2|E2]; cbn [negb andb].
  { split; [split; [done|]; right; left; by apply Hsing|done]. }
  all: intros [_ [Hu|[Hu|Hu]]]; [apply Hfull in Hu; congruence|apply Hsing in Hu as [H1 H2]; congruence|apply unused_max in Hu; congruence].
Qed.

(** ** codes *)
Lemma code_num_from b : ∀ s, foldl (λ s c, 2 * s + Z.b2z c) s b = s * 2 ^ Z.of_nat (length b) + code_num b.
Proof.
  unfold code_num. induction b as [|c b IH]; intros s. { cbn. lia. }
  cbn [foldl length]. rewrite IH. rewrite (IH (2 * 0 + Z.b2z c)). rewrite Nat2Z.inj_succ, Z.pow_succ_r by lia. lia.
Qed.
Lemma code_num_app a b : code_num (a ++ b) = code_num a * 2 ^ Z.of_nat (length b) + code_num b.
Proof. unfold code_num at 1. rewrite foldl_app. apply code_num_from. Qed.
Lemma code_num_snoc a x : code_num (a ++ [x]) = 2 * code_num a + Z.b2z x.
Proof. rewrite code_num_app. cbn [length]. change (2 ^ Z.of_nat 1) with 2. unfold code_num. cbn [foldl]. lia. Qed.
Lemma code_num_range b : 0 ≤ code_num b < 2 ^ Z.of_nat (length b).
Proof.
  induction b as [|x b IH] using rev_ind. { cbn. lia. }
  rewrite code_num_snoc, app_length. cbn [length]. replace (Z.of_nat (length b + 1)) with (Z.succ (Z.of_nat (length b))) by lia. rewrite Z.pow_succ_r by lia. destruct x; cbn; lia.
Qed.
Lemma code_num_inj a : ∀ b, length a = length b → code_num a = code_num b → a = b.
Proof.
  induction a as [|x a IH] using rev_ind; intros b Hl E. { destruct b; [done|cbn in Hl; lia]. }
  destruct b as [|y b' _] using rev_ind. { rewrite app_length in Hl. cbn in Hl. lia. }
  rewrite !code_num_snoc in E. rewrite !app_length in Hl. cbn in Hl. assert (x = y ∧ code_num a = code_num b') as [-> E'] by (destruct x, y; cbn in E; (split; [done|lia]) || lia). by rewrite (IH b') by (done || lia).
Qed.
Lemma shorter_grows lens m k : (0 < m)%nat → 2 ^ Z.of_nat (S k) * (shorter lens m + count_len lens m) ≤ shorter lens (m + S k).
Proof.
  intros Hm. induction k as [|k IH]. { rewrite Nat.add_1_r, shorter_S by done. change (2 ^ Z.of_nat 1) with 2. lia. }
  replace (m + S (S k))%nat with (S (m + S k)) by lia. rewrite shorter_S by lia. rewrite Nat2Z.inj_succ, Z.pow_succ_r by lia. pose proof (count_nonneg lens (m + S k)). lia.
Qed.
Lemma code_fun lens s t w : code_of lens s w → code_of lens t w → s = t.
Proof.
  intros (_ & H1 & H2) (_ & H3 & H4). destruct (decide (s = t)) as [|Hne]; [done|]. exfalso.
  destruct (decide (s < t)%nat). - pose proof (same_lt lens (length w) s t ltac:(lia) H1). lia. - pose proof (same_lt lens (length w) t s ltac:(lia) H3). lia.
Qed.
Lemma code_inj lens s w w' : code_of lens s w → code_of lens s w' → w = w'.
Proof. intros (_ & H1 & H2) (_ & H3 & H4). assert (El : length w = length w') by congruence. apply code_num_inj; [done|]. rewrite El in H2. lia. Qed.
Lemma code_prefix lens s t w v : code_of lens s (w ++ v) → code_of lens t w → v = [].
Proof.
  intros (_ & H1 & H2) (H0 & H3 & H4). destruct v as [|x v]; [done|]. exfalso. assert (Hw : (0 < length w)%nat) by (destruct w; [done|cbn; lia]).
  pose proof (shorter_grows lens (length w) (length v) Hw) as Hg. rewrite app_length in H2. cbn [length] in H2. pose proof (same_nonneg lens (length w + S (length v)) s). pose proof (same_lt_count lens _ t H3). rewrite code_num_app in H2. pose proof (code_num_range (x :: v)) as Hr. cbn [length] in *. nia.
Qed.
Lemma find_code_ok lens t n c s : entries_ok lens t → n ≠ 0%nat → find_code t n c = Some s ↔ lens !! s = Some n ∧ c = shorter lens n + same lens n s.
Proof.
  intros He Hn. unfold find_code. destruct (list_find _ t) as [[i [n' c' s']]|] eqn:E.
  - apply list_find_Some in E as (E1 & [E2 E3] & _). cbn in E2, E3. subst n' c'. apply elem_of_list_lookup_2, He in E1 as (_ & E1 & E2). cbn. split; [intros [= <-]; done|]. intros [H1 H2]. f_equal.
    destruct (decide (s' = s)) as [|Hne]; [done|]. exfalso. destruct (decide (s < s')%nat). + pose proof (same_lt lens n s s' ltac:(lia) H1). lia. + pose proof (same_lt lens n s' s ltac:(lia) E1). lia.
  - apply list_find_None in E. split; [done|]. intros [H1 H2]. exfalso. rewrite Forall_forall in E. apply (E (HCode n c s)); [by apply He|done].
Qed.
Lemma huff_sym_sound lens t k : entries_ok lens t → ∀ w b s r, huff_sym_from t k (length w) (code_num w) b = DOk (s, r) → ∃ u, u ≠ [] ∧ b = u ++ r ∧ code_of lens s (w ++ u).
Proof.
  intros He. induction k as [|k IH]; intros w b s r E; [done|]. cbn [huff_sym_from] in E. destruct b as [|x b]; [done|]. cbv zeta in E.
  rewrite <- code_num_snoc in E. replace (S (length w)) with (length (w ++ [x])) in E by (rewrite app_length; cbn; lia). destruct (find_code t (length (w ++ [x])) (code_num (w ++ [x]))) as [s'|] eqn:Ef.
  - injection E as -> ->. apply (find_code_ok lens) in Ef as [H1 H2]; [|done|rewrite app_length; cbn; lia]. exists [x]. split_and!; [done|done|]. split; [by destruct w|done].
  - apply IH in E as (u & Hu & -> & Hc). exists (x :: u). split_and!; [done|done|]. by rewrite <- app_assoc in Hc.
Qed.
Lemma huff_sym_complete lens t k : entries_ok lens t → ∀ u w s r, u ≠ [] → (length u ≤ k)%nat → code_of lens s (w ++ u) → huff_sym_from t k (length w) (code_num w) (u ++ r) = DOk (s, r).
Proof.
  intros He. induction k as [|k IH]; intros u w s r Hu Hk Hc; destruct u as [|x u]; try done; cbn [length] in Hk; [lia|]. cbn [huff_sym_from app]. cbv zeta.
  rewrite <- code_num_snoc. replace (S (length w)) with (length (w ++ [x])) by (rewrite app_length; cbn; lia).
  assert (Hn0 : length (w ++ [x]) ≠ 0%nat) by (rewrite app_length; cbn; lia). replace (w ++ x :: u) with ((w ++ [x]) ++ u) in Hc by (by rewrite <- app_assoc).
  destruct (find_code t (length (w ++ [x])) (code_num (w ++ [x]))) as [s'|] eqn:Ef.
  - apply (find_code_ok lens) in Ef as [H1 H2]; [|done|done]. assert (Hc' : code_of lens s' (w ++ [x])) by (split; [by destruct w|done]). pose proof (code_prefix _ _ _ _ _ Hc Hc') as ->. rewrite app_nil_r in Hc. by rewrite (code_fun _ _ _ _ Hc Hc').
  - destruct u as [|y u]; [|by apply IH; [done|cbn in *; lia|]]. exfalso. rewrite app_nil_r in Hc. destruct Hc as (_ & H1 & H2). assert (find_code t (length (w ++ [x])) (code_num (w ++ [x])) = Some s) by (by apply (find_code_ok lens)). congruence.
Qed.
Lemma huff_sym_ok lens t b s r : entries_ok lens t → Forall (λ n, n ≤ 15)%nat lens → huff_sym t b = DOk (s, r) ↔ ∃ w, code_of lens s w ∧ b = w ++ r.
Proof.
  intros He Hf. unfold huff_sym. split.
  - intros E. destruct (huff_sym_sound lens t 15 He [] b s r E) as (u & Hu & -> & Hc). by exists u.
  - intros (w & Hc & ->). apply (huff_sym_complete lens t 15 He w [] s r); [apply Hc| |done]. destruct Hc as (_ & Hl & _). rewrite Forall_forall in Hf. apply Hf. by eapply elem_of_list_lookup_2.
Qed.

(** every used symbol of a usable code has a code, and a full code leaves no string of bits without one *)
Lemma shorter_16 lens : Forall (λ n, n ≤ 15)%nat lens → full lens → shorter lens 16 = 2 ^ 16.
Proof.
  intros Hf E. rewrite Forall_forall in Hf. rewrite shorter_all by (intros m Hm; specialize (Hf m Hm); cbn in *; lia). unfold full in E. change (2 ^ 16) with (2 * 2 ^ 15). rewrite <- E. apply sum_map_mul. intros m Hm. specialize (Hf m Hm). cbn beta in Hf. destruct (decide _); [|lia].
  replace (Z.of_nat (16 - m)) with (Z.succ (Z.of_nat (15 - m))) by lia. by rewrite Z.pow_succ_r by lia.
Qed.
Definition bits_of_code (n : nat) (c : Z) : list bool := reverse ((λ k, Z.testbit c (Z.of_nat k)) <$> seq 0 n).
Lemma bits_of_code_ok n : ∀ c, 0 ≤ c < 2 ^ Z.of_nat n → length (bits_of_code n c) = n ∧ code_num (bits_of_code n c) = c.
Proof.
  induction n as [|n IH]; intros c Hc. { change (2 ^ Z.of_nat 0) with 1 in Hc. cbn. lia. }
  rewrite Nat2Z.inj_succ, Z.pow_succ_r in Hc by lia. assert (E : bits_of_code (S n) c = bits_of_code n (c / 2) ++ [Z.testbit c 0]).
  { unfold bits_of_code. rewrite <- cons_seq, fmap_cons, reverse_cons. f_equal. f_equal. rewrite <- seq_shift, <- list_fmap_compose. apply list_fmap_ext. intros k j _. unfold compose. rewrite <- Z.div2_div, Z.div2_spec, Z.shiftr_spec by lia. f_equal. lia. }
  rewrite E. destruct (IH (c / 2)) as [H1 H2]. { split; [apply Z.div_pos; lia|apply Z.div_lt_upper_bound; lia]. }
  split; [rewrite app_length, H1; cbn; lia|]. rewrite code_num_snoc, H2. pose proof (Z.div_mod c 2 ltac:(lia)) as Hd. rewrite <- Z.bit0_mod in Hd. lia.
Qed.
Lemma code_exists lens s n : usable lens → lens !! s = Some n → n ≠ 0%nat → ∃ w, code_of lens s w.
Proof.
  intros [Hf Hu] Hs Hn. pose proof (same_lt_count lens n s Hs) as Hsame. pose proof (same_nonneg lens n s). pose proof (shorter_nonneg lens n). assert (Hn15 : (n ≤ 15)%nat) by (rewrite Forall_forall in Hf; apply Hf; by eapply elem_of_list_lookup_2).
  assert (Hlt : shorter lens n + same lens n s < 2 ^ Z.of_nat n).
  { destruct Hu as [Hu|[Hu|Hu]].
    - pose proof (shorter_grows lens n (15 - n) ltac:(lia)) as Hg. replace (n + S (15 - n))%nat with 16%nat in Hg by lia. rewrite shorter_16 in Hg by done.
      assert (E : 2 ^ Z.of_nat (S (15 - n)) * 2 ^ Z.of_nat n = 2 ^ 16). { rewrite <- Z.pow_add_r by lia. f_equal. lia. } pose proof (Z.pow_pos_nonneg 2 (Z.of_nat (S (15 - n)))). nia.
    - apply single_count in Hu as [Hm Hc]. assert (n = 1%nat) as -> by (apply elem_of_list_lookup_2, max_len_le in Hs; lia). assert (shorter lens 1 = 0) by (apply sum_map_0; intros m _; rewrite decide_False by lia; done). change (2 ^ Z.of_nat 1) with 2. lia.
    - apply elem_of_list_lookup_2 in Hs. unfold unused in Hu. rewrite Forall_forall in Hu. by apply Hu in Hs. }
  destruct (bits_of_code_ok n (shorter lens n + same lens n s)) as [H1 H2]; [lia|]. exists (bits_of_code n (shorter lens n + same lens n s)). unfold code_of. rewrite H1. split_and!; [|done|done]. intros E. rewrite E in H1. cbn in H1. congruence.
Qed.
Lemma same_hits lens n r : 0 ≤ r < count_len lens n → ∃ s, lens !! s = Some n ∧ same lens n s = r.
Proof.
  rewrite count_sum. induction lens as [|m l IH] using rev_ind; intros Hr. { cbn in Hr. lia. }
  rewrite fmap_app, sum_app in Hr. cbn [fmap list_fmap sum_Z foldr] in Hr. fold sum_Z in Hr. destruct (decide (r < sum_Z ((λ m, if decide (m = n) then 1 else 0) <$> l))) as [Hlt|Hge].
  - destruct IH as (s & H1 & H2); [lia|]. exists s. split; [by apply lookup_app_l_Some|]. unfold same. rewrite take_app_le; [done|]. apply lookup_lt_Some in H1. lia.
  - destruct (decide (m = n)) as [->|]; [|lia]. exists (length l). split; [by rewrite list_lookup_middle|]. unfold same. rewrite take_app. lia.
Qed.
Lemma full_decodes lens b : Forall (λ n, n ≤ 15)%nat lens → full lens → length b = 15%nat → ∃ s w r, code_of lens s w ∧ b = w ++ r.
Proof.
  intros Hf Hu Hl. assert (Hstep : ∀ n, (n ≤ 15)%nat → (∃ s w r, code_of lens s w ∧ b = w ++ r) ∨ ((0 < n)%nat → shorter lens n + count_len lens n ≤ code_num (take n b))).
  { intros n. induction n as [|n IH]; intros Hn; [right; lia|]. destruct IH as [IH|IH]; [lia|by left|]. destruct (decide (shorter lens (S n) + count_len lens (S n) ≤ code_num (take (S n) b))) as [|Hlt]; [by right|]. left.
    destruct (lookup_lt_is_Some_2 b n) as [x Hx]; [lia|]. rewrite (take_S_r _ _ _ Hx), code_num_snoc in Hlt. assert (Hge : shorter lens (S n) ≤ 2 * code_num (take n b)).
    { destruct n as [|n]. - assert (shorter lens 1 = 0) by (apply sum_map_0; intros m _; rewrite decide_False by lia; done). change (code_num (take 0 b)) with 0. lia. - rewrite shorter_S by lia. specialize (IH ltac:(lia)). lia. }
    assert (0 ≤ Z.b2z x) by (destruct x; cbn; lia). destruct (same_hits lens (S n) (2 * code_num (take n b) + Z.b2z x - shorter lens (S n))) as (s & H1 & H2); [lia|]. exists s, (take (S n) b), (drop (S n) b). split; [|by rewrite take_drop].
    assert (El : length (take (S n) b) = S n) by (rewrite take_length; lia). split_and!; [intros E; rewrite E in El; done|by rewrite El|]. rewrite El, H2, (take_S_r _ _ _ Hx), code_num_snoc. lia. }
  destruct (Hstep 15%nat) as [|H15]; [lia|done|]. specialize (H15 ltac:(lia)). exfalso. pose proof (shorter_16 lens Hf Hu) as E. rewrite shorter_S in E by lia. pose proof (code_num_range (take 15 b)) as Hr. rewrite take_length, Hl in Hr. change (2 ^ Z.of_nat (15 `min` 15)) with 32768 in Hr. lia.
Qed.
