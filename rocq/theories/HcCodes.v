(** * C123: the codes that generate makes are those of RFC 1951 *)
From stdpp Require Import list_numbers sorting.
From Verif Require Import GoBase GoStr InflModel InflSpec InflHuff HufModel HufSpec HcModel HcProofs.
Local Open Scope Z_scope.

(** ** the literals of each length, in order *)
Fixpoint place (n : nat) (code : Z) (chunks : list (list nat)) (cs : list (list bool)) : list (list bool) :=
  match chunks with [] => cs | c :: chunks => place (S n) (2 * code + Z.of_nat (length c)) chunks (give n (2 * code) c cs) end.
Fixpoint first_code (code : Z) (chunks : list (list nat)) (k : nat) : Z :=
  match k with O => 2 * code | S k => first_code (2 * code + Z.of_nat (length (hd [] chunks))) (tl chunks) k end.
Lemma give_length n l : ∀ code cs, length (give n code l cs) = length cs.
Proof. induction l as [|s l IH]; intros code cs; cbn [give]; [done|]. by rewrite IH, insert_length. Qed.
Lemma give_other n l : ∀ code cs s, s ∉ l → give n code l cs !! s = cs !! s.
Proof. induction l as [|t l IH]; intros code cs s Hs; cbn [give]; [done|]. apply not_elem_of_cons in Hs as [H1 H2]. rewrite IH by done. by rewrite list_lookup_insert_ne by done. Qed.
Lemma give_at n l : ∀ code cs i s, NoDup l → (s < length cs)%nat → l !! i = Some s → give n code l cs !! s = Some (rev_bits n (code + Z.of_nat i)).
Proof.
  induction l as [|t l IH]; intros code cs i s Hd Hs Hi; [done|]. cbn [give]. apply NoDup_cons in Hd as [H1 H2]. destruct i as [|i]; cbn in Hi.
  - injection Hi as ->. rewrite give_other by done. rewrite list_lookup_insert by done. by rewrite Z.add_0_r.
  - rewrite (IH _ _ i) by (rewrite ?insert_length; done). do 2 f_equal. lia.
Qed.
Lemma place_length chunks : ∀ n code cs, length (place n code chunks cs) = length cs.
Proof. induction chunks as [|c r IH]; intros n code cs; cbn [place]; [done|]. by rewrite IH, give_length. Qed.
Lemma place_other chunks : ∀ n code cs s, s ∉ mjoin chunks → place n code chunks cs !! s = cs !! s.
Proof. induction chunks as [|c r IH]; intros n code cs s Hs; cbn [place]; [done|]. cbn in Hs. apply not_elem_of_app in Hs as [H1 H2]. rewrite IH by done. by apply give_other. Qed.
Lemma place_at chunks : ∀ n code cs k c i s, NoDup (mjoin chunks) → (s < length cs)%nat → chunks !! k = Some c → c !! i = Some s → place n code chunks cs !! s = Some (rev_bits (n + k) (first_code code chunks k + Z.of_nat i)).
Proof.
  induction chunks as [|c0 r IH]; intros n code cs k c i s Hd Hs Hk Hi; [done|]. cbn [place]. cbn in Hd. apply NoDup_app in Hd as (D1 & D2 & D3). destruct k as [|k]; cbn in Hk.
  - injection Hk as ->. rewrite place_other by (apply D2; by eapply elem_of_list_lookup_2). rewrite Nat.add_0_r. cbn [first_code]. by apply give_at.
  - rewrite (IH _ _ _ k c i s) by (rewrite ?give_length; done). cbn [first_code hd tl]. do 2 f_equal. lia.
Qed.

(** ** counting *)
Lemma filter_S (c : list nat) j : NoDup c → (length (filter (λ t, t < S j) c) = length (filter (λ t, t < j) c) + (if decide (j ∈ c) then 1 else 0))%nat.
Proof.
  induction c as [|x c IH]; intros Hd; [done|]. apply NoDup_cons in Hd as [H1 H2]. rewrite !filter_cons. specialize (IH H2). destruct (decide (x < S j)%nat) as [A|A], (decide (x < j)%nat) as [B|B]; [..|lia|]; cbn [length].
  - destruct (decide (j ∈ c)) as [C|C], (decide (j ∈ x :: c)) as [D|D]; try lia; exfalso; [by apply D; right|]. apply elem_of_cons in D as [->|D]; [lia|done].
  - assert (x = j) as -> by lia. rewrite decide_False in IH by done. rewrite decide_True by left. lia.
  - destruct (decide (j ∈ c)) as [C|C], (decide (j ∈ x :: c)) as [D|D]; try lia; exfalso; [by apply D; right|]. apply elem_of_cons in D as [->|D]; [lia|done].
Qed.
Lemma filter_0 (c : list nat) : filter (λ t, t < 0)%nat c = [].
Proof. induction c as [|x c IH]; [done|]. rewrite filter_cons, decide_False by lia. done. Qed.
Lemma filter_none (c : list nat) j : (∀ s, s ∈ c → j ≤ s)%nat → filter (λ t, t < j)%nat c = [].
Proof. induction c as [|x c IH]; intros H; [done|]. pose proof (H x ltac:(left)). rewrite filter_cons, decide_False by lia. apply IH. intros s Hs. apply H. by right. Qed.
Lemma filter_at (c : list nat) : ∀ i s, StronglySorted lt c → c !! i = Some s → length (filter (λ t, t < s)%nat c) = i.
Proof.
  induction c as [|x c IH]; intros i s Hs Hi; [done|]. apply StronglySorted_inv in Hs as [H1 H2]. rewrite Forall_forall in H2. rewrite filter_cons. destruct i as [|i]; cbn in Hi.
  - injection Hi as ->. rewrite decide_False by lia. rewrite filter_none; [done|]. intros y Hy. specialize (H2 y Hy). lia.
  - rewrite decide_True by (apply H2; by eapply elem_of_list_lookup_2). cbn [length]. f_equal. by apply IH.
Qed.
Lemma sorted_lt_nodup (c : list nat) : StronglySorted lt c → NoDup c.
Proof. induction 1 as [|x c _ IH H]; constructor; [|done]. intros Hx. rewrite Forall_forall in H. specialize (H x Hx). lia. Qed.
Lemma sorted_le_lt (c : list nat) : StronglySorted le c → NoDup c → StronglySorted lt c.
Proof. induction 1 as [|x c _ IH H]; intros Hd; [constructor|]. apply NoDup_cons in Hd as [H1 H2]. constructor; [by apply IH|]. rewrite Forall_forall in H |- *. intros y Hy. specialize (H y Hy). destruct (decide (x = y)) as [->|]; [done|lia]. Qed.
Lemma count_chunk (L : list nat) c n : NoDup c → (∀ s, L !! s = Some n ↔ s ∈ c) → ∀ j, (j ≤ length L)%nat → same L n j = Z.of_nat (length (filter (λ t, t < j)%nat c)).
Proof.
  intros Hd Hc. unfold same. induction j as [|j IH]; intros Hj; [by rewrite filter_0|]. destruct (lookup_lt_is_Some_2 L j) as [x Hx]; [lia|]. rewrite (take_S_r _ _ _ Hx), fmap_app, sum_app, IH, filter_S by (done || lia). cbn [fmap list_fmap sum_Z foldr].
  specialize (Hc j). rewrite Hx in Hc. destruct (decide (x = n)) as [->|H1], (decide (j ∈ c)) as [H2|H2]; try lia; exfalso; naive_solver.
Qed.
Lemma filter_all (c : list nat) j : (∀ s, s ∈ c → s < j)%nat → filter (λ t, t < j)%nat c = c.
Proof. induction c as [|x c IH]; intros H; [done|]. rewrite filter_cons, decide_True by (apply H; left). f_equal. apply IH. intros s Hs. apply H. by right. Qed.

Lemma rev_bits_length n c : length (rev_bits n c) = n. Proof. unfold rev_bits, put_num. by rewrite reverse_length, fmap_length, seq_length. Qed.
Lemma first_code_S k : ∀ code chunks, first_code code chunks (S k) = 2 * (first_code code chunks k + Z.of_nat (length (default [] (chunks !! k)))).
Proof.
  induction k as [|k IH]; intros code chunks. { cbn. destruct chunks; cbn; lia. }
  change (first_code code chunks (S (S k))) with (first_code (2 * code + Z.of_nat (length (hd [] chunks))) (tl chunks) (S k)). rewrite IH. cbn [first_code]. destruct chunks; done.
Qed.
Section place.
  Context (chunks : list (list nat)) (N : nat) (Hd : NoDup (mjoin chunks)) (Hs : ∀ c, c ∈ chunks → StronglySorted lt c) (HN : ∀ s, s ∈ mjoin chunks → (s < N)%nat).
  Let cs := place 1 0 chunks (replicate N []).
  Let L := length <$> cs.
  Let chunk k := default [] (chunks !! k).
  Lemma cs_length : length cs = N. Proof. unfold cs. by rewrite place_length, replicate_length. Qed.
  Lemma L_length : length L = N. Proof. unfold L. by rewrite fmap_length, cs_length. Qed.
  Lemma cs_in k c i s : chunks !! k = Some c → c !! i = Some s → cs !! s = Some (rev_bits (S k) (first_code 0 chunks k + Z.of_nat i)).
  Proof. intros Hk Hi. unfold cs. apply (place_at chunks 1 0 _ k c i s); try done. rewrite replicate_length. apply HN. apply elem_of_list_join. exists c. split; by eapply elem_of_list_lookup_2. Qed.
  Lemma cs_out s : (s < N)%nat → s ∉ mjoin chunks → cs !! s = Some [].
  Proof. intros Hlt Ho. unfold cs. rewrite place_other by done. by rewrite lookup_replicate_2. Qed.
  Lemma L_iff k s : L !! s = Some (S k) ↔ s ∈ chunk k.
  Proof.
    unfold L. rewrite list_lookup_fmap. split.
    - intros E. destruct (cs !! s) as [w|] eqn:Ew; [|done]. cbn in E. injection E as E. assert (Hlt : (s < N)%nat) by (rewrite <- cs_length; by eapply lookup_lt_Some). destruct (decide (s ∈ mjoin chunks)) as [H|H]; [|rewrite cs_out in Ew by done; injection Ew as <-; done].
      apply elem_of_list_join in H as (c & Hc & Hin). apply elem_of_list_lookup in Hc as [i Hi], Hin as [k' Hk]. rewrite (cs_in k' c i s) in Ew by done. injection Ew as <-. rewrite rev_bits_length in E. injection E as ->. unfold chunk. rewrite Hk. cbn. by eapply elem_of_list_lookup_2.
    - unfold chunk. destruct (chunks !! k) as [c|] eqn:Hk; cbn; [|by intros ?%elem_of_nil]. intros [i Hi]%elem_of_list_lookup. rewrite (cs_in k c i s) by done. cbn [fmap option_fmap option_map]. by rewrite rev_bits_length.
  Qed.
  Lemma chunk_nodup k : NoDup (chunk k). Proof. unfold chunk. destruct (chunks !! k) as [c|] eqn:Hk; cbn; [|constructor]. apply sorted_lt_nodup, Hs. by eapply elem_of_list_lookup_2. Qed.
  Lemma L_count k : count_len L (S k) = Z.of_nat (length (chunk k)).
  Proof.
    pose proof (count_chunk L (chunk k) (S k) (chunk_nodup k) (L_iff k) (length L) ltac:(done)) as E. unfold same in E. rewrite take_ge in E by done. rewrite count_sum, E. rewrite filter_all; [done|]. intros s Hin. apply L_iff in Hin. by eapply lookup_lt_Some.
  Qed.
  Lemma L_shorter k : shorter L (S k) = first_code 0 chunks k.
  Proof.
    induction k as [|k IH]. { cbn. apply sum_map_0. intros m _. by rewrite decide_False by lia. } rewrite shorter_S by lia. rewrite IH, L_count, first_code_S. done.
  Qed.
  Lemma L_bound : Forall (λ n, n ≤ length chunks)%nat L.
  Proof. apply Forall_lookup. intros s [|k] E; [lia|]. apply L_iff in E. unfold chunk in E. destruct (chunks !! k) as [c|] eqn:Hk; cbn in E; [|by apply elem_of_nil in E]. apply lookup_lt_Some in Hk. lia. Qed.
  Lemma L_kraft k : (k ≤ 15)%nat → shorter L (S k) * 2 ^ Z.of_nat (15 - k) = 2 * kr (λ j, length (chunk j)) k.
  Proof.
    induction k as [|k IH]; intros Hk. { rewrite L_shorter. cbn [first_code kr]. lia. } rewrite shorter_S, L_count by lia. cbn [kr]. specialize (IH ltac:(lia)). replace (15 - k)%nat with (S (14 - k)) in IH by lia. rewrite Nat2Z.inj_succ, Z.pow_succ_r in IH by lia. replace (15 - S k)%nat with (14 - k)%nat by lia. lia.
  Qed.
  Lemma L_full : (length chunks ≤ 15)%nat → kr (λ j, length (chunk j)) 15 = 2 ^ 15 → full L.
  Proof.
    intros H15 Hk. assert (E : shorter L 16 = 2 * 2 ^ 15) by (rewrite <- Hk, <- (L_kraft 15 (le_n 15)), Nat.sub_diag, Z.mul_1_r; reflexivity). clear Hk. pose proof L_bound as Hf. rewrite Forall_forall in Hf. rewrite shorter_all in E by (intros m Hm; specialize (Hf m Hm); cbn in *; lia). unfold full.
    rewrite (sum_map_mul 2 (λ m, if decide (0 < m)%nat then 2 ^ Z.of_nat (15 - m) else 0)) in E; [lia|]. intros m Hm. specialize (Hf m Hm). cbn beta in Hf. destruct (decide _); [|lia]. replace (16 - m)%nat with (S (15 - m)) by lia. rewrite Nat2Z.inj_succ, Z.pow_succ_r by lia. done.
  Qed.
  Lemma place_code s w : usable L → s ∈ mjoin chunks → cs !! s = Some w → code_of L s w.
  Proof.
    intros Hu Hin Hw. apply elem_of_list_join in Hin as (c & Hc & Hin). apply elem_of_list_lookup in Hc as [i Hi], Hin as [k Hk]. rewrite (cs_in k c i s) in Hw by done. injection Hw as <-.
    assert (HL : L !! s = Some (S k)) by (apply L_iff; unfold chunk; rewrite Hk; by eapply elem_of_list_lookup_2). destruct (code_exists L s (S k) Hu HL) as (w & W1 & W2 & W3); [done|]. rewrite HL in W2. injection W2 as W2. pose proof (code_num_range w) as Hr. rewrite <- W2 in Hr, W3.
    assert (Hsm : same L (S k) s = Z.of_nat i). { rewrite (count_chunk L (chunk k) (S k)); [|apply chunk_nodup|apply L_iff|apply lookup_lt_Some in HL; lia]. f_equal. unfold chunk. rewrite Hk. cbn. apply filter_at; [|done]. apply Hs. by eapply elem_of_list_lookup_2. }
    rewrite L_shorter, Hsm in W3. rewrite W3 in Hr. destruct (bits_of_code_ok (S k) _ Hr) as [B1 B2]. change (bits_of_code (S k) _) with (rev_bits (S k) (first_code 0 chunks k + Z.of_nat i)) in B1, B2. unfold code_of. rewrite B1. split_and!; [intros E; by rewrite E in B1|done|]. rewrite B2, L_shorter, Hsm. done.
  Qed.
End place.

(** ** generate *)
Definition nodes_from (k : nat) (f : list Z) : list (Z * nat) := filter (λ p, p.1 ≠ 0) (zip f (seq k (length f))).
Lemma nodes_in f : ∀ k x s, (x, s) ∈ nodes_from k f ↔ ∃ j, s = (k + j)%nat ∧ f !! j = Some x ∧ x ≠ 0.
Proof.
  unfold nodes_from. induction f as [|y f IH]; intros k x s; cbn [length seq zip zip_with].
  - split; [intros H; by apply elem_of_nil in H|]. intros (j & _ & H & _). done.
  - rewrite elem_of_list_filter, elem_of_cons. specialize (IH (S k) x s). rewrite elem_of_list_filter in IH. cbn [fst] in *. split.
    + intros [H1 [H2|H2]]; [injection H2 as -> ->; exists 0%nat; split_and!; [lia|done|done]|]. destruct (proj1 IH (conj H1 H2)) as (j & J1 & J2 & _). exists (S j). split_and!; [lia|done|done].
    + intros ([|j] & J1 & J2 & J3); cbn in J2; [injection J2 as ->; split; [done|left; f_equal; lia]|]. destruct (proj2 IH) as [H1 H2]; [exists j; split_and!; [lia|done|done]|]. split; [done|by right].
Qed.
Lemma nodes_sorted f : ∀ k, StronglySorted lt (nodes_from k f).*2.
Proof.
  induction f as [|y f IH]; intros k; [constructor|]. specialize (IH (S k)). pose proof (nodes_in f (S k)) as Hin. unfold nodes_from in *. cbn [length seq zip zip_with]. rewrite filter_cons. destruct (decide _); [|done]. rewrite fmap_cons. constructor; [done|]. apply Forall_forall. intros s Hs. apply elem_of_list_fmap in Hs as ([x s'] & -> & Hs). apply Hin in Hs as (j & -> & _). cbn. lia.
Qed.
Lemma nodes_length f : ∀ k, (length (nodes_from k f) ≤ length f)%nat.
Proof. intros k. unfold nodes_from. etrans; [apply filter_length|]. rewrite zip_with_length, seq_length. lia. Qed.
Lemma sum_bound (f : list Z) x : Forall (λ x, 0 ≤ x) f → x ∈ f → x ≤ sum_Z f.
Proof.
  induction f as [|y f IH]; intros Hf Hx; [by apply elem_of_nil in Hx|]. apply Forall_cons in Hf as [H1 H2]. rewrite sum_cons. assert (0 ≤ sum_Z f). { clear -H2. induction H2; [done|]. rewrite sum_cons. lia. } apply elem_of_cons in Hx as [->|Hx]; [lia|]. specialize (IH H2 Hx). lia.
Qed.
Fixpoint chunks_of (counts : list nat) (l : list nat) : list (list nat) :=
  match counts with [] => [] | b :: counts => let keep := (length l - b)%nat in merge_sort le (drop keep l) :: chunks_of counts (take keep l) end.
Lemma chunks_ok counts : ∀ l, sum_list counts = length l → NoDup l → mjoin (chunks_of counts l) ≡ₚ l ∧ length (chunks_of counts l) = length counts ∧ (∀ k, length (default [] (chunks_of counts l !! k)) = nth k counts O) ∧ (∀ c, c ∈ chunks_of counts l → StronglySorted lt c) ∧
  ∀ n code cs, assign n code counts l cs = place n code (chunks_of counts l) cs.
Proof.
  induction counts as [|b counts IH]; intros l Hl Hd.
  - destruct l; [|done]. split_and!; [done|done|intros [|k]; done|intros c Hc; by apply elem_of_nil in Hc|done].
  - change (sum_list (b :: counts)) with (b + sum_list counts)%nat in Hl. cbn [chunks_of]. set (keep := (length l - b)%nat). assert (Hk : sum_list counts = length (take keep l)) by (rewrite take_length; lia). rewrite <- (take_drop keep l) in Hd. apply NoDup_app in Hd as (D1 & D2 & D3). destruct (IH _ Hk D1) as (I1 & I2 & I3 & I4 & I5).
    assert (Hb : length (merge_sort le (drop keep l)) = b) by (rewrite merge_sort_Permutation, drop_length; lia). split_and!.
    + cbn. change (merge_sort le (drop keep l) ++ mjoin (chunks_of counts (take keep l)) ≡ₚ l). rewrite I1, merge_sort_Permutation, (Permutation_app_comm (drop keep l)). by rewrite take_drop.
    + cbn [length]. by rewrite I2.
    + intros [|k]; cbn; [done|apply I3].
    + intros c Hc. apply elem_of_cons in Hc as [->|Hc]; [|by apply I4]. apply sorted_le_lt; [apply StronglySorted_merge_sort; apply _|]. by rewrite merge_sort_Permutation.
    + intros n code cs. cbn [assign place]. fold keep. rewrite I5, Hb. done.
Qed.
Global Instance by_freq_total : Total by_freq. Proof. intros [a i] [b j]. unfold by_freq. cbn. lia. Qed.
Global Instance by_freq_trans : Transitive by_freq. Proof. intros [a i] [b j] [c k]. unfold by_freq. cbn. lia. Qed.
Theorem generate_ok : gen_ok generate.
Proof.
  intros f max Hmax Hlen Hf Hsum. unfold generate. change (nodes f) with (nodes_from 0 f). set (l := nodes_from 0 f). pose proof (nodes_sorted f 0) as Hsort. pose proof (nodes_length f 0) as Hll. pose proof (nodes_in f 0) as Hin. fold l in Hsort, Hll, Hin.
  assert (Hin' : ∀ s, s ∈ l.*2 ↔ ∃ x, f !! s = Some x ∧ x ≠ 0).
  { intros s. rewrite elem_of_list_fmap. split; [intros ([x s'] & -> & H); apply Hin in H as (j & -> & H); by exists x|]. intros (x & H1 & H2). exists (x, s). split; [done|]. apply Hin. by exists s. }
  (* with chunks that hold the symbols *)
  assert (Hmain : ∀ chunks, mjoin chunks ≡ₚ l.*2 → (∀ c, c ∈ chunks → StronglySorted lt c) → (length chunks ≤ max)%nat → (let L := length <$> place 1 0 chunks (replicate (length f) []) in full L ∨ single L ∨ unused L) → codes_for f max (place 1 0 chunks (replicate (length f) []))).
  { intros chunks Hp Hs Hlc Hu. set (cs := place 1 0 chunks _) in *. assert (Hd : NoDup (mjoin chunks)) by (rewrite Hp; by apply sorted_lt_nodup). assert (HN : ∀ s, s ∈ mjoin chunks → (s < length f)%nat) by (intros s H; rewrite Hp in H; apply Hin' in H as (x & H & _); by eapply lookup_lt_Some).
    pose proof (L_bound chunks (length f) Hd HN) as Hb. fold cs in Hb.
    assert (Hus : usable (length <$> cs)). { split; [|done]. eapply Forall_impl; [exact Hb|]. cbn. lia. } unfold codes_for. split_and!; [by apply cs_length|eapply Forall_impl; [exact Hb|]; cbn; lia|done|].
    intros s w x Hw Hx. assert (Hsf : (s < length f)%nat) by (by eapply lookup_lt_Some). split.
    - intros ->. unfold cs in Hw. rewrite cs_out in Hw; [by injection Hw|done|]. rewrite Hp, Hin'. intros (y & Y1 & Y2). rewrite Hx in Y1. by injection Y1 as <-.
    - intros Hx0. apply (place_code chunks (length f)); try done. rewrite Hp, Hin'. by exists x. }
  destruct (Nat.leb_spec (length l) 2) as [H2|H2].
  - exists (place 1 0 [l.*2] (replicate (length f) [])). split; [done|].
    assert (Hd : NoDup (mjoin [l.*2])) by (cbn; rewrite app_nil_r; by apply sorted_lt_nodup). assert (HN : ∀ s, s ∈ mjoin [l.*2] → (s < length f)%nat) by (intros s H; cbn in H; rewrite app_nil_r in H; apply Hin' in H as (x & H & _); by eapply lookup_lt_Some).
    assert (Hss : ∀ c, c ∈ [l.*2] → StronglySorted lt c) by (intros c Hc; apply elem_of_list_singleton in Hc as ->; done). apply Hmain; [cbn; by rewrite app_nil_r|done|cbn; lia|]. intros L. pose proof (L_iff [l.*2] (length f) Hd HN) as HL. change (length <$> place _ _ _ _) with L in HL. cbn zeta in HL.
    destruct (l.*2) as [|a [|b [|c r]]] eqn:El.
    + right. right. apply Forall_lookup. intros s [|k] E; [done|]. apply HL in E. destruct k; cbn in E; by apply elem_of_nil in E.
    + right. left. exists a. split; [apply HL; cbn; by left|]. intros t [|k] E Hne; [done|]. apply HL in E. destruct k; cbn in E; [by apply elem_of_list_singleton in E|by apply elem_of_nil in E].
    + left. apply L_full; [done|done|done|cbn; lia|reflexivity].
    + apply (f_equal length) in El. rewrite fmap_length in El. cbn in El. lia.
  - set (l' := merge_sort by_freq l). assert (Hp : l' ≡ₚ l) by apply merge_sort_Permutation. assert (Hl' : length l' = length l) by (by rewrite Hp).
    destruct (bit_counts_ok l'.*1 max) as (counts & -> & C1 & C2 & C3).
    + rewrite fmap_length. lia.
    + rewrite fmap_length. lia.
    + lia.
    + assert (Hst : StronglySorted by_freq l') by (apply StronglySorted_merge_sort; apply _). clear -Hst. induction Hst as [|a m _ IH H]; [constructor|]. rewrite fmap_cons. constructor; [done|]. rewrite Forall_fmap. eapply Forall_impl; [exact H|]. intros b [Hb|[Hb _]]; cbn; lia.
    + rewrite Forall_fmap. apply Forall_forall. intros [x s] Hx. rewrite Hp in Hx. apply Hin in Hx as (j & _ & J1 & J2). cbn. assert (Hxf : x ∈ f) by (by eapply elem_of_list_lookup_2). pose proof (sum_bound f x Hf Hxf). rewrite Forall_forall in Hf. specialize (Hf x Hxf). cbn in Hf. lia.
    + cbn [mbind go_bind]. rewrite fmap_length in C2. destruct (chunks_ok counts l'.*2) as (K1 & K2 & K3 & K4 & K5); [by rewrite fmap_length|rewrite Hp; by apply sorted_lt_nodup|]. rewrite K5. eexists. split; [done|]. assert (Hpc : mjoin (chunks_of counts l'.*2) ≡ₚ l.*2) by (rewrite K1; by rewrite Hp). apply Hmain; [done|done|lia|]. left. apply L_full; [rewrite Hpc; by apply sorted_lt_nodup|done| |lia|].
      * intros s H. rewrite Hpc in H. apply Hin' in H as (x & H & _). by eapply lookup_lt_Some.
      * rewrite <- C3. clear -K3. generalize 15%nat. induction n as [|n IH]; [done|]. cbn [kr]. rewrite IH. by rewrite K3.
Qed.
