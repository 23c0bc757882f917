(** * MD5 helpers: theorems *)
From Verif Require Import GoBase GoStr AesSpec Md5Model Md5Spec.
Local Open Scope Z_scope.

Definition word (x : Z) : Prop := 0 ≤ x < 4294967296.
Lemma w32_word x : word (w32 x). Proof. apply Z.mod_pos_bound. lia. Qed.
Lemma w32_mod x : w32 x = word_mod x. Proof. done. Qed.
Lemma high_bits x i : word x → 32 ≤ i → Z.testbit x i = false.
Proof. intros Hx Hi. unfold word in Hx. destruct (decide (x = 0)) as [->|]; [apply Z.testbit_0_l|]. apply Z.bits_above_log2; [lia|]. assert (Z.log2 x < 32); [|lia]. apply Z.log2_lt_pow2; lia. Qed.
Lemma ones_bit i : 0 ≤ i → Z.testbit 4294967295 i = (i <? 32).
Proof. intros Hi. change 4294967295 with (Z.ones 32). destruct (Z.ltb_spec i 32); [apply Z.ones_spec_low; lia|apply Z.ones_spec_high; lia]. Qed.
Lemma not32_complement x : word x → complement x = not32 x.
Proof.
  intros Hx. unfold complement, not32. change (2 ^ 32 - 1) with (Z.ones 32). rewrite Z.sub_nocarry_ldiff.
  - apply Z.bits_inj'. intros i Hi. rewrite Z.ldiff_spec, Z.lxor_spec. change 4294967295 with (Z.ones 32). destruct (Z.ltb_spec i 32).
    + rewrite Z.ones_spec_low by lia. by destruct (Z.testbit x i).
    + rewrite Z.ones_spec_high by lia. by rewrite high_bits by (done || lia).
  - apply Z.bits_inj'. intros i Hi. rewrite Z.ldiff_spec, Z.bits_0. destruct (Z.ltb_spec i 32); [rewrite Z.ones_spec_low by lia; by rewrite andb_false_r|]. by rewrite high_bits by (done || lia).
Qed.
Lemma not32_bit x i : 0 ≤ i → Z.testbit (not32 x) i = xorb (Z.testbit x i) (i <? 32).
Proof. intros Hi. unfold not32. by rewrite Z.lxor_spec, ones_bit. Qed.
Ltac by_bits := apply Z.bits_inj'; intros i Hi; repeat (rewrite ?Z.lxor_spec, ?Z.lor_spec, ?Z.land_spec, ?not32_bit by done).
Lemma f1_F b c d : word b → word c → word d → f1 b c d = F b c d.
Proof. intros Hb Hc Hd. unfold f1, F. rewrite not32_complement by done. by_bits. destruct (Z.ltb_spec i 32); [|rewrite !(high_bits _ i) by (done || lia); done]. by destruct (Z.testbit b i), (Z.testbit c i), (Z.testbit d i). Qed.
Lemma f2_G b c d : word b → word c → word d → f2 b c d = G b c d.
Proof. intros Hb Hc Hd. unfold f2, G. rewrite not32_complement by done. by_bits. destruct (Z.ltb_spec i 32); [|rewrite !(high_bits _ i) by (done || lia); done]. by destruct (Z.testbit b i), (Z.testbit c i), (Z.testbit d i). Qed.
Lemma f3_H b c d : word b → word c → word d → f3 b c d = H b c d.
Proof. intros _ _ _. unfold f3, H. apply Z.lxor_assoc. Qed.
Lemma f4_I b c d : word b → word c → word d → f4 b c d = I b c d.
Proof. intros Hb Hc Hd. unfold f4, I. by rewrite not32_complement by done. Qed.
Lemma rotl_turn x s : word x → 0 < s < 32 → rotl x s = turn x s.
Proof.
  intros Hx Hs. unfold rotl, turn. rewrite w32_mod. rewrite Z.shiftl_mul_pow2, Z.shiftr_div_pow2 by lia. set (a := word_mod (x * 2 ^ s)). set (b := x / 2 ^ (32 - s)).
  assert (HL : Z.land a b = 0).
  { apply Z.bits_inj'. intros i Hi. rewrite Z.land_spec, Z.bits_0. apply andb_false_iff. destruct (Z.ltb_spec i s).
    - left. unfold a, word_mod. rewrite Z.mod_pow2_bits_low by lia. apply Z.mul_pow2_bits_low. lia.
    - right. unfold b. rewrite Z.div_pow2_bits by lia. apply high_bits; [done|lia]. }
  rewrite <- Z.lxor_lor by done. symmetry. by apply Z.add_nocarry_lxor.
Qed.

(** ** One block *)
Definition conv (v : words4) : Z * Z * Z * Z := (wa v, wb v, wc v, wd v).
Definition wordy (v : words4) : Prop := word (wa v) ∧ word (wb v) ∧ word (wc v) ∧ word (wd v).
Lemma step_op X i f k s j a b c d : (∀ b c d, word b → word c → word d → step_fun i b c d = f b c d) → step_word i = k → default 0 (shifts !! (4 * (i / 16) + i mod 4)%nat) = s → 0 < s < 32 →
  default 0 (table !! i) = default 0 (T !! (j - 1)%nat) → word b → word c → word d → md5_step X (W4 a b c d) i = W4 d (op f X k s j a b c d) b c ∧ word (op f X k s j a b c d).
Proof.
  intros Hf Hk Hs Hr Ht Hb Hc Hd. split; [|apply w32_word]. unfold md5_step, op. rewrite Hk, Hs, Ht, Hf by done. f_equal. unfold word_mod. rewrite rotl_turn by (apply w32_word || done). unfold w32. do 3 f_equal. f_equal. lia.
Qed.
Lemma four_op X i f k1 s1 j1 k2 s2 j2 k3 s3 j3 k4 s4 j4 v :
  (∀ n, (i ≤ n < i + 4)%nat → ∀ b c d, word b → word c → word d → step_fun n b c d = f b c d) →
  (step_word i = k1 ∧ step_word (i + 1) = k2 ∧ step_word (i + 2) = k3 ∧ step_word (i + 3) = k4)%nat →
  (let sh n := default 0 (shifts !! (4 * (n / 16) + n mod 4)%nat) in sh i = s1 ∧ sh (i + 1)%nat = s2 ∧ sh (i + 2)%nat = s3 ∧ sh (i + 3)%nat = s4) →
  0 < s1 < 32 → 0 < s2 < 32 → 0 < s3 < 32 → 0 < s4 < 32 →
  (let t n := default 0 (table !! n) in let u n := default 0 (T !! (n - 1)%nat) in t i = u j1 ∧ t (i + 1)%nat = u j2 ∧ t (i + 2)%nat = u j3 ∧ t (i + 3)%nat = u j4) →
  wordy v → conv (foldl (md5_step X) v [i; i + 1; i + 2; i + 3]%nat) = four f X [(k1, s1, j1); (k2, s2, j2); (k3, s3, j3); (k4, s4, j4)] (conv v) ∧ wordy (foldl (md5_step X) v [i; i + 1; i + 2; i + 3]%nat).
Proof.
  intros Hf (K1 & K2 & K3 & K4) (S1 & S2 & S3 & S4) R1 R2 R3 R4 (T1 & T2 & T3 & T4) Hv. destruct v as [a b c d]. destruct Hv as (Ha & Hb & Hc & Hd). simpl in Ha, Hb, Hc, Hd. cbn [foldl conv wa wb wc wd four].
  destruct (step_op X i f k1 s1 j1 a b c d) as [-> W1]; [apply Hf; lia|done..|]. set (a' := op f X k1 s1 j1 a b c d) in *.
  destruct (step_op X (i + 1) f k2 s2 j2 d a' b c) as [-> W2]; [apply Hf; lia|done..|]. set (d' := op f X k2 s2 j2 d a' b c) in *.
  destruct (step_op X (i + 2) f k3 s3 j3 c d' a' b) as [-> W3]; [apply Hf; lia|done..|]. set (c' := op f X k3 s3 j3 c d' a' b) in *.
  destruct (step_op X (i + 3) f k4 s4 j4 b c' d' a') as [-> W4']; [apply Hf; lia|done..|]. done.
Qed.
Lemma step_fun_F n : (n < 16)%nat → ∀ b c d, word b → word c → word d → step_fun n b c d = F b c d.
Proof. intros Hn b c d ? ? ?. unfold step_fun. destruct (Nat.ltb_spec n 16); [|lia]. by apply f1_F. Qed.
Lemma step_fun_G n : (16 ≤ n < 32)%nat → ∀ b c d, word b → word c → word d → step_fun n b c d = G b c d.
Proof. intros Hn b c d ? ? ?. unfold step_fun. destruct (Nat.ltb_spec n 16); [lia|]. destruct (Nat.ltb_spec n 32); [|lia]. by apply f2_G. Qed.
Lemma step_fun_H n : (32 ≤ n < 48)%nat → ∀ b c d, word b → word c → word d → step_fun n b c d = H b c d.
Proof. intros Hn b c d ? ? ?. unfold step_fun. destruct (Nat.ltb_spec n 16); [lia|]. destruct (Nat.ltb_spec n 32); [lia|]. destruct (Nat.ltb_spec n 48); [|lia]. by apply f3_H. Qed.
Lemma step_fun_I n : (48 ≤ n)%nat → ∀ b c d, word b → word c → word d → step_fun n b c d = I b c d.
Proof. intros Hn b c d ? ? ?. unfold step_fun. destruct (Nat.ltb_spec n 16); [lia|]. destruct (Nat.ltb_spec n 32); [lia|]. destruct (Nat.ltb_spec n 48); [lia|]. by apply f4_I. Qed.
(** a row of the tables of RFC 1321 against four steps of the loop *)
Definition row_ok (i : nat) (ks : list (nat * Z * nat)) : bool :=
  match ks with
  | [(k1, s1, j1); (k2, s2, j2); (k3, s3, j3); (k4, s4, j4)] =>
    let sh n := default 0 (shifts !! (4 * (n / 16) + n mod 4)%nat) in let t n := default 0 (table !! n) in let u n := default 0 (T !! (n - 1)%nat) in
    bool_decide ((step_word i = k1 ∧ step_word (i + 1) = k2 ∧ step_word (i + 2) = k3 ∧ step_word (i + 3) = k4)%nat ∧
      (sh i = s1 ∧ sh (i + 1)%nat = s2 ∧ sh (i + 2)%nat = s3 ∧ sh (i + 3)%nat = s4) ∧ (0 < s1 < 32 ∧ 0 < s2 < 32 ∧ 0 < s3 < 32 ∧ 0 < s4 < 32) ∧
      (t i = u j1 ∧ t (i + 1)%nat = u j2 ∧ t (i + 2)%nat = u j3 ∧ t (i + 3)%nat = u j4))
  | _ => false
  end.
Fixpoint rows_ok (i : nat) (rows : list (list (nat * Z * nat))) : bool := match rows with [] => true | r :: rows => row_ok i r && rows_ok (i + 4) rows end.
Lemma round_op X f rows i v : (∀ n, (i ≤ n < i + 4 * length rows)%nat → ∀ b c d, word b → word c → word d → step_fun n b c d = f b c d) → rows_ok i rows = true → wordy v →
  conv (foldl (md5_step X) v (seq i (4 * length rows))) = round f X rows (conv v) ∧ wordy (foldl (md5_step X) v (seq i (4 * length rows))).
Proof.
  revert i v. induction rows as [|r rows IH]; intros i v Hf Hok Hv; [done|]. cbn [rows_ok] in Hok. apply andb_true_iff in Hok as [H1 H2]. replace (4 * length (r :: rows))%nat with (4 + 4 * length rows)%nat by (simpl; lia). rewrite seq_app, foldl_app.
  change (seq i 4) with [i; S i; S (S i); S (S (S i))]. unfold row_ok in H1. destruct r as [|[[k1 s1] j1] [|[[k2 s2] j2] [|[[k3 s3] j3] [|[[k4 s4] j4] [|]]]]]; try done. apply bool_decide_eq_true in H1 as (HK & HS & (R1 & R2 & R3 & R4) & HT).
  destruct (four_op X i f k1 s1 j1 k2 s2 j2 k3 s3 j3 k4 s4 j4 v) as [E W]; [intros n Hn; apply Hf; simpl; lia|done..|].
  replace [i; S i; S (S i); S (S (S i))] with [i; i + 1; i + 2; i + 3]%nat by (by rewrite !Nat.add_succ_r, !Nat.add_0_r).
  set (v' := foldl (md5_step X) v [i; i + 1; i + 2; i + 3]%nat) in *. destruct (IH (i + 4)%nat v') as [I1 I2]; [intros n Hn; apply Hf; simpl; lia|done|done|]. split; [|done]. rewrite I1. unfold round. cbn [foldl]. by rewrite E.
Qed.
Lemma le_words_block p : length p = 64%nat → le_words p = block_words p.
Proof. intros Hp. do 64 (destruct p as [|? p]; [done|]). destruct p; [|done]. clear Hp. unfold block_words. cbn -[Z.mul Z.add]. repeat (apply (f_equal2 cons); [ring|]). done. Qed.
Lemma block_compress v p : wordy v → length p = 64%nat → conv (md5_block v p) = compress (conv v) p ∧ wordy (md5_block v p).
Proof.
  intros Hv Hp. unfold md5_block, compress. rewrite le_words_block by done. set (X := block_words p). change 64%nat with (4 * length round1 + (4 * length round2 + (4 * length round3 + 4 * length round4)))%nat. rewrite !seq_app, !foldl_app.
  destruct (round_op X F round1 0 v) as [E1 V1]; [intros n Hn; apply step_fun_F; simpl in Hn; lia|by vm_compute|done|]. set (v1 := foldl (md5_step X) v (seq 0 (4 * length round1))) in *.
  destruct (round_op X G round2 (0 + 4 * length round1) v1) as [E2 V2]; [intros n Hn; apply step_fun_G; simpl in Hn; lia|by vm_compute|done|]. set (v2 := foldl (md5_step X) v1 (seq (0 + 4 * length round1) (4 * length round2))) in *.
  destruct (round_op X H round3 (0 + 4 * length round1 + 4 * length round2) v2) as [E3 V3]; [intros n Hn; apply step_fun_H; simpl in Hn; lia|by vm_compute|done|]. set (v3 := foldl (md5_step X) v2 (seq (0 + 4 * length round1 + 4 * length round2) (4 * length round3))) in *.
  destruct (round_op X I round4 (0 + 4 * length round1 + 4 * length round2 + 4 * length round3) v3) as [E4 V4]; [intros n Hn; apply step_fun_I; simpl in Hn; lia|by vm_compute|done|]. set (v4 := foldl (md5_step X) v3 (seq (0 + 4 * length round1 + 4 * length round2 + 4 * length round3) (4 * length round4))) in *.
  rewrite <- E1, <- E2, <- E3, <- E4. clear E1 E2 E3 E4. clearbody v4. destruct v as [a0 b0 c0 d0], v4 as [a b c d]. cbn [conv wa wb wc wd]. rewrite !w32_mod. split; [|split_and!; apply w32_word].
  rewrite (Z.add_comm a0), (Z.add_comm b0), (Z.add_comm c0), (Z.add_comm d0). done.
Qed.

(** ** The blocks of a message *)
Lemma blocks_app n k v a b : length a = (64 * n)%nat → md5_blocks (n + k) v (a ++ b) = md5_blocks k (md5_blocks n v a) b.
Proof.
  revert v a. induction n as [|n IH]; intros v a Ha; simpl; [destruct a; [done|simpl in Ha; lia]|]. rewrite take_app_le, drop_app_le by lia. apply IH. rewrite drop_length. lia.
Qed.
Lemma blocks_more n v a b : length a = (64 * n)%nat → md5_blocks n v (a ++ b) = md5_blocks n v a.
Proof. intros Ha. replace n with (n + 0)%nat at 1 by lia. by rewrite blocks_app. Qed.
Lemma blocks_compressed n v a : wordy v → length a = (64 * n)%nat → compressed (conv v) a (conv (md5_blocks n v a)) ∧ wordy (md5_blocks n v a).
Proof.
  revert v a. induction n as [|n IH]; intros v a Hv Ha; simpl; [destruct a; [split; [constructor|done]|simpl in Ha; lia]|].
  destruct (block_compress v (take 64 a)) as [E W]; [done|rewrite take_length; lia|]. destruct (IH (md5_block v (take 64 a)) (drop 64 a)) as [I1 I2]; [done|rewrite drop_length; lia|]. split; [|done].
  rewrite E in I1. rewrite <- (take_drop 64 a) at 1. constructor; [rewrite take_length; lia|done].
Qed.
Definition holds (d : digest) (m : list Z) : Prop := ∃ n a, m = a ++ dg_x d ∧ length a = (64 * n)%nat ∧ (length (dg_x d) < 64)%nat ∧ dg_s d = md5_blocks n (dg_s md5_new) a ∧ dg_len d = Z.of_nat (length m) mod 18446744073709551616.
Lemma holds_new : holds md5_new [].
Proof. exists 0%nat, []. simpl. split_and!; try done; lia. Qed.
Lemma holds_tail n a s q l : length a = (64 * n)%nat → s = md5_blocks n (dg_s md5_new) a → l = Z.of_nat (length (a ++ q)) mod 18446744073709551616 →
  holds (Digest (if (64 <=? length q)%nat then md5_blocks (length q / 64) s q else s) (if (64 <=? length q)%nat then drop (64 * (length q / 64)) q else q) l) (a ++ q).
Proof.
  intros Ha Hs Hl. destruct (Nat.leb_spec 64 (length q)) as [Hq|Hq].
  - pose proof (Nat.div_mod (length q) 64 ltac:(lia)) as Hd. pose proof (Nat.mod_upper_bound (length q) 64 ltac:(lia)) as Hb. set (k := (length q / 64)%nat) in *.
    exists (n + k)%nat, (a ++ take (64 * k) q). cbn [dg_x dg_s dg_len]. split_and!.
    + by rewrite <- app_assoc, take_drop.
    + rewrite app_length, take_length. lia.
    + rewrite drop_length. lia.
    + rewrite blocks_app by done. rewrite Hs. rewrite <- (take_drop (64 * k) q) at 1. apply blocks_more. rewrite take_length. lia.
    + done.
  - exists n, a. by split_and!.
Qed.
Lemma holds_write d m p : holds d m → holds (md5_write d p) (m ++ p).
Proof.
  intros (n & a & -> & Ha & Hx & Hs & Hl). unfold md5_write. set (x := dg_x d) in *.
  assert (HL : (dg_len d + Z.of_nat (length p)) mod 18446744073709551616 = Z.of_nat (length ((a ++ x) ++ p)) mod 18446744073709551616).
  { rewrite Hl, Zplus_mod_idemp_l. f_equal. rewrite !app_length. lia. }
  destruct (Nat.ltb_spec 0 (length x)) as [Hx0|Hx0].
  - set (k := ((64 - length x) `min` length p)%nat). assert (Hk : length (x ++ take k p) = (length x + k)%nat) by (rewrite app_length, take_length; unfold k; lia).
    destruct (Nat.eqb_spec (length (x ++ take k p)) 64) as [He|He].
    + pose proof (holds_tail (n + 1) (a ++ x ++ take k p) (md5_block (dg_s d) (x ++ take k p)) (drop k p) ((dg_len d + Z.of_nat (length p)) mod 18446744073709551616)) as HT.
      feed specialize HT.
      * rewrite app_length, He. lia.
      * rewrite blocks_app by done. rewrite <- Hs. cbn [md5_blocks]. by rewrite (take_ge (x ++ take k p)) by (rewrite He; lia).
      * rewrite HL. do 2 f_equal. by rewrite <- !app_assoc, take_drop.
      * assert (E : (a ++ x ++ take k p) ++ drop k p = (a ++ x) ++ p) by (by rewrite <- !app_assoc, take_drop). rewrite E in HT. 
        destruct (Nat.ltb_spec 0 (length (if (64 <=? length (drop k p))%nat then drop (64 * (length (drop k p) / 64)) (drop k p) else drop k p))) as [Hz|Hz]; [done|].
        match type of HT with holds (Digest _ ?y _) _ => replace y with (@nil Z) in HT by (destruct y; [done|simpl in Hz; lia]) end. done.
    + assert (Hk2 : k = length p) by (unfold k in *; lia). assert (drop k p = []) as -> by (rewrite Hk2; apply drop_all). simpl. exists n, a. cbn [dg_x dg_s dg_len]. split_and!; [|done|lia|done|done].
      rewrite Hk2, firstn_all. by rewrite app_assoc.
  - assert (Hnil : x = []) by (destruct x; [done|simpl in Hx0; lia]). rewrite Hnil, app_nil_r in *.
    pose proof (holds_tail n a (dg_s d) p _ Ha Hs HL) as HT.
    destruct (Nat.ltb_spec 0 (length (if (64 <=? length p)%nat then drop (64 * (length p / 64)) p else p))) as [Hz|Hz]; [done|].
    match type of HT with holds (Digest _ ?y _) _ => replace y with (@nil Z) in HT by (destruct y; [done|simpl in Hz; lia]) end. done.
Qed.
Lemma holds_foldl d m ps : holds d m → holds (foldl md5_write d ps) (m ++ concat ps).
Proof. revert d m. induction ps as [|p ps IH]; intros d m Hd; simpl; [by rewrite app_nil_r|]. rewrite app_assoc. apply IH. by apply holds_write. Qed.

(** ** The digest *)
Lemma le_low n x : le_bytes n x = low_first n x.
Proof. revert x. induction n as [|n IH]; intros x; simpl; [done|]. by rewrite IH. Qed.
Lemma low_first_length n x : length (low_first n x) = n.
Proof. revert x. induction n as [|n IH]; intros x; simpl; [done|]. by rewrite IH. Qed.
Lemma low_first_byte n x : Forall byte (low_first n x).
Proof. revert x. induction n as [|n IH]; intros x; simpl; constructor; [|done]. pose proof (Z.mod_pos_bound x 256). unfold byte. lia. Qed.
Lemma output_length v : length (output v) = 16%nat.
Proof. destruct v as [[[a b] c] d]. unfold output. by rewrite !app_length, !low_first_length. Qed.
Lemma output_byte v : Forall byte (output v).
Proof. destruct v as [[[a b] c] d]. unfold output. rewrite !Forall_app. split_and!; apply low_first_byte. Qed.
Lemma pad_count L : let k := Z.to_nat (((55 - Z.of_nat L mod 18446744073709551616) mod 18446744073709551616) mod 64) in
  ((L + 1 + k) mod 64 = 56)%nat ∧ (k < 64)%nat ∧ ∀ j, ((L + 1 + j) mod 64 = 56)%nat → (k ≤ j)%nat.
Proof.
  cbv zeta. set (z := ((55 - Z.of_nat L mod 18446744073709551616) mod 18446744073709551616) mod 64).
  assert (Hz : 0 ≤ z < 64) by (apply Z.mod_pos_bound; lia).
  assert (Hc : ∃ q, z = 55 - Z.of_nat L + 64 * q).
  { pose proof (Z.div_mod (Z.of_nat L) 18446744073709551616 ltac:(lia)). pose proof (Z.div_mod (55 - Z.of_nat L mod 18446744073709551616) 18446744073709551616 ltac:(lia)). pose proof (Z.div_mod ((55 - Z.of_nat L mod 18446744073709551616) mod 18446744073709551616) 64 ltac:(lia)) as Hz3. fold z in Hz3.
    set (a := Z.of_nat L / 18446744073709551616) in *. set (b := (55 - Z.of_nat L mod 18446744073709551616) / 18446744073709551616) in *. set (c := (55 - Z.of_nat L mod 18446744073709551616) mod 18446744073709551616 / 64) in *.
    exists (288230376151711744 * a - 288230376151711744 * b - c). lia. }
  destruct Hc as [q Hq]. clearbody z.
  assert (M : ∀ j, ((L + 1 + j) mod 64 = 56)%nat ↔ (Z.of_nat L + 1 + Z.of_nat j) mod 64 = 56).
  { intros j. rewrite <- Nat2Z.inj_iff, Nat2Z.inj_mod. rewrite !Nat2Z.inj_add. done. }
  split_and!; [|lia|].
  - apply M. rewrite Z2Nat.id by lia. rewrite Hq. replace (Z.of_nat L + 1 + (55 - Z.of_nat L + 64 * q)) with (56 + q * 64) by lia. by rewrite Z_mod_plus_full.
  - intros j Hj. apply M in Hj. pose proof (Z.div_mod (Z.of_nat L + 1 + Z.of_nat j) 64 ltac:(lia)) as Hd. rewrite Hj in Hd. lia.
Qed.
Lemma checksum_md5 d m : holds d m → ∃ h, md5_checksum d = Ret h ∧ is_md5 m h ∧ length h = 16%nat ∧ Forall byte h.
Proof.
  intros Hd. unfold md5_checksum. assert (HL : dg_len d = Z.of_nat (length m) mod 18446744073709551616) by (by destruct Hd as (? & ? & ? & ? & ? & ? & ?)). rewrite HL. destruct (pad_count (length m)) as (P1 & P2 & P3). set (k := Z.to_nat (((55 - Z.of_nat (length m) mod 18446744073709551616) mod 18446744073709551616) mod 64)) in *.
  set (tmp := [128] ++ replicate k 0 ++ le_bytes 8 ((Z.of_nat (length m) mod 18446744073709551616 * 8) mod 18446744073709551616)). pose proof (holds_write d m tmp Hd) as (n & a & Ea & La & Lx & Es & _).
  assert (Ht : length tmp = (1 + k + 8)%nat) by (unfold tmp; rewrite !app_length, replicate_length, le_low, low_first_length; simpl; lia).
  assert (Hx : dg_x (md5_write d tmp) = []).
  { assert (Hlen : (length (m ++ tmp) = length a + length (dg_x (md5_write d tmp)))%nat) by (rewrite Ea, app_length; done). rewrite app_length, Ht, La in Hlen. destruct (dg_x (md5_write d tmp)) as [|y ys] eqn:Ey; [done|exfalso]. cbn [length] in *.
    pose proof (Nat.div_mod (length m + 1 + k) 64 ltac:(lia)) as Hdm. rewrite P1 in Hdm. lia. }
  rewrite Hx. rewrite bool_decide_eq_true_2 by done. rewrite Hx, app_nil_r in Ea. eexists. split; [done|]. rewrite !le_low.
  change (low_first 4 _ ++ _) with (output (conv (dg_s (md5_write d tmp)))). split; [|split; [apply output_length|apply output_byte]].
  exists a, (conv (dg_s (md5_write d tmp))). split; [|split; [|done]].
  - exists k. split; [|done]. rewrite <- Ea. unfold tmp. rewrite le_low. do 4 f_equal. change (2 ^ 64) with 18446744073709551616. rewrite Zmult_mod_idemp_l. f_equal. lia.
  - rewrite Es. change start_words with (conv (dg_s md5_new)). apply blocks_compressed; [|done]. split_and!; simpl; unfold word; lia.
Qed.
(** the definition determines the digest *)
Lemma compressed_len v p v' : compressed v p v' → (length p mod 64 = 0)%nat.
Proof. induction 1 as [|v b p v' Hb _ IH]; [done|]. rewrite app_length, Hb. replace (64 + length p)%nat with (length p + 1 * 64)%nat by lia. by rewrite Nat.mod_add by lia. Qed.
Lemma compressed_fun v p v1 v2 : compressed v p v1 → compressed v p v2 → v1 = v2.
Proof.
  intros H1. revert v2. induction H1 as [|v b p v' Hb _ IH]; intros v2 H2.
  - remember [] as l eqn:E in H2. destruct H2 as [|? b' p' ? Hb' ?]; [done|]. destruct b'; [simpl in Hb'; lia|done].
  - remember (b ++ p) as l eqn:E in H2. destruct H2 as [|v b' p' v2 Hb' H2]; [destruct b; [simpl in Hb; lia|done]|]. apply app_inj_1 in E as [-> ->]; [|lia]. by apply IH.
Qed.
Theorem md5_unique m h h' : is_md5 m h → is_md5 m h' → h = h'.
Proof.
  intros (p & v & (k & -> & K1 & K2) & C1 & ->) (p' & v' & (k' & -> & K1' & K2') & C2 & ->). assert (k = k') as -> by (apply Nat.le_antisymm; auto). by rewrite (compressed_fun _ _ _ _ C1 C2).
Qed.

(** ** Hexadecimal digits *)
Lemma hex_digit_of v : 0 ≤ v < 16 → hex_digit v = hex_of v.
Proof. intros Hv. assert (v = 0 ∨ v = 1 ∨ v = 2 ∨ v = 3 ∨ v = 4 ∨ v = 5 ∨ v = 6 ∨ v = 7 ∨ v = 8 ∨ v = 9 ∨ v = 10 ∨ v = 11 ∨ v = 12 ∨ v = 13 ∨ v = 14 ∨ v = 15) as HH by lia. repeat destruct HH as [->|HH]; [by vm_compute..|]. subst v. by vm_compute. Qed.
Lemma hex_string_is l : Forall byte l → is_hex l (hex_string l).
Proof.
  intros Hl. split.
  - clear Hl. induction l as [|b l IH]; [done|]. change (length (hex_string (b :: l))) with (S (S (length (hex_string l)))). rewrite IH. simpl. lia.
  - induction Hl as [|b l Hb Hl IH]; intros i c Hi; [done|]. unfold byte in Hb. destruct i as [|i]; simpl in Hi.
    + injection Hi as <-. assert (0 ≤ b / 16 < 16) by (split; [apply Z.div_pos; lia|apply Z.div_lt_upper_bound; lia]). pose proof (Z.mod_pos_bound b 16). split; simpl; f_equal; apply hex_digit_of; lia.
    + replace (2 * S i)%nat with (S (S (2 * i))) by lia. replace (S (S (2 * i)) + 1)%nat with (S (S (2 * i + 1))) by lia. by apply IH.
Qed.
Lemma is_hex_unique l s s' : is_hex l s → is_hex l s' → s = s'.
Proof.
  intros [L1 H1] [L2 H2]. apply list_eq. intros j. destruct (decide (j < 2 * length l)%nat) as [Hj|Hj].
  - destruct (lookup_lt_is_Some_2 l (j / 2)) as [b Hb]; [apply Nat.div_lt_upper_bound; lia|]. destruct (H1 _ _ Hb) as [A1 B1], (H2 _ _ Hb) as [A2 B2]. pose proof (Nat.div_mod j 2 ltac:(lia)) as Hd. pose proof (Nat.mod_upper_bound j 2 ltac:(lia)). assert (j = 2 * (j / 2) ∨ j = 2 * (j / 2) + 1)%nat as [->| ->] by lia; congruence.
  - rewrite !lookup_ge_None_2 by lia. done.
Qed.

(** ** C76 *)
Lemma hex_length l s : is_hex l s → length s = (2 * length l)%nat. Proof. by intros [? _]. Qed.
(** for every content there is one digest, and every helper returns its 32 lower-case digits,
    however the reads cut the content *)
Theorem md5_helpers m : ∃ h x, is_md5 m h ∧ is_hex h x ∧ length x = 32%nat ∧ md5_crypt m = Ret x ∧ md5_string m = Ret x ∧ md5v m [] = Ret x ∧
  ∀ r, concat (rd_pieces r) = m → rd_fails r = false → compute_file_md5 r = Ret x ∧ file_md5 (Some r) = Ret (x, false).
Proof.
  destruct (checksum_md5 (md5_write md5_new m) m) as (h & Eh & Hm & Hl & Hb); [apply (holds_write _ [] m), holds_new|]. exists h, (hex_string h). pose proof (hex_string_is h Hb) as Hx. split; [done|]. split; [done|]. split; [rewrite (hex_length _ _ Hx), Hl; done|].
  unfold md5_crypt, md5_string, md5v, md5_sum. rewrite Eh. simpl. split; [done|]. split; [done|]. split; [done|].
  intros r Hr Hf. unfold compute_file_md5, file_md5, md5_sum. rewrite Hf. destruct (checksum_md5 (copy_hash md5_new r) m) as (h' & Eh' & Hm' & _ & _). { rewrite <- Hr. apply (holds_foldl _ []), holds_new. }
  rewrite Eh'. simpl. by rewrite (md5_unique _ _ _ Hm' Hm).
Qed.
(** ** C77 *)
(** a read error: FileMd5 reports it; ComputeFileMD5 returns the digest of what was read before *)
Theorem file_md5_errors r : file_md5 None = Ret ([], true) ∧ (rd_fails r = true → file_md5 (Some r) = Ret ([], true)) ∧
  ∃ h x, is_md5 (concat (rd_pieces r)) h ∧ is_hex h x ∧ compute_file_md5 r = Ret x.
Proof.
  split; [done|]. split; [unfold file_md5; by intros ->|]. destruct (checksum_md5 (copy_hash md5_new r) (concat (rd_pieces r))) as (h & Eh & Hm & Hl & Hb); [apply (holds_foldl _ []), holds_new|].
  exists h, (hex_string h). split; [done|]. split; [by apply hex_string_is|]. unfold compute_file_md5, md5_sum. by rewrite Eh.
Qed.
(** a file of which only the first half can be read has the digest of another file *)
Theorem compute_file_md5_error_refuted : ∃ bad good x, rd_fails bad = true ∧ rd_fails good = false ∧ concat (rd_pieces good) = str "message" ∧ compute_file_md5 bad = Ret x ∧ compute_file_md5 good = Ret x.
Proof. exists (Reader [str "mess"; str "age"] true), (Reader [str "message"] false). eexists. split_and!; [done|done|by vm_compute|by vm_compute|by vm_compute]. Qed.
(** the examples of RFC 1321 A.5, and a reader that returns the 80 digits in pieces of 7, 0, 60 and 13 *)
Definition digits80 : list Z := concat (replicate 8 (str "1234567890")).
Example rfc_1321_examples :
  md5_crypt (str "") = Ret (str "d41d8cd98f00b204e9800998ecf8427e") ∧ md5_crypt (str "a") = Ret (str "0cc175b9c0f1b6a831c399e269772661") ∧
  md5_crypt (str "abc") = Ret (str "900150983cd24fb0d6963f7d28e17f72") ∧ md5_crypt (str "message digest") = Ret (str "f96b697d7cb7938d525a2f31aaf161d0") ∧
  md5_crypt (str "abcdefghijklmnopqrstuvwxyz") = Ret (str "c3fcd3d76192e4007dfb496cca67e13b") ∧
  md5_crypt (str "ABCDEFGHIJKLMNOPQRSTUVWXYZabcdefghijklmnopqrstuvwxyz0123456789") = Ret (str "d174ab98d277d9f5a5611c2c9f419d9f") ∧
  md5_crypt digits80 = Ret (str "57edf4a22be3c955ac49da2e2107b67a") ∧
  compute_file_md5 (Reader [take 7 digits80; []; take 60 (drop 7 digits80); drop 67 digits80] false) = Ret (str "57edf4a22be3c955ac49da2e2107b67a").
Proof. by vm_compute. Qed.

(** ** C78 *)
(** the extra bytes do not enter the digest: they are printed in front of it *)
Theorem md5v_salt_partial m b : Forall byte b → ∃ h x y, is_md5 m h ∧ is_hex h x ∧ is_hex b y ∧ md5v m b = Ret (y ++ x).
Proof.
  intros Hb. destruct (checksum_md5 (md5_write md5_new m) m) as (h & Eh & Hm & Hl & Hh); [apply (holds_write _ [] m), holds_new|]. exists h, (hex_string h), (hex_string b). split; [done|]. split; [by apply hex_string_is|]. split; [by apply hex_string_is|].
  unfold md5v, md5_sum. rewrite Eh. simpl. unfold hex_string. by rewrite bind_app.
Qed.
Theorem md5v_salt_refuted : ∃ m b x, md5v m b = Ret x ∧ length x ≠ 32%nat ∧ drop (2 * length b) x = str "900150983cd24fb0d6963f7d28e17f72" ∧ md5v m [] = Ret (drop (2 * length b) x).
Proof. exists (str "abc"), (str "salt"). eexists. split; [by vm_compute|]. split; [by vm_compute|]. split; by vm_compute. Qed.
(** the digest is also written behind the extra bytes in the caller's array, if there is room *)
Theorem md5v_writes_partial m s b : in_mem m s → in_mem m b → ∃ h x m', is_md5 (bytes_of m s) h ∧ md5v_mem m s b = Ret (x, m') ∧ md5v (bytes_of m s) (bytes_of m b) = Ret x ∧
  length m' = length m ∧ ∀ i, m' !! i = if decide (s_len b + 16 ≤ s_cap b ∧ s_off b + s_len b ≤ i < s_off b + s_len b + 16)%nat then h !! (i - (s_off b + s_len b))%nat else m !! i.
Proof.
  intros Hs [Hb1 Hb2]. destruct (checksum_md5 (md5_write md5_new (bytes_of m s)) (bytes_of m s)) as (h & Eh & Hm & Hl & _); [apply (holds_write _ [] _), holds_new|]. exists h, (hex_string (bytes_of m b ++ h)). eexists. split; [done|].
  unfold md5v_mem, md5v, md5_sum. rewrite Eh. simpl. split; [done|]. split; [done|]. rewrite Hl. destruct (decide (s_len b + 16 ≤ s_cap b)%nat) as [Hc|Hc].
  - split; [rewrite !app_length, take_length, drop_length, Hl; lia|]. intros i. destruct (decide _) as [[_ Hi]|Hi].
    + rewrite lookup_app_r by (rewrite take_length; lia). rewrite take_length, lookup_app_l by lia. f_equal. lia.
    + destruct (decide (i < s_off b + s_len b)%nat).
      * rewrite lookup_app_l by (rewrite take_length; lia). by rewrite lookup_take by lia.
      * rewrite lookup_app_r by (rewrite take_length; lia). rewrite take_length, lookup_app_r by lia. rewrite lookup_drop, Hl. f_equal. lia.
  - split; [done|]. intros i. by rewrite decide_False by tauto.
Qed.
Theorem md5v_clobbers_refuted : ∃ m s b x m', in_mem m s ∧ in_mem m b ∧ md5v_mem m s b = Ret (x, m') ∧ bytes_of m' s ≠ bytes_of m s.
Proof. exists (replicate 32 65), (Slice 4 28 28), (Slice 0 4 32). eexists _, _. split; [split; vm_compute; lia|]. split; [split; vm_compute; lia|]. split; [by vm_compute|]. by vm_compute. Qed.
(** CheckMd5 accepts exactly the lower-case digits *)
Theorem check_md5_exact content chunk : ∃ ok, check_md5 content chunk = Ret ok ∧ (ok = true ↔ ∃ h, is_md5 content h ∧ is_hex h chunk).
Proof.
  destruct (md5_helpers content) as (h & x & Hm & Hx & _ & _ & _ & Ev & _). unfold check_md5. rewrite Ev. simpl. eexists. split; [done|]. rewrite bool_decide_eq_true. split.
  - intros <-. eauto.
  - intros (h' & Hm' & Hx'). rewrite (md5_unique _ _ _ Hm' Hm) in Hx'. by apply (is_hex_unique h).
Qed.
Theorem check_md5_case_refuted : ∃ content chunk, check_md5 content chunk = Ret false ∧ check_md5 content ((λ c, if decide (65 ≤ c ≤ 90) then c + 32 else c) <$> chunk) = Ret true.
Proof. exists (str "abc"), (str "900150983CD24FB0D6963F7D28E17F72"). split; by vm_compute. Qed.
Print Assumptions md5_unique.
Print Assumptions md5_helpers.
Print Assumptions file_md5_errors.
Print Assumptions compute_file_md5_error_refuted.
Print Assumptions md5v_salt_partial.
Print Assumptions md5v_salt_refuted.
Print Assumptions md5v_writes_partial.
Print Assumptions md5v_clobbers_refuted.
Print Assumptions check_md5_exact.
Print Assumptions check_md5_case_refuted.
