(** * Proofs about CRC-32 *)
From Verif Require Import GoBase GoStr ZfmtModel ZfmtSpec ZfmtProofs.
Local Open Scope Z_scope.

(** ** one byte is eight bits *)
Lemma shift_lxor a b : crc_shift (Z.lxor a b) = Z.lxor (crc_shift a) (crc_shift b).
Proof.
  unfold crc_shift. rewrite Z.lxor_spec, Z.shiftr_lxor. destruct (Z.testbit a 0), (Z.testbit b 0); cbn [xorb].
  - rewrite <- !Z.lxor_assoc, (Z.lxor_comm (Z.lxor _ crc_poly) (Z.shiftr b 1)), <- !Z.lxor_assoc, Z.lxor_assoc, Z.lxor_nilpotent, Z.lxor_0_r. apply Z.lxor_comm.
  - rewrite !Z.lxor_assoc. f_equal. apply Z.lxor_comm.
  - by rewrite !Z.lxor_assoc.
  - done.
Qed.
Lemma shift_double a : crc_shift (Z.shiftl a 1) = a.
Proof. unfold crc_shift. rewrite Z.shiftl_spec_low by lia. rewrite Z.shiftr_shiftl_l by lia. apply Z.shiftl_0_r. Qed.
Lemma iter_lxor n : ∀ a b, Nat.iter n crc_shift (Z.lxor a b) = Z.lxor (Nat.iter n crc_shift a) (Nat.iter n crc_shift b).
Proof. induction n as [|n IH]; intros a b; [done|]. rewrite !Nat.iter_succ. by rewrite IH, shift_lxor. Qed.
Lemma iter_high n : ∀ a, Nat.iter n crc_shift (Z.shiftl a (Z.of_nat n)) = a.
Proof.
  induction n as [|n IH]; intros a; [apply Z.shiftl_0_r|]. rewrite Nat.iter_succ_r. replace (Z.shiftl a (Z.of_nat (S n))) with (Z.shiftl (Z.shiftl a (Z.of_nat n)) 1) by (rewrite Z.shiftl_shiftl by lia; f_equal; lia).
  by rewrite shift_double, IH.
Qed.
Lemma table_iter i : 0 ≤ i < 256 → nth (Z.to_nat i) crc_table 0 = Nat.iter 8 crc_shift i.
Proof.
  intros Hi. assert (H : forallb (λ n, nth n crc_table 0 =? Nat.iter 8 crc_shift (Z.of_nat n)) (seq 0 256) = true) by (by vm_compute).
  rewrite forallb_forall in H. specialize (H (Z.to_nat i)). rewrite Z2Nat.id in H by lia. apply Z.eqb_eq, H. apply in_seq. lia.
Qed.
Lemma low_range c v : byte v → 0 ≤ Z.lxor (Z.land c 255) v < 256.
Proof. intros Hv. apply (lxor_range 8); [lia| |done]. change 255 with (Z.ones 8). rewrite Z.land_ones by lia. apply Z.mod_pos_bound. lia. Qed.
Lemma split_low c : c = Z.lxor (Z.land c 255) (Z.shiftl (Z.shiftr c 8) 8).
Proof.
  change 255 with (Z.ones 8). apply Z.bits_inj'. intros k Hk. rewrite Z.lxor_spec, Z.land_spec. destruct (Z.ltb_spec k 8).
  - rewrite Z.ones_spec_low, Z.shiftl_spec_low by lia. by rewrite andb_true_r, xorb_false_r.
  - rewrite Z.ones_spec_high, Z.shiftl_spec_high, Z.shiftr_spec by lia. rewrite andb_false_r, xorb_false_l. f_equal. lia.
Qed.
Lemma update_iter c v : byte v → crc_update c v = Nat.iter 8 crc_shift (Z.lxor c v).
Proof.
  intros Hv. unfold crc_update. rewrite table_iter by by apply low_range. rewrite (split_low c) at 3.
  rewrite Z.lxor_assoc, (Z.lxor_comm (Z.shiftl _ 8)), <- Z.lxor_assoc. rewrite (iter_lxor 8 (Z.lxor (Z.land c 255) v)). f_equal. symmetry. apply (iter_high 8).
Qed.
Definition crc_bit (c : Z) (b : bool) : Z := crc_shift (Z.lxor c (Z.b2z b)).
Fixpoint bits_val (bs : list bool) : Z := match bs with [] => 0 | b :: r => Z.lxor (Z.b2z b) (Z.shiftl (bits_val r) 1) end.
Lemma bits_iter bs : ∀ c, foldl crc_bit c bs = Nat.iter (length bs) crc_shift (Z.lxor c (bits_val bs)).
Proof.
  induction bs as [|b bs IH]; intros c. { cbn. by rewrite Z.lxor_0_r. }
  cbn [foldl length bits_val]. rewrite IH, Nat.iter_succ_r. f_equal. rewrite <- Z.lxor_assoc, shift_lxor, shift_double. done.
Qed.
Lemma byte_bits_val v : byte v → bits_val (byte_bits v) = v.
Proof.
  intros Hi. assert (H : forallb (λ n, bits_val (byte_bits (Z.of_nat n)) =? Z.of_nat n) (seq 0 256) = true) by (by vm_compute).
  rewrite forallb_forall in H. specialize (H (Z.to_nat v)). unfold byte in Hi. rewrite Z2Nat.id in H by lia. apply Z.eqb_eq, H. apply in_seq. lia.
Qed.
Lemma update_bits c v : byte v → crc_update c v = foldl crc_bit c (byte_bits v).
Proof. intros Hv. rewrite bits_iter, byte_bits_val by done. by apply update_iter. Qed.
Lemma fold_bits x : ∀ c, Forall byte x → foldl crc_update c x = foldl crc_bit c (text_bits x).
Proof.
  induction x as [|v x IH]; intros c Hx; [done|]. inversion Hx; subst. cbn [foldl]. unfold text_bits. cbn [mbind list_bind]. rewrite foldl_app. rewrite update_bits by done. by apply IH.
Qed.

(** ** the register is the remainder *)
Lemma reflect_lxor n : ∀ a b, reflect n (Z.lxor a b) = Z.lxor (reflect n a) (reflect n b).
Proof.
  induction n as [|n IH]; intros a b; [done|]. cbn [reflect]. rewrite Z.lxor_spec, Z.shiftr_lxor, IH.
  assert (E : Z.shiftl (Z.b2z (xorb (Z.testbit a 0) (Z.testbit b 0))) (Z.of_nat n) = Z.lxor (Z.shiftl (Z.b2z (Z.testbit a 0)) (Z.of_nat n)) (Z.shiftl (Z.b2z (Z.testbit b 0)) (Z.of_nat n))) by (rewrite <- Z.shiftl_lxor; by destruct (Z.testbit a 0), (Z.testbit b 0)).
  rewrite E, !Z.lxor_assoc. f_equal. rewrite <- !Z.lxor_assoc. f_equal. apply Z.lxor_comm.
Qed.
Lemma reflect_other n : ∀ q, reflect (S n) q = Z.lxor (Z.shiftl (reflect n q) 1) (Z.b2z (Z.testbit q (Z.of_nat n))).
Proof.
  induction n as [|n IH]; intros q. { cbn [reflect]. change (Z.of_nat 0) with 0. by rewrite Z.shiftl_0_r, Z.shiftl_0_l, Z.lxor_0_l, Z.lxor_0_r. }
  change (reflect (S (S n)) q) with (Z.lxor (Z.shiftl (Z.b2z (Z.testbit q 0)) (Z.of_nat (S n))) (reflect (S n) (Z.shiftr q 1))). rewrite IH. cbn [reflect]. rewrite Z.shiftl_lxor, Z.shiftl_shiftl by lia.
  rewrite Z.shiftr_spec by lia. rewrite Z.lxor_assoc. replace (Z.of_nat n + 1) with (Z.of_nat (S n)) by lia. done.
Qed.
Lemma reflect_range n : ∀ r, 0 ≤ reflect n r < 2 ^ Z.of_nat n.
Proof.
  induction n as [|n IH]; intros r; [cbn; lia|]. cbn [reflect]. specialize (IH (Z.shiftr r 1)). apply lxor_range; [lia| |].
  - rewrite Z.shiftl_mul_pow2 by lia. rewrite Nat2Z.inj_succ, Z.pow_succ_r by lia. assert (0 < 2 ^ Z.of_nat n) by (apply Z.pow_pos_nonneg; lia). destruct (Z.testbit r 0); cbn [Z.b2z]; lia.
  - rewrite Nat2Z.inj_succ, Z.pow_succ_r by lia. lia.
Qed.
Lemma reflect_twice n : ∀ r, 0 ≤ r < 2 ^ Z.of_nat n → reflect n (reflect n r) = r.
Proof.
  induction n as [|n IH]; intros r Hr; [cbn in *; lia|].
  rewrite reflect_other. cbn [reflect]. set (h := Z.testbit r 0). set (q := Z.shiftr r 1).
  assert (Hq : 0 ≤ q < 2 ^ Z.of_nat n). { unfold q. rewrite Z.shiftr_div_pow2 by lia. change (2 ^ 1) with 2. rewrite Nat2Z.inj_succ, Z.pow_succ_r in Hr by lia. split; [apply Z.div_pos; lia|apply Z.div_lt_upper_bound; lia]. }
  pose proof (reflect_range n q) as Hrq. rewrite reflect_lxor.
  assert (E1 : ∀ m k b, (m ≤ k)%nat → reflect m (Z.shiftl (Z.b2z b) (Z.of_nat k)) = 0).
  { clear. induction m as [|m IH]; intros k b Hk; [done|]. cbn [reflect]. rewrite Z.shiftl_spec_low by lia. destruct k as [|k]; [lia|].
    replace (Z.shiftr (Z.shiftl (Z.b2z b) (Z.of_nat (S k))) 1) with (Z.shiftl (Z.b2z b) (Z.of_nat k)) by (rewrite Z.shiftr_shiftl_l by lia; f_equal; lia). rewrite IH by lia. cbn [Z.b2z]. by rewrite Z.shiftl_0_l. }
  rewrite E1 by done. rewrite Z.lxor_0_l, IH by done.
  rewrite Z.lxor_spec. rewrite Z.shiftl_spec by lia. rewrite Z.sub_diag. rewrite Z.b2z_bit0.
  assert (E2 : Z.testbit (reflect n q) (Z.of_nat n) = false). { destruct (decide (reflect n q = 0)) as [->|]; [apply Z.bits_0|]. apply Z.bits_above_log2; [lia|]. apply Z.log2_lt_pow2; lia. }
  rewrite E2, xorb_false_r. unfold q, h. apply Z.bits_inj'. intros k Hk. rewrite Z.lxor_spec. destruct (Z.eqb_spec k 0) as [->|].
  - rewrite Z.shiftl_spec_low by lia. rewrite xorb_false_l. by destruct (Z.testbit r 0).
  - rewrite Z.shiftl_spec_high, Z.shiftr_spec by lia. replace (k - 1 + 1) with k by lia. replace (Z.testbit (Z.b2z (Z.testbit r 0)) k) with false; [by rewrite xorb_false_r|]. destruct (Z.testbit r 0); cbn [Z.b2z]; [|by rewrite Z.bits_0]. symmetry. apply Z.bits_above_log2; [lia|]. cbn. lia.
Qed.
Lemma multiple_shift P a : multiple P a → multiple P (Z.shiftl a 1).
Proof.
  intros [ks ->]. exists (S <$> ks). induction ks as [|k ks IH]; [done|]. cbn [foldr fmap list_fmap]. change (list_fmap _ _ S ks) with (S <$> ks). rewrite Z.shiftl_lxor, IH, Z.shiftl_shiftl by lia. do 2 f_equal. lia.
Qed.
Lemma multiple_add P a : multiple P a → multiple P (Z.lxor P a).
Proof. intros [ks ->]. exists (0%nat :: ks). cbn. by rewrite Z.shiftl_0_r. Qed.
Lemma crc_bit_range c b : w32 c → w32 (crc_bit c b).
Proof.
  intros Hc. unfold crc_bit. assert (H : w32 (Z.lxor c (Z.b2z b))) by (apply lxor_range; [lia|done|destruct b; cbn; lia]). unfold crc_shift. destruct (Z.testbit _ 0); [|by apply shiftr_range]. apply lxor_range; [lia|by apply shiftr_range|unfold crc_poly; lia].
Qed.
Lemma lxor_solve a b c : Z.lxor a b = c → a = Z.lxor c b.
Proof. intros <-. by rewrite Z.lxor_assoc, Z.lxor_nilpotent, Z.lxor_0_r. Qed.
Lemma reflect_step c b : w32 c → reflect 32 (crc_bit c b) =
  Z.lxor (Z.lxor (Z.shiftl (reflect 32 c) 1) (Z.shiftl (Z.b2z b) 32)) (if xorb (Z.testbit c 0) b then crc_polynomial else 0).
Proof.
  intros Hc. assert (E0 : reflect 32 (Z.shiftr c 1) = Z.shiftl (reflect 31 (Z.shiftr c 1)) 1).
  { rewrite reflect_other, Z.shiftr_spec by lia. replace (Z.testbit c (Z.of_nat 31 + 1)) with false; [by rewrite Z.lxor_0_r|]. symmetry. destruct (decide (c = 0)) as [->|]; [apply Z.bits_0|]. unfold w32 in Hc. apply Z.bits_above_log2; [lia|]. apply Z.log2_lt_pow2; cbn; lia. }
  assert (E1 : Z.shiftl (reflect 32 c) 1 = Z.lxor (Z.shiftl (Z.b2z (Z.testbit c 0)) 32) (reflect 32 (Z.shiftr c 1))).
  { rewrite E0. change (reflect 32 c) with (Z.lxor (Z.shiftl (Z.b2z (Z.testbit c 0)) (Z.of_nat 31)) (reflect 31 (Z.shiftr c 1))). rewrite Z.shiftl_lxor, Z.shiftl_shiftl by lia. done. }
  unfold crc_bit. assert (Es : Z.shiftr (Z.lxor c (Z.b2z b)) 1 = Z.shiftr c 1) by (rewrite Z.shiftr_lxor; destruct b; cbn [Z.b2z]; change (Z.shiftr 1 1) with 0; change (Z.shiftr 0 1) with 0; apply Z.lxor_0_r).
  unfold crc_shift. rewrite Es, Z.lxor_spec, Z.b2z_bit0. rewrite E1.
  assert (Ep : reflect 32 crc_poly = Z.lxor crc_polynomial (2 ^ 32)) by (by vm_compute).
  set (R := reflect 32 (Z.shiftr c 1)) in *. destruct (Z.testbit c 0), b; cbn [xorb Z.b2z]; rewrite ?reflect_lxor; fold R; rewrite ?Ep, ?Z.shiftl_0_l, ?Z.lxor_0_l, ?Z.lxor_0_r; change (Z.shiftl 1 32) with (2 ^ 32).
  - by rewrite (Z.lxor_comm _ R), Z.lxor_assoc, Z.lxor_nilpotent, Z.lxor_0_r.
  - rewrite (Z.lxor_comm (2 ^ 32) R), Z.lxor_assoc. f_equal; apply Z.lxor_comm.
  - rewrite Z.lxor_assoc. f_equal; apply Z.lxor_comm.
  - done.
Qed.
Lemma fold_bit_range bs : ∀ c, w32 c → w32 (foldl crc_bit c bs).
Proof. induction bs as [|b bs IH]; intros c Hc; [done|]. apply IH. by apply crc_bit_range. Qed.
Lemma fold_congruent bs : congruent crc_polynomial (Z.lxor (Z.shiftl (text_poly bs) 32) (Z.shiftl (2 ^ 32 - 1) (Z.of_nat (length bs)))) (reflect 32 (foldl crc_bit 4294967295 bs)).
Proof.
  induction bs as [|b bs IH] using rev_ind. { exists []. by vm_compute. }
  unfold congruent in *. rewrite foldl_app. cbn [foldl]. set (c := foldl crc_bit 4294967295 bs) in *. assert (Hc : w32 c) by (apply fold_bit_range; unfold w32; lia).
  rewrite reflect_step by done. unfold text_poly. rewrite foldl_app. cbn [foldl]. fold (text_poly bs). rewrite app_length. cbn [length].
  set (A := Z.lxor (Z.shiftl (text_poly bs) 32) (Z.shiftl (2 ^ 32 - 1) (Z.of_nat (length bs)))) in *. set (R := reflect 32 c) in *.
  assert (EA : Z.lxor (Z.shiftl (Z.lxor (Z.shiftl (text_poly bs) 1) (Z.b2z b)) 32) (Z.shiftl (2 ^ 32 - 1) (Z.of_nat (length bs + 1))) = Z.lxor (Z.shiftl A 1) (Z.shiftl (Z.b2z b) 32)).
  { unfold A. rewrite !Z.shiftl_lxor, !Z.shiftl_shiftl by lia. replace (Z.of_nat (length bs + 1)) with (Z.of_nat (length bs) + 1) by lia. replace (1 + 32) with (32 + 1) by lia. rewrite !Z.lxor_assoc. f_equal. apply Z.lxor_comm. }
  rewrite EA. set (B := Z.shiftl (Z.b2z b) 32). apply multiple_shift in IH. rewrite Z.shiftl_lxor in IH. set (Q := if xorb _ _ then crc_polynomial else 0).
  replace (Z.lxor (Z.lxor (Z.shiftl A 1) B) (Z.lxor (Z.lxor (Z.shiftl R 1) B) Q)) with (Z.lxor Q (Z.lxor (Z.shiftl A 1) (Z.shiftl R 1))).
  - unfold Q. destruct (xorb _ _); [by apply multiple_add|by rewrite Z.lxor_0_l].
  - rewrite (Z.lxor_comm (Z.shiftl R 1) B), !Z.lxor_assoc. rewrite (Z.lxor_comm Q). rewrite !Z.lxor_assoc. f_equal. rewrite <- (Z.lxor_assoc B B), Z.lxor_nilpotent, Z.lxor_0_l. done.
Qed.
Lemma crc32_poly x : bytes x → crc_of x (crc32 x).
Proof.
  intros Hx. exists (reflect 32 (foldl crc_bit 4294967295 (text_bits x))). pose proof (reflect_range 32 (foldl crc_bit 4294967295 (text_bits x))) as Hr. split_and!; [apply Hr|apply Hr|apply fold_congruent|].
  unfold crc32. rewrite fold_bits by done. rewrite reflect_lxor, reflect_twice by (apply fold_bit_range; unfold w32; lia). f_equal.
Qed.

(** ** differences in four bytes in a row are seen *)
Lemma table_top i j : (i < 256)%nat → (j < 256)%nat → Z.shiftr (nth i crc_table 0) 24 = Z.shiftr (nth j crc_table 0) 24 → i = j.
Proof.
  intros Hi Hj E. assert (HN : NoDup (map (λ t, Z.shiftr t 24) crc_table)) by (apply (bool_decide_eq_true_1 _); by vm_compute).
  assert (L : length (map (λ t, Z.shiftr t 24) crc_table) = 256%nat) by (by vm_compute). apply NoDup_ListNoDup in HN. apply (proj1 (List.NoDup_nth _ (Z.shiftr 0 24)) HN); [lia|lia|].
  rewrite !(map_nth (λ t, Z.shiftr t 24)). done.
Qed.
Lemma lxor_cancel a b b' : Z.lxor a b = Z.lxor a b' → b = b'.
Proof. intros E. apply (f_equal (Z.lxor a)) in E. by rewrite <- !Z.lxor_assoc, !Z.lxor_nilpotent, !Z.lxor_0_l in E. Qed.
Definition ix (c v : Z) : nat := Z.to_nat (Z.lxor (Z.land c 255) v).
Lemma ix_range c v : byte v → (ix c v < 256)%nat.
Proof. intros Hv. pose proof (low_range c v Hv). unfold ix. lia. Qed.
Lemma update_back j c v c' v' : 0 ≤ j ≤ 3 → w32 c → w32 c' → byte v → byte v' → Z.shiftr (crc_update c v) (8 * j) = Z.shiftr (crc_update c' v') (8 * j) →
  ix c v = ix c' v' ∧ Z.shiftr c (8 * (j + 1)) = Z.shiftr c' (8 * (j + 1)).
Proof.
  intros Hj Hc Hc' Hv Hv' E. unfold crc_update in E. fold (ix c v) (ix c' v') in E.
  assert (H32 : ∀ a, w32 a → Z.shiftr (Z.shiftr a 8) 24 = 0). { intros a [H1 H2]. rewrite Z.shiftr_shiftr by lia. rewrite Z.shiftr_div_pow2 by lia. apply Z.div_small. split; [lia|]. cbn in *. lia. }
  assert (Ei : ix c v = ix c' v').
  { apply table_top; [by apply ix_range..|]. apply (f_equal (λ a, Z.shiftr a (24 - 8 * j))) in E. rewrite !Z.shiftr_shiftr in E by lia. replace (8 * j + (24 - 8 * j)) with 24 in E by lia. rewrite !Z.shiftr_lxor, !H32, !Z.lxor_0_r in E by done. done. }
  split; [done|]. rewrite Ei, !Z.shiftr_lxor, !Z.shiftr_shiftr in E by lia. apply lxor_cancel in E. replace (8 * (j + 1)) with (8 + 8 * j) by lia. done.
Qed.
Lemma ix_value c v v' : byte v → byte v' → ix c v = ix c v' → v = v'.
Proof. intros Hv Hv' E. pose proof (low_range c v Hv). pose proof (low_range c v' Hv'). unfold ix in E. apply (lxor_cancel (Z.land c 255)). lia. Qed.
Lemma fold_back b : ∀ b' c j, length b = length b' → 0 ≤ j → j + Z.of_nat (length b) ≤ 4 → w32 c → Forall byte b → Forall byte b' →
  Z.shiftr (foldl crc_update c b) (8 * j) = Z.shiftr (foldl crc_update c b') (8 * j) → b = b'.
Proof.
  induction b as [|v b IH] using rev_ind; intros b' c j Hl Hj Hs Hc Hb Hb' E. { by destruct b'. }
  destruct b' as [|v' b' _] using rev_ind. { rewrite app_length in Hl. cbn in Hl. lia. }
  rewrite (app_length b), (app_length b') in Hl. rewrite app_length in Hs. cbn in Hl, Hs. apply Forall_app in Hb as [Hb Hv]. apply Forall_app in Hb' as [Hb' Hv']. rewrite Forall_singleton in Hv. rewrite Forall_singleton in Hv'. rewrite !foldl_app in E. cbn [foldl] in E.
  apply update_back in E as [E1 E2]; [|lia|by apply crc_fold_range|by apply crc_fold_range|done|done].
  assert (Eb : b = b') by (apply (IH b' c (j + 1)); [lia|lia|lia|done|done|done|done]). subst b'. f_equal. f_equal. by eapply ix_value.
Qed.
Lemma update_inj c c' v : w32 c → w32 c' → byte v → crc_update c v = crc_update c' v → c = c'.
Proof.
  intros Hc Hc' Hv E. destruct (update_back 0 c v c' v) as [E1 E2]; [lia|done..|by rewrite E|]. change (8 * (0 + 1)) with 8 in E2.
  pose proof (low_range c v Hv). pose proof (low_range c' v Hv). unfold ix in E1. assert (E3 : Z.lxor (Z.land c 255) v = Z.lxor (Z.land c' 255) v) by lia. rewrite !(Z.lxor_comm _ v) in E3. apply lxor_cancel in E3.
  rewrite (split_low c), (split_low c'). by rewrite E2, E3.
Qed.
Lemma fold_inj z : ∀ c c', w32 c → w32 c' → Forall byte z → foldl crc_update c z = foldl crc_update c' z → c = c'.
Proof.
  induction z as [|v z IH]; intros c c' Hc Hc' Hz E; [done|]. inversion Hz; subst. cbn [foldl] in E. apply IH in E; [|by apply crc_update_range..|done]. by eapply update_inj.
Qed.
Lemma crc32_near d d' : bytes d → bytes d' → near d d' → crc32 d ≠ crc32 d'.
Proof.
  intros Hd Hd' (a & b & b' & z & -> & -> & Hl & H4 & Hne) E. apply Hne. unfold bytes in *. rewrite !Forall_app in Hd, Hd'. destruct Hd as (Ha & Hb & Hz), Hd' as (_ & Hb' & _).
  unfold crc32 in E. rewrite !(Z.lxor_comm _ 4294967295) in E. apply lxor_cancel in E. rewrite !foldl_app in E. assert (H0 : w32 4294967295) by (unfold w32; lia).
  apply fold_inj in E; [|by apply crc_fold_range, crc_fold_range..|done]. eapply (fold_back b b' _ 0); [done|lia|lia|by apply (crc_fold_range a)|done|done|]. by rewrite E.
Qed.
