(** * The AES block cipher: theorems *)
From Coq Require Import Ring.
From Verif Require Import GoBase GoStr AesModel AesSpec AesBlockModel AesBlockSpec.
Local Open Scope Z_scope.

Lemma lxor_byte x y : byte x → byte y → byte (Z.lxor x y).
Proof.
  unfold byte. intros Hx Hy. assert (H : 0 ≤ Z.lxor x y) by (apply Z.lxor_nonneg; lia). split; [done|]. destruct (decide (Z.lxor x y = 0)) as [->|]; [lia|].
  apply Z.log2_lt_cancel. change (Z.log2 256) with 8. pose proof (Z.log2_lxor x y ltac:(lia) ltac:(lia)). assert (Hl : ∀ z, 0 ≤ z < 256 → Z.log2 z ≤ 7).
  { intros z Hz. change 7 with (Z.log2 255). apply Z.log2_le_mono. lia. }
  pose proof (Hl x Hx). pose proof (Hl y Hy). lia.
Qed.
(** a check of all bytes *)
Lemma all_bytes (P : Z → bool) : forallb (λ n, P (Z.of_nat n)) (seq 0 256) = true → ∀ b, byte b → P b = true.
Proof. intros H b Hb. unfold byte in Hb. rewrite forallb_forall in H. specialize (H (Z.to_nat b)). rewrite Z2Nat.id in H by lia. apply H. apply in_seq. lia. Qed.
Definition is_byte (b : Z) : bool := bool_decide (0 ≤ b < 256).

(** ** The tables and products are those of the standard *)
Theorem gf_products b : byte b → mul2 b = gmul 2 b ∧ mul3 b = gmul 3 b ∧ mul9 b = gmul 9 b ∧ mul11 b = gmul 11 b ∧ mul13 b = gmul 13 b ∧ mul14 b = gmul 14 b.
Proof.
  intros Hb. pose proof (all_bytes (λ b, bool_decide (mul2 b = gmul 2 b ∧ mul3 b = gmul 3 b ∧ mul9 b = gmul 9 b ∧ mul11 b = gmul 11 b ∧ mul13 b = gmul 13 b ∧ mul14 b = gmul 14 b)) ltac:(by vm_compute) b Hb) as H.
  by apply bool_decide_eq_true in H.
Qed.
Definition bits8 : list Z := [0; 1; 2; 3; 4; 5; 6; 7].
(** the S-box is the affine image of the inverse, 0 standing for its own *)
Theorem sbox_affine b : byte b → ∃ c, byte c ∧ (b = 0 ∧ c = 0 ∨ gmul b c = 1) ∧ byte (sub_byte b) ∧ ∀ i, 0 ≤ i < 8 → Z.testbit (sub_byte b) i = affine_bit c i.
Proof.
  set (ok := λ b c : Z, if ((b =? 0) && (c =? 0)) || (gmul b c =? 1) then is_byte (sub_byte b) && forallb (λ i, eqb (Z.testbit (sub_byte b) i) (affine_bit c i)) bits8 else false).
  intros Hb. pose proof (all_bytes (λ b, existsb (λ n, ok b (Z.of_nat n)) (seq 0 256)) ltac:(by vm_compute) b Hb) as H. cbv beta in H. apply existsb_exists in H as (n & Hn & H). exists (Z.of_nat n). unfold ok in H.
  destruct (((b =? 0) && (Z.of_nat n =? 0)) || (gmul b (Z.of_nat n) =? 1)) eqn:H2; [|done]. rewrite orb_true_iff, andb_true_iff, !Z.eqb_eq in H2.
  rewrite !andb_true_iff in H. destruct H as [H3 H4]. apply bool_decide_eq_true in H3. apply in_seq in Hn. split; [unfold byte; lia|]. split; [exact H2|]. split; [exact H3|].
  intros i Hi. rewrite forallb_forall in H4. specialize (H4 i). apply eqb_prop, H4. unfold bits8. simpl. lia.
Qed.
Lemma sub_byte_byte b : byte b → byte (sub_byte b).
Proof. intros Hb. pose proof (all_bytes (λ b, is_byte (sub_byte b)) ltac:(by vm_compute) b Hb) as H. by apply bool_decide_eq_true in H. Qed.
Lemma inv_sub_byte_byte b : byte b → byte (inv_sub_byte b).
Proof. intros Hb. pose proof (all_bytes (λ b, is_byte (inv_sub_byte b)) ltac:(by vm_compute) b Hb) as H. by apply bool_decide_eq_true in H. Qed.
Lemma inv_sub_sub b : byte b → inv_sub_byte (sub_byte b) = b.
Proof. intros Hb. pose proof (all_bytes (λ b, bool_decide (inv_sub_byte (sub_byte b) = b)) ltac:(by vm_compute) b Hb) as H. by apply bool_decide_eq_true in H. Qed.
Lemma sub_inv_sub b : byte b → sub_byte (inv_sub_byte b) = b.
Proof. intros Hb. pose proof (all_bytes (λ b, bool_decide (sub_byte (inv_sub_byte b) = b)) ltac:(by vm_compute) b Hb) as H. by apply bool_decide_eq_true in H. Qed.
(** the constants of the key expansion are the powers of x *)
Theorem powx_powers j : (j < 16)%nat → default 0 (powx !! j) = Nat.iter j (gmul 2) 1.
Proof. intros Hj. assert (H : forallb (λ j, Z.eqb (default 0 (powx !! j)) (Nat.iter j (gmul 2) 1)) (seq 0 16) = true) by (by vm_compute). rewrite forallb_forall in H. apply Z.eqb_eq, H, in_seq. lia. Qed.

(** ** Linearity *)
Lemma xtime_lxor a b : xtime (Z.lxor a b) = Z.lxor (xtime a) (xtime b).
Proof.
  unfold xtime. rewrite Z.lxor_spec. rewrite Z.shiftl_lxor. 
  assert (HL : ∀ x y z, Z.land (Z.lxor x y) z = Z.lxor (Z.land x z) (Z.land y z)).
  { intros x y z. apply Z.bits_inj'. intros n Hn. rewrite !Z.land_spec, !Z.lxor_spec, !Z.land_spec. by destruct (Z.testbit x n), (Z.testbit y n), (Z.testbit z n). }
  rewrite HL. set (u := Z.land (Z.shiftl a 1) 255). set (v := Z.land (Z.shiftl b 1) 255). destruct (Z.testbit a 7), (Z.testbit b 7); simpl xorb; cbv iota; rewrite ?Z.lxor_0_r.
  - rewrite <- !Z.lxor_assoc. rewrite (Z.lxor_assoc u 27 v), (Z.lxor_comm 27 v), <- !Z.lxor_assoc. by rewrite (Z.lxor_assoc _ 27 27), Z.lxor_nilpotent, Z.lxor_0_r.
  - rewrite !Z.lxor_assoc. f_equal. apply Z.lxor_comm.
  - by rewrite <- !Z.lxor_assoc.
  - done.
Qed.
Lemma xtime_byte b : byte b → byte (xtime b).
Proof. intros Hb. pose proof (all_bytes (λ b, is_byte (xtime b)) ltac:(by vm_compute) b Hb) as H. by apply bool_decide_eq_true in H. Qed.
Ltac xor_bits := apply Z.bits_inj'; intros ? _; rewrite ?Z.lxor_spec;
  repeat match goal with |- context [Z.testbit ?x ?n] => generalize (Z.testbit x n); intros ? end.
Lemma inv_mix_mix s : ∀ n, length s = (4 * n)%nat → inv_mix_columns (mix_columns s) = s.
Proof.
  intros n. revert s. induction n as [|n IH]; intros s Hs; [by destruct s|]. destruct s as [|a [|b [|c [|d r]]]]; simpl in Hs; try lia. cbn [mix_columns inv_mix_columns]. rewrite IH by lia.
  unfold lxor4, mul2, mul3, mul9, mul11, mul13, mul14. rewrite !xtime_lxor. 
  assert (HA : ∀ a b c d, a = b → c = d → a :: c = b :: d :> list Z) by (by intros; subst).
  repeat (apply HA; [xor_bits; ring|]). done.
Qed.
Lemma mix_inv_mix s : ∀ n, length s = (4 * n)%nat → mix_columns (inv_mix_columns s) = s.
Proof.
  intros n. revert s. induction n as [|n IH]; intros s Hs; [by destruct s|]. destruct s as [|a [|b [|c [|d r]]]]; simpl in Hs; try lia. cbn [mix_columns inv_mix_columns]. rewrite IH by lia.
  unfold lxor4, mul2, mul3, mul9, mul11, mul13, mul14. rewrite !xtime_lxor. 
  assert (HA : ∀ a b c d, a = b → c = d → a :: c = b :: d :> list Z) by (by intros; subst).
  repeat (apply HA; [xor_bits; ring|]). done.
Qed.
Lemma block_list (s : list Z) : length s = 16%nat → ∃ a0 a1 a2 a3 a4 a5 a6 a7 a8 a9 b0 b1 b2 b3 b4 b5, s = [a0; a1; a2; a3; a4; a5; a6; a7; a8; a9; b0; b1; b2; b3; b4; b5].
Proof. intros H. do 16 (destruct s as [|? s]; [done|]). destruct s; [|done]. by repeat eexists. Qed.
Ltac bytes := repeat match goal with |- byte (Z.lxor _ _) => apply lxor_byte | |- byte (xtime _) => apply xtime_byte end; done.
Lemma mul_byte b : byte b → byte (mul2 b) ∧ byte (mul3 b) ∧ byte (mul9 b) ∧ byte (mul11 b) ∧ byte (mul13 b) ∧ byte (mul14 b).
Proof. intros Hb. unfold mul2, mul3, mul9, mul11, mul13, mul14. do 5 (split; [bytes|]). bytes. Qed.
Lemma lxor4_byte a b c d : byte a → byte b → byte c → byte d → byte (lxor4 a b c d).
Proof. intros. unfold lxor4. by repeat apply lxor_byte. Qed.
Lemma cells {A} (P : A → Prop) l : Forall P l ↔ ∀ i x, l !! i = Some x → P x.
Proof. apply Forall_lookup. Qed.
Lemma mix_block s : is_block s → is_block (mix_columns s).
Proof.
  intros [Hl Hb]. destruct (block_list s Hl) as (a0 & a1 & a2 & a3 & a4 & a5 & a6 & a7 & a8 & a9 & b0 & b1 & b2 & b3 & b4 & b5 & ->). split; [done|]. cbn [mix_columns].
  repeat (apply Forall_cons in Hb as [? Hb]). repeat (apply Forall_cons; split); try (apply lxor4_byte); try done; try (by apply mul_byte).
Qed.
Lemma inv_mix_block s : is_block s → is_block (inv_mix_columns s).
Proof.
  intros [Hl Hb]. destruct (block_list s Hl) as (a0 & a1 & a2 & a3 & a4 & a5 & a6 & a7 & a8 & a9 & b0 & b1 & b2 & b3 & b4 & b5 & ->). split; [done|]. cbn [inv_mix_columns].
  repeat (apply Forall_cons in Hb as [? Hb]). repeat (apply Forall_cons; split); try (apply lxor4_byte); try done; try (by apply mul_byte).
Qed.
Lemma shift_block s : is_block s → is_block (shift_rows s) ∧ is_block (inv_shift_rows s) ∧ inv_shift_rows (shift_rows s) = s ∧ shift_rows (inv_shift_rows s) = s.
Proof.
  intros [Hl Hb]. destruct (block_list s Hl) as (a0 & a1 & a2 & a3 & a4 & a5 & a6 & a7 & a8 & a9 & b0 & b1 & b2 & b3 & b4 & b5 & ->). repeat (apply Forall_cons in Hb as [? Hb]).
  unfold shift_rows, inv_shift_rows, pick. cbn. split_and!; [split; [done|]..|done|done]; by repeat (apply Forall_cons; split).
Qed.
Lemma sub_block s : is_block s → is_block (sub_bytes s) ∧ is_block (inv_sub_bytes s) ∧ inv_sub_bytes (sub_bytes s) = s ∧ sub_bytes (inv_sub_bytes s) = s.
Proof.
  intros [Hl Hb]. unfold sub_bytes, inv_sub_bytes. split_and!.
  - split; [by rewrite fmap_length|]. apply Forall_fmap. eapply Forall_impl; [exact Hb|]. apply sub_byte_byte.
  - split; [by rewrite fmap_length|]. apply Forall_fmap. eapply Forall_impl; [exact Hb|]. apply inv_sub_byte_byte.
  - rewrite <- list_fmap_compose. rewrite <- (list_fmap_id s) at 2. apply list_fmap_ext. intros i x Hx. apply inv_sub_sub. by eapply Forall_lookup_1.
  - rewrite <- list_fmap_compose. rewrite <- (list_fmap_id s) at 2. apply list_fmap_ext. intros i x Hx. apply sub_inv_sub. by eapply Forall_lookup_1.
Qed.
Lemma xor_bytes a b : Forall byte a → Forall byte b → Forall byte (xor a b).
Proof. intros Ha Hb. apply Forall_lookup. intros i x Hx. apply lookup_zip_with_Some in Hx as (u & v & -> & Hu & Hv). apply lxor_byte; [exact (Forall_lookup_1 _ _ _ _ Ha Hu)|exact (Forall_lookup_1 _ _ _ _ Hb Hv)]. Qed.
Lemma xor_block a b : is_block a → is_block b → is_block (xor a b).
Proof. intros [? ?] [? ?]. split; [unfold xor; rewrite zip_with_length; lia|by apply xor_bytes]. Qed.
Lemma xor_cancel a k : length a = length k → xor (xor a k) k = a.
Proof.
  revert k. induction a as [|x a IH]; intros [|y k] Hl; simpl in *; try done. f_equal; [|apply IH; lia]. by rewrite Z.lxor_assoc, Z.lxor_nilpotent, Z.lxor_0_r.
Qed.

(** ** The steps of a round *)
Theorem shift_rows_spec s r c : length s = 16%nat → (r < 4)%nat → (c < 4)%nat → cell (shift_rows s) r c = cell s r ((c + r) mod 4).
Proof.
  intros Hl Hr Hc. destruct (block_list s Hl) as (a0 & a1 & a2 & a3 & a4 & a5 & a6 & a7 & a8 & a9 & b0 & b1 & b2 & b3 & b4 & b5 & ->).
  do 4 (destruct r as [|r]; [do 4 (destruct c as [|c]; [done|]); lia|]). lia.
Qed.
Theorem mix_columns_spec s r c : is_block s → (r < 4)%nat → (c < 4)%nat →
  cell (mix_columns s) r c = dot_column (default [] ([[2; 3; 1; 1]; [1; 2; 3; 1]; [1; 1; 2; 3]; [3; 1; 1; 2]] !! r)) s c.
Proof.
  intros [Hl Hb] Hr Hc. destruct (block_list s Hl) as (a0 & a1 & a2 & a3 & a4 & a5 & a6 & a7 & a8 & a9 & b0 & b1 & b2 & b3 & b4 & b5 & ->). repeat (apply Forall_cons in Hb as [? Hb]).
  assert (HM1 : ∀ b, byte b → gmul 1 b = b). { intros b Hb'. pose proof (all_bytes (λ b, bool_decide (gmul 1 b = b)) ltac:(by vm_compute) b Hb') as HX. by apply bool_decide_eq_true in HX. }
  assert (HM2 : ∀ b, byte b → gmul 2 b = mul2 b) by (intros; symmetry; by apply gf_products). assert (HM3 : ∀ b, byte b → gmul 3 b = mul3 b) by (intros; symmetry; by apply gf_products).
  do 4 (destruct r as [|r]; [do 4 (destruct c as [|c]; [cbn -[gmul mul2 mul3]; rewrite ?HM1, ?HM2, ?HM3 by done; done|]); lia|]). lia.
Qed.

(** ** The key schedule *)
Definition word (w : list Z) : Prop := length w = 4%nat ∧ Forall byte w.
Lemma words_all l : ∀ n, length l = (4 * n)%nat → length (words l) = n ∧ (Forall byte l → Forall word (words l)) ∧ ∀ i, (i < n)%nat → words l !! i = Some (take 4 (drop (4 * i) l)).
Proof.
  intros n. revert l. induction n as [|n IH]; intros l Hl; [destruct l; [|done]; split_and!; [done|constructor|lia]|]. destruct l as [|a [|b [|c [|d r]]]]; simpl in Hl; try lia. destruct (IH r ltac:(lia)) as (I1 & I2 & I3). cbn [words].
  split_and!.
  - cbn [length]. lia.
  - intros Hb. repeat (apply Forall_cons in Hb as [? Hb]). constructor; [|by apply I2]. split; [done|]. by repeat (apply Forall_cons; split).
  - intros [|i] Hi; [by rewrite take_0 || done|]. cbn [lookup list_lookup]. etransitivity; [apply I3; lia|]. do 2 f_equal. replace (4 * S i)%nat with (4 + 4 * i)%nat by lia. done.
Qed.
Lemma word_xor a b : word a → word b → word (xor a b).
Proof. intros [? ?] [? ?]. split; [unfold xor; rewrite zip_with_length; lia|by apply xor_bytes]. Qed.
Lemma word_sub a : word a → word (sub_bytes a).
Proof. intros [? Hb]. split; [unfold sub_bytes; by rewrite fmap_length|]. apply Forall_fmap. eapply Forall_impl; [exact Hb|]. apply sub_byte_byte. Qed.
Lemma word_rot a : word a → word (rotw a).
Proof. intros [Hl Hb]. unfold rotw. split; [rewrite app_length, drop_length, take_length; lia|]. apply Forall_app. split; [by apply Forall_drop|by apply Forall_take]. Qed.
Lemma word_rcon j : word (rcon j).
Proof.
  split; [done|]. unfold rcon. apply Forall_cons. split; [|repeat (apply Forall_cons; split); [unfold byte; lia..|constructor]]. destruct (powx !! j) as [x|] eqn:E; simpl; [|unfold byte; lia].
  assert (HP : Forall byte powx) by (unfold powx, byte; repeat (apply Forall_cons; split); [lia..|constructor]). exact (Forall_lookup_1 _ _ _ _ HP E).
Qed.
Lemma next_word_word nk w : (0 < nk ≤ length w)%nat → Forall word w → word (next_word nk w).
Proof.
  intros Hn Hw. unfold next_word. assert (HG : ∀ i, (i < length w)%nat → word (default [] (w !! i))). { intros i Hi. destruct (lookup_lt_is_Some_2 w i Hi) as [x Hx]. rewrite Hx. by eapply Forall_lookup_1. }
  apply word_xor; [apply HG; lia|]. pose proof (HG (length w - 1)%nat ltac:(lia)) as Ht. destruct (_ =? _)%nat; [apply word_xor; [by apply word_sub, word_rot|apply word_rcon]|]. destruct (_ && _); [by apply word_sub|done].
Qed.
Lemma grow_words nk n w : (0 < nk ≤ length w)%nat → Forall word w → length (grow n nk w) = (length w + n)%nat ∧ Forall word (grow n nk w) ∧
  (∀ i, (i < length w)%nat → grow n nk w !! i = w !! i) ∧ ∀ i, (length w ≤ i < length w + n)%nat → grow n nk w !! i = Some (next_word nk (take i (grow n nk w))).
Proof.
  revert w. induction n as [|n IH]; intros w Hn Hw; [cbn [grow]; split_and!; [lia|done|done|lia]|]. cbn [grow]. destruct (IH (w ++ [next_word nk w])) as (I1 & I2 & I3 & I4).
  { rewrite app_length. simpl. lia. }
  { apply Forall_app. split; [done|]. apply Forall_singleton. by apply next_word_word. }
  rewrite app_length in *. simpl in *. split_and!; [lia|done| |].
  - intros i Hi. rewrite I3 by lia. by rewrite lookup_app_l.
  - intros i Hi. destruct (decide (i = length w)) as [->|]; [|apply I4; lia]. rewrite I3 by lia. rewrite list_lookup_middle by done. f_equal. f_equal.
    apply list_eq. intros j. destruct (decide (j < length w)%nat) as [Hj|Hj]; [|rewrite lookup_ge_None_2 by lia; by rewrite lookup_take_ge by lia]. rewrite lookup_take by lia. rewrite I3 by lia. by rewrite lookup_app_l.
Qed.
Lemma key_nk k : valid_key k → ∃ nk, length k = (4 * nk)%nat ∧ (nk = 4 ∨ nk = 6 ∨ nk = 8)%nat ∧ (length k / 4 = nk)%nat.
Proof. intros [H _]. destruct H as [H|[H|H]]; rewrite H; [exists 4%nat|exists 6%nat|exists 8%nat]; split_and!; (lia || done). Qed.
Lemma expand_all k : valid_key k → let w := expand_key k in length w = (4 * (rounds k + 1))%nat ∧ Forall word w.
Proof.
  intros Hk. pose proof (proj2 Hk) as Hb. destruct (key_nk k Hk) as (nk & Hl & Hn & Hd). cbv zeta. unfold expand_key, rounds. rewrite Hd. destruct (words_all k nk Hl) as (W1 & W2 & W3).
  destruct (grow_words nk (4 * (nk + 6 + 1) - nk) (words k)) as (G1 & G2 & _ & _); [lia|by apply W2|]. split; [rewrite G1, W1; lia|done].
Qed.
Lemma round_key_block k r : valid_key k → (r ≤ rounds k)%nat → is_block (round_key (expand_key k) r).
Proof.
  intros Hk Hr. destruct (expand_all k Hk) as [E1 E2]. unfold round_key. assert (HL : length (take 4 (drop (4 * r) (expand_key k))) = 4%nat) by (rewrite take_length, drop_length; lia).
  assert (HW : Forall word (take 4 (drop (4 * r) (expand_key k)))) by (by apply Forall_take, Forall_drop). revert HL HW. generalize (take 4 (drop (4 * r) (expand_key k))). intros q HL HW.
  do 4 (destruct q as [|? q]; [done|]). destruct q; [|done]. repeat (apply Forall_cons in HW as [[? ?] HW]). cbn [concat]. rewrite app_nil_r. split; [rewrite !app_length; lia|]. repeat (apply Forall_app; split; [done|]). done.
Qed.
Theorem expand_key_spec k : valid_key k → schedule sub_byte k (λ i, default [] (expand_key k !! i)) ∧ ∀ r, (r ≤ rounds k)%nat →
  round_key (expand_key k) r = concat ((λ j, default [] (expand_key k !! (4 * r + j)%nat)) <$> [0; 1; 2; 3]%nat).
Proof.
  intros Hk. pose proof (proj2 Hk) as Hb. destruct (expand_all k Hk) as [E1 E2]. split.
  - destruct (key_nk k Hk) as (nk & Hl & Hn & Hd). unfold schedule. rewrite Hd. destruct (words_all k nk Hl) as (W1 & W2 & W3). revert E1 E2. unfold expand_key, rounds. rewrite Hd. intros _ _.
    destruct (grow_words nk (4 * (nk + 6 + 1) - nk) (words k)) as (G1 & G2 & G3 & G4); [lia|by apply W2|]. set (w := grow (4 * (nk + 6 + 1) - nk) nk (words k)) in *. split.
    + intros i Hi. rewrite G3 by lia. by rewrite W3.
    + intros i Hi. rewrite G4 by lia. cbn [default]. unfold next_word. rewrite take_length, G1, W1. replace (i `min` (nk + (4 * (nk + 6 + 1) - nk)))%nat with i by lia. rewrite !lookup_take by lia.
      unfold xor_word, sub_bytes, rotw, xor. simpl. f_equal. destruct (Nat.eqb_spec (i mod nk) 0) as [E|E].
      * rewrite decide_True by done. f_equal. unfold rcon. f_equal. apply powx_powers. apply Nat.lt_succ_r. assert (i / nk < 17)%nat; [|lia]. apply Nat.div_lt_upper_bound; lia.
      * rewrite (decide_False _ _ E). destruct (Nat.ltb_spec 6 nk), (Nat.eqb_spec (i mod nk) 4); simpl; [rewrite decide_True by done|rewrite decide_False by lia..]; done.
  - intros r Hr. unfold round_key. f_equal. apply list_eq. intros j. destruct (decide (j < 4)%nat) as [Hj|Hj]; [|rewrite lookup_ge_None_2 by (rewrite take_length; lia); by rewrite lookup_ge_None_2 by (simpl; lia)].
    rewrite lookup_take, lookup_drop by done. destruct (lookup_lt_is_Some_2 (expand_key k) (4 * r + j)%nat ltac:(lia)) as [x Hx]. rewrite list_lookup_fmap. 
    assert ([0; 1; 2; 3]%nat !! j = Some j) as -> by (do 4 (destruct j as [|j]; [done|]); lia). cbn [fmap option_fmap option_map]. rewrite Hx. cbn [default]. done.
Qed.

(** ** Encryption and decryption are inverse *)
Lemma enc_round_block k r s : valid_key k → (r ≤ rounds k)%nat → is_block s → is_block (enc_round (expand_key k) s r).
Proof. intros Hk Hr Hs. unfold enc_round. apply xor_block; [|by apply round_key_block]. apply mix_block. apply shift_block. by apply sub_block. Qed.
Lemma dec_round_block k r s : valid_key k → (r ≤ rounds k)%nat → is_block s → is_block (dec_round (expand_key k) s r).
Proof. intros Hk Hr Hs. unfold dec_round. apply inv_mix_block. apply xor_block; [|by apply round_key_block]. apply sub_block. by apply shift_block. Qed.
Lemma foldl_block f k l s : (∀ r s, (r ≤ rounds k)%nat → is_block s → is_block (f s r)) → Forall (λ r, (r ≤ rounds k)%nat) l → is_block s → is_block (foldl f s l).
Proof. intros Hf. revert s. induction l as [|r l IH]; intros s Hl Hs; [done|]. apply Forall_cons in Hl as [Hr Hl]. cbn [foldl]. apply IH; [done|]. by apply Hf. Qed.
Lemma round_range k n : (n < rounds k)%nat → Forall (λ r, (r ≤ rounds k)%nat) (seq 1 n).
Proof. intros Hn. apply Forall_forall. intros r Hr. apply elem_of_list_In, in_seq in Hr. lia. Qed.
Theorem aes_block_bytes k b : valid_key k → is_block b → is_block (encrypt_block k b) ∧ is_block (decrypt_block k b).
Proof.
  intros Hk Hb. assert (HR : (6 ≤ rounds k)%nat) by (unfold rounds; lia). split.
  - unfold encrypt_block. apply xor_block; [|by apply round_key_block]. apply shift_block, sub_block. eapply foldl_block; [intros; by apply enc_round_block|apply round_range; lia|]. apply xor_block; [done|apply round_key_block; [done|lia]].
  - unfold decrypt_block. apply xor_block; [|apply round_key_block; [done|lia]]. apply sub_block, shift_block. eapply foldl_block; [intros; by apply dec_round_block|apply Forall_reverse, round_range; lia|]. apply xor_block; [done|by apply round_key_block].
Qed.
Lemma dec_enc_step k r s : valid_key k → (r ≤ rounds k)%nat → is_block s →
  dec_round (expand_key k) (shift_rows (sub_bytes (enc_round (expand_key k) s r))) r = shift_rows (sub_bytes s).
Proof.
  intros Hk Hr Hs. pose proof (enc_round_block k r s Hk Hr Hs) as He. unfold dec_round. destruct (sub_block _ He) as (S1 & _ & S2 & _). destruct (shift_block _ S1) as (_ & _ & S3 & _). rewrite S3, S2. unfold enc_round.
  destruct (round_key_block k r Hk Hr) as [Hl _]. destruct (sub_block _ Hs) as (T1 & _ & _ & _). destruct (shift_block _ T1) as (T2 & _ & _ & _). destruct (mix_block _ T2) as [T3 _]. rewrite xor_cancel by lia. apply (inv_mix_mix _ 4). apply T2.
Qed.
Theorem aes_block_inverse k b : valid_key k → is_block b → decrypt_block k (encrypt_block k b) = b.
Proof.
  intros Hk Hb. assert (HR : (6 ≤ rounds k)%nat) by (unfold rounds; lia). unfold decrypt_block, encrypt_block. set (w := expand_key k). set (s0 := xor b (round_key w 0)).
  assert (H0 : is_block s0) by (apply xor_block; [done|apply round_key_block; [done|lia]]).
  assert (HI : ∀ n, (n < rounds k)%nat → is_block (foldl (enc_round w) s0 (seq 1 n)) ∧
    foldl (dec_round w) (shift_rows (sub_bytes (foldl (enc_round w) s0 (seq 1 n)))) (reverse (seq 1 n)) = shift_rows (sub_bytes s0)).
  { induction n as [|n IH]; intros Hn; [done|]. destruct (IH ltac:(lia)) as [I1 I2]. rewrite seq_S, foldl_app, reverse_app. cbn [foldl reverse]. change (reverse [(1 + n)%nat]) with [(1 + n)%nat]. rewrite foldl_app. cbn [foldl].
    split; [apply enc_round_block; [done|lia|done]|]. unfold w. rewrite dec_enc_step; [exact I2|done|lia|exact I1]. }
  destruct (HI (rounds k - 1)%nat ltac:(lia)) as [I1 I2]. destruct (sub_block _ I1) as (S1 & _ & _ & _). destruct (shift_block _ S1) as ([S2 _] & _ & _ & _). destruct (round_key_block k (rounds k) Hk ltac:(lia)) as [Hl _].
  rewrite xor_cancel by (fold w in Hl; lia). rewrite I2. destruct (sub_block _ H0) as (T1 & _ & T2 & _). destruct (shift_block _ T1) as (_ & _ & T3 & _). rewrite T3, T2. apply xor_cancel.
  destruct (round_key_block k 0 Hk ltac:(lia)) as [Hl0 _]. destruct Hb. fold w in Hl0. lia.
Qed.
Lemma enc_dec_step k r s : valid_key k → (r ≤ rounds k)%nat → is_block s →
  enc_round (expand_key k) (inv_sub_bytes (inv_shift_rows (dec_round (expand_key k) s r))) r = inv_sub_bytes (inv_shift_rows s).
Proof.
  intros Hk Hr Hs. pose proof (dec_round_block k r s Hk Hr Hs) as He. unfold enc_round. destruct (shift_block _ He) as (_ & S1 & _ & S2). destruct (sub_block _ S1) as (_ & _ & _ & S3). rewrite S3, S2. unfold dec_round.
  destruct (round_key_block k r Hk Hr) as [Hl Hb]. destruct (shift_block _ Hs) as (_ & T1 & _ & _). destruct (sub_block _ T1) as (_ & T2 & _ & _). destruct (xor_block _ _ T2 (conj Hl Hb)) as [T3 _]. rewrite (mix_inv_mix _ 4) by done. apply xor_cancel. destruct T2. lia.
Qed.
Theorem aes_block_onto k b : valid_key k → is_block b → encrypt_block k (decrypt_block k b) = b.
Proof.
  intros Hk Hb. assert (HR : (6 ≤ rounds k)%nat) by (unfold rounds; lia). unfold decrypt_block, encrypt_block. set (w := expand_key k). set (nr := rounds k). set (s0 := xor b (round_key w nr)).
  assert (H0 : is_block s0) by (apply xor_block; [done|by apply round_key_block]).
  set (l := reverse (seq 1 (nr - 1))). set (s1 := foldl (dec_round w) s0 l).
  assert (H1 : is_block s1) by (eapply foldl_block; [intros; by apply dec_round_block|apply Forall_reverse, round_range; fold nr in HR |- *; unfold nr; lia|done]).
  destruct (shift_block _ H1) as (_ & J1 & _ & _). destruct (sub_block _ J1) as (_ & [J2 _] & _ & _). destruct (round_key_block k 0 Hk ltac:(lia)) as [Hl0 _]. rewrite xor_cancel by (fold w in Hl0; lia).
  assert (HI : ∀ q s, Forall (λ r, (r ≤ rounds k)%nat) q → is_block s → foldl (enc_round w) (inv_sub_bytes (inv_shift_rows (foldl (dec_round w) s q))) (reverse q) = inv_sub_bytes (inv_shift_rows s)).
  { induction q as [|r q IH]; intros s Hq Hs; [done|]. apply Forall_cons in Hq as [Hr Hq]. cbn [foldl]. rewrite reverse_cons, foldl_app, IH; [|done|by apply dec_round_block]. cbn [foldl]. by apply enc_dec_step. }
  unfold s1. replace (seq 1 (nr - 1)) with (reverse l) by (unfold l; apply reverse_involutive). rewrite HI; [|apply Forall_reverse, round_range; fold nr in HR |- *; unfold nr; lia|done].
  destruct (shift_block _ H0) as (_ & T1 & _ & T2). destruct (sub_block _ T1) as (_ & _ & _ & T3). rewrite T3, T2. apply xor_cancel. destruct (round_key_block k nr Hk ltac:(done)) as [Hl _]. destruct Hb. fold w in Hl. lia.
Qed.
(** ** The whole cipher is the one of the standard *)
Lemma gmul_cancel b c c' : byte b → byte c → byte c' → gmul b c = 1 → gmul b c' = 1 → c = c'.
Proof.
  intros Hb Hc Hc' H1 H2.
  pose proof (all_bytes (λ b, match List.filter (λ n, gmul b (Z.of_nat n) =? 1) (seq 0 256) with [] | [_] => true | _ => false end) ltac:(by vm_compute) b Hb) as H. cbv beta in H.
  assert (HI : ∀ z, byte z → gmul b z = 1 → In (Z.to_nat z) (List.filter (λ n, gmul b (Z.of_nat n) =? 1) (seq 0 256))).
  { intros z Hz Ez. unfold byte in Hz. apply filter_In. split; [apply in_seq; lia|]. rewrite Z2Nat.id by lia. by apply Z.eqb_eq. }
  pose proof (HI c Hc H1) as I1. pose proof (HI c' Hc' H2) as I2. unfold byte in Hc, Hc'. destruct (List.filter _ _) as [|n [|]]; [done| |done]. destruct I1 as [I1|[]], I2 as [I2|[]]. lia.
Qed.
Lemma byte_bits x y : byte x → byte y → (∀ i, 0 ≤ i < 8 → Z.testbit x i = Z.testbit y i) → x = y.
Proof.
  intros Hx Hy H. apply Z.bits_inj'. intros i Hi. destruct (decide (i < 8)); [apply H; lia|].
  assert (HB : ∀ z, byte z → Z.testbit z i = false). { intros z Hz. unfold byte in Hz. destruct (decide (z = 0)) as [->|]; [apply Z.testbit_0_l|]. apply Z.bits_above_log2; [lia|]. assert (Z.log2 z < 8); [|lia]. apply Z.log2_lt_pow2; lia. }
  by rewrite !HB.
Qed.
Lemma sbox_unique f : is_sbox f → ∀ b, byte b → f b = sub_byte b.
Proof.
  intros Hf b Hb. destruct (Hf b Hb) as (c & Hc & Ec & Bc & Ac), (sbox_affine b Hb) as (c' & Hc' & Ec' & Bc' & Ac'). assert (c = c') as <-.
  { destruct Ec as [[E0 ->]|E1], Ec' as [[E0' ->]|E1']; [done| | |by apply (gmul_cancel b)]; subst b.
    - by pose proof (all_bytes (λ z, negb (gmul 0 z =? 1)) ltac:(by vm_compute) c' Hc') as HH; cbv beta in HH; rewrite E1' in HH.
    - by pose proof (all_bytes (λ z, negb (gmul 0 z =? 1)) ltac:(by vm_compute) c Hc) as HH; cbv beta in HH; rewrite E1 in HH. }
  apply byte_bits; [done|done|]. intros i Hi. by rewrite Ac, Ac'.
Qed.
Lemma sbox_map f l : is_sbox f → Forall byte l → f <$> l = sub_bytes l.
Proof. intros Hf Hl. unfold sub_bytes. induction Hl as [|b l Hb _ IH]; [done|]. cbn [fmap list_fmap]. f_equal; [by apply sbox_unique|done]. Qed.
Lemma schedule_unique f k w : valid_key k → is_sbox f → schedule f k w → ∀ i, (i < 4 * (rounds k + 1))%nat → w i = default [] (expand_key k !! i).
Proof.
  intros Hk Hf [W1 W2]. destruct (expand_key_spec k Hk) as [[E1 E2] _]. destruct (expand_all k Hk) as [L1 L2]. destruct (key_nk k Hk) as (nk & _ & Hn & Hd). unfold rounds in *. rewrite Hd in *.
  assert (HW : ∀ i, (i < 4 * (nk + 6 + 1))%nat → Forall byte (default [] (expand_key k !! i))). { intros i Hi. destruct (lookup_lt_is_Some_2 (expand_key k) i ltac:(lia)) as [x Hx]. rewrite Hx. by destruct (Forall_lookup_1 _ _ _ _ L2 Hx). }
  induction i as [i IH] using lt_wf_ind. intros Hi. destruct (decide (i < nk)%nat) as [Hin|Hin]; [rewrite W1, E1 by lia; done|].
  rewrite W2, E2 by lia. rewrite (IH (i - nk)%nat), (IH (i - 1)%nat) by lia. f_equal. cbv zeta. pose proof (HW (i - 1)%nat ltac:(lia)) as Hb.
  destruct (decide (i mod nk = 0)%nat); [f_equal|destruct (decide (6 < nk ∧ i mod nk = 4)%nat); [|done]]; rewrite (sbox_map f _ Hf) by (first [done|apply Forall_app; split; [by apply Forall_drop|by apply Forall_take]]); done.
Qed.
Lemma cells_eq s t : length s = 16%nat → length t = 16%nat → (∀ r c, (r < 4)%nat → (c < 4)%nat → cell s r c = cell t r c) → s = t.
Proof.
  intros Hs Ht H. apply list_eq. intros i. destruct (decide (i < 16)%nat); [|rewrite !lookup_ge_None_2 by lia; done]. pose proof (Nat.div_mod i 4 ltac:(lia)) as Hd. pose proof (Nat.mod_upper_bound i 4 ltac:(lia)).
  specialize (H (i mod 4)%nat (i / 4)%nat ltac:(lia) ltac:(apply Nat.div_lt_upper_bound; lia)). unfold cell in H. by rewrite <- Hd in H.
Qed.
Lemma rows_unique s t : length s = 16%nat → rows_shifted s t ↔ t = shift_rows s.
Proof.
  intros Hs. assert (HL : length (shift_rows s) = 16%nat) by done. split.
  - intros [Ht H]. apply cells_eq; [done|done|]. intros r c Hr Hc. rewrite H by done. by rewrite shift_rows_spec.
  - intros ->. split; [done|]. intros r c Hr Hc. by apply shift_rows_spec.
Qed.
Lemma columns_unique s t : is_block s → columns_mixed s t ↔ t = mix_columns s.
Proof.
  intros Hs. assert (HL : length (mix_columns s) = 16%nat) by (by apply mix_block). split.
  - intros [Ht H]. apply cells_eq; [done|done|]. intros r c Hr Hc. rewrite H by done. by rewrite mix_columns_spec.
  - intros ->. split; [done|]. intros r c Hr Hc. by apply mix_columns_spec.
Qed.
Theorem aes_block_spec k b : valid_key k → is_block b → ∀ c, is_aes k b c ↔ c = encrypt_block k b.
Proof.
  intros Hk Hb. destruct (expand_key_spec k Hk) as [HS HRK]. destruct (expand_all k Hk) as [L1 L2].
  assert (HR : (6 ≤ rounds k)%nat) by (unfold rounds; lia). unfold encrypt_block. set (w := expand_key k) in *. set (nr := rounds k) in *.
  set (run := λ n, foldl (enc_round w) (xor b (round_key w 0)) (seq 1 n)).
  assert (HB : ∀ n, (n < nr)%nat → is_block (run n)). { intros n Hn. unfold run. eapply foldl_block; [intros; by apply enc_round_block|by apply round_range|]. apply xor_block; [done|apply round_key_block; [done|lia]]. }
  assert (HRK' : ∀ r, (r ≤ nr)%nat → round_key w r = default [] (w !! (4 * r)%nat) ++ default [] (w !! (4 * r + 1)%nat) ++ default [] (w !! (4 * r + 2)%nat) ++ default [] (w !! (4 * r + 3)%nat)).
  { intros r Hr. rewrite HRK by done. cbn [fmap list_fmap concat]. rewrite app_nil_r. by rewrite Nat.add_0_r. }
  intros c. split.
  - intros (f & w' & st & Hf & Hw & H0 & HI & (u & Hu & Hc)). change (length k / 4 + 6)%nat with nr in *. pose proof (schedule_unique f k w' Hk Hf Hw) as HW. fold w nr in HW.
    assert (HA : ∀ r s t, (r ≤ nr)%nat → key_added w' r s t → t = xor s (round_key w r)). { intros r s t Hr Hst. unfold key_added in Hst. rewrite !HW in Hst by lia. rewrite HRK' by done. exact Hst. }
    assert (HST : ∀ n, (n < nr)%nat → st n = run n).
    { induction n as [|n IH]; intros Hn; [apply (HA 0%nat) in H0; [exact H0|lia]|]. destruct (HI (S n) ltac:(lia)) as (u' & v & Hu' & Hv & Hst). replace (S n - 1)%nat with n in Hu' by lia. rewrite IH in Hu' by lia. pose proof (HB n ltac:(lia)) as HBn. rewrite (sbox_map f _ Hf (proj2 HBn)) in Hu'.
      destruct (sub_block _ HBn) as (Q1 & _). apply rows_unique in Hu'; [|apply Q1]. subst u'. apply columns_unique in Hv; [|by apply shift_block]. subst v. apply HA in Hst; [|lia]. rewrite Hst. unfold run. rewrite seq_S, foldl_app. done. }
    pose proof (HB (nr - 1)%nat ltac:(lia)) as HBn. rewrite HST, (sbox_map f _ Hf (proj2 HBn)) in Hu by lia. destruct (sub_block _ HBn) as (Q1 & _). apply rows_unique in Hu; [|apply Q1]. subst u. apply HA in Hc; [exact Hc|done].
  - intros ->. exists sub_byte, (λ i, default [] (w !! i)), run. change (length k / 4 + 6)%nat with nr. split; [exact sbox_affine|]. split; [done|].
    assert (HA : ∀ r s, (r ≤ nr)%nat → key_added (λ i, default [] (w !! i)) r s (xor s (round_key w r))) by (intros r s Hr; unfold key_added; rewrite HRK' by done; done).
    split; [apply HA; lia|]. split.
    + intros r Hr. pose proof (HB (r - 1)%nat ltac:(lia)) as HBn. destruct (sub_block _ HBn) as (Q1 & _). exists (shift_rows (sub_bytes (run (r - 1)%nat))), (mix_columns (shift_rows (sub_bytes (run (r - 1)%nat)))).
      split; [by apply rows_unique; [apply Q1|]|]. split; [by apply columns_unique; [apply shift_block|]|]. assert (run r = xor (mix_columns (shift_rows (sub_bytes (run (r - 1)%nat)))) (round_key w r)) as ->; [|apply HA; lia].
      unfold run. destruct r as [|r]; [lia|]. replace (S r - 1)%nat with r by lia. rewrite seq_S, foldl_app. done.
    + pose proof (HB (nr - 1)%nat ltac:(lia)) as HBn. destruct (sub_block _ HBn) as (Q1 & _). eexists. split; [by apply rows_unique; [apply Q1|]|]. by apply HA.
Qed.
(** the examples of FIPS 197, appendix C *)
Definition count_up n : list Z := Z.of_nat <$> seq 0 n.
Definition sample_block : list Z := (λ i, 17 * i) <$> count_up 16.
Example fips_197_examples : is_block sample_block ∧ valid_key (count_up 24) ∧
  encrypt_block (count_up 16) sample_block = [105; 196; 224; 216; 106; 123; 4; 48; 216; 205; 183; 128; 112; 180; 197; 90] ∧
  encrypt_block (count_up 24) sample_block = [221; 169; 124; 164; 134; 76; 223; 224; 110; 175; 112; 160; 236; 13; 113; 145] ∧
  encrypt_block (count_up 32) sample_block = [142; 162; 183; 202; 81; 103; 69; 191; 234; 252; 73; 144; 75; 73; 96; 137].
Proof.
  assert (HB : ∀ l, forallb is_byte l = true → Forall byte l). { intros l H. apply Forall_forall. intros x Hx. rewrite forallb_forall in H. apply elem_of_list_In in Hx. specialize (H x Hx). by apply bool_decide_eq_true in H. }
  split; [split; [done|apply HB; by vm_compute]|]. split; [split; [right; left; done|apply HB; by vm_compute]|]. split_and!; by vm_compute.
Qed.
Print Assumptions gf_products.
Print Assumptions sbox_affine.
Print Assumptions powx_powers.
Print Assumptions shift_rows_spec.
Print Assumptions mix_columns_spec.
Print Assumptions expand_key_spec.
Print Assumptions aes_block_bytes.
Print Assumptions aes_block_inverse.
Print Assumptions aes_block_onto.
Print Assumptions aes_block_spec.
