(** * AES helpers: theorems *)
From Verif Require Import GoBase AesModel AesSpec AesBlockModel AesBlockProps.
Local Open Scope Z_scope.

Lemma xor_length a b : length (xor a b) = (length a `min` length b)%nat.
Proof. apply zip_with_length. Qed.
Lemma xor_xor a b : (length b ≤ length a)%nat → xor a (xor a b) = b.
Proof.
  revert b. induction a as [|x a IH]; intros [|y b] Hl; simpl in *; try done; [lia|]. f_equal; [|apply IH; lia].
  by rewrite <- Z.lxor_assoc, Z.lxor_nilpotent, Z.lxor_0_l.
Qed.
(** the block functions the chaining needs: [E] maps blocks to blocks, [D] inverts it *)
Lemma xor_block_iv iv src : is_block iv → Forall byte src → (16 ≤ length src)%nat → is_block (xor iv (take 16 src)).
Proof. intros Hi Hs Hl. apply xor_block; [done|]. split; [rewrite take_length; lia|by apply Forall_take]. Qed.
Lemma cbc_enc_ok k : valid_key k → ∀ n iv src, is_block iv → Forall byte src → length src = (16 * n)%nat →
  length (cbc_enc (encrypt_block k) n iv src) = (16 * n)%nat ∧ Forall byte (cbc_enc (encrypt_block k) n iv src) ∧ chained (encrypt_block k) iv src (cbc_enc (encrypt_block k) n iv src).
Proof.
  intros Hk. induction n as [|n IH]; intros iv src Hi Hb Hs; [destruct src; [|done]; split_and!; [done|constructor|constructor]|]. cbn [cbc_enc].
  pose proof (xor_block_iv iv src Hi Hb ltac:(lia)) as Hx. destruct (aes_block_bytes k _ Hk Hx) as [[HE1 HE2] _]. destruct (IH (encrypt_block k (xor iv (take 16 src))) (drop 16 src)) as (I1 & I2 & I3); [done|by apply Forall_drop|rewrite drop_length; lia|].
  split_and!; [rewrite app_length; lia|by apply Forall_app|]. pose proof (ch_cons (encrypt_block k) iv (take 16 src) (drop 16 src) _ ltac:(rewrite take_length; lia) I3) as HC. by rewrite take_drop in HC.
Qed.
Lemma cbc_dec_ok k : valid_key k → ∀ n iv src, is_block iv → Forall byte src → length src = (16 * n)%nat →
  let p := cbc_dec (decrypt_block k) n iv src in length p = (16 * n)%nat ∧ Forall byte p ∧ chained (encrypt_block k) iv p src.
Proof.
  intros Hk. cbv zeta. induction n as [|n IH]; intros iv src Hi Hb Hs; [destruct src; [|done]; split_and!; [done|constructor|constructor]|]. cbn [cbc_dec].
  assert (Ht : is_block (take 16 src)) by (split; [rewrite take_length; lia|by apply Forall_take]). destruct (aes_block_bytes k _ Hk Ht) as [_ HD]. pose proof (xor_block _ _ Hi HD) as [HX1 HX2].
  destruct (IH (take 16 src) (drop 16 src)) as (I1 & I2 & I3); [done|by apply Forall_drop|rewrite drop_length; lia|]. split_and!; [rewrite app_length; lia|by apply Forall_app|].
  assert (HE : encrypt_block k (zip_with Z.lxor iv (xor iv (decrypt_block k (take 16 src)))) = take 16 src).
  { change (encrypt_block k (xor iv (xor iv (decrypt_block k (take 16 src)))) = take 16 src). rewrite xor_xor; [by apply aes_block_onto|]. destruct Hi, HD. lia. }
  pose proof (ch_cons (encrypt_block k) iv (xor iv (decrypt_block k (take 16 src))) (cbc_dec (decrypt_block k) n (take 16 src) (drop 16 src)) (drop 16 src) HX1) as HC. rewrite HE in HC. specialize (HC I3). by rewrite take_drop in HC.
Qed.
Lemma cbc_inv k : valid_key k → ∀ n iv src, is_block iv → Forall byte src → length src = (16 * n)%nat → cbc_dec (decrypt_block k) n iv (cbc_enc (encrypt_block k) n iv src) = src.
Proof.
  intros Hk. induction n as [|n IH]; intros iv src Hi Hb Hs; [by destruct src|]. cbn [cbc_enc cbc_dec].
  pose proof (xor_block_iv iv src Hi Hb ltac:(lia)) as Hx. destruct (aes_block_bytes k _ Hk Hx) as [HE _]. pose proof (proj1 HE) as Hl.
  rewrite take_app_alt, drop_app_alt by done. rewrite aes_block_inverse by done. rewrite xor_xor by (destruct Hi; rewrite take_length; lia). rewrite IH; [apply take_drop|done|by apply Forall_drop|rewrite drop_length; lia].
Qed.
(** a text is chained to at most one other *)
Lemma chained_inv e iv q c : chained e iv q c → (q = [] ∧ c = []) ∨ ∃ b q' c', q = b ++ q' ∧ c = e (xor iv b) ++ c' ∧ length b = 16%nat ∧ chained e (e (xor iv b)) q' c'.
Proof. intros H. destruct H as [|iv b p c Hb H]; [by left|right]. by exists b, p, c. Qed.
Lemma chained_inj k : valid_key k → ∀ iv p c, chained (encrypt_block k) iv p c → ∀ q, is_block iv → Forall byte p → Forall byte q → chained (encrypt_block k) iv q c → p = q.
Proof.
  intros Hk iv p c H. induction H as [iv|iv b p c Hb H IH]; intros q Hi Hp Hq Hc; apply chained_inv in Hc as [[-> HE]|(b' & q' & c' & -> & HE & Hb' & Hc')].
  - done.
  - exfalso. apply (f_equal length) in HE. rewrite app_length in HE. apply Forall_app in Hq as [Hq _]. 
    assert (HB : is_block (xor iv b')) by (apply xor_block; [done|split; done]). destruct (aes_block_bytes k _ Hk HB) as [[HL _] _]. simpl in HE. lia.
  - exfalso. apply Forall_app in Hp as [Hpb Hp]. assert (HB : is_block (xor iv b)) by (apply xor_block; [done|split; done]). destruct (aes_block_bytes k _ Hk HB) as [[HL _] _]. fold (xor iv b) in HE. apply (f_equal length) in HE. rewrite app_length in HE. simpl in HE. lia.
  - fold (xor iv b) in *. apply Forall_app in Hp as [Hpb Hp]. apply Forall_app in Hq as [Hqb Hq]. assert (HB : is_block (xor iv b)) by (apply xor_block; [done|split; done]). destruct (aes_block_bytes k _ Hk HB) as [HL _].
    assert (HB' : is_block (xor iv b')) by (apply xor_block; [done|split; done]). destruct (aes_block_bytes k _ Hk HB') as [HL' _].
    apply app_inj_1 in HE as [HE1 HE2]; [|destruct HL, HL'; lia]. subst c'. assert (HX : xor iv b = xor iv b'). { rewrite <- (aes_block_inverse k _ Hk HB), <- (aes_block_inverse k _ Hk HB'). by rewrite HE1. }
    assert (b = b') as <-. { rewrite <- (xor_xor iv b), <- (xor_xor iv b') by (destruct Hi; lia). by rewrite HX. }
    f_equal. by apply IH.
Qed.
Lemma bytes_of_append m s ext t : in_mem m s → in_mem m t → apart s t → bytes_of (go_append m s ext).2 t = bytes_of m t.
Proof.
  intros [H1 H2] [H3 H4] HA. unfold go_append. simpl. destruct (decide _) as [Hc|]; [|done]. unfold bytes_of. apply list_eq. intros i.
  destruct (decide (i < s_len t)%nat) as [Hi|Hi]; [|rewrite !lookup_take_ge by lia; done]. rewrite !lookup_take, !lookup_drop by lia.
  destruct HA as [HA|HA].
  - rewrite lookup_app_r by (rewrite take_length; lia). rewrite lookup_app_r by (rewrite take_length; lia). rewrite lookup_drop, take_length. f_equal. lia.
  - rewrite lookup_app_l by (rewrite take_length; lia). rewrite lookup_take by lia. done.
Qed.
Lemma padded_length (n : nat) : ((n + (16 - n mod 16)) mod 16 = 0 ∧ 1 ≤ 16 - n mod 16 ≤ 16)%nat.
Proof. pose proof (Nat.mod_upper_bound n 16). pose proof (Nat.div_mod n 16). split; [|lia]. replace (n + (16 - n mod 16))%nat with ((n / 16 + 1) * 16)%nat by lia. apply Nat.mod_mul. lia. Qed.
Lemma bytes_of_length m s : in_mem m s → length (bytes_of m s) = s_len s.
Proof. intros [H1 H2]. unfold bytes_of. rewrite take_length, drop_length. lia. Qed.
Lemma key_ok_valid k : valid_key k → key_ok k = true.
Proof. intros [H _]. unfold key_ok. by apply bool_decide_eq_true. Qed.
Lemma key_iv k : valid_key k → is_block (take 16 k).
Proof. intros [H Hb]. split; [rewrite take_length; lia|by apply Forall_take]. Qed.
Lemma encrypt_value m data key : in_mem m data → in_mem m key → apart data key →
  AesEncrypt m data key =
    (if key_ok (bytes_of m key) then
      let pad := (16 - s_len data mod 16)%nat in let p := bytes_of m data ++ replicate pad (Z.of_nat pad) in
      Ret (Some (cbc_enc (encrypt_block (bytes_of m key)) (length p / 16) (take 16 (bytes_of m key)) p), (pkcs7_padding m data 16).2)
    else Ret (None, m)).
Proof.
  intros Hd Hk HA. unfold AesEncrypt, aes_encrypt. destruct (key_ok _) eqn:Ek; [|done]. unfold pkcs7_padding. pose proof (padded_length (s_len data)) as [P1 P2].
  set (pad := (16 - s_len data mod 16)%nat) in *. rewrite (Z.mod_small (Z.of_nat pad)) by lia. destruct (go_append m data (replicate pad (Z.of_nat pad))) as [p m'] eqn:Ea.
  assert (m' = (go_append m data (replicate pad (Z.of_nat pad))).2) as Hm by (by rewrite Ea). assert (p = bytes_of m data ++ replicate pad (Z.of_nat pad)) as Hp by (unfold go_append in Ea; by injection Ea as <- <-).
  rewrite Hm, (bytes_of_append m data _ key Hd Hk HA), <- Hm. unfold crypt_blocks. rewrite decide_True; [|rewrite Hp, app_length, replicate_length, bytes_of_length by done; done].
  simpl. by rewrite <- Hp.
Qed.
Lemma bytes_of_bytes m s : Forall byte m → Forall byte (bytes_of m s).
Proof. intros H. unfold bytes_of. by apply Forall_take, Forall_drop. Qed.

(** ** C46 *)
(** the ciphertext is the chaining, from the first bytes of the key, of the data followed by its
    padding, and decrypts to the data *)
Theorem aes_round_trip_partial m data key : Forall byte m → in_mem m data → in_mem m key → apart data key → valid_key (bytes_of m key) →
  let pad := (16 - s_len data mod 16)%nat in
  ∃ c m', AesEncrypt m data key = Ret (Some c, m') ∧ length c = (s_len data + pad)%nat ∧ Forall byte c ∧
    chained (encrypt_block (bytes_of m key)) (take 16 (bytes_of m key)) (bytes_of m data ++ replicate pad (Z.of_nat pad)) c ∧
    AesDecrypt c (bytes_of m' key) = Ret (Some (bytes_of m data)).
Proof.
  intros Hm Hd Hk HA Hv. cbv zeta. pose proof (key_ok_valid _ Hv) as Hok. rewrite (encrypt_value m data key Hd Hk HA), Hok. cbv zeta. pose proof (padded_length (s_len data)) as [P1 P2]. set (pad := (16 - s_len data mod 16)%nat) in *.
  set (p := bytes_of m data ++ replicate pad (Z.of_nat pad)). eexists _, _. split; [done|].
  assert (Hpl : length p = (s_len data + pad)%nat) by (unfold p; by rewrite app_length, replicate_length, bytes_of_length).
  assert (Hp16 : length p = (16 * (length p / 16))%nat) by (pose proof (Nat.div_mod (length p) 16); assert (length p mod 16 = 0)%nat by (rewrite Hpl; exact P1); lia).
  assert (Hpb : Forall byte p). { apply Forall_app. split; [by apply bytes_of_bytes|]. apply Forall_replicate. unfold byte. lia. }
  destruct (cbc_enc_ok _ Hv (length p / 16) _ p (key_iv _ Hv) Hpb Hp16) as (Hcl & Hcb & Hch). split; [lia|]. split; [done|]. split; [done|].
  unfold pkcs7_padding. rewrite (bytes_of_append m data _ key Hd Hk HA). unfold AesDecrypt, aes_decrypt. rewrite Hok. unfold crypt_blocks. rewrite Hcl, (Nat.mul_comm 16), Nat.mod_mul, Nat.div_mul, decide_True by lia.
  cbn [mbind go_bind]. rewrite cbc_inv by (done || by apply key_iv). unfold pkcs7_unpadding. unfold p at 1. destruct pad as [|q] eqn:Eq; [lia|].
  rewrite replicate_S_end, app_assoc, last_snoc. rewrite Hpl. destruct (Z.ltb_spec (Z.of_nat (s_len data + S q) - Z.of_nat (S q)) 0); [lia|]. do 2 f_equal.
  unfold p. apply take_app_alt. rewrite bytes_of_length by done. lia.
Qed.
Theorem aes_bad_key m data key c : ¬ (length (bytes_of m key) ∈ [16; 24; 32]%nat) → AesEncrypt m data key = Ret (None, m) ∧ AesDecrypt c (bytes_of m key) = Ret None.
Proof.
  intros H. assert (key_ok (bytes_of m key) = false) as Hk. { unfold key_ok. apply bool_decide_eq_false. intros [HH|[HH|HH]]; apply H; rewrite HH; [by left|right; by left|right; right; by left]. }
  unfold AesEncrypt, AesDecrypt, aes_encrypt, aes_decrypt. by rewrite Hk.
Qed.
(** the key in the spare capacity of the data: the padding overwrites it before it is used as the
    initialisation vector, and the caller's key is no longer the one that encrypted *)
Definition clash_mem : list Z := [1; 2; 3] ++ ((λ i, 10 + Z.of_nat i) <$> seq 0 16).
Definition clash_data : slice := Slice 0 3 19.
Definition clash_key : slice := Slice 3 16 16.
Lemma clash_demo : match AesEncrypt clash_mem clash_data clash_key with
  | Ret (Some c, m') => bool_decide (in_mem clash_mem clash_data ∧ in_mem clash_mem clash_key) && negb (bool_decide (bytes_of m' clash_key = bytes_of clash_mem clash_key)) &&
      match AesDecrypt c (bytes_of clash_mem clash_key) with Ret (Some d) => negb (bool_decide (d = [1; 2; 3])) | _ => true end
  | _ => false end = true.
Proof. by vm_compute. Qed.
Lemma some_bytes l : forallb is_byte l = true → Forall byte l.
Proof. intros H. apply Forall_forall. intros x Hx. rewrite forallb_forall in H. apply elem_of_list_In in Hx. specialize (H x Hx). by apply bool_decide_eq_true in H. Qed.
Theorem aes_key_overwritten_refuted : ∃ m data key c m', Forall byte m ∧ in_mem m data ∧ in_mem m key ∧ valid_key (bytes_of m key) ∧ AesEncrypt m data key = Ret (Some c, m') ∧
  bytes_of m' key ≠ bytes_of m key ∧ AesDecrypt c (bytes_of m key) ≠ Ret (Some (bytes_of m data)).
Proof.
  pose proof clash_demo as H. exists clash_mem, clash_data, clash_key. destruct (AesEncrypt clash_mem clash_data clash_key) as [[[c|] m']| |]; try done. exists c, m'.
  apply andb_true_iff in H as [H H3]. apply andb_true_iff in H as [H1 H2]. apply bool_decide_eq_true in H1 as [H1 H1']. apply negb_true_iff, bool_decide_eq_false in H2.
  split; [apply some_bytes; by vm_compute|]. split; [done|]. split; [done|]. split; [split; [by left|apply some_bytes; by vm_compute]|]. split_and!; [done|done|]. intros E. rewrite E in H3. by vm_compute in H3.
Qed.

(** ** C47 *)
(** an input that is not a multiple of the block size: panic *)
Theorem aes_decrypt_short_refuted data key : valid_key key → (length data mod 16 ≠ 0)%nat → ∃ p, AesDecrypt data key = Panic p.
Proof. intros Hk Hl. unfold AesDecrypt, aes_decrypt, crypt_blocks. rewrite key_ok_valid, decide_False by done. by eexists. Qed.
(** the exact outcome for whole blocks: the text is the only one whose chaining is the input; only
    the empty input is an error, and only the last byte of the text is looked at *)
Theorem aes_decrypt_cases_partial data key : valid_key key → Forall byte data → (length data mod 16 = 0)%nat →
  ∃ p, Forall byte p ∧ length p = length data ∧ chained (encrypt_block key) (take 16 key) p data ∧ (∀ q, Forall byte q → chained (encrypt_block key) (take 16 key) q data → q = p) ∧
    AesDecrypt data key = match last p with None => Ret None | Some b => if decide (b ≤ Z.of_nat (length p)) then Ret (Some (take (length p - Z.to_nat b) p)) else Panic PIndex end.
Proof.
  intros Hk Hd Hl. unfold AesDecrypt, aes_decrypt, crypt_blocks. rewrite key_ok_valid, decide_True by done. cbn [mbind go_bind]. pose proof (Nat.div_mod (length data) 16 ltac:(done)) as Hdm.
  destruct (cbc_dec_ok key Hk (length data / 16) (take 16 key) data (key_iv _ Hk) Hd ltac:(lia)) as (D1 & D2 & D3). set (p := cbc_dec (decrypt_block key) (length data / 16) (take 16 key) data) in *.
  exists p. split; [done|]. split; [lia|]. split; [done|]. split; [intros q Hq HC; eapply chained_inj; [exact Hk|exact HC|by apply key_iv|done|done|done]|].
  unfold pkcs7_unpadding. destruct (last p) as [b|] eqn:Eb; [|done]. assert (byte b) as Hb. { rewrite last_lookup in Eb. exact (Forall_lookup_1 _ _ _ _ D2 Eb). } unfold byte in Hb.
  destruct (Z.ltb_spec (Z.of_nat (length p) - b) 0); [by rewrite decide_False by lia|]. rewrite decide_True by lia. do 3 f_equal. lia.
Qed.
(** under every key there are inputs of one block whose padding is wrong: one panics, one is
    returned with nothing taken off, one loses five bytes that are not padding *)
Lemma decrypt_one key b : valid_key key → is_block b → AesDecrypt (encrypt_block key (xor (take 16 key) b)) key = pkcs7_unpadding b.
Proof.
  intros Hk Hb. pose proof (key_iv _ Hk) as Hi. pose proof (xor_block _ _ Hi Hb) as Hx. destruct (aes_block_bytes key _ Hk Hx) as [[E1 _] _]. unfold AesDecrypt, aes_decrypt, crypt_blocks. rewrite key_ok_valid by done. rewrite E1. rewrite decide_True by done.
  cbn [mbind go_bind]. change (16 / 16)%nat with 1%nat. cbn [cbc_dec]. rewrite app_nil_r, (take_ge (encrypt_block key _)) by lia. rewrite aes_block_inverse by done. rewrite xor_xor; [done|]. destruct Hi, Hb. lia.
Qed.
Theorem aes_decrypt_padding_refuted key : valid_key key → ∃ c1 c2 c3, is_block c1 ∧ is_block c2 ∧ is_block c3 ∧ AesDecrypt c1 key = Panic PIndex ∧
  AesDecrypt c2 key = Ret (Some (replicate 15 7 ++ [0])) ∧ AesDecrypt c3 key = Ret (Some (replicate 11 7)).
Proof.
  intros Hk. pose proof (key_iv _ Hk) as Hi. set (mk := λ x : Z, encrypt_block key (xor (take 16 key) (replicate 15 7 ++ [x]))).
  assert (HB : ∀ x, byte x → is_block (replicate 15 7 ++ [x])). { intros x Hx. split; [done|]. apply Forall_app. split; [apply Forall_replicate; unfold byte; lia|]. apply Forall_singleton. exact Hx. }
  assert (HM : ∀ x, byte x → is_block (mk x)). { intros x Hx. apply aes_block_bytes; [done|]. apply xor_block; [done|]. by apply HB. }
  exists (mk 200), (mk 0), (mk 5). split; [apply HM; unfold byte; lia|]. split; [apply HM; unfold byte; lia|]. split; [apply HM; unfold byte; lia|]. assert (HD : ∀ x, byte x → AesDecrypt (mk x) key = pkcs7_unpadding (replicate 15 7 ++ [x])) by (intros x Hx; apply decrypt_one; [done|by apply HB]). rewrite !HD by (unfold byte; lia). by vm_compute.
Qed.

(** ** C48 *)
(** spare capacity: the padding is written behind the caller's data *)
Theorem aes_clobbers_refuted : ∃ m data key c m', in_mem m data ∧ in_mem m key ∧ apart data key ∧ AesEncrypt m data key = Ret (Some c, m') ∧ m' ≠ m.
Proof.
  set (m := [7; 8; 9] ++ replicate 16 0 ++ replicate 16 0). set (data := Slice 0 2 19). set (key := Slice 19 16 16).
  assert (H : match AesEncrypt m data key with Ret (Some c, m') => negb (bool_decide (m' = m)) | _ => false end = true) by (by vm_compute).
  exists m, data, key. destruct (AesEncrypt m data key) as [[[c|] m']| |]; try done. exists c, m'. apply negb_true_iff, bool_decide_eq_false in H. split_and!; [unfold in_mem; simpl; lia..|left; simpl; lia|done|done].
Qed.
(** exactly the padding, directly behind the data, and only if it fits *)
Theorem aes_writes_partial m data key c m' : in_mem m data → AesEncrypt m data key = Ret (Some c, m') →
  length m' = length m ∧ bytes_of m' data = bytes_of m data ∧
  (∀ i, (i < s_off data + s_len data ∨ s_off data + s_len data + 16 ≤ i)%nat → m' !! i = m !! i) ∧
  let pad := (16 - s_len data mod 16)%nat in
  (s_cap data < s_len data + pad → m' = m)%nat ∧
  (s_len data + pad ≤ s_cap data → take pad (drop (s_off data + s_len data) m') = replicate pad (Z.of_nat pad))%nat.
Proof.
  intros Hd E1. unfold AesEncrypt, aes_encrypt in E1. destruct (key_ok _); [|done]. unfold pkcs7_padding in E1. pose proof (padded_length (s_len data)) as [_ P2]. set (pad := (16 - s_len data mod 16)%nat) in *.
  unfold go_append in E1. destruct (crypt_blocks _ _) as [x| |]; [|done..]. cbn in E1. injection E1 as <- <-. destruct Hd as [H1 H2]. rewrite replicate_length.
  destruct (decide _) as [Hc|Hc]; [|cbv zeta; split_and!; [done..|lia]]. cbv zeta.
  assert (HI : ∀ i, (i < s_off data + s_len data ∨ s_off data + s_len data + 16 ≤ i)%nat → (take (s_off data + s_len data) m ++ replicate pad (Z.of_nat pad mod 256) ++ drop (s_off data + s_len data + pad) m) !! i = m !! i).
  { intros i [Hi|Hi].
    - rewrite lookup_app_l by (rewrite take_length; lia). by rewrite lookup_take by lia.
    - rewrite lookup_app_r by (rewrite take_length; lia). rewrite lookup_app_r by (rewrite take_length, replicate_length; lia). rewrite lookup_drop, take_length, replicate_length. f_equal. lia. }
  split_and!; [|  |exact HI|lia|].
  3: { intros _. rewrite drop_app_alt by (rewrite take_length; lia). rewrite take_app_alt by (by rewrite replicate_length). f_equal. apply Z.mod_small. lia. }
  - rewrite !app_length, take_length, replicate_length, drop_length. lia.
  - unfold bytes_of. apply list_eq. intros i. destruct (decide (i < s_len data)%nat); [|rewrite !lookup_take_ge by lia; done]. rewrite !lookup_take, !lookup_drop by lia. apply HI. lia.
Qed.

(** ** C75 *)
Lemma cbc_dec_app d n m iv x y : length x = (16 * n)%nat → cbc_dec d (n + m) iv (x ++ y) = cbc_dec d n iv x ++ cbc_dec d m (if decide (n = 0)%nat then iv else drop (16 * (n - 1)) x) y.
Proof.
  revert iv x. induction n as [|n IH]; intros iv x Hx; [by destruct x|]. cbn [Nat.add cbc_dec]. rewrite take_app_le, drop_app_le by lia. rewrite IH by (rewrite drop_length; lia). rewrite <- app_assoc. do 3 f_equal.
  destruct (decide (n = 0)%nat) as [->|Hn]; rewrite decide_False by done; [simpl; rewrite drop_0, take_ge by lia; done|]. rewrite drop_drop. f_equal. lia.
Qed.
Lemma xor_zeros n l : (length l ≤ n)%nat → xor (replicate n 0) l = l.
Proof. revert l. induction n as [|n IH]; intros [|x l] Hl; simpl in *; try done; [lia|]. fold (xor (replicate n 0) l). by rewrite IH by lia. Qed.
(** the ciphertext of [data], whose first block an attacker sends twice around a block of zeros,
    followed by its last two blocks so that the padding is right *)
Definition probe (c : list Z) : list Z := take 16 c ++ replicate 16 0 ++ take 16 c ++ drop (length c - 32) c.
(** the answer to this one request contains the first 16 bytes of the key: the first block of the
    answer, exclusive or the third *)
Theorem aes_key_leak m data key : Forall byte m → in_mem m data → in_mem m key → apart data key → valid_key (bytes_of m key) → (16 ≤ s_len data)%nat →
  ∃ c m' p, AesEncrypt m data key = Ret (Some c, m') ∧ AesDecrypt (probe c) (bytes_of m key) = Ret (Some p) ∧ zip_with Z.lxor (take 16 p) (take 16 (drop 32 p)) = take 16 (bytes_of m key).
Proof.
  intros Hm Hd Hk HA Hv H16. destruct (aes_round_trip_partial m data key Hm Hd Hk HA Hv) as (c & m' & E1 & Hl & Hb & Hch & HD). exists c, m'. set (k := bytes_of m key) in *.
  exists (take (80 - (16 - s_len data mod 16)) (cbc_dec (decrypt_block k) 5 (take 16 k) (probe c))). split; [done|]. rewrite (encrypt_value m data key Hd Hk HA) in E1. fold k in E1. rewrite (key_ok_valid k Hv) in E1. cbv zeta in E1.
  pose proof (padded_length (s_len data)) as [P1 P2]. set (pad := (16 - s_len data mod 16)%nat) in *. set (p := bytes_of m data ++ replicate pad (Z.of_nat pad)) in *. injection E1 as E1 _.
  assert (Hpl : length p = (s_len data + pad)%nat) by (unfold p; by rewrite app_length, replicate_length, bytes_of_length). set (n := (length p / 16)%nat) in *.
  assert (Hp16 : length p = (16 * n)%nat) by (unfold n; pose proof (Nat.div_mod (length p) 16); assert (length p mod 16 = 0)%nat by (rewrite Hpl; exact P1); lia).
  assert (Hpb : Forall byte p). { apply Forall_app. split; [by apply bytes_of_bytes|]. apply Forall_replicate. unfold byte. lia. }
  pose proof (cbc_inv k Hv n (take 16 k) p (key_iv _ Hv) Hpb Hp16) as HI. rewrite E1 in HI. clear HD Hch E1.
  set (c0 := take 16 c). set (y := take 16 (drop (length c - 32) c)). set (z := drop (length c - 16) c). assert (Hlc : length c = (16 * n)%nat) by lia. assert (Hn : (2 ≤ n)%nat) by lia.
  assert (Hc0 : length c0 = 16%nat) by (unfold c0; rewrite take_length; lia). assert (Hy : length y = 16%nat) by (unfold y; rewrite take_length, drop_length; lia). assert (Hz : length z = 16%nat) by (unfold z; rewrite drop_length; lia).
  assert (Hyz : drop (length c - 32) c = y ++ z). { unfold y, z. rewrite <- (take_drop 16 (drop (length c - 32) c)) at 1. f_equal. rewrite drop_drop. f_equal. lia. }
  assert (HB : ∀ x, length x = 16%nat → Forall byte x → is_block (decrypt_block k x)) by (intros x Hx Hxb; apply aes_block_bytes; [done|by split]).
  assert (Hzb : Forall byte z) by (by apply Forall_drop). assert (Hyb : Forall byte y) by (by apply Forall_take, Forall_drop). assert (Hc0b : Forall byte c0) by (by apply Forall_take).
  (* the last block of the original text *)
  assert (HL : last (xor y (decrypt_block k z)) = Some (Z.of_nat pad)).
  { assert (Hsplit : c = take (16 * (n - 1)) c ++ z). { unfold z. rewrite <- (take_drop (16 * (n - 1)) c) at 1. do 2 f_equal. lia. }
    rewrite Hsplit in HI. replace n with ((n - 1) + 1)%nat in HI at 1 by lia. rewrite cbc_dec_app in HI by (rewrite take_length; lia). rewrite decide_False in HI by lia. cbn [cbc_dec] in HI. rewrite app_nil_r, (take_ge z) in HI by lia.
    assert (drop (16 * (n - 1 - 1)) (take (16 * (n - 1)) c) = y) as Hy'. { unfold y. rewrite skipn_firstn_comm. f_equal; [lia|]. f_equal. lia. }
    rewrite Hy' in HI. assert (last p = Some (Z.of_nat pad)) as HLp. { unfold p. destruct pad as [|q]; [lia|]. by rewrite replicate_S_end, app_assoc, last_snoc. }
    rewrite <- HI in HLp. rewrite last_app in HLp. destruct (last (xor y (decrypt_block k z))) eqn:El; [done|]. apply last_None in El. apply (f_equal length) in El. unfold xor in El. rewrite zip_with_length in El. destruct (HB z Hz Hzb). simpl in El. lia. }
  (* what the probe decrypts to *)
  assert (HQ : cbc_dec (decrypt_block k) 5 (take 16 k) (probe c) = xor (take 16 k) (decrypt_block k c0) ++ xor c0 (decrypt_block k (replicate 16 0)) ++ xor (replicate 16 0) (decrypt_block k c0) ++ xor c0 (decrypt_block k y) ++ xor y (decrypt_block k z)).
  { unfold probe. rewrite Hyz. fold c0. change 5%nat with (1 + (1 + (1 + (1 + 1))))%nat. rewrite cbc_dec_app by done. rewrite (cbc_dec_app _ 1 _ _ (replicate 16 0)) by done. rewrite (cbc_dec_app _ 1 _ _ c0) by done. rewrite (cbc_dec_app _ 1 _ _ y) by done.
    cbn [cbc_dec]. rewrite !decide_False by done. cbn [Nat.sub Nat.mul]. rewrite !drop_0, !app_nil_r. by rewrite (take_ge c0), (take_ge (replicate 16 0)), (take_ge y), (take_ge z) by (rewrite ?replicate_length; lia). }
  assert (H0b : is_block (replicate 16 0)) by (split; [done|]; apply Forall_replicate; unfold byte; lia).
  assert (Hlen : ∀ a b, length a = 16%nat → is_block b → length (xor a b) = 16%nat). { intros a b Ha [Hb' _]. unfold xor. rewrite zip_with_length. lia. }
  pose proof (proj1 (key_iv _ Hv)) as Hiv. pose proof (Hlen _ _ Hiv (HB _ Hc0 Hc0b)) as L1. pose proof (Hlen _ _ Hc0 (HB _ (proj1 H0b) (proj2 H0b))) as L2. pose proof (Hlen _ _ (proj1 H0b) (HB _ Hc0 Hc0b)) as L3. pose proof (Hlen _ _ Hc0 (HB _ Hy Hyb)) as L4. pose proof (Hlen _ _ Hy (HB _ Hz Hzb)) as L5.
  split.
  - unfold AesDecrypt, aes_decrypt, crypt_blocks. rewrite (key_ok_valid k Hv). assert (length (probe c) = 80%nat) as Hpr. { unfold probe. rewrite Hyz. fold c0. rewrite !app_length, replicate_length. lia. }
    rewrite Hpr. rewrite decide_True by done. change (80 / 16)%nat with 5%nat. cbn [mbind go_bind]. rewrite HQ. unfold pkcs7_unpadding. rewrite !last_app, HL. rewrite !app_length, L1, L2, L3, L4, L5. simpl length.
    destruct (Z.ltb_spec (Z.of_nat (16 + (16 + (16 + (16 + 16)))) - Z.of_nat pad) 0); [lia|]. do 3 f_equal. lia.
  - rewrite HQ. rewrite take_take, skipn_firstn_comm, take_take. rewrite !Nat.min_l by lia. rewrite (take_app_alt (xor (take 16 k) _)) by done. 
    rewrite (drop_app_ge _ _ 32) by lia. rewrite L1. change (32 - 16)%nat with 16%nat. rewrite (drop_app_alt _ _ 16) by done. rewrite (take_app_alt _ _ 16) by done.
    rewrite xor_zeros by (destruct (HB _ Hc0 Hc0b); lia).
    apply xor_cancel. destruct (HB _ Hc0 Hc0b). lia.
Qed.
(** texts that begin with the same blocks, under one key, give ciphertexts that begin with the same blocks *)
Lemma cbc_enc_app k n m iv x y : valid_key k → length x = (16 * n)%nat → Forall byte x → is_block iv → take (16 * n) (cbc_enc (encrypt_block k) (n + m) iv (x ++ y)) = cbc_enc (encrypt_block k) n iv x.
Proof.
  intros Hk. revert iv x. induction n as [|n IH]; intros iv x Hx Hb Hi; [done|]. cbn [Nat.add cbc_enc]. rewrite (take_app_le x), (drop_app_le x) by lia. 
  pose proof (xor_block_iv iv x Hi Hb ltac:(lia)) as HX. destruct (aes_block_bytes k _ Hk HX) as [HE _]. pose proof (proj1 HE) as HL. rewrite take_app_ge by lia. f_equal. rewrite HL. replace (16 * S n - 16)%nat with (16 * n)%nat by lia. apply IH; [rewrite drop_length; lia|by apply Forall_drop|done].
Qed.
Theorem aes_prefix_leak m1 data1 m2 data2 key n : Forall byte m1 → Forall byte m2 → in_mem m1 data1 → in_mem m2 data2 → in_mem m1 key → in_mem m2 key → apart data1 key → apart data2 key →
  valid_key (bytes_of m1 key) → bytes_of m2 key = bytes_of m1 key → (16 * n ≤ s_len data1)%nat → (16 * n ≤ s_len data2)%nat → take (16 * n) (bytes_of m1 data1) = take (16 * n) (bytes_of m2 data2) →
  ∃ c1 m1' c2 m2', AesEncrypt m1 data1 key = Ret (Some c1, m1') ∧ AesEncrypt m2 data2 key = Ret (Some c2, m2') ∧ take (16 * n) c1 = take (16 * n) c2 ∧ (16 * n < length c1)%nat.
Proof.
  intros Hb1 Hb2 Hd1 Hd2 Hk1 Hk2 HA1 HA2 Hv HK Hl1 Hl2 HT. rewrite (encrypt_value m1 data1 key Hd1 Hk1 HA1), (encrypt_value m2 data2 key Hd2 Hk2 HA2), HK. set (k := bytes_of m1 key) in *. rewrite (key_ok_valid k Hv). cbv zeta.
  assert (HG : ∀ m data, Forall byte m → in_mem m data → (16 * n ≤ s_len data)%nat → let pad := (16 - s_len data mod 16)%nat in let p := bytes_of m data ++ replicate pad (Z.of_nat pad) in
    let c := cbc_enc (encrypt_block k) (length p / 16) (take 16 k) p in take (16 * n) c = cbc_enc (encrypt_block k) n (take 16 k) (take (16 * n) (bytes_of m data)) ∧ (16 * n < length c)%nat).
  { intros m data Hb Hd Hl. cbv zeta. pose proof (padded_length (s_len data)) as [P1 P2]. set (pad := (16 - s_len data mod 16)%nat) in *. set (p := bytes_of m data ++ replicate pad (Z.of_nat pad)).
    assert (Hpl : length p = (s_len data + pad)%nat) by (unfold p; by rewrite app_length, replicate_length, bytes_of_length). assert (Hp16 : length p = (16 * (length p / 16))%nat) by (pose proof (Nat.div_mod (length p) 16); assert (length p mod 16 = 0)%nat by (rewrite Hpl; exact P1); lia).
    assert (Hpb : Forall byte p). { apply Forall_app. split; [by apply bytes_of_bytes|]. apply Forall_replicate. unfold byte. lia. }
    destruct (cbc_enc_ok k Hv (length p / 16) _ p (key_iv _ Hv) Hpb Hp16) as (Hcl & _ & _). split; [|lia]. clear Hcl.
    assert (Hx : take (16 * n) (bytes_of m data) = take (16 * n) p) by (unfold p; by rewrite take_app_le by (rewrite bytes_of_length by done; lia)). rewrite Hx.
    assert (HN : ∃ j, (length p / 16 = n + j)%nat) by (exists (length p / 16 - n)%nat; lia). destruct HN as [j ->]. rewrite <- (take_drop (16 * n) p) at 1. apply cbc_enc_app; [done|rewrite take_length; lia|by apply Forall_take|by apply key_iv]. }
  destruct (HG m1 data1 Hb1 Hd1 Hl1) as [G1 G2]. destruct (HG m2 data2 Hb2 Hd2 Hl2) as [G3 _]. cbv zeta in *. eexists _, _, _, _. split; [done|]. split; [done|]. split; [|done]. rewrite G1, G3, HT. done.
Qed.
(** one answer gives the whole key away; no different text of the same blocks is hidden *)
Theorem aes_secrecy_refuted : ∃ m data key c m' p, valid_key (bytes_of m key) ∧ AesEncrypt m data key = Ret (Some c, m') ∧ c ≠ probe c ∧
  AesDecrypt (probe c) (bytes_of m key) = Ret (Some p) ∧ zip_with Z.lxor (take 16 p) (take 16 (drop 32 p)) = bytes_of m key.
Proof.
  set (m := replicate 40 9 ++ ((λ i, 100 + Z.of_nat i) <$> seq 0 16)). set (data := Slice 0 40 40). set (key := Slice 40 16 16).
  assert (H : match AesEncrypt m data key with Ret (Some c, m') => match AesDecrypt (probe c) (bytes_of m key) with Ret (Some p) => bool_decide (c ≠ probe c) && bool_decide (zip_with Z.lxor (take 16 p) (take 16 (drop 32 p)) = bytes_of m key) | _ => false end | _ => false end = true) by (by vm_compute).
  exists m, data, key. destruct (AesEncrypt m data key) as [[[c|] m']| |]; try done. exists c, m'. destruct (AesDecrypt (probe c) (bytes_of m key)) as [[p|]| |] eqn:Ed; try done. exists p. apply andb_true_iff in H as [H1 H2]. apply bool_decide_eq_true in H1, H2.
  split; [split; [left; by vm_compute|apply some_bytes; by vm_compute]|]. done.
Qed.
(** a round trip over two blocks, with the data in front of the key *)
Example aes_example : ∃ m data key, Forall byte m ∧ in_mem m data ∧ in_mem m key ∧ apart data key ∧ valid_key (bytes_of m key) ∧ s_len data = 20%nat ∧ 
  match AesEncrypt m data key with Ret (Some c, m') => length c = 32%nat ∧ AesDecrypt c (bytes_of m key) = Ret (Some (replicate 20 3)) | _ => False end.
Proof.
  exists (replicate 20 3 ++ replicate 24 5), (Slice 0 20 20), (Slice 20 24 24). split; [apply some_bytes; by vm_compute|]. split; [unfold in_mem; simpl; lia|]. split; [unfold in_mem; simpl; lia|]. split; [left; simpl; lia|].
  split; [split; [right; by left|apply some_bytes; by vm_compute]|]. by vm_compute.
Qed.
Print Assumptions aes_round_trip_partial.
Print Assumptions aes_bad_key.
Print Assumptions aes_key_overwritten_refuted.
Print Assumptions aes_decrypt_short_refuted.
Print Assumptions aes_decrypt_padding_refuted.
Print Assumptions aes_decrypt_cases_partial.
Print Assumptions aes_clobbers_refuted.
Print Assumptions aes_writes_partial.
Print Assumptions aes_key_leak.
Print Assumptions aes_secrecy_refuted.
Print Assumptions aes_prefix_leak.
