(** * Proofs about the archive format: writing and reading back *)
From Verif Require Import GoBase GoStr PathModel ZipfsModel ZfmtModel ZfmtSpec.
Local Open Scope Z_scope.

Lemma to_le_length n : ∀ v, length (to_le n v) = n.
Proof. induction n as [|n IH]; intros v; [done|]. simpl. by rewrite IH. Qed.
Lemma le_val_to_le n : ∀ v, le_val (to_le n v) = v mod 256 ^ Z.of_nat n.
Proof.
  induction n as [|n IH]; intros v. { cbn. by rewrite Z.mod_1_r. }
  cbn [to_le le_val]. rewrite IH, Nat2Z.inj_succ, Z.pow_succ_r by lia. rewrite Z.rem_mul_r by lia. done.
Qed.
Lemma rd_app n a r : length a = n → rd n (a ++ r) = Ret (le_val a, r).
Proof.
  intros <-. unfold rd. rewrite app_length. destruct (Nat.ltb_spec (length a + length r) (length a)) as [?|_]; [lia|]. by rewrite take_app, drop_app.
Qed.
Lemma rd_any n v r : rd n (to_le n v ++ r) = Ret (v mod 256 ^ Z.of_nat n, r).
Proof. rewrite rd_app by apply to_le_length. by rewrite le_val_to_le. Qed.
Lemma rd_le n v r : 0 ≤ v < 256 ^ Z.of_nat n → rd n (to_le n v ++ r) = Ret (v, r).
Proof. intros H. rewrite rd_any. by rewrite Z.mod_small. Qed.
Lemma rd_end n v : 0 ≤ v < 256 ^ Z.of_nat n → rd n (to_le n v) = Ret (v, []).
Proof. intros H. rewrite <- (app_nil_r (to_le n v)). by apply rd_le. Qed.
Lemma rd_skip_app n a r : length a = n → rd_skip n (a ++ r) = Ret r.
Proof.
  intros <-. unfold rd_skip. rewrite app_length. destruct (Nat.ltb_spec (length a + length r) (length a)) as [?|_]; [lia|]. by rewrite drop_app.
Qed.
Lemma rd_sub_app n a r : length a = n → rd_sub n (a ++ r) = Ret (a, r).
Proof.
  intros <-. unfold rd_sub. rewrite app_length. destruct (Nat.ltb_spec (length a + length r) (length a)) as [?|_]; [lia|]. by rewrite take_app, drop_app.
Qed.
Lemma rd_sub_all a : rd_sub (length a) a = Ret (a, []).
Proof. rewrite <- (app_nil_r a) at 2. by apply rd_sub_app. Qed.
Lemma read_at_app pre a post : read_at (pre ++ a ++ post) (Z.of_nat (length pre)) (length a) = Some a.
Proof.
  unfold read_at. rewrite !app_length. destruct (Z.ltb_spec (Z.of_nat (length pre)) 0); [lia|].
  destruct (Z.ltb_spec (Z.of_nat (length pre + (length a + length post))) (Z.of_nat (length pre) + Z.of_nat (length a))); [lia|].
  cbn. rewrite Nat2Z.id, drop_app. by rewrite take_app.
Qed.
Lemma read_at_app' pre a post off n : off = Z.of_nat (length pre) → n = length a → read_at (pre ++ a ++ post) off n = Some a.
Proof. intros -> ->. apply read_at_app. Qed.
Lemma section_app pre a post off n : off = Z.of_nat (length pre) → n = Z.of_nat (length a) → section (pre ++ a ++ post) off n = a.
Proof.
  intros -> ->. unfold section. destruct (Z.ltb_spec (Z.of_nat (length pre)) 0); [lia|]. rewrite !Nat2Z.id, drop_app. by rewrite take_app.
Qed.
Lemma i64_small v : 0 ≤ v < 2 ^ 63 → i64 v = v.
Proof. intros H. apply i64_id. unfold is_i64. lia. Qed.

(** ** the end of the archive *)
Lemma end_record_length a b c : length (end_record a b c) = 22%nat.
Proof. unfold end_record. rewrite !app_length, !to_le_length. done. Qed.
Lemma find_block y a b c : find_in_block (y ++ end_record a b c) = Some (length y).
Proof.
  unfold find_in_block. rewrite app_length, end_record_length. replace (length y + 22 + 1 - 22)%nat with (S (length y)) by lia. cbn [find_sig].
  rewrite drop_app.
  assert (E1 : take 4 (end_record a b c) = [80; 75; 5; 6]) by done. rewrite E1, bool_decide_true by done.
  assert (E2 : drop (length y + 20) (y ++ end_record a b c) = to_le 2 0).
  { rewrite <- drop_drop, drop_app. unfold end_record. rewrite !app_assoc. apply drop_app_alt. rewrite !app_length, !to_le_length. done. }
  rewrite E2. rewrite app_length, end_record_length. change (le_val (take 2 (to_le 2 0))) with 0. destruct (Z.leb_spec (0 + 22 + Z.of_nat (length y)) (Z.of_nat (length y + 22))); [done|lia].
Qed.
Lemma find_end_app y a b c : find_end (y ++ end_record a b c) = Some (end_record a b c, Z.of_nat (length y)).
Proof.
  unfold find_end. rewrite app_length, end_record_length. set (n := Nat.min 1024 (length y + 22)).
  assert (Hn : (22 ≤ n ≤ length y + 22)%nat) by (unfold n; lia).
  replace (drop (length y + 22 - n) (y ++ end_record a b c)) with (drop (length y + 22 - n) y ++ end_record a b c) by (rewrite drop_app_le by lia; done).
  rewrite find_block, drop_length. replace (length y + 22 - n + (length y - (length y + 22 - n)))%nat with (length y) by lia. by rewrite drop_app.
Qed.

(** ** bits *)
Lemma lor_add n a b : 0 ≤ n → 0 ≤ b < 2 ^ n → Z.lor (a * 2 ^ n) b = a * 2 ^ n + b.
Proof.
  intros Hn Hb. assert (E : Z.land (a * 2 ^ n) b = 0).
  { apply Z.bits_inj'. intros k Hk. rewrite Z.land_spec, Z.bits_0. destruct (Z.ltb_spec k n).
    - by rewrite Z.mul_pow2_bits_low.
    - destruct (decide (b = 0)) as [->|]; [by rewrite Z.bits_0, andb_false_r|]. rewrite (Z.bits_above_log2 b k); [by rewrite andb_false_r|lia|]. apply Z.log2_lt_pow2; [lia|]. assert (2 ^ n ≤ 2 ^ k) by (apply Z.pow_le_mono_r; lia). lia. }
  rewrite <- Z.lxor_lor by done. symmetry. by apply Z.add_nocarry_lxor.
Qed.
Definition attrs_low (f : wfile) : Z := Z.lor (if w_isdir f then 16 else 0) (if Z.land (w_perm f) 128 =? 0 then 1 else 0).
Lemma attrs_low_range f : 0 ≤ attrs_low f ≤ 17.
Proof. unfold attrs_low. destruct (w_isdir f), (Z.land (w_perm f) 128 =? 0); vm_compute; split; congruence. Qed.
Lemma w_attrs_eq f : 0 ≤ w_perm f < 4096 → w_attrs f = ((if w_isdir f then 16384 else 32768) + w_perm f) * 65536 + attrs_low f.
Proof.
  intros Hp. unfold w_attrs. fold (attrs_low f). pose proof (attrs_low_range f). rewrite Z.shiftl_mul_pow2 by lia. rewrite lor_add by (cbn; lia). f_equal. f_equal.
  destruct (w_isdir f).
  - change 16384 with (4 * 2 ^ 12). rewrite lor_add by lia. lia.
  - change 32768 with (8 * 2 ^ 12). rewrite lor_add by lia. lia.
Qed.
Lemma w_attrs_range f : 0 ≤ w_perm f < 4096 → 0 ≤ w_attrs f < 4294967296.
Proof. intros Hp. rewrite w_attrs_eq by done. pose proof (attrs_low_range f). destruct (w_isdir f); lia. Qed.
Lemma mode_dir_w f : 0 ≤ w_perm f < 4096 → mode_dir 788 (w_attrs f) (w_name f) = w_isdir f || ends_slash (w_name f).
Proof.
  intros Hp. unfold mode_dir. change (Z.shiftr 788 8) with 3. cbn [Z.eqb orb Pos.eqb]. f_equal.
  pose proof (attrs_low_range f). rewrite w_attrs_eq by done. rewrite Z.shiftr_div_pow2 by lia. change (2 ^ 16) with 65536. rewrite Z.div_add_l by lia. rewrite (Z.div_small (attrs_low f)) by lia. rewrite Z.add_0_r.
  assert (E : Z.land (w_perm f) 61440 = 0).
  { apply Z.bits_inj'. intros k Hk. rewrite Z.land_spec, Z.bits_0. destruct (Z.ltb_spec k 12).
    - change 61440 with (15 * 2 ^ 12). rewrite Z.mul_pow2_bits_low by done. by rewrite andb_false_r.
    - rewrite (Z.bits_above_log2 (w_perm f) k); [done|lia|]. destruct (decide (w_perm f = 0)) as [->|]; [cbn; lia|]. apply Z.log2_lt_pow2; [lia|]. assert (2 ^ 12 ≤ 2 ^ k) by (apply Z.pow_le_mono_r; lia). lia. }
  destruct (w_isdir f).
  - replace (16384 + w_perm f) with (Z.lor (4 * 2 ^ 12) (w_perm f)) by (rewrite lor_add; lia). rewrite Z.land_lor_distr_l, E. done.
  - replace (32768 + w_perm f) with (Z.lor (8 * 2 ^ 12) (w_perm f)) by (rewrite lor_add; lia). rewrite Z.land_lor_distr_l, E. done.
Qed.
Definition byte (c : Z) : Prop := 0 ≤ c < 256.
Lemma to_le_bytes n : ∀ v, Forall byte (to_le n v).
Proof. induction n as [|n IH]; intros v; constructor; [|done]. apply Z.mod_pos_bound. lia. Qed.
Lemma le_val_inj a : ∀ b, length a = length b → Forall byte a → Forall byte b → le_val a = le_val b → a = b.
Proof.
  induction a as [|x a IH]; intros [|y b] Hl Ha Hb E; try done. inversion Ha as [|?? X1 X2]; inversion Hb as [|?? Y1 Y2]; subst. cbn in E, Hl. unfold byte in *. 
  assert (x = y ∧ le_val a = le_val b) as [-> E'] by lia. f_equal. apply IH; [lia|done..].
Qed.
Lemma le_val_range b : Forall byte b → 0 ≤ le_val b < 256 ^ Z.of_nat (length b).
Proof.
  induction 1 as [|x b Hx _ IH]; [cbn; lia|]. cbn [le_val length]. rewrite Nat2Z.inj_succ, Z.pow_succ_r by lia. unfold byte in Hx. lia.
Qed.
Lemma to_le_app n m v : to_le (n + m) v = to_le n v ++ to_le m (v / 256 ^ Z.of_nat n).
Proof.
  revert v. induction n as [|n IH]; intros v. { cbn. by rewrite Z.div_1_r. }
  cbn [Nat.add to_le app]. rewrite IH. f_equal. f_equal. f_equal. rewrite Z.div_div by lia. f_equal. rewrite Nat2Z.inj_succ, Z.pow_succ_r by lia. lia.
Qed.

(** ** the checksum is a number of 32 bits *)
Lemma lxor_range n a b : 0 ≤ n → 0 ≤ a < 2 ^ n → 0 ≤ b < 2 ^ n → 0 ≤ Z.lxor a b < 2 ^ n.
Proof.
  intros Hn Ha Hb. assert (Hx : 0 ≤ Z.lxor a b) by (apply Z.lxor_nonneg; lia). split; [done|]. destruct (decide (Z.lxor a b = 0)) as [->|]; [lia|]. apply Z.log2_lt_pow2; [lia|].
  eapply Z.le_lt_trans; [apply Z.log2_lxor; lia|]. apply Z.max_lub_lt.
  - destruct (decide (a = 0)) as [->|]; [|apply Z.log2_lt_pow2; lia]. cbn. destruct (decide (n = 0)) as [->|]; [|lia]. replace b with 0 in * by lia. done.
  - destruct (decide (b = 0)) as [->|]; [|apply Z.log2_lt_pow2; lia]. cbn. destruct (decide (n = 0)) as [->|]; [|lia]. replace a with 0 in * by lia. done.
Qed.
Definition w32 (c : Z) : Prop := 0 ≤ c < 2 ^ 32.
Lemma crc_table_range : Forall w32 crc_table.
Proof.
  assert (H : forallb (λ c, (0 <=? c) && (c <? 2 ^ 32)) crc_table = true) by (by vm_compute). rewrite forallb_forall in H. apply Forall_forall. intros c Hc. apply elem_of_list_In, H in Hc.
  apply andb_true_iff in Hc as [H1 H2]. apply Z.leb_le in H1. apply Z.ltb_lt in H2. done.
Qed.
Lemma crc_nth_range i : w32 (nth i crc_table 0).
Proof. destruct (decide (i < length crc_table)%nat). - eapply Forall_forall; [apply crc_table_range|]. apply elem_of_list_In. by apply nth_In. - rewrite nth_overflow by lia. unfold w32. lia. Qed.
Lemma shiftr_range c k : 0 ≤ k → w32 c → w32 (Z.shiftr c k).
Proof. intros Hk [H1 H2]. rewrite Z.shiftr_div_pow2 by done. assert (0 < 2 ^ k) by (apply Z.pow_pos_nonneg; lia). split; [apply Z.div_pos; lia|]. eapply Z.le_lt_trans; [|exact H2]. apply Z.div_le_upper_bound; [lia|]. nia. Qed.
Lemma crc_update_range c v : w32 c → w32 (crc_update c v).
Proof. intros Hc. unfold crc_update. apply lxor_range; [lia|apply crc_nth_range|by apply shiftr_range]. Qed.
Lemma crc_fold_range x : ∀ c, w32 c → w32 (foldl crc_update c x).
Proof. induction x as [|v x IH]; intros c Hc; [done|]. apply IH. by apply crc_update_range. Qed.
Lemma crc32_range x : w32 (crc32 x).
Proof. unfold crc32. apply lxor_range; [lia| |lia]. apply crc_fold_range. unfold w32. lia. Qed.

Section format.
Context (deflate : gostr → gostr) (inflate : gostr → option gostr).
Local Notation w_zip64 := (w_zip64 deflate). Local Notation w_csize := (w_csize deflate). Local Notation dir_header := (dir_header deflate).
Local Notation dir_headers := (dir_headers deflate). Local Notation w_record := (w_record deflate). Local Notation write_zip := (write_zip deflate).

Definition big (f : wfile) (off : Z) : bool := w_zip64 f || (max32 <=? off).
Definition big_extra (f : wfile) (off : Z) : gostr := to_le 2 1 ++ to_le 2 24 ++ to_le 8 (w_usize f) ++ to_le 8 (w_csize f) ++ to_le 8 off.
Definition dextra (f : wfile) (off : Z) : gostr := w_extra f ++ (if big f off then big_extra f off else []).
Definition hsizes (f : wfile) (off : Z) : gostr := if big f off then to_le 4 max32 ++ to_le 4 max32 else to_le 4 (w_csize f) ++ to_le 4 (w_usize f).
Definition hfront (f : wfile) (off : Z) : gostr :=
  to_le 4 dir_sig ++ to_le 2 788 ++ to_le 2 (if w_zip64 f then 45 else 20) ++ to_le 2 (w_flags f) ++ to_le 2 (w_method f) ++ to_le 2 (w_time f) ++ to_le 2 (w_date f) ++
  to_le 4 (w_crc f) ++ hsizes f off ++ to_le 2 (Z.of_nat (length (w_name f))) ++ to_le 2 (Z.of_nat (length (dextra f off))) ++ to_le 2 0.
Definition hback (f : wfile) (off : Z) : gostr := to_le 4 0 ++ to_le 4 (w_attrs f) ++ to_le 4 (if max32 <? off then max32 else off).
Lemma dir_header_eq f off : dir_header f off = hfront f off ++ hback f off ++ w_name f ++ dextra f off.
Proof. unfold ZfmtModel.dir_header, hfront, hback, dextra, hsizes, big, big_extra. cbv zeta. rewrite <- !app_assoc. done. Qed.
Lemma hsizes_length f off : length (hsizes f off) = 8%nat.
Proof. unfold hsizes. destruct (big f off); by rewrite app_length, !to_le_length. Qed.
Lemma hfront_length f off : length (hfront f off) = 34%nat.
Proof. unfold hfront. rewrite !app_length, !to_le_length, hsizes_length. done. Qed.
Lemma hback_length f off : length (hback f off) = 12%nat.
Proof. unfold hback. rewrite !app_length, !to_le_length. done. Qed.
Lemma w_extra_length f : length (w_extra f) = 9%nat.
Proof. unfold w_extra. rewrite !app_length, !to_le_length. done. Qed.
Lemma big_extra_length f off : length (big_extra f off) = 28%nat.
Proof. unfold big_extra. rewrite !app_length, !to_le_length. done. Qed.

(** no zip64 record is found where there is none *)
Lemma hfront_bytes f off : Forall byte (hfront f off).
Proof. unfold hfront, hsizes. destruct (big f off); rewrite !Forall_app; split_and!; apply to_le_bytes. Qed.
Lemma hback_bytes f off : Forall byte (hback f off).
Proof. unfold hback. rewrite !Forall_app; split_and!; apply to_le_bytes. Qed.
Lemma dextra_bytes f off : Forall byte (dextra f off).
Proof. unfold dextra, w_extra, big_extra. destruct (big f off); rewrite !Forall_app; split_and!; try apply to_le_bytes; constructor. Qed.
Lemma no_locator pre f off post : Forall (λ c, 0 < c < 256) (w_name f) → 0 ≤ w_perm f < 4096 → 0 ≤ off < 2 ^ 32 →
  find_end64 (pre ++ dir_header f off ++ post) (Z.of_nat (length (pre ++ dir_header f off))) = Ret (Some (-1)).
Proof.
  intros Hn Hp Ho. set (h := dir_header f off). set (m := (length h - 20)%nat).
  assert (Hlen : length h = (46 + length (w_name f) + length (dextra f off))%nat) by (unfold h; rewrite dir_header_eq, !app_length, hfront_length, hback_length; lia).
  assert (He : (9 ≤ length (dextra f off))%nat) by (unfold dextra; rewrite app_length, w_extra_length; lia).
  assert (Hb : Forall byte h). { unfold h. rewrite dir_header_eq, !Forall_app. split_and!; [apply hfront_bytes|apply hback_bytes| |apply dextra_bytes]. eapply Forall_impl; [exact Hn|]. unfold byte. lia. }
  set (b := drop m h). assert (Lb : length b = 20%nat) by (unfold b; rewrite drop_length; lia).
  unfold find_end64. rewrite app_length. destruct (Z.ltb_spec (Z.of_nat (length pre + length h) - 20) 0); [lia|].
  assert (ER : read_at (pre ++ h ++ post) (Z.of_nat (length pre + length h) - 20) 20 = Some b).
  { replace (pre ++ h ++ post) with ((pre ++ take m h) ++ b ++ post). 2:{ rewrite <- app_assoc. f_equal. rewrite app_assoc. f_equal. apply take_drop. }
    replace (Z.of_nat (length pre + length h) - 20) with (Z.of_nat (length (pre ++ take m h))) by (rewrite app_length, take_length; lia).
    rewrite <- Lb. apply read_at_app. }
  rewrite ER. cbv [mbind go_bind].
  rewrite <- (take_drop 4 b). rewrite rd_app by (rewrite take_length; lia). cbv beta iota.
  destruct (Z.eqb_spec (le_val (take 4 b)) loc64_sig) as [E1|]; [|done]. cbn [negb].
  rewrite <- (take_drop 4 (drop 4 b)). rewrite rd_app by (rewrite take_length, drop_length; lia). cbv beta iota.
  destruct (Z.eqb_spec (le_val (take 4 (drop 4 b))) 0) as [E2|]; [|done]. cbn [negb].
  rewrite drop_drop. rewrite <- (take_drop 8 (drop (4 + 4) b)). rewrite rd_app by (rewrite take_length, drop_length; lia). cbv beta iota. rewrite drop_drop. cbn [Nat.add].
  rewrite <- (take_drop 4 (drop 16 b)). rewrite rd_app by (rewrite take_length, drop_length; lia). cbv beta iota.
  destruct (Z.eqb_spec (le_val (take 4 (drop 16 b))) 1) as [E3|]; [|done]. exfalso.
  assert (Bt : ∀ i j, Forall byte (take i (drop j b))) by (intros; apply Forall_take, Forall_drop, Forall_drop; done).
  assert (S1 : take 4 b = [80; 75; 6; 7]). { apply le_val_inj; [by rewrite take_length, Lb|exact (Bt 4%nat 0%nat)|repeat constructor; lia|done]. }
  assert (S2 : take 4 (drop 4 b) = [0; 0; 0; 0]). { apply le_val_inj; [by rewrite take_length, drop_length, Lb|apply Bt|repeat constructor; lia|done]. }
  assert (L0 : h !! m = Some 80). { transitivity (take 4 b !! 0%nat); [|by rewrite S1]. rewrite lookup_take by lia. unfold b. rewrite lookup_drop. f_equal. lia. }
  assert (L7 : h !! (m + 7)%nat = Some 0). { transitivity (take 4 (drop 4 b) !! 3%nat); [|by rewrite S2]. rewrite lookup_take by lia. unfold b. rewrite !lookup_drop. f_equal. }
  unfold h in L0, L7. rewrite dir_header_eq in L0, L7.
  destruct (big f off) eqn:Eb.
  - (* the last bytes are those of the offset *)
    assert (Hde : dextra f off = (w_extra f ++ to_le 2 1 ++ to_le 2 24 ++ to_le 8 (w_usize f) ++ to_le 8 (w_csize f) ++ to_le 4 off) ++ to_le 4 (off / 2 ^ 32)).
    { unfold dextra, big_extra. rewrite Eb. change (to_le 8 off) with (to_le (4 + 4) off). rewrite to_le_app. rewrite <- !app_assoc. done. }
    assert (Eh : drop 16 b = to_le 4 (off / 2 ^ 32)).
    { unfold b. rewrite drop_drop. unfold h. rewrite dir_header_eq, Hde. rewrite !app_assoc. apply drop_app_alt. 
      assert (length h = (length ((((hfront f off ++ hback f off) ++ w_name f) ++ w_extra f ++ to_le 2 1 ++ to_le 2 24 ++ to_le 8 (w_usize f) ++ to_le 8 (w_csize f) ++ to_le 4 off)) + 4)%nat).
      { unfold h. rewrite dir_header_eq, Hde, !app_length, !to_le_length. lia. }
      rewrite <- !app_assoc in *. unfold m. lia. }
    rewrite Eh, take_ge in E3 by (by rewrite to_le_length). rewrite le_val_to_le, Z.div_small in E3 by lia. done.
  - assert (Hd9 : length (dextra f off) = 9%nat) by (unfold dextra; rewrite Eb, app_nil_r; apply w_extra_length).
    assert (Hm : m = (35 + length (w_name f))%nat) by (unfold m; lia).
    destruct (decide (4 ≤ length (w_name f))%nat) as [H4|H4].
    + rewrite app_assoc, lookup_app_r in L7 by (rewrite app_length, hfront_length, hback_length; lia). rewrite lookup_app_l in L7 by (rewrite app_length, hfront_length, hback_length; lia).
      rewrite Forall_lookup in Hn. apply Hn in L7. lia.
    + rewrite lookup_app_r in L0 by (rewrite hfront_length; lia). rewrite hfront_length in L0. unfold hback in L0. rewrite <- !app_assoc in L0.
      destruct (decide (length (w_name f) = 3%nat)) as [H3|H3].
      * rewrite lookup_app_r in L0 by (rewrite to_le_length; lia). rewrite to_le_length in L0. replace (m - 34 - 4)%nat with 0%nat in L0 by lia. cbn in L0. 
        assert (E : w_attrs f mod 256 = 80) by congruence. rewrite w_attrs_eq in E by done. pose proof (attrs_low_range f) as Ha.
        replace (((if w_isdir f then 16384 else 32768) + w_perm f) * 65536 + attrs_low f) with (attrs_low f + (((if w_isdir f then 16384 else 32768) + w_perm f) * 256) * 256) in E by lia.
        rewrite Z.mod_add, Z.mod_small in E by lia. lia.
      * rewrite lookup_app_l in L0 by (rewrite to_le_length; lia). change (to_le 4 0) with [0; 0; 0; 0] in L0. destruct (m - 34)%nat as [|[|[|[|?]]]] eqn:Em; cbn in L0; try congruence; lia.
Qed.

(** ** the records at the end *)
Lemma w_crc_range_any v : 0 ≤ v mod 4294967296 < 4294967296.
Proof. apply Z.mod_pos_bound. lia. Qed.
Ltac bnd := (change (256 ^ Z.of_nat 8) with 18446744073709551616 || change (256 ^ Z.of_nat 4) with 4294967296 || change (256 ^ Z.of_nat 2) with 65536); unfold max16, max32, file_sig, dir_sig, end_sig, loc64_sig, end64_sig, desc_sig in *; lia.
Ltac rdl := rewrite rd_le by bnd; cbv beta iota.
Ltac rda := rewrite rd_any; cbv beta iota.
Definition no_zip64 (y : gostr) : Prop := ∀ post, find_end64 (y ++ post) (Z.of_nat (length y)) = Ret (Some (-1)).
Definition end64 (records size offset : Z) : gostr :=
  to_le 4 end64_sig ++ to_le 8 44 ++ to_le 2 45 ++ to_le 2 45 ++ to_le 4 0 ++ to_le 4 0 ++ to_le 8 records ++ to_le 8 records ++ to_le 8 size ++ to_le 8 offset.
Definition loc64 (at_ : Z) : gostr := to_le 4 loc64_sig ++ to_le 4 0 ++ to_le 8 at_ ++ to_le 4 1.
Lemma end_records_eq records size offset : end_records records size offset =
  if (max16 <=? records) || (max32 <=? size) || (max32 <=? offset) then end64 records size offset ++ loc64 (offset + size) ++ end_record max16 max32 max32 else end_record records size offset.
Proof. unfold end_records, end64, loc64. rewrite <- !app_assoc. done. Qed.
Lemma end64_length a b c : length (end64 a b c) = 56%nat.
Proof. unfold end64. rewrite !app_length, !to_le_length. done. Qed.
Lemma loc64_length a : length (loc64 a) = 20%nat.
Proof. unfold loc64. rewrite !app_length, !to_le_length. done. Qed.
Lemma read_end64_ok pre records size offset post : 0 ≤ records < 2 ^ 63 → 0 ≤ size < 2 ^ 63 → 0 ≤ offset < 2 ^ 63 →
  read_end64 (pre ++ end64 records size offset ++ post) (Z.of_nat (length pre)) = Ret (Some (DEnd records size offset)).
Proof.
  intros H1 H2 H3. unfold read_end64. rewrite <- (end64_length records size offset). rewrite read_at_app. unfold end64. cbv [mbind go_bind].
  rdl. change (negb (end64_sig =? end64_sig)) with false. cbv iota.
  rewrite !(app_assoc (to_le 8 44)), (app_assoc _ (to_le 2 45)). rewrite rd_skip_app by (rewrite !app_length, !to_le_length; done). cbv beta iota.
  do 3 rda. do 2 rdl. rewrite rd_end by bnd. done.
Qed.
Lemma read_end_ok y records size offset : 0 ≤ records < 2 ^ 62 → 0 ≤ size → 0 ≤ offset → Z.of_nat (length y) = offset + size → offset + size < 2 ^ 62 →
  (size = 65535 → offset < max32 → no_zip64 y) → read_end (y ++ end_records records size offset) = Ret (Some (DEnd records size offset)).
Proof.
  intros H1 H2 H3 Hl H4 Hno. rewrite end_records_eq.
  assert (Hlast : ∀ z, (z = y ++ end_records records size offset) → (i64 offset <? 0) || (Z.of_nat (length z) <=? i64 offset) = false).
  { intros z ->. rewrite i64_small by lia. destruct (Z.ltb_spec offset 0); [lia|]. destruct (Z.leb_spec (Z.of_nat (length (y ++ end_records records size offset))) offset) as [Hx|]; [|done]. exfalso.
    rewrite app_length in Hx. assert (22 ≤ length (end_records records size offset))%nat; [|lia]. rewrite end_records_eq. destruct (_ || _); rewrite ?app_length, end_record_length; lia. }
  destruct ((max16 <=? records) || (max32 <=? size) || (max32 <=? offset)) eqn:Eb.
  - specialize (Hlast _ eq_refl). rewrite end_records_eq, Eb in Hlast.
    unfold read_end. set (x := y ++ end64 records size offset ++ loc64 (offset + size) ++ end_record max16 max32 max32) in *.
    assert (Ef : find_end x = Some (end_record max16 max32 max32, Z.of_nat (length y + 76))).
    { unfold x. rewrite !app_assoc. rewrite find_end_app. rewrite !app_length, end64_length, loc64_length. do 3 f_equal. lia. }
    rewrite Ef. unfold end_record at 1. cbv [mbind go_bind]. rewrite rd_skip_app by apply to_le_length. cbv beta iota.
    change (to_le 4 0) with (to_le 2 0 ++ to_le 2 0). rewrite <- !app_assoc. do 3 rda. do 3 rdl. rewrite rd_end by bnd. cbv beta iota. cbn [length]. change (Z.of_nat 0 <? 0) with false. cbv iota.
    change ((max16 =? max16) || (max32 =? 65535) || (max32 =? max32)) with true. cbv iota.
    unfold find_end64. destruct (Z.ltb_spec (Z.of_nat (length y + 76) - 20) 0); [lia|].
    assert (ER : read_at x (Z.of_nat (length y + 76) - 20) 20 = Some (loc64 (offset + size))).
    { unfold x. rewrite app_assoc. apply read_at_app'; [rewrite app_length, end64_length; lia|by rewrite loc64_length]. }
    rewrite ER. unfold loc64. cbv [mbind go_bind]. rdl. change (negb (loc64_sig =? loc64_sig)) with false. cbv iota. rdl. cbn [Z.eqb negb]. rdl. rewrite rd_end by bnd. cbv beta iota. change (negb (1 =? 1)) with false. cbv iota.
    rewrite i64_small by lia. destruct (Z.leb_spec 0 (offset + size)); [|lia].
    replace (read_end64 x (offset + size)) with (Ret (Some (DEnd records size offset))) by (rewrite <- Hl; unfold x; rewrite read_end64_ok by lia; done).
    cbn [d_offset]. rewrite Hlast. done.
  - apply orb_false_iff in Eb as [Eb E3]. apply orb_false_iff in Eb as [E1 E2]. apply Z.leb_gt in E1, E2, E3. unfold max16, max32 in E1, E2, E3.
    assert (Hl2 : (i64 offset <? 0) || (Z.of_nat (length (y ++ end_record records size offset)) <=? i64 offset) = false).
    { apply Hlast. rewrite end_records_eq. unfold max16, max32. by rewrite !(proj2 (Z.leb_gt _ _)) by done. }
    unfold read_end. pose proof (find_end_app y records size offset) as Ef. specialize (Hno) as Hno2. unfold no_zip64 in Hno2. set (x := y ++ end_record records size offset) in *. rewrite Ef. unfold end_record at 1. cbv [mbind go_bind]. rewrite rd_skip_app by apply to_le_length. cbv beta iota.
    change (to_le 4 0) with (to_le 2 0 ++ to_le 2 0). rewrite <- !app_assoc. do 3 rda. do 3 rdl. rewrite rd_end by bnd. cbv beta iota. cbn [length]. change (Z.of_nat 0 <? 0) with false. cbv iota.
    destruct (Z.eqb_spec records max16) as [E0|_]; [unfold max16 in E0; lia|]. destruct (Z.eqb_spec offset max32) as [E0|_]; [unfold max32 in E0; lia|]. cbn [orb].
    destruct (Z.eqb_spec size 65535) as [Es|_]; cbn [orb].
    + replace (find_end64 x (Z.of_nat (length y))) with (Ret (Some (-1))) by (symmetry; by apply Hno2). cbv beta iota. change (0 <=? -1) with false. cbv iota. cbn [d_offset]. by rewrite Hl2.
    + cbn [d_offset]. by rewrite Hl2.
Qed.

(** ** the headers *)
Definition hdr_of (f : wfile) (off : Z) : zfile := ZFile (w_name f) 788 (w_flags f) (w_method f) (w_crc f) (w_csize f) (w_usize f) (w_attrs f) off.
Lemma parse_time k s f r : parse_extras (S k) s (w_extra f ++ r) = parse_extras k s r.
Proof.
  cbn [parse_extras]. destruct (Nat.ltb_spec (length (w_extra f ++ r)) 4) as [H|_]; [rewrite app_length, w_extra_length in H; lia|].
  unfold w_extra. rewrite <- !app_assoc. cbv [mbind go_bind]. do 2 rdl.
  destruct (Z.ltb_spec (Z.of_nat (length (to_le 1 1 ++ to_le 4 (w_sec f) ++ r))) 5) as [H|_]; [rewrite !app_length, !to_le_length in H; lia|].
  rewrite app_assoc. rewrite rd_sub_app by (rewrite app_length, !to_le_length; done). cbv beta iota.
  change (21589 =? 1) with false. change (21589 =? 10) with false. change ((21589 =? 13) || (21589 =? 22613)) with false. change (21589 =? 21589) with true. cbv iota.
  destruct (Nat.ltb_spec (length (to_le 1 1 ++ to_le 4 (w_sec f))) 5) as [H|_]; [rewrite !app_length, !to_le_length in H; lia|].
  rewrite rd_any. cbv beta iota. change (Z.land (1 mod 256 ^ Z.of_nat 1) 1 =? 0) with false. cbv iota.
  rewrite <- (app_nil_r (to_le 4 (w_sec f))), rd_any. done.
Qed.
Lemma parse_nil k s : parse_extras (S k) s [] = Ret (Some s).
Proof. done. Qed.
Definition usz_ok (f : wfile) : Prop := 0 ≤ w_usize f < 2 ^ 62 ∧ 0 ≤ w_csize f < 2 ^ 62.
Lemma parse_big k f off s : usz_ok f → 0 ≤ off < 2 ^ 62 → need_u s = true → need_c s = true → (need_o s = false → s_offset s = off) →
  parse_extras (S (S k)) s (big_extra f off) = Ret (Some (Sizes (w_usize f) (w_csize f) off false false false)).
Proof.
  intros [Hu Hc] Ho Nu Nc No. change (2 ^ 62) with 4611686018427387904 in *. cbn [parse_extras]. rewrite big_extra_length. cbn [Nat.ltb Nat.leb]. unfold big_extra. cbv [mbind go_bind]. do 2 rdl.
  rewrite !app_length, !to_le_length. change (Z.of_nat (8 + (8 + 8)) <? 24) with false. cbv iota.
  rewrite <- (app_nil_r (to_le 8 (w_usize f) ++ to_le 8 (w_csize f) ++ to_le 8 off)), rd_sub_app by (rewrite !app_length, !to_le_length; done). cbv beta iota. cbn [Z.eqb Pos.eqb].
  unfold zip64_extra, want. rewrite Nu, Nc. rewrite !app_length, !to_le_length. cbn [Nat.ltb Nat.leb Nat.add]. cbv [mbind go_bind]. rdl. rewrite !app_length, !to_le_length. cbn [Nat.ltb Nat.leb Nat.add]. rdl.
  destruct (need_o s) eqn:En; cbv beta iota.
  - rewrite to_le_length. cbn [Nat.ltb Nat.leb]. rewrite rd_end by bnd. cbv beta iota. rewrite i64_small by lia. done.
  - rewrite No by done. done.
Qed.
Record wf (f : wfile) : Prop := Wf {
  wf_name : Z.of_nat (length (w_name f)) < 65536; wf_bytes : Forall (λ c, 0 < c < 256) (w_name f); wf_perm : 0 ≤ w_perm f < 4096;
  wf_size : Z.of_nat (length (w_data f)) < 2 ^ 62; wf_slash : ends_slash (w_name f) = true → w_data f = [] }.
Lemma w_usize_range f : wf f → 0 ≤ w_usize f < 2 ^ 62.
Proof. intros [_ _ _ H _]. unfold w_usize. destruct (ends_slash _); lia. Qed.
Lemma w_flags_range f : 0 ≤ w_flags f < 65536.
Proof. unfold w_flags. destruct (w_utf8 f), (ends_slash _); lia. Qed.
Lemma w_method_range f : 0 ≤ w_method f < 65536.
Proof. unfold w_method. destruct (ends_slash _); lia. Qed.
Lemma w_crc_range f : 0 ≤ w_crc f < 4294967296.
Proof. unfold w_crc. destruct (ends_slash _); [lia|]. apply crc32_range. Qed.
Lemma read_header_ok f off rest : wf f → w_csize f < 2 ^ 62 → 0 ≤ off < 2 ^ 62 → read_header (dir_header f off ++ rest) = Ret (HFile (hdr_of f off) rest).
Proof.
  intros Hf Hcs Ho. assert (Hc0 : 0 ≤ w_csize f) by (unfold ZfmtModel.w_csize; lia). pose proof (w_usize_range f Hf) as Hu. pose proof (w_flags_range f) as Hfl. pose proof (w_method_range f) as Hm. pose proof (w_crc_range f) as Hcr.
  destruct Hf as [Hn _ Hp _ _]. pose proof (w_attrs_range f Hp) as Ha. change (2 ^ 62) with 4611686018427387904 in *.
  assert (Hde : (9 ≤ length (dextra f off) ≤ 37)%nat) by (unfold dextra; rewrite app_length, w_extra_length; destruct (big f off); rewrite ?big_extra_length; cbn; lia).
  rewrite dir_header_eq. set (fixed := hfront f off ++ hback f off). assert (Lf : length fixed = 46%nat) by (unfold fixed; rewrite app_length, hfront_length, hback_length; done).
  replace ((hfront f off ++ hback f off ++ w_name f ++ dextra f off) ++ rest) with (fixed ++ (w_name f ++ dextra f off) ++ rest) by (unfold fixed; rewrite <- !app_assoc; done).
  unfold read_header. rewrite app_length, Lf. destruct (Nat.eqb_spec (46 + length ((w_name f ++ dextra f off) ++ rest)) 0); [lia|]. destruct (Nat.ltb_spec (46 + length ((w_name f ++ dextra f off) ++ rest)) 46); [lia|].
  rewrite take_app_alt, drop_app_alt by done. cbv zeta. unfold fixed, hfront, hback. rewrite <- !app_assoc. cbv [mbind go_bind].
  rdl. change (negb (dir_sig =? dir_sig)) with false. cbv iota. rdl. rda. do 2 rdl. do 2 rda. rdl.
  assert (Hbig : big f off = false → w_csize f < max32 ∧ w_usize f < max32 ∧ off < max32).
  { unfold big, ZfmtModel.w_zip64, is_zip64. intros E. apply orb_false_iff in E as [E E3]. apply orb_false_iff in E as [E1 E2]. apply Z.leb_gt in E1, E2, E3. done. }
  assert (Hsz : ∃ a b, hsizes f off = to_le 4 a ++ to_le 4 b ∧ (0 ≤ a < 4294967296 ∧ 0 ≤ b < 4294967296) ∧ (if big f off then a = max32 ∧ b = max32 else a = w_csize f ∧ b = w_usize f)).
  { unfold hsizes. destruct (big f off) eqn:Eb; eexists _, _; (split; [done|]); unfold max32 in *; [lia|]. specialize (Hbig eq_refl). unfold max32 in Hbig. lia. }
  destruct Hsz as (a & b & -> & [Ra Rb] & Hab). rewrite <- !app_assoc. do 5 rdl.
  rewrite rd_skip_app by apply to_le_length. cbv beta iota. rdl.
  set (o := if max32 <? off then max32 else off). assert (Ro : 0 ≤ o < 4294967296) by (unfold o, max32; destruct (Z.ltb_spec 4294967295 off); lia).
  rewrite rd_end by bnd. cbv beta iota.
  replace (Z.to_nat (Z.of_nat (length (w_name f)) + Z.of_nat (length (dextra f off)) + 0)) with (length (w_name f ++ dextra f off)) by (rewrite app_length; lia).
  rewrite (app_assoc (w_name f)).
  assert (Ln : (9 ≤ length (w_name f ++ dextra f off))%nat) by (rewrite app_length; lia). rewrite !(app_length (w_name f ++ dextra f off) rest).
  destruct (Nat.eqb_spec (length (w_name f ++ dextra f off) + length rest) 0); [lia|]. rewrite andb_false_r. destruct (Nat.ltb_spec (length (w_name f ++ dextra f off) + length rest) (length (w_name f ++ dextra f off))); [lia|].
  rewrite take_app, drop_app, !Nat2Z.id. rewrite rd_sub_app by done. cbv beta iota. rewrite rd_sub_all. cbv beta iota.
  destruct (big f off) eqn:Eb; destruct Hab as [-> ->].
  - assert (Ed : dextra f off = w_extra f ++ big_extra f off) by (unfold dextra; by rewrite Eb). rewrite Ed at 2. replace (length (dextra f off)) with (S (S (S 34))) by (rewrite Ed, app_length, w_extra_length, big_extra_length; done).
    rewrite parse_time. rewrite parse_big; [|split; lia|lia|done|done|].
    + done.
    + cbn. unfold o. intros E. destruct (Z.ltb_spec max32 off); [done|done].
  - specialize (Hbig eq_refl) as (B1 & B2 & B3). unfold o in *. destruct (Z.ltb_spec max32 off); [lia|].
    assert (Ed : dextra f off = w_extra f ++ []) by (unfold dextra; by rewrite Eb). rewrite Ed at 2. replace (length (dextra f off)) with (S 8) by (rewrite Ed, app_length, w_extra_length; done).
    rewrite parse_time, parse_nil. cbn [need_c need_o s_csize s_usize s_offset]. destruct (Z.eqb_spec (w_csize f) max32); [lia|]. destruct (Z.eqb_spec off max32); [lia|]. done.
Qed.
Lemma dir_header_length f off : (55 ≤ length (dir_header f off))%nat.
Proof. rewrite dir_header_eq, !app_length, hfront_length, hback_length. unfold dextra. rewrite app_length, w_extra_length. lia. Qed.
Fixpoint hdrs_of (fs : list wfile) (off : Z) : list zfile := match fs with [] => [] | f :: r => hdr_of f off :: hdrs_of r (off + Z.of_nat (length (w_record f))) end.
Definition total (fs : list wfile) : Z := Z.of_nat (length (fs ≫= w_record)).
Lemma total_cons f r : total (f :: r) = Z.of_nat (length (w_record f)) + total r.
Proof. unfold total. cbn. rewrite app_length. lia. Qed.
Lemma csize_record f : w_csize f ≤ Z.of_nat (length (w_record f)).
Proof. unfold ZfmtModel.w_csize, ZfmtModel.w_record. rewrite !app_length. lia. Qed.
Lemma read_headers_ok fs : Forall wf fs → ∀ off stop fuel, 0 ≤ off → off + total fs < 2 ^ 62 → (length fs < fuel)%nat → read_header stop = Ret HStop →
  read_headers fuel (dir_headers fs off ++ stop) = Ret (Some (hdrs_of fs off)).
Proof.
  induction 1 as [|f fs Hf _ IH]; intros off stop fuel Ho Ht Hfu Hs; destruct fuel as [|k]; cbn [length] in Hfu; try lia.
  - cbn. rewrite Hs. done.
  - rewrite total_cons in Ht. pose proof (csize_record f). assert (0 ≤ total fs) by (unfold total; lia). cbn [read_headers ZfmtModel.dir_headers hdrs_of]. rewrite <- app_assoc.
    rewrite read_header_ok by (done || lia). cbn [mbind go_bind]. rewrite IH by (done || lia). done.
Qed.
Lemma stop_ok records size offset : read_header (end_records records size offset) = Ret HStop.
Proof.
  rewrite end_records_eq. destruct (_ || _).
  - unfold read_header. rewrite !app_length, end64_length, loc64_length, end_record_length. cbn [Nat.add Nat.eqb Nat.ltb Nat.leb]. cbv zeta.
    unfold end64. rewrite <- !app_assoc. rewrite take_app_ge by (rewrite to_le_length; lia). rewrite rd_app by apply to_le_length. done.
  - unfold read_header. rewrite end_record_length. done.
Qed.
Lemma dir_headers_length fs : ∀ off, (length fs * 55 ≤ length (dir_headers fs off))%nat.
Proof. induction fs as [|f fs IH]; intros off; [done|]. cbn [length ZfmtModel.dir_headers]. rewrite app_length. pose proof (dir_header_length f off). specialize (IH (off + Z.of_nat (length (w_record f)))). lia. Qed.
Lemma dir_headers_last fs : ∀ off, fs ≠ [] → ∃ pre f o, dir_headers fs off = pre ++ dir_header f o ∧ f ∈ fs ∧ off ≤ o ≤ off + total fs.
Proof.
  induction fs as [|f fs IH]; intros off Hne; [done|]. assert (0 ≤ total fs) by (unfold total; lia). rewrite total_cons. destruct fs as [|g fs].
  - exists [], f, off. split_and!; [cbn; by rewrite app_nil_r|left|lia|lia].
  - destruct (IH (off + Z.of_nat (length (w_record f)))) as (pre & h & o & E & Hh & H1 & H2); [done|]. exists (dir_header f off ++ pre), h, o. split_and!; [cbn [ZfmtModel.dir_headers] in *; rewrite E; by rewrite app_assoc|by right|lia|lia].
Qed.
Lemma open_zip_ok fs : Forall wf fs → Z.of_nat (length (write_zip fs)) < 2 ^ 62 → open_zip (write_zip fs) = Ret (Some (hdrs_of fs 0)).
Proof.
  intros Hf Hl. unfold ZfmtModel.write_zip in *. set (body := fs ≫= w_record) in *. set (dir := dir_headers fs 0) in *. set (er := end_records _ _ _) in *.
  assert (Hlen : Z.of_nat (length body) + Z.of_nat (length dir) < 2 ^ 62) by (rewrite !app_length in Hl; lia). pose proof (dir_headers_length fs 0) as Hd. fold dir in Hd.
  unfold open_zip. assert (ER : read_end (body ++ dir ++ er) = Ret (Some (DEnd (Z.of_nat (length fs)) (Z.of_nat (length dir)) (Z.of_nat (length body))))).
  { rewrite app_assoc. apply read_end_ok; [lia|lia|lia|rewrite app_length; lia|lia|]. intros E Hb post.
    destruct (dir_headers_last fs 0) as (pre & f & o & Ed & Hin & Hoo). { intros ->. cbn in *. done. }
    fold dir in Ed. assert (Hw : wf f) by (rewrite Forall_forall in Hf; by apply Hf). unfold total in Hoo. fold body in Hoo.
    rewrite Ed. replace ((body ++ pre ++ dir_header f o) ++ post) with ((body ++ pre) ++ dir_header f o ++ post) by (by rewrite <- !app_assoc). rewrite (app_assoc body). apply no_locator; [apply Hw|apply Hw|unfold max32 in Hb; lia]. }
  rewrite ER. cbn [mbind go_bind d_offset d_records]. rewrite i64_small by lia. rewrite Nat2Z.id, drop_app.
  unfold dir. rewrite read_headers_ok; [|done|lia| | |apply stop_ok].
  - cbn [mbind go_bind]. assert (Eh : ∀ o, length (hdrs_of fs o) = length fs). { clear. induction fs as [|f fs IH]; intros o; [done|]. cbn. by rewrite IH. } rewrite Eh. by rewrite Z.eqb_refl.
  - unfold total. fold body. lia.
  - rewrite !app_length. fold dir. lia.
Qed.

(** ** the contents *)
Definition lfixed (f : wfile) : gostr :=
  to_le 4 file_sig ++ to_le 2 20 ++ to_le 2 (w_flags f) ++ to_le 2 (w_method f) ++ to_le 2 (w_time f) ++ to_le 2 (w_date f) ++
  to_le 4 0 ++ to_le 4 0 ++ to_le 4 0 ++ to_le 2 (Z.of_nat (length (w_name f))) ++ to_le 2 (Z.of_nat (length (w_extra f))).
Lemma lfixed_length f : length (lfixed f) = 30%nat.
Proof. unfold lfixed. rewrite !app_length, !to_le_length. done. Qed.
Lemma local_header_eq f : local_header f = lfixed f ++ w_name f ++ w_extra f.
Proof. unfold local_header, lfixed. rewrite <- !app_assoc. done. Qed.
Lemma section_take pre a post off n : off = Z.of_nat (length pre) → n ≤ Z.of_nat (length a) → section (pre ++ a ++ post) off n = take (Z.to_nat n) a.
Proof.
  intros -> Hn. unfold section. destruct (Z.ltb_spec (Z.of_nat (length pre)) 0); [lia|]. rewrite !Nat2Z.id, drop_app. apply take_app_le. lia.
Qed.
Lemma read_file_ok pre f post : wf f → ends_slash (w_name f) = false → inflate (deflate (w_data f)) = Some (w_data f) → w_csize f < 2 ^ 62 →
  read_file inflate (pre ++ w_record f ++ post) (hdr_of f (Z.of_nat (length pre))) = Ret (Some (w_data f)).
Proof.
  intros Hf Hs Hi Hc. pose proof (w_crc_range f) as Hcr. assert (Hc0 : 0 ≤ w_csize f) by (unfold ZfmtModel.w_csize; lia). destruct Hf as [Hn _ _ Hd _]. unfold read_file, open_file, hdr_of. cbn [z_offset z_method z_csize z_usize z_crc z_flags].
  set (x := pre ++ w_record f ++ post).
  assert (Ex : x = pre ++ lfixed f ++ w_name f ++ w_extra f ++ w_comp deflate f ++ descriptor deflate f ++ post) by (unfold x, ZfmtModel.w_record; rewrite local_header_eq, <- !app_assoc; done).
  assert (ER : read_at x (Z.of_nat (length pre)) 30 = Some (lfixed f)) by (rewrite Ex; apply read_at_app'; [done|by rewrite lfixed_length]).
  rewrite ER. unfold lfixed. cbv [mbind go_bind]. rdl. change (negb (file_sig =? file_sig)) with false. cbv iota.
  assert (Em : w_method f = 8) by (unfold w_method; by rewrite Hs).
  match goal with |- context [rd_skip 22 ?b] => replace b with ((to_le 2 20 ++ to_le 2 (w_flags f) ++ to_le 2 (w_method f) ++ to_le 2 (w_time f) ++ to_le 2 (w_date f) ++ to_le 4 0 ++ to_le 4 0 ++ to_le 4 0) ++ to_le 2 (Z.of_nat (length (w_name f))) ++ to_le 2 (Z.of_nat (length (w_extra f)))) by (rewrite <- !app_assoc; done) end.
  rewrite rd_skip_app by (rewrite !app_length, !to_le_length; done). cbv beta iota. rdl. rewrite rd_end by (rewrite w_extra_length; bnd). cbv beta iota. rewrite w_extra_length, Em. cbn [Z.eqb Pos.eqb negb andb].
  rewrite i64_small by lia. set (body := Z.of_nat (length pre) + 30 + Z.of_nat (length (w_name f)) + Z.of_nat 9).
  assert (Hcomp : w_comp deflate f = deflate (w_data f)) by (unfold w_comp; by rewrite Hs).
  assert (E1 : section x body (w_csize f) = deflate (w_data f)).
  { rewrite Ex, <- Hcomp. replace (pre ++ lfixed f ++ w_name f ++ w_extra f ++ w_comp deflate f ++ descriptor deflate f ++ post) with ((pre ++ lfixed f ++ w_name f ++ w_extra f) ++ w_comp deflate f ++ descriptor deflate f ++ post) by (rewrite <- !app_assoc; done).
    apply section_app; [|done]. rewrite !app_length, lfixed_length, w_extra_length. unfold body. lia. }
  set (dsc := to_le 4 desc_sig ++ to_le 4 (w_crc f) ++ (if w_zip64 f then to_le 8 (w_csize f) ++ to_le 8 (w_usize f) else to_le 4 (w_csize f) ++ to_le 4 (w_usize f))).
  assert (Edsc : descriptor deflate f = dsc) by (unfold descriptor; rewrite Hs; done).
  assert (Ld : (16 ≤ length dsc)%nat) by (unfold dsc; rewrite !app_length, !to_le_length; destruct (w_zip64 f); rewrite app_length, !to_le_length; lia).
  assert (E2 : section x (body + w_csize f) 16 = take 16 dsc).
  { rewrite Ex, Edsc. replace (pre ++ lfixed f ++ w_name f ++ w_extra f ++ w_comp deflate f ++ dsc ++ post) with ((pre ++ lfixed f ++ w_name f ++ w_extra f ++ w_comp deflate f) ++ dsc ++ post) by (rewrite <- !app_assoc; done).
    apply section_take; [|lia]. rewrite !app_length, lfixed_length, w_extra_length. unfold body, ZfmtModel.w_csize. lia. }
  rewrite E1, E2, Hi. assert (Eu : w_usize f = Z.of_nat (length (w_data f))) by (unfold w_usize; by rewrite Hs). rewrite Eu, Z.eqb_refl. cbn [negb].
  assert (Ef : (Z.land (w_flags f) 8 =? 0) = false) by (unfold w_flags; rewrite Hs; by destruct (w_utf8 f)). rewrite Ef. cbn [negb].
  assert (Ec : w_crc f = crc32 (w_data f)) by (unfold w_crc; by rewrite Hs). rewrite <- Ec, Z.eqb_refl, andb_true_r.
  assert (Ed : desc_ok (take 16 dsc) (w_crc f) = true).
  { unfold desc_ok. rewrite take_length, Nat.min_l by done. cbn [Nat.ltb Nat.leb]. rewrite take_take. cbn [Nat.min].
    assert (T4 : take 4 dsc = to_le 4 desc_sig) by (unfold dsc; apply take_app_alt; by rewrite to_le_length). rewrite T4, le_val_to_le. change (desc_sig mod 256 ^ Z.of_nat 4 =? desc_sig) with true. cbv iota. cbn [Nat.leb andb].
    assert (T8 : take 4 (drop 4 (take 16 dsc)) = to_le 4 (w_crc f)).
    { rewrite skipn_firstn_comm. cbn [Nat.sub]. rewrite take_take. cbn [Nat.min]. unfold dsc. rewrite (drop_app_alt (to_le 4 desc_sig)) by (by rewrite to_le_length). apply take_app_alt. by rewrite to_le_length. }
    rewrite T8, le_val_to_le. change (256 ^ Z.of_nat 4) with 4294967296. rewrite Z.mod_small by done. apply Z.eqb_refl. }
  rewrite Ed. done.
Qed.
Definition item_of (f : wfile) : item := if w_isdir f || ends_slash (w_name f) then Item (w_name f) true (Some []) else Item (w_name f) false (Some (w_data f)).
Lemma read_items_ok fs : Forall wf fs → Forall (λ f, inflate (deflate (w_data f)) = Some (w_data f)) fs → ∀ pre post, total fs < 2 ^ 62 →
  read_items inflate (pre ++ (fs ≫= w_record) ++ post) (hdrs_of fs (Z.of_nat (length pre))) = Ret (item_of <$> fs).
Proof.
  induction 1 as [|f fs Hf Hfs IH]; intros Hi pre post Ht; [done|]. inversion Hi as [|?? Hi1 Hi2]; subst. rewrite total_cons in Ht. pose proof (csize_record f). assert (0 ≤ total fs) by (unfold total; lia).
  cbn [hdrs_of read_items fmap list_fmap mbind list_bind]. change (list_bind _ _ w_record fs) with (fs ≫= w_record).
  assert (E1 : read_item inflate (pre ++ (w_record f ++ (fs ≫= w_record)) ++ post) (hdr_of f (Z.of_nat (length pre))) = Ret (item_of f)).
  { unfold read_item, item_of. cbn [hdr_of z_creator z_attrs z_name]. rewrite mode_dir_w by apply Hf. destruct (w_isdir f || ends_slash (w_name f)) eqn:Ed; [done|]. apply orb_false_iff in Ed as [_ Ed].
    fold (hdr_of f (Z.of_nat (length pre))). rewrite <- app_assoc. rewrite read_file_ok by (done || lia). done. }
  rewrite E1. cbn [go_bind].
  specialize (IH Hi2 (pre ++ w_record f) post ltac:(lia)). rewrite app_length, Nat2Z.inj_add in IH. rewrite <- !app_assoc in IH. rewrite <- !app_assoc. rewrite IH. done.
Qed.
Theorem read_write_zip fs : Forall wf fs → Forall (λ f, inflate (deflate (w_data f)) = Some (w_data f)) fs → Z.of_nat (length (write_zip fs)) < 2 ^ 62 →
  read_zip inflate (write_zip fs) = Ret (Some (item_of <$> fs)).
Proof.
  intros Hf Hi Hl. unfold read_zip. rewrite open_zip_ok by done. cbn [mbind go_bind]. unfold ZfmtModel.write_zip in *. cbv zeta in *.
  match goal with |- context [read_items _ (?b ++ ?p) _] => assert (E : read_items inflate (b ++ p) (hdrs_of fs 0) = Ret (item_of <$> fs)) end.
  - apply (read_items_ok fs Hf Hi []). rewrite !app_length in Hl. unfold total. lia.
  - rewrite E. done.
Qed.
End format.
