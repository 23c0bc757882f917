(** * Proofs: every file can be read as an archive, and the checksum *)
From Verif Require Import GoBase GoStr PathModel ZipfsModel ZfmtModel ZfmtSpec ZfmtProofs.
Local Open Scope Z_scope.

(** ** reading any bytes *)
Lemma rd_ok n b : (n ≤ length b)%nat → ∃ v b', rd n b = Ret (v, b') ∧ length b' = (length b - n)%nat ∧ (Forall byte b → 0 ≤ v ∧ Forall byte b').
Proof.
  intros H. unfold rd. destruct (Nat.ltb_spec (length b) n); [lia|]. eexists _, _. split; [done|]. rewrite drop_length. split; [done|]. intros Hb. split; [|by apply Forall_drop].
  pose proof (le_val_range (take n b)) as Hr. apply Hr. by apply Forall_take.
Qed.
Lemma rd_skip_ok n b : (n ≤ length b)%nat → ∃ b', rd_skip n b = Ret b' ∧ length b' = (length b - n)%nat ∧ (Forall byte b → Forall byte b').
Proof. intros H. unfold rd_skip. destruct (Nat.ltb_spec (length b) n); [lia|]. eexists. split; [done|]. rewrite drop_length. split; [done|]. apply Forall_drop. Qed.
Lemma rd_sub_ok n b : (n ≤ length b)%nat → ∃ a b', rd_sub n b = Ret (a, b') ∧ length a = n ∧ length b' = (length b - n)%nat ∧ (Forall byte b → Forall byte a ∧ Forall byte b').
Proof. intros H. unfold rd_sub. destruct (Nat.ltb_spec (length b) n); [lia|]. eexists _, _. split; [done|]. rewrite drop_length, take_length. split_and!; [lia|done|]. intros Hb. split; [by apply Forall_take|by apply Forall_drop]. Qed.
Ltac rdp v b R := match goal with |- context [rd ?n ?a] => let E := fresh in let L := fresh "L" in destruct (rd_ok n a) as (v & b & E & L & R); [lia|rewrite E; clear E; cbv beta iota; try match goal with H : length a = ?k |- _ => let m := eval cbv in k in match m with S _ => rewrite H in L; cbn [Nat.sub] in L; clear H end end] end.
Lemma read_at_len x off n b : read_at x off n = Some b → length b = n ∧ (Forall byte x → Forall byte b).
Proof.
  unfold read_at. destruct (Z.ltb_spec off 0); [done|]. destruct (Z.ltb_spec (Z.of_nat (length x)) (off + Z.of_nat n)); [done|]. cbn. intros [= <-]. rewrite take_length, drop_length. split; [lia|].
  intros Hb. by apply Forall_take, Forall_drop.
Qed.
Lemma find_end64_total x at_ : ∃ r, find_end64 x at_ = Ret r.
Proof.
  unfold find_end64. destruct (_ <? 0); [by eexists|]. destruct (read_at x (at_ - 20) 20) as [b|] eqn:E; [|by eexists]. apply read_at_len in E as [Lb _]. cbv [mbind go_bind].
  rdp v1 b1 R1. destruct (negb _); [by eexists|]. rdp v2 b2 R2. destruct (negb _); [by eexists|]. rdp v3 b3 R3. rdp v4 b4 R4. destruct (negb _); by eexists.
Qed.
Lemma read_end64_total x at_ : ∃ r, read_end64 x at_ = Ret r.
Proof.
  unfold read_end64. destruct (read_at x at_ 56) as [b|] eqn:E; [|by eexists]. apply read_at_len in E as [Lb _]. cbv [mbind go_bind].
  rdp v1 b1 R1. destruct (negb _); [by eexists|]. destruct (rd_skip_ok 12 b1) as (b2 & -> & L2 & _); [lia|]. rdp v3 b3 R3. rdp v4 b4 R4. rdp v5 b5 R5. rdp v6 b6 R6. rdp v7 b7 R7. rdp v8 b8 R8. by eexists.
Qed.
Lemma find_sig_range b i p : find_sig b i = Some p → (p < i)%nat.
Proof. induction i as [|i IH]; [done|]. cbn. destruct (_ && _). - intros [= <-]. lia. - intros H. apply IH in H. lia. Qed.
Lemma find_end_range x b p : find_end x = Some (b, p) → (22 ≤ length b)%nat.
Proof.
  unfold find_end. set (m2 := (65 * 1024)%nat). set (m1 := 1024%nat). clearbody m1 m2. cbv zeta. assert (Hlook : ∀ m q, find_in_block (drop (length x - Nat.min m (length x)) x) = Some q → (22 ≤ length (drop (length x - Nat.min m (length x) + q) x))%nat).
  { intros m q. unfold find_in_block. rewrite drop_length. intros H. apply find_sig_range in H. rewrite drop_length. lia. }
  destruct (find_in_block (drop (length x - Nat.min m1 (length x)) x)) as [q|] eqn:E1.
  - intros [= <- <-]. by apply (Hlook m1).
  - destruct (length x <=? m1)%nat; [done|]. destruct (find_in_block (drop (length x - Nat.min m2 (length x)) x)) as [q|] eqn:E2; [|done]. intros [= <- <-]. by apply (Hlook m2).
Qed.
Lemma read_end_total x : ∃ r, read_end x = Ret r.
Proof.
  unfold read_end. destruct (find_end x) as [[b p]|] eqn:E; [|by eexists]. apply find_end_range in E. cbv [mbind go_bind].
  destruct (rd_skip_ok 4 b) as (b0 & -> & L0 & _); [lia|]. rdp v1 b1 R1. rdp v2 b2 R2. rdp v3 b3 R3. rdp v4 b4 R4. rdp v5 b5 R5. rdp v6 b6 R6. rdp v7 b7 R7. destruct (_ <? _); [by eexists|].
  destruct (_ || _); [|by eexists]. destruct (find_end64_total x p) as [[q|] ->]; [|by eexists]. destruct (0 <=? q); [|by eexists]. destruct (read_end64_total x q) as [r ->]. by eexists.
Qed.
Lemma ntfs_total fuel : ∀ b, (length b < fuel)%nat → Forall byte b → ntfs_attrs fuel b = Ret ().
Proof.
  induction fuel as [|k IH]; intros b Hl Hb; [lia|]. cbn [ntfs_attrs]. destruct (Nat.ltb_spec (length b) 4); [done|]. cbv [mbind go_bind]. rdp v1 b1 R1. destruct (R1 Hb) as [_ B1]. rdp v2 b2 R2. destruct (R2 B1) as [V2 B2].
  destruct (Z.ltb_spec (Z.of_nat (length b2)) v2); [done|]. destruct (rd_sub_ok (Z.to_nat v2) b2) as (a & b3 & -> & La & L3 & R3); [lia|]. destruct (R3 B2) as [_ B3].
  assert (E : (if negb (v1 =? 1) || negb (v2 =? 24) then Ret () else match rd 8 a with Ret (_, _) => Ret () | Panic p => Panic p | Diverge => Diverge end) = Ret ()).
  { destruct (Z.eqb_spec v1 1); [|done]. destruct (Z.eqb_spec v2 24) as [->|]; [|done]. cbn [negb orb]. rdp v4 b4 R4. done. }
  rewrite E. apply IH; [lia|done].
Qed.
Lemma want_total need old b : ∃ r, want need old b = Ret r.
Proof. unfold want. destruct need; [|by eexists]. destruct (Nat.ltb_spec (length b) 8); [by eexists|]. cbv [mbind go_bind]. rdp v b1 R. by eexists. Qed.
Lemma zip64_total s b : ∃ r, zip64_extra s b = Ret r.
Proof.
  unfold zip64_extra. cbv [mbind go_bind]. destruct (want_total (need_u s) (s_usize s) b) as [[[u b1]|] ->]; [|by eexists]. destruct (want_total (need_c s) (s_csize s) b1) as [[[c b2]|] ->]; [|by eexists].
  destruct (want_total (need_o s) (s_offset s) b2) as [[[o b3]|] ->]; by eexists.
Qed.
Lemma parse_total fuel : ∀ s b, (length b < fuel)%nat → Forall byte b → ∃ r, parse_extras fuel s b = Ret r.
Proof.
  induction fuel as [|k IH]; intros s b Hl Hb; [lia|]. cbn [parse_extras]. destruct (Nat.ltb_spec (length b) 4); [by eexists|]. cbv [mbind go_bind]. rdp v1 b1 R1. destruct (R1 Hb) as [_ B1]. rdp v2 b2 R2. destruct (R2 B1) as [V2 B2].
  destruct (Z.ltb_spec (Z.of_nat (length b2)) v2); [by eexists|]. destruct (rd_sub_ok (Z.to_nat v2) b2) as (a & b3 & -> & La & L3 & R3); [lia|]. destruct (R3 B2) as [A3 B3].
  destruct (v1 =? 1). { destruct (zip64_total s a) as [[s'|] ->]; [|by eexists]. apply IH; [lia|done]. }
  destruct (v1 =? 10).
  { destruct (Nat.ltb_spec (length a) 4). { apply IH; [lia|done]. } rdp v4 b4 R4. rewrite ntfs_total; [|lia|by apply R4]. apply IH; [lia|done]. }
  destruct ((v1 =? 13) || (v1 =? 22613)).
  { destruct (Nat.ltb_spec (length a) 8). { apply IH; [lia|done]. } rdp v4 b4 R4. rdp v5 b5 R5. apply IH; [lia|done]. }
  destruct (v1 =? 21589); [|apply IH; [lia|done]].
  destruct (Nat.ltb_spec (length a) 5). { apply IH; [lia|done]. } rdp v4 b4 R4. destruct (_ =? 0). { apply IH; [lia|done]. } rdp v5 b5 R5. apply IH; [lia|done].
Qed.
Lemma read_header_total x : Forall byte x → ∃ r, read_header x = Ret r ∧ ∀ f rest, r = HFile f rest → (length rest + 46 ≤ length x)%nat ∧ Forall byte rest.
Proof.
  intros Hb. unfold read_header. destruct (length x =? 0)%nat; [by eexists|]. destruct (Nat.ltb_spec (length x) 46); [by eexists|]. cbv zeta. assert (L : length (take 46 x) = 46%nat) by (rewrite take_length; lia).
  assert (B : Forall byte (take 46 x)) by (by apply Forall_take). cbv [mbind go_bind]. rdp v1 b1 R1. destruct (R1 B) as [V1 B1]. destruct (negb _); [by eexists|].
  rdp v2 b2 R2. destruct (R2 B1) as [_ B2]. rdp v3 b3 R3. destruct (R3 B2) as [_ B3]. rdp v4 b4 R4. destruct (R4 B3) as [_ B4]. rdp v5 b5 R5. destruct (R5 B4) as [_ B5]. rdp v6 b6 R6. destruct (R6 B5) as [_ B6]. rdp v7 b7 R7. destruct (R7 B6) as [_ B7].
  rdp v8 b8 R8. destruct (R8 B7) as [_ B8]. rdp v9 b9 R9. destruct (R9 B8) as [_ B9]. rdp v10 b10 R10. destruct (R10 B9) as [_ B10]. rdp v11 b11 R11. destruct (R11 B10) as [V11 B11]. rdp v12 b12 R12. destruct (R12 B11) as [V12 B12]. rdp v13 b13 R13. destruct (R13 B12) as [V13 B13].
  destruct (rd_skip_ok 4 b13) as (b14 & -> & L14 & _); [lia|]. match goal with H : length b13 = _ |- _ => rewrite H in L14; cbn [Nat.sub] in L14; clear H end. clear R1 R2 R3 R4 R5 R6 R7 R8 R9 R10 R11 R12 R13. rdp v15 b15 R15. rdp v16 b16 R16. clear R15 R16.
  set (n := Z.to_nat (v11 + v12 + v13)). destruct ((0 <? n)%nat && (length (drop 46 x) =? 0)%nat); [by eexists|]. destruct (Nat.ltb_spec (length (drop 46 x)) n); [by eexists|].
  assert (Ld : length (take n (drop 46 x)) = n) by (rewrite take_length; by apply Nat.min_l). assert (Bd : Forall byte (take n (drop 46 x))) by (by apply Forall_take, Forall_drop).
  destruct (rd_sub_ok (Z.to_nat v11) (take n (drop 46 x))) as (nm & d1 & -> & Ln & Ld1 & Rd1); [lia|]. destruct (Rd1 Bd) as [_ Bd1]. destruct (rd_sub_ok (Z.to_nat v12) d1) as (ex & d2 & -> & Le & Ld2 & Rd2); [lia|]. destruct (Rd2 Bd1) as [Be _].
  match goal with |- context [parse_extras ?k ?s ?e] => destruct (parse_total k s e) as [r ->]; [lia|done|] end. eexists. split; [done|]. intros f rest. destruct r as [s|]; [|done]. destruct (need_c s || need_o s); [done|]. intros [= _ <-].
  rewrite !drop_length. split; [rewrite drop_length in *; lia|]. by apply Forall_drop, Forall_drop.
Qed.
Lemma read_headers_total fuel : ∀ x, (length x < fuel)%nat → Forall byte x → ∃ r, read_headers fuel x = Ret r ∧ ∀ fs, r = Some fs → (46 * length fs ≤ length x)%nat.
Proof.
  induction fuel as [|k IH]; intros x Hl Hb; [lia|]. cbn [read_headers]. destruct (read_header_total x Hb) as (h & -> & Hh). cbn [mbind go_bind]. destruct h as [f rest| |].
  - destruct (Hh f rest eq_refl) as [H1 H2]. destruct (IH rest) as (r & -> & Hr); [lia|done|]. cbn [mbind go_bind]. eexists. split; [done|]. intros fs. destruct r as [l|]; [|done]. intros [= <-]. cbn. specialize (Hr l eq_refl). lia.
  - eexists. split; [done|]. intros fs [= <-]. cbn. lia.
  - by eexists.
Qed.
Lemma open_zip_total x : Forall byte x → ∃ r, open_zip x = Ret r ∧ ∀ fs, r = Some fs → (46 * length fs ≤ length x)%nat.
Proof.
  intros Hb. unfold open_zip. destruct (read_end_total x) as [[d|] ->]; cbn [mbind go_bind]; [|by eexists].
  set (y := drop (Z.to_nat (i64 (d_offset d))) x). assert (Ly : (length y ≤ length x)%nat) by (unfold y; rewrite drop_length; lia).
  destruct (read_headers_total (S (length x)) y) as (r & -> & Hr); [lia|by apply Forall_drop|]. cbn [mbind go_bind]. eexists. split; [done|]. intros fs. destruct r as [l|]; [|done]. destruct (_ =? _); [|done]. intros [= <-]. specialize (Hr l eq_refl). lia.
Qed.
Lemma open_file_total x f : ∃ r, open_file x f = Ret r.
Proof.
  unfold open_file. destruct (read_at x (z_offset f) 30) as [b|] eqn:E; [|by eexists]. apply read_at_len in E as [Lb _]. cbv [mbind go_bind]. rdp v1 b1 R1. destruct (negb _); [by eexists|].
  destruct (rd_skip_ok 22 b1) as (b2 & -> & L2 & _); [lia|]. rdp v3 b3 R3. rdp v4 b4 R4. destruct (_ && _); by eexists.
Qed.
Lemma read_file_total inflate x f : ∃ r, read_file inflate x f = Ret r.
Proof. unfold read_file. destruct (open_file_total x f) as [o ->]. by eexists. Qed.
Lemma read_items_total inflate x fs : ∃ is, read_items inflate x fs = Ret is ∧ length is = length fs.
Proof.
  induction fs as [|f fs (is & E & L)]; [by eexists|]. cbn [read_items]. unfold read_item. destruct (mode_dir _ _ _); cbn [mbind go_bind]; [|destruct (read_file_total inflate x f) as [d ->]; cbn [mbind go_bind]]; rewrite E; cbn; eexists; (split; [done|]); cbn; lia.
Qed.
