(** * The decompressor against RFC 1951: copies, blocks and streams *)
From Verif Require Import GoBase GoStr InflModel InflSpec InflHuff InflProofs.
Local Open Scope Z_scope.

(** ** copies *)
Lemma copy_back_ok dist n : ∀ out, (1 ≤ dist ≤ length out)%nat → let out' := copy_back n dist out in length out' = (length out + n)%nat ∧ out `prefix_of` out' ∧
  ∀ i : nat, (length out ≤ i < length out')%nat → out' !! i = out' !! (i - dist)%nat.
Proof.
  induction n as [|n IH]; intros out Hd; cbn zeta; cbn [copy_back]. { split_and!; [lia|done|intros; lia]. }
  set (x := nth (length out - dist) out 0). assert (Hl : length (out ++ [x]) = S (length out)) by (rewrite app_length; cbn; lia). destruct (IH (out ++ [x])) as (I1 & [k I2] & I3); [lia|]. rewrite I1, Hl in *. split_and!; [lia|exists (x :: k); rewrite I2, <- app_assoc; done|].
  intros i Hi. destruct (decide (i = length out)) as [->|]; [|apply I3; lia]. rewrite I2, <- app_assoc. rewrite lookup_app_r, Nat.sub_diag by lia. cbn. rewrite lookup_app_l by lia. unfold x. rewrite nth_lookup. destruct (lookup_lt_is_Some_2 out (length out - dist)) as [y ->]; [lia|]. done.
Qed.
Lemma adds_fun it out a b : adds it out a → adds it out b → a = b.
Proof.
  destruct it as [c|len dist]; cbn; [congruence|]. intros (A1 & A2 & A3 & A4 & A5) (_ & _ & B3 & B4 & B5). assert (Hl : length a = length b) by lia. apply list_eq. intros i. induction i as [i IH] using lt_wf_ind.
  destruct (decide (i < length out)%nat) as [Hi|Hi]. { destruct A4 as [k ->], B4 as [k' ->]. by rewrite !lookup_app_l by lia. }
  destruct (decide (i < length a)%nat) as [Hi'|Hi']; [|rewrite !lookup_ge_None_2 by lia; done]. rewrite A5, B5 by lia. apply IH. lia.
Qed.
Lemma copy_adds len dist out : 1 ≤ dist ≤ 32768 → dist ≤ Z.of_nat (length out) → 0 ≤ len → adds (Ref len dist) out (copy_back (Z.to_nat len) (Z.to_nat dist) out).
Proof. intros H1 H2 H3. destruct (copy_back_ok (Z.to_nat dist) (Z.to_nat len) out) as (C1 & C2 & C3); [lia|]. cbn. split_and!; [lia|lia|lia|lia|done|exact C3]. Qed.
Lemma dist_rows_pos i base n : dist_rows !! i = Some (base, n) → 1 ≤ base.
Proof. intros H. assert (Hb : forallb (λ r, 1 <=? r.1) dist_rows = true) by done. rewrite forallb_forall in Hb. apply elem_of_list_lookup_2, elem_of_list_In, Hb in H. cbn in H. lia. Qed.
Lemma len_rows_pos i base n : len_rows !! i = Some (base, n) → 3 ≤ base ∧ base + 2 ^ Z.of_nat n - 1 ≤ 258.
Proof. intros H. assert (Hb : forallb (λ r, (3 <=? r.1) && (r.1 + 2 ^ Z.of_nat r.2 - 1 <=? 258)) len_rows = true) by done. rewrite forallb_forall in Hb. apply elem_of_list_lookup_2, elem_of_list_In, Hb in H. cbn in H. lia. Qed.

Section block.
Context (L D : list nat) (hl : list hcode) (hd : option (list hcode)) (HeL : entries_ok L hl) (HfL : Forall (λ n, n ≤ 15)%nat L) (HD : dist_ok hd D).
Lemma block_sound fuel : ∀ b out r out', huff_block fuel hl hd b out = DOk (r, out') → ∃ w, b = w ++ r ∧ items L D out out' w.
Proof.
  induction fuel as [|k IH]; intros b out r out' E; cbn [huff_block] in E; [done|]. destruct (huff_sym hl b) as [[v b1]| |] eqn:Eh; [|done..]. apply (huff_sym_ok L) in Eh as (w1 & Hc & ->); [|done..]. cbn [mbind dres_bind] in E.
  destruct (Nat.ltb_spec v 256) as [Hv|Hv].
  { apply IH in E as (w & -> & Hi). exists (w1 ++ w). split; [by rewrite app_assoc|]. eapply (items_cons _ _ (Lit (Z.of_nat v))); [|done|done]. cbn. split; [lia|]. by rewrite Nat2Z.id. }
  destruct (Nat.eqb_spec v 256) as [->|Hv'].
  { injection E as <- <-. exists w1. split; [done|]. by constructor. }
  rewrite len_of_ok in E by lia. destruct (len_rows !! (v - 257)%nat) as [[base n]|] eqn:Er; [|done]. inv_bits E He e.
  destruct (dist_sym hd r0) as [[d b2]| |] eqn:Ed; [|done..]. apply HD in Ed as (w2 & Hc2 & ->). cbn [mbind dres_bind] in E. destruct (dist_of (Z.of_nat d) b2) as [[dist b3]| |] eqn:Edo; [|done..]. apply dist_of_ok in Edo as (dbase & dn & e2 & Hrow & He2 & -> & ->). cbn [mbind dres_bind] in E.
  destruct (Z.ltb_spec (hist_size out) (dbase + num e2)) as [|Hh]; [done|]. unfold hist_size in Hh. apply IH in E as (w & -> & Hi). pose proof (dist_rows_pos _ _ _ Hrow). pose proof (len_rows_pos _ _ _ Er) as [Hb _]. pose proof (num_range e2). pose proof (num_range e). destruct He as [He1 He3]. rewrite He3 in *.
  exists ((w1 ++ e) ++ (w2 ++ e2) ++ w). split; [by rewrite <- !app_assoc|]. rewrite app_assoc. eapply (items_cons _ _ (Ref (base + v0) (dbase + num e2))); [| |exact Hi].
  - cbn. exists (w1 ++ e), (w2 ++ e2). split_and!; [..|done].
    + exists (v - 257)%nat, base, n, w1, e. replace (257 + (v - 257))%nat with v by lia. split_and!; try done. lia.
    + by exists d, dbase, dn, w2, e2.
  - apply copy_adds; lia.
Qed.
Lemma items_nonempty out out' w : items L D out out' w → w ≠ [].
Proof.
  destruct 1 as [out w (H & _)|it out out1 out2 w1 w2 Hi _ _]; [done|]. intros [-> ->]%app_nil. destruct it as [c|len dist]; cbn [item_bits] in Hi; [destruct Hi as (_ & H & _); done|].
  destruct Hi as (u1 & u2 & (i & base & n & c1 & e & _ & (Hc & _) & _ & _ & ->) & _ & E). symmetry in E. apply app_nil in E as [E _]. by apply app_nil in E as [? _].
Qed.
Lemma block_complete out out' w : items L D out out' w → ∀ fuel r, (length w ≤ fuel)%nat → huff_block fuel hl hd (w ++ r) out = DOk (r, out').
Proof.
  assert (Hsym : ∀ s w r, code_of L s w → huff_sym hl (w ++ r) = DOk (s, r)). { intros s w' r Hc. apply (huff_sym_ok L); [done..|]. by exists w'. }
  induction 1 as [out w Hc|it out out1 out2 w1 w2 Hi Ha H IH]; intros fuel r Hf.
  - destruct fuel as [|k]. { destruct Hc as (Hc & _). destruct w; [done|cbn in Hf; lia]. } cbn [huff_block]. rewrite (Hsym _ _ _ Hc). done.
  - assert (Hw1 : w1 ≠ []). { destruct it as [c|len dist]; cbn [item_bits] in Hi; [destruct Hi as (_ & Hi & _); done|]. destruct Hi as (u1 & u2 & (i & base & n & c1 & e & _ & (Hc & _) & _ & _ & ->) & _ & ->). intros E. apply app_nil in E as [E _]. by apply app_nil in E as [? _]. }
    rewrite app_length in Hf. destruct w1 as [|x w1']; [done|]. destruct fuel as [|k]; [cbn in Hf; lia|]. cbn [length] in Hf. assert (Hk : (length w2 ≤ k)%nat) by lia. specialize (IH k r Hk). cbn [huff_block]. remember (x :: w1') as w1 eqn:Ew. clear Ew. destruct it as [c|len dist]; cbn [item_bits] in Hi.
    + destruct Hi as [Hc0 Hc]. rewrite <- app_assoc, (Hsym _ _ _ Hc). cbn [mbind dres_bind]. destruct (Nat.ltb_spec (Z.to_nat c) 256); [|lia]. cbn in Ha. subst out1. by rewrite Z2Nat.id by lia.
    + destruct Hi as (u1 & u2 & (i & base & n & c1 & e & Hrow & Hc & He & -> & ->) & (j & dbase & dn & c2 & e2 & Hdrow & Hc2 & He2 & -> & ->) & ->). rewrite <- !app_assoc, (Hsym _ _ _ Hc). cbn [mbind dres_bind]. destruct (Nat.ltb_spec (257 + i) 256); [lia|]. destruct (Nat.eqb_spec (257 + i) 256); [lia|].
      rewrite len_of_ok by lia. replace (257 + i - 257)%nat with i by lia. rewrite Hrow, take_bits_app by done. cbn [mbind dres_bind].
      assert (Ed : dist_sym hd (c2 ++ e2 ++ w2 ++ r) = DOk (j, e2 ++ w2 ++ r)) by (apply HD; by exists c2). rewrite Ed. cbn [mbind dres_bind].
      assert (Edo : dist_of (Z.of_nat j) (e2 ++ w2 ++ r) = DOk (dbase + num e2, w2 ++ r)) by (apply dist_of_ok; by exists dbase, dn, e2). rewrite Edo. cbn [mbind dres_bind].
      pose proof Ha as Ha'. cbn in Ha. destruct Ha as (A1 & A2 & _). unfold hist_size. destruct (Z.ltb_spec (Z.min (Z.of_nat (length out)) 32768) (dbase + num e2)); [lia|].
      pose proof (len_rows_pos _ _ _ Hrow) as [Hb _]. pose proof (num_range e). rewrite (adds_fun _ _ _ _ (copy_adds (base + num e) (dbase + num e2) out ltac:(lia) ltac:(lia) ltac:(lia)) Ha'). done.
Qed.
End block.

(** ** bytes *)
Lemma num_byte c : 0 ≤ c < 256 → num (byte_seq c) = c.
Proof.
  intros Hc. assert (Hb : forallb (λ c, num (byte_seq (Z.of_nat c)) =? Z.of_nat c) (seq 0 256) = true) by (by vm_compute). rewrite forallb_forall in Hb. specialize (Hb (Z.to_nat c)). rewrite Z2Nat.id, Z.eqb_eq in Hb by lia. apply Hb, in_seq. lia.
Qed.
Lemma byte_seq_length c : length (byte_seq c) = 8%nat. Proof. done. Qed.
Lemma byte_num w : length w = 8%nat → byte_seq (num w) = w.
Proof. intros H. apply num_inj; [done|]. apply num_byte. pose proof (num_range w) as Hr. rewrite H in Hr. done. Qed.
Lemma bind_length (x : gostr) : length (x ≫= byte_seq) = (8 * length x)%nat.
Proof. induction x as [|c x IH]; [done|]. change ((c :: x) ≫= byte_seq) with (byte_seq c ++ (x ≫= byte_seq)). rewrite app_length, IH, byte_seq_length. cbn [length]. lia. Qed.
Lemma bytes_of_S n b : bytes_of (S n) b = num (take 8 b) :: bytes_of n (drop 8 b).
Proof. unfold bytes_of. rewrite <- cons_seq, fmap_cons. f_equal. rewrite <- seq_shift, <- list_fmap_compose. apply list_fmap_ext. intros k j _. unfold compose. rewrite drop_drop. by replace (8 * S j)%nat with (8 + 8 * j)%nat by lia. Qed.
Lemma bytes_of_app d r : Forall (λ c, 0 ≤ c < 256) d → bytes_of (length d) ((d ≫= byte_seq) ++ r) = d.
Proof.
  induction 1 as [|c d Hc Hd IH]; [done|]. cbn [length]. rewrite bytes_of_S. change ((c :: d) ≫= byte_seq) with (byte_seq c ++ (d ≫= byte_seq)). rewrite <- app_assoc. rewrite <- (byte_seq_length c) at 1 2. rewrite take_app, drop_app, num_byte, IH by done. done.
Qed.
Lemma bytes_of_bits n : ∀ b, (8 * n ≤ length b)%nat → (bytes_of n b) ≫= byte_seq = take (8 * n) b ∧ Forall (λ c, 0 ≤ c < 256) (bytes_of n b) ∧ length (bytes_of n b) = n.
Proof.
  induction n as [|n IH]; intros b Hb. { cbn. split_and!; [done|constructor|done]. }
  rewrite bytes_of_S. destruct (IH (drop 8 b)) as (I1 & I2 & I3); [rewrite drop_length; lia|]. assert (H8 : length (take 8 b) = 8%nat) by (rewrite take_length; lia). split_and!.
  - change ((?c :: ?d) ≫= byte_seq) with (byte_seq c ++ (d ≫= byte_seq)). rewrite byte_num, I1 by done. rewrite take_take_drop. f_equal. lia.
  - constructor; [|done]. pose proof (num_range (take 8 b)) as Hr. rewrite H8 in Hr. done.
  - cbn. by rewrite I3.
Qed.

(** ** blocks and streams; the whole input is a multiple of eight bits *)
Lemma data_sound pos b out r out' : (pos + 2 + Z.of_nat (length b)) mod 8 = 0 → data_block b out = DOk (r, out') → ∃ w, b = w ++ r ∧ block pos out out' ([false; false] ++ w).
Proof.
  intros Hp E. unfold data_block in E. cbv zeta in E. set (p := (length b mod 8)%nat) in *. assert (Hb : b = take p b ++ drop p b) by (by rewrite take_drop). assert (Hp8 : (p < 8)%nat) by (apply Nat.mod_upper_bound; lia). assert (Hpl : length (take p b) = p). { rewrite take_length. assert (p ≤ length b)%nat by (apply Nat.mod_le; lia). lia. }
  destruct (take_bits 16 (drop p b)) as [[n b1]| |] eqn:E1; [|done..]. apply take_bits_ok in E1 as (wn & Hn & Eb1). cbn [mbind dres_bind] in E. inv_bits E Hnn wnn. destruct (Z.eqb_spec v (65535 - n)) as [->|]; [|done]. cbn [negb] in E. destruct (Nat.ltb_spec (length r0) (8 * Z.to_nat n)) as [|Hl]; [done|]. injection E as <- <-.
  destruct (bytes_of_bits (Z.to_nat n) r0 Hl) as (B1 & B2 & B3). pose proof (num_range wn) as Hr. destruct Hn as [Hn1 Hn2]. rewrite Hn1, Hn2 in Hr. assert (En : Z.of_nat (length (bytes_of (Z.to_nat n) r0)) = n) by (rewrite B3; lia).
  exists (take p b ++ wn ++ wnn ++ (bytes_of (Z.to_nat n) r0 ≫= byte_seq)). split.
  - rewrite B1. rewrite Hb at 1. rewrite Eb1, <- !app_assoc, take_drop. done.
  - apply block_stored; [lia| |by rewrite En|by rewrite En|done|done]. rewrite Hpl. unfold p. rewrite Nat2Z.inj_mod. change (Z.of_nat 8) with 8. by rewrite Zplus_mod_idemp_r.
Qed.
Lemma data_complete pos out out' pad n nn data r : (length pad < 8)%nat → (pos + 2 + Z.of_nat (length pad)) mod 8 = 0 → is_num 16 (Z.of_nat (length data)) n → is_num 16 (65535 - Z.of_nat (length data)) nn →
  Forall (λ c, 0 ≤ c < 256) data → out' = out ++ data → (pos + 2 + Z.of_nat (length (pad ++ n ++ nn ++ (data ≫= byte_seq) ++ r))) mod 8 = 0 → data_block (pad ++ n ++ nn ++ (data ≫= byte_seq) ++ r) out = DOk (r, out').
Proof.
  intros Hpad Hp Hn Hnn Hd -> Hall. unfold data_block. cbv zeta. set (b := pad ++ n ++ nn ++ (data ≫= byte_seq) ++ r) in *.
  assert (Hm : (length b mod 8)%nat = length pad). { apply Nat2Z.inj. rewrite Nat2Z.inj_mod. change (Z.of_nat 8) with 8. rewrite <- (Z.mod_small (Z.of_nat (length pad)) 8) by lia. apply Z.mod_divide in Hp, Hall; [|lia..]. destruct Hp as [q Hq], Hall as [q' Hq']. replace (Z.of_nat (length b)) with (Z.of_nat (length pad) + (q' - q) * 8) by lia. by rewrite Z_mod_plus_full. }
  rewrite Hm. unfold b. rewrite drop_app, (take_bits_num _ _ _ _ Hn). cbn [mbind dres_bind]. rewrite (take_bits_num _ _ _ _ Hnn). cbn [mbind dres_bind]. rewrite Z.eqb_refl. cbn [negb]. rewrite Nat2Z.id.
  rewrite app_length, bind_length. destruct (Nat.ltb_spec (8 * length data + length r) (8 * length data)); [lia|]. rewrite <- (bind_length data). rewrite drop_app, bytes_of_app by done. done.
Qed.
Lemma fixed_entries : entries_ok fixed_L fixed_codes ∧ Forall (λ n, n ≤ 15)%nat fixed_L.
Proof.
  assert (Hf : Forall (λ n, n ≤ 15)%nat fixed_L) by (unfold fixed_L; rewrite !Forall_app; split_and!; apply Forall_replicate; lia). split; [|done]. pose proof (huff_init_ok fixed_L Hf) as H. assert (E : huff_init fixed_L = Some fixed_codes) by (by vm_compute). rewrite E in H. apply H.
Qed.
Lemma one_block_sound pos b out r out' : (pos + Z.of_nat (length b)) mod 8 = 0 →
  ('(typ, b) ← take_bits 2 b; (if typ =? 0 then data_block b out
      else if typ =? 1 then huff_block (S (length b)) fixed_codes None b out
      else if typ =? 2 then '(hl, hd, b) ← read_huffman b; huff_block (S (length b)) hl (Some hd) b out
      else DErr)) = DOk (r, out') → ∃ w, b = w ++ r ∧ block pos out out' w.
Proof.
  intros Hp E. inv_bits E Ht t. destruct Ht as [Ht1 Ht2]. destruct t as [|t1 [|t2 [|]]]; try done. clear Ht1. rewrite app_length in Hp. cbn [length] in Hp. replace (pos + Z.of_nat (2 + length r0)) with (pos + 2 + Z.of_nat (length r0)) in Hp by lia.
  destruct t1, t2; cbn in Ht2; subst v; cbn [Z.eqb Pos.eqb] in E; cbv iota in E.
  - done.
  - apply (block_sound fixed_L fixed_D) in E as (w & -> & Hi); [|apply fixed_entries|apply fixed_entries|apply dist_ok_fixed]. exists ([true; false] ++ w). split; [done|by constructor].
  - destruct (read_huffman r0) as [[[hl hd] b1]| |] eqn:Er; [|done..]. cbn [mbind dres_bind] in E. apply read_huffman_sound in Er as (L & D & w1 & Ht & -> & HeL & HeD). pose proof Ht as (_ & _ & [HfL _] & [HfD _] & _).
    apply (block_sound L D) in E as (w & -> & Hi); [|done|done|by apply dist_ok_table]. exists ([false; true] ++ w1 ++ w). split; [by rewrite <- !app_assoc|by econstructor].
  - apply (data_sound pos) in E as (w & -> & Hb); [|done]. by exists ([false; false] ++ w).
Qed.
Lemma one_block_complete pos out out' w r : block pos out out' w → (pos + Z.of_nat (length (w ++ r))) mod 8 = 0 →
  ('(typ, b) ← take_bits 2 (w ++ r); (if typ =? 0 then data_block b out
      else if typ =? 1 then huff_block (S (length b)) fixed_codes None b out
      else if typ =? 2 then '(hl, hd, b) ← read_huffman b; huff_block (S (length b)) hl (Some hd) b out
      else DErr)) = DOk (r, out').
Proof.
  intros Hb Hp. assert (E2 : ∀ a c b, take_bits 2 ([a; c] ++ b) = DOk (num [a; c], b)) by (intros; by apply take_bits_app). destruct Hb as [pad n nn data H1 H2 H3 H4 H5 H6|w Hi|L D w1 w2 Ht Hi]; rewrite <- app_assoc, E2; cbn [mbind dres_bind].
  - change (num [false; false] =? 0) with true. cbv iota. rewrite <- !app_assoc. eapply (data_complete pos); try done. rewrite <- !app_assoc in Hp. rewrite (app_length [false; false]) in Hp. cbn [length] in Hp. rewrite <- Hp. f_equal. lia.
  - change (num [true; false] =? 0) with false. change (num [true; false] =? 1) with true. cbv iota. apply (block_complete fixed_L fixed_D); [apply fixed_entries|apply fixed_entries|apply dist_ok_fixed|done|]. rewrite app_length. lia.
  - change (num [false; true] =? 0) with false. change (num [false; true] =? 1) with false. change (num [false; true] =? 2) with true. cbv iota. rewrite <- app_assoc. destruct (read_huffman_complete L D w1 (w2 ++ r) Ht) as (hl & hd & -> & HeL & HeD). cbn [mbind dres_bind]. pose proof Ht as (_ & _ & [HfL _] & [HfD _] & _).
    apply (block_complete L D); [done|done|by apply dist_ok_table|done|]. rewrite app_length. lia.
Qed.
Lemma blocks_unfold k b out : blocks (S k) b out = '(final, b) ← take_bits 1 b; '(b, out) ← ('(typ, b) ← take_bits 2 b; (if typ =? 0 then data_block b out
      else if typ =? 1 then huff_block (S (length b)) fixed_codes None b out
      else if typ =? 2 then '(hl, hd, b) ← read_huffman b; huff_block (S (length b)) hl (Some hd) b out
      else DErr)); if final =? 1 then DOk (b, out) else blocks k b out.
Proof. cbn [blocks]. destruct (take_bits 1 b) as [[f b1]| |]; [|done..]. cbn [mbind dres_bind]. destruct (take_bits 2 b1) as [[t b2]| |]; done. Qed.
Lemma blocks_sound fuel : ∀ pos b out r out', (pos + Z.of_nat (length b)) mod 8 = 0 → blocks fuel b out = DOk (r, out') → ∃ w, b = w ++ r ∧ stream pos out out' w.
Proof.
  induction fuel as [|k IH]; intros pos b out r out' Hp E; [done|]. rewrite blocks_unfold in E. inv_bits E Hf f. destruct Hf as [Hf1 Hf2]. destruct f as [|f [|]]; try done. clear Hf1. rewrite app_length in Hp. cbn [length] in Hp. replace (pos + Z.of_nat (1 + length r0)) with (pos + 1 + Z.of_nat (length r0)) in Hp by lia.
  match type of E with (mbind _ ?m) = _ => destruct m as [[b1 out1]| |] eqn:Eb; [|done|done] end. cbn [mbind dres_bind] in E. apply (one_block_sound (pos + 1)) in Eb as (w1 & -> & Hb); [|done]. destruct f; cbn in Hf2; subst v; cbn [Z.eqb Pos.eqb] in E; cbv iota in E.
  - injection E as <- <-. exists (true :: w1). split; [done|by constructor].
  - apply (IH (pos + 1 + Z.of_nat (length w1))) in E as (w2 & -> & Hs); [|rewrite app_length in Hp; rewrite <- Hp; f_equal; lia]. exists (false :: w1 ++ w2). split; [cbn; by rewrite <- app_assoc|by econstructor].
Qed.
Lemma blocks_complete pos out out' w : stream pos out out' w → ∀ fuel r, (length w ≤ fuel)%nat → (pos + Z.of_nat (length (w ++ r))) mod 8 = 0 → blocks fuel (w ++ r) out = DOk (r, out').
Proof.
  induction 1 as [pos out out' w Hb|pos out out1 out' w1 w2 Hb Hs IH]; intros fuel r Hf Hp; (destruct fuel as [|k]; [cbn in Hf; lia|]); rewrite blocks_unfold; cbn [app length] in *.
  - change (true :: w ++ r) with ([true] ++ w ++ r). rewrite take_bits_app by done. cbn [mbind dres_bind]. rewrite (one_block_complete (pos + 1) out out' w r Hb) by (rewrite <- Hp; f_equal; lia). done.
  - rewrite <- app_assoc in *. change (false :: w1 ++ w2 ++ r) with ([false] ++ w1 ++ w2 ++ r). rewrite take_bits_app by done. cbn [mbind dres_bind]. rewrite (one_block_complete (pos + 1) out out1 w1 (w2 ++ r) Hb) by (rewrite <- Hp; f_equal; lia). cbn [mbind dres_bind]. change (num [false] =? 1) with false. cbv iota. rewrite app_length in Hf. apply IH; [lia|]. rewrite app_length in Hp. rewrite <- Hp. f_equal. lia.
Qed.
