(** * The decompressor against RFC 1951 *)
From Verif Require Import GoBase GoStr ZfmtProofs InflModel InflSpec InflHuff.
Local Open Scope Z_scope.

Lemma num_low b : num b = low_first b. Proof. done. Qed.
Lemma bits_seq x : bits_of x = x ≫= byte_seq. Proof. done. Qed.
Lemma num_range b : 0 ≤ num b < 2 ^ Z.of_nat (length b).
Proof. induction b as [|c b IH]; [cbn; lia|]. cbn [num foldr length]. change (foldr _ 0 b) with (num b). rewrite Nat2Z.inj_succ, Z.pow_succ_r by lia. destruct c; cbn [Z.b2z]; lia. Qed.
Lemma num_inj a : ∀ b, length a = length b → num a = num b → a = b.
Proof. induction a as [|x a IH]; intros [|y b] Hl E; try done. cbn in Hl. cbn [num foldr] in E. change (foldr _ 0 a) with (num a) in E. change (foldr _ 0 b) with (num b) in E. assert (x = y ∧ num a = num b) as [-> E'] by (destruct x, y; cbn [Z.b2z] in E; (split; [done|lia]) || lia). by rewrite (IH b) by (done || lia). Qed.
(** reading a number *)
Lemma take_bits_ok n b v r : take_bits n b = DOk (v, r) ↔ ∃ w, is_num n v w ∧ b = w ++ r.
Proof.
  unfold take_bits. split.
  - destruct (Nat.ltb_spec (length b) n); [done|]. intros [= <- <-]. exists (take n b). split; [|by rewrite take_drop]. split; [rewrite take_length; lia|done].
  - intros (w & [H1 H2] & ->). rewrite app_length. destruct (Nat.ltb_spec (length w + length r) n); [lia|]. rewrite <- H1, take_app, drop_app, <- H2. done.
Qed.
Lemma take_bits_app n w r : length w = n → take_bits n (w ++ r) = DOk (num w, r).
Proof. intros H. apply take_bits_ok. by exists w. Qed.
Lemma take_bits_num n v w r : is_num n v w → take_bits n (w ++ r) = DOk (v, r).
Proof. intros H. apply take_bits_ok. by exists w. Qed.
Lemma take_bits_no_fuel n b : take_bits n b ≠ DFuel.
Proof. unfold take_bits. by destruct (_ <? _)%nat. Qed.
Ltac inv_bits E H w := lazymatch type of E with (mbind _ (take_bits ?n ?b)) = _ => let v := fresh "v" in let r := fresh "r" in let E1 := fresh "E1" in
  destruct (take_bits n b) as [[v r]| |] eqn:E1; [|done|done]; apply take_bits_ok in E1 as (w & H & ->); cbn [mbind dres_bind] in E end.

(** ** the tables *)
Lemma clens_sound order : ∀ n C b C' r, NoDup order → (∀ o, o ∈ order → o < length C)%nat → (n ≤ length order)%nat → read_clens order n C b = DOk (C', r) →
  length C' = length C ∧ (∀ o, o ∉ take n order → C' !! o = C !! o) ∧ ∃ ws, b = mjoin ws ++ r ∧ Forall2 (λ o b, ∃ m, C' !! o = Some m ∧ is_num 3 (Z.of_nat m) b) (take n order) ws.
Proof.
  induction order as [|o order IH]; intros n C b C' r Hd Hb Hn E.
  { assert (n = 0%nat) as -> by (cbn in Hn; lia). cbn in E. injection E as <- <-. split_and!; [done|done|]. exists []. split; [done|constructor]. }
  destruct n as [|n]. { cbn in E. injection E as <- <-. split_and!; [done|done|]. exists []. split; [done|constructor]. }
  cbn [read_clens] in E. inv_bits E Hw w. inversion Hd as [|?? Hd1 Hd2]; subst. cbn [length] in Hn. apply IH in E as (I1 & I2 & ws & -> & I3); [|done|intros; rewrite insert_length; apply Hb; by right|lia]. rewrite insert_length in I1.
  assert (Hot : o ∉ take n order). { intros H. apply Hd1. rewrite <- (take_drop n order), elem_of_app. by left. }
  split_and!; [done| |].
  - intros o' Ho'. cbn [take] in Ho'. rewrite not_elem_of_cons in Ho'. destruct Ho' as [H1 H2]. rewrite I2 by done. by rewrite list_lookup_insert_ne.
  - exists (w :: ws). split; [cbn; by rewrite <- app_assoc|]. cbn [take]. constructor; [|done]. exists (Z.to_nat v). rewrite I2 by done. rewrite list_lookup_insert by (apply Hb; left). split; [done|]. pose proof (num_range w). destruct Hw as [Hw1 <-]. by rewrite Z2Nat.id by lia.
Qed.
Lemma clens_complete order : ∀ n C ws r, (n ≤ length order)%nat → NoDup order → ∀ C0, length C0 = length C → (∀ o, o ∈ order → o < length C)%nat →
  Forall2 (λ o b, ∃ m, C !! o = Some m ∧ is_num 3 (Z.of_nat m) b) (take n order) ws → (∀ o, o ∉ take n order → C0 !! o = C !! o) → read_clens order n C0 (mjoin ws ++ r) = DOk (C, r).
Proof.
  induction order as [|o order IH]; intros n C ws r Hn Hd C0 Hl Hb Hf Ho.
  { assert (n = 0%nat) as -> by (cbn in Hn; lia). cbn in Hf. inversion Hf; subst. cbn. assert (C0 = C) as -> by (apply list_eq; intros o; apply Ho; cbn; apply not_elem_of_nil). done. }
  destruct n as [|n]. { cbn in Hf. inversion Hf; subst. cbn. assert (C0 = C) as -> by (apply list_eq; intros o'; apply Ho; cbn; apply not_elem_of_nil). done. }
  cbn [take] in Hf. inversion Hf as [|?? w ws' (m & Hm & Hw) Hf']; subst. cbn [read_clens mjoin list_join]. rewrite <- app_assoc, (take_bits_num _ _ _ _ Hw). cbn [mbind dres_bind]. rewrite Nat2Z.id. inversion Hd as [|?? Hd1 Hd2]; subst. cbn [length] in Hn.
  apply IH; [lia|done|by rewrite insert_length|intros; apply Hb; by right|done|]. intros o' Ho'. destruct (decide (o = o')) as [->|Hne]. - rewrite list_lookup_insert by (rewrite Hl; apply Hb; left). done.
  - rewrite list_lookup_insert_ne by done. apply Ho. cbn [take]. apply not_elem_of_cons. done.
Qed.
Lemma runs_mono C l l' w : runs C l l' w → l `prefix_of` l' ∧ (w = [] ↔ l = l').
Proof.
  assert (Hpre : ∀ l m l' : list nat, m ≠ [] → (l ++ m) `prefix_of` l' → l `prefix_of` l' ∧ l ≠ l').
  { intros a m c Hm [k ->]. split; [exists (m ++ k); by rewrite app_assoc|]. intros E. apply (f_equal length) in E. rewrite !app_length in E. destruct m; [done|cbn in E; lia]. }
  assert (Hc : ∀ s w1 w, code_of C s w1 → w1 ++ w ≠ []) by (intros s w1 w0 (H & _) E; by apply app_nil in E as [??]).
  induction 1 as [l|l l' n w1 w Hn Hc1 _ [IH _]|l l' n w1 e w Hc1 He Hl _ [IH _]|l l' w1 e w Hc1 He _ [IH _]|l l' w1 e w Hc1 He _ [IH _]]; [done|..];
    (apply Hpre in IH as [H1 H2]; [|done]); (split; [done|]); split; intros E; (exfalso; by apply (Hc _ _ _ Hc1 E)) || done.
Qed.
Lemma code_lt C s w : code_of C s w → (s < length C)%nat.
Proof. intros (_ & H & _). by apply lookup_lt_Some in H. Qed.
Lemma read_lens_sound C t N : entries_ok C t → Forall (λ n, n ≤ 15)%nat C → length C = 19%nat → ∀ fuel l b l' r, (length l ≤ N)%nat → read_lens fuel t N l b = DOk (l', r) →
  length l' = N ∧ ∃ w, b = w ++ r ∧ runs C l l' w.
Proof.
  intros He Hf H19. induction fuel as [|k IH]; intros l b l' r Hl E; cbn [read_lens] in E; (destruct (Nat.leb_spec N (length l)) as [HN|HN]; [injection E as <- <-; split; [lia|]; exists []; split; [done|constructor]|]); [done|].
  destruct (huff_sym t b) as [[x b1]| |] eqn:Eh; [|done..]. apply (huff_sym_ok C) in Eh as (w1 & Hc & ->); [|done..]. cbn [mbind dres_bind] in E. pose proof (code_lt _ _ _ Hc) as Hx. rewrite H19 in Hx.
  destruct (Nat.ltb_spec x 16) as [H16|H16].
  { apply IH in E as (L & w & -> & R); [|rewrite app_length; cbn; lia]. split; [done|]. exists (w1 ++ w). split; [by rewrite app_assoc|]. by econstructor. }
  destruct (Nat.eqb_spec x 16) as [->|Hx16].
  { destruct (last l) as [p|] eqn:El; [|done]. cbn [mbind dres_bind] in E. inv_bits E Hw e. cbv zeta in E. destruct Hw as [Hw1 Hw2]. pose proof (num_range e). replace (Z.to_nat (3 + v)) with (3 + Z.to_nat (num e))%nat in E by lia.
    destruct (Nat.ltb_spec N (length l + (3 + Z.to_nat (num e)))); [done|]. apply IH in E as (L & w & -> & R); [|rewrite app_length, replicate_length; lia]. split; [done|]. exists (w1 ++ e ++ w). split; [by rewrite !app_assoc|]. by eapply runs_prev. }
  destruct (Nat.eqb_spec x 17) as [->|Hx17].
  { cbn [mbind dres_bind] in E. inv_bits E Hw e. cbv zeta in E. destruct Hw as [Hw1 Hw2]. pose proof (num_range e). replace (Z.to_nat (3 + v)) with (3 + Z.to_nat (num e))%nat in E by lia.
    destruct (Nat.ltb_spec N (length l + (3 + Z.to_nat (num e)))); [done|]. apply IH in E as (L & w & -> & R); [|rewrite app_length, replicate_length; lia]. split; [done|]. exists (w1 ++ e ++ w). split; [by rewrite !app_assoc|]. by eapply runs_zero. }
  assert (x = 18%nat) as -> by lia. cbn [mbind dres_bind] in E. inv_bits E Hw e. cbv zeta in E. destruct Hw as [Hw1 Hw2]. pose proof (num_range e). replace (Z.to_nat (11 + v)) with (11 + Z.to_nat (num e))%nat in E by lia.
  destruct (Nat.ltb_spec N (length l + (11 + Z.to_nat (num e)))); [done|]. apply IH in E as (L & w & -> & R); [|rewrite app_length, replicate_length; lia]. split; [done|]. exists (w1 ++ e ++ w). split; [by rewrite !app_assoc|]. by eapply runs_zeros.
Qed.
Ltac symt := repeat match goal with |- context [Nat.ltb ?a 16%nat] => let v := eval vm_compute in (Nat.ltb a 16) in change (Nat.ltb a 16) with v | |- context [Nat.eqb ?a ?c] => is_ground a; is_ground c; let v := eval vm_compute in (Nat.eqb a c) in change (Nat.eqb a c) with v end; cbv beta iota; cbn [mbind dres_bind].
Lemma read_lens_complete C t l l' w : entries_ok C t → Forall (λ n, n ≤ 15)%nat C → runs C l l' w → ∀ fuel r, (length l' ≤ length l + fuel)%nat → read_lens fuel t (length l') l (w ++ r) = DOk (l', r).
Proof.
  intros He Hf H. assert (Hend : ∀ fuel l r, read_lens fuel t (length l) l r = DOk (l, r)). { intros [|k] m r; cbn [read_lens]; by rewrite Nat.leb_refl. }
  assert (Hsym : ∀ s w r, code_of C s w → huff_sym t (w ++ r) = DOk (s, r)). { intros s w' r Hc. apply (huff_sym_ok C); [done..|]. by exists w'. }
  assert (Hlt : ∀ (l m l' : list nat) w, m ≠ [] → runs C (l ++ m) l' w → (length l + length m ≤ length l')%nat ∧ (0 < length m)%nat). { intros a m c w' Hm Hr. apply runs_mono in Hr as [[k ->] _]. rewrite !app_length. destruct m; [done|cbn; lia]. }
  induction H as [l|l l' n w1 w Hn Hc H IH|l l' n w1 e w Hc Hle Hl H IH|l l' w1 e w Hc Hle H IH|l l' w1 e w Hc Hle H IH]; intros fuel r Hfu.
  - apply Hend.
  - edestruct Hlt as [L1 L2]; [|exact H|]; [done|]. destruct fuel as [|k]; [lia|]. cbn [read_lens]. destruct (Nat.leb_spec (length l') (length l)); [lia|]. rewrite <- app_assoc, (Hsym _ _ _ Hc). cbn [mbind dres_bind]. destruct (Nat.ltb_spec n 16); [|lia]. apply IH. rewrite app_length. lia.
  - edestruct Hlt as [L1 L2]; [|exact H|]; [done|]. destruct fuel as [|k]; [lia|]. cbn [read_lens]. destruct (Nat.leb_spec (length l') (length l)); [lia|]. rewrite <- !app_assoc, (Hsym _ _ _ Hc). cbn [mbind dres_bind]. symt. rewrite Hl. cbn [mbind dres_bind]. rewrite take_bits_app by done. cbn [mbind dres_bind]. cbv zeta. pose proof (num_range e). replace (Z.to_nat (3 + num e)) with (3 + Z.to_nat (num e))%nat by lia. rewrite replicate_length in *.
    destruct (Nat.ltb_spec (length l') (length l + (3 + Z.to_nat (num e)))); [lia|]. apply IH. rewrite app_length, replicate_length. lia.
  - edestruct Hlt as [L1 L2]; [|exact H|]; [done|]. destruct fuel as [|k]; [lia|]. cbn [read_lens]. destruct (Nat.leb_spec (length l') (length l)); [lia|]. rewrite <- !app_assoc, (Hsym _ _ _ Hc). cbn [mbind dres_bind]. symt. rewrite take_bits_app by done. cbn [mbind dres_bind]. cbv zeta. pose proof (num_range e). replace (Z.to_nat (3 + num e)) with (3 + Z.to_nat (num e))%nat by lia. rewrite replicate_length in *.
    destruct (Nat.ltb_spec (length l') (length l + (3 + Z.to_nat (num e)))); [lia|]. apply IH. rewrite app_length, replicate_length. lia.
  - edestruct Hlt as [L1 L2]; [|exact H|]; [done|]. destruct fuel as [|k]; [lia|]. cbn [read_lens]. destruct (Nat.leb_spec (length l') (length l)); [lia|]. rewrite <- !app_assoc, (Hsym _ _ _ Hc). cbn [mbind dres_bind]. symt. rewrite take_bits_app by done. cbn [mbind dres_bind]. cbv zeta. pose proof (num_range e). replace (Z.to_nat (11 + num e)) with (11 + Z.to_nat (num e))%nat by lia. rewrite replicate_length in *.
    destruct (Nat.ltb_spec (length l') (length l + (11 + Z.to_nat (num e)))); [lia|]. apply IH. rewrite app_length, replicate_length. lia.
Qed.
Lemma runs_bound C l l' w : length C = 19%nat → runs C l l' w → Forall (λ n, n ≤ 15)%nat l → Forall (λ n, n ≤ 15)%nat l'.
Proof.
  intros H19. induction 1 as [l|l l' n w1 w Hn Hc H IH|l l' n w1 e w Hc Hle Hl H IH|l l' w1 e w Hc Hle H IH|l l' w1 e w Hc Hle H IH]; intros Hf; [done|..]; apply IH; apply Forall_app; (split; [done|]).
  - constructor; [lia|constructor]. - apply Forall_replicate. rewrite Forall_forall in Hf. apply Hf. apply last_Some in Hl as [k ->]. apply elem_of_app. right. by apply elem_of_list_singleton. - apply Forall_replicate. lia. - apply Forall_replicate. lia.
Qed.
Lemma order_perm o : o ∈ clen_order ↔ (o < 19)%nat.
Proof.
  split.
  - intros H. assert (Hb : forallb (λ o, Nat.ltb o 19) clen_order = true) by done. rewrite forallb_forall in Hb. apply elem_of_list_In, Hb, Nat.ltb_lt in H. done.
  - intros H. assert (Hb : forallb (λ o, bool_decide (o ∈ clen_order)) (seq 0 19) = true) by (by vm_compute). rewrite forallb_forall in Hb. specialize (Hb o). rewrite bool_decide_eq_true in Hb. apply Hb, in_seq. lia.
Qed.
Lemma order_nodup : NoDup clen_order.
Proof. apply (bool_decide_unpack _). by vm_compute. Qed.
Lemma clens_bound C k w : clens_bits C k w → Forall (λ n, n ≤ 15)%nat C.
Proof.
  intros (H19 & ws & -> & Hf & Hz). apply Forall_forall. intros n [o Ho]%elem_of_list_lookup. assert (Hin : o ∈ clen_order) by (apply order_perm; apply lookup_lt_Some in Ho; lia). rewrite <- (take_drop k clen_order) in Hin. apply elem_of_app in Hin as [Hin|Hin].
  - apply elem_of_list_lookup in Hin as [i Hi]. destruct (Forall2_lookup_l _ _ _ _ _ Hf Hi) as (b & _ & m & Hm & Hl & Hn). assert (m = n) as -> by congruence. pose proof (num_range b) as Hr. rewrite Hl, Hn in Hr. change (2 ^ Z.of_nat 3) with 8 in Hr. lia.
  - rewrite Forall_forall in Hz. specialize (Hz o Hin). assert (n = 0%nat) by congruence. lia.
Qed.
Lemma read_huffman_sound b hl hd r : read_huffman b = DOk (hl, hd, r) → ∃ L D w, trees L D w ∧ b = w ++ r ∧ entries_ok L hl ∧ entries_ok D hd.
Proof.
  intros E. unfold read_huffman in E. inv_bits E Ha a. cbv zeta in E. destruct (Nat.ltb_spec 286 (Z.to_nat v + 257)); [done|]. inv_bits E Hb b. destruct (Nat.ltb_spec 30 (Z.to_nat v0 + 1)); [done|]. inv_bits E Hc c.
  destruct (read_clens _ _ _ _) as [[C r2]| |] eqn:EC; [|done..]. cbn [mbind dres_bind] in E. pose proof (num_range a) as Ra. pose proof (num_range b) as Rb. pose proof (num_range c) as Rc. destruct Ha as [La Va], Hb as [Lb Vb], Hc as [Lc Vc]. rewrite La, Va in Ra. rewrite Lb, Vb in Rb. rewrite Lc, Vc in Rc. change (2 ^ Z.of_nat 5) with 32 in *. change (2 ^ Z.of_nat 4) with 16 in *.
  apply clens_sound in EC as (H19 & Ho & ws & -> & Hf); [|apply order_nodup|intros o Hin; rewrite replicate_length; by apply order_perm|change (length code_order) with 19%nat; lia]. rewrite replicate_length in H19.
  assert (HC : clens_bits C (Z.to_nat v1 + 4) (mjoin ws)).
  { split; [done|]. exists ws. split_and!; [done|done|]. apply Forall_forall. intros o Hin. rewrite Ho. - apply lookup_replicate_2. apply order_perm. rewrite <- (take_drop (Z.to_nat v1 + 4) clen_order), elem_of_app. by right.
    - intros Hin'. pose proof order_nodup as Hnd. rewrite <- (take_drop (Z.to_nat v1 + 4) clen_order) in Hnd. apply NoDup_app in Hnd as (_ & Hnd & _). by apply (Hnd o). }
  pose proof (clens_bound _ _ _ HC) as HCf. pose proof (huff_init_ok C HCf) as Hi. destruct (huff_init C) as [t|]; [|done]. destruct Hi as [HuC HeC].
  destruct (read_lens _ _ _ _ _) as [[l r3]| |] eqn:El; [|done..]. cbn [mbind dres_bind] in E. apply (read_lens_sound C) in El as (Hl & w & -> & Hr); [|done|done|done|cbn; lia].
  pose proof (runs_bound _ _ _ _ H19 Hr (Forall_nil_2 _)) as Hlf. set (L := take (Z.to_nat v + 257) l) in *. set (D := drop (Z.to_nat v + 257) l) in *. assert (ELD : l = L ++ D) by (unfold L, D; by rewrite take_drop). rewrite ELD in Hlf, Hr. apply Forall_app in Hlf as [HfL HfD].
  assert (HlL : length L = (Z.to_nat v + 257)%nat) by (unfold L; rewrite take_length; lia). assert (HlD : length D = (Z.to_nat v0 + 1)%nat) by (unfold D; rewrite drop_length; lia).
  pose proof (huff_init_ok L HfL) as HiL. pose proof (huff_init_ok D HfD) as HiD. destruct (huff_init L) as [tl|]; [|done]. destruct (huff_init D) as [td|]; [|done]. injection E as -> -> ->. destruct HiL as [HuL HeL], HiD as [HuD HeD].
  exists L, D, (a ++ b ++ c ++ mjoin ws ++ w). split_and!; [|by rewrite <- !app_assoc|done|done]. split_and!; [lia..|done|done|]. exists C, (Z.to_nat v1 + 4)%nat, a, b, c, (mjoin ws), w. split_and!; try done; try lia. all: split; [done|lia].
Qed.
Lemma read_huffman_complete L D w r : trees L D w → ∃ hl hd, read_huffman (w ++ r) = DOk (hl, hd, r) ∧ entries_ok L hl ∧ entries_ok D hd.
Proof.
  intros (HL & HD & HuL & HuD & C & k & a & b & c & d & e & HuC & Hk & Ha & Hb & Hc & HC & Hr & ->). pose proof (clens_bound _ _ _ HC) as HCf. destruct HC as (H19 & ws & -> & Hf & Hz).
  unfold read_huffman. rewrite <- !app_assoc. rewrite (take_bits_num _ _ _ _ Ha). cbn [mbind dres_bind]. cbv zeta. destruct (Nat.ltb_spec 286 (Z.to_nat (Z.of_nat (length L) - 257) + 257)); [lia|].
  rewrite (take_bits_num _ _ _ _ Hb). cbn [mbind dres_bind]. destruct (Nat.ltb_spec 30 (Z.to_nat (Z.of_nat (length D) - 1) + 1)); [lia|]. rewrite (take_bits_num _ _ _ _ Hc). cbn [mbind dres_bind].
  replace (Z.to_nat (Z.of_nat k - 4) + 4)%nat with k by lia. replace (Z.to_nat (Z.of_nat (length L) - 257) + 257)%nat with (length L) by lia. replace (Z.to_nat (Z.of_nat (length D) - 1) + 1)%nat with (length D) by lia.
  rewrite (clens_complete _ _ C); [|change (length code_order) with 19%nat; lia|apply order_nodup|by rewrite replicate_length|intros o Hin; rewrite H19; by apply order_perm|done|].
  2: { intros o Hin. destruct (decide (o < 19)%nat) as [Ho|Ho]; [|rewrite !lookup_ge_None_2; [done|rewrite ?replicate_length; lia..]]. rewrite lookup_replicate_2 by done. symmetry. rewrite Forall_forall in Hz. apply Hz. assert (Hin' : o ∈ clen_order) by (by apply order_perm). rewrite <- (take_drop k clen_order) in Hin'. apply elem_of_app in Hin' as [?|?]; done. }
  cbn [mbind dres_bind]. pose proof (huff_init_ok C HCf) as Hi. destruct (huff_init C) as [t|]; [|done]. destruct Hi as [_ HeC].
  assert (Hlf : Forall (λ n, n ≤ 15)%nat (L ++ D)) by (apply Forall_app; split; [apply HuL|apply HuD]). rewrite <- app_length. rewrite (read_lens_complete C t _ _ _ HeC HCf Hr) by (cbn; lia). cbn [mbind dres_bind].
  rewrite take_app, drop_app. pose proof (huff_init_ok L (proj1 HuL)) as HiL. pose proof (huff_init_ok D (proj1 HuD)) as HiD. destruct (huff_init L) as [tl|]; [|done]. destruct (huff_init D) as [td|]; [|done]. destruct HiL as [_ HeL], HiD as [_ HeD]. by exists tl, td.
Qed.

(** ** lengths and distances *)
Lemma len_of_ok v : (257 ≤ v)%nat → len_of (Z.of_nat v) = len_rows !! (v - 257)%nat.
Proof. intros Hv. replace v with (257 + (v - 257))%nat at 1 by lia. generalize (v - 257)%nat. clear. intros i. destruct (decide (29 ≤ i)%nat) as [Hi|Hi].
  - unfold len_of. do 7 rewrite (proj2 (Z.ltb_ge _ _)) by lia. symmetry. apply lookup_ge_None_2. change (length len_rows) with 29%nat. lia.
  - do 29 (destruct i as [|i]; [by vm_compute|]). lia.
Qed.
Lemma dist_of_ok d b v r : dist_of (Z.of_nat d) b = DOk (v, r) ↔ ∃ base n e, dist_rows !! d = Some (base, n) ∧ length e = n ∧ v = base + num e ∧ b = e ++ r.
Proof.
  destruct (decide (d < 30)%nat) as [Hd|Hd].
  2: { assert (E : dist_of (Z.of_nat d) b = DErr) by (unfold dist_of; do 2 rewrite (proj2 (Z.ltb_ge _ _)) by lia; done). rewrite E. split; [done|]. intros (base & n & e & H & _). apply lookup_lt_Some in H. change (length dist_rows) with 30%nat in H. lia. }
  assert (E : ∃ base n, dist_rows !! d = Some (base, n) ∧ dist_of (Z.of_nat d) b = '(e, b) ← take_bits n b; DOk (base + e, b)).
  { assert (Hlor : ∀ q nb k e r, take_bits k b = DOk (e, r) → nb = Z.of_nat k → Z.lor (q * 2 ^ nb) e = q * 2 ^ nb + e).
    { intros q nb k e r' Hk ->. apply take_bits_ok in Hk as (w & [Hw1 Hw2] & _). apply lor_add; [lia|]. pose proof (num_range w) as Hr. rewrite Hw1, Hw2 in Hr. done. }
    assert (H0 : take_bits 0 b = DOk (0, b)) by (unfold take_bits; by destruct b).
    do 4 (destruct d as [|d]; [do 2 eexists; split; [done|]; rewrite H0; done|]).
    do 26 (destruct d as [|d]; [do 2 eexists; split; [done|]; unfold dist_of;
      match goal with |- context [Z.shiftr ?a 1] => let nb := eval vm_compute in (Z.shiftr a 1) in let k := eval vm_compute in (Z.to_nat nb) in
        change (Z.shiftr a 1) with nb; cbv zeta; change (Z.to_nat nb) with k; cbn [Z.of_nat Pos.of_succ_nat Pos.succ Z.ltb Z.compare Pos.compare Pos.compare_cont]; cbv iota; destruct (take_bits k b) as [[e r']| |] eqn:Et; [|done|done]; cbn [mbind dres_bind];
        match goal with |- context [Z.shiftl (Z.land ?q 1) nb] => change (Z.shiftl (Z.land q 1) nb) with (Z.land q 1 * 2 ^ nb) end; rewrite (Hlor _ nb k e r' Et eq_refl); f_equal; f_equal; rewrite !Z.add_assoc; f_equal; vm_compute; reflexivity end|]). lia. }
  destruct E as (base & n & E1 & ->). split.
  - intros E. inv_bits E Hw e. injection E as <- <-. destruct Hw as [Hl Hn]. exists base, n, e. split_and!; [done|done|lia|done].
  - intros (base' & n' & e & H1 & H2 & -> & ->). assert (base' = base ∧ n' = n) as [-> ->] by (rewrite E1 in H1; by simplify_eq). rewrite take_bits_app by done. done.
Qed.
Lemma code_num_num b : code_num b = num (reverse b).
Proof. induction b as [|x b IH] using rev_ind; [done|]. rewrite code_num_snoc, reverse_app. cbn. change (foldr _ 0 (reverse b)) with (num (reverse b)). rewrite <- IH. unfold num. lia. Qed.
Definition dist_ok (hd : option (list hcode)) (D : list nat) : Prop := ∀ b s r, dist_sym hd b = DOk (s, r) ↔ ∃ w, code_of D s w ∧ b = w ++ r.
Lemma dist_ok_table D t : entries_ok D t → Forall (λ n, n ≤ 15)%nat D → dist_ok (Some t) D.
Proof. intros He Hf b s r. by apply huff_sym_ok. Qed.
Lemma fixed_dist_code s w : code_of fixed_D s w ↔ length w = 5%nat ∧ code_num w = Z.of_nat s.
Proof.
  assert (Hsame : ∀ s, (s ≤ 32)%nat → same fixed_D 5 s = Z.of_nat s). { intros n Hn. unfold same, fixed_D. rewrite take_replicate, Nat.min_l by done. rewrite fmap_replicate. clear. induction n as [|n IH]; [done|]. cbn [replicate]. rewrite sum_cons, IH. rewrite decide_True by done. lia. }
  assert (Hsh : shorter fixed_D 5 = 0) by (by vm_compute). split.
  - intros (H0 & H1 & H2). pose proof (lookup_lt_Some _ _ _ H1) as Hlt. unfold fixed_D in H1. apply lookup_replicate in H1 as [E5 _]. change (length fixed_D) with 32%nat in Hlt. rewrite E5, Hsh, Hsame in H2 by lia. split; [done|lia].
  - intros [H1 H2]. pose proof (code_num_range w) as Hr. rewrite H1 in Hr. change (2 ^ Z.of_nat 5) with 32 in Hr. split_and!; [by intros ->|rewrite H1; apply lookup_replicate_2; lia|]. rewrite H1, Hsh, Hsame by lia. lia.
Qed.
Lemma dist_ok_fixed : dist_ok None fixed_D.
Proof.
  intros b s r. unfold dist_sym. split.
  - destruct (Nat.ltb_spec (length b) 5); [done|]. cbn [mbind dres_bind]. intros [= <- <-]. exists (take 5 b). split; [|by rewrite take_drop]. apply fixed_dist_code. split; [rewrite take_length; lia|]. rewrite code_num_num. pose proof (num_range (reverse (take 5 b))). unfold num in *. fold low_first. unfold low_first. rewrite Z2Nat.id by lia. done.
  - intros (w & [H1 H2]%fixed_dist_code & ->). destruct (Nat.ltb_spec (length (w ++ r)) 5); [rewrite app_length in *; lia|]. cbn [mbind dres_bind]. rewrite <- H1, take_app, drop_app. rewrite <- num_low, <- code_num_num, H2, Nat2Z.id. done.
Qed.
