(** * C122: lemmas on the matcher *)
From Verif Require Import GoBase GoStr InflSpec LzModel LzSpec.
Local Open Scope Z_scope.

Notation tk p H := (take (Z.to_nat p) H).
Lemma at_ok (w : gostr) i : 0 ≤ i < Z.of_nat (length w) → ∃ x, at_ w i = Ret x ∧ w !! Z.to_nat i = Some x.
Proof.
  intros Hi. unfold at_. rewrite (proj2 (Z.ltb_ge i 0)) by lia. destruct (lookup_lt_is_Some_2 w (Z.to_nat i)) as [x Hx]; [lia|]. exists x. split; [|done]. unfold idx. by rewrite Hx.
Qed.
Lemma u32_id x : 0 ≤ x < 4294967296 → u32 x = x. Proof. apply Z.mod_small. Qed.
Lemma u32_range x : 0 ≤ u32 x < 4294967296. Proof. by apply Z.mod_pos_bound. Qed.

(** ** matches *)
Lemma common_ok a b : 0 ≤ common a b ≤ Z.of_nat (length a) ∧ ∀ k, Z.of_nat k < common a b → a !! k = b !! k.
Proof.
  revert b. induction a as [|x a IH]; intros [|y b]; cbn [common length]; try (split; [lia|intros k Hk; lia]). destruct (Z.eqb_spec y x) as [->|]; [|split; [lia|intros k Hk; lia]].
  destruct (IH b) as [H1 H2]. split; [lia|]. intros [|k] Hk; [done|]. cbn [lookup list_lookup]. apply H2. lia.
Qed.
Definition good (w : gostr) (pos max l o : Z) : Prop := 4 ≤ l ≤ max ∧ 1 ≤ o ≤ 32768 ∧ o ≤ pos ∧ ∀ k, 0 ≤ k < l → w !! Z.to_nat (pos - o + k) = w !! Z.to_nat (pos + k).
Section look.
  Context (c : comp) (w : gostr) (pos max nice : Z).
  Context (Hw : Z.of_nat (length w) = pos + max) (Hpos : 0 ≤ pos) (Hnice : nice ≤ max) (Hprev : ∀ k, hash_prev c k - hash_off c < pos).
  Lemma look_ok tries i len offset ok last : 3 ≤ len < max → 0 ≤ i < pos → pos - 32768 ≤ i → (ok = true → good w pos max len offset) →
    ∃ l o ok', look tries c w pos max nice i len offset ok last = Ret (l, o, ok') ∧ (ok' = true → good w pos max l o).
  Proof.
    revert i len offset ok last. induction tries as [|k IH]; intros i len offset ok last Hlen Hi Hi2 Hok; [by exists len, offset, ok|]. cbn [look].
    set (next := next_place c pos i (look k c w pos max nice)).
    assert (Hnext : ∀ len offset ok last, 3 ≤ len < max → (ok = true → good w pos max len offset) → ∃ l o ok', next len offset ok last = Ret (l, o, ok') ∧ (ok' = true → good w pos max l o)).
    { intros len' offset' ok' last' Hl' Hok'. unfold next, next_place. destruct (i =? pos - window_size); [by exists len', offset', ok'|]. cbv zeta. unfold window_size in *. set (i' := hash_prev c (Z.land i 32767) - hash_off c). destruct (Z.ltb_spec i' (pos - 32768)); cbn [orb]; [by exists len', offset', ok'|]. destruct (Z.ltb_spec i' 0); [by exists len', offset', ok'|].
      apply IH; [done|split; [lia|apply Hprev]|lia|done]. }
    destruct (at_ok w (i + len)) as (x & -> & _); [lia|]. cbn [mbind go_bind]. destruct (last =? x); [|by apply Hnext].
    unfold match_len. rewrite !drop_length. rewrite (proj2 (Z.ltb_ge _ _)) by lia. rewrite (proj2 (Z.ltb_ge _ _)) by lia. cbn [orb mbind go_bind].
    destruct (common_ok (take (Z.to_nat max) (drop (Z.to_nat i) w)) (take (Z.to_nat max) (drop (Z.to_nat pos) w))) as [C1 C2]. set (n := common _ _) in *. rewrite take_length, drop_length in C1.
    assert (Hgood : len < n → good w pos max n (pos - i)).
    { intros Hn. split_and!; try lia. intros j Hj. specialize (C2 (Z.to_nat j)). rewrite !lookup_take in C2 by lia. rewrite !lookup_drop in C2. replace (Z.to_nat (pos - (pos - i) + j)) with (Z.to_nat i + Z.to_nat j)%nat by lia. replace (Z.to_nat (pos + j)) with (Z.to_nat pos + Z.to_nat j)%nat by lia. apply C2. lia. }
    destruct (Z.ltb_spec len n) as [Hn|Hn]; cbn [andb]; [|by apply Hnext]. destruct ((4 <? n) || (pos - i <=? 4096)); [|by apply Hnext].
    destruct (Z.leb_spec nice n) as [Hnn|Hnn]; [exists n, (pos - i), true; split; [done|intros _; by apply Hgood]|]. destruct (at_ok w (pos + n)) as (y & -> & _); [lia|]. cbn [mbind go_bind]. apply Hnext; [lia|intros _; by apply Hgood].
  Qed.
End look.
Lemma find_ok lv c pos head lookahead : 0 ≤ pos → 0 ≤ head < pos → pos - 32768 ≤ head → 4 ≤ lookahead → pos + lookahead ≤ Z.of_nat (length (window c)) → (∀ k, hash_prev c k - hash_off c < pos) →
  ∃ l o ok, find_match lv c pos head 3 lookahead = Ret (l, o, ok) ∧ (ok = true → good (window c) pos (Z.min 258 lookahead) l o).
Proof.
  intros Hp Hh Hh2 Hl Hw Hprev. unfold find_match. set (max := Z.min 258 lookahead). set (w := take (Z.to_nat (pos + max)) (window c)).
  assert (Hlw : Z.of_nat (length w) = pos + max) by (unfold w; rewrite take_length; lia). destruct (at_ok w (pos + 3)) as (x & -> & _); [lia|]. cbn [mbind go_bind].
  destruct (look_ok c w pos max (Z.min (lv_nice lv) (Z.of_nat (length w) - pos)) Hlw ltac:(lia) Hprev (if lv_good lv <=? 3 then (lv_chain lv / 4)%nat else lv_chain lv) head 3 0 false x) as (l & o & ok & E & G); [lia|lia|lia|done|].
  exists l, o, ok. split; [done|]. intros Hok. destruct (G Hok) as (G1 & G2 & G3 & G4). split_and!; try lia. intros k Hk. specialize (G4 k Hk). unfold w in G4. by rewrite !lookup_take in G4 by lia.
Qed.

(** ** the hash chains *)
Definition put (c : comp) (ch : Z) (hh hp : Z → Z) : comp :=
  Comp ch hh hp (hash_off c) (index c) (window c) (window_end c) (block_start c) (byte_avail c) (tokens c) (len c) (off c) (max_insert c) (out c).
Definition below (ho b : Z) (f : Z → Z) : Prop := ∀ k, 0 ≤ f k < b + ho.
Lemma below_mono ho b b' f : b ≤ b' → below ho b f → below ho b' f. Proof. intros Hb Hf k. specialize (Hf k). lia. Qed.
Lemma below_upd ho b f i v : below ho b f → 0 ≤ v < b + ho → below ho b (upd f i v). Proof. intros Hf Hv k. unfold upd. destruct (k =? i); [done|apply Hf]. Qed.
Lemma insert_ok c i : 0 ≤ i → i + 4 ≤ Z.of_nat (length (window c)) → 1 ≤ hash_off c ≤ 16777216 → Z.of_nat (length (window c)) = 65536 → below (hash_off c) i (hash_head c) → below (hash_off c) i (hash_prev c) →
  ∃ hh hp old, insert c i = Ret (put c (chain_head c) hh hp, old) ∧ below (hash_off c) (i + 1) hh ∧ below (hash_off c) i hp ∧ old < i + hash_off c.
Proof.
  intros Hi Hw Ho Hlw Hh Hp. unfold insert, hash4. destruct (at_ok (window c) i) as (b0 & -> & _); [lia|]. destruct (at_ok (window c) (i + 1)) as (b1 & -> & _); [lia|]. destruct (at_ok (window c) (i + 2)) as (b2 & -> & _); [lia|]. destruct (at_ok (window c) (i + 3)) as (b3 & -> & _); [lia|]. cbn [mbind go_bind].
  set (k := Z.land _ 131071). eexists _, _, (hash_head c k). split; [reflexivity|]. pose proof (Hh k). split_and!; [|rewrite (u32_id (hash_head c k)) by lia; by apply below_upd|lia].
  apply below_upd; [by eapply below_mono; [|done]; lia|]. rewrite u32_id; lia.
Qed.
Lemma insert_all_ok n c i : 0 ≤ i → 1 ≤ hash_off c ≤ 16777216 → Z.of_nat (length (window c)) = 65536 → max_insert c ≤ 65536 - 3 → below (hash_off c) i (hash_head c) → below (hash_off c) i (hash_prev c) →
  ∃ hh hp, insert_all n c i = Ret (put c (chain_head c) hh hp) ∧ below (hash_off c) (i + Z.of_nat n) hh ∧ below (hash_off c) (i + Z.of_nat n) hp.
Proof.
  revert c i. induction n as [|n IH]; intros c i Hi Ho Hlw Hm Hh Hp.
  { exists (hash_head c), (hash_prev c). split; [by destruct c|]. by rewrite Z.add_0_r. }
  cbn [insert_all]. destruct (Z.ltb_spec i (max_insert c)) as [Hlt|Hge].
  - destruct (insert_ok c i) as (hh & hp & old & -> & H1 & H2 & _); [lia..|done|done|]. cbn [mbind go_bind fst]. destruct (IH (put c (chain_head c) hh hp) (i + 1)) as (hh' & hp' & -> & H3 & H4); [lia|done|done|done|done|by eapply below_mono; [|done]; lia|].
    exists hh', hp'. split; [done|]. replace (i + Z.of_nat (S n)) with (i + 1 + Z.of_nat n) by lia. done.
  - cbn [mbind go_bind]. destruct (IH c (i + 1)) as (hh' & hp' & -> & H3 & H4); [lia|done|done|done|by eapply below_mono; [|done]; lia|by eapply below_mono; [|done]; lia|].
    exists hh', hp'. split; [done|]. replace (i + Z.of_nat (S n)) with (i + 1 + Z.of_nat n) by lia. done.
Qed.

(** ** what is emitted: [p] is the place in the history [H], [b] that of the window, [start] the field blockStart *)
Definition emit (H : gostr) (b start : Z) (toks : list token) (outs : list (list token * option gostr)) (p : Z) : Prop :=
  ∃ bs, 0 ≤ bs ∧ blocks_for outs (tk bs H) ∧ replay (item_of <$> toks) (tk bs H) (tk p H) ∧ Forall token_ok toks ∧ bs ≤ p ≤ bs + 258 * Z.of_nat (length toks) ∧ p ≤ Z.of_nat (length H) ∧
    ((start = bs - b ∧ 0 ≤ start) ∨ (bs < b ∧ 2147483647 - (b - bs) ≤ start)).
Lemma emit_add H b start toks outs p t p' : emit H b start toks outs p → token_ok t → adds (item_of t) (tk p H) (tk p' H) → p ≤ p' ≤ p + 258 → p' ≤ Z.of_nat (length H) → emit H b start (toks ++ [t]) outs p'.
Proof.
  intros (bs & B1 & B2 & B3 & B4 & B5 & B6 & B7) Ht Ha Hp Hl. exists bs. split_and!; [done|done| |by apply Forall_app; split; [|constructor]|lia|rewrite app_length; cbn [length]; lia|done|done].
  rewrite fmap_app. by eapply replay_snoc.
Qed.
Lemma emit_flush H b start toks outs p w : emit H b start toks outs p → toks ≠ [] → Z.of_nat (length toks) ≤ 16384 → 0 ≤ b → 0 < p - b ≤ 65536 → (∀ j, 0 ≤ j < p - b → w !! Z.to_nat j = H !! Z.to_nat (b + j)) →
  emit H b (p - b) [] (outs ++ [(toks, if start <=? p - b then Some (take (Z.to_nat (p - b - start)) (drop (Z.to_nat start) w)) else None)]) p.
Proof.
  intros (bs & B1 & B2 & B3 & B4 & B5 & B6 & B7) Hne Hl Hb Hp Hw. exists p. split_and!; [lia| |constructor|done|lia|cbn [length]; lia|done|left; lia].
  eapply blocks_snoc; [done|]. split_and!; [done|done|done|done|]. intros x Hx. destruct (Z.leb_spec start (p - b)) as [Hs|Hs]; [|done]. injection Hx as <-. destruct B7 as [[B7 B8]|[B7 B8]]; [|exfalso; lia].
  apply list_eq. intros i. destruct (decide (i < Z.to_nat p)%nat) as [Hi|Hi].
  - rewrite lookup_take by done. destruct (decide (i < Z.to_nat bs)%nat) as [Hi2|Hi2].
    + rewrite lookup_app_l by (rewrite take_length; lia). by rewrite lookup_take.
    + rewrite lookup_app_r by (rewrite take_length; lia). rewrite take_length, lookup_take by lia. rewrite lookup_drop. replace (Z.to_nat start + (i - Z.to_nat bs `min` length H))%nat with (Z.to_nat (Z.of_nat i - b)) by lia. rewrite Hw by lia. f_equal. lia.
  - rewrite lookup_take_ge by lia. symmetry. apply lookup_ge_None_2. rewrite app_length, !take_length, drop_length. lia.
Qed.
Lemma emit_shift H b start toks outs p : emit H b start toks outs p → emit H (b + 32768) (if 32768 <=? start then start - 32768 else 2147483647) toks outs p.
Proof.
  intros (bs & B1 & B2 & B3 & B4 & B5 & B6 & B7). exists bs. split_and!; [done|done|done|done|lia|lia|done|]. destruct (Z.leb_spec 32768 start); lia.
Qed.
Lemma emit_grow H x b start toks outs p : emit H b start toks outs p → emit (H ++ x) b start toks outs p.
Proof.
  intros (bs & B1 & B2 & B3 & B4 & B5 & B6 & B7). exists bs. rewrite !take_app_le by lia. split_and!; [done|done|done|done|lia|lia|rewrite app_length; lia|done].
Qed.

(** ** the state between two rounds *)
Definition base (H : gostr) (c : comp) : Z := Z.of_nat (length H) - window_end c.
Definition place (H : gostr) (c : comp) : Z := base H c + index c - Z.b2z (byte_avail c).
Definition pending (H : gostr) (b we ix : Z) (av : bool) (l o : Z) : Prop :=
  3 ≤ l ∧ (4 ≤ l → av = true ∧ l ≤ 258 ∧ 1 ≤ o ≤ 32768 ∧ ix - 1 + l ≤ we ∧ adds (Ref l o) (tk (b + ix - 1) H) (tk (b + ix - 1 + l) H)).
Record inv (H : gostr) (c : comp) : Prop := Inv {
  i_len : Z.of_nat (length (window c)) = 65536;
  i_pos : 0 ≤ index c ≤ window_end c;
  i_end : window_end c ≤ 65536 ∧ window_end c ≤ Z.of_nat (length H);
  i_win : ∀ j, 0 ≤ j < window_end c → window c !! Z.to_nat j = H !! Z.to_nat (base H c + j);
  i_off : 1 ≤ hash_off c ≤ 16777216;
  i_head : below (hash_off c) (index c) (hash_head c);
  i_prev : below (hash_off c) (index c) (hash_prev c);
  i_chain : chain_head c < index c + hash_off c;
  i_av : byte_avail c = true → 1 ≤ index c;
  i_match : pending H (base H c) (window_end c) (index c) (byte_avail c) (len c) (off c);
  i_emit : emit H (base H c) (block_start c) (tokens c) (out c) (place H c);
  i_toks : Z.of_nat (length (tokens c)) < 16384;
  i_some : tokens c ≠ [] → 1 ≤ index c;
  i_bytes : Forall (λ x, 0 ≤ x < 256) H }.
Lemma good_adds H b w we pos max l o : (∀ j, 0 ≤ j < we → w !! Z.to_nat j = H !! Z.to_nat (b + j)) → good w pos max l o → 0 ≤ b → b + we ≤ Z.of_nat (length H) → pos + max ≤ we →
  adds (Ref l o) (tk (b + pos) H) (tk (b + pos + l) H).
Proof.
  intros Hw (G1 & G2 & G3 & G4) Hb Hl Hm. cbn [adds]. rewrite !take_length. split_and!; try lia.
  - exists (take (Z.to_nat l) (drop (Z.to_nat (b + pos)) H)). rewrite take_take_drop. f_equal. lia.
  - intros i Hi. rewrite !lookup_take by lia. specialize (G4 (Z.of_nat i - b - pos)). rewrite !Hw in G4 by lia. replace (b + (pos - o + (Z.of_nat i - b - pos))) with (Z.of_nat i - o) in G4 by lia. replace (b + (pos + (Z.of_nat i - b - pos))) with (Z.of_nat i) in G4 by lia.
    rewrite Nat2Z.id in G4. rewrite <- G4 by lia. f_equal. lia.
Qed.
Lemma lit_adds H p x : H !! Z.to_nat p = Some x → 0 ≤ p → adds (Lit x) (tk p H) (tk (p + 1) H).
Proof. intros Hx Hp. cbn [adds]. replace (Z.to_nat (p + 1)) with (S (Z.to_nat p)) by lia. by apply take_S_r. Qed.

Definition rep (c : comp) (st : Z) (ts : list token) (ou : list (list token * option gostr)) : comp :=
  Comp (chain_head c) (hash_head c) (hash_prev c) (hash_off c) (index c) (window c) (window_end c) st (byte_avail c) ts (len c) (off c) (max_insert c) ou.
Lemma write_block_ok H b c i : emit H b (block_start c) (tokens c) (out c) (b + i) → tokens c ≠ [] → Z.of_nat (length (tokens c)) ≤ 16384 → 0 ≤ b → 0 < i ≤ 65536 → (∀ j, 0 ≤ j < i → window c !! Z.to_nat j = H !! Z.to_nat (b + j)) →
  ∃ st ou, write_block c i = rep c st [] ou ∧ emit H b st [] ou (b + i).
Proof.
  intros He Hne Hl Hb Hi Hw. unfold write_block. rewrite (proj2 (Z.ltb_lt 0 i)) by lia. eexists _, _. split; [reflexivity|].
  pose proof (emit_flush H b _ _ _ (b + i) (window c) He Hne Hl Hb) as X. replace (b + i - b) with i in X by lia. apply X; [lia|done].
Qed.
Lemma full_block_ok H b c i : emit H b (block_start c) (tokens c) (out c) (b + i) → Z.of_nat (length (tokens c)) ≤ 16384 → 0 ≤ b → 0 < i ≤ 65536 → (∀ j, 0 ≤ j < i → window c !! Z.to_nat j = H !! Z.to_nat (b + j)) →
  ∃ st ts ou, full_block c i = rep c st ts ou ∧ emit H b st ts ou (b + i) ∧ Z.of_nat (length ts) < 16384.
Proof.
  intros He Hl Hb Hi Hw. unfold full_block. destruct (Z.eqb_spec (Z.of_nat (length (tokens c))) 16384) as [E|E].
  - destruct (write_block_ok H b c i He) as (st & ou & -> & He'); [intros X; by rewrite X in E|done..|]. exists st, [], ou. done.
  - exists (block_start c), (tokens c), (out c). split; [by destruct c|]. split; [done|lia].
Qed.
Lemma insert_here_ok H c : inv H c → max_insert c ≤ window_end c - 3 →
  ∃ ch hh hp, insert_here c = Ret (put c ch hh hp) ∧ below (hash_off c) (index c + 1) hh ∧ below (hash_off c) (index c) hp ∧ ch < index c + hash_off c.
Proof.
  intros I Hm. unfold insert_here. pose proof (i_len _ _ I). pose proof (i_pos _ _ I). pose proof (i_end _ _ I). destruct (Z.ltb_spec (index c) (max_insert c)) as [Hlt|Hge].
  - destruct (insert_ok c (index c)) as (hh & hp & old & -> & X1 & X2 & X3); [lia|lia|apply I|done|apply I|apply I|]. cbn [mbind go_bind]. by exists old, hh, hp.
  - exists (chain_head c), (hash_head c), (hash_prev c). split; [by destruct c|]. split_and!; [eapply below_mono; [|apply I]; lia|apply I|apply I].
Qed.

Section rounds.
  Context (lv : level).
  Lemma round_ok H sync c : inv H c → max_insert c ≤ window_end c - 3 →
    ∃ c' more, round lv sync c = Ret (c', more) ∧ inv H c' ∧ max_insert c' = max_insert c ∧ window_end c' = window_end c ∧
      (more = true → index c < index c') ∧
      (more = false → (sync = false → window_end c' - index c' < 262) ∧ (sync = true → index c' = window_end c' ∧ byte_avail c' = false ∧ tokens c' = [])).
  Proof.
    intros I Hm. pose proof I as [I1 I2 [I3 I3'] I4 I5 I6 I7 I8 I9 I10 I11 I12 I14 I13]. unfold round. rewrite (proj2 (Z.ltb_ge (window_end c) (index c))) by lia.
    assert (Hb : 0 ≤ base H c) by (unfold base; lia). assert (Hbe : base H c + window_end c = Z.of_nat (length H)) by (unfold base; lia).
    assert (Hlit : ∀ ts st ou, byte_avail c = true → emit H (base H c) st ts ou (place H c) → ∃ x, at_ (window c) (index c - 1) = Ret x ∧ emit H (base H c) st (ts ++ [TLit x]) ou (base H c + index c)).
    { intros ts st ou Ha He. unfold place in He. rewrite Ha in He. cbn [Z.b2z] in He. specialize (I9 Ha). destruct (at_ok (window c) (index c - 1)) as (x & -> & Hx); [lia|]. exists x. split; [done|]. rewrite I4 in Hx by lia.
      eapply emit_add; [exact He| | |lia|lia].
      - cbn. rewrite Forall_forall in I13. apply I13. by eapply elem_of_list_lookup_2.
      - replace (base H c + index c) with (base H c + index c - 1 + 1) at 2 by lia. apply lit_adds; [|lia]. by replace (base H c + index c - 1) with (base H c + (index c - 1)) by lia. }
    destruct ((window_end c - index c <? 4 + 258) && negb sync) eqn:E1.
    { apply andb_true_iff in E1 as [E1 E2]. apply Z.ltb_lt in E1. apply negb_true_iff in E2 as ->. exists c, false. by split_and!. }
    destruct ((window_end c - index c <? 4 + 258) && (window_end c - index c =? 0)) eqn:E2.
    { apply andb_true_iff in E2 as [E2' E2]. apply Z.eqb_eq in E2. assert (Hlen : ¬ 4 ≤ len c). { intros X. destruct I10 as [_ I10]. destruct (I10 X) as (_ & _ & _ & Y & _). lia. }
      assert (Hsync : sync = true). { rewrite E2' in E1. cbn [andb] in E1. by destruct sync. }
      assert (Hc1 : ∃ ts, (if byte_avail c then x ← at_ (window c) (index c - 1); Ret (set_avail (add_token c (TLit x)) false) else Ret c) = Ret (set_avail (rep c (block_start c) ts (out c)) false) ∧
        emit H (base H c) (block_start c) ts (out c) (base H c + index c) ∧ Z.of_nat (length ts) ≤ 16384 ∧ (ts ≠ [] → 1 ≤ index c)).
      { destruct (byte_avail c) eqn:Ea.
        - destruct (Hlit (tokens c) (block_start c) (out c) eq_refl I11) as (x & -> & He). cbn [mbind go_bind]. exists (tokens c ++ [TLit x]). split_and!; [done|done|rewrite app_length; cbn [length]; lia|]. intros _. by apply I9.
        - exists (tokens c). unfold place in I11. rewrite Ea in I11. cbn [Z.b2z] in I11. rewrite Z.sub_0_r in I11. split_and!; [destruct c; cbn in *; by subst|done|lia|done]. }
      destruct Hc1 as (ts & -> & He & Hl & Hix). cbn [mbind go_bind]. cbn [set_avail rep tokens].
      assert (Hfin : ∀ st ou, emit H (base H c) st [] ou (base H c + index c) → inv H (set_avail (rep c st [] ou) false)).
      { intros st ou He'. constructor; cbn [set_avail rep window index window_end hash_off hash_head hash_prev chain_head byte_avail len off block_start tokens out length]; try done; try lia.
        - split; [apply I10|lia].
        - unfold place. cbn [set_avail rep window index window_end byte_avail Z.b2z]. by rewrite Z.sub_0_r. }
      destruct ts as [|t ts].
      - eexists _, false. split; [reflexivity|]. split; [by apply Hfin|]. split_and!; try done. intros _. split; [by subst|]. intros _. cbn. split_and!; [lia|done|done].
      - destruct (write_block_ok H (base H c) (set_avail (rep c (block_start c) (t :: ts) (out c)) false) (index c)) as (st & ou & Hw & He'); cbn [set_avail rep tokens block_start out window]; [done|done|done|done|specialize (Hix ltac:(done)); lia|intros j Hj; apply I4; lia|].
        unfold set_avail, rep in Hw. cbn [chain_head hash_head hash_prev hash_off index window window_end block_start byte_avail tokens len off max_insert out] in Hw. unfold set_avail, rep. cbn [chain_head hash_head hash_prev hash_off index window window_end block_start byte_avail tokens len off max_insert out]. rewrite Hw.
        eexists _, false. split; [reflexivity|]. split; [exact (Hfin st ou He')|]. split_and!; try done. intros _. split; [by subst|]. intros _. cbn. split_and!; [lia|done|done]. }
    destruct (insert_here_ok H c I Hm) as (ch & hh & hp & -> & B1 & B2 & B3). cbn [mbind go_bind]. cbn [put set_match index chain_head hash_off len off].
    assert (Hahead : index c < window_end c). { destruct (decide (window_end c - index c = 0)) as [E|E]; [|lia]. rewrite E in E1, E2. cbn in E1, E2. done. }
    set (c0 := Comp ch hh hp (hash_off c) (index c) (window c) (window_end c) (block_start c) (byte_avail c) (tokens c) 3 0 (max_insert c) (out c)).
    assert (Hfind : ∃ l o, (if (Z.max 0 (index c - window_size) <=? ch - hash_off c) && (len c <? window_end c - index c) && (len c <? lv_lazy lv) then
        r ← find_match lv c0 (index c) (ch - hash_off c) 3 (window_end c - index c); let '(l, o, ok) := r in Ret (if (ok : bool) then set_match c0 l o else c0) else Ret c0) = Ret (set_match c0 l o) ∧ pending H (base H c) (window_end c) (index c + 1) true l o).
    { destruct I10 as [I10 _]. assert (Hno : pending H (base H c) (window_end c) (index c + 1) true 3 0) by (split; [lia|intros ?; lia]).
      unfold window_size. destruct (Z.leb_spec (Z.max 0 (index c - 32768)) (ch - hash_off c)) as [Hc|Hc]; cbn [andb]; [|by exists 3, 0]. destruct (Z.ltb_spec (len c) (window_end c - index c)) as [Hl|Hl]; cbn [andb]; [|by exists 3, 0]. destruct (len c <? lv_lazy lv); [|by exists 3, 0].
      destruct (find_ok lv c0 (index c) (ch - hash_off c) (window_end c - index c)) as (l & o & ok & -> & G); [lia|lia|lia|lia|cbn; lia|intros k; cbn; specialize (B2 k); lia|]. cbn [mbind go_bind]. destruct ok; [|by exists 3, 0]. specialize (G eq_refl). exists l, o. split; [done|]. pose proof G as (G1 & G2 & G3 & _). split; [lia|]. intros _. split_and!; [done|lia|lia|lia|lia|].
      replace (base H c + (index c + 1) - 1) with (base H c + index c) by lia. eapply (good_adds H (base H c) (window c) (window_end c)); [done|exact G|done|lia|lia]. }
    change (set_match (put c ch hh hp) 3 0) with c0. destruct Hfind as (l & o & -> & Hpend). cbn [mbind go_bind]. cbn [set_match c0 len byte_avail window index off].
    destruct ((4 <=? len c) && (l <=? len c)) eqn:E3.
    - apply andb_true_iff in E3 as [E3 E4]. apply Z.leb_le in E3. destruct I10 as [_ I10]. destruct (I10 E3) as (J1 & J2 & J3 & J4 & J5). 
      set (c1 := Comp ch hh hp (hash_off c) (index c) (window c) (window_end c) (block_start c) (byte_avail c) (tokens c ++ [TMatch (len c - 3) (off c - 1)]) l o (max_insert c) (out c)).
      change (add_token (set_match c0 l o) (TMatch (len c - 3) (off c - 1))) with c1. change (index c1) with (index c).
      destruct (insert_all_ok (Z.to_nat (index c + len c - 1 - (index c + 1))) c1 (index c + 1)) as (hh' & hp' & -> & F1 & F2); cbn [c1 hash_off window max_insert hash_head hash_prev]; [lia|done|done|lia|done|eapply below_mono; [|done]; lia|]. cbn [c1 hash_off] in F1, F2.
      replace (index c + 1 + Z.of_nat (Z.to_nat (index c + len c - 1 - (index c + 1)))) with (index c + len c - 1) in F1, F2 by lia. cbn [mbind go_bind put set_index set_avail set_match c1 index chain_head hash_head hash_prev hash_off window window_end block_start byte_avail tokens len off max_insert out].
      set (c2 := Comp ch hh' hp' (hash_off c) (index c + len c - 1) (window c) (window_end c) (block_start c) false (tokens c ++ [TMatch (len c - 3) (off c - 1)]) 3 o (max_insert c) (out c)).
      match goal with |- context [full_block ?a ?b] => change (full_block a b) with (full_block c2 (index c + len c - 1)) end.
      destruct (full_block_ok H (base H c) c2 (index c + len c - 1)) as (st & ts & ou & -> & He & Hl); cbn [c2 block_start tokens out window].
      { unfold place in I11. rewrite J1 in I11. cbn [Z.b2z] in I11. eapply emit_add; [exact I11| | |lia|lia].
        - cbn. lia.
        - cbn [item_of]. replace (len c - 3 + 3) with (len c) by lia. replace (off c - 1 + 1) with (off c) by lia. by replace (base H c + (index c + len c - 1)) with (base H c + index c - 1 + len c) by lia. }
      { rewrite app_length. cbn [length]. lia. } { done. } { specialize (I9 J1). lia. } { intros j Hj. apply I4. lia. }
      eexists _, true. split; [reflexivity|]. specialize (I9 J1). split; [|split_and!; [done|done|intros _; cbn; lia|done]].
      constructor; cbn [rep c2 window index window_end hash_off hash_head hash_prev chain_head byte_avail len off block_start tokens out]; try done; try lia.
      unfold place. cbn [rep c2 window_end index byte_avail Z.b2z]. by replace (base H (rep c2 st ts ou) + (index c + len c - 1) - 0) with (base H c + (index c + len c - 1)) by (unfold base; cbn; lia).
    - assert (Hc3 : ∃ st ts ou, (if byte_avail c then x ← at_ (window c) (index c - 1); Ret (full_block (add_token (set_match c0 l o) (TLit x)) (index c)) else Ret (set_match c0 l o)) = Ret (rep (set_match c0 l o) st ts ou) ∧
        emit H (base H c) st ts ou (base H c + index c) ∧ Z.of_nat (length ts) < 16384).
      { destruct (byte_avail c) eqn:Ea.
        - destruct (Hlit (tokens c) (block_start c) (out c) eq_refl I11) as (x & -> & He). cbn [mbind go_bind].
          destruct (full_block_ok H (base H c) (add_token (set_match c0 l o) (TLit x)) (index c)) as (st & ts & ou & -> & He' & Hl); cbn [add_token set_match c0 block_start tokens out window]; [done|rewrite app_length; cbn [length]; lia|done|specialize (I9 eq_refl); lia|intros j Hj; apply I4; lia|].
          exists st, ts, ou. done.
        - exists (block_start c), (tokens c), (out c). unfold place in I11. rewrite Ea in I11. cbn [Z.b2z] in I11. rewrite Z.sub_0_r in I11. done. }
      destruct Hc3 as (st & ts & ou & Hc3 & He & Hl). change (window (set_match c0 l o)) with (window c). rewrite Hc3. cbn [mbind go_bind]. eexists _, true. split; [reflexivity|]. split; [|split_and!; [done|done|intros _; cbn; lia|done]].
      constructor; cbn [set_avail set_index rep set_match c0 window index window_end hash_off hash_head hash_prev chain_head byte_avail len off block_start tokens out]; try done; try lia.
      + eapply below_mono; [|exact B2]. lia.
      + unfold place. cbn [set_avail set_index rep set_match c0 window_end index byte_avail Z.b2z]. by replace (base H (set_avail (set_index (rep (set_match c0 l o) st ts ou) (index c + 1)) true) + (index c + 1) - 1) with (base H c + index c) by (unfold base; cbn; lia).
  Qed.
  Lemma rounds_ok H sync fuel c : inv H c → max_insert c ≤ window_end c - 3 → window_end c - index c < Z.of_nat fuel →
    ∃ c', rounds lv fuel sync c = Ret c' ∧ inv H c' ∧ window_end c' = window_end c ∧ (sync = false → window_end c' - index c' < 262) ∧ (sync = true → index c' = window_end c' ∧ byte_avail c' = false ∧ tokens c' = []).
  Proof.
    revert c. induction fuel as [|n IH]; intros c I Hm Hf; [pose proof (i_pos _ _ I); lia|]. cbn [rounds]. destruct (round_ok H sync c I Hm) as (c1 & more & -> & I1 & M1 & M2 & M3 & M4). cbn [mbind go_bind]. destruct more.
    - specialize (M3 eq_refl). destruct (IH c1 I1) as (c' & -> & I' & E & P); [lia|lia|]. exists c'. split_and!; try done; [congruence|apply P|apply P].
    - exists c1. destruct (M4 eq_refl) as [P Q]. done.
  Qed.
  Lemma deflate_ok H sync c : inv H c →
    ∃ c', deflate lv sync c = Ret c' ∧ inv H c' ∧ (sync = false → window_end c' - index c' < 262) ∧ (sync = true → index c' = window_end c' ∧ byte_avail c' = false ∧ tokens c' = []).
  Proof.
    intros I. unfold deflate. destruct ((window_end c - index c <? 4 + 258) && negb sync) eqn:E.
    - apply andb_true_iff in E as [E1 E2]. apply Z.ltb_lt in E1. apply negb_true_iff in E2 as ->. by exists c.
    - cbv zeta. set (c1 := Comp _ _ _ _ _ _ _ _ _ _ _ _ _ _). assert (I1 : inv H c1) by (destruct I; by constructor).
      destruct (rounds_ok H sync (S (S (Z.to_nat (window_end c1 - index c1)))) c1 I1) as (c' & -> & I' & _ & P & Q); [cbn; lia|lia|]. by exists c'.
  Qed.
End rounds.

(** ** taking bytes in *)
Lemma rebase_below ho ix f : below ho ix f → 32768 ≤ ix ≤ 65536 → 1 ≤ ho → below 1 (ix - 32768) (rebase (ho + 32768 - 1) f).
Proof. intros Hf Hi Ho k. specialize (Hf k). unfold rebase. destruct (Z.ltb_spec (ho + 32768 - 1) (f k)); [rewrite u32_id; lia|lia]. Qed.
Lemma shift_ok H c : inv H c → 65274 ≤ index c → inv H (shift c) ∧ index (shift c) = index c - 32768 ∧ window_end (shift c) = window_end c - 32768.
Proof.
  intros I Hi. pose proof I as [I1 I2 [I3 I3'] I4 I5 I6 I7 I8 I9 I10 I11 I12 I14 I13]. unfold shift, window_size. set (w := drop (Z.to_nat 32768) (window c) ++ drop (Z.to_nat 32768) (window c)). cbv zeta.
  assert (Hw : Z.of_nat (length w) = 65536) by (unfold w; rewrite app_length, !drop_length; lia).
  assert (Hl : ∀ j, 0 ≤ j < window_end c - 32768 → w !! Z.to_nat j = H !! Z.to_nat (base H c + 32768 + j)).
  { intros j Hj. unfold w. rewrite lookup_app_l by (rewrite drop_length; lia). rewrite lookup_drop. replace (Z.to_nat 32768 + Z.to_nat j)%nat with (Z.to_nat (32768 + j)) by lia. rewrite I4 by lia. f_equal. lia. }
  assert (Hb : Z.of_nat (length H) - (window_end c - 32768) = base H c + 32768) by (unfold base; lia).
  assert (Hp : pending H (base H c + 32768) (window_end c - 32768) (index c - 32768) (byte_avail c) (len c) (off c)).
  { destruct I10 as [P Q]. split; [done|]. intros X. specialize (Q X) as (Q1 & Q2 & Q3 & Q4 & Q5). split_and!; try done; try lia. replace (base H c + 32768 + (index c - 32768) - 1) with (base H c + index c - 1) by lia. done. }
  apply emit_shift in I11.
  assert (Hpl : base H c + 32768 + (index c - 32768) - Z.b2z (byte_avail c) = place H c) by (unfold place; lia).
  destruct (Z.ltb_spec 16777216 (hash_off c + 32768)) as [Ho|Ho]; (split; [|done]).
  - constructor; cbn [window index window_end hash_off hash_head hash_prev chain_head byte_avail len off block_start tokens out]; unfold place, base; cbn [window index window_end hash_off hash_head hash_prev chain_head byte_avail len off block_start tokens out]; rewrite ?Hb, ?Hpl; try done; try lia.
    + replace (hash_off c + 32768 - (hash_off c + 32768 - 1)) with 1 by lia. apply rebase_below; [done|lia|lia].
    + replace (hash_off c + 32768 - (hash_off c + 32768 - 1)) with 1 by lia. apply rebase_below; [done|lia|lia].
  - constructor; cbn [window index window_end hash_off hash_head hash_prev chain_head byte_avail len off block_start tokens out]; unfold place, base; cbn [window index window_end hash_off hash_head hash_prev chain_head byte_avail len off block_start tokens out]; rewrite ?Hb, ?Hpl; try done; try lia.
    + intros k. specialize (I6 k). lia.
    + intros k. specialize (I7 k). lia.
Qed.
Definition take_in (c : comp) (n : nat) (b : gostr) : comp :=
  let we := Z.to_nat (window_end c) in
  Comp (chain_head c) (hash_head c) (hash_prev c) (hash_off c) (index c) (take we (window c) ++ take n b ++ drop (we + n) (window c)) (window_end c + Z.of_nat n)
     (block_start c) (byte_avail c) (tokens c) (len c) (off c) (max_insert c) (out c).
Lemma take_in_ok H c n b : inv H c → Z.of_nat n + window_end c ≤ 65536 → (n ≤ length b)%nat → Forall (λ x, 0 ≤ x < 256) b → inv (H ++ take n b) (take_in c n b).
Proof.
  intros I Hn Hb Hf. pose proof I as [I1 I2 [I3 I3'] I4 I5 I6 I7 I8 I9 I10 I11 I12 I14 I13].
  assert (Hbase : base (H ++ take n b) (take_in c n b) = base H c) by (unfold base; cbn; rewrite app_length, take_length; lia).
  assert (Hpl : place (H ++ take n b) (take_in c n b) = place H c) by (unfold place; rewrite Hbase; done).
  assert (H0 : base H c + window_end c = Z.of_nat (length H)) by (unfold base; lia).
  constructor; rewrite ?Hbase, ?Hpl; cbn [take_in window index window_end hash_off hash_head hash_prev chain_head byte_avail len off block_start tokens out]; try done; try lia.
  - rewrite !app_length, !take_length, drop_length. lia.
  - rewrite app_length, take_length. lia.
  - intros j Hj. destruct (decide (j < window_end c)) as [Hlt|Hge].
    + rewrite lookup_app_l by (rewrite take_length; lia). rewrite lookup_take by lia. rewrite I4 by lia. rewrite lookup_app_l; [done|lia].
    + rewrite lookup_app_r by (rewrite take_length; lia). rewrite take_length. rewrite lookup_app_l by (rewrite take_length; lia). rewrite (lookup_app_r H) by lia. f_equal. lia.
  - destruct I10 as [P Q]. split; [done|]. intros X. specialize (Q X) as (Q1 & Q2 & Q3 & Q4 & Q5). split_and!; try done; try lia. rewrite !take_app_le by lia. done.
  - by apply emit_grow.
  - apply Forall_app. split; [done|]. by apply Forall_take.
Qed.
Lemma fill_ok H c b : inv H c → window_end c - index c < 262 → b ≠ [] → Forall (λ x, 0 ≤ x < 256) b →
  ∃ c' n, fill c b = (c', drop n b) ∧ (0 < n)%nat ∧ inv (H ++ take n b) c'.
Proof.
  intros I Hl Hne Hf. pose proof (i_pos _ _ I). unfold fill, window_size.
  set (c1 := if 2 * 32768 - (4 + 258) <=? index c then shift c else c).
  assert (Hc1 : inv H c1 ∧ window_end c1 < 65536).
  { unfold c1. destruct (Z.leb_spec (2 * 32768 - (4 + 258)) (index c)) as [Hi|Hi].
    - destruct (shift_ok H c I ltac:(lia)) as (S1 & S2 & S3). split; [done|]. pose proof (i_end _ _ I). lia.
    - split; [done|lia]. }
  destruct Hc1 as [I1 Hwe]. pose proof (i_len _ _ I1). pose proof (i_pos _ _ I1). eexists _, _. split; [reflexivity|]. destruct b as [|x b]; [done|]. cbn [length]. split; [lia|].
  apply (take_in_ok H c1 _ (x :: b)); [done|lia|cbn [length]; lia|done].
Qed.
Section all.
  Context (lv : level).
  Lemma write_all_ok fuel H c b : inv H c → Forall (λ x, 0 ≤ x < 256) b → (length b < fuel)%nat → ∃ c', write_all lv fuel c b = Ret c' ∧ inv (H ++ b) c'.
  Proof.
    revert H c b. induction fuel as [|n IH]; intros H c b I Hf Hl; [lia|]. destruct b as [|x b]; [exists c; by rewrite app_nil_r|]. cbn [write_all].
    destruct (deflate_ok lv H false c I) as (c1 & -> & I1 & P & _). cbn [mbind go_bind]. destruct (fill_ok H c1 (x :: b) I1 (P eq_refl) ltac:(done) Hf) as (c2 & k & -> & Hk & I2).
    destruct (IH (H ++ take k (x :: b)) c2 (drop k (x :: b)) I2) as (c' & E & I'); [by apply Forall_drop|rewrite drop_length; cbn [length] in *; lia|]. exists c'. split; [done|]. by rewrite <- app_assoc, take_drop in I'.
  Qed.
  Lemma writes_ok H c bs : inv H c → Forall (λ x, 0 ≤ x < 256) (concat bs) → ∃ c', writes lv c bs = Ret c' ∧ inv (H ++ concat bs) c'.
  Proof.
    revert H c. induction bs as [|b bs IH]; intros H c I Hf; [exists c; cbn; by rewrite app_nil_r|]. cbn [concat] in *. apply Forall_app in Hf as [Hf1 Hf2]. cbn [writes].
    destruct (write_all_ok (S (length b)) H c b I Hf1) as (c1 & -> & I1); [lia|]. cbn [mbind go_bind]. destruct (IH _ _ I1 Hf2) as (c' & E & I'). exists c'. by rewrite app_assoc.
  Qed.
  Lemma init_ok w : Z.of_nat (length w) = 65536 → inv [] (init_comp w).
  Proof.
    intros Hw. constructor; cbn [init_comp window index window_end hash_off hash_head hash_prev chain_head byte_avail len off block_start tokens out length]; try done; try (intros ?; lia); try lia.
    exists 0. split_and!; try done; [constructor|constructor|]. left. done.
  Qed.
  Lemma replay_nil_inv l o o' : replay l o o' → l = [] → o = o'.
  Proof. intros [|] E; [done|by apply app_eq_nil in E as []]. Qed.
  Lemma compress_ok w bs : Z.of_nat (length w) = 65536 → Forall (λ x, 0 ≤ x < 256) (concat bs) → ∃ blocks, compress_blocks lv w bs = Ret blocks ∧ blocks_for blocks (concat bs).
  Proof.
    intros Hw Hf. unfold compress_blocks. destruct (writes_ok [] (init_comp w) bs (init_ok w Hw) Hf) as (c1 & -> & I1). cbn [mbind go_bind app] in *. destruct (deflate_ok lv _ true c1 I1) as (c2 & -> & I2 & _ & P). cbn [mbind go_bind]. specialize (P eq_refl) as (P1 & P2 & P3).
    exists (out c2). split; [done|]. destruct (i_emit _ _ I2) as (bs' & B1 & B2 & B3 & B4 & B5 & B6 & B7). rewrite P3 in B3. apply replay_nil_inv in B3; [|done]. rewrite B3 in B2. unfold place, base in B2. rewrite P1, P2 in B2. cbn [Z.b2z] in B2. by rewrite take_ge in B2 by lia.
  Qed.
End all.
