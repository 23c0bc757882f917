From stdpp Require Import fin_sets.
From Verif Require Import GoBase GoState MathModel MathSpec MathProofs BloomModel BloomSpec.
Local Open Scope Z_scope.

(** bit p of the array *)
Definition bit (bits : list Z) (p : Z) : bool :=
  match bits !! Z.to_nat (p / 64) with Some w => Z.testbit w (p mod 64) | None => false end.
Definition wf (f : filter) : Prop :=
  f_cnt f = 64 * Z.of_nat (length (f_bits f)) ∧ (f_cnt f = 0 → f_seeds f = []) ∧ Forall is_u64 (f_bits f).

Lemma shl_mask k : 0 ≤ k < 64 → u64 (Z.shiftl 1 k) = 2 ^ k.
Proof.
  intros Hk. rewrite Z.shiftl_1_l. apply u64_id. unfold is_u64. split; [lia|]. apply Z.pow_lt_mono_r; lia.
Qed.
Lemma lor_pow2_testbit w k j : 0 ≤ k → 0 ≤ j → Z.testbit (Z.lor w (2 ^ k)) j = Z.testbit w j || bool_decide (j = k).
Proof.
  intros Hk Hj. rewrite Z.lor_spec, Z.pow2_bits_eqb by done. f_equal.
  destruct (Z.eqb_spec k j); [rewrite bool_decide_eq_true_2|rewrite bool_decide_eq_false_2]; lia.
Qed.
Lemma land_pow2 w k : 0 ≤ k → Z.land w (2 ^ k) = 2 ^ k ↔ Z.testbit w k = true.
Proof.
  intros Hk. split.
  - intros E. assert (Z.testbit (Z.land w (2 ^ k)) k = true) as Hb by (rewrite E; by apply Z.pow2_bits_true).
    rewrite Z.land_spec in Hb. by apply andb_prop in Hb as [? _].
  - intros Hw. apply Z.bits_inj'. intros j Hj. rewrite Z.land_spec, Z.pow2_bits_eqb by done.
    destruct (Z.eqb_spec k j) as [<-|]; [by rewrite Hw|]. by rewrite andb_false_r.
Qed.
Lemma lor_u64 a b : is_u64 a → is_u64 b → is_u64 (Z.lor a b).
Proof.
  intros [Ha Ha'] [Hb Hb']. split; [by apply Z.lor_nonneg|].
  destruct (decide (Z.lor a b = 0)) as [->|]; [done|]. apply Z.log2_lt_pow2; [pose proof (proj2 (Z.lor_nonneg a b) (conj Ha Hb)); lia|].
  rewrite Z.log2_lor by done. apply Z.max_lub_lt.
  - destruct (decide (a = 0)) as [->|]; [done|]. apply Z.log2_lt_pow2; lia.
  - destruct (decide (b = 0)) as [->|]; [done|]. apply Z.log2_lt_pow2; lia.
Qed.

Section Ops.
  Implicit Types f : filter.
  Lemma pos_ok f h s : f_cnt f ≠ 0 → pos f h s = Ret (probe (f_cnt f) h s / 64, probe (f_cnt f) h s mod 64).
  Proof. intros Hc. unfold pos, umod. by rewrite decide_False. Qed.
  Lemma probe_range cnt h s : 0 < cnt → 0 ≤ probe cnt h s < cnt.
  Proof. intros. apply Z.mod_pos_bound. lia. Qed.

  Lemma word_exists f p : wf f → 0 ≤ p < f_cnt f → ∃ w, f_bits f !! Z.to_nat (p / 64) = Some w.
  Proof.
    intros (Hl & _ & _) Hp. apply lookup_lt_is_Some_2. assert (p / 64 < Z.of_nat (length (f_bits f))) by (apply Z.div_lt_upper_bound; lia).
    assert (0 ≤ p / 64) by (apply Z.div_pos; lia). lia.
  Qed.
  Lemma set_bit_ok f p : wf f → 0 ≤ p < f_cnt f →
    ∃ f', set_bit (p / 64) (p mod 64) f = (Ret tt, f') ∧ wf f' ∧ f_cnt f' = f_cnt f ∧ f_seeds f' = f_seeds f ∧
      ∀ q, 0 ≤ q < f_cnt f → bit (f_bits f') q = bit (f_bits f) q || bool_decide (q = p).
  Proof.
    intros Hwf Hp. destruct (word_exists f p Hwf Hp) as [w Hw]. pose proof (Z.mod_pos_bound p 64 ltac:(lia)) as Hm.
    unfold set_bit, glift, gwrite. cbv [mbind gst_bind]. unfold idx. rewrite Hw, shl_mask by done.
    eexists. split; [reflexivity|]. destruct Hwf as (Hl & Hs & Hu). unfold wf. split_and!; simpl; try done.
    - by rewrite insert_length.
    - apply Forall_insert; [done|]. apply lor_u64; [exact (Forall_lookup_1 _ _ _ _ Hu Hw)|]. split; [lia|]. apply Z.pow_lt_mono_r; lia.
    - intros q Hq. unfold bit. assert (0 ≤ p / 64) by (apply Z.div_pos; lia). assert (0 ≤ q / 64) by (apply Z.div_pos; lia).
      pose proof (Z.div_mod p 64 ltac:(lia)). pose proof (Z.div_mod q 64 ltac:(lia)).
      pose proof (Z.mod_pos_bound q 64 ltac:(lia)).
      destruct (decide (Z.to_nat (p / 64) = Z.to_nat (q / 64))) as [E|E].
      + rewrite <-E, list_lookup_insert by (by eapply lookup_lt_Some). rewrite Hw. rewrite lor_pow2_testbit by lia. f_equal.
        apply bool_decide_ext. lia.
      + rewrite list_lookup_insert_ne by done. rewrite (bool_decide_eq_false_2 (q = p)) by (intros ->; lia). by rewrite orb_false_r.
  Qed.
  Lemma add_loop_ok h seeds : ∀ f, wf f → (seeds ≠ [] → f_cnt f ≠ 0) →
    ∃ f', add_loop h seeds f = (Ret tt, f') ∧ wf f' ∧ f_cnt f' = f_cnt f ∧ f_seeds f' = f_seeds f ∧
      ∀ q, 0 ≤ q < f_cnt f → bit (f_bits f') q = true ↔ bit (f_bits f) q = true ∨ ∃ s, s ∈ seeds ∧ q = probe (f_cnt f) h s.
  Proof.
    induction seeds as [|s seeds IH]; intros f Hwf Hz.
    - exists f. split_and!; try done. intros q Hq. split; [by left|]. intros [?|(s & []%elem_of_nil & _)]; done.
    - specialize (Hz ltac:(done)). simpl. assert (0 < f_cnt f) as Hc by (destruct Hwf as (Hl & _ & _); lia).
      pose proof (probe_range (f_cnt f) h s Hc) as Hp.
      destruct (set_bit_ok f (probe (f_cnt f) h s) Hwf Hp) as (f1 & E1 & Hwf1 & Hc1 & Hs1 & Hb1).
      destruct (IH f1 Hwf1) as (f2 & E2 & Hwf2 & Hc2 & Hs2 & Hb2); [intros _; lia|].
      exists f2. split.
      { unfold glift. cbv [mbind gst_bind]. rewrite pos_ok by done. simpl. rewrite E1. exact E2. }
      split_and!; [done|congruence|congruence|]. intros q Hq. rewrite Hb2 by lia. rewrite Hb1 by done. rewrite Hc1.
      rewrite orb_true_iff, bool_decide_eq_true. setoid_rewrite elem_of_cons. naive_solver.
  Qed.
  Lemma contains_loop_ok f h seeds : wf f → (seeds ≠ [] → f_cnt f ≠ 0) →
    ∃ b, contains_loop f h seeds = Ret b ∧ (b = true ↔ ∀ s, s ∈ seeds → bit (f_bits f) (probe (f_cnt f) h s) = true).
  Proof.
    intros Hwf. induction seeds as [|s seeds IH]; intros Hz.
    - exists true. split; [done|]. split; [|done]. intros _ s []%elem_of_nil.
    - specialize (Hz ltac:(done)). destruct (IH ltac:(done)) as (b & Eb & Hb). simpl.
      assert (0 < f_cnt f) as Hc by (destruct Hwf as (Hl & _ & _); lia). pose proof (probe_range (f_cnt f) h s Hc) as Hp.
      rewrite pos_ok by done. simpl. destruct (word_exists f _ Hwf Hp) as [w Hw]. unfold idx. rewrite Hw. simpl.
      rewrite shl_mask by (apply Z.mod_pos_bound; lia).
      assert (bit (f_bits f) (probe (f_cnt f) h s) = Z.testbit w (probe (f_cnt f) h s mod 64)) as Ebit by (unfold bit; by rewrite Hw).
      pose proof (land_pow2 w (probe (f_cnt f) h s mod 64) ltac:(apply Z.mod_pos_bound; lia)) as Hl.
      destruct (decide _) as [Hne|Heq].
      + exists false. split; [done|]. split; [done|]. intros Hall. exfalso. apply Hne, Hl. rewrite <-Ebit. apply Hall. left.
      + exists b. split; [done|]. rewrite Hb. setoid_rewrite elem_of_cons. split; [|naive_solver].
        intros Hall s' [->|?]; [|by apply Hall]. rewrite Ebit. apply Hl. by destruct (decide (Z.land w (2 ^ (probe (f_cnt f) h s mod 64)) = 2 ^ (probe (f_cnt f) h s mod 64))).
  Qed.

  (** the bits are exactly the probes of the live elements *)
  Definition exact_bits f (added : list Z) : Prop :=
    ∀ q, 0 ≤ q < f_cnt f → bit (f_bits f) q = true ↔ ∃ h s, h ∈ added ∧ s ∈ f_seeds f ∧ q = probe (f_cnt f) h s.
  Lemma step_ok f o added : wf f → exact_bits f added →
    ∃ f', fstep o f = (Ret tt, f') ∧ wf f' ∧ f_cnt f' = f_cnt f ∧ f_seeds f' = f_seeds f ∧ exact_bits f' (live1 added o).
  Proof.
    intros Hwf He.
    assert (∀ h, ∃ f', bloom_add h f = (Ret tt, f') ∧ wf f' ∧ f_cnt f' = f_cnt f ∧ f_seeds f' = f_seeds f ∧ exact_bits f' (h :: added)) as Hadd.
    { intros h. destruct (add_loop_ok h (f_seeds f) f Hwf) as (f' & E & Hwf' & Hc & Hs & Hb).
      { intros Hne Hz. by destruct Hwf as (_ & HH & _); apply HH in Hz. }
      exists f'. split_and!; try done. intros q Hq. rewrite Hc, Hs in *. rewrite Hb by done. rewrite (He q Hq). setoid_rewrite elem_of_cons. naive_solver. }
    destruct o as [h|b|b|]; try apply Hadd.
    eexists. split; [reflexivity|]. destruct Hwf as (Hl & Hs & Hu). unfold wf. split_and!; simpl; try done.
    - by rewrite fmap_length.
    - apply Forall_fmap, Forall_true. done.
    - intros q Hq. unfold bit. simpl. rewrite list_lookup_fmap. destruct (f_bits f !! _); simpl; rewrite ?Z.bits_0.
      + split; [done|]. intros (? & ? & []%elem_of_nil & _).
      + split; [done|]. intros (? & ? & []%elem_of_nil & _).
  Qed.
  Lemma run_ok ops : ∀ f added, wf f → exact_bits f added →
    ∃ f', frun ops f = (Ret tt, f') ∧ wf f' ∧ f_cnt f' = f_cnt f ∧ f_seeds f' = f_seeds f ∧ exact_bits f' (foldl live1 added ops).
  Proof.
    induction ops as [|o ops IH]; intros f added Hwf He; [by exists f|].
    destruct (step_ok f o added Hwf He) as (f1 & E1 & Hwf1 & Hc1 & Hs1 & He1).
    destruct (IH f1 _ Hwf1 He1) as (f2 & E2 & Hwf2 & Hc2 & Hs2 & He2). exists f2. split; [|split_and!; try done; congruence].
    simpl. eapply eq_trans; [eapply gst_bind_Ret; exact E1|]. exact E2.
  Qed.
  Lemma contains_ok f added h : wf f → exact_bits f added →
    ∃ b, bloom_contains f h = Ret b ∧ (b = true ↔ covered (f_cnt f) (f_seeds f) added h).
  Proof.
    intros Hwf He. destruct (contains_loop_ok f h (f_seeds f) Hwf) as (b & Eb & Hb).
    { intros Hne Hz. by destruct Hwf as (_ & HH & _); apply HH in Hz. }
    exists b. split; [done|]. rewrite Hb. unfold covered. split; intros Hall s Hs; specialize (Hall s Hs).
    - apply He in Hall as (h' & s' & ? & ? & ?); [by exists h', s'|]. apply probe_range.
      destruct Hwf as (Hl & HH & _). destruct (decide (f_cnt f = 0)) as [E|]; [|lia]. rewrite (HH E) in Hs. by apply elem_of_nil in Hs.
    - apply He; [|destruct Hall as (h' & s' & ? & ? & ?); by exists h', s'].
      apply probe_range. destruct Hwf as (Hl & HH & _). destruct (decide (f_cnt f = 0)) as [E|]; [|lia]. rewrite (HH E) in Hs. by apply elem_of_nil in Hs.
  Qed.
End Ops.

Lemma round_bits_spec n : is_u64 n → round_bits n = if decide (n ≤ 2 ^ 64 - 64) then 64 * ((n + 63) / 64) else 0.
Proof.
  intros [H0 Hn]. unfold round_bits. case_decide as Hle.
  - assert (u64 (u64 (n + 64) - 1) = n + 63) as ->.
    { unfold u64, wrap_u. rewrite Zminus_mod_idemp_l. rewrite Z.mod_small; lia. }
    rewrite u64_id; [lia|]. unfold is_u64. pose proof (Z.div_mod (n + 63) 64 ltac:(lia)). pose proof (Z.mod_pos_bound (n + 63) 64 ltac:(lia)). lia.
  - assert (u64 (u64 (n + 64) - 1) = n + 63 - 2 ^ 64) as ->.
    { unfold u64, wrap_u. rewrite Zminus_mod_idemp_l. replace (n + 64 - 1) with (n + 63 - 2 ^ 64 + 1 * 2 ^ 64) by lia.
      rewrite Z_mod_plus_full, Z.mod_small; lia. }
    assert ((n + 63 - 2 ^ 64) / 64 = 0) as -> by (apply Z.div_small; lia). done.
Qed.
Lemma new_ok raw seeds : is_u64 raw →
  wf (bloom_new raw seeds) ∧ exact_bits (bloom_new raw seeds) [] ∧ f_cnt (bloom_new raw seeds) = round_bits raw ∧
  f_seeds (bloom_new raw seeds) = if decide (round_bits raw = 0) then [] else seeds.
Proof.
  intros Hr. unfold bloom_new. pose proof (round_bits_spec raw Hr) as E.
  assert (∃ k, 0 ≤ k ∧ round_bits raw = 64 * k) as (k & Hk & Ek).
  { case_decide; [|by exists 0]. exists ((raw + 63) / 64). split; [apply Z.div_pos; destruct Hr; lia|done]. }
  rewrite Ek. unfold wf. split_and!; try done; simpl.
  - rewrite replicate_length. rewrite (Z.mul_comm 64), Z.div_mul by lia. lia.
  - intros E0. by rewrite decide_True.
  - apply Forall_replicate. done.
  - intros q Hq. unfold bit. simpl. destruct (replicate _ 0 !! _) as [w|] eqn:F.
    + apply lookup_replicate in F as [-> _]. rewrite Z.bits_0. split; [done|]. intros (? & ? & []%elem_of_nil & _).
    + split; [done|]. intros (? & ? & []%elem_of_nil & _).
Qed.

(** ** Independence of the probes *)
Lemma lxor_mod_pow2 h s k : 0 ≤ k → Z.lxor h s mod 2 ^ k = Z.lxor (h mod 2 ^ k) (s mod 2 ^ k).
Proof.
  intros Hk. rewrite <-!Z.land_ones by done. apply Z.bits_inj'. intros j Hj. rewrite Z.lxor_spec, !Z.land_spec, Z.lxor_spec.
  by destruct (Z.testbit h j), (Z.testbit s j), (Z.testbit (Z.ones k) j).
Qed.
Lemma probe_pow2 k h1 h2 s s' : 0 ≤ k → probe (2 ^ k) h1 s = probe (2 ^ k) h2 s → probe (2 ^ k) h1 s' = probe (2 ^ k) h2 s'.
Proof.
  intros Hk E. unfold probe in *. rewrite !lxor_mod_pow2 in * by done. f_equal.
  rewrite <-(Z.lxor_0_r (h1 mod 2 ^ k)), <-(Z.lxor_0_r (h2 mod 2 ^ k)), <-(Z.lxor_nilpotent (s mod 2 ^ k)), <-!Z.lxor_assoc. by f_equal.
Qed.
Lemma probe_other m : 0 < m < 2 ^ 64 → ¬ power_of_two m →
  ∃ h1 h2 s s', is_u64 h1 ∧ is_u64 h2 ∧ is_u64 s ∧ is_u64 s' ∧ probe m h1 s = probe m h2 s ∧ probe m h1 s' ≠ probe m h2 s'.
Proof.
  intros Hm Hp. pose proof (Z.log2_spec m ltac:(lia)) as [Hl Hu]. set (j := Z.log2 m) in *.
  assert (0 ≤ j) as Hj by apply Z.log2_nonneg. assert (2 ^ j ≠ m) as Hne by (intros E; apply Hp; by exists j).
  assert (0 < 2 ^ j) by (by apply Z.pow_pos_nonneg). exists 0, m, 0, (2 ^ j). unfold is_u64, probe.
  rewrite !Z.lxor_0_l, Z.lxor_0_r. split_and!; try lia.
  - by rewrite Z.mod_same, Z.mod_0_l by lia.
  - assert (Z.lxor m (2 ^ j) = m - 2 ^ j) as ->.
    { assert (Z.land (m - 2 ^ j) (2 ^ j) = 0) as HL.
      { apply Z.bits_inj'. intros i Hi. rewrite Z.land_spec, Z.pow2_bits_eqb, Z.bits_0 by done. destruct (Z.eqb_spec j i) as [<-|]; [|by rewrite andb_false_r].
        rewrite andb_true_r. apply Z.testbit_false; [done|]. rewrite Z.pow_succ_r in Hu by done. by rewrite Z.div_small by lia. }
      apply Z.add_nocarry_lxor in HL. replace (m - 2 ^ j + 2 ^ j) with m in HL by lia. rewrite HL at 1.
      by rewrite Z.lxor_assoc, Z.lxor_nilpotent, Z.lxor_0_r. }
    rewrite (Z.mod_small (2 ^ j)) by lia. rewrite Z.mod_small by lia. intros E. apply Hp. exists (Z.succ j). split; [lia|]. rewrite Z.pow_succ_r by done. lia.
Qed.
