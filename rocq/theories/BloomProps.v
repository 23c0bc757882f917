(** * Properties C23-C26: Bloom filter and Hash *)
From stdpp Require Import fin_sets.
From Verif Require Import GoBase GoState MathModel MathSpec MathProofs BloomModel BloomSpec BloomProofs.
Local Open Scope Z_scope.

(** C24: the answers are exactly determined by the elements added since the last Clear. *)
Theorem bloom_contains_exact : ∀ (raw : Z) (seeds : list Z) (ops : list fop) (h : Z), is_u64 raw →
  ∃ f b, frun ops (bloom_new raw seeds) = (Ret tt, f) ∧ bloom_contains f h = Ret b ∧
    (b = true ↔ covered (bloom_len f) (f_seeds f) (live ops) h) ∧
    bloom_len f = round_bits raw ∧ f_seeds f = f_seeds (bloom_new raw seeds).
Proof.
  intros raw seeds ops h Hr. destruct (new_ok raw seeds Hr) as (Hwf & He & Hc & Hs).
  destruct (run_ok ops _ _ Hwf He) as (f & E & Hwf' & Hc' & Hs' & He').
  destruct (contains_ok f _ h Hwf' He') as (b & Eb & Hb). exists f, b. split_and!; try done.
Qed.
Print Assumptions bloom_contains_exact.
(** ... hence order and multiplicity do not matter: only the set of live elements does *)
Theorem bloom_order_irrelevant : ∀ (raw : Z) (seeds : list Z) (ops1 ops2 : list fop) (h : Z), is_u64 raw →
  (∀ x, x ∈ live ops1 ↔ x ∈ live ops2) →
  bloom_contains (frun ops1 (bloom_new raw seeds)).2 h = bloom_contains (frun ops2 (bloom_new raw seeds)).2 h.
Proof.
  intros raw seeds ops1 ops2 h Hr Hx.
  destruct (bloom_contains_exact raw seeds ops1 h Hr) as (f1 & b1 & E1 & Eb1 & Hb1 & Hl1 & Hs1).
  destruct (bloom_contains_exact raw seeds ops2 h Hr) as (f2 & b2 & E2 & Eb2 & Hb2 & Hl2 & Hs2).
  rewrite E1, E2. simpl. rewrite Eb1, Eb2. f_equal. apply eq_bool_prop_intro. rewrite !Is_true_true, Hb1, Hb2.
  unfold covered. rewrite Hl1, Hl2, Hs1, Hs2. by setoid_rewrite Hx.
Qed.
Print Assumptions bloom_order_irrelevant.

(** C23 *)
Lemma live_app ops1 ops2 : live (ops1 ++ ops2) = foldl live1 (live ops1) ops2.
Proof. unfold live. by rewrite foldl_app. Qed.
Lemma live_keeps acc ops h : Forall (λ o, o ≠ FClear) ops → h ∈ acc → h ∈ foldl live1 acc ops.
Proof.
  intros HF. revert acc. induction HF as [|o ops Ho _ IH]; intros acc Hin; [done|]. simpl. apply IH. destruct o; simpl; try done; by right.
Qed.
Theorem bloom_no_false_negative : ∀ (raw : Z) (seeds : list Z) (before after : list fop) (h : Z) (b : list Z), is_u64 raw →
  Forall (λ o, o ≠ FClear) after →
  bloom_contains (frun (before ++ FAdd h :: after) (bloom_new raw seeds)).2 h = Ret true ∧
  bloom_contains_bytes (frun (before ++ FAddBytes b :: after) (bloom_new raw seeds)).2 b = Ret true ∧
  bloom_contains_bytes (frun (before ++ FAddString b :: after) (bloom_new raw seeds)).2 b = Ret true.
Proof.
  intros raw seeds before after h b Hr Ha.
  assert (∀ o x, live1 (live before) o = x :: live before →
    bloom_contains (frun (before ++ o :: after) (bloom_new raw seeds)).2 x = Ret true) as HH.
  { intros o x Ho. destruct (bloom_contains_exact raw seeds (before ++ o :: after) x Hr) as (f & r & E & Er & Hb & _).
    rewrite E. simpl. rewrite Er. f_equal. apply Hb. intros s Hs. exists x, s. split_and!; try done.
    rewrite live_app. simpl. apply live_keeps; [done|]. rewrite Ho. left. }
  split_and!; by apply HH.
Qed.
Print Assumptions bloom_no_false_negative.
Theorem bloom_monotone : ∀ (raw : Z) (seeds : list Z) (ops more : list fop) (h : Z), is_u64 raw →
  Forall (λ o, o ≠ FClear) more →
  bloom_contains (frun ops (bloom_new raw seeds)).2 h = Ret true →
  bloom_contains (frun (ops ++ more) (bloom_new raw seeds)).2 h = Ret true.
Proof.
  intros raw seeds ops more h Hr Hm H1.
  destruct (bloom_contains_exact raw seeds ops h Hr) as (f1 & b1 & E1 & Eb1 & Hb1 & Hl1 & Hs1).
  destruct (bloom_contains_exact raw seeds (ops ++ more) h Hr) as (f2 & b2 & E2 & Eb2 & Hb2 & Hl2 & Hs2).
  rewrite E2. simpl. rewrite Eb2. f_equal. apply Hb2. rewrite E1 in H1. simpl in H1. rewrite Eb1 in H1. injection H1 as ->.
  pose proof (proj1 Hb1 eq_refl) as Hc. unfold covered in *. rewrite Hl2, Hs2, <-Hl1, <-Hs1. intros s Hs.
  destruct (Hc s Hs) as (h' & s' & Hh & ? & ?). exists h', s'. split_and!; try done. rewrite live_app. by apply live_keeps.
Qed.
Print Assumptions bloom_monotone.
Theorem bloom_clear_empties : ∀ (raw : Z) (seeds : list Z) (ops : list fop) (h : Z), is_u64 raw →
  f_seeds (bloom_new raw seeds) ≠ [] →
  bloom_contains (frun (ops ++ [FClear]) (bloom_new raw seeds)).2 h = Ret false.
Proof.
  intros raw seeds ops h Hr Hne.
  destruct (bloom_contains_exact raw seeds (ops ++ [FClear]) h Hr) as (f & b & E & Eb & Hb & _ & Hs).
  rewrite E. simpl. rewrite Eb. f_equal. destruct b; [|done]. exfalso. pose proof (proj1 Hb eq_refl) as Hc.
  rewrite <-Hs in Hne. destruct (f_seeds f) as [|s ss] eqn:F; [done|].
  destruct (Hc s ltac:(left)) as (h' & _ & Hh & _). rewrite live_app in Hh. by apply elem_of_nil in Hh.
Qed.
Print Assumptions bloom_clear_empties.
(** no operation on a filter from New panics (part of the frun equations above) *)
Example bloom_case : let f0 := bloom_new 100 [3; 5; 77777] in
  is_u64 100 ∧ bloom_len f0 = 128 ∧ f_seeds f0 ≠ [] ∧
  let f := (frun [FAdd 1; FClear; FAdd 42; FAddBytes [104; 105]; FAdd 9] f0).2 in
  bloom_contains f 42 = Ret true ∧ bloom_contains_bytes f [104; 105] = Ret true ∧ bloom_contains f 1 = Ret false ∧
  fnv64 [104; 105] = 590640087355304860.
Proof. vm_compute. repeat split; done. Qed.

(** C25: the probes are independent for no power-of-two size, e.g. the smallest filters (64 and 128 bits);
    colliding under one seed then means colliding under every seed. *)
Theorem bloom_probes_dependent_refuted :
  (∀ k h1 h2 s s', 0 ≤ k → probe (2 ^ k) h1 s = probe (2 ^ k) h2 s → probe (2 ^ k) h1 s' = probe (2 ^ k) h2 s') ∧
  (∀ raw seeds, 0 < raw ≤ 64 → bloom_len (bloom_new raw seeds) = 2 ^ 6) ∧
  (∀ raw seeds, 64 < raw ≤ 128 → bloom_len (bloom_new raw seeds) = 2 ^ 7) ∧
  (∀ raw seeds, 2 ^ 20 - 64 < raw ≤ 2 ^ 20 → bloom_len (bloom_new raw seeds) = 2 ^ 20).
Proof.
  split_and!.
  - intros k h1 h2 s s'. apply probe_pow2.
  - intros raw seeds Hr. unfold bloom_new, bloom_len. simpl. rewrite round_bits_spec, decide_True by (unfold is_u64; lia).
    assert ((raw + 63) / 64 = 1) as ->; [|done]. symmetry. apply (Z.div_unique _ _ _ (raw - 1)); lia.
  - intros raw seeds Hr. unfold bloom_new, bloom_len. simpl. rewrite round_bits_spec, decide_True by (unfold is_u64; lia).
    assert ((raw + 63) / 64 = 2) as ->; [|done]. symmetry. apply (Z.div_unique _ _ _ (raw - 65)); lia.
  - intros raw seeds Hr. unfold bloom_new, bloom_len. simpl. rewrite round_bits_spec, decide_True by (unfold is_u64; lia).
    assert ((raw + 63) / 64 = 2 ^ 14) as ->; [|done]. symmetry. apply (Z.div_unique _ _ _ (raw + 63 - 2 ^ 20)); lia.
Qed.
Print Assumptions bloom_probes_dependent_refuted.
(** ... and in a filter of such a size an element that was never added is reported as soon as its first probe collides *)
Theorem bloom_one_collision_suffices : ∀ (raw : Z) (s : Z) (seeds : list Z) (h1 h2 : Z) (k : Z), is_u64 raw → 0 ≤ k →
  bloom_len (bloom_new raw (s :: seeds)) = 2 ^ k → probe (2 ^ k) h1 s = probe (2 ^ k) h2 s →
  bloom_contains (frun [FAdd h1] (bloom_new raw (s :: seeds))).2 h2 = Ret true.
Proof.
  intros raw s seeds h1 h2 k Hr Hk Hl Hp.
  destruct (bloom_contains_exact raw (s :: seeds) [FAdd h1] h2 Hr) as (f & b & E & Eb & Hb & Hlen & Hs).
  rewrite E. simpl. rewrite Eb. f_equal. apply Hb. unfold bloom_len in Hl. cbn [bloom_new f_cnt] in Hl. rewrite Hlen, Hl.
  intros s' Hs'. exists h1, s'. split_and!; [left|done|]. symmetry. by eapply probe_pow2.
Qed.
Print Assumptions bloom_one_collision_suffices.
(** For every other size the probes are not determined by each other. *)
Theorem bloom_probes_independent_partial : ∀ cnt, 0 < cnt < 2 ^ 64 → ¬ power_of_two cnt →
  ∃ h1 h2 s s', is_u64 h1 ∧ is_u64 h2 ∧ is_u64 s ∧ is_u64 s' ∧ probe cnt h1 s = probe cnt h2 s ∧ probe cnt h1 s' ≠ probe cnt h2 s'.
Proof. exact probe_other. Qed.
Print Assumptions bloom_probes_independent_partial.
Example probes_case : bloom_len (bloom_new 150 [1]) = 192 ∧ ¬ power_of_two 192 ∧
  probe 192 0 0 = probe 192 192 0 ∧ probe 192 0 128 ≠ probe 192 192 128 ∧
  probe (2 ^ 6) 5 3 = probe (2 ^ 6) 69 3.
Proof.
  split_and!; try (by vm_compute). intros (k & Hk & E). destruct (decide (k ≤ 7)).
  - assert (2 ^ k ≤ 2 ^ 7) by (apply Z.pow_le_mono_r; lia). lia.
  - assert (2 ^ 8 ≤ 2 ^ k) by (apply Z.pow_le_mono_r; lia). lia.
Qed.

(** C26 *)
Theorem hash_is_function : ∀ (seed : Type) (mh : seed → list Z → Z) (s : seed) (ops : list hop) (h : hash),
  h_seed h = s →
  (hrun mh ops h).1 = (λ o, Ret (mh s (match o with HSum b | HSumString b => b end))) <$> ops.
Proof.
  intros seed mh s ops. induction ops as [|o ops IH]; intros h Hs; [done|]. simpl.
  assert (∃ h', hstep mh o h = (Ret (mh s (match o with HSum b | HSumString b => b end)), h') ∧ h_seed h' = s) as (h' & E & Hs').
  { rewrite <-Hs. destruct o; by eexists. }
  rewrite E. specialize (IH h' Hs'). destruct (hrun mh ops h'). simpl in *. by rewrite IH.
Qed.
Print Assumptions hash_is_function.
Example hash_case : (hrun (λ s b, foldl (λ h x, h * 31 + x) s b) [HSum [1; 2]; HSumString [7]; HSumString [1; 2]; HSum [7]] (hash_new 5)).1
  = [Ret 4838; Ret 162; Ret 4838; Ret 162].
Proof. by vm_compute. Qed.
