(** * Proofs about the arithmetic helpers and Set *)
From stdpp Require Import fin_sets.
From Verif Require Import GoBase MathModel MathSpec.
From Coq Require Import Floats.SpecFloat.
Local Open Scope Z_scope.

Lemma wrap_u_id w z : is_uw w z → wrap_u w z = z.
Proof. unfold is_uw, wrap_u. intros. by apply Z.mod_small. Qed.

Lemma len64_spec x : 0 ≤ x → bit_length x (find_last_bit_set x).
Proof.
  intros Hx. unfold bit_length, find_last_bit_set, len64. case_decide as E; [subst; split_and!; try lia; by left|].
  assert (0 < x) as Hp by lia. pose proof (Z.log2_spec x Hp) as [? ?]. pose proof (Z.log2_nonneg x).
  replace (Z.succ (Z.log2 x)) with (Z.log2 x + 1) in * by lia.
  split_and!; [lia|done|right]. by replace (Z.log2 x + 1 - 1) with (Z.log2 x) by lia.
Qed.
Lemma bit_length_unique x b b' : bit_length x b → bit_length x b' → b = b'.
Proof.
  intros (? & ? & H1) (? & ? & H2).
  destruct (Z.lt_trichotomy b b') as [Hl|[?|Hl]]; [|done|].
  - destruct H2 as [?|H2]; [lia|]. assert (2 ^ b ≤ 2 ^ (b' - 1)) by (apply Z.pow_le_mono_r; lia). lia.
  - destruct H1 as [?|H1]; [lia|]. assert (2 ^ b' ≤ 2 ^ (b - 1)) by (apply Z.pow_le_mono_r; lia). lia.
Qed.

Lemma pow_of_2_spec w n : 0 < w → is_uw w n → is_pow_of_2 w n = true ↔ power_of_two n.
Proof.
  intros Hw [Hn Hn2]. unfold is_pow_of_2. rewrite andb_true_iff, !bool_decide_eq_true.
  split.
  - intros [H0 Hl]. rewrite wrap_u_id in Hl by (unfold is_uw; lia).
    exists (Z.log2 n). split; [apply Z.log2_nonneg|].
    assert (0 < n) as Hp by lia. pose proof (Z.log2_spec n Hp) as [Hlo Hhi].
    destruct (Z.eq_dec n (2 ^ Z.log2 n)) as [?|Hne]; [done|]. exfalso.
    (* the top bit is set in both n and n - 1 *)
    assert (Z.log2 (n - 1) = Z.log2 n) as El.
    { apply Z.log2_unique; [apply Z.log2_nonneg|]. lia. }
    assert (Z.testbit (Z.land n (n - 1)) (Z.log2 n) = true) as Hb.
    { rewrite Z.land_spec, Z.bit_log2 by lia. rewrite <-El, Z.bit_log2; [done|]. pose proof (Z.log2_nonneg n).
      assert (1 ≤ 2 ^ Z.log2 n) by (apply (Z.pow_le_mono_r 2 0); lia). lia. }
    rewrite Hl, Z.bits_0 in Hb. done.
  - intros (k & Hk & ->). assert (0 < 2 ^ k) by (by apply Z.pow_pos_nonneg). split; [lia|].
    rewrite wrap_u_id by (unfold is_uw; lia).
    replace (2 ^ k - 1) with (Z.ones k) by (rewrite Z.ones_equiv; lia).
    rewrite Z.land_ones by lia. apply Z.mod_same. lia.
Qed.

Lemma pow2_le_inv a b : 0 ≤ a → 0 ≤ b → 2 ^ a ≤ 2 ^ b → a ≤ b.
Proof. intros. destruct (Z.le_gt_cases a b); [done|]. assert (2 ^ b < 2 ^ a) by (apply Z.pow_lt_mono_r; lia). lia. Qed.

Lemma round_up_spec w n : 0 < w → is_uw w n → n ≠ 0 →
  if decide (n ≤ 2 ^ (w - 1)) then ∃ p, round_up_pow_of_2 w n = Ret p ∧ least_pow_above n p ∧ is_uw w p
  else round_up_pow_of_2 w n = Ret 0.
Proof.
  intros Hw [Hn Hn2] H0. unfold round_up_pow_of_2, shl1.
  rewrite (wrap_u_id w (n - 1)) by (unfold is_uw; lia).
  assert (0 ≤ n - 1) as Hn1 by lia.
  pose proof (len64_spec (n - 1) Hn1) as (Hb & Hlt & Hge). set (b := find_last_bit_set (n - 1)) in *.
  rewrite !(decide_False (P := b < 0)) by lia. case_decide as Hle.
  - assert (b ≤ w - 1) as Hbw.
    { destruct Hge as [?|Hge]; [lia|]. destruct (Z.le_gt_cases b (w - 1)); [done|].
      assert (2 ^ (w - 1) ≤ 2 ^ (b - 1)) by (apply Z.pow_le_mono_r; lia). lia. }
    assert (is_uw w (2 ^ b)) as Hr.
    { split; [by apply Z.pow_nonneg|]. apply Z.pow_lt_mono_r; lia. }
    exists (2 ^ b). rewrite wrap_u_id by done. split_and!; [done| |done]. split_and!; [by exists b|lia|].
    intros q (k & Hk & ->) Hq. apply Z.pow_le_mono_r; [lia|]. destruct Hge as [?|Hge]; [lia|].
    destruct (Z.le_gt_cases b k); [done|]. assert (2 ^ k ≤ 2 ^ (b - 1)) by (apply Z.pow_le_mono_r; lia). lia.
  - assert (b = w) as ->.
    { eapply bit_length_unique; [by split_and!|]. split_and!; [lia|lia|right; lia]. }
    f_equal. unfold wrap_u. apply Z.mod_same. assert (0 < 2 ^ w) by (apply Z.pow_pos_nonneg; lia). lia.
Qed.
Lemma round_up_0 w : 0 < w → round_up_pow_of_2 w 0 = Ret 0.
Proof.
  intros Hw. unfold round_up_pow_of_2, shl1. assert (0 < 2 ^ w) by (apply Z.pow_pos_nonneg; lia).
  assert (wrap_u w (0 - 1) = 2 ^ w - 1) as ->.
  { unfold wrap_u. symmetry. apply (Z.mod_unique _ _ (-1)); lia. }
  assert (0 ≤ 2 ^ w - 1) as Hp by lia. pose proof (len64_spec _ Hp) as Hl.
  assert (find_last_bit_set (2 ^ w - 1) = w) as ->.
  { eapply bit_length_unique; [done|]. split_and!; [lia|lia|right].
    assert (2 ^ (w - 1) < 2 ^ w) by (apply Z.pow_lt_mono_r; lia). lia. }
  rewrite decide_False by lia. f_equal. unfold wrap_u. apply Z.mod_same. lia.
Qed.

Lemma round_down_spec w n : 0 < w → is_uw w n →
  if decide (n = 0) then round_down_pow_of_2 w n = Panic PShift
  else ∃ p, round_down_pow_of_2 w n = Ret p ∧ greatest_pow_below n p.
Proof.
  intros Hw [Hn Hn2]. unfold round_down_pow_of_2, shl1.
  case_decide as E; [by subst|]. pose proof (len64_spec n Hn) as (Hb & Hlt & Hge). set (b := find_last_bit_set n) in *.
  assert (b ≠ 0) by (intros E2; rewrite E2 in Hlt; change (2 ^ 0) with 1 in Hlt; lia).
  destruct Hge as [?|Hge]; [done|]. rewrite decide_False by lia.
  exists (2 ^ (b - 1)). split.
  - f_equal. apply wrap_u_id. split; [by apply Z.pow_nonneg|lia].
  - split_and!; [exists (b - 1); split; [lia|done]|done|]. intros q (k & Hk & ->) Hq. apply Z.pow_le_mono_r; [lia|].
    destruct (Z.le_gt_cases k (b - 1)); [done|]. assert (2 ^ b ≤ 2 ^ k) by (apply Z.pow_le_mono_r; lia). lia.
Qed.

(** ** Split *)
Lemma split_ok n m : 0 < n → 0 < m → n + m ≤ 2 ^ 64 →
  ∃ per last k, split n m = Ret (per, last) ∧ 0 < last ≤ per ∧ 0 ≤ k < m ∧ k * per + last = n ∧
    per = (n + m - 1) / m.
Proof.
  intros Hn Hm Hlt. unfold split, udiv, umod.
  assert (u64 (u64 (n + m) - 1) = n + m - 1) as ->.
  { unfold u64, wrap_u. rewrite Zminus_mod_idemp_l. apply Z.mod_small. lia. }
  rewrite decide_False by lia. cbn. set (per := (n + m - 1) / m).
  assert (n ≤ m * per ∧ 1 ≤ per) as [Hmp Hp].
  { subst per. pose proof (Z.mod_pos_bound (n + m - 1) m Hm). pose proof (Z.div_mod (n + m - 1) m ltac:(lia)).
    split; [nia|]. apply Z.div_le_lower_bound; lia. }
  rewrite decide_False by lia. cbn.
  pose proof (Z.mod_pos_bound n per ltac:(lia)). pose proof (Z.div_mod n per ltac:(lia)).
  case_decide as E.
  - exists per, per, (n / per - 1). split_and!; [done|lia|lia|..|nia|done].
    + destruct (Z.le_gt_cases (n / per) 0); [|lia]. assert (per * (n / per) ≤ 0) by (apply Z.mul_nonneg_nonpos; lia). lia.
    + nia.
  - exists per, (n mod per), (n / per). split_and!; [done|lia|lia|..|nia|done].
    + apply Z.div_pos; lia.
    + nia.
Qed.
Lemma split_exact n m : 0 < n → 0 < m → n + m ≤ 2 ^ 64 →
  (∃ per last, split n m = Ret (per, last) ∧ (m - 1) * per + last = n) ↔ (m - 1) * ((n + m - 1) / m) < n.
Proof.
  intros Hn Hm Hlt. destruct (split_ok n m Hn Hm Hlt) as (per & last & k & E & Hl & Hk & Hs & Ep). rewrite <-Ep. split.
  - intros (p & l & E' & Hs'). rewrite E in E'. injection E' as <- <-. lia.
  - intros Hx. exists per, last. split; [done|]. assert (k = m - 1); [|subst; lia]. nia.
Qed.
Lemma split_panics n m : is_u64 n → is_u64 m → (n = 0 ∨ m = 0) → split n m = Panic PDivZero.
Proof.
  intros Hn Hm H0. unfold split, udiv, umod. case_decide as E; [done|]. cbn. destruct H0 as [->|?]; [|done].
  assert (u64 (u64 (0 + m) - 1) = m - 1) as ->.
  { unfold is_u64 in *. unfold u64, wrap_u. rewrite Zminus_mod_idemp_l. rewrite Z.mod_small; lia. }
  rewrite Z.div_small by (unfold is_u64 in *; lia). done.
Qed.

Lemma min_max_spec a b : (min a b = a ∨ min a b = b) ∧ min a b ≤ a ∧ min a b ≤ b ∧
  (max a b = a ∨ max a b = b) ∧ a ≤ max a b ∧ b ≤ max a b.
Proof. unfold min, max. repeat case_decide; split_and!; try lia; auto. Qed.
Lemma abs_spec w a : 0 < w → is_iw w a → a ≠ - 2 ^ (w - 1) → abs w a = Z.abs a.
Proof.
  intros Hw [? ?] Hne. unfold abs. case_decide; [|lia]. unfold wrap_i.
  assert (2 ^ w = 2 * 2 ^ (w - 1)) by (rewrite <-Z.pow_succ_r by lia; f_equal; lia).
  rewrite Z.mod_small by lia. lia.
Qed.
Lemma abs_min w : 0 < w → abs w (- 2 ^ (w - 1)) = - 2 ^ (w - 1).
Proof.
  intros Hw. unfold abs. assert (0 < 2 ^ (w - 1)) by (apply Z.pow_pos_nonneg; lia). rewrite decide_True by lia.
  assert (2 ^ w = 2 * 2 ^ (w - 1)) as E by (rewrite <-Z.pow_succ_r by lia; f_equal; lia).
  unfold wrap_i. rewrite Z.opp_involutive, E. replace (2 ^ (w - 1) + 2 ^ (w - 1)) with (2 * 2 ^ (w - 1)) by lia.
  rewrite Z.mod_same by lia. lia.
Qed.
Close Scope Z_scope.

(** ** Set *)
Section SetP.
  Context {T : Type} (eqb : T → T → bool) (HE : equality eqb).

  Lemma contains_spec s x : set_contains eqb s x = true ↔ ∃ y, y ∈ s ∧ eqb y x = true.
  Proof. unfold set_contains. rewrite existsb_exists. setoid_rewrite elem_of_list_In. done. Qed.

  Lemma add_contains s x y : set_contains eqb (set_add eqb s x) y = (eqb x y || set_contains eqb s y).
  Proof.
    destruct HE as (Hr & Hs & Ht). unfold set_add. destruct (set_contains eqb s x) eqn:E.
    - destruct (eqb x y) eqn:Exy; [|done]. simpl. apply contains_spec in E as (z & Hz & E). apply contains_spec. eauto.
    - unfold set_contains. rewrite existsb_app. simpl. rewrite orb_false_r. apply orb_comm.
  Qed.
  Lemma remove_contains s x y : set_contains eqb (set_remove eqb s x) y = (negb (eqb x y) && set_contains eqb s y).
  Proof.
    destruct HE as (Hr & Hs & Ht). apply eq_true_iff_eq. rewrite andb_true_iff, negb_true_iff, !contains_spec.
    unfold set_remove. setoid_rewrite elem_of_list_filter. split.
    - intros (z & [Hz Hin] & Ez). split; [|eauto]. destruct (eqb x y) eqn:E; [|done].
      rewrite <-Hz. symmetry. eapply Ht; [exact Ez|]. by rewrite Hs.
    - intros (Hn & z & Hin & Ez). exists z. split_and!; [|done|done]. destruct (eqb z x) eqn:E; [|done].
      rewrite <-Hn. symmetry. eapply Ht; [|exact Ez]. by rewrite Hs.
  Qed.

  Lemma set_run_contains ops x : set_contains eqb (set_run eqb ops) x = last_is_add eqb (reverse ops) x.
  Proof.
    unfold set_run. induction ops as [|o ops IH] using rev_ind; [done|].
    rewrite foldl_app, reverse_app. simpl. destruct o as [y|y]; simpl.
    - rewrite add_contains, IH. by destruct (eqb y x).
    - rewrite remove_contains, IH. by destruct (eqb y x).
  Qed.

  Definition distinct (s : list T) : Prop := ∀ i j x y, s !! i = Some x → s !! j = Some y → eqb x y = true → i = j.
  Lemma distinct_cons a s : distinct (a :: s) ↔ (∀ y, y ∈ s → eqb a y = false) ∧ distinct s.
  Proof.
    destruct HE as (Hr & Hs & Ht). split.
    - intros HD. split.
      + intros y (j & Hj)%elem_of_list_lookup. destruct (eqb a y) eqn:E; [|done]. by specialize (HD 0 (S j) a y eq_refl Hj E).
      + intros i j x y Hi Hj E. specialize (HD (S i) (S j) x y Hi Hj E). congruence.
    - intros [H1 H2] [|i] [|j] x y Hi Hj E; simpl in *.
      + done.
      + injection Hi as <-. rewrite H1 in E; [done|]. by eapply elem_of_list_lookup_2.
      + injection Hj as <-. rewrite Hs, H1 in E; [done|]. by eapply elem_of_list_lookup_2.
      + f_equal. by eapply H2.
  Qed.
  Lemma distinct_filter s P `{!∀ x, Decision (P x)} : distinct s → distinct (filter P s).
  Proof.
    induction s as [|a s IH]; [done|]. rewrite distinct_cons. intros [H1 H2]. rewrite filter_cons. case_decide; [|auto].
    apply distinct_cons. split; [|auto]. intros y [_ Hy]%elem_of_list_filter. auto.
  Qed.
  Lemma distinct_snoc s x : distinct s → set_contains eqb s x = false → distinct (s ++ [x]).
  Proof.
    induction s as [|a s IH]; intros HD Hc; [apply distinct_cons; split; [set_solver|done]|].
    apply distinct_cons in HD as [H1 H2]. simpl in Hc. apply orb_false_iff in Hc as [Hc1 Hc2].
    apply distinct_cons. split; [|auto]. intros y [?| ->%elem_of_list_singleton]%elem_of_app; auto.
  Qed.
  Lemma set_run_distinct ops : distinct (set_run eqb ops).
  Proof.
    unfold set_run. induction ops as [|o ops IH] using rev_ind; [done|]. rewrite foldl_app. simpl. destruct o as [y|y]; simpl.
    - unfold set_add. destruct (set_contains _ _ _) eqn:E; [done|]. by apply distinct_snoc.
    - by apply distinct_filter.
  Qed.
  (** two enumerations have the same length *)
  Lemma distinct_le c c' : distinct c → (∀ x, x ∈ c → ∃ y, y ∈ c' ∧ eqb y x = true) → length c ≤ length c'.
  Proof.
    destruct HE as (Hr & Hs & Ht). revert c'. induction c as [|a c IH]; intros c' HD Hin; [simpl; lia|].
    apply distinct_cons in HD as [H1 H2]. destruct (Hin a) as (y & Hy & Ey); [left|].
    apply elem_of_list_split in Hy as (l1 & l2 & ->).
    assert (length c ≤ length (l1 ++ l2)) as Hle.
    { apply IH; [done|]. intros x Hx. destruct (Hin x) as (z & Hz & Ez); [by right|]. exists z. split; [|done].
      assert (z ∈ y :: l1 ++ l2) as Hz' by (revert Hz; rewrite !elem_of_app, !elem_of_cons, elem_of_app; tauto).
      apply elem_of_cons in Hz' as [->|?]; [|done]. exfalso. specialize (H1 x Hx).
      assert (eqb a x = true); [|congruence]. eapply Ht; [|exact Ez]. by rewrite Hs. }
    rewrite app_length in *. simpl. lia.
  Qed.
  Lemma set_run_len ops c : enumerates eqb (λ x, last_is_add eqb (reverse ops) x = true) c → set_len (set_run eqb ops) = length c.
  Proof.
    intros [Hc HD]. unfold set_len. destruct HE as (Hr & Hs & Ht). apply (anti_symm le).
    - apply distinct_le; [apply set_run_distinct|]. intros x Hx. apply Hc. rewrite <-set_run_contains. apply contains_spec. eauto.
    - apply distinct_le; [exact HD|]. intros x Hx. apply contains_spec. rewrite set_run_contains. apply Hc. eauto.
  Qed.
  Lemma set_enum ops : enumerates eqb (λ x, last_is_add eqb (reverse ops) x = true) (set_run eqb ops).
  Proof. split; [|apply set_run_distinct]. intros x. by rewrite <-set_run_contains, contains_spec. Qed.
End SetP.
