(** * Properties C14 and C20-C22 *)
From Verif Require Import GoBase MathModel MathSpec MathProofs.
From Coq Require Import Floats.SpecFloat.

(** C14: for element types whose == is an equivalence (everything but floats holding NaN). *)
Theorem set_contains_and_len_partial : ∀ (T : Type) (eqb : T → T → bool), equality eqb → ∀ ops : list (setop T),
  (∀ x, set_contains eqb (set_run eqb ops) x = last_is_add eqb (reverse ops) x) ∧
  (∀ c, enumerates eqb (λ x, last_is_add eqb (reverse ops) x = true) c →
     set_len (set_run eqb ops) = length c ∧ set_empty (set_run eqb ops) = Nat.eqb (length c) 0) ∧
  (∃ c, enumerates eqb (λ x, last_is_add eqb (reverse ops) x = true) c).
Proof.
  intros T eqb HE ops. split_and!.
  - intros x. by apply set_run_contains.
  - intros c Hc. unfold set_empty. by rewrite (set_run_len eqb HE ops c Hc).
  - eexists. by apply set_enum.
Qed.
Print Assumptions set_contains_and_len_partial.
Example set_case : equality Nat.eqb ∧
  let ops := [SetAdd 1; SetAdd 2; SetAdd 1; SetRemove 2; SetRemove 3; SetAdd 4] in
  set_contains Nat.eqb (set_run Nat.eqb ops) 1 = true ∧ set_contains Nat.eqb (set_run Nat.eqb ops) 2 = false ∧
  set_len (set_run Nat.eqb ops) = 2.
Proof.
  split; [|by vm_compute]. split_and!; [apply Nat.eqb_refl|apply Nat.eqb_sym|].
  intros x y z ->%Nat.eqb_eq ->%Nat.eqb_eq. apply Nat.eqb_refl.
Qed.
(** For float64 elements (IEEE ==) it fails: an added NaN is not contained, cannot be removed and counts twice. *)
Theorem set_nan_refuted : ∃ x : spec_float,
  set_contains SFeqb (set_run SFeqb [SetAdd x]) x = false ∧
  set_len (set_run SFeqb [SetAdd x; SetAdd x; SetRemove x]) = 2.
Proof. exists S754_nan. by vm_compute. Qed.
Print Assumptions set_nan_refuted.

(** C20: all unsigned widths up to 64 bits. *)
Theorem pow2_helpers_exact_partial : ∀ w n : Z, (0 < w ≤ 64)%Z → is_uw w n →
  (is_pow_of_2 w n = true ↔ power_of_two n) ∧
  (∀ b, find_last_bit_set n = b ↔ bit_length n b) ∧
  (n ≠ 0%Z → (∃ p, least_pow_above n p ∧ is_uw w p) →
     ∃ p, round_up_pow_of_2 w n = Ret p ∧ least_pow_above n p) ∧
  (n ≠ 0%Z → ∃ p, round_down_pow_of_2 w n = Ret p ∧ greatest_pow_below n p) ∧
  (* where no such value exists *)
  (n ≠ 0%Z → (∀ p, least_pow_above n p → ¬ is_uw w p) → round_up_pow_of_2 w n = Ret 0%Z) ∧
  round_up_pow_of_2 w 0 = Ret 0%Z ∧ round_down_pow_of_2 w 0 = Panic PShift.
Proof.
  intros w n [Hw _] Hn. pose proof Hn as [Hn0 _]. split_and!.
  - by apply pow_of_2_spec.
  - intros b. pose proof (len64_spec n Hn0) as Hl. split; [by intros <-|]. intros Hb. by eapply bit_length_unique.
  - intros H0 (p & (Hp & Hle & Hmin) & Hu). pose proof (round_up_spec w n Hw Hn H0) as Hr. case_decide as E; [naive_solver|].
    exfalso. destruct Hp as (k & Hk & ->). destruct Hu as [_ Hu]. apply E.
    etrans; [exact Hle|]. apply Z.pow_le_mono_r; [lia|]. destruct (Z.le_gt_cases k (w - 1)); [done|].
    assert (2 ^ w ≤ 2 ^ k)%Z by (apply Z.pow_le_mono_r; lia). lia.
  - intros H0. pose proof (round_down_spec w n Hw Hn) as Hr. by rewrite decide_False in Hr.
  - intros H0 Hno. pose proof (round_up_spec w n Hw Hn H0) as Hr. case_decide; [|done].
    destruct Hr as (p & _ & Hp & Hu). by destruct (Hno p).
  - by apply round_up_0.
  - pose proof (round_down_spec w 0 Hw) as Hr. rewrite decide_True in Hr by done. apply Hr. split; [lia|]. apply Z.pow_pos_nonneg; lia.
Qed.
Print Assumptions pow2_helpers_exact_partial.
(** At 0 the least power of two (1) is representable but RoundUpPowOf2 returns 0. *)
Theorem round_up_zero_refuted : ∀ w : Z, (0 < w ≤ 64)%Z →
  round_up_pow_of_2 w 0 = Ret 0%Z ∧ ¬ least_pow_above 0 0 ∧ least_pow_above 0 1 ∧ is_uw w 1.
Proof.
  intros w [Hw _]. split_and!.
  - by apply round_up_0.
  - intros ((k & Hk & E) & _). pose proof (Z.pow_pos_nonneg 2 k). lia.
  - split_and!; [by exists 0%Z|done|]. intros q (k & Hk & ->) _. pose proof (Z.pow_pos_nonneg 2 k). lia.
  - split; [done|]. change 1%Z with (2 ^ 0)%Z. apply Z.pow_lt_mono_r; lia.
Qed.
Print Assumptions round_up_zero_refuted.
Example pow2_case : is_uw 8 200 ∧ round_up_pow_of_2 8 100 = Ret 128%Z ∧ round_up_pow_of_2 8 200 = Ret 0%Z ∧
  round_down_pow_of_2 8 200 = Ret 128%Z ∧ is_pow_of_2 64 4096 = true ∧ is_pow_of_2 64 4097 = false ∧ find_last_bit_set 200 = 8%Z ∧ least_pow_above 100 128.
Proof.
  split; [unfold is_uw; lia|]. split_and!; try by vm_compute.
  destruct (round_up_spec 8 100) as (p & E & Hp & _); [lia|unfold is_uw; lia|lia|]. vm_compute in E. by injection E as <-.
Qed.

(** C21 is false: 3 parts of 2 and a last part of 1 do not make 5. *)
Theorem split_parts_refuted : ∃ n m per last : Z, is_u64 n ∧ is_u64 m ∧ (0 < m)%Z ∧ split n m = Ret (per, last) ∧
  ((m - 1) * per + last ≠ n)%Z.
Proof. exists 5%Z, 4%Z, 2%Z, 1%Z. unfold is_u64. split_and!; by vm_compute. Qed.
Print Assumptions split_parts_refuted.
(** Exactly when it holds (no overflow of n + m - 1), ... *)
Theorem split_exact_iff_partial : ∀ n m : Z, (0 < n)%Z → (0 < m)%Z → (n + m ≤ 2 ^ 64)%Z →
  (∃ per last, split n m = Ret (per, last) ∧ (m - 1) * per + last = n)%Z ↔ ((m - 1) * ((n + m - 1) / m) < n)%Z.
Proof. exact split_exact. Qed.
Print Assumptions split_exact_iff_partial.
(** ... what always holds: some number of parts, at most m, makes n. *)
Theorem split_covers_partial : ∀ n m : Z, (0 < n)%Z → (0 < m)%Z → (n + m ≤ 2 ^ 64)%Z →
  ∃ per last k, split n m = Ret (per, last) ∧ (0 < last ≤ per)%Z ∧ (0 ≤ k < m)%Z ∧ (k * per + last = n)%Z.
Proof. intros n m ? ? ?. destruct (split_ok n m) as (p & l & k & ? & ? & ? & ? & _); [done..|]. eauto 10. Qed.
Print Assumptions split_covers_partial.
Theorem split_zero_panics : ∀ n m : Z, is_u64 n → is_u64 m → n = 0%Z ∨ m = 0%Z → split n m = Panic PDivZero.
Proof. exact split_panics. Qed.
Print Assumptions split_zero_panics.
Example split_case : split 10 4 = Ret (3, 1)%Z ∧ split 5 4 = Ret (2, 1)%Z ∧ split (2^64 - 1) 2 = Panic PDivZero.
Proof. by vm_compute. Qed.

(** C22 is false for Abs of the least value, and for nothing else. *)
Theorem abs_refuted : ∀ w : Z, (0 < w)%Z → ∃ a, is_iw w a ∧ (abs w a < 0)%Z.
Proof.
  intros w Hw. exists (- 2 ^ (w - 1))%Z. assert (0 < 2 ^ (w - 1))%Z by (apply Z.pow_pos_nonneg; lia).
  rewrite abs_min by done. unfold is_iw. lia.
Qed.
Print Assumptions abs_refuted.
Theorem min_max_abs_partial : ∀ w a b : Z, (0 < w)%Z → is_iw w a → is_iw w b →
  ((min a b = a ∨ min a b = b) ∧ min a b ≤ a ∧ min a b ≤ b ∧ (max a b = a ∨ max a b = b) ∧ a ≤ max a b ∧ b ≤ max a b)%Z ∧
  (a ≠ - 2 ^ (w - 1) → 0 ≤ abs w a ∧ (abs w a = a ∨ abs w a = - a))%Z.
Proof.
  intros w a b Hw Ha Hb. split; [apply min_max_spec|]. intros Hne. rewrite abs_spec by done. lia.
Qed.
Print Assumptions min_max_abs_partial.
Example min_max_case : min (-3) 2 = (-3)%Z ∧ max (-3) 2 = 2%Z ∧ abs 8 (-3) = 3%Z ∧ abs 8 (-128) = (-128)%Z.
Proof. by vm_compute. Qed.
