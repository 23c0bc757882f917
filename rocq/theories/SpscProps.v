(** * Property C19: one producer, one consumer *)
From Verif Require Import GoBase MathModel MathProofs RingModel RingProofs SpscModel SpscProofs.

Definition t n := replicate n true.
Definition f n := replicate n false.

(** Push publishes the slot before filling it: the consumer receives the zero value (0) instead of 7. *)
Theorem spsc_push_refuted : ∃ sched, ∀ ix, ix = fix_ix 2 ∨ ix = round_ix 2 →
  c_recv (exec (init 2 ix 0 [QPush 7] [QPop]) sched) = [0] ∧
  c_prod (exec (init 2 ix 0 [QPush 7] [QPop]) (sched ++ t 1)) = PRet tt.
Proof. exists (t 5 ++ f 7). intros ix [-> | ->]; by vm_compute. Qed.
Print Assumptions spsc_push_refuted.
(** Pop frees the slot before reading it: the third element overtakes the first, although Push was never concurrent with itself. *)
Theorem spsc_pop_refuted : ∃ sched, ∀ ix, ix = fix_ix 2 ∨ ix = round_ix 2 →
  c_recv (exec (init 2 ix 0 [QMPush [1; 2] []; QMPush [3] []] [QPop]) sched) = [3].
Proof. exists (t 8 ++ f 5 ++ t 7 ++ f 2). intros ix [-> | ->]; by vm_compute. Qed.
Print Assumptions spsc_pop_refuted.
(** MPush reads Avail twice: when the consumer frees space in between, elems[:size] is longer than elems; that panics,
    or, if the backing array is longer, publishes an element (9) the caller did not pass. *)
Theorem spsc_mpush_refuted : ∃ sched,
  c_prod (exec (init 3 (fix_ix 3) 0 [QMPush [1; 2] []; QMPush [4; 5] []] [QMPop 2]) sched) = PPanic ∧
  let s := exec (init 3 (fix_ix 3) 0 [QMPush [1; 2] []; QMPush [4; 5] [9; 9]] [QMPop 2; QMPop 3]) (sched ++ t 8 ++ f 20) in
  c_prod s = PRet tt ∧ c_recv s = [1; 2; 4; 5; 9].
Proof. exists (t 10 ++ f 10 ++ t 10). by vm_compute. Qed.
Print Assumptions spsc_mpush_refuted.
(** MPop reads Len twice and can return more elements than requested. *)
Theorem spsc_mpop_too_many : ∃ sched, ∀ ix, ix = fix_ix 4 ∨ ix = round_ix 4 →
  c_recv (exec (init 4 ix 0 [QMPush [1] []; QMPush [2; 3] []] [QMPop 2]) sched) = [1; 2; 3].
Proof. exists (t 6 ++ f 2 ++ t 8 ++ f 10). intros ix [-> | ->]; by vm_compute. Qed.
Print Assumptions spsc_mpop_too_many.

(** What does hold, for every schedule: with MPush on exact slices (cap = len) against MPop/MPopCopy the consumer receives
    a prefix of the accepted elements, which are a prefix of each call's elements in call order; nothing that is in the
    ring is lost; the consumer never panics; the producer does only if some call passes fewer elements than the capacity. *)
Definition bulk_pops (cs : list ccall) : Prop :=
  Forall (λ q, match q with QPop => False | QMPop n | QMPopCopy n => (0 ≤ n)%Z end) cs.
Definition bulk_safe {T} (c : nat) (calls : list (list T)) (s : config) : Prop :=
  ∃ H, accepted calls H ∧ c_recv s `prefix_of` H ∧ m_in (c_mem s) = u64 (Z.of_nat (length H)) ∧ c_cons s ≠ PPanic ∧
      (∀ u, c_cons s = PRet u → m_in (c_mem s) = m_out (c_mem s) → c_recv s = H) ∧
      (c_prod s = PPanic → Exists (λ es, length es < c) calls).
Theorem spsc_fix_bulk_partial : ∀ (T : Type) (dv : T) (c : nat) (calls : list (list T)) (cs : list ccall) (sched : list bool),
  (0 < Z.of_nat c < 2 ^ 63)%Z → (Z.of_nat (length (concat calls)) < 2 ^ 64 ∨ (Z.of_nat c | 2 ^ 64))%Z → bulk_pops cs →
  bulk_safe c calls (exec (init c (fix_ix c) dv ((λ es, QMPush es []) <$> calls) cs) sched).
Proof.
  intros T dv c calls cs sched Hc Hg Hcs. apply (spsc_bulk c (fix_ix c)); try done; [lia|lia|].
  intros N HN. unfold fix_ix. rewrite good_mod by (lia || done). by rewrite Nat2Z.id.
Qed.
Print Assumptions spsc_fix_bulk_partial.
Theorem spsc_round_bulk_partial : ∀ (T : Type) (dv : T) (e : Z) (calls : list (list T)) (cs : list ccall) (sched : list bool),
  (0 ≤ e ≤ 62)%Z → bulk_pops cs → let c := Z.to_nat (2 ^ e) in
  bulk_safe c calls (exec (init c (round_ix c) dv ((λ es, QMPush es []) <$> calls) cs) sched).
Proof.
  intros T dv e calls cs sched He Hcs c. assert (0 < 2 ^ e)%Z by (apply Z.pow_pos_nonneg; lia).
  assert (2 ^ e ≤ 2 ^ 62)%Z by (apply Z.pow_le_mono_r; lia). assert (Z.of_nat c = 2 ^ e)%Z as Ec by lia.
  apply (spsc_bulk c (round_ix c)); try done; [lia|lia| |].
  - intros N HN. unfold round_ix. rewrite Ec. replace (2 ^ e - 1)%Z with (Z.ones e) by (rewrite Z.ones_equiv; lia).
    rewrite Z.land_ones by lia. rewrite <-Ec, good_mod by (lia || done). by rewrite Nat2Z.id.
  - right. rewrite Ec. apply pow2_divides. lia.
Qed.
Print Assumptions spsc_round_bulk_partial.
Example spsc_case : let s := exec (init 3 (fix_ix 3) 0 [QMPush [1; 2] []; QMPush [3; 4] []; QMPush [5; 6; 7] []] [QMPop 5; QMPopCopy 1; QMPop 9])
    (t 11 ++ f 3 ++ t 9 ++ f 3 ++ t 2 ++ f 30 ++ t 20) in
  c_prod s = PRet tt ∧ c_recv s = [1; 2; 3] ∧ c_cons s = PRet tt ∧ accepted [[1; 2]; [3; 4]; [5; 6; 7]] [1; 2; 3].
Proof.
  split_and!; [by vm_compute..|]. exists [[1; 2]; [3]]. split; [|done]. repeat constructor; [by exists []|by exists [4]].
Qed.
