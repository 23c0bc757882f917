(** * What the codes for given frequencies should be: prefix codes by RFC 1951, of bounded length, for exactly the symbols that occur *)
From Verif Require Import GoBase GoStr InflSpec.
Local Open Scope Z_scope.

Definition codes_for (f : list Z) (max : nat) (cs : list (list bool)) : Prop :=
  let lens := length <$> cs in
  length cs = length f ∧ Forall (λ n, n ≤ max)%nat lens ∧ usable lens ∧
  ∀ s w x, cs !! s = Some w → f !! s = Some x → (x = 0 → w = []) ∧ (x ≠ 0 → code_of lens s w).
(** at most as many symbols as there are codes of the greatest length; the blocks of the compressor have 16385 tokens at most *)
Definition gen_ok (gen : list Z → nat → go (list (list bool))) : Prop :=
  ∀ f max, (1 ≤ max ≤ 15)%nat → Z.of_nat (length f) ≤ 2 ^ Z.of_nat max → Forall (λ x, 0 ≤ x) f → 0 < sum_Z f ≤ 16385 → ∃ cs, gen f max = Ret cs ∧ codes_for f max cs.
