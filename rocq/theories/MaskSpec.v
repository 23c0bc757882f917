(** * What the masking helpers should do *)
From Verif Require Import GoBase GoStr.
Local Open Scope Z_scope.

(** an 11-digit mobile number: 1 followed by ten digits *)
Definition mobile (s : gostr) : Prop := ∃ r, s = 49 :: r ∧ length r = 10%nat ∧ Forall (λ c, 48 ≤ c ≤ 57) r.
(** two lists agree outside the positions [lo, hi) *)
Definition agree_outside (lo hi : nat) (a b : list Z) : Prop := length a = length b ∧ ∀ i, (i < lo ∨ hi ≤ i)%nat → a !! i = b !! i.
(** how many characters of a name of [n] characters may be shown at either end *)
Definition shown (n : nat) : nat := if (n <=? 4)%nat then 1 else 2.
Definition ascii_text (s : gostr) : Prop := Forall (λ b, 0 ≤ b < 128) s.
(** [off] characters, [n] stars, the rest *)
Definition masked (off n : nat) (s : gostr) : gostr := take off s ++ replicate n 42 ++ drop (off + n) s.
