(** * Specifications for the arithmetic helpers and Set *)
From Verif Require Import GoBase MathModel.
Local Open Scope Z_scope.

Definition power_of_two (p : Z) : Prop := ∃ k, 0 ≤ k ∧ p = 2 ^ k.
(** b is the number of binary digits of x *)
Definition bit_length (x b : Z) : Prop := 0 ≤ b ∧ x < 2 ^ b ∧ (b = 0 ∨ 2 ^ (b - 1) ≤ x).
Definition least_pow_above (n p : Z) : Prop := power_of_two p ∧ n ≤ p ∧ ∀ q, power_of_two q → n ≤ q → p ≤ q.
Definition greatest_pow_below (n p : Z) : Prop := power_of_two p ∧ p ≤ n ∧ ∀ q, power_of_two q → q ≤ n → q ≤ p.
Close Scope Z_scope.

Section SetSpec.
  Context {T : Type} (eqb : T → T → bool).
  (** Was the last call about (a value equal to) x an Add?  Histories newest first. *)
  Fixpoint last_is_add (rev_ops : list (setop T)) (x : T) : bool :=
    match rev_ops with
    | [] => false
    | SetAdd y :: os => if eqb y x then true else last_is_add os x
    | SetRemove y :: os => if eqb y x then false else last_is_add os x
    end.
  Definition equality : Prop :=
    (∀ x, eqb x x = true) ∧ (∀ x y, eqb x y = eqb y x) ∧ (∀ x y z, eqb x y = true → eqb y z = true → eqb x z = true).
  (** [c] lists each member (up to ==) exactly once. *)
  Definition enumerates (P : T → Prop) (c : list T) : Prop :=
    (∀ x, P x ↔ ∃ y, y ∈ c ∧ eqb y x = true) ∧
    (∀ i j x y, c !! i = Some x → c !! j = Some y → eqb x y = true → i = j).
End SetSpec.
