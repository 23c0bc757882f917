(** * What the conversions should do *)
From Verif Require Import GoBase GoStr.
Local Open Scope Z_scope.

Definition digit (c : Z) : Prop := 48 ≤ c ≤ 57.
(** the number a digit string stands for *)
Fixpoint value_from (n : Z) (ds : gostr) : Z := match ds with [] => n | c :: r => value_from (10 * n + (c - 48)) r end.
Definition value (ds : gostr) : Z := value_from 0 ds.
(** decimal integers with an optional sign *)
Inductive decimal : gostr → Z → Prop :=
  | dec_plain ds : ds ≠ [] → Forall digit ds → decimal ds (value ds)
  | dec_plus ds : ds ≠ [] → Forall digit ds → decimal (43 :: ds) (value ds)
  | dec_minus ds : ds ≠ [] → Forall digit ds → decimal (45 :: ds) (- value ds).
Definition clamp (n : Z) : Z := Z.max (- 2 ^ 63) (Z.min (2 ^ 63 - 1) n).
