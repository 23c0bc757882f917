(** * The calendar *)
From Verif Require Import GoStr ConvSpec.
Local Open Scope Z_scope.

(** year, month, day *)
Definition date : Type := Z * Z * Z.
Definition leap (y : Z) : Prop := (4 | y) ∧ (¬ (100 | y) ∨ (400 | y)).
(** the length of a month *)
Definition month_length (y m n : Z) : Prop :=
  m ∈ [1; 3; 5; 7; 8; 10; 12] ∧ n = 31 ∨ m ∈ [4; 6; 9; 11] ∧ n = 30 ∨ m = 2 ∧ (leap y ∧ n = 29 ∨ ¬ leap y ∧ n = 28).
(** the day after a day *)
Inductive next_day : date → date → Prop :=
| next_same y m d n : month_length y m n → 1 ≤ d < n → next_day (y, m, d) (y, m, d + 1)
| next_month y m n : month_length y m n → m < 12 → next_day (y, m, n) (y, m + 1, 1)
| next_year y : next_day (y, 12, 31) (y + 1, 1, 1).
(** the date of the day [n] days after 1 January 1970, for negative [n] before it *)
Inductive day_number : Z → date → Prop :=
| day_0 : day_number 0 (1970, 1, 1)
| day_after n a b : day_number n a → next_day a b → day_number (n + 1) b
| day_before n a b : day_number n b → next_day a b → day_number (n - 1) a.
(** order of dates *)
Definition date_lt (a b : date) : Prop :=
  let '(y, m, d) := a in let '(y', m', d') := b in y < y' ∨ y = y' ∧ (m < m' ∨ m = m' ∧ d < d').
(** a number written with at least [w] digits *)
Definition padded (w : nat) (n : Z) (s : gostr) : Prop :=
  Forall digit s ∧ value s = n ∧ (w ≤ length s)%nat ∧ ((w < length s)%nat → head s ≠ Some 48).
(** the path of a date: year/month/day *)
Definition date_path (a : date) (s : gostr) : Prop :=
  let '(y, m, d) := a in ∃ sy sm sd, s = (if decide (y < 0) then [45] else []) ++ sy ++ [47] ++ sm ++ [47] ++ sd ∧
    padded 4 (Z.abs y) sy ∧ padded 2 m sm ∧ padded 2 d sd.
(** the order of strings in Go: by the first byte that differs *)
Definition str_before (s t : gostr) : Prop := ∃ p x y u v, s = p ++ x :: u ∧ t = p ++ y :: v ∧ x < y.
