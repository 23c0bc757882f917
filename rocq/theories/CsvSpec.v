(** * The tables that comma-separated text denotes *)
From Verif Require Import GoStr.
Local Open Scope Z_scope.

(** a line ends with LF or CR LF; a CR at the very end of the text does not count *)
Fixpoint line_ends (s : gostr) : gostr :=
  match s with
  | [] => []
  | 13 :: ((10 :: _) as t) => line_ends t
  | [13] => []
  | c :: t => c :: line_ends t
  end.
(** a quoted field: every quote inside is doubled *)
Definition quoted (f : gostr) : gostr := 34 :: (f ≫= λ x, if decide (x = 34) then [34; 34] else [x]) ++ [34].
Inductive is_field : gostr → gostr → Prop :=
| field_plain b : 44 ∉ b → 34 ∉ b → 10 ∉ b → is_field b b
| field_quoted f : is_field f (quoted f).
(** fields separated by commas *)
Inductive is_row : list gostr → gostr → Prop :=
| row_one f b : is_field f b → is_row [f] b
| row_more f b fs t : is_field f b → is_row fs t → is_row (f :: fs) (b ++ 44 :: t).
(** rows separated by line ends; empty lines do not count *)
Inductive is_rows : list (list gostr) → gostr → Prop :=
| rows_none : is_rows [] []
| rows_blank rs t : is_rows rs t → is_rows rs (10 :: t)
| rows_last r b : is_row r b → b ≠ [] → is_rows [r] b
| rows_more r b rs t : is_row r b → b ≠ [] → is_rows rs t → is_rows (r :: rs) (b ++ 10 :: t).
(** all rows have the same number of fields *)
Definition rectangular (rs : list (list gostr)) : Prop := ∀ r r', r ∈ rs → r' ∈ rs → length r = length r'.
Definition denotes (rs : list (list gostr)) (s : gostr) : Prop := is_rows rs (line_ends s) ∧ rectangular rs.
