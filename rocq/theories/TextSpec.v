(** * What the text helpers should do *)
From Verif Require Import GoBase GoStr.
Local Open Scope Z_scope.

(** the wanted URL: /prefix/key/value/... *)
Fixpoint wanted_pairs (ps : list gostr) : gostr :=
  match ps with
  | k :: v :: r => (if decide (k ≠ [] ∧ v ≠ [48]) then [47] ++ k ++ [47] ++ v else []) ++ wanted_pairs r
  | _ => []
  end.
(** [t] is [s] without slashes at the end; without slashes at both ends *)
Definition untrailed (s t : gostr) : Prop := (∃ n, s = t ++ replicate n 47) ∧ last t ≠ Some 47.
Definition trimmed (s t : gostr) : Prop := (∃ n m, s = replicate n 47 ++ t ++ replicate m 47) ∧ head t ≠ Some 47 ∧ last t ≠ Some 47.
(** a path on the same site *)
Definition same_site (s : gostr) : Prop := ∃ c r, s = 47 :: c :: r ∧ c ≠ 47 ∧ c ≠ 92.

(** [t] follows the last occurrence of [sep] in [s] *)
Definition after_last (sep s t : gostr) : Prop := ∃ a, s = a ++ sep ++ t ∧ ∀ b u, s = b ++ sep ++ u → (length u ≥ length t)%nat.
Definition occurs (sep s : gostr) : Prop := ∃ a t, s = a ++ sep ++ t.
(** no proper prefix of the separator is also a suffix *)
Definition unbordered (sep : gostr) : Prop := sep ≠ [] ∧ ∀ p q r, sep = p ++ q → sep = q ++ r → q = [] ∨ p = [].

(** letters equal up to ASCII case *)
Definition same_letter (a b : Z) : Prop := a = b ∨ (65 ≤ a ≤ 90 ∧ b = a + 32) ∨ (65 ≤ b ≤ 90 ∧ a = b + 32).
(** the extensions of the pictures the helpers know *)
Definition picture_exts : list gostr := [str "jpeg"; str "jpg"; str "gif"; str "png"; str "bmp"; str "tif"; str "tiff"].
(** the character classes of RandStr *)
Definition of_kind (kind c : Z) : Prop :=
  match kind with
  | 0 => 48 ≤ c ≤ 57 | 1 => 97 ≤ c ≤ 122 | 2 => 65 ≤ c ≤ 90
  | _ => 48 ≤ c ≤ 57 ∨ 97 ≤ c ≤ 122 ∨ 65 ≤ c ≤ 90
  end.
