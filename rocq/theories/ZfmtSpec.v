(** * What an archive is for: the files that went in come out, or an error is reported *)
From Verif Require Import GoStr PathModel ZfmtModel.
Local Open Scope Z_scope.

(** ** CRC-32, as a remainder of polynomials over the field of two elements: bit [k] of a number is the
    coefficient of x^k, the sum is [Z.lxor] *)
(** the multiples of [P]: sums of x^k * P *)
Definition multiple (P a : Z) : Prop := ∃ ks : list nat, a = foldr (λ k s, Z.lxor (Z.shiftl P (Z.of_nat k)) s) 0 ks.
Definition congruent (P a b : Z) : Prop := multiple P (Z.lxor a b).
(** the bits of a text in the order they are sent, the lowest of each byte first, and their polynomial: the
    first bit is the highest coefficient *)
Definition byte_bits (v : Z) : list bool := (λ k, Z.testbit v (Z.of_nat k)) <$> seq 0 8.
Definition text_bits (x : gostr) : list bool := x ≫= byte_bits.
Definition text_poly (bs : list bool) : Z := foldl (λ a b, Z.lxor (Z.shiftl a 1) (Z.b2z b)) 0 bs.
(** the number whose lowest [n] bits are those of [r] in reverse *)
Fixpoint reflect (n : nat) (r : Z) : Z := match n with O => 0 | S n => Z.lxor (Z.shiftl (Z.b2z (Z.testbit r 0)) (Z.of_nat n)) (reflect n (Z.shiftr r 1)) end.
(** x^32+x^26+x^23+x^22+x^16+x^12+x^11+x^10+x^8+x^7+x^5+x^4+x^2+x+1 *)
Definition crc_polynomial : Z := foldr (λ k s, Z.lxor (2 ^ k) s) 0 [32; 26; 23; 22; 16; 12; 11; 10; 8; 7; 5; 4; 2; 1; 0].
(** the text times x^32, its first 32 bits inverted, modulo the polynomial, inverted and with the bits reversed *)
Definition crc_of (x : gostr) (c : Z) : Prop :=
  ∃ r, 0 ≤ r < 2 ^ 32 ∧ congruent crc_polynomial (Z.lxor (Z.shiftl (text_poly (text_bits x)) 32) (Z.shiftl (2 ^ 32 - 1) (Z.of_nat (length (text_bits x))))) r ∧
    c = reflect 32 (Z.lxor r (2 ^ 32 - 1)).
(** the texts differ, but only in some of at most four bytes in a row *)
Definition near (d d' : gostr) : Prop := ∃ a b b' z, d = a ++ b ++ z ∧ d' = a ++ b' ++ z ∧ length b = length b' ∧ (length b ≤ 4)%nat ∧ b ≠ b'.
Definition bytes (x : gostr) : Prop := Forall (λ c, 0 ≤ c < 256) x.

(** ** files that fit into an archive: the name is not too long and has no zero byte, a name with a slash at
    the end is for a directory *)
Record fits (f : wfile) : Prop := Fits {
  fits_name : Z.of_nat (length (w_name f)) < 65536;
  fits_bytes : Forall (λ c, 0 < c < 256) (w_name f);
  fits_perm : 0 ≤ w_perm f < 4096;
  fits_size : Z.of_nat (length (w_data f)) < 2 ^ 62;
  fits_slash : last (w_name f) = Some 47 → w_data f = [] }.
(** what is to come out for a file *)
Definition comes_out (f : wfile) (i : item) : Prop :=
  i_name i = w_name f ∧
  (w_isdir f = true ∨ last (w_name f) = Some 47 → i_dir i = true) ∧
  (w_isdir f = false ∧ last (w_name f) ≠ Some 47 → i_dir i = false ∧ i_data i = Some (w_data f)).
(** how much comes out *)
Definition output (is : list item) : Z := foldr (λ i n, n + match i_data i with Some d => Z.of_nat (length d) | None => 0 end) 0 is.
(** the headers say what the entry says *)
Definition faithful_meta (meta : entry → wfile) (e : entry) : Prop := w_name (meta e) = e_name e ∧ w_isdir (meta e) = e_isdir e ∧ w_data (meta e) = e_data e.
