(** * What FIPS 197 says of the parts of the block cipher *)
From Verif Require Import GoBase GoStr.
Local Open Scope Z_scope.

(** a block *)
Definition is_block (b : list Z) : Prop := length b = 16%nat ∧ Forall byte b.
(** polynomials over GF(2): the product of [a] and [b], of [n] bits, and the remainder modulo
    x^8 + x^4 + x^3 + x + 1 of one with [n] bits above the eighth *)
Fixpoint clmul (n : nat) (a b : Z) : Z :=
  match n with O => 0 | S n => Z.lxor (clmul n a b) (if Z.testbit b (Z.of_nat n) then Z.shiftl a (Z.of_nat n) else 0) end.
Fixpoint clmod (n : nat) (a : Z) : Z :=
  match n with O => a | S n => clmod n (if Z.testbit a (Z.of_nat n + 8) then Z.lxor a (Z.shiftl 283 (Z.of_nat n)) else a) end.
Definition gmul (a b : Z) : Z := clmod 8 (clmul 8 a b).
(** the affine transformation of FIPS 197 (5.1), bit by bit *)
Definition affine_bit (b i : Z) : bool :=
  xorb (xorb (xorb (Z.testbit b i) (Z.testbit b ((i + 4) mod 8))) (xorb (Z.testbit b ((i + 5) mod 8)) (Z.testbit b ((i + 6) mod 8))))
       (xorb (Z.testbit b ((i + 7) mod 8)) (Z.testbit 99 i)).
(** the byte in row [r] and column [c] of a block *)
Definition cell (s : list Z) (r c : nat) : option Z := s !! (4 * c + r)%nat.
(** the sum over a column of a block of products with a row of a matrix *)
Definition dot_column (m : list Z) (s : list Z) (c : nat) : option Z :=
  a ← cell s 0 c; b ← cell s 1 c; d ← cell s 2 c; e ← cell s 3 c;
  match m with [m0; m1; m2; m3] => Some (Z.lxor (Z.lxor (gmul m0 a) (gmul m1 b)) (Z.lxor (gmul m2 d) (gmul m3 e))) | _ => None end.
(** FIPS 197 5.2: the words of the key schedule *)
Definition xor_word (a b : list Z) : list Z := zip_with Z.lxor a b.
Definition schedule (sbox : Z → Z) (key : list Z) (w : nat → list Z) : Prop :=
  let nk := (length key / 4)%nat in
  (∀ i, (i < nk)%nat → w i = take 4 (drop (4 * i) key)) ∧
  ∀ i, (nk ≤ i < 4 * (nk + 7))%nat → w i = xor_word (w (i - nk)%nat)
    (let t := w (i - 1)%nat in
     if decide (i mod nk = 0)%nat then xor_word (sbox <$> (drop 1 t ++ take 1 t)) [Nat.iter (i / nk - 1) (gmul 2) 1; 0; 0; 0]
     else if decide (6 < nk ∧ i mod nk = 4)%nat then sbox <$> t else t).
(** FIPS 197 5.1.1: the S-box is the affine image of the inverse, 0 standing for its own *)
Definition is_sbox (f : Z → Z) : Prop := ∀ b, byte b → ∃ c, byte c ∧ (b = 0 ∧ c = 0 ∨ gmul b c = 1) ∧ byte (f b) ∧ ∀ i, 0 ≤ i < 8 → Z.testbit (f b) i = affine_bit c i.
(** 5.1.2, 5.1.3, 5.1.4 *)
Definition rows_shifted (s t : list Z) : Prop := length t = 16%nat ∧ ∀ r c, (r < 4)%nat → (c < 4)%nat → cell t r c = cell s r ((c + r) mod 4).
Definition columns_mixed (s t : list Z) : Prop := length t = 16%nat ∧ ∀ r c, (r < 4)%nat → (c < 4)%nat →
  cell t r c = dot_column (default [] ([[2; 3; 1; 1]; [1; 2; 3; 1]; [1; 1; 2; 3]; [3; 1; 1; 2]] !! r)) s c.
Definition key_added (w : nat → list Z) (r : nat) (s t : list Z) : Prop := t = xor_word s (w (4 * r)%nat ++ w (4 * r + 1)%nat ++ w (4 * r + 2)%nat ++ w (4 * r + 3)%nat).
(** 5.1: [c] is the encryption of the block [b]; [st r] is the state after round [r] *)
Definition is_aes (key b c : list Z) : Prop := ∃ sbox w st, is_sbox sbox ∧ schedule sbox key w ∧
  let nr := (length key / 4 + 6)%nat in
  key_added w 0 b (st 0%nat) ∧
  (∀ r, (1 ≤ r < nr)%nat → ∃ u v, rows_shifted (sbox <$> st (r - 1)%nat) u ∧ columns_mixed u v ∧ key_added w r v (st r)) ∧
  ∃ u, rows_shifted (sbox <$> st (nr - 1)%nat) u ∧ key_added w nr u c.
