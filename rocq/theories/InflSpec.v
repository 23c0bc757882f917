(** * What a compressed text stands for: RFC 1951 as relations between bits and bytes.  Nothing here refers to
    the decoder of the model. *)
From Verif Require Import GoStr.
Local Open Scope Z_scope.

(** ** 3.1: numbers have the lowest bit first, codes the highest *)
Definition num (b : list bool) : Z := foldr (λ c s, Z.b2z c + 2 * s) 0 b.
Definition code_num (b : list bool) : Z := foldl (λ s c, 2 * s + Z.b2z c) 0 b.
Definition byte_seq (v : Z) : list bool := (λ k, Z.testbit v (Z.of_nat k)) <$> seq 0 8.
(** [b] is the number [v] in [n] bits *)
Definition is_num (n : nat) (v : Z) (b : list bool) : Prop := length b = n ∧ num b = v.

(** ** 3.2.2: the code [w] of symbol [s] for the lengths [lens], 0 for a symbol that is not used.  All shorter
    codes come before it, and so do those of the same length for smaller symbols. *)
Definition sum_Z (l : list Z) : Z := foldr Z.add 0 l.
Definition shorter (lens : list nat) (n : nat) : Z := sum_Z ((λ m, if decide (0 < m < n)%nat then 2 ^ Z.of_nat (n - m) else 0) <$> lens).
Definition same (lens : list nat) (n s : nat) : Z := sum_Z ((λ m, if decide (m = n) then 1 else 0) <$> take s lens).
Definition code_of (lens : list nat) (s : nat) (w : list bool) : Prop :=
  w ≠ [] ∧ lens !! s = Some (length w) ∧ code_num w = shorter lens (length w) + same lens (length w) s.
(** every string of bits begins with a code; or there is a single code, of one bit; or none *)
Definition full (lens : list nat) : Prop := sum_Z ((λ m, if decide (0 < m)%nat then 2 ^ Z.of_nat (15 - m) else 0) <$> lens) = 2 ^ 15.
Definition single (lens : list nat) : Prop := ∃ s, lens !! s = Some 1%nat ∧ ∀ t n, lens !! t = Some n → t ≠ s → n = 0%nat.
Definition unused (lens : list nat) : Prop := Forall (λ n, n = 0%nat) lens.
Definition usable (lens : list nat) : Prop := Forall (λ n, n ≤ 15)%nat lens ∧ (full lens ∨ single lens ∨ unused lens).

(** ** 3.2.5: the least length or distance and the number of further bits; symbol 284 with all of its bits set is
    length 258 too *)
Definition len_rows : list (Z * nat) :=
  zip [3; 4; 5; 6; 7; 8; 9; 10; 11; 13; 15; 17; 19; 23; 27; 31; 35; 43; 51; 59; 67; 83; 99; 115; 131; 163; 195; 227; 258]
    [0; 0; 0; 0; 0; 0; 0; 0; 1; 1; 1; 1; 2; 2; 2; 2; 3; 3; 3; 3; 4; 4; 4; 4; 5; 5; 5; 5; 0]%nat.
Definition dist_rows : list (Z * nat) :=
  zip [1; 2; 3; 4; 5; 7; 9; 13; 17; 25; 33; 49; 65; 97; 129; 193; 257; 385; 513; 769; 1025; 1537; 2049; 3073; 4097; 6145; 8193; 12289; 16385; 24577]
    [0; 0; 0; 0; 1; 1; 2; 2; 3; 3; 4; 4; 5; 5; 6; 6; 7; 7; 8; 8; 9; 9; 10; 10; 11; 11; 12; 12; 13; 13]%nat.
Definition coded (lens : list nat) (first : nat) (rows : list (Z * nat)) (v : Z) (w : list bool) : Prop :=
  ∃ i base n w1 e, rows !! i = Some (base, n) ∧ code_of lens (first + i) w1 ∧ length e = n ∧ v = base + num e ∧ w = w1 ++ e.

(** ** 3.2.3: literals and pairs of length and distance, up to symbol 256; what they add to the output *)
Inductive item := Lit (c : Z) | Ref (len dist : Z).
Definition item_bits (L D : list nat) (it : item) (w : list bool) : Prop :=
  match it with
  | Lit c => 0 ≤ c < 256 ∧ code_of L (Z.to_nat c) w
  | Ref len dist => ∃ w1 w2, coded L 257 len_rows len w1 ∧ coded D 0 dist_rows dist w2 ∧ w = w1 ++ w2
  end.
(** a copy may reach into what it writes; the window has 32768 bytes *)
Definition adds (it : item) (out out' : gostr) : Prop :=
  match it with
  | Lit c => out' = out ++ [c]
  | Ref len dist => 1 ≤ dist ≤ 32768 ∧ dist ≤ Z.of_nat (length out) ∧ Z.of_nat (length out') = Z.of_nat (length out) + len ∧ out `prefix_of` out' ∧
    ∀ i : nat, (length out ≤ i < length out')%nat → out' !! i = out' !! (i - Z.to_nat dist)%nat
  end.
Inductive items (L D : list nat) : gostr → gostr → list bool → Prop :=
  | items_end out w : code_of L 256 w → items L D out out w
  | items_cons it out out1 out2 w1 w2 : item_bits L D it w1 → adds it out out1 → items L D out1 out2 w2 → items L D out out2 (w1 ++ w2).

(** ** 3.2.6 *)
Definition fixed_L : list nat := replicate 144 8%nat ++ replicate 112 9%nat ++ replicate 24 7%nat ++ replicate 8 8%nat.
Definition fixed_D : list nat := replicate 32 5%nat.
(** ** 3.2.7: the lengths of both codes are themselves coded, with repetitions *)
Definition clen_order : list nat := [16; 17; 18; 0; 8; 7; 9; 6; 10; 5; 11; 4; 12; 3; 13; 2; 14; 1; 15]%nat.
(** [w] are the lengths [C] in this order, the last ones, all zero, left out *)
Definition clens_bits (C : list nat) (k : nat) (w : list bool) : Prop :=
  length C = 19%nat ∧ ∃ ws, w = mjoin ws ∧ Forall2 (λ o b, ∃ n, C !! o = Some n ∧ is_num 3 (Z.of_nat n) b) (take k clen_order) ws ∧ Forall (λ o, C !! o = Some 0%nat) (drop k clen_order).
Inductive runs (C : list nat) : list nat → list nat → list bool → Prop :=
  | runs_end l : runs C l l []
  | runs_len l l' n w1 w : (n < 16)%nat → code_of C n w1 → runs C (l ++ [n]) l' w → runs C l l' (w1 ++ w)
  | runs_prev l l' n w1 e w : code_of C 16 w1 → length e = 2%nat → last l = Some n → runs C (l ++ replicate (3 + Z.to_nat (num e)) n) l' w → runs C l l' (w1 ++ e ++ w)
  | runs_zero l l' w1 e w : code_of C 17 w1 → length e = 3%nat → runs C (l ++ replicate (3 + Z.to_nat (num e)) 0%nat) l' w → runs C l l' (w1 ++ e ++ w)
  | runs_zeros l l' w1 e w : code_of C 18 w1 → length e = 7%nat → runs C (l ++ replicate (11 + Z.to_nat (num e)) 0%nat) l' w → runs C l l' (w1 ++ e ++ w).
Definition trees (L D : list nat) (w : list bool) : Prop :=
  (257 ≤ length L ≤ 286)%nat ∧ (1 ≤ length D ≤ 30)%nat ∧ usable L ∧ usable D ∧
  ∃ C k a b c d e, usable C ∧ (4 ≤ k ≤ 19)%nat ∧ is_num 5 (Z.of_nat (length L) - 257) a ∧ is_num 5 (Z.of_nat (length D) - 1) b ∧ is_num 4 (Z.of_nat k - 4) c ∧
    clens_bits C k d ∧ runs C [] (L ++ D) e ∧ w = a ++ b ++ c ++ d ++ e.

(** ** 3.2.3, 3.2.4: blocks; [pos] is the number of bits before *)
Inductive block (pos : Z) (out out' : gostr) : list bool → Prop :=
  | block_stored pad n nn data : (length pad < 8)%nat → (pos + 2 + Z.of_nat (length pad)) mod 8 = 0 → is_num 16 (Z.of_nat (length data)) n → is_num 16 (65535 - Z.of_nat (length data)) nn →
      Forall (λ c, 0 ≤ c < 256) data → out' = out ++ data → block pos out out' ([false; false] ++ pad ++ n ++ nn ++ (data ≫= byte_seq))
  | block_fixed w : items fixed_L fixed_D out out' w → block pos out out' ([true; false] ++ w)
  | block_dynamic L D w1 w2 : trees L D w1 → items L D out out' w2 → block pos out out' ([false; true] ++ w1 ++ w2).
Inductive stream (pos : Z) (out : gostr) : gostr → list bool → Prop :=
  | stream_last out' w : block (pos + 1) out out' w → stream pos out out' (true :: w)
  | stream_more out1 out' w1 w2 : block (pos + 1) out out1 w1 → stream (pos + 1 + Z.of_nat (length w1)) out1 out' w2 → stream pos out out' (false :: w1 ++ w2).
(** the compressed bytes [x] stand for the content [d]; what follows the last block does not count *)
Definition stands_for (x d : gostr) : Prop := ∃ w rest, x ≫= byte_seq = w ++ rest ∧ stream 0 [] d w.
