(** * What the tokens of the compressor should be: the content, in pieces that RFC 1951 can express *)
From Verif Require Import GoBase GoStr InflSpec LzModel.
Local Open Scope Z_scope.

(** token.go: the length is kept less 3, the offset less 1 *)
Definition item_of (t : token) : item := match t with TLit c => Lit c | TMatch x o => Ref (x + 3) (o + 1) end.
Definition token_ok (t : token) : Prop := match t with TLit c => 0 ≤ c < 256 | TMatch x o => 1 ≤ x ≤ 255 ∧ 0 ≤ o < 32768 end.
(** the items turn one output into another *)
Inductive replay : list item → gostr → gostr → Prop :=
  | replay_nil o : replay [] o o
  | replay_snoc l it o o1 o2 : replay l o o1 → adds it o1 o2 → replay (l ++ [it]) o o2.
(** a block: at least one and at most 16384 tokens; the bytes given along are what the tokens add *)
Definition block_ok (o : gostr) (ts : list token) (input : option gostr) (o' : gostr) : Prop :=
  ts ≠ [] ∧ Z.of_nat (length ts) ≤ 16384 ∧ Forall token_ok ts ∧ replay (item_of <$> ts) o o' ∧ ∀ b, input = Some b → o' = o ++ b.
Inductive blocks_for : list (list token * option gostr) → gostr → Prop :=
  | blocks_none : blocks_for [] []
  | blocks_snoc l o ts input o' : blocks_for l o → block_ok o ts input o' → blocks_for (l ++ [(ts, input)]) o'.

(** ** the tokens as bits of RFC 1951: any codes will do *)
Definition items_bits (L D : list nat) (its : list item) (w : list bool) : Prop := ∃ ws e, Forall2 (item_bits L D) its ws ∧ code_of L 256 e ∧ w = mjoin ws ++ e.
Definition stored_bits (pos : Z) (data : gostr) (w : list bool) : Prop :=
  ∃ pad n nn, (length pad < 8)%nat ∧ (pos + 2 + Z.of_nat (length pad)) mod 8 = 0 ∧ is_num 16 (Z.of_nat (length data)) n ∧ is_num 16 (65535 - Z.of_nat (length data)) nn ∧ w = [false; false] ++ pad ++ n ++ nn ++ (data ≫= byte_seq).
Inductive block_bits (pos : Z) (ts : list token) (input : option gostr) : list bool → Prop :=
  | bits_stored data w : input = Some data → stored_bits pos data w → block_bits pos ts input w
  | bits_fixed w : items_bits fixed_L fixed_D (item_of <$> ts) w → block_bits pos ts input ([true; false] ++ w)
  | bits_dynamic L D w1 w2 : trees L D w1 → items_bits L D (item_of <$> ts) w2 → block_bits pos ts input ([false; true] ++ w1 ++ w2).
(** all blocks, and an empty one at the end *)
Inductive stream_bits (pos : Z) : list (list token * option gostr) → list bool → Prop :=
  | bits_last w : stored_bits (pos + 1) [] w → stream_bits pos [] (true :: w)
  | bits_more ts input l w1 w2 : block_bits (pos + 1) ts input w1 → stream_bits (pos + 1 + Z.of_nat (length w1)) l w2 → stream_bits pos ((ts, input) :: l) (false :: w1 ++ w2).
