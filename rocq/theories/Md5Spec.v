(** * MD5 as RFC 1321 defines it, and hexadecimal digits *)
From Verif Require Import GoBase GoStr.
Local Open Scope Z_scope.

(** words *)
Definition word_mod (x : Z) : Z := x mod 2 ^ 32.
Definition complement (x : Z) : Z := 2 ^ 32 - 1 - x.
Definition turn (x s : Z) : Z := word_mod (x * 2 ^ s) + x / 2 ^ (32 - s).
(** 3.1, 3.2: the message, a byte 128, the fewest zero bytes that leave 8 of the last 64, the length in bits *)
Fixpoint low_first (n : nat) (x : Z) : list Z := match n with O => [] | S n => x mod 256 :: low_first n (x / 256) end.
Definition padded (m p : list Z) : Prop := ∃ k, p = m ++ [128] ++ replicate k 0 ++ low_first 8 ((8 * Z.of_nat (length m)) mod 2 ^ 64) ∧
  ((length m + 1 + k) mod 64 = 56)%nat ∧ ∀ j, ((length m + 1 + j) mod 64 = 56)%nat → (k ≤ j)%nat.
(** 3.4: the auxiliary functions *)
Definition F (x y z : Z) : Z := Z.lor (Z.land x y) (Z.land (complement x) z).
Definition G (x y z : Z) : Z := Z.lor (Z.land x z) (Z.land y (complement z)).
Definition H (x y z : Z) : Z := Z.lxor x (Z.lxor y z).
Definition I (x y z : Z) : Z := Z.lxor y (Z.lor x (complement z)).
(** the integer part of 2^32 |sin i| *)
Definition T : list Z :=
  [0xd76aa478; 0xe8c7b756; 0x242070db; 0xc1bdceee; 0xf57c0faf; 0x4787c62a; 0xa8304613; 0xfd469501;
   0x698098d8; 0x8b44f7af; 0xffff5bb1; 0x895cd7be; 0x6b901122; 0xfd987193; 0xa679438e; 0x49b40821;
   0xf61e2562; 0xc040b340; 0x265e5a51; 0xe9b6c7aa; 0xd62f105d; 0x02441453; 0xd8a1e681; 0xe7d3fbc8;
   0x21e1cde6; 0xc33707d6; 0xf4d50d87; 0x455a14ed; 0xa9e3e905; 0xfcefa3f8; 0x676f02d9; 0x8d2a4c8a;
   0xfffa3942; 0x8771f681; 0x6d9d6122; 0xfde5380c; 0xa4beea44; 0x4bdecfa9; 0xf6bb4b60; 0xbebfbc70;
   0x289b7ec6; 0xeaa127fa; 0xd4ef3085; 0x04881d05; 0xd9d4d039; 0xe6db99e5; 0x1fa27cf8; 0xc4ac5665;
   0xf4292244; 0x432aff97; 0xab9423a7; 0xfc93a039; 0x655b59c3; 0x8f0ccc92; 0xffeff47d; 0x85845dd1;
   0x6fa87e4f; 0xfe2ce6e0; 0xa3014314; 0x4e0811a1; 0xf7537e82; 0xbd3af235; 0x2ad7d2bb; 0xeb86d391].
(** [abcd k s i] of each round: a = b + ((a + f(b,c,d) + X[k] + T[i]) <<< s) *)
Definition op (f : Z → Z → Z → Z) (X : list Z) (k : nat) (s : Z) (i : nat) (a b c d : Z) : Z :=
  word_mod (b + turn (word_mod (a + f b c d + default 0 (X !! k) + default 0 (T !! (i - 1)%nat))) s).
(** four operations in the order abcd, dabc, cdab, bcda *)
Definition four (f : Z → Z → Z → Z) (X : list Z) (ks : list (nat * Z * nat)) (v : Z * Z * Z * Z) : Z * Z * Z * Z :=
  match ks with
  | [(k1, s1, i1); (k2, s2, i2); (k3, s3, i3); (k4, s4, i4)] =>
    let '(a, b, c, d) := v in
    let a := op f X k1 s1 i1 a b c d in let d := op f X k2 s2 i2 d a b c in
    let c := op f X k3 s3 i3 c d a b in let b := op f X k4 s4 i4 b c d a in (a, b, c, d)
  | _ => v
  end.
Definition round (f : Z → Z → Z → Z) (X : list Z) (rows : list (list (nat * Z * nat))) (v : Z * Z * Z * Z) : Z * Z * Z * Z :=
  foldl (λ v ks, four f X ks v) v rows.
Local Open Scope nat_scope.
Definition round1 : list (list (nat * Z * nat)) :=
  [[(0,7%Z,1);(1,12%Z,2);(2,17%Z,3);(3,22%Z,4)]; [(4,7%Z,5);(5,12%Z,6);(6,17%Z,7);(7,22%Z,8)];
   [(8,7%Z,9);(9,12%Z,10);(10,17%Z,11);(11,22%Z,12)]; [(12,7%Z,13);(13,12%Z,14);(14,17%Z,15);(15,22%Z,16)]].
Definition round2 : list (list (nat * Z * nat)) :=
  [[(1,5%Z,17);(6,9%Z,18);(11,14%Z,19);(0,20%Z,20)]; [(5,5%Z,21);(10,9%Z,22);(15,14%Z,23);(4,20%Z,24)];
   [(9,5%Z,25);(14,9%Z,26);(3,14%Z,27);(8,20%Z,28)]; [(13,5%Z,29);(2,9%Z,30);(7,14%Z,31);(12,20%Z,32)]].
Definition round3 : list (list (nat * Z * nat)) :=
  [[(5,4%Z,33);(8,11%Z,34);(11,16%Z,35);(14,23%Z,36)]; [(1,4%Z,37);(4,11%Z,38);(7,16%Z,39);(10,23%Z,40)];
   [(13,4%Z,41);(0,11%Z,42);(3,16%Z,43);(6,23%Z,44)]; [(9,4%Z,45);(12,11%Z,46);(15,16%Z,47);(2,23%Z,48)]].
Definition round4 : list (list (nat * Z * nat)) :=
  [[(0,6%Z,49);(7,10%Z,50);(14,15%Z,51);(5,21%Z,52)]; [(12,6%Z,53);(3,10%Z,54);(10,15%Z,55);(1,21%Z,56)];
   [(8,6%Z,57);(15,10%Z,58);(6,15%Z,59);(13,21%Z,60)]; [(4,6%Z,61);(11,10%Z,62);(2,15%Z,63);(9,21%Z,64)]].
Local Open Scope Z_scope.
(** the 16 words of a block, low byte first *)
Definition block_words (p : list Z) : list Z :=
  (λ j, foldr (λ b acc, b + 256 * acc) 0 (take 4 (drop (4 * j) p))) <$> seq 0 16.
Definition compress (v : Z * Z * Z * Z) (p : list Z) : Z * Z * Z * Z :=
  let X := block_words p in
  let '(a, b, c, d) := round I X round4 (round H X round3 (round G X round2 (round F X round1 v))) in
  let '(a0, b0, c0, d0) := v in (word_mod (a0 + a), word_mod (b0 + b), word_mod (c0 + c), word_mod (d0 + d)).
(** 3.3, 3.5 *)
Definition start_words : Z * Z * Z * Z := (0x67452301, 0xefcdab89, 0x98badcfe, 0x10325476).
Definition output (v : Z * Z * Z * Z) : list Z := let '(a, b, c, d) := v in low_first 4 a ++ low_first 4 b ++ low_first 4 c ++ low_first 4 d.
Inductive compressed : Z * Z * Z * Z → list Z → Z * Z * Z * Z → Prop :=
  | co_nil v : compressed v [] v
  | co_cons v b p v' : length b = 64%nat → compressed (compress v b) p v' → compressed v (b ++ p) v'.
(** [h] is the digest of [m] *)
Definition is_md5 (m h : list Z) : Prop := ∃ p v, padded m p ∧ compressed start_words p v ∧ h = output v.

(** lower-case hexadecimal digits *)
Definition hex_of (v : Z) : Z := if decide (v < 10) then 48 + v else 87 + v.
Definition is_hex (l : list Z) (s : gostr) : Prop := length s = (2 * length l)%nat ∧
  ∀ i b, l !! i = Some b → s !! (2 * i)%nat = Some (hex_of (b / 16)) ∧ s !! (2 * i + 1)%nat = Some (hex_of (b mod 16)).
