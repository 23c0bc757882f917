(** * help/utils/zip.go: how the compressor behind ZipFiles writes its tokens as bits
    /repo/help/utils/zip.go:66-116 compresses through archive/zip with compress/flate.  This is huffman_bit_writer.go,
    token.go and the end of deflate.go (writeBlock, close) of compress/flate, Go 1.18, from memory.  The buffers of
    huffmanBitWriter are one list of bits; codegen is not overwritten in place but a list of its own, in which 16, 17
    and 18 are pairs with what follows them; counters are not bounded; writing succeeds.  [gen] is
    huffmanEncoder.generate (huffman_code.go): for the frequencies and the greatest length it gives the code of each
    symbol in the order in which its bits are written, [] for a symbol without code. *)
From Verif Require Import GoBase GoStr InflModel LzModel.
Local Open Scope Z_scope.

(** writeBits: the lowest bit first *)
Definition put_num (n : nat) (v : Z) : list bool := (λ k, Z.testbit v (Z.of_nat k)) <$> seq 0 n.
(** flush and the zero bits up to the next byte *)
Definition pad_for (pos : Z) : list bool := replicate (Z.to_nat ((- pos) mod 8)) false.

(** token.go: lengthCodes, offsetCodes; huffman_bit_writer.go: lengthExtraBits, lengthBase, offsetExtraBits, offsetBase *)
Definition length_codes : list nat := [0; 1; 2; 3; 4; 5; 6; 7]%nat ++ ([8; 9; 10; 11]%nat ≫= replicate 2) ++ ([12; 13; 14; 15]%nat ≫= replicate 4) ++ ([16; 17; 18; 19]%nat ≫= replicate 8) ++
  ([20; 21; 22; 23]%nat ≫= replicate 16) ++ ([24; 25; 26]%nat ≫= replicate 32) ++ replicate 31 27%nat ++ [28]%nat.
Definition offset_codes : list nat := [0; 1; 2; 3]%nat ++ ([4; 5]%nat ≫= replicate 2) ++ ([6; 7]%nat ≫= replicate 4) ++ ([8; 9]%nat ≫= replicate 8) ++ ([10; 11]%nat ≫= replicate 16) ++ ([12; 13]%nat ≫= replicate 32) ++ ([14; 15]%nat ≫= replicate 64).
Definition length_extra : list nat := [0; 0; 0; 0; 0; 0; 0; 0; 1; 1; 1; 1; 2; 2; 2; 2; 3; 3; 3; 3; 4; 4; 4; 4; 5; 5; 5; 5; 0]%nat.
Definition length_base : list Z := [0; 1; 2; 3; 4; 5; 6; 7; 8; 10; 12; 14; 16; 20; 24; 28; 32; 40; 48; 56; 64; 80; 96; 112; 128; 160; 192; 224; 255].
Definition offset_extra : list nat := [0; 0; 0; 0; 1; 1; 2; 2; 3; 3; 4; 4; 5; 5; 6; 6; 7; 7; 8; 8; 9; 9; 10; 10; 11; 11; 12; 12; 13; 13]%nat.
Definition offset_base : list Z := [0; 1; 2; 3; 4; 6; 8; 12; 16; 24; 32; 48; 64; 96; 128; 192; 256; 384; 512; 768; 1024; 1536; 2048; 3072; 4096; 6144; 8192; 12288; 16384; 24576].
Definition length_code (l : Z) : go nat := idx length_codes (Z.to_nat l).
Definition offset_code (o : Z) : go nat :=
  if o <? 256 then idx offset_codes (Z.to_nat o)
  else if Z.shiftr o 7 <? 256 then k ← idx offset_codes (Z.to_nat (Z.shiftr o 7)); Ret (k + 14)%nat
  else k ← idx offset_codes (Z.to_nat (Z.shiftr o 14)); Ret (k + 28)%nat.

(** indexTokens: the symbols of the tokens, endBlockMarker last; how often each occurs; the number of symbols up to the
    last that occurs *)
Definition lit_sym (t : token) : go nat := match t with TLit c => Ret (Z.to_nat c) | TMatch x _ => k ← length_code x; Ret (257 + k)%nat end.
Definition off_syms (t : token) : go (list nat) := match t with TLit _ => Ret [] | TMatch _ o => k ← offset_code o; Ret [k] end.
Fixpoint each {A B} (f : A → go B) (l : list A) : go (list B) := match l with [] => Ret [] | x :: l => y ← f x; r ← each f l; Ret (y :: r) end.
Definition freqs (n : nat) (syms : list nat) : list Z := (λ s, Z.of_nat (length (filter (s =.) syms))) <$> seq 0 n.
Fixpoint used (n : nat) (f : list Z) : nat := match n with O => 0%nat | S k => if nth k f 0 =? 0 then used k f else n end.

(** generateCodegen: for [count] symbols of length [size]; [fuel] is at least the count *)
Fixpoint again (fuel : nat) (size count : nat) : list (nat * Z) :=
  match fuel with
  | O => []
  | S k => if (3 <=? count)%nat then let n := Nat.min 6 count in (16%nat, Z.of_nat n - 3) :: again k size (count - n) else replicate count (size, 0)
  end.
Fixpoint zeros (fuel : nat) (count : nat) : list (nat * Z) :=
  match fuel with
  | O => []
  | S k => if (11 <=? count)%nat then let n := Nat.min 138 count in (18%nat, Z.of_nat n - 11) :: zeros k (count - n)
    else if (3 <=? count)%nat then [(17%nat, Z.of_nat count - 3)] else replicate count (0%nat, 0)
  end.
Definition run_of (size count : nat) : list (nat * Z) := if (size =? 0)%nat then zeros (S count) count else (size, 0) :: again (S count) size (count - 1).
Fixpoint codegen_from (size count : nat) (rest : list nat) : list (nat * Z) :=
  match rest with
  | [] => run_of size count
  | next :: rest => if (next =? size)%nat then codegen_from size (S count) rest else run_of size count ++ codegen_from next 1 rest
  end.
Definition codegen (lens : list nat) : list (nat * Z) := match lens with [] => [] | size :: rest => codegen_from size 1 rest end.
Definition codegen_order : list nat := [16; 17; 18; 0; 8; 7; 9; 6; 10; 5; 11; 4; 12; 3; 13; 2; 14; 1; 15]%nat.
Definition cg_extra (s : nat) : nat := match s with 16 => 2 | 17 => 3 | 18 => 7 | _ => 0 end%nat.
(** dynamicSize: numCodegens *)
Fixpoint cg_used (n : nat) (f : list Z) : nat :=
  match n with O => 0%nat | S k => if (4 <? n)%nat && (nth (nth k codegen_order 0%nat) f 0 =? 0) then cg_used k f else n end.
(** bitLength *)
Definition bit_length (codes : list (list bool)) (f : list Z) : Z := foldr (λ p s, p.1 * Z.of_nat (length (p.2 : list bool)) + s) 0 (zip f codes).

(** generateFixedLiteralEncoding, generateFixedOffsetEncoding *)
Definition rev_bits (n : nat) (c : Z) : list bool := reverse (put_num n c).
Definition fixed_lit (ch : nat) : list bool :=
  if (ch <? 144)%nat then rev_bits 8 (Z.of_nat ch + 48) else if (ch <? 256)%nat then rev_bits 9 (Z.of_nat ch + 400 - 144)
  else if (ch <? 280)%nat then rev_bits 7 (Z.of_nat ch - 256) else rev_bits 8 (Z.of_nat ch + 192 - 280).
Definition fixed_lits : list (list bool) := fixed_lit <$> seq 0 286.
Definition fixed_offs : list (list bool) := (λ ch, rev_bits 5 (Z.of_nat ch)) <$> seq 0 30.

(** writeTokens *)
Definition write_token (le oe : list (list bool)) (t : token) : go (list bool) :=
  match t with
  | TLit c => idx le (Z.to_nat c)
  | TMatch x o =>
    lc ← length_code x; a ← idx le (lc + 257); n ← idx length_extra lc; b ← idx length_base lc;
    oc ← offset_code o; c ← idx oe oc; m ← idx offset_extra oc; d ← idx offset_base oc;
    Ret (a ++ (if (0 <? n)%nat then put_num n (x - b) else []) ++ c ++ (if (0 <? m)%nat then put_num m (o - d) else []))
  end.
Definition write_tokens (le oe : list (list bool)) (ts : list token) : go (list bool) :=
  ws ← each (write_token le oe) ts; e ← idx le 256; Ret (mjoin ws ++ e).
(** writeStoredHeader at [pos] *)
Definition stored_header (pos : Z) (n : Z) (eof : bool) : list bool :=
  put_num 3 (if eof then 1 else 0) ++ pad_for (pos + 3) ++ put_num 16 n ++ put_num 16 (65535 - n).
(** writeDynamicHeader *)
Definition dynamic_header (nl no ncg : nat) (cg : list (nat * Z)) (ce : list (list bool)) : go (list bool) :=
  ls ← each (λ o, w ← idx ce o; Ret (put_num 3 (Z.of_nat (length w)))) (take ncg codegen_order);
  cs ← each (λ p : nat * Z, w ← idx ce p.1; Ret (w ++ put_num (cg_extra p.1) p.2)) cg;
  Ret (put_num 3 4 ++ put_num 5 (Z.of_nat nl - 257) ++ put_num 5 (Z.of_nat no - 1) ++ put_num 4 (Z.of_nat ncg - 4) ++ mjoin ls ++ mjoin cs).

Section gen.
  Context (gen : list Z → nat → go (list (list bool))).
  (** writeBlock, not at the end of the file; [pos] is the number of bits before *)
  Definition write_bits (pos : Z) (ts : list token) (input : option gostr) : go (list bool) :=
    ls ← each lit_sym ts; os ← each off_syms ts;
    let lf := freqs 286 (ls ++ [256%nat]) in
    let of := freqs 30 (mjoin os) in
    let nl := used 286 lf in
    let no := used 30 of in
    let '(of, no) := if (no =? 0)%nat then (<[0%nat := 1]> of, 1%nat) else (of, no) in
    le ← gen lf 15; oe ← gen of 15;
    let storable := match input with Some b => Z.of_nat (length b) <=? 65535 | None => false end in
    let extra := if storable then foldr (λ p s, p.1 * Z.of_nat p.2 + s) 0 (zip (take (nl - 257) (drop 257 lf)) length_extra) + foldr (λ p s, p.1 * Z.of_nat p.2 + s) 0 (zip (take no of) offset_extra) else 0 in
    let fixed_size := 3 + bit_length fixed_lits lf + bit_length fixed_offs of + extra in
    let cg := codegen (take nl (length <$> le) ++ take no (length <$> oe)) in
    let cf := freqs 19 (cg.*1) in
    ce ← gen cf 7;
    let ncg := cg_used 19 cf in
    let dynamic_size := 3 + 5 + 5 + 4 + 3 * Z.of_nat ncg + bit_length ce cf + nth 16 cf 0 * 2 + nth 17 cf 0 * 3 + nth 18 cf 0 * 7 + bit_length le lf + bit_length oe of + extra in
    let size := Z.min fixed_size dynamic_size in
    match input with
    | Some b =>
      if storable && ((Z.of_nat (length b) + 5) * 8 <? size) then Ret (stored_header pos (Z.of_nat (length b)) false ++ bits_of b)
      else if dynamic_size <? fixed_size then h ← dynamic_header nl no ncg cg ce; w ← write_tokens le oe ts; Ret (h ++ w)
      else w ← write_tokens fixed_lits fixed_offs ts; Ret (put_num 3 2 ++ w)
    | None =>
      if dynamic_size <? fixed_size then h ← dynamic_header nl no ncg cg ce; w ← write_tokens le oe ts; Ret (h ++ w)
      else w ← write_tokens fixed_lits fixed_offs ts; Ret (put_num 3 2 ++ w)
    end.
  (** all blocks, and the empty last one of close *)
  Fixpoint write_stream (pos : Z) (bl : list (list token * option gostr)) : go (list bool) :=
    match bl with
    | [] => Ret (stored_header pos 0 true)
    | (ts, input) :: bl => w ← write_bits pos ts input; r ← write_stream (pos + Z.of_nat (length w)) bl; Ret (w ++ r)
    end.
  (** Writer: Write for each of [bs], then Close *)
  Definition compress (lv : level) (win : gostr) (bs : list gostr) : go gostr :=
    bl ← compress_blocks lv win bs; w ← write_stream 0 bl; Ret (bytes_of (Nat.div (length w) 8) w).
End gen.
