(** * Model of the decompressor behind Unzip

    zip.go:49-54 reads an entry through archive/zip, whose method 8 is compress/flate's NewReader, modelled as
    inflate.go of Go 1.18.  The input is its list of bits, the lowest of each byte first; the reader never takes
    a byte before it needs a bit of it, so the bits of the byte that is begun are those up to the next multiple
    of eight before the end.  All errors are one.  The table of a huffmanDecoder is the list of its codes
    instead of chunks and links; a code is looked up after every bit and not after the least number of bits
    only.  The window is the end of the output.  Loops have fuel; running out of it is [DFuel]. *)
From Verif Require Export GoStr.
Local Open Scope Z_scope.

Inductive dres (A : Type) : Type := DOk (a : A) | DErr | DFuel.
Global Arguments DOk {A} a. Global Arguments DErr {A}. Global Arguments DFuel {A}.
Global Instance dres_bind : MBind dres := λ A B f m, match m with DOk a => f a | DErr => DErr | DFuel => DFuel end.

(** inflate.go moreBits: the bits of a byte *)
Definition bits_of_byte (v : Z) : list bool := (λ k, Z.testbit v (Z.of_nat k)) <$> seq 0 8.
Definition bits_of (x : gostr) : list bool := x ≫= bits_of_byte.
(** the number in the bits of f.b, the lowest first *)
Definition low_first (b : list bool) : Z := foldr (λ c s, Z.b2z c + 2 * s) 0 b.
Definition take_bits (n : nat) (b : list bool) : dres (Z * list bool) := if (length b <? n)%nat then DErr else DOk (low_first (take n b), drop n b).

(** inflate.go huffmanDecoder.init: numbers of codes by length, the first code of each length, the check that
    the coding is complete or has a single code of one bit, the codes in the order of their symbols *)
Record hcode := HCode { h_len : nat; h_code : Z; h_sym : nat }.
Definition count_len (lens : list nat) (n : nat) : Z := Z.of_nat (length (filter (λ m, m = n) lens)).
Definition max_len (lens : list nat) : nat := foldr Nat.max 0%nat lens.
Definition min_len (lens : list nat) : nat := foldl (λ m n, if (n =? 0)%nat then m else if (m =? 0)%nat || (n <? m)%nat then n else m) 0%nat lens.
Fixpoint next_codes (lens : list nat) (k i : nat) (code : Z) (next : list Z) : Z * list Z :=
  match k with O => (code, next) | S k => let code := 2 * code in next_codes lens k (S i) (code + count_len lens i) (<[i := code]> next) end.
Fixpoint assign (lens : list nat) (sym : nat) (next : list Z) : list hcode :=
  match lens with
  | [] => []
  | n :: r => if (n =? 0)%nat then assign r (S sym) next else let c := nth n next 0 in HCode n c sym :: assign r (S sym) (<[n := c + 1]> next)
  end.
Definition huff_init (lens : list nat) : option (list hcode) :=
  let mx := max_len lens in let mn := min_len lens in
  if (mx =? 0)%nat then Some []
  else
    let '(code, next) := next_codes lens (mx - mn + 1) mn 0 (replicate 16 0) in
    if negb (code =? 2 ^ Z.of_nat mx) && negb ((code =? 1) && (mx =? 1)%nat) then None else Some (assign lens 0 next).
(** inflate.go huffSym *)
Definition find_code (t : list hcode) (n : nat) (code : Z) : option nat :=
  match list_find (λ h, h_len h = n ∧ h_code h = code) t with Some (_, h) => Some (h_sym h) | None => None end.
Fixpoint huff_sym_from (t : list hcode) (k n : nat) (code : Z) (b : list bool) : dres (nat * list bool) :=
  match k, b with
  | S k, x :: b => let code := 2 * code + Z.b2z x in match find_code t (S n) code with Some s => DOk (s, b) | None => huff_sym_from t k (S n) code b end
  | _, _ => DErr
  end.
Definition huff_sym (t : list hcode) (b : list bool) : dres (nat * list bool) := huff_sym_from t 15 0 0 b.

(** inflate.go readHuffman: the three numbers, the lengths of the codes for lengths, the lengths *)
Definition code_order : list nat := [16; 17; 18; 0; 8; 7; 9; 6; 10; 5; 11; 4; 12; 3; 13; 2; 14; 1; 15]%nat.
Fixpoint read_clens (order : list nat) (n : nat) (lens : list nat) (b : list bool) : dres (list nat * list bool) :=
  match n, order with
  | S n, o :: order => '(v, b) ← take_bits 3 b; read_clens order n (<[o := Z.to_nat v]> lens) b
  | _, _ => DOk (lens, b)
  end.
Fixpoint read_lens (fuel : nat) (t : list hcode) (n : nat) (lens : list nat) (b : list bool) : dres (list nat * list bool) :=
  if (n <=? length lens)%nat then DOk (lens, b)
  else match fuel with
  | O => DFuel
  | S k =>
    '(x, b) ← huff_sym t b;
    if (x <? 16)%nat then read_lens k t n (lens ++ [x]) b
    else
      '(rep, nb, v) ← (if (x =? 16)%nat then match last lens with None => DErr | Some p => DOk (3, 2%nat, p) end
        else if (x =? 17)%nat then DOk (3, 3%nat, 0%nat) else DOk (11, 7%nat, 0%nat));
      '(e, b) ← take_bits nb b;
      let r := Z.to_nat (rep + e) in
      if (n <? length lens + r)%nat then DErr else read_lens k t n (lens ++ replicate r v) b
  end.
Definition read_huffman (b : list bool) : dres (list hcode * list hcode * list bool) :=
  '(h1, b) ← take_bits 5 b; let nlit := (Z.to_nat h1 + 257)%nat in
  if (286 <? nlit)%nat then DErr
  else '(h2, b) ← take_bits 5 b; let ndist := (Z.to_nat h2 + 1)%nat in
  if (30 <? ndist)%nat then DErr
  else '(h3, b) ← take_bits 4 b; let nclen := (Z.to_nat h3 + 4)%nat in
  '(clens, b) ← read_clens code_order nclen (replicate 19 0%nat) b;
  match huff_init clens with
  | None => DErr
  | Some t =>
    '(lens, b) ← read_lens (nlit + ndist) t (nlit + ndist) [] b;
    match huff_init (take nlit lens), huff_init (drop nlit lens) with
    | Some hl, Some hd => DOk (hl, hd, b)
    | _, _ => DErr
    end
  end.

(** inflate.go huffmanBlock: the length and the number of further bits for a symbol from 257 on *)
Definition len_of (v : Z) : option (Z * nat) :=
  if v <? 265 then Some (v - (257 - 3), 0%nat)
  else if v <? 269 then Some (v * 2 - (265 * 2 - 11), 1%nat)
  else if v <? 273 then Some (v * 4 - (269 * 4 - 19), 2%nat)
  else if v <? 277 then Some (v * 8 - (273 * 8 - 35), 3%nat)
  else if v <? 281 then Some (v * 16 - (277 * 16 - 67), 4%nat)
  else if v <? 285 then Some (v * 32 - (281 * 32 - 131), 5%nat)
  else if v <? 286 then Some (258, 0%nat)
  else None.
(** the symbol of a distance: five bits, the highest first, or a code *)
Definition dist_sym (hd : option (list hcode)) (b : list bool) : dres (nat * list bool) :=
  match hd with
  | None => '(v, b) ← (if (length b <? 5)%nat then DErr else DOk (low_first (reverse (take 5 b)), drop 5 b)); DOk (Z.to_nat v, b)
  | Some t => huff_sym t b
  end.
(** the distance for it *)
Definition dist_of (d : Z) (b : list bool) : dres (Z * list bool) :=
  if d <? 4 then DOk (d + 1, b)
  else if d <? 30 then
    let nb := Z.shiftr (d - 2) 1 in
    '(e, b) ← take_bits (Z.to_nat nb) b;
    DOk (Z.shiftl 1 (nb + 1) + 1 + Z.lor (Z.shiftl (Z.land d 1) nb) e, b)
  else DErr.
(** dict_decoder.go writeCopy, tryWriteCopy *)
Fixpoint copy_back (n : nat) (dist : nat) (out : gostr) : gostr := match n with O => out | S n => copy_back n dist (out ++ [nth (length out - dist) out 0]) end.
Definition hist_size (out : gostr) : Z := Z.min (Z.of_nat (length out)) 32768.
Fixpoint huff_block (fuel : nat) (hl : list hcode) (hd : option (list hcode)) (b : list bool) (out : gostr) : dres (list bool * gostr) :=
  match fuel with
  | O => DFuel
  | S k =>
    '(v, b) ← huff_sym hl b;
    if (v <? 256)%nat then huff_block k hl hd b (out ++ [Z.of_nat v])
    else if (v =? 256)%nat then DOk (b, out)
    else match len_of (Z.of_nat v) with
    | None => DErr
    | Some (base, n) =>
      '(e, b) ← take_bits n b;
      '(d, b) ← dist_sym hd b;
      '(dist, b) ← dist_of (Z.of_nat d) b;
      if hist_size out <? dist then DErr else huff_block k hl hd b (copy_back (Z.to_nat (base + e)) (Z.to_nat dist) out)
    end
  end.
(** inflate.go dataBlock: the rest of the byte is dropped *)
Definition bytes_of (n : nat) (b : list bool) : gostr := (λ i, low_first (take 8 (drop (8 * i) b))) <$> seq 0 n.
Definition data_block (b : list bool) (out : gostr) : dres (list bool * gostr) :=
  let b := drop (length b mod 8) b in
  '(n, b) ← take_bits 16 b; '(nn, b) ← take_bits 16 b;
  if negb (nn =? 65535 - n) then DErr
  else let k := Z.to_nat n in if (length b <? 8 * k)%nat then DErr else DOk (drop (8 * k) b, out ++ bytes_of k b).
(** inflate.go fixedHuffmanDecoderInit *)
Definition fixed_lens : list nat := replicate 144 8%nat ++ replicate 112 9%nat ++ replicate 24 7%nat ++ replicate 8 8%nat.
Definition fixed_codes : list hcode := Eval vm_compute in match huff_init fixed_lens with Some t => t | None => [] end.
(** inflate.go nextBlock *)
Fixpoint blocks (fuel : nat) (b : list bool) (out : gostr) : dres (list bool * gostr) :=
  match fuel with
  | O => DFuel
  | S k =>
    '(final, b) ← take_bits 1 b; '(typ, b) ← take_bits 2 b;
    '(b, out) ← (if typ =? 0 then data_block b out
      else if typ =? 1 then huff_block (S (length b)) fixed_codes None b out
      else if typ =? 2 then '(hl, hd, b) ← read_huffman b; huff_block (S (length b)) hl (Some hd) b out
      else DErr);
    if final =? 1 then DOk (b, out) else blocks k b out
  end.
Definition inflate_run (x : gostr) : dres (list bool * gostr) := blocks (S (length (bits_of x))) (bits_of x) [].
(** the content read to the end, [None] for an error; bytes after the last block are not looked at *)
Definition inflate (x : gostr) : option gostr := match inflate_run x with DOk (_, out) => Some out | _ => None end.
