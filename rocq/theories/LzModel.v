(** * help/utils/zip.go: the matcher of the compressor behind ZipFiles
    /repo/help/utils/zip.go:66-116 writes every file through archive/zip, which compresses with compress/flate at
    level 5 (zip/register.go: newFlateWriter).  This is deflate.go of compress/flate, Go 1.18, from memory: fillDeflate,
    writeBlock, findMatch, matchLen, deflate, write and close for the levels 4 to 9, at which fastSkipHashing is
    skipNever.  Its output here are the tokens of each block together with the bytes that may be stored instead; how
    huffman_bit_writer.go codes them is in HufModel.v.  Tokens are pairs and not packed into 32 bits; the arrays of the
    hash chains are functions; writing succeeds. *)
From Verif Require Import GoBase GoStr.
Local Open Scope Z_scope.

(** token.go: literalToken, matchToken *)
Inductive token := TLit (c : Z) | TMatch (xlength xoffset : Z).
(** the values of [levels] that are used *)
Record level := Level { lv_good : Z; lv_lazy : Z; lv_nice : Z; lv_chain : nat }.
Definition level5 : level := Level 8 16 32 32.
Definition window_size : Z := 32768.
Definition u32 (x : Z) : Z := x mod 4294967296.
(** the fields of compressor; [out] are the blocks written so far *)
Record comp := Comp { chain_head : Z; hash_head : Z → Z; hash_prev : Z → Z; hash_off : Z; index : Z; window : gostr; window_end : Z;
  block_start : Z; byte_avail : bool; tokens : list token; len : Z; off : Z; max_insert : Z; out : list (list token * option gostr) }.
(** initDeflate, reset: what is in the window of a writer from the pool is not cleared *)
Definition init_comp (w : gostr) : comp := Comp (-1) (λ _, 0) (λ _, 0) 1 0 w 0 0 false [] 3 0 0 [].

Definition at_ (w : gostr) (i : Z) : go Z := if i <? 0 then Panic PIndex else idx w (Z.to_nat i).
(** hash4: the four bytes from [i] on *)
Definition hash4 (w : gostr) (i : Z) : go Z :=
  b0 ← at_ w i; b1 ← at_ w (i + 1); b2 ← at_ w (i + 2); b3 ← at_ w (i + 3);
  Ret (u32 (u32 (b3 + b2 * 256 + b1 * 65536 + b0 * 16777216) * 506832829) / 32768).
Definition upd (f : Z → Z) (i v : Z) : Z → Z := λ j, if j =? i then v else f j.

(** fillDeflate: the number of bytes taken is that of the bytes that fit *)
Definition rebase (delta : Z) (f : Z → Z) : Z → Z := λ i, if delta <? f i then u32 (f i - delta) else 0.
Definition shift (c : comp) : comp :=
  let w := drop (Z.to_nat window_size) (window c) ++ drop (Z.to_nat window_size) (window c) in
  let start := if window_size <=? block_start c then block_start c - window_size else 2147483647 in
  let ho := hash_off c + window_size in
  if 16777216 <? ho then
    let delta := ho - 1 in
    Comp (chain_head c - delta) (rebase delta (hash_head c)) (rebase delta (hash_prev c)) (ho - delta) (index c - window_size) w (window_end c - window_size)
      start (byte_avail c) (tokens c) (len c) (off c) (max_insert c) (out c)
  else
    Comp (chain_head c) (hash_head c) (hash_prev c) ho (index c - window_size) w (window_end c - window_size)
      start (byte_avail c) (tokens c) (len c) (off c) (max_insert c) (out c).
Definition fill (c : comp) (b : gostr) : comp * gostr :=
  let c := if 2 * window_size - (4 + 258) <=? index c then shift c else c in
  let we := Z.to_nat (window_end c) in
  let n := Nat.min (length (window c) - we) (length b) in
  (Comp (chain_head c) (hash_head c) (hash_prev c) (hash_off c) (index c) (take we (window c) ++ take n b ++ drop (we + n) (window c)) (window_end c + Z.of_nat n)
     (block_start c) (byte_avail c) (tokens c) (len c) (off c) (max_insert c) (out c), drop n b).

(** writeBlock: the bytes are given along unless the block began before the window; then tokens = tokens[:0] *)
Definition write_block (c : comp) (i : Z) : comp :=
  if 0 <? i then
    let input := if block_start c <=? i then Some (take (Z.to_nat (i - block_start c)) (drop (Z.to_nat (block_start c)) (window c))) else None in
    Comp (chain_head c) (hash_head c) (hash_prev c) (hash_off c) (index c) (window c) (window_end c) i (byte_avail c) [] (len c) (off c) (max_insert c) (out c ++ [(tokens c, input)])
  else
    Comp (chain_head c) (hash_head c) (hash_prev c) (hash_off c) (index c) (window c) (window_end c) (block_start c) (byte_avail c) [] (len c) (off c) (max_insert c) (out c).
Definition add_token (c : comp) (t : token) : comp :=
  Comp (chain_head c) (hash_head c) (hash_prev c) (hash_off c) (index c) (window c) (window_end c) (block_start c) (byte_avail c) (tokens c ++ [t]) (len c) (off c) (max_insert c) (out c).
Definition set_avail (c : comp) (b : bool) : comp :=
  Comp (chain_head c) (hash_head c) (hash_prev c) (hash_off c) (index c) (window c) (window_end c) (block_start c) b (tokens c) (len c) (off c) (max_insert c) (out c).
Definition set_index (c : comp) (i : Z) : comp :=
  Comp (chain_head c) (hash_head c) (hash_prev c) (hash_off c) i (window c) (window_end c) (block_start c) (byte_avail c) (tokens c) (len c) (off c) (max_insert c) (out c).
Definition set_match (c : comp) (l o : Z) : comp :=
  Comp (chain_head c) (hash_head c) (hash_prev c) (hash_off c) (index c) (window c) (window_end c) (block_start c) (byte_avail c) (tokens c) l o (max_insert c) (out c).
(** the block is full: maxFlateBlockTokens *)
Definition full_block (c : comp) (i : Z) : comp := if (Z.of_nat (length (tokens c)) =? 16384) then write_block c i else c.

(** matchLen *)
Fixpoint common (a b : gostr) : Z := match a, b with x :: a, y :: b => if y =? x then 1 + common a b else 0 | _, _ => 0 end.
Definition match_len (a b : gostr) (max : Z) : go Z :=
  if (Z.of_nat (length a) <? max) || (Z.of_nat (length b) <? max) then Panic PIndex else Ret (common (take (Z.to_nat max) a) (take (Z.to_nat max) b)).
Section level.
  Context (lv : level).
  (** the loop of findMatch over the chain; [w] is win, [last] is wEnd; the end of the body goes to the next place *)
  Definition next_place (c : comp) (pos i : Z) (again : Z → Z → Z → bool → Z → go (Z * Z * bool)) (l o : Z) (ok : bool) (last : Z) : go (Z * Z * bool) :=
    if i =? pos - window_size then Ret (l, o, ok)
    else let i := hash_prev c (Z.land i 32767) - hash_off c in
      if (i <? pos - window_size) || (i <? 0) then Ret (l, o, ok) else again i l o ok last.
  Fixpoint look (tries : nat) (c : comp) (w : gostr) (pos max nice : Z) (i l o : Z) (ok : bool) (last : Z) : go (Z * Z * bool) :=
    match tries with
    | O => Ret (l, o, ok)
    | S k =>
      x ← at_ w (i + l);
      if last =? x then
        n ← match_len (drop (Z.to_nat i) w) (drop (Z.to_nat pos) w) max;
        if (l <? n) && ((4 <? n) || (pos - i <=? 4096)) then
          if nice <=? n then Ret (n, pos - i, true)
          else last ← at_ w (pos + n); next_place c pos i (look k c w pos max nice) n (pos - i) true last
        else next_place c pos i (look k c w pos max nice) l o ok last
      else next_place c pos i (look k c w pos max nice) l o ok last
    end.
  Definition find_match (c : comp) (pos prev_head prev_length lookahead : Z) : go (Z * Z * bool) :=
    let max := Z.min 258 lookahead in
    let w := take (Z.to_nat (pos + max)) (window c) in
    let nice := Z.min (lv_nice lv) (Z.of_nat (length w) - pos) in
    let tries := if lv_good lv <=? prev_length then (lv_chain lv / 4)%nat else lv_chain lv in
    last ← at_ w (pos + prev_length);
    look tries c w pos max nice prev_head prev_length 0 false last.

  (** the string at [i] into its hash chain; the second one, at the index, keeps the head of the chain *)
  Definition insert (c : comp) (i : Z) : go (comp * Z) :=
    h ← hash4 (window c) i;
    let k := Z.land h 131071 in
    let old := hash_head c k in
    Ret (Comp (chain_head c) (upd (hash_head c) k (u32 (i + hash_off c))) (upd (hash_prev c) (Z.land i 32767) (u32 old)) (hash_off c) (index c) (window c) (window_end c)
           (block_start c) (byte_avail c) (tokens c) (len c) (off c) (max_insert c) (out c), old).
  Definition insert_here (c : comp) : go comp :=
    if index c <? max_insert c then
      r ← insert c (index c);
      let '(c, old) := r in
      Ret (Comp old (hash_head c) (hash_prev c) (hash_off c) (index c) (window c) (window_end c) (block_start c) (byte_avail c) (tokens c) (len c) (off c) (max_insert c) (out c))
    else Ret c.
  (** the strings inside of a match: [n] of them from [i] on *)
  Fixpoint insert_all (n : nat) (c : comp) (i : Z) : go comp :=
    match n with
    | O => Ret c
    | S n => c ← (if i <? max_insert c then r ← insert c i; Ret (r.1) else Ret c); insert_all n c (i + 1)
    end.
  (** one round of the loop of deflate; [false] for break *)
  Definition round (sync : bool) (c : comp) : go (comp * bool) :=
    if window_end c <? index c then Panic (PUser "index > windowEnd") else
    let lookahead := window_end c - index c in
    if (lookahead <? 4 + 258) && negb sync then Ret (c, false)
    else if (lookahead <? 4 + 258) && (lookahead =? 0) then
      c ← (if byte_avail c then x ← at_ (window c) (index c - 1); Ret (set_avail (add_token c (TLit x)) false) else Ret c);
      Ret (match tokens c with [] => c | _ => write_block c (index c) end, false)
    else
      c ← insert_here c;
      let prev_length := len c in
      let prev_offset := off c in
      let c := set_match c 3 0 in
      let min_index := Z.max 0 (index c - window_size) in
      c ← (if (min_index <=? chain_head c - hash_off c) && (prev_length <? lookahead) && (prev_length <? lv_lazy lv) then
             r ← find_match c (index c) (chain_head c - hash_off c) 3 lookahead;
             let '(l, o, ok) := r in Ret (if (ok : bool) then set_match c l o else c)
           else Ret c);
      if (4 <=? prev_length) && (len c <=? prev_length) then
        let c := add_token c (TMatch (prev_length - 3) (prev_offset - 1)) in
        let new_index := index c + prev_length - 1 in
        c ← insert_all (Z.to_nat (new_index - (index c + 1))) c (index c + 1);
        let c := set_match (set_avail (set_index c new_index) false) 3 (off c) in
        Ret (full_block c (index c), true)
      else
        c ← (if byte_avail c then x ← at_ (window c) (index c - 1); Ret (full_block (add_token c (TLit x)) (index c)) else Ret c);
        Ret (set_avail (set_index c (index c + 1)) true, true).
  Fixpoint rounds (fuel : nat) (sync : bool) (c : comp) : go comp :=
    match fuel with
    | O => Diverge
    | S n => r ← round sync c; let '(c, more) := r in if (more : bool) then rounds n sync c else Ret c
    end.
  Definition deflate (sync : bool) (c : comp) : go comp :=
    if (window_end c - index c <? 4 + 258) && negb sync then Ret c
    else
      let c := Comp (chain_head c) (hash_head c) (hash_prev c) (hash_off c) (index c) (window c) (window_end c) (block_start c) (byte_avail c) (tokens c) (len c) (off c) (window_end c - 3) (out c) in
      rounds (S (S (Z.to_nat (window_end c - index c)))) sync c.
  (** write: step and fill until all is taken *)
  Fixpoint write_all (fuel : nat) (c : comp) (b : gostr) : go comp :=
    match b with
    | [] => Ret c
    | _ => match fuel with
      | O => Diverge
      | S n => c ← deflate false c; let '(c, b) := fill c b in write_all n c b
      end
    end.
  Fixpoint writes (c : comp) (bs : list gostr) : go comp :=
    match bs with [] => Ret c | b :: r => c ← write_all (S (length b)) c b; writes c r end.
  (** all writes and the close, whose last block is empty; [w] is what the window held *)
  Definition compress_blocks (w : gostr) (bs : list gostr) : go (list (list token * option gostr)) :=
    c ← writes (init_comp w) bs; c ← deflate true c; Ret (out c).
End level.
