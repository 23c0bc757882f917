(** * Model of the MD5 helpers: help/utils/md5.go:14-44, breakpoint_continue.go:37-44, 88-96 and
    files.go:111-131

    crypto/md5 is modelled as its portable implementation: the digest keeps the words, a buffer of
    fewer than 64 bytes and the number of bytes, and [Write] takes any number of bytes.  A reader
    is the pieces its Read calls return and whether it ends in an error; readers that never end
    are left out. *)
From Verif Require Export GoStr AesModel.
Local Open Scope Z_scope.

(** uint32 arithmetic *)
Definition w32 (x : Z) : Z := x mod 4294967296.
Definition rotl (x n : Z) : Z := Z.lor (w32 (Z.shiftl x n)) (Z.shiftr x (32 - n)).
Definition not32 (x : Z) : Z := Z.lxor x 4294967295.
Record words4 := W4 { wa : Z; wb : Z; wc : Z; wd : Z }.

(** md5block.go: the functions of the four rounds as written there *)
Definition f1 (b c d : Z) : Z := Z.lxor (Z.land (Z.lxor c d) b) d.
Definition f2 (b c d : Z) : Z := Z.lxor (Z.land (Z.lxor b c) d) c.
Definition f3 (b c d : Z) : Z := Z.lxor (Z.lxor b c) d.
Definition f4 (b c d : Z) : Z := Z.lxor c (Z.lor b (not32 d)).
Definition table : list Z :=
  [3614090360; 3905402710; 606105819; 3250441966; 4118548399; 1200080426; 2821735955; 4249261313;
   1770035416; 2336552879; 4294925233; 2304563134; 1804603682; 4254626195; 2792965006; 1236535329;
   4129170786; 3225465664; 643717713; 3921069994; 3593408605; 38016083; 3634488961; 3889429448;
   568446438; 3275163606; 4107603335; 1163531501; 2850285829; 4243563512; 1735328473; 2368359562;
   4294588738; 2272392833; 1839030562; 4259657740; 2763975236; 1272893353; 4139469664; 3200236656;
   681279174; 3936430074; 3572445317; 76029189; 3654602809; 3873151461; 530742520; 3299628645;
   4096336452; 1126891415; 2878612391; 4237533241; 1700485571; 2399980690; 4293915773; 2240044497;
   1873313359; 4264355552; 2734768916; 1309151649; 4149444226; 3174756917; 718787259; 3951481745].
Definition shifts : list Z := [7; 12; 17; 22; 5; 9; 14; 20; 4; 11; 16; 23; 6; 10; 15; 21].
(** md5block.go: the 64 assignments [a = b + bits.RotateLeft32(f(b,c,d)+a+x+T, s)], the roles of
    the variables turning after each *)
Definition step_fun (i : nat) : Z → Z → Z → Z :=
  if (i <? 16)%nat then f1 else if (i <? 32)%nat then f2 else if (i <? 48)%nat then f3 else f4.
Definition step_word (i : nat) : nat :=
  if (i <? 16)%nat then i else if (i <? 32)%nat then (1 + 5 * i) mod 16 else if (i <? 48)%nat then (5 + 3 * i) mod 16 else (7 * i) mod 16.
Definition md5_step (x : list Z) (v : words4) (i : nat) : words4 :=
  let '(W4 a b c d) := v in
  let s := default 0 (shifts !! (4 * (i / 16) + i mod 4)%nat) in
  let sum := w32 (step_fun i b c d + a + default 0 (x !! step_word i) + default 0 (table !! i)) in
  W4 d (w32 (b + rotl sum s)) b c.
(** the little-endian words of a block *)
Fixpoint le_words (l : list Z) : list Z :=
  match l with a :: b :: c :: d :: r => (a + 256 * b + 65536 * c + 16777216 * d) :: le_words r | _ => [] end.
(** md5block.go blockGeneric: one block, then all blocks of [p] *)
Definition md5_block (v : words4) (p : list Z) : words4 :=
  let '(W4 a b c d) := foldl (md5_step (le_words p)) v (seq 0 64) in
  W4 (w32 (a + wa v)) (w32 (b + wb v)) (w32 (c + wc v)) (w32 (d + wd v)).
Fixpoint md5_blocks (n : nat) (v : words4) (p : list Z) : words4 :=
  match n with O => v | S n => md5_blocks n (md5_block v (take 64 p)) (drop 64 p) end.

(** md5.go: digest *)
Record digest := Digest { dg_s : words4; dg_x : list Z; dg_len : Z }.
Definition md5_new : digest := Digest (W4 1732584193 4023233417 2562383102 271733878) [] 0.
(** md5.go Write *)
Definition md5_write (d : digest) (p : list Z) : digest :=
  let len' := (dg_len d + Z.of_nat (length p)) mod 18446744073709551616 in
  let '(s, x, q) :=
    if (0 <? length (dg_x d))%nat then
      let n := ((64 - length (dg_x d)) `min` length p)%nat in
      let x' := dg_x d ++ take n p in
      if (length x' =? 64)%nat then (md5_block (dg_s d) x', [], drop n p) else (dg_s d, x', drop n p)
    else (dg_s d, [], p) in
  let n := (length q / 64)%nat in
  let s' := if (64 <=? length q)%nat then md5_blocks n s q else s in
  let q' := if (64 <=? length q)%nat then drop (64 * n) q else q in
  Digest s' (if (0 <? length q')%nat then q' else x) len'.
(** the bytes of a word and of a 64-bit length, low byte first *)
Fixpoint le_bytes (n : nat) (x : Z) : list Z := match n with O => [] | S n => x mod 256 :: le_bytes n (x / 256) end.
(** md5.go checkSum *)
Definition md5_checksum (d : digest) : go (list Z) :=
  let pad := ((55 - dg_len d) mod 18446744073709551616) mod 64 in
  let tmp := [128] ++ replicate (Z.to_nat pad) 0 ++ le_bytes 8 ((dg_len d * 8) mod 18446744073709551616) in
  let d' := md5_write d tmp in
  if bool_decide (dg_x d' = []) then
    let s := dg_s d' in Ret (le_bytes 4 (wa s) ++ le_bytes 4 (wb s) ++ le_bytes 4 (wc s) ++ le_bytes 4 (wd s))
  else Panic (PUser "d.nx != 0").
(** md5.go Sum(in) *)
Definition md5_sum (d : digest) (pre : list Z) : go (list Z) := h ← md5_checksum d; Ret (pre ++ h).

(** encoding/hex EncodeToString and fmt's %x of bytes *)
Definition hex_digit (v : Z) : Z := default 0 (str "0123456789abcdef" !! Z.to_nat v).
Definition hex_string (l : list Z) : gostr := l ≫= λ b, [hex_digit (b / 16); hex_digit (b mod 16)].

(** md5.go:18-23 *)
Definition md5_crypt (s : gostr) : go gostr := h ← md5_sum (md5_write md5_new s) []; Ret (hex_string h).
(** md5.go:39-44; md5.Sum *)
Definition md5_string (s : gostr) : go gostr := h ← md5_checksum (md5_write md5_new s); Ret (hex_string h).
(** a reader: what its calls return *)
Record reader := Reader { rd_pieces : list (list Z); rd_fails : bool }.
(** io.Copy into a hash *)
Definition copy_hash (d : digest) (r : reader) : digest := foldl md5_write d (rd_pieces r).
(** md5.go:29-33: the error is dropped *)
Definition compute_file_md5 (r : reader) : go gostr := h ← md5_sum (copy_hash md5_new r) []; Ret (hex_string h).
(** files.go:115-131; [None]: the file does not open; the second result is whether there is an error *)
Definition file_md5 (file : option reader) : go (gostr * bool) :=
  match file with
  | None => Ret ([], true)
  | Some r => if rd_fails r then Ret ([], true) else h ← md5_sum (copy_hash md5_new r) []; Ret (hex_string h, false)
  end.
(** breakpoint_continue.go:92-96 *)
Definition md5v (s : list Z) (b : list Z) : go gostr := h ← md5_sum (md5_write md5_new s) b; Ret (hex_string h).
(** the same with slices in memory: [Sum] appends to its argument; the memory afterwards *)
Definition md5v_mem (m : list Z) (s b : slice) : go (gostr * list Z) :=
  h ← md5_checksum (md5_write md5_new (bytes_of m s));
  let '(r, m') := go_append m b h in Ret (hex_string r, m').
(** breakpoint_continue.go:37-44 *)
Definition check_md5 (content : list Z) (chunk : gostr) : go bool := h ← md5v content []; Ret (bool_decide (h = chunk)).
