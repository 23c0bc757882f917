(** * Model of help/utils/md5.go: AesEncrypt, AesDecrypt

    crypto/aes is a parameter here: [E key block] encrypts one block and [D] decrypts it;
    AesBlockModel puts in the real one.  crypto/cipher's CBC mode is
    modelled block by block.  Slices are windows of one memory, so that [append] can write into a
    caller's spare capacity. *)
From Verif Require Export GoBase.
Local Open Scope Z_scope.

(** a Go slice: offset, length and capacity *)
Record slice := Slice { s_off : nat; s_len : nat; s_cap : nat }.
Definition bytes_of (m : list Z) (s : slice) : list Z := take (s_len s) (drop (s_off s) m).
(** Go [append]: in place if the capacity suffices, otherwise in a new array *)
Definition go_append (m : list Z) (s : slice) (ext : list Z) : list Z * list Z :=
  (bytes_of m s ++ ext,
   if decide (s_len s + length ext ≤ s_cap s)%nat
   then take (s_off s + s_len s) m ++ ext ++ drop (s_off s + s_len s + length ext) m else m).

(** md5.go:76-80 *)
Definition pkcs7_padding (m : list Z) (data : slice) (bs : nat) : list Z * list Z :=
  let padding := (bs - s_len data mod bs)%nat in
  go_append m data (replicate padding (Z.of_nat padding mod 256)).
(** md5.go:82-89; [None] is the error *)
Definition pkcs7_unpadding (data : list Z) : go (option (list Z)) :=
  match last data with
  | None => Ret None
  | Some b => let n := Z.of_nat (length data) - b in
    if n <? 0 then Panic PIndex else Ret (Some (take (Z.to_nat n) data))
  end.

(** crypto/cipher cbc.go: CryptBlocks of the two modes, [n] blocks *)
Definition xor (a b : list Z) : list Z := zip_with Z.lxor a b.
Fixpoint cbc_enc (e : list Z → list Z) (n : nat) (iv src : list Z) : list Z :=
  match n with O => [] | S n => let c := e (xor iv (take 16 src)) in c ++ cbc_enc e n c (drop 16 src) end.
Fixpoint cbc_dec (d : list Z → list Z) (n : nat) (iv src : list Z) : list Z :=
  match n with O => [] | S n => xor iv (d (take 16 src)) ++ cbc_dec d n (take 16 src) (drop 16 src) end.
Definition crypt_blocks (f : nat → list Z) (src : list Z) : go (list Z) :=
  if decide (length src mod 16 = 0)%nat then Ret (f (length src / 16)%nat) else Panic (PUser "crypto/cipher: input not full blocks").
(** crypto/aes NewCipher *)
Definition key_ok (k : list Z) : bool := bool_decide (length k = 16 ∨ length k = 24 ∨ length k = 32)%nat.

(** md5.go:46-57; the result ([None] is the error) and the memory afterwards *)
Definition aes_encrypt (E : list Z → list Z → list Z) (m : list Z) (data key : slice) : go (option (list Z) * list Z) :=
  let k := bytes_of m key in
  if key_ok k then
    let '(p, m') := pkcs7_padding m data 16 in
    let iv := take 16 (bytes_of m' key) in
    c ← crypt_blocks (λ n, cbc_enc (E k) n iv p) p;
    Ret (Some c, m')
  else Ret (None, m).
(** md5.go:59-74; it writes only its own buffer *)
Definition aes_decrypt (D : list Z → list Z → list Z) (data key : list Z) : go (option (list Z)) :=
  if key_ok key then
    p ← crypt_blocks (λ n, cbc_dec (D key) n (take 16 key) data) data;
    pkcs7_unpadding p
  else Ret None.
