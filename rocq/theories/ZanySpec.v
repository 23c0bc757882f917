(** * Archives by any program: what APPNOTE.TXT allows of what Unzip supports (no encryption, contents stored or
    deflated, a single disk), with comments, extra fields, zip64 records where numbers do not fit, and local
    records in any place and order.  Nothing here refers to the writer or the reader of the model. *)
From Verif Require Import GoStr.
From Verif Require InflSpec.
From Verif Require Import ZfmtModel ZfmtSpec ZlaySpec.
Local Open Scope Z_scope.

(** the bytes [b] are the number [v] in [n] bytes, the lowest first *)
Definition le_num (n : nat) (v : Z) (b : gostr) : Prop := length b = n ∧ bytes b ∧ v = foldr (λ c s, c + 256 * s) 0 b.

(** an entry of the directory: the program that made it, the flags, the method, checksum and size of the content,
    the bytes of the content in the archive, the attributes, the position of the record and whether the descriptor
    behind its content, if there is one, has a signature *)
Record zentry := ZEntry { q_name : gostr; q_creator : Z; q_flags : Z; q_method : Z; q_crc : Z; q_size : Z; q_comp : gostr; q_attrs : Z; q_offset : Z; q_signed : bool }.
Definition q_csize (q : zentry) : Z := Z.of_nat (length (q_comp q)).

(** 4.5.1: extra fields, each with its tag and its length *)
Inductive extra_bytes : list (Z * gostr) → gostr → Prop :=
  | extra_nil : extra_bytes [] []
  | extra_cons t d a b r w : le_num 2 t a → le_num 2 (Z.of_nat (length d)) b → bytes d → extra_bytes r w → extra_bytes ((t, d) :: r) (a ++ b ++ d ++ w).
(** 4.5.3: the first field with tag 1 has those numbers that are 2^32 - 1 in the header, in this order *)
Definition long_fields (bu bc bo : bool) (q : zentry) (bl : list (Z * gostr)) : Prop :=
  bu || bc || bo = true → ∃ pre d post nu nc no more, bl = pre ++ (1, d) :: post ∧ Forall (λ b, b.1 ≠ 1) pre ∧
    d = (if bu then nu else []) ++ (if bc then nc else []) ++ (if bo then no else []) ++ more ∧ le_num 8 (q_size q) nu ∧ le_num 8 (q_csize q) nc ∧ le_num 8 (q_offset q) no.
(** a number of a header that has four bytes, [b] if it is elsewhere *)
Definition short4 (b : bool) (v : Z) (w : gostr) : Prop := if b then le_num 4 (2 ^ 32 - 1) w else v < 2 ^ 32 - 1 ∧ le_num 4 v w.
(** 4.3.12 *)
Definition central_bytes (q : zentry) (h : gostr) : Prop :=
  ∃ ver need fl me tm cr cs us nl el cl di ea off bl ext com bu bc bo,
    h = PK 1 2 ++ ver ++ need ++ fl ++ me ++ tm ++ cr ++ cs ++ us ++ nl ++ el ++ cl ++ di ++ ea ++ off ++ q_name q ++ ext ++ com ∧
    le_num 2 (q_creator q) ver ∧ length need = 2%nat ∧ le_num 2 (q_flags q) fl ∧ le_num 2 (q_method q) me ∧ length tm = 4%nat ∧ le_num 4 (q_crc q) cr ∧
    short4 bc (q_csize q) cs ∧ short4 bu (q_size q) us ∧ le_num 2 (Z.of_nat (length (q_name q))) nl ∧ le_num 2 (Z.of_nat (length ext)) el ∧ le_num 2 (Z.of_nat (length com)) cl ∧
    length di = 4%nat ∧ le_num 4 (q_attrs q) ea ∧ short4 bo (q_offset q) off ∧ extra_bytes bl ext ∧ long_fields bu bc bo q bl.
(** 4.3.9: the signature of a descriptor may be missing; sizes of four or eight bytes follow the checksum *)
Definition desc_bytes (q : zentry) (d : gostr) : Prop := ∃ cr sizes, le_num 4 (q_crc q) cr ∧ (8 ≤ length sizes)%nat ∧ d = (if q_signed q then PK 7 8 else []) ++ cr ++ sizes.
(** 4.3.7: the numbers that the directory repeats do not matter here *)
Definition local_bytes (q : zentry) (h : gostr) : Prop :=
  ∃ rest nl el name ext desc, h = PK 3 4 ++ rest ++ nl ++ el ++ name ++ ext ++ q_comp q ++ desc ∧ length rest = 22%nat ∧
    le_num 2 (Z.of_nat (length name)) nl ∧ le_num 2 (Z.of_nat (length ext)) el ∧ (Z.testbit (q_flags q) 3 = true → desc_bytes q desc).

(** 4.3.14-4.3.16: the records at the end; [bn], [bz] and [bs] say which numbers are in the record of zip64,
    [long] that there is one *)
Definition end64_bytes (x : gostr) (e n size start : Z) : Prop :=
  ∃ p rest vers ver disks n1 n2 sz st po, at_pos x p (PK 6 6 ++ rest ++ vers ++ ver ++ disks ++ n1 ++ n2 ++ sz ++ st) ∧ length rest = 8%nat ∧ length vers = 2%nat ∧ length ver = 2%nat ∧ length disks = 8%nat ∧
    length n1 = 8%nat ∧ le_num 8 n n2 ∧ le_num 8 size sz ∧ le_num 8 start st ∧ le_num 8 p po ∧ at_pos x (e - 20) (PK 6 7 ++ [0; 0; 0; 0] ++ po ++ [1; 0; 0; 0]).
Definition end_bytes (x : gostr) (e n size start : Z) (long : bool) : Prop :=
  ∃ disks n1 n2 sz st cl com (bn bz bs : bool), at_pos x e (PK 5 6 ++ disks ++ n1 ++ n2 ++ sz ++ st ++ cl ++ com) ∧ Z.of_nat (length x) = e + 22 + Z.of_nat (length com) ∧
    length disks = 4%nat ∧ length n1 = 2%nat ∧ (if bn then le_num 2 65535 n2 else n < 65535 ∧ le_num 2 n n2) ∧ short4 bz size sz ∧ short4 bs start st ∧ le_num 2 (Z.of_nat (length com)) cl ∧
    (bn || bz || bs = true → long = true) ∧ (long = true → end64_bytes x e n size start).
(** the directory is followed by a signature (4.3.13), or by one of the records at the end *)
Definition zip_file (x : gostr) (qs : list zentry) (e size : Z) (long : bool) : Prop :=
  ∃ start hs next, Forall2 central_bytes qs hs ∧ at_pos x start (mjoin hs ++ next) ∧ (next = PK 5 5 ∨ next = PK 6 6 ∨ next = PK 5 6) ∧
    size = Z.of_nat (length (mjoin hs)) ∧ end_bytes x e (Z.of_nat (length qs)) size start long ∧ Forall (λ q, ∃ h, local_bytes q h ∧ at_pos x (q_offset q) h) qs.
(** what is not ambiguous: the comment has no other record of the end with room for its comment, *)
Definition last_end (x : gostr) (e : Z) : Prop := ∀ o c, e < o → at_pos x o (PK 5 6) → field x (o + 20) 2 c → Z.of_nat (length x) < o + 22 + c.
(** without a record of zip64 there is nothing that looks like its locator, if the directory has 65535 bytes, *)
Definition no_false_locator (x : gostr) (e size : Z) (long : bool) : Prop := long = false → size = 65535 → ¬ at_pos x (e - 20) (PK 6 7).
(** and a descriptor without a signature has none in the place of the checksum *)
Definition no_false_signature (q : zentry) : Prop := Z.testbit (q_flags q) 3 = true → q_signed q = false → ¬ le_num 4 (q_crc q) (PK 7 8).

(** 4.4.2, 4.4.15: which system's attributes there are, and what says that an entry is a directory *)
Definition says_dir (q : zentry) : Prop :=
  last (q_name q) = Some 47 ∨
  (let host := q_creator q / 256 in ((host = 3 ∨ host = 19) ∧ q_attrs q / 2 ^ 28 = 4) ∨ ((host = 0 ∨ host = 11 ∨ host = 14) ∧ Z.testbit (q_attrs q) 4 = true)).
(** the content of an entry *)
Definition content (q : zentry) (d : gostr) : Prop :=
  (q_method q = 0 ∧ q_comp q = d ∨ q_method q = 8 ∧ InflSpec.stands_for (q_comp q) d) ∧ bytes d ∧ q_size q = Z.of_nat (length d) ∧ crc_of d (q_crc q).
Definition unpacked (q : zentry) (i : item) : Prop :=
  i_name i = q_name q ∧ (says_dir q → i_dir i = true) ∧ (¬ says_dir q → i_dir i = false ∧ ∀ d, content q d → i_data i = Some d).
