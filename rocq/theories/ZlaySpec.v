(** * What the bytes of an archive are, from the description of the format (APPNOTE.TXT 4.3 and 4.4, and the
    Info-ZIP notes on the Unix mode): nothing here refers to the writer or the reader of the model *)
From Verif Require Import GoStr ZfmtModel ZfmtSpec.
Local Open Scope Z_scope.

(** the bytes [b] are at position [o] of [x] *)
Definition at_pos (x : gostr) (o : Z) (b : gostr) : Prop := ∃ p q, x = p ++ b ++ q ∧ Z.of_nat (length p) = o.
(** the number [v] is at position [o] of [x], in [n] bytes with the lowest first *)
Definition field (x : gostr) (o : Z) (n : nat) (v : Z) : Prop :=
  ∃ b, at_pos x o b ∧ length b = n ∧ bytes b ∧ v = foldr (λ c s, c + 256 * s) 0 b.
Definition PK (a b : Z) : gostr := [80; 75; a; b].

(** what is known of a file: its name, whether its content is compressed, the bytes for the content in the
    archive, the size of the content and its checksum, the mode *)
Record member := Member { m_name : gostr; m_deflated : bool; m_comp : gostr; m_size : Z; m_crc : Z; m_mode : Z }.
Definition m_csize (m : member) : Z := Z.of_nat (length (m_comp m)).
Definition m_nlen (m : member) : Z := Z.of_nat (length (m_name m)).
(** 4.3.9.2: sizes of eight bytes *)
Definition m_long (m : member) : bool := bool_decide (2 ^ 32 - 1 ≤ m_csize m ∨ 2 ^ 32 - 1 ≤ m_size m).
Definition bit (v k : Z) (b : bool) : Prop := Z.testbit v k = b.

(** 4.3.7-4.3.9: header, content and descriptor from [o] to [o'].  Bit 3 of the flags says that a descriptor
    follows, bits 0 and 6 that nothing is encrypted.  A nine byte field with the time follows the name. *)
Definition local_at (x : gostr) (m : member) (o o' : Z) : Prop :=
  at_pos x o (PK 3 4) ∧ field x (o + 4) 2 20 ∧
  (∃ fl, field x (o + 6) 2 fl ∧ bit fl 3 (m_deflated m) ∧ bit fl 0 false ∧ bit fl 6 false) ∧
  field x (o + 8) 2 (if m_deflated m then 8 else 0) ∧ field x (o + 26) 2 (m_nlen m) ∧ field x (o + 28) 2 9 ∧
  at_pos x (o + 30) (m_name m) ∧ field x (o + 30 + m_nlen m) 2 21589 ∧ field x (o + 32 + m_nlen m) 2 5 ∧
  let d := o + 39 + m_nlen m in let e := d + m_csize m in
  at_pos x d (m_comp m) ∧
  if m_deflated m then
    at_pos x e (PK 7 8) ∧ field x (e + 4) 4 (m_crc m) ∧
    if m_long m then field x (e + 8) 8 (m_csize m) ∧ field x (e + 16) 8 (m_size m) ∧ o' = e + 24
    else field x (e + 8) 4 (m_csize m) ∧ field x (e + 12) 4 (m_size m) ∧ o' = e + 16
  else o' = e.
(** 4.3.12: the header in the directory from [c] to [c'], for a record at [o].  Made on Unix; where a number
    does not fit all three are in the extra field of zip64 (4.5.3). *)
Definition central_at (x : gostr) (m : member) (o c c' : Z) : Prop :=
  let big := bool_decide (m_long m = true ∨ 2 ^ 32 - 1 ≤ o) in
  at_pos x c (PK 1 2) ∧ field x (c + 4) 2 (3 * 256 + 20) ∧ field x (c + 6) 2 (if m_long m then 45 else 20) ∧
  (∃ fl, field x (c + 8) 2 fl ∧ bit fl 3 (m_deflated m) ∧ bit fl 0 false ∧ bit fl 6 false) ∧
  field x (c + 10) 2 (if m_deflated m then 8 else 0) ∧ field x (c + 16) 4 (m_crc m) ∧
  field x (c + 20) 4 (if big then 2 ^ 32 - 1 else m_csize m) ∧ field x (c + 24) 4 (if big then 2 ^ 32 - 1 else m_size m) ∧
  field x (c + 28) 2 (m_nlen m) ∧ field x (c + 30) 2 (if big then 37 else 9) ∧ field x (c + 32) 2 0 ∧ field x (c + 34) 2 0 ∧ field x (c + 36) 2 0 ∧
  (∃ v, field x (c + 38) 4 v ∧ Z.shiftr v 16 = m_mode m) ∧ field x (c + 42) 4 (Z.min o (2 ^ 32 - 1)) ∧ at_pos x (c + 46) (m_name m) ∧
  let t := c + 46 + m_nlen m in
  field x t 2 21589 ∧ field x (t + 2) 2 5 ∧
  if big then field x (t + 9) 2 1 ∧ field x (t + 11) 2 24 ∧ field x (t + 13) 8 (m_size m) ∧ field x (t + 21) 8 (m_csize m) ∧ field x (t + 29) 8 o ∧ c' = t + 37
  else c' = t + 9.
(** the records from [o] to [oe], and in the same order their headers from [c] to [ce] *)
Fixpoint members_at (x : gostr) (ms : list member) (o oe c ce : Z) : Prop :=
  match ms with
  | [] => o = oe ∧ c = ce
  | m :: r => ∃ o' c', local_at x m o o' ∧ central_at x m o c c' ∧ members_at x r o' oe c' ce
  end.
(** 4.3.16 *)
Definition end_at (x : gostr) (e n size start : Z) : Prop :=
  at_pos x e (PK 5 6) ∧ field x (e + 4) 2 0 ∧ field x (e + 6) 2 0 ∧ field x (e + 8) 2 n ∧ field x (e + 10) 2 n ∧ field x (e + 12) 4 size ∧ field x (e + 16) 4 start ∧
  field x (e + 20) 2 0 ∧ Z.of_nat (length x) = e + 22.
(** 4.3.14, 4.3.15: the record of zip64 and where it is *)
Definition end64_at (x : gostr) (e n size start : Z) : Prop :=
  at_pos x e (PK 6 6) ∧ field x (e + 4) 8 44 ∧ field x (e + 16) 4 0 ∧ field x (e + 20) 4 0 ∧ field x (e + 24) 8 n ∧ field x (e + 32) 8 n ∧ field x (e + 40) 8 size ∧ field x (e + 48) 8 start ∧
  at_pos x (e + 56) (PK 6 7) ∧ field x (e + 60) 4 0 ∧ field x (e + 64) 8 e ∧ field x (e + 72) 4 1.
(** 4.3.6: the whole archive; the directory begins at [start], right after the records, and ends at [e] *)
Definition archive (x : gostr) (ms : list member) : Prop :=
  ∃ start e, let n := Z.of_nat (length ms) in members_at x ms 0 start start e ∧
    if bool_decide (2 ^ 16 - 1 ≤ n ∨ 2 ^ 32 - 1 ≤ e - start ∨ 2 ^ 32 - 1 ≤ start) then
      end64_at x e n (e - start) start ∧ end_at x (e + 76) (2 ^ 16 - 1) (2 ^ 32 - 1) (2 ^ 32 - 1)
    else end_at x e n (e - start) start.

(** the member for a file of ZipFiles: one with a slash at the end of its name has no content; the mode is that
    of a directory or a regular file (4 and 8, followed by the twelve bits of the permissions) *)
Definition member_for (deflate : gostr → gostr) (f : wfile) (m : member) : Prop :=
  m_name m = w_name f ∧ m_mode m = (if w_isdir f then 4 else 8) * 4096 + w_perm f ∧
  (last (w_name f) = Some 47 → m_deflated m = false ∧ m_comp m = [] ∧ m_size m = 0 ∧ m_crc m = 0) ∧
  (last (w_name f) ≠ Some 47 → m_deflated m = true ∧ m_comp m = deflate (w_data f) ∧ m_size m = Z.of_nat (length (w_data f)) ∧ (bytes (w_data f) → crc_of (w_data f) (m_crc m))).
