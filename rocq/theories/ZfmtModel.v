(** * Model of the archive format behind help/utils/zip.go

    ZipFiles writes with archive/zip's Writer (zip.go:76-105) and Unzip reads with its Reader (zip.go:20,
    30, 37, 49); both are modelled as in Go 1.18, without a comment and without the raw mode.  Text is a
    list of bytes.  compress/flate is two parameters: the bytes [deflate] makes of a file, and what
    [inflate] gets back from the bytes of an entry, [None] if it stops with an error.  The mode of a file
    that is no directory is that of a regular file.  Dates and the bit for UTF-8 names are parameters: the
    reader passes them on only.  A read that fails gives no data here. *)
From Verif Require Export GoStr.
From Verif Require Import PathModel ZipfsModel.
Local Open Scope Z_scope.

(** ** encoding/binary.LittleEndian and the buffers writeBuf and readBuf *)
Fixpoint to_le (n : nat) (v : Z) : gostr := match n with O => [] | S n => v mod 256 :: to_le n (v / 256) end.
Fixpoint le_val (b : gostr) : Z := match b with [] => 0 | x :: r => x + 256 * le_val r end.
Definition rd (n : nat) (b : gostr) : go (Z * gostr) := if (length b <? n)%nat then Panic PIndex else Ret (le_val (take n b), drop n b).
(** reader.go readBuf.sub, and a slice expression b[n:] *)
Definition rd_sub (n : nat) (b : gostr) : go (gostr * gostr) := if (length b <? n)%nat then Panic PIndex else Ret (take n b, drop n b).
Definition rd_skip (n : nat) (b : gostr) : go gostr := if (length b <? n)%nat then Panic PIndex else Ret (drop n b).

(** ** hash/crc32, IEEE: crc32_generic.go simplePopulateTable and simpleUpdate *)
Definition crc_poly : Z := 3988292384.
Definition crc_shift (c : Z) : Z := if Z.testbit c 0 then Z.lxor (Z.shiftr c 1) crc_poly else Z.shiftr c 1.
Definition crc_table : list Z := Eval vm_compute in (λ i, Nat.iter 8 crc_shift (Z.of_nat i)) <$> seq 0 256.
Definition crc_update (c v : Z) : Z := Z.lxor (nth (Z.to_nat (Z.lxor (Z.land c 255) v)) crc_table 0) (Z.shiftr c 8).
Definition crc32 (x : gostr) : Z := Z.lxor (foldl crc_update 4294967295 x) 4294967295.

(** ** struct.go *)
Definition file_sig : Z := 67324752.
Definition dir_sig : Z := 33639248.
Definition end_sig : Z := 101010256.
Definition loc64_sig : Z := 117853008.
Definition end64_sig : Z := 101075792.
Definition desc_sig : Z := 134695760.
Definition max16 : Z := 65535.
Definition max32 : Z := 4294967295.
(** struct.go isZip64 *)
Definition is_zip64 (csize usize : Z) : bool := (max32 <=? csize) || (max32 <=? usize).
(** struct.go FileHeader.Mode, IsDir of it: the two bytes of the version say which system's mode it is *)
Definition mode_dir (creator attrs : Z) (name : gostr) : bool :=
  let c := Z.shiftr creator 8 in
  (if (c =? 3) || (c =? 19) then Z.land (Z.shiftr attrs 16) 61440 =? 16384
   else if (c =? 11) || (c =? 14) || (c =? 0) then negb (Z.land attrs 16 =? 0) else false) || ends_slash name.

(** ** writer.go *)
(** the file given to ZipFiles: its name in the archive, whether it is a directory, the permission bits, the
    time as the archive has it, in seconds and as date and time of MS-DOS, and the content *)
Record wfile := WFile { w_name : gostr; w_isdir : bool; w_perm : Z; w_sec : Z; w_date : Z; w_time : Z; w_utf8 : bool; w_data : gostr }.
Section format.
Context (deflate : gostr → gostr) (inflate : gostr → option gostr).

(** struct.go SetMode *)
Definition w_attrs (f : wfile) : Z :=
  Z.lor (Z.shiftl (Z.lor (if w_isdir f then 16384 else 32768) (w_perm f)) 16)
    (Z.lor (if w_isdir f then 16 else 0) (if Z.land (w_perm f) 128 =? 0 then 1 else 0)).
(** writer.go CreateHeader: the time in Extra, the flags, Store for a name with a slash at its end *)
Definition w_extra (f : wfile) : gostr := to_le 2 21589 ++ to_le 2 5 ++ to_le 1 1 ++ to_le 4 (w_sec f).
Definition w_flags (f : wfile) : Z := (if w_utf8 f then 2048 else 0) + (if ends_slash (w_name f) then 0 else 8).
Definition w_method (f : wfile) : Z := if ends_slash (w_name f) then 0 else 8.
(** writer.go writeHeader; sizes and checksum are left out *)
Definition local_header (f : wfile) : gostr :=
  to_le 4 file_sig ++ to_le 2 20 ++ to_le 2 (w_flags f) ++ to_le 2 (w_method f) ++ to_le 2 (w_time f) ++ to_le 2 (w_date f) ++
  to_le 4 0 ++ to_le 4 0 ++ to_le 4 0 ++ to_le 2 (Z.of_nat (length (w_name f))) ++ to_le 2 (Z.of_nat (length (w_extra f))) ++ w_name f ++ w_extra f.
(** writer.go fileWriter: the compressed bytes, the sizes and the checksum, all empty for a name with a slash *)
Definition w_comp (f : wfile) : gostr := if ends_slash (w_name f) then [] else deflate (w_data f).
Definition w_usize (f : wfile) : Z := if ends_slash (w_name f) then 0 else Z.of_nat (length (w_data f)).
Definition w_csize (f : wfile) : Z := Z.of_nat (length (w_comp f)).
Definition w_crc (f : wfile) : Z := if ends_slash (w_name f) then 0 else crc32 (w_data f).
Definition w_zip64 (f : wfile) : bool := is_zip64 (w_csize f) (w_usize f).
(** writer.go fileWriter.close, writeDataDescriptor *)
Definition descriptor (f : wfile) : gostr :=
  if ends_slash (w_name f) then []
  else to_le 4 desc_sig ++ to_le 4 (w_crc f) ++ (if w_zip64 f then to_le 8 (w_csize f) ++ to_le 8 (w_usize f) else to_le 4 (w_csize f) ++ to_le 4 (w_usize f)).
Definition w_record (f : wfile) : gostr := local_header f ++ w_comp f ++ descriptor f.
(** writer.go Close: the header of a file at [off] *)
Definition dir_header (f : wfile) (off : Z) : gostr :=
  let big := w_zip64 f || (max32 <=? off) in
  let extra := w_extra f ++ (if big then to_le 2 1 ++ to_le 2 24 ++ to_le 8 (w_usize f) ++ to_le 8 (w_csize f) ++ to_le 8 off else []) in
  to_le 4 dir_sig ++ to_le 2 788 ++ to_le 2 (if w_zip64 f then 45 else 20) ++ to_le 2 (w_flags f) ++ to_le 2 (w_method f) ++ to_le 2 (w_time f) ++ to_le 2 (w_date f) ++
  to_le 4 (w_crc f) ++ (if big then to_le 4 max32 ++ to_le 4 max32 else to_le 4 (w_csize f) ++ to_le 4 (w_usize f)) ++
  to_le 2 (Z.of_nat (length (w_name f))) ++ to_le 2 (Z.of_nat (length extra)) ++ to_le 2 0 ++ to_le 4 0 ++ to_le 4 (w_attrs f) ++
  to_le 4 (if max32 <? off then max32 else off) ++ w_name f ++ extra.
Fixpoint dir_headers (fs : list wfile) (off : Z) : gostr :=
  match fs with [] => [] | f :: r => dir_header f off ++ dir_headers r (off + Z.of_nat (length (w_record f))) end.
(** writer.go Close: the records at the end, those of zip64 first where they are needed *)
Definition end_record (records size offset : Z) : gostr :=
  to_le 4 end_sig ++ to_le 4 0 ++ to_le 2 records ++ to_le 2 records ++ to_le 4 size ++ to_le 4 offset ++ to_le 2 0.
Definition end_records (records size offset : Z) : gostr :=
  if (max16 <=? records) || (max32 <=? size) || (max32 <=? offset) then
    to_le 4 end64_sig ++ to_le 8 44 ++ to_le 2 45 ++ to_le 2 45 ++ to_le 4 0 ++ to_le 4 0 ++ to_le 8 records ++ to_le 8 records ++ to_le 8 size ++ to_le 8 offset ++
    to_le 4 loc64_sig ++ to_le 4 0 ++ to_le 8 (offset + size) ++ to_le 4 1 ++ end_record max16 max32 max32
  else end_record records size offset.
Definition write_zip (fs : list wfile) : gostr :=
  let body := fs ≫= w_record in
  let dir := dir_headers fs 0 in
  body ++ dir ++ end_records (Z.of_nat (length fs)) (Z.of_nat (length dir)) (Z.of_nat (length body)).

(** ** reader.go *)
(** ReadAt for [n] > 0 bytes: [None] stands for an error, at the end of the file among others *)
Definition read_at (x : gostr) (off : Z) (n : nat) : option gostr :=
  if (off <? 0) || (Z.of_nat (length x) <? off + Z.of_nat n) then None else Some (take n (drop (Z.to_nat off) x)).
(** findSignatureInBlock, from index [i] - 1 downwards *)
Fixpoint find_sig (b : gostr) (i : nat) : option nat :=
  match i with
  | O => None
  | S i =>
    if bool_decide (take 4 (drop i b) = [80; 75; 5; 6]) && (le_val (take 2 (drop (i + 20) b)) + 22 + Z.of_nat i <=? Z.of_nat (length b)) then Some i
    else find_sig b i
  end.
Definition find_in_block (b : gostr) : option nat := find_sig b (length b + 1 - 22).
(** what a record at the end says *)
Record dend := DEnd { d_records : Z; d_size : Z; d_offset : Z }.
(** findDirectory64End: the position of the zip64 record, or the error; -1 for none *)
Definition find_end64 (x : gostr) (at_ : Z) : go (option Z) :=
  let loc := at_ - 20 in
  if loc <? 0 then Ret (Some (-1))
  else match read_at x loc 20 with
  | None => Ret None
  | Some b =>
    '(sig, b) ← rd 4 b;
    if negb (sig =? loc64_sig) then Ret (Some (-1))
    else '(disk, b) ← rd 4 b;
      if negb (disk =? 0) then Ret (Some (-1))
      else '(p, b) ← rd 8 b; '(disks, _) ← rd 4 b;
        if negb (disks =? 1) then Ret (Some (-1)) else Ret (Some (i64 p))
  end.
(** readDirectory64End *)
Definition read_end64 (x : gostr) (at_ : Z) : go (option dend) :=
  match read_at x at_ 56 with
  | None => Ret None
  | Some b =>
    '(sig, b) ← rd 4 b;
    if negb (sig =? end64_sig) then Ret None
    else b ← rd_skip 12 b; '(_, b) ← rd 4 b; '(_, b) ← rd 4 b; '(_, b) ← rd 8 b;
      '(records, b) ← rd 8 b; '(size, b) ← rd 8 b; '(offset, _) ← rd 8 b; Ret (Some (DEnd records size offset))
  end.
(** readDirectoryEnd: the last 1024 bytes, then the last 66560; the comparison with 65535 is that of reader.go *)
Definition find_end (x : gostr) : option (gostr * Z) :=
  let size := length x in
  let look n := let n := Nat.min n size in
    match find_in_block (drop (size - n) x) with Some p => Some (drop (size - n + p) x, Z.of_nat (size - n + p)) | None => None end in
  match look 1024%nat with Some r => Some r | None => if (size <=? 1024)%nat then None else look (65 * 1024)%nat end.
Definition read_end (x : gostr) : go (option dend) :=
  match find_end x with
  | None => Ret None
  | Some (b, at_) =>
    b ← rd_skip 4 b; '(_, b) ← rd 2 b; '(_, b) ← rd 2 b; '(_, b) ← rd 2 b; '(records, b) ← rd 2 b; '(size, b) ← rd 4 b; '(offset, b) ← rd 4 b; '(len, b) ← rd 2 b;
    if Z.of_nat (length b) <? len then Ret None
    else
      d ← (if (records =? max16) || (size =? 65535) || (offset =? max32) then
        p ← find_end64 x at_;
        match p with
        | None => Ret None
        | Some p => if 0 <=? p then read_end64 x p else Ret (Some (DEnd records size offset))
        end
      else Ret (Some (DEnd records size offset)));
      Ret match d with
      | Some d => if (i64 (d_offset d) <? 0) || (Z.of_nat (length x) <=? i64 (d_offset d)) then None else Some d
      | None => None
      end
  end.

(** the header of a file as the reader has it; times are left out *)
Record zfile := ZFile { z_name : gostr; z_creator : Z; z_flags : Z; z_method : Z; z_crc : Z; z_csize : Z; z_usize : Z; z_attrs : Z; z_offset : Z }.
(** readDirectoryHeader, the NTFS attributes: nothing in them fails but a read past their end would *)
Fixpoint ntfs_attrs (fuel : nat) (b : gostr) : go unit :=
  match fuel with
  | O => Diverge
  | S k =>
    if (length b <? 4)%nat then Ret ()
    else '(tag, b) ← rd 2 b; '(size, b) ← rd 2 b;
      if Z.of_nat (length b) <? size then Ret ()
      else '(a, b) ← rd_sub (Z.to_nat size) b;
        _ ← (if negb (tag =? 1) || negb (size =? 24) then Ret () else '(_, _) ← rd 8 a; Ret ());
        ntfs_attrs k b
  end.
(** readDirectoryHeader, parseExtras: the sizes and the offset, and which of them are still wanted.  The
    result [None] stands for ErrFormat. *)
Record sizes := Sizes { s_usize : Z; s_csize : Z; s_offset : Z; need_u : bool; need_c : bool; need_o : bool }.
Definition want (need : bool) (old : Z) (b : gostr) : go (option (Z * gostr)) :=
  if need then if (length b <? 8)%nat then Ret None else '(v, b) ← rd 8 b; Ret (Some (v, b)) else Ret (Some (old, b)).
Definition zip64_extra (s : sizes) (b : gostr) : go (option sizes) :=
  r ← want (need_u s) (s_usize s) b;
  match r with
  | None => Ret None
  | Some (u, b) =>
    r ← want (need_c s) (s_csize s) b;
    match r with
    | None => Ret None
    | Some (c, b) =>
      r ← want (need_o s) (s_offset s) b;
      match r with
      | None => Ret None
      | Some (o, b) => Ret (Some (Sizes u c (if need_o s then i64 o else o) false false false))
      end
    end
  end.
Fixpoint parse_extras (fuel : nat) (s : sizes) (b : gostr) : go (option sizes) :=
  match fuel with
  | O => Diverge
  | S k =>
    if (length b <? 4)%nat then Ret (Some s)
    else '(tag, b) ← rd 2 b; '(size, b) ← rd 2 b;
      if Z.of_nat (length b) <? size then Ret (Some s)
      else '(fb, b) ← rd_sub (Z.to_nat size) b;
        if tag =? 1 then r ← zip64_extra s fb; match r with None => Ret None | Some s => parse_extras k s b end
        else
          _ ← (if tag =? 10 then (if (length fb <? 4)%nat then Ret () else '(_, fb) ← rd 4 fb; ntfs_attrs (S (length fb)) fb)
               else if (tag =? 13) || (tag =? 22613) then (if (length fb <? 8)%nat then Ret () else '(_, fb) ← rd 4 fb; '(_, _) ← rd 4 fb; Ret ())
               else if tag =? 21589 then (if (length fb <? 5)%nat then Ret () else '(fl, fb) ← rd 1 fb; if Z.land fl 1 =? 0 then Ret () else '(_, _) ← rd 4 fb; Ret ())
               else Ret ());
          parse_extras k s b
  end.
(** readDirectoryHeader on the bytes from the position of the reader on: a header and the bytes after it, the
    end of the directory (ErrFormat or ErrUnexpectedEOF), or io.EOF *)
Inductive hres := HFile (f : zfile) (rest : gostr) | HStop | HEof.
Definition read_header (x : gostr) : go hres :=
  if (length x =? 0)%nat then Ret HEof
  else if (length x <? 46)%nat then Ret HStop
  else
    let b := take 46 x in let x := drop 46 x in
    '(sig, b) ← rd 4 b;
    if negb (sig =? dir_sig) then Ret HStop
    else
      '(creator, b) ← rd 2 b; '(_, b) ← rd 2 b; '(flags, b) ← rd 2 b; '(method, b) ← rd 2 b; '(_, b) ← rd 2 b; '(_, b) ← rd 2 b;
      '(crc, b) ← rd 4 b; '(csize, b) ← rd 4 b; '(usize, b) ← rd 4 b; '(nlen, b) ← rd 2 b; '(elen, b) ← rd 2 b; '(clen, b) ← rd 2 b;
      b ← rd_skip 4 b; '(attrs, b) ← rd 4 b; '(off, _) ← rd 4 b;
      let n := Z.to_nat (nlen + elen + clen) in
      if (0 <? n)%nat && (length x =? 0)%nat then Ret HEof
      else if (length x <? n)%nat then Ret HStop
      else
        let d := take n x in
        '(name, d) ← rd_sub (Z.to_nat nlen) d; '(extra, _) ← rd_sub (Z.to_nat elen) d;
        r ← parse_extras (S (length extra)) (Sizes usize csize off (usize =? max32) (csize =? max32) (off =? max32)) extra;
        Ret match r with
        | None => HStop
        | Some s => if need_c s || need_o s then HStop else HFile (ZFile name creator flags method crc (s_csize s) (s_usize s) attrs (s_offset s)) (drop n x)
        end.
(** Reader.init: headers up to a bad one; their number is compared modulo 65536 *)
Fixpoint read_headers (fuel : nat) (x : gostr) : go (option (list zfile)) :=
  match fuel with
  | O => Diverge
  | S k =>
    h ← read_header x;
    match h with
    | HEof => Ret None
    | HStop => Ret (Some [])
    | HFile f rest => r ← read_headers k rest; Ret match r with Some fs => Some (f :: fs) | None => None end
    end
  end.
Definition open_zip (x : gostr) : go (option (list zfile)) :=
  d ← read_end x;
  match d with
  | None => Ret None
  | Some d =>
    r ← read_headers (S (length x)) (drop (Z.to_nat (i64 (d_offset d))) x);
    Ret match r with
    | Some fs => if Z.of_nat (length fs) mod 65536 =? d_records d mod 65536 then Some fs else None
    | None => None
    end
  end.

(** readDataDescriptor, on the 16 bytes of the section: the signature may be missing; the sizes are not read *)
Definition desc_ok (b : gostr) (crc : Z) : bool :=
  if (length b <? 4)%nat then false
  else if le_val (take 4 b) =? desc_sig then (16 <=? length b)%nat && (le_val (take 4 (drop 4 b)) =? crc)
  else (12 <=? length b)%nat && (le_val (take 4 b) =? crc).
(** io.SectionReader: the bytes from [off], at most [n] of them *)
Definition section (x : gostr) (off n : Z) : gostr := if off <? 0 then [] else take (Z.to_nat n) (drop (Z.to_nat off) x).
(** File.Open with findBodyOffset: the method and the section of the compressed bytes *)
Inductive opened := Cannot | Body (comp : gostr) (after : gostr).
Definition open_file (x : gostr) (f : zfile) : go opened :=
  match read_at x (z_offset f) 30 with
  | None => Ret Cannot
  | Some b =>
    '(sig, b) ← rd 4 b;
    if negb (sig =? file_sig) then Ret Cannot
    else b ← rd_skip 22 b; '(nlen, b) ← rd 2 b; '(elen, _) ← rd 2 b;
      let body := z_offset f + 30 + nlen + elen in
      if negb (z_method f =? 0) && negb (z_method f =? 8) then Ret Cannot
      else Ret (Body (section x body (i64 (z_csize f))) (section x (body + i64 (z_csize f)) 16))
  end.
(** checksumReader.Read up to the end of the file: the content if there is no error *)
Definition read_file (x : gostr) (f : zfile) : go (option gostr) :=
  o ← open_file x f;
  Ret match o with
  | Cannot => None
  | Body comp after =>
    match (if z_method f =? 0 then Some comp else inflate comp) with
    | None => None
    | Some data =>
      if negb (Z.of_nat (length data) =? z_usize f) then None
      else if negb (Z.land (z_flags f) 8 =? 0) then (if desc_ok after (z_crc f) && (crc32 data =? z_crc f) then Some data else None)
      else if negb (z_crc f =? 0) && negb (crc32 data =? z_crc f) then None
      else Some data
    end
  end.

(** zip.go:20-54: the entries Unzip goes through, [None] if the archive cannot be opened; a content is [None]
    where it cannot be read, and is not read for a directory *)
Record item := Item { i_name : gostr; i_dir : bool; i_data : option gostr }.
Definition read_item (x : gostr) (f : zfile) : go item :=
  if mode_dir (z_creator f) (z_attrs f) (z_name f) then Ret (Item (z_name f) true (Some []))
  else d ← read_file x f; Ret (Item (z_name f) false d).
Fixpoint read_items (x : gostr) (fs : list zfile) : go (list item) :=
  match fs with [] => Ret [] | f :: r => i ← read_item x f; is ← read_items x r; Ret (i :: is) end.
Definition read_zip (x : gostr) : go (option (list item)) :=
  o ← open_zip x; match o with None => Ret None | Some fs => is ← read_items x fs; Ret (Some is) end.
End format.

(** ZipFiles' encoder and Unzip's decoder for ZipfsModel.v: [meta] is what the headers have besides name, kind
    and content.  An archive with an entry that cannot be read counts as one that cannot be opened here; that
    Unzip stops in the middle of it is its parameter [lim]. *)
Definition zip_enc (deflate : gostr → gostr) (meta : entry → wfile) (es : list entry) : gostr := write_zip deflate (meta <$> es).
Definition zip_dec (inflate : gostr → option gostr) (x : gostr) : option (list entry) :=
  match read_zip inflate x with
  | Ret (Some is) => mapM (λ i, d ← i_data i; Some (Entry (i_name i) (i_dir i) d)) is
  | _ => None
  end.
