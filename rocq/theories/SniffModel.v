(** * Model of IsTextFile, IsImageFile, IsPDFFile, IsVideoFile (help/utils/files.go)

    They call net/http.DetectContentType (Go 1.18, sniff.go), modelled here with its table.
    The length checks in front of its comparison loops are folded into the comparisons, which
    fail at the end of the data. *)
From Verif Require Export GoStr.
Local Open Scope Z_scope.

(** the kinds of entries of the table *)
Inductive sig :=
| Html (h : gostr)
| Masked (mask pat : gostr) (skip_ws : bool) (ct : gostr)
| Exact (p : gostr) (ct : gostr)
| Mp4
| Text.
(** isWS, isTT *)
Definition sniff_ws (b : Z) : bool := (b =? 9) || (b =? 10) || (b =? 12) || (b =? 13) || (b =? 32).
Definition is_tt (b : Z) : bool := (b =? 32) || (b =? 62).
(** data[firstNonWS:] *)
Fixpoint drop_ws (d : gostr) : gostr := match d with b :: r => if sniff_ws b then drop_ws r else d | [] => [] end.
(** htmlSig.match *)
Fixpoint html_match (h d : gostr) : bool :=
  match h, d with
  | _, [] => false
  | [], t :: _ => is_tt t
  | b :: h, x :: d => (b =? (if between 65 90 b then Z.land x 223 else x)) && html_match h d
  end.
(** maskedSig.match *)
Fixpoint masked_match (mask pat d : gostr) : bool :=
  match mask, pat, d with
  | [], [], _ => true
  | m :: mask, p :: pat, x :: d => (Z.land x m =? p) && masked_match mask pat d
  | _, _, _ => false
  end.
(** mp4Sig.match: the brands from offset [st] up to the end of the box *)
Definition sub (d : gostr) (i n : nat) : gostr := take n (drop i d).
Fixpoint mp4_brands (fuel st box : nat) (d : gostr) : bool :=
  match fuel with
  | O => false
  | S f =>
    if (st <? box)%nat then
      if (st =? 12)%nat then mp4_brands f (st + 4) box d
      else if decide (sub d st 3 = str "mp4") then true else mp4_brands f (st + 4) box d
    else false
  end.
Definition mp4_match (d : gostr) : bool :=
  match d with
  | a :: b :: c :: e :: _ =>
    let box := a * 16777216 + b * 65536 + c * 256 + e in
    if (length d <? 12)%nat then false
    else if (Z.of_nat (length d) <? box) || negb (box mod 4 =? 0) then false
    else if decide (sub d 4 4 = str "ftyp") then mp4_brands (S (length d)) 8 (Z.to_nat box) d else false
  | _ => false
  end.
(** textSig.match *)
Definition binary (b : Z) : bool := (b <=? 8) || (b =? 11) || between 14 26 b || between 28 31 b.
Definition text_match (d : gostr) : bool := forallb (λ b, negb (binary b)) (drop_ws d).
(** the content type if the entry matches *)
Definition match_sig (s : sig) (d : gostr) : option gostr :=
  match s with
  | Html h => if html_match h (drop_ws d) then Some (str "text/html; charset=utf-8") else None
  | Masked mask pat skip ct => if masked_match mask pat (if skip then drop_ws d else d) then Some ct else None
  | Exact p ct => if has_prefix p d then Some ct else None
  | Mp4 => if mp4_match d then Some (str "video/mp4") else None
  | Text => if text_match d then Some (str "text/plain; charset=utf-8") else None
  end.
Definition ff (n : nat) : gostr := replicate n 255.
Definition zz (n : nat) : gostr := replicate n 0.
(** sniffSignatures *)
Definition signatures : list sig := [
  Html (str "<!DOCTYPE HTML"); Html (str "<HTML"); Html (str "<HEAD"); Html (str "<SCRIPT"); Html (str "<IFRAME"); Html (str "<H1");
  Html (str "<DIV"); Html (str "<FONT"); Html (str "<TABLE"); Html (str "<A"); Html (str "<STYLE"); Html (str "<TITLE"); Html (str "<B");
  Html (str "<BODY"); Html (str "<BR"); Html (str "<P"); Html (str "<!--");
  Masked (ff 5) (str "<?xml") true (str "text/xml; charset=utf-8");
  Exact (str "%PDF-") (str "application/pdf");
  Exact (str "%!PS-Adobe-") (str "application/postscript");
  Masked (ff 2 ++ zz 2) [254; 255; 0; 0] false (str "text/plain; charset=utf-16be");
  Masked (ff 2 ++ zz 2) [255; 254; 0; 0] false (str "text/plain; charset=utf-16le");
  Masked (ff 3 ++ zz 1) [239; 187; 191; 0] false (str "text/plain; charset=utf-8");
  Exact [0; 0; 1; 0] (str "image/x-icon");
  Exact [0; 0; 2; 0] (str "image/x-icon");
  Exact (str "BM") (str "image/bmp");
  Exact (str "GIF87a") (str "image/gif");
  Exact (str "GIF89a") (str "image/gif");
  Masked (ff 4 ++ zz 4 ++ ff 6) (str "RIFF" ++ zz 4 ++ str "WEBPVP") false (str "image/webp");
  Exact (137 :: str "PNG" ++ [13; 10; 26; 10]) (str "image/png");
  Exact [255; 216; 255] (str "image/jpeg");
  Masked (ff 4) (str ".snd") false (str "audio/basic");
  Masked (ff 4 ++ zz 4 ++ ff 4) (str "FORM" ++ zz 4 ++ str "AIFF") false (str "audio/aiff");
  Masked (ff 3) (str "ID3") false (str "audio/mpeg");
  Masked (ff 5) (str "OggS" ++ [0]) false (str "application/ogg");
  Masked (ff 8) (str "MThd" ++ [0; 0; 0; 6]) false (str "audio/midi");
  Masked (ff 4 ++ zz 4 ++ ff 4) (str "RIFF" ++ zz 4 ++ str "AVI ") false (str "video/avi");
  Masked (ff 4 ++ zz 4 ++ ff 4) (str "RIFF" ++ zz 4 ++ str "WAVE") false (str "audio/wave");
  Mp4;
  Exact [26; 69; 223; 163] (str "video/webm");
  Masked (zz 34 ++ ff 2) (zz 34 ++ str "LP") false (str "application/vnd.ms-fontobject");
  Exact [0; 1; 0; 0] (str "font/ttf");
  Exact (str "OTTO") (str "font/otf");
  Exact (str "ttcf") (str "font/collection");
  Exact (str "wOFF") (str "font/woff");
  Exact (str "wOF2") (str "font/woff2");
  Exact [31; 139; 8] (str "application/x-gzip");
  Exact (str "PK" ++ [3; 4]) (str "application/zip");
  Exact (str "Rar!" ++ [26; 7; 0]) (str "application/x-rar-compressed");
  Exact (str "Rar!" ++ [26; 7; 1; 0]) (str "application/x-rar-compressed");
  Exact [0; 97; 115; 109] (str "application/wasm");
  Text].
Fixpoint first_match (sigs : list sig) (d : gostr) : gostr :=
  match sigs with
  | [] => str "application/octet-stream"
  | s :: r => match match_sig s d with Some ct => ct | None => first_match r d end
  end.
(** http.DetectContentType *)
Definition detect (data : gostr) : gostr := first_match signatures (take 512 data).
(** strings.Contains *)
Definition contains (s t : gostr) : bool := match go_index t s with Some _ => true | None => false end.
(** files.go:254-259 *)
Definition is_text_file (data : gostr) : bool := match data with [] => true | _ => contains (detect data) (str "text/") end.
(** files.go:265-267 *)
Definition is_image_file (data : gostr) : bool := contains (detect data) (str "image/").
(** files.go:273-275 *)
Definition is_pdf_file (data : gostr) : bool := contains (detect data) (str "application/pdf").
(** files.go:281-283 *)
Definition is_video_file (data : gostr) : bool := contains (detect data) (str "video/").
