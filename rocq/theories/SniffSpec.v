(** * What the kinds of files look like *)
From Verif Require Import GoStr.
Local Open Scope Z_scope.

Definition starts (p d : gostr) : Prop := ∃ r, d = p ++ r.
(** RIFF and FORM files: a tag, a length of any four bytes, the type *)
Definition chunk (tag kind d : gostr) : Prop := ∃ l r, length l = 4%nat ∧ d = tag ++ l ++ kind ++ r.
Definition pdf (d : gostr) : Prop := starts (str "%PDF-") d.
Definition icon (d : gostr) : Prop := starts [0; 0; 1; 0] d ∨ starts [0; 0; 2; 0] d.
Definition image (d : gostr) : Prop :=
  icon d ∨ starts (str "BM") d ∨ starts (str "GIF87a") d ∨ starts (str "GIF89a") d ∨ chunk (str "RIFF") (str "WEBPVP") d ∨
  starts (137 :: str "PNG" ++ [13; 10; 26; 10]) d ∨ starts [255; 216; 255] d.
(** an MP4 file: the first box, its length in front, is of the type ftyp, lies inside the data
    and names a brand that begins with mp4 *)
Definition mp4 (d : gostr) : Prop := ∃ a b c e box i,
  let size := 16777216 * a + 65536 * b + 256 * c + e in
  d = [a; b; c; e] ++ str "ftyp" ++ box ∧ (12 ≤ length d)%nat ∧ size ≤ Z.of_nat (length d) ∧ size mod 4 = 0 ∧
  8 ≤ 4 * i < size ∧ i ≠ 3 ∧ ∃ u v, d = u ++ str "mp4" ++ v ∧ Z.of_nat (length u) = 4 * i.
Definition avi (d : gostr) : Prop := chunk (str "RIFF") (str "AVI ") d.
Definition webm (d : gostr) : Prop := starts [26; 69; 223; 163] d.
(** the other formats *)
Definition audio (d : gostr) : Prop :=
  starts (str ".snd") d ∨ chunk (str "FORM") (str "AIFF") d ∨ starts (str "ID3") d ∨ starts (str "OggS" ++ [0]) d ∨
  starts (str "MThd" ++ [0; 0; 0; 6]) d ∨ chunk (str "RIFF") (str "WAVE") d.
Definition font (d : gostr) : Prop :=
  (∃ l r, length l = 34%nat ∧ d = l ++ str "LP" ++ r) ∨ starts [0; 1; 0; 0] d ∨ starts (str "OTTO") d ∨ starts (str "ttcf") d ∨ starts (str "wOFF") d ∨ starts (str "wOF2") d.
Definition archive (d : gostr) : Prop :=
  starts [31; 139; 8] d ∨ starts (str "PK" ++ [3; 4]) d ∨ starts (str "Rar!" ++ [26; 7; 0]) d ∨ starts (str "Rar!" ++ [26; 7; 1; 0]) d.
Definition other_format (d : gostr) : Prop :=
  pdf d ∨ starts (str "%!PS-Adobe-") d ∨ image d ∨ avi d ∨ mp4 d ∨ webm d ∨ audio d ∨ font d ∨ archive d ∨ starts [0; 97; 115; 109] d.

(** markup: white space, a tag in any case, its end *)
Definition blank (w : gostr) : Prop := Forall (λ c, c = 9 ∨ c = 10 ∨ c = 12 ∨ c = 13 ∨ c = 32) w.
Definition same_letter (x y : Z) : Prop := y = x ∨ 65 ≤ x ≤ 90 ∧ y = x + 32.
Definition tags : list gostr := str <$> ["<!DOCTYPE HTML"; "<HTML"; "<HEAD"; "<SCRIPT"; "<IFRAME"; "<H1"; "<DIV"; "<FONT"; "<TABLE"; "<A"; "<STYLE"; "<TITLE"; "<B"; "<BODY"; "<BR"; "<P"; "<!--"]%string.
Definition markup (d : gostr) : Prop :=
  (∃ w tag t e r, blank w ∧ tag ∈ tags ∧ Forall2 same_letter tag t ∧ (e = 32 ∨ e = 62) ∧ d = w ++ t ++ e :: r) ∨
  ∃ w r, blank w ∧ d = w ++ str "<?xml" ++ r.
(** a byte order mark, the text itself not shorter than four bytes *)
Definition bom (d : gostr) : Prop := (4 ≤ length d)%nat ∧ (starts [254; 255] d ∨ starts [255; 254] d ∨ starts [239; 187; 191] d).
(** bytes that do not occur in text: the control characters except tab, line feed, form feed,
    carriage return and escape *)
Definition no_text (b : Z) : Prop := 0 ≤ b < 32 ∧ b ≠ 9 ∧ b ≠ 10 ∧ b ≠ 12 ∧ b ≠ 13 ∧ b ≠ 27.
Definition plain_text (d : gostr) : Prop := Forall (λ b, ¬ no_text b) d.
