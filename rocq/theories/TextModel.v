(** * Model of small text helpers: help/utils/url.go, rand.go, csv.go and parts of files.go and
      strings.go

    Parameters of BuildUrl are given as the strings that fmt.Sprintf("%v") makes of them. *)
From Coq Require Import QArith.
From Verif Require Export GoStr ConvModel.
Local Open Scope Z_scope.

Definition slash : Z := 47.
(** strings.TrimRight / TrimLeft / Trim with cutset "/" *)
Fixpoint trim_left (s : gostr) : gostr := match s with c :: r => if c =? slash then trim_left r else s | [] => [] end.
Definition trim_right (s : gostr) : gostr := reverse (trim_left (reverse s)).
Definition trim (s : gostr) : gostr := trim_right (trim_left s).
(** strings.Join *)
Fixpoint go_join (sep : gostr) (l : list gostr) : gostr :=
  match l with [] => [] | [x] => x | x :: r => x ++ sep ++ go_join sep r end.
(** url.go:22-35: the loop over the complete pairs *)
Fixpoint build_pairs (ps : list gostr) : list gostr :=
  match ps with
  | k :: v :: r => if negb (bool_decide (k = [])) && negb (bool_decide (v = str "0")) then (k ++ [slash] ++ v) :: build_pairs r else build_pairs r
  | _ => []
  end.
(** url.go:15-37 *)
Definition build_url (prefix : gostr) (ps : list gostr) : gostr :=
  trim_right (go_join [slash] ((slash :: trim prefix) :: build_pairs ps)).

(** files.go:313-315 *)
Definition is_same_site (url : gostr) : go bool :=
  if (2 <=? length url)%nat then
    a ← idx url 0; b ← idx url 1; Ret ((a =? 47) && negb (b =? 47) && negb (b =? 92))
  else Ret false.

(** strings.Split with an empty separator: the last element; invalid UTF-8 before it is replaced *)
Fixpoint explode_from (skip : nat) (s : gostr) : list gostr :=
  match s with
  | [] => []
  | _ :: r => match skip with
    | S k => explode_from k r
    | O => let '(c, w) := decode_rune s in
      (if (length s <=? w)%nat then s else if c =? rune_error then encode_rune rune_error else take w s) :: explode_from (w - 1) r
    end
  end.
Definition split_any (s sep : gostr) : list gostr :=
  match sep with [] => explode_from 0 s | _ => go_split sep s end.
(** files.go:149-156 *)
Definition get_suffix_name (s seg : gostr) : go gostr :=
  let sl := split_any s seg in
  if (1 <? length sl)%nat then idx sl (length sl - 1) else Ret [].

(** strings.TrimSpace and ToLower; strings with a byte above 127 go through [wide] *)
Definition is_space (c : Z) : bool := between 9 13 c || (c =? 32).
Fixpoint space_left (s : gostr) : gostr := match s with c :: r => if is_space c then space_left r else s | [] => [] end.
Definition trim_space (s : gostr) : gostr := reverse (space_left (reverse (space_left s))).
Definition lower_ascii (c : Z) : Z := if between 65 90 c then c + 32 else c.
Definition norm_ext (wide : gostr → gostr) (s : gostr) : gostr :=
  if forallb (λ c, c <? 128) s then lower_ascii <$> trim_space s else wide s.
Definition image_exts : list gostr := [str "jpeg"; str "jpg"; str "gif"; str "png"; str "bmp"; str "tif"; str "tiff"].
(** files.go:137-143 *)
Definition is_image (wide : gostr → gostr) (path : gostr) : go bool :=
  let sl := go_split [46] path in
  e ← idx sl (length sl - 1);
  Ret (bool_decide (norm_ext wide e ∈ image_exts)).

(** strings.go:50-56: the result of strings.Replace is dropped *)
Definition upper_ascii (c : Z) : Z := if between 97 122 c then c - 32 else c.
Definition upper_first (s : gostr) : go gostr :=
  if (0 <? length s)%nat then c ← idx s 0; let _replaced := upper_ascii c :: drop 1 s in Ret s else Ret s.

(** files.go:159-168; the numbers are exact in binary floating point *)
Fixpoint fb_loop (fuel : nat) (f : Q) (i : nat) : Q :=
  match fuel with O => f | S k => if (negb (Qle_bool f 1024) && (i <? 5)%nat)%bool then fb_loop k (f / 1024) (S i) else f end.
Definition fmt_2 (f : Q) : gostr :=
  let n := (Qnum f * 100 / Zpos (Qden f)) in int_to_string (n / 100) ++ [46] ++ [48 + n / 10 mod 10; 48 + n mod 10].
Definition units : list gostr := [str "B"; str "KB"; str "MB"; str "GB"; str "TB"; str "PB"].
Definition format_byte (size : Z) : go gostr :=
  let fsize := 32%Q in
  let i := 0%nat in                       (* the loop declares its own i *)
  let f := fb_loop 6 fsize 0 in
  u ← idx units i; Ret (fmt_2 f ++ [32] ++ u).

(** encoding/csv Writer.Write with UseCRLF; a field is quoted if it has a comma, a quote or a line
    break, starts with a space, or is "\." *)
Definition uni_space (r : Z) : bool :=
  is_space r || existsb (Z.eqb r) [133; 160; 5760; 8232; 8233; 8239; 8287; 12288] || between 8192 8202 r.
Definition csv_needs_quotes (f : gostr) : bool :=
  match f with
  | [] => false
  | _ => bool_decide (f = [92; 46]) || existsb (λ x, (x =? 44) || (x =? 34) || (x =? 10) || (x =? 13)) f || uni_space (decode_rune f).1
  end.
Definition csv_quote (f : gostr) : gostr :=
  [34] ++ (f ≫= λ x, if x =? 34 then [34; 34] else if x =? 13 then [] else if x =? 10 then [13; 10] else [x]) ++ [34].
Definition csv_field (f : gostr) : gostr := if csv_needs_quotes f then csv_quote f else f.
Definition csv_row (fs : list gostr) : gostr := go_join [44] (csv_field <$> fs) ++ [13; 10].
(** csv.go:40-62: the file's content afterwards *)
Definition write_csv (old : gostr) (content : list gostr) : gostr :=
  old ++ csv_row [str "1"; str "2"; str "3"; str "4"; str "5,6"].

(** rand.go:15-31; [rnd i n] is the i-th random draw, rand.Intn(n) *)
Definition rand_kinds : list (list Z) := [[10; 48]; [26; 97]; [26; 65]].
Fixpoint rand_loop (rnd : nat → Z → Z) (all : bool) (ikind : Z) (fuel k : nat) : go gostr :=
  match fuel with
  | O => Ret []
  | S f =>
    let '(ik, k1) := if all then (rnd k 3, S k) else (ikind, k) in
    row ← (if decide (0 ≤ ik) then idx rand_kinds (Z.to_nat ik) else Panic PIndex);
    scope ← idx row 0; base ← idx row 1;
    r ← rand_loop rnd all ik f (S k1);
    Ret ((base + rnd k1 scope) mod 256 :: r)
  end.
Definition rand_str (rnd : nat → Z → Z) (size kind : Z) : go gostr :=
  if size <? 0 then Panic PMake else rand_loop rnd ((2 <? kind) || (kind <? 0)) kind (Z.to_nat size) 0.
