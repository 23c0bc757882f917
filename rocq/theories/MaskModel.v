(** * Model of help/utils/strings.go: Substr2, HideStar, MaskMobile, MaskCustomerName, MaskIDCard,
      MaskBackCard

    [cp n] is the capacity Go gives to []rune of a string of [n] runes (at least [n], the rest
    zero); it depends on the compiler's escape analysis.  The regular expression ^1[0-9]\d{9}$ is
    written out as a test. *)
From Verif Require Export GoStr.
Local Open Scope Z_scope.

(** rs[a:b] for a slice with spare capacity *)
Definition slice_runes (cp : nat → nat) (rs : list Z) (a b : nat) : go (list Z) :=
  if decide (a ≤ b ≤ cp (length rs))%nat
  then Ret (take (b - a) (drop a (rs ++ replicate (cp (length rs) - length rs) 0))) else Panic PIndex.
(** strings.go:28-31 *)
Definition substr2 (cp : nat → nat) (s : gostr) (a b : nat) : go gostr :=
  r ← slice_runes cp (runes s) a b; Ret (of_runes r).
(** strings.go:79-81 *)
Definition is_mobile (s : gostr) : bool :=
  match s with 49 :: r => (length r =? 10)%nat && forallb (between 48 57) r | _ => false end.
Definition star (n : nat) : gostr := replicate n 42.

(** strings.go:62-102 *)
Definition hide_star (cp : nat → nat) (s : gostr) : go gostr :=
  if decide (s = []) then Ret (star 3)
  else if go_index [64] s then
    let res := go_split [64] s in
    r0 ← idx res 0; r1 ← idx res 1;
    if (length r0 <? 3)%nat then Ret (star 3 ++ [64] ++ r1)
    else r2 ← substr2 cp s 0 3; Ret (r2 ++ star 3 ++ [64] ++ r1)
  else if is_mobile s then
    a ← substr2 cp s 0 3; b ← substr2 cp s 7 11; Ret (a ++ star 4 ++ b)
  else
    let rs := runes s in let n := length rs in
    if (n <=? 1)%nat then Ret (star 3)
    else if (n =? 2)%nat then a ← slice_runes cp rs 0 1; Ret (of_runes a ++ star 1)
    else if (n =? 3)%nat then a ← slice_runes cp rs 0 1; b ← slice_runes cp rs 2 3; Ret (of_runes a ++ star 1 ++ of_runes b)
    else if (n =? 4)%nat then a ← slice_runes cp rs 0 1; b ← slice_runes cp rs (n - 1) n; Ret (of_runes a ++ star 2 ++ of_runes b)
    else a ← slice_runes cp rs 0 2; b ← slice_runes cp rs (n - 2) n; Ret (of_runes a ++ star 3 ++ of_runes b).

(** the loop shared by strings.go:116-127, 159-170, 187-198: bytes at [lo, hi) of the string *)
Definition mask_loop (s : gostr) (lo hi : Z) : gostr :=
  if hi <? Z.of_nat (length s) then
    of_runes (foldl (λ rs p, <[p.1 := if (lo <=? Z.of_nat p.1) && (Z.of_nat p.1 <? hi) then 42 else p.2]> rs)
      (replicate (length s) 0) (go_range s))
  else s.
(** strings.go:108-130 *)
Definition mask_mobile (s : gostr) (n : Z) : gostr :=
  let offset := if (11 <? length s)%nat then 5 else 3 in mask_loop s offset (i64 (n + offset)).
(** strings.go:154-173 *)
Definition mask_idcard (s : gostr) (n : Z) : gostr := mask_loop s 4 (i64 (n + 4)).
(** strings.go:179-201 *)
Definition mask_backcard (s : gostr) (n : Z) : gostr :=
  let m := i64 (n + 4) in
  mask_loop s 4 (if (16 <? length s)%nat then i64 (m + (Z.of_nat (length s) - 16)) else m).
(** strings.go:136-148 *)
Definition mask_customer (cp : nat → nat) (s : gostr) : go gostr :=
  let rs := runes s in
  if (4 <? length s)%nat then
    a ← slice_runes cp rs 0 2;
    if decide (2 ≤ length rs)%nat then b ← slice_runes cp rs (length rs - 2) (length rs); Ret (of_runes a ++ star 3 ++ of_runes b)
    else Panic PIndex
  else if (length s <? 1)%nat then Ret []
  else a ← slice_runes cp rs 0 1; Ret (of_runes a ++ star 3).
