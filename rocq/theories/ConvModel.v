(** * Model of help/utils/ints.go and of StringToInt, StringToInt64 (help/utils/strings.go)

    They call strconv.Itoa, FormatInt, Atoi and ParseInt (Go 1.18, 64-bit int), modelled here.
    FormatInt's two-digits-at-a-time loop is written as one digit at a time.  Every function
    returns its value only: the helpers drop the error. *)
From Verif Require Export GoStr.
Local Open Scope Z_scope.

(** strconv.formatBits, base 10: the digits of a uint64 *)
Fixpoint fmt_digits (fuel : nat) (u : Z) : gostr :=
  match fuel with
  | O => []
  | S f => if u <? 10 then [48 + u] else fmt_digits f (u / 10) ++ [48 + u mod 10]
  end.
(** ints.go:11-14, 22-24: IntToString, Int64ToString *)
Definition int_to_string (e : Z) : gostr :=
  if e <? 0 then 45 :: fmt_digits 20 (u64 (- e)) else fmt_digits 20 e.

(** the three outcomes of ParseUint *)
Inductive parsed := POk (n : Z) | PSyntax | PRange (n : Z).
Definition max_u64 : Z := 18446744073709551615.
(** the digit value of a character as in ParseUint; letters are digits too *)
Definition lower (c : Z) : Z := Z.lor c 32.
Definition digit_of (c : Z) : option Z :=
  if between 48 57 c then Some (c - 48) else if between 97 122 (lower c) then Some (lower c - 97 + 10) else None.
(** strconv.ParseUint(s, 10, 64), the loop *)
Fixpoint parse_digits (n : Z) (s : gostr) : parsed :=
  match s with
  | [] => POk n
  | c :: r => match digit_of c with
    | None => PSyntax
    | Some d => if 10 <=? d then PSyntax
      else if max_u64 / 10 + 1 <=? n then PRange max_u64
      else let n' := u64 (n * 10) in let n1 := u64 (n' + d) in
        if (n1 <? n') || (max_u64 <? n1) then PRange max_u64 else parse_digits n1 r
    end
  end.
Definition parse_uint (s : gostr) : parsed := match s with [] => PSyntax | _ => parse_digits 0 s end.
(** strconv.ParseInt(s, 10, 64); strings.go:39-42 *)
Definition string_to_int64 (s : gostr) : Z :=
  match s with
  | [] => 0
  | c :: r =>
    let neg := c =? 45 in
    let t := if (c =? 43) || neg then r else s in
    let finish un :=
      if negb neg && (2 ^ 63 <=? un) then i64 (2 ^ 63 - 1)
      else if neg && (2 ^ 63 <? un) then i64 (- i64 (2 ^ 63))
      else if neg then i64 (- i64 un) else i64 un in
    match parse_uint t with PSyntax => 0 | POk un => finish un | PRange un => finish un end
  end.
(** strconv.Atoi; strings.go:15-18: the fast path for short strings *)
Fixpoint atoi_digits (n : Z) (s : gostr) : option Z :=
  match s with
  | [] => Some n
  | c :: r => let ch := (c - 48) mod 256 in if 9 <? ch then None else atoi_digits (i64 (n * 10 + ch)) r
  end.
Definition string_to_int (s : gostr) : Z :=
  if (0 <? length s)%nat && (length s <? 19)%nat then
    match s with
    | [] => 0
    | c :: r =>
      if (c =? 45) || (c =? 43) then
        match r with [] => 0 | _ => match atoi_digits 0 r with None => 0 | Some n => if c =? 45 then i64 (- n) else n end end
      else default 0 (atoi_digits 0 s)
    end
  else string_to_int64 s.
