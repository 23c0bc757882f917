(** * Model of the JSON helpers of help/utils/maps.go

    They call json.Marshal and json.Unmarshal (Go 1.18), modelled here.  A Go value given to
    Marshal is a finite tree [jval]: pointers are followed, [VNil] is a nil interface, pointer,
    map or slice, [VBad] anything Marshal rejects (a channel, a function, a complex number, NaN
    or an infinity); other floating-point numbers, structs and types with their own
    MarshalJSON are not modelled, neither are cyclic values. *)
From stdpp Require Import gmap.
From Verif Require Export ConvModel.
Local Open Scope Z_scope.

Inductive jval := VNil | VBool (b : bool) | VInt (z : Z) | VStr (s : gostr) | VList (l : list jval) | VMap (m : list (gostr * jval)) | VBad.

(** "0123456789abcdef"[d] *)
Definition hex_digit (d : Z) : Z := if d <? 10 then 48 + d else 87 + d.
(** htmlSafeSet *)
Definition html_safe (b : Z) : bool := (32 <=? b) && (b <? 128) && negb ((b =? 34) || (b =? 38) || (b =? 60) || (b =? 62) || (b =? 92)).
(** encodeState.string with escapeHTML, the characters between the quotes *)
Fixpoint enc_str (fuel : nat) (s : gostr) : gostr :=
  match fuel, s with
  | O, _ | _, [] => []
  | S f, b :: r =>
    if b <? 128 then
      (if html_safe b then [b]
       else if (b =? 92) || (b =? 34) then [92; b]
       else if b =? 10 then [92; 110] else if b =? 13 then [92; 114] else if b =? 9 then [92; 116]
       else [92; 117; 48; 48; hex_digit (b / 16); hex_digit (b mod 16)]) ++ enc_str f r
    else
      let '(c, n) := decode_rune s in
      (if (c =? rune_error) && (n =? 1)%nat then str "\ufffd"
       else if (c =? 8232) || (c =? 8233) then str "\u202" ++ [hex_digit (c mod 16)]
       else take n s) ++ enc_str f (drop n s)
  end.
Definition quote (s : gostr) : gostr := 34 :: enc_str (length s) s ++ [34].

(** < on strings: bytewise *)
Fixpoint str_lt (a b : gostr) : bool :=
  match a, b with
  | _, [] => false
  | [], _ => true
  | x :: a, y :: b => (x <? y) || ((x =? y) && str_lt a b)
  end.
(** mapEncoder sorts the keys with sort.Slice; the keys of a map are different, so the result
    does not depend on the algorithm, and it is written as insertion *)
Fixpoint insert_key {A} (p : gostr * A) (l : list (gostr * A)) : list (gostr * A) :=
  match l with [] => [p] | q :: r => if str_lt q.1 p.1 then q :: insert_key p r else p :: l end.
Definition sort_keys {A} (l : list (gostr * A)) : list (gostr * A) := foldr insert_key [] l.
Fixpoint commas (l : list gostr) : gostr :=
  match l with [] => [] | [x] => x | x :: r => x ++ 44 :: commas r end.

(** json.Marshal; [None] is an error.  The values of a map are encoded before the sorting here
    and after it in Go *)
Fixpoint enc (v : jval) : option gostr :=
  match v with
  | VNil => Some (str "null")
  | VBool b => Some (if b then str "true" else str "false")
  | VInt z => Some (int_to_string z)
  | VStr s => Some (quote s)
  | VList l => ts ← mapM enc l; Some (91 :: commas ts ++ [93])
  | VMap m => ms ← mapM (λ p, t ← enc p.2; Some (p.1, t)) m;
              Some (123 :: commas (map (λ p, quote p.1 ++ 58 :: p.2) (sort_keys ms)) ++ [125])
  | VBad => None
  end.
(** maps.go:108-117: MapToJsonString, Map2JsonString; the error is dropped *)
Definition to_json (v : jval) : gostr := default [] (enc v).
(** maps.go:118-122: MapIntToJsonString; [None] is the nil map *)
Definition map_int_to_json (m : option (gmap gostr Z)) : gostr :=
  to_json (match m with None => VNil | Some m => VMap (map (λ p, (p.1, VInt p.2)) (map_to_list m)) end).

(** ** Decoding

    Unmarshal runs the scanner over the whole text first (checkValid) and then a decoder that
    is driven by the same scanner.  Both are one recursive-descent parser here; strings are
    kept as they are written until they are needed. *)
Inductive json := JNull | JBool (b : bool) | JNum (lit : gostr) | JStr (raw : gostr) | JArr (l : list json) | JObj (ms : list (gostr * json)).

(** scanner.go isSpace *)
Definition is_ws (c : Z) : bool := (c =? 32) || (c =? 9) || (c =? 13) || (c =? 10).
Fixpoint skip_ws (s : gostr) : gostr := match s with c :: r => if is_ws c then skip_ws r else s | [] => [] end.
Definition is_hex (c : Z) : bool := between 48 57 c || between 97 102 c || between 65 70 c.
Definition is_digit (c : Z) : bool := between 48 57 c.
(** stateInStringEsc *)
Definition is_esc (c : Z) : bool := (c =? 98) || (c =? 102) || (c =? 110) || (c =? 114) || (c =? 116) || (c =? 92) || (c =? 47) || (c =? 34).
(** stateInString ...: the literal up to the closing quote, and what follows *)
Fixpoint scan_str (s : gostr) : option (gostr * gostr) :=
  match s with
  | [] => None
  | c :: r =>
    if c =? 34 then Some ([], r)
    else if c =? 92 then
      match r with
      | [] => None
      | e :: r =>
        if is_esc e then '(t, u) ← scan_str r; Some (92 :: e :: t, u)
        else if e =? 117 then
          match r with
          | h1 :: h2 :: h3 :: h4 :: r => if is_hex h1 && is_hex h2 && is_hex h3 && is_hex h4 then '(t, u) ← scan_str r; Some (92 :: 117 :: h1 :: h2 :: h3 :: h4 :: t, u) else None
          | _ => None
          end
        else None
      end
    else if c <? 32 then None
    else '(t, u) ← scan_str r; Some (c :: t, u)
  end.
Fixpoint scan_digits (s : gostr) : gostr * gostr :=
  match s with
  | c :: r => if is_digit c then let '(t, u) := scan_digits r in (c :: t, u) else ([], s)
  | [] => ([], [])
  end.
(** stateNeg, state0, state1 *)
Definition scan_int (s : gostr) : option (gostr * gostr) :=
  match s with
  | [] => None
  | c :: r => if c =? 48 then Some ([48], r) else if is_digit c then Some (scan_digits s) else None
  end.
(** stateDot, stateDot0 *)
Definition scan_frac (s : gostr) : option (gostr * gostr) :=
  match s with
  | c :: r => if c =? 46 then let '(t, u) := scan_digits r in (if decide (t = []) then None else Some (46 :: t, u)) else Some ([], s)
  | [] => Some ([], [])
  end.
(** stateE, stateESign, stateE0 *)
Definition scan_exp (s : gostr) : option (gostr * gostr) :=
  match s with
  | c :: r =>
    if (c =? 101) || (c =? 69) then
      let '(g, r) := match r with x :: r' => if (x =? 43) || (x =? 45) then ([x], r') else ([], r) | [] => ([], []) end in
      let '(t, u) := scan_digits r in if decide (t = []) then None else Some (c :: g ++ t, u)
    else Some ([], s)
  | [] => Some ([], [])
  end.
Definition scan_num (s : gostr) : option (gostr * gostr) :=
  let '(g, r) := match s with c :: r => if c =? 45 then ([45], r) else ([], s) | [] => ([], []) end in
  '(i, r) ← scan_int r; '(f, r) ← scan_frac r; '(e, r) ← scan_exp r; Some (g ++ i ++ f ++ e, r).

(** scanner.go maxNestingDepth *)
Definition max_depth : nat := Z.to_nat 10000.
(** [d] containers are open *)
Fixpoint p_value (f d : nat) (s : gostr) {struct f} : option (json * gostr) :=
  match f with
  | O => None
  | S f =>
    match skip_ws s with
    | [] => None
    | c :: r =>
      if c =? 123 then
        if (max_depth <=? d)%nat then None
        else match skip_ws r with
             | [] => None
             | x :: r' => if x =? 125 then Some (JObj [], r') else '(ms, u) ← p_members f (S d) r; Some (JObj ms, u)
             end
      else if c =? 91 then
        if (max_depth <=? d)%nat then None
        else match skip_ws r with
             | [] => None
             | x :: r' => if x =? 93 then Some (JArr [], r') else '(l, u) ← p_elems f (S d) r; Some (JArr l, u)
             end
      else if c =? 34 then '(t, u) ← scan_str r; Some (JStr t, u)
      else if c =? 116 then if has_prefix (str "rue") r then Some (JBool true, drop 3 r) else None
      else if c =? 102 then if has_prefix (str "alse") r then Some (JBool false, drop 4 r) else None
      else if c =? 110 then if has_prefix (str "ull") r then Some (JNull, drop 3 r) else None
      else '(t, u) ← scan_num (c :: r); Some (JNum t, u)
    end
  end
with p_elems (f d : nat) (s : gostr) {struct f} : option (list json * gostr) :=
  match f with
  | O => None
  | S f =>
    '(v, u) ← p_value f d s;
    match skip_ws u with
    | [] => None
    | c :: r => if c =? 44 then '(l, u) ← p_elems f d r; Some (v :: l, u) else if c =? 93 then Some ([v], r) else None
    end
  end
with p_members (f d : nat) (s : gostr) {struct f} : option (list (gostr * json) * gostr) :=
  match f with
  | O => None
  | S f =>
    match skip_ws s with
    | [] => None
    | q :: r =>
      if q =? 34 then
        '(k, u) ← scan_str r;
        match skip_ws u with
        | [] => None
        | c :: r =>
          if c =? 58 then
            '(v, u) ← p_value f d r;
            match skip_ws u with
            | [] => None
            | c :: r => if c =? 44 then '(l, u) ← p_members f d r; Some ((k, v) :: l, u) else if c =? 125 then Some ([(k, v)], r) else None
            end
          else None
        end
      else None
    end
  end.
(** checkValid: one value and nothing behind it but spaces *)
Definition parse (s : gostr) : option json :=
  '(v, u) ← p_value (2 * length s + 2) 0 s; match skip_ws u with [] => Some v | _ => None end.

(** decode.go getu4; [None] is -1 *)
Definition hex_val (c : Z) : option Z :=
  if between 48 57 c then Some (c - 48) else if between 97 102 c then Some (c - 87) else if between 65 70 c then Some (c - 55) else None.
Definition getu4 (s : gostr) : option Z :=
  match s with
  | b :: u :: h1 :: h2 :: h3 :: h4 :: _ =>
    if (b =? 92) && (u =? 117) then a ← hex_val h1; b ← hex_val h2; c ← hex_val h3; d ← hex_val h4; Some (((a * 16 + b) * 16 + c) * 16 + d) else None
  | _ => None
  end.
(** utf16.DecodeRune *)
Definition utf16_decode (r1 r2 : Z) : Z :=
  if (55296 <=? r1) && (r1 <? 56320) && (56320 <=? r2) && (r2 <? 57344) then (r1 - 55296) * 1024 + (r2 - 56320) + 65536 else rune_error.
(** decode.go unquoteBytes, without its fast path for text that needs no change; it is only
    applied to literals that the scanner has accepted *)
Fixpoint unquote (fuel : nat) (s : gostr) : gostr :=
  match fuel, s with
  | O, _ | _, [] => []
  | S f, c :: r =>
    if c =? 92 then
      match r with
      | [] => []
      | e :: r' =>
        if e =? 117 then
          match getu4 s with
          | None => []
          | Some rr =>
            let s' := drop 6 s in
            if (55296 <=? rr) && (rr <? 57344) then
              let dec := utf16_decode rr (default (-1) (getu4 s')) in
              if dec =? rune_error then encode_rune rune_error ++ unquote f s' else encode_rune dec ++ unquote f (drop 6 s')
            else encode_rune rr ++ unquote f s'
          end
        else (if e =? 98 then 8 else if e =? 102 then 12 else if e =? 110 then 10 else if e =? 114 then 13 else if e =? 116 then 9 else e) :: unquote f r'
      end
    else if c <? 128 then c :: unquote f r
    else let '(rr, n) := decode_rune s in encode_rune rr ++ unquote f (drop n s)
  end.

(** strconv.ParseInt(s, 10, 64); [None] is an error *)
Definition parse_int (s : gostr) : option Z :=
  match s with
  | [] => None
  | c :: r =>
    let neg := c =? 45 in
    match parse_uint (if (c =? 43) || neg then r else s) with
    | POk un => if negb neg && (2 ^ 63 <=? un) then None else if neg && (2 ^ 63 <? un) then None else Some (if neg then i64 (- i64 un) else i64 un)
    | _ => None
    end
  end.
(** decodeState.value into a new int32: anything but a number that ParseInt reads and that
    does not overflow leaves it 0, and the error, if any, is kept for the end *)
Definition dec_int32 (v : json) : Z :=
  match v with
  | JNum lit => match parse_int lit with Some n => if (- 2 ^ 31 <=? n) && (n <? 2 ^ 31) then n else 0 | None => 0 end
  | _ => 0
  end.
(** decodeState.object for a map[string]int32 *)
Fixpoint dec_members (m : gmap gostr Z) (ms : list (gostr * json)) : gmap gostr Z :=
  match ms with [] => m | (k, v) :: ms => dec_members (<[unquote (length k) k := dec_int32 v]> m) ms end.
(** maps.go:123-126: JsonStringToMap; a syntax error, null and any other value that is not an
    object leave the map nil *)
Definition json_to_map (s : gostr) : option (gmap gostr Z) :=
  match parse s with Some (JObj ms) => Some (dec_members ∅ ms) | _ => None end.

Example json_model_ok : to_json (VMap [(str "b", VInt (-7)); (str "a<", VList [VNil; VBool true; VStr [200; 10]])]) = str "{""a\u003c"":[null,true,""\ufffd\n""],""b"":-7}" ∧
  parse (str " {""k"" :[1.5e+3 , {}], ""k"":null}") = Some (JObj [(str "k", JArr [JNum (str "1.5e+3"); JObj []]); (str "k", JNull)]) ∧
  map_to_list <$> json_to_map (str "{""x\u00e9\ud83d\ude00\ud83d"":-12}") = Some [([120; 195; 169; 240; 159; 152; 128; 239; 191; 189], -12)] ∧
  parse (str "[01]") = None ∧ parse (str "[1.]") = None ∧ parse (str "{""a"":1,}") = None ∧ parse (str "1 2") = None.
Proof. by vm_compute. Qed.
