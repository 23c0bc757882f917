(** * Model of help/utils/base64.go

    The file only calls encoding/base64 (StdEncoding); its Encode and Decode are modelled here.
    Simplifications: shifts and ors of disjoint bits are written as products and sums; the eight
    and four character fast paths of Decode, which produce what decodeQuantum produces, are left
    out; the offset inside CorruptInputError is dropped (the helpers ignore the error). *)
From Verif Require Export GoStr.
Local Open Scope Z_scope.

Definition alphabet : gostr := str "ABCDEFGHIJKLMNOPQRSTUVWXYZabcdefghijklmnopqrstuvwxyz0123456789+/".
Definition pad_char : Z := 61.
Definition enc_char (v : Z) : Z := default 0 (alphabet !! Z.to_nat v).
(** decodeMap *)
Definition dec_char (c : Z) : option Z := (λ p, Z.of_nat p.1) <$> list_find (λ x, x = c) alphabet.

(** base64.go:9-11, 36-38 *)
Fixpoint base64_encode (l : gostr) : gostr :=
  match l with
  | [] => []
  | [a] => let v := a * 65536 in [enc_char (v / 262144 mod 64); enc_char (v / 4096 mod 64); pad_char; pad_char]
  | [a; b] => let v := a * 65536 + b * 256 in
    [enc_char (v / 262144 mod 64); enc_char (v / 4096 mod 64); enc_char (v / 64 mod 64); pad_char]
  | a :: b :: c :: r => let v := a * 65536 + b * 256 + c in
    [enc_char (v / 262144 mod 64); enc_char (v / 4096 mod 64); enc_char (v / 64 mod 64); enc_char (v mod 64)] ++ base64_encode r
  end.

Definition is_newline (c : Z) : bool := (c =? 10) || (c =? 13).
Fixpoint skip_newlines (s : gostr) : gostr :=
  match s with c :: r => if is_newline c then skip_newlines r else s | [] => [] end.
(** the bytes of a quantum of [length acc] characters *)
Definition quantum_bytes (acc : list Z) : list Z :=
  let at' i := default 0 (acc !! i) in
  let v := at' 0%nat * 262144 + at' 1%nat * 4096 + at' 2%nat * 64 + at' 3%nat in
  take (length acc - 1) [v / 65536 mod 256; v / 256 mod 256; v mod 256].
(** decodeQuantum: the rest of the input, the bytes, whether there was an error *)
Fixpoint decode_quantum (acc : list Z) (s : gostr) : gostr * list Z * bool :=
  match s with
  | [] => ([], [], negb (bool_decide (acc = [])))
  | c :: r => match dec_char c with
    | Some v => if (length acc =? 3)%nat then (r, quantum_bytes (acc ++ [v]), false) else decode_quantum (acc ++ [v]) r
    | None =>
      if is_newline c then decode_quantum acc r
      else if negb (c =? pad_char) then (r, [], true)
      else match acc with
        | [] | [_] => (r, [], true)
        | [_; _] => match skip_newlines r with
          | c' :: r' => if c' =? pad_char then let t := skip_newlines r' in (t, quantum_bytes acc, negb (bool_decide (t = [])))
                        else (c' :: r', [], true)
          | [] => ([], [], true) end
        | _ => let t := skip_newlines r in (t, quantum_bytes acc, negb (bool_decide (t = [])))
        end
    end
  end.
(** Decode: quanta until the end of the input or an error; what was decoded is kept *)
Fixpoint decode_all (fuel : nat) (s : gostr) : list Z :=
  match fuel with
  | O => []
  | S fuel => match s with
    | [] => []
    | _ => let '(r, b, err) := decode_quantum [] s in if err then b else b ++ decode_all fuel r
    end
  end.
(** base64.go:17-20, 26-34: all three helpers *)
Definition base64_decode (s : gostr) : list Z := decode_all (length s) s.
