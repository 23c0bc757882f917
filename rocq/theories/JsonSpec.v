(** * JSON texts and what they denote (RFC 8259)

    [json] is the model's type of syntax trees: numbers and strings as they are written. *)
From stdpp Require Import gmap sorting.
From Verif Require Import GoStr ConvSpec JsonModel.
Local Open Scope Z_scope.

Definition space (s : gostr) : Prop := Forall (λ c, c = 32 ∨ c = 9 ∨ c = 10 ∨ c = 13) s.
(** hexadecimal digits *)
Inductive hexv : Z → Z → Prop :=
| hex_dec c : 48 ≤ c ≤ 57 → hexv c (c - 48)
| hex_low c : 97 ≤ c ≤ 102 → hexv c (c - 97 + 10)
| hex_up c : 65 ≤ c ≤ 70 → hexv c (c - 65 + 10).
Inductive hex4 : gostr → Z → Prop :=
| hex4_ok a b c d x y z w : hexv a x → hexv b y → hexv c z → hexv d w → hex4 [a; b; c; d] (4096 * x + 256 * y + 16 * z + w).
(** the two-character escapes and the characters they stand for *)
Definition escapes : list (Z * Z) := [(34, 34); (92, 92); (47, 47); (98, 8); (102, 12); (110, 10); (114, 13); (116, 9)].

(** what may stand between the quotes of a string: any byte from 32 up but the quote and the
    backslash, and escapes *)
Inductive chars : gostr → Prop :=
| chars_nil : chars []
| chars_byte b r : 32 ≤ b → b ≠ 34 → b ≠ 92 → chars r → chars (b :: r)
| chars_esc e x r : (e, x) ∈ escapes → chars r → chars (92 :: e :: r)
| chars_u h x r : hex4 h x → chars r → chars (92 :: 117 :: h ++ r).
(** numbers *)
Definition sign (g : gostr) : Prop := g = [] ∨ g = [45].
Definition integer (i : gostr) : Prop := i = [48] ∨ ∃ c ds, i = c :: ds ∧ 49 ≤ c ≤ 57 ∧ Forall digit ds.
Definition fraction (f : gostr) : Prop := f = [] ∨ ∃ ds, f = 46 :: ds ∧ ds ≠ [] ∧ Forall digit ds.
Definition exponent (e : gostr) : Prop := e = [] ∨ ∃ c g ds, e = c :: g ++ ds ∧ (c = 101 ∨ c = 69) ∧ (g = [] ∨ g = [43] ∨ g = [45]) ∧ ds ≠ [] ∧ Forall digit ds.
Definition number (n : gostr) : Prop := ∃ g i f e, n = g ++ i ++ f ++ e ∧ sign g ∧ integer i ∧ fraction f ∧ exponent e.

Inductive text : json → gostr → Prop :=
| text_null : text JNull (str "null")
| text_true : text (JBool true) (str "true")
| text_false : text (JBool false) (str "false")
| text_num n : number n → text (JNum n) n
| text_str t : chars t → text (JStr t) (34 :: t ++ [34])
| text_arr0 w : space w → text (JArr []) (91 :: w ++ [93])
| text_arr l t : elements l t → text (JArr l) (91 :: t ++ [93])
| text_obj0 w : space w → text (JObj []) (123 :: w ++ [125])
| text_obj ms t : members ms t → text (JObj ms) (123 :: t ++ [125])
with elements : list json → gostr → Prop :=
| elem_one v w1 t w2 : space w1 → text v t → space w2 → elements [v] (w1 ++ t ++ w2)
| elem_more v w1 t w2 l u : space w1 → text v t → space w2 → elements l u → elements (v :: l) (w1 ++ t ++ w2 ++ 44 :: u)
with members : list (gostr * json) → gostr → Prop :=
| mem_one k v w1 w2 w3 t w4 : space w1 → chars k → space w2 → space w3 → text v t → space w4 →
    members [(k, v)] (w1 ++ 34 :: k ++ 34 :: w2 ++ 58 :: w3 ++ t ++ w4)
| mem_more k v w1 w2 w3 t w4 ms u : space w1 → chars k → space w2 → space w3 → text v t → space w4 → members ms u →
    members ((k, v) :: ms) (w1 ++ 34 :: k ++ 34 :: w2 ++ 58 :: w3 ++ t ++ w4 ++ 44 :: u).
(** a JSON text, and how deep its arrays and objects are nested *)
Definition json_text (v : json) (s : gostr) : Prop := ∃ w1 t w2, s = w1 ++ t ++ w2 ∧ space w1 ∧ text v t ∧ space w2.
Fixpoint depth (v : json) : nat :=
  match v with
  | JArr l => S (list_max (map depth l))
  | JObj ms => S (list_max (map (λ p, depth p.2) ms))
  | _ => O
  end.

(** the text a string stands for: characters, and 16-bit units from the \u escapes; two units
    that form a surrogate pair make one character, any other surrogate and any byte that is not
    part of UTF-8 is replaced by U+FFFD *)
Inductive tok := Char (c : Z) | Unit (x : Z).
Inductive toks : gostr → list tok → Prop :=
| toks_nil : toks [] []
| toks_char c r ts : valid_rune c = true → c ≠ 92 → toks r ts → toks (encode_rune c ++ r) (Char c :: ts)
| toks_bad b r ts : (∀ c u, valid_rune c = true → b :: r ≠ encode_rune c ++ u) → toks r ts → toks (b :: r) (Char 65533 :: ts)
| toks_esc e x r ts : (e, x) ∈ escapes → toks r ts → toks (92 :: e :: r) (Char x :: ts)
| toks_u h x r ts : hex4 h x → toks r ts → toks (92 :: 117 :: h ++ r) (Unit x :: ts).
Definition high (x : Z) : Prop := 55296 ≤ x < 56320.
Definition low (x : Z) : Prop := 56320 ≤ x < 57344.
Fixpoint characters (ts : list tok) : list Z :=
  match ts with
  | [] => []
  | Char c :: ts => c :: characters ts
  | Unit x :: ts =>
    match ts with
    | Unit y :: ts' => if decide (55296 ≤ x < 56320 ∧ 56320 ≤ y < 57344) then 65536 + 1024 * (x - 55296) + (y - 56320) :: characters ts'
                       else (if decide (55296 ≤ x < 57344) then 65533 else x) :: characters ts
    | _ => (if decide (55296 ≤ x < 57344) then 65533 else x) :: characters ts
    end
  end.
Definition spells (raw k : gostr) : Prop := ∃ ts, toks raw ts ∧ k = of_runes (characters ts).

(** the 32-bit integers among the values *)
Definition int32 (v : json) (n : Z) : Prop := ∃ lit, v = JNum lit ∧ decimal lit n ∧ - 2 ^ 31 ≤ n < 2 ^ 31.
(** the last member of that name *)
Definition last_member (ms : list (gostr * json)) (k : gostr) (v : json) : Prop :=
  ∃ a raw b, ms = a ++ (raw, v) :: b ∧ spells raw k ∧ ∀ raw' v', (raw', v') ∈ b → ¬ spells raw' k.
(** [m] holds what the object holds *)
Definition holds (m : gmap gostr Z) (ms : list (gostr * json)) : Prop :=
  ∀ k n, m !! k = Some n ↔ ∃ v, last_member ms k v ∧ int32 v n.

(** ** Encoding *)
(** bytes that are not UTF-8 replaced by U+FFFD *)
Definition utf8 (s : gostr) : gostr := of_runes (runes s).
(** the order of the keys: bytewise, a prefix first *)
Inductive before : gostr → gostr → Prop :=
| before_nil b t : before [] (b :: t)
| before_byte a b s t : a < b → before (a :: s) (b :: t)
| before_cons a s t : before s t → before (a :: s) (a :: t).
(** a JSON value that says what the Go value is; members in the order of the keys *)
Inductive encodes : jval → json → Prop :=
| enc_nil : encodes VNil JNull
| enc_bool b : encodes (VBool b) (JBool b)
| enc_int z lit : decimal lit z → encodes (VInt z) (JNum lit)
| enc_string s raw : spells raw (utf8 s) → encodes (VStr s) (JStr raw)
| enc_list l l' : Forall2 encodes l l' → encodes (VList l) (JArr l')
| enc_map m m' ms : m' ≡ₚ m → StronglySorted before m'.*1 → Forall2 (λ p q, spells q.1 (utf8 p.1) ∧ encodes p.2 q.2) m' ms → encodes (VMap m) (JObj ms).
(** somewhere inside is a value that has no JSON form *)
Inductive has_bad : jval → Prop :=
| bad_here : has_bad VBad
| bad_list v l : v ∈ l → has_bad v → has_bad (VList l)
| bad_map k v m : (k, v) ∈ m → has_bad v → has_bad (VMap m).
(** what a Go value is: bounded integers, strings of bytes, different keys *)
Fixpoint go_value (v : jval) : Prop :=
  match v with
  | VInt z => is_i64 z
  | VStr s => Forall byte s
  | VList l => Forall id (map go_value l)
  | VMap m => NoDup m.*1 ∧ Forall (Forall byte) m.*1 ∧ Forall id (map (λ p, go_value p.2) m)
  | _ => True
  end.
