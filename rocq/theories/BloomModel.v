(** * Model of common/filter/bloom/bloom.go and common/hash/hash.go *)
From Verif Require Export GoState MathModel.
Local Open Scope Z_scope.

(** bloom.go:16-20 *)
Record filter := Filter { f_bits : list Z; f_cnt : Z; f_seeds : list Z }.

(** bloom.go:27: rounding the bit count up to whole words (uint64 arithmetic). *)
Definition round_bits (n : Z) : Z := u64 (u64 (u64 (n + 64) - 1) / 64 * 64).
(** bloom.go:22-41 without the floating-point part: [raw] stands for
    uint64(math.Ceil(float64(capacity)*factor)) (bloom.go:25), [seeds] for the
    pseudo-random seeds, of which there are int(math.Ceil(ln2*bitCnt/capacity))
    (bloom.go:29), hence none if bitCnt is 0. *)
Definition bloom_new (raw : Z) (seeds : list Z) : filter :=
  let cnt := round_bits raw in
  Filter (replicate (Z.to_nat (cnt / 64)) 0) cnt (if decide (cnt = 0) then [] else seeds).

(** bloom.go:106-114: index and offset *)
Definition pos (f : filter) (h seed : Z) : go (Z * Z) :=
  b ← umod (Z.lxor h seed) (f_cnt f);
  mret (b / 64, b mod 64).

Notation FM := (gst filter).
(** f.bits[index] |= 1 << offset *)
Definition set_bit (index offset : Z) : FM unit :=
  w ⇠ glift (λ f, idx (f_bits f) (Z.to_nat index));
  gwrite (λ f, Filter (<[Z.to_nat index := Z.lor w (u64 (Z.shiftl 1 offset))]> (f_bits f)) (f_cnt f) (f_seeds f)).
(** bloom.go:44-49; the loop ranges over the slice f.seeds as it is at entry *)
Fixpoint add_loop (h : Z) (seeds : list Z) : FM unit :=
  match seeds with
  | [] => gret tt
  | s :: rest => p ⇠ glift (λ f, pos f h s); set_bit p.1 p.2;; add_loop h rest
  end.
Definition bloom_add (h : Z) : FM unit := f ⇠ gread (λ f, f); add_loop h (f_seeds f).
(** bloom.go:64-74 *)
Fixpoint contains_loop (f : filter) (h : Z) (seeds : list Z) : go bool :=
  match seeds with
  | [] => Ret true
  | s :: rest => p ← pos f h s;
                 let mask := u64 (Z.shiftl 1 p.2) in
                 w ← idx (f_bits f) (Z.to_nat p.1);
                 if decide (Z.land w mask ≠ mask) then Ret false else contains_loop f h rest
  end.
Definition bloom_contains (f : filter) (h : Z) : go bool := contains_loop f h (f_seeds f).
(** bloom.go:89-93 *)
Definition bloom_clear : FM unit :=
  gwrite (λ f, Filter ((λ _, 0) <$> f_bits f) (f_cnt f) (f_seeds f)).
(** bloom.go:96-98 *)
Definition bloom_len (f : filter) : Z := f_cnt f.

(** bloom.go:117-121; hash/fnv New64 is FNV-1: multiply, then xor the byte *)
Definition fnv_step (h b : Z) : Z := Z.lxor (u64 (h * 1099511628211)) b.
Definition fnv64 (bytes : list Z) : Z := foldl fnv_step 14695981039346656037 bytes.
(** bloom.go:52-60, 78-86; a Go string is its bytes *)
Definition bloom_add_bytes (b : list Z) : FM unit := bloom_add (fnv64 b).
Definition bloom_contains_bytes (f : filter) (b : list Z) : go bool := bloom_contains f (fnv64 b).

Inductive fop := FAdd (h : Z) | FAddBytes (b : list Z) | FAddString (s : list Z) | FClear.
Definition fstep (o : fop) : FM unit :=
  match o with FAdd h => bloom_add h | FAddBytes b | FAddString b => bloom_add_bytes b | FClear => bloom_clear end.
Fixpoint frun (ops : list fop) : FM unit :=
  match ops with [] => gret tt | o :: os => fstep o;; frun os end.

(** ** common/hash/hash.go:5-29
    hash/maphash is abstract: [mh seed bytes] is its hash function; a maphash.Hash
    holds its seed and the bytes written since Reset; Write never fails
    (documented contract of maphash). *)
Section Hash.
  Context {seed : Type} (mh : seed → list Z → Z).
  Record hash := Hash { h_seed : seed; h_buf : list Z }.
  Notation HM := (gst hash).
  Definition h_reset : HM unit := gwrite (λ h, Hash (h_seed h) []).
  Definition h_write (b : list Z) : HM bool := gwrite (λ h, Hash (h_seed h) (h_buf h ++ b));; gret true.
  Definition h_sum : HM Z := gread (λ h, mh (h_seed h) (h_buf h)).
  (** hash.go:9-13 *)
  Definition hash_new (s : seed) : hash := Hash s [].
  (** hash.go:15-22 *)
  Definition sum64 (b : list Z) : HM Z :=
    h_reset;; ok ⇠ h_write b; if (ok : bool) then h_sum else gret 0.
  (** hash.go:24-26 *)
  Definition sum64_string (s : list Z) : HM Z := sum64 s.
  Inductive hop := HSum (b : list Z) | HSumString (b : list Z).
  Definition hstep (o : hop) : HM Z := match o with HSum b => sum64 b | HSumString b => sum64_string b end.
  Fixpoint hrun (ops : list hop) (h : hash) : list (go Z) * hash :=
    match ops with
    | [] => ([], h)
    | o :: os => let '(x, h1) := hstep o h in let '(xs, h2) := hrun os h1 in (x :: xs, h2)
    end.
End Hash.
