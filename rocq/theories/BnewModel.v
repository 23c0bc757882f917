(** * bloom.New with its floating point
    /repo/common/filter/bloom/bloom.go:22-41 on IEEE doubles (Flocq, as in RoundModel.v and
    Log2Model.v).  The logarithm is a parameter, because it differs between architectures.  So is what a
    conversion to an integer gives for a value outside of the type, which Go leaves open.  No fused
    multiply-add.  The random source is a parameter.  There is memory for every slice that the
    runtime's limit on sizes (2^48 bytes) admits. *)
From Coq Require Import ZArith Bool.
From Flocq Require Import Core IEEE754.BinarySingleNaN.
From Verif Require Import GoBase BloomModel RoundModel Log2Model.
Open Scope Z_scope.

(** math.Ln2; the product math.Ln2 * math.Ln2 is a constant and rounded once *)
Definition ln2_digits : positive := 693147180559945309417232121458176568075500134360255254120680009.
Definition ln2 : f64 := of_quot ln2_digits (10 ^ 63).
Definition ln2_sq : f64 := of_quot (ln2_digits * ln2_digits) (10 ^ 126).
(** math.Ceil *)
Definition fceil : f64 -> f64 := Bnearbyint mode_UP.

Section bnew.
  Context (lg : f64 -> f64) (wild_u wild_i : f64 -> Z).
  (** uint64(x), int(x) *)
  Definition to_u64 (x : f64) : Z := if is_finite x && (0 <=? Btrunc x) && (Btrunc x <? 2 ^ 64) then Btrunc x else wild_u x.
  Definition to_int (x : f64) : Z := if is_finite x && (- 2 ^ 63 <=? Btrunc x) && (Btrunc x <? 2 ^ 63) then Btrunc x else wild_i x.
  (** bloom.go:24-25 *)
  Definition raw_bits (capacity : Z) (p : f64) : Z :=
    let factor := fdiv (Bopp (lg p)) ln2_sq in
    to_u64 (fceil (fmul (of_Z capacity) factor)).
  (** bloom.go:27 *)
  Definition bit_count (capacity : Z) (p : f64) : Z := round_bits (raw_bits capacity p).
  (** bloom.go:29 *)
  Definition seed_count (capacity bits : Z) : Z := to_int (fceil (fdiv (fmul ln2 (of_Z bits)) (of_Z capacity))).
  (** make([]uint64, n) *)
  Definition make_ok (n : Z) : bool := (0 <=? n) && (n <=? 2 ^ 45).
  (** bloom.go:22-41; [rnd] gives the random numbers one after the other *)
  Definition new (rnd : nat -> Z) (capacity : Z) (p : f64) : go filter :=
    let bits := bit_count capacity p in
    let k := seed_count capacity bits in
    if negb (make_ok k) then Panic PMake
    else if negb (make_ok (bits / 64)) then Panic PMake
    else Ret (Filter (List.repeat 0 (Z.to_nat (bits / 64))) bits (List.map rnd (List.seq 0 (Z.to_nat k)))).
End bnew.

(** the conversions of amd64 (CVTTSD2SQ): -2^63 for everything that int64 cannot hold; for uint64 the
    same instruction, applied to x - 2^63 if x is at least 2^63 *)
Definition amd64_int (x : f64) : Z := - 2 ^ 63.
Definition amd64_u64 (x : f64) : Z :=
  if is_finite x && (- 2 ^ 63 <=? Btrunc x) && (Btrunc x <? 2 ^ 63) then Btrunc x mod 2 ^ 64
  else if Bltb x (of_Z (2 ^ 63)) then 2 ^ 63 else 0.
