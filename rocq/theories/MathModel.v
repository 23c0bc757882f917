(** * Model of common/math/math.go and common/container/set/set.go *)
From Verif Require Export GoBase.
Local Open Scope Z_scope.

(** Unsigned and signed integer types of width w are the integers below 2^w
    (uint: w = 64), respectively two's complement; results wrap. *)
Definition is_uw (w z : Z) : Prop := 0 ≤ z < 2 ^ w.
Definition is_iw (w z : Z) : Prop := - 2 ^ (w - 1) ≤ z < 2 ^ (w - 1).

(** Go integer division and remainder of non-negative operands; x/0 panics. *)
Definition udiv (a b : Z) : go Z := if decide (b = 0) then Panic PDivZero else Ret (a / b).
Definition umod (a b : Z) : go Z := if decide (b = 0) then Panic PDivZero else Ret (a mod b).

(** math.go:12-19, uint = 64 bits; n + m - 1 is evaluated left to right. *)
Definition split (n m : Z) : go (Z * Z) :=
  per ← udiv (u64 (u64 (n + m) - 1)) m;
  last ← umod n per;
  mret (per, if decide (last = 0) then per else last).

(** math.go:22-27 and 30-35, T an integer type *)
Definition max (a b : Z) : Z := if decide (a > b) then a else b.
Definition min (a b : Z) : Z := if decide (a < b) then a else b.
(** math.go:38-43, T a signed integer type of width w *)
Definition abs (w a : Z) : Z := if decide (a < 0) then wrap_i w (- a) else a.

(** bits.Len64 (math/bits, not in /repo): bit length, 0 for 0. *)
Definition len64 (x : Z) : Z := if decide (x = 0) then 0 else Z.log2 x + 1.
(** math.go:70-72 *)
Definition find_last_bit_set (x : Z) : Z := len64 x.
(** 1 << s in type T of width w; a negative int shift count panics. *)
Definition shl1 (w s : Z) : go Z := if decide (s < 0) then Panic PShift else Ret (wrap_u w (2 ^ s)).
(** math.go:54-56: n & (n-1), n - 1 wrapping in T *)
Definition is_pow_of_2 (w n : Z) : bool := bool_decide (n ≠ 0) && bool_decide (Z.land n (wrap_u w (n - 1)) = 0).
(** math.go:59-61 *)
Definition round_up_pow_of_2 (w n : Z) : go Z := shl1 w (find_last_bit_set (wrap_u w (n - 1))).
(** math.go:64-66 *)
Definition round_down_pow_of_2 (w n : Z) : go Z := shl1 w (find_last_bit_set n - 1).

Close Scope Z_scope.

(** ** set.go:3-35.  A map[T]struct{} is the list of its keys; [eqb] is Go's ==
    on T.  Inserting looks for an equal key; a key not equal to itself (NaN) is
    never found, so inserting it adds an entry. *)
Section Set_.
  Context {T : Type} (eqb : T → T → bool).
  Definition gset := list T.
  Definition set_new : gset := [].
  (** set.go:19-22 *)
  Definition set_contains (s : gset) (x : T) : bool := existsb (λ y, eqb y x) s.
  (** set.go:9-11 *)
  Definition set_add (s : gset) (x : T) : gset := if set_contains s x then s else s ++ [x].
  (** set.go:14-16 *)
  Definition set_remove (s : gset) (x : T) : gset := filter (λ y, eqb y x = false) s.
  (** set.go:25-35 *)
  Definition set_len (s : gset) : nat := length s.
  Definition set_empty (s : gset) : bool := Nat.eqb (set_len s) 0.

  Inductive setop := SetAdd (x : T) | SetRemove (x : T).
  Definition set_do (s : gset) (o : setop) : gset := match o with SetAdd x => set_add s x | SetRemove x => set_remove s x end.
  Definition set_run (ops : list setop) : gset := foldl set_do set_new ops.
End Set_.
Arguments setop : clear implicits.
