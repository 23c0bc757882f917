(** * Model of common/container/ringbuffer: fix/fix.go, round/roud.go, unbounded/unbounded.go *)
From Verif Require Export GoState MathModel.
Local Open Scope Z_scope.

(** fix.go:14-19, roud.go:10-16, unbounded.go:14-19; [rmask] is only used by round. *)
Record ring (T : Type) := Ring { rin : Z; rout : Z; rsize : Z; rmask : Z; rdata : list T }.
Arguments Ring {_} _ _ _ _ _.
Arguments rin {_} _. Arguments rout {_} _. Arguments rsize {_} _. Arguments rmask {_} _. Arguments rdata {_} _.

(** copy(dst[i:], src): overwrite dst from i with as much of src as fits.
    The number of elements copied is min (len dst - i, len src). *)
Definition copy_to {T} (dst : list T) (i : nat) (src : list T) : list T :=
  take i dst ++ take (length dst - i) src ++ drop (i + length src) dst.
Definition copied {T} (dst : list T) (i : nat) (src : list T) : nat := Nat.min (length dst - i) (length src).

Section Ring.
  (** [dv] is the zero value of T. *)
  Context {T : Type} (dv : T).
  Notation RM := (gst (ring T)).
  Implicit Types r : ring T.

  (** make([]T, n).  The model has unbounded memory: only the length limits
      checked by the constructors are kept. *)
  Definition make (n : Z) : list T := replicate (Z.to_nat n) dv.

  (** index of a counter: fix and unbounded [c % r.size], round [c & r.mask] *)
  Definition ix_mod r (c : Z) : go Z := umod c (rsize r).
  Definition ix_mask r (c : Z) : go Z := Ret (Z.land c (rmask r)).

  (** fix.go:116-133, roud.go:113-130, unbounded.go:110-127 (identical) *)
  Definition rcap r : Z := rsize r.
  Definition rlen r : Z := u64 (rin r - rout r).
  Definition ravail r : Z := u64 (rcap r - rlen r).
  Definition rempty r : bool := bool_decide (rin r = rout r).
  Definition rfull r : bool := bool_decide (ravail r = 0).

  Definition set_in (c : Z) : RM unit := gwrite (λ r, Ring c (rout r) (rsize r) (rmask r) (rdata r)).
  Definition set_out (c : Z) : RM unit := gwrite (λ r, Ring (rin r) c (rsize r) (rmask r) (rdata r)).
  Definition set_data (l : list T) : RM unit := gwrite (λ r, Ring (rin r) (rout r) (rsize r) (rmask r) l).
  Definition gget : RM (ring T) := gread (λ r, r).
  (** the bounds check of r.data[i:] *)
  Definition slice_from (i : Z) : RM nat :=
    glift (λ r, if decide (i ≤ Z.of_nat (length (rdata r))) then Ret (Z.to_nat i) else Panic PIndex).

  Section Ops.
    Variable ix : ring T → Z → go Z.

    (** fix.go:41-48, roud.go:35-42, unbounded.go:33-40 *)
    Definition rpop : RM T :=
      r ⇠ gget;
      if rempty r then gpanic (PUser "ring emtpy")
      else o ⇠ glift (λ r, ix r (rout r)); set_out (u64 (rout r + 1));;
           glift (λ r, idx (rdata r) (Z.to_nat o)).
    (** fix.go:51-56, roud.go:45-50, unbounded.go:43-48; all three use % *)
    Definition rpeek : RM T :=
      r ⇠ gget;
      if rempty r then gpanic (PUser "ring emtpy")
      else o ⇠ glift (λ r, ix_mod r (rout r)); glift (λ r, idx (rdata r) (Z.to_nat o)).
    (** r.data[in] = e with bounds check *)
    Definition store (i : Z) (e : T) : RM unit :=
      r ⇠ gget; if decide (i < Z.of_nat (length (rdata r))) then set_data (<[Z.to_nat i := e]> (rdata r)) else gpanic PIndex.
    (** fix.go:63-65, roud.go:57-59, unbounded.go:55-57 *)
    Definition rpush_tail (e : T) : RM unit :=
      i ⇠ glift (λ r, ix r (rin r)); r ⇠ gget; set_in (u64 (rin r + 1));; store i e.
    (** fix.go:59-66, roud.go:53-60 *)
    Definition rpush (e : T) : RM unit :=
      r ⇠ gget; if rfull r then gpanic (PUser "ring full") else rpush_tail e.
    (** fix.go:79-82, roud.go:73-76, unbounded.go:69-72 *)
    Definition mpush_tail (elems : list T) : RM unit :=
      i ⇠ glift (λ r, ix r (rin r)); i ⇠ slice_from i; r ⇠ gget;
      set_data (copy_to (copy_to (rdata r) i elems) 0 (drop (copied (rdata r) i elems) elems));;
      set_in (u64 (rin r + Z.of_nat (length elems))).
    (** fix.go:69-83, roud.go:63-77 *)
    Definition rmpush (elems : list T) : RM unit :=
      r ⇠ gget;
      let elems := if decide (Z.of_nat (length elems) > ravail r) then take (Z.to_nat (ravail r)) elems else elems in
      if decide (elems = []) then gret tt else mpush_tail elems.
    (** fix.go:86-99, roud.go:80-93, unbounded.go:76-89 *)
    Definition rmpop (size : Z) : RM (list T) :=
      r ⇠ gget;
      let size := if decide (size > rlen r) then rlen r else size in
      if decide (size = 0) then gret []
      else o ⇠ glift (λ r, ix r (rout r));
           let elems := make size in
           o ⇠ slice_from o;
           let n := copied elems 0 (drop o (rdata r)) in
           let elems := copy_to (copy_to elems 0 (drop o (rdata r))) n (rdata r) in
           set_out (u64 (rout r + size));; gret elems.
    (** fix.go:102-108, roud.go:96-102, unbounded.go:92-98; returns the
        caller's slice after the call *)
    Definition rmpopcopy (dst0 : list T) : RM (list T) :=
      o ⇠ glift (λ r, ix r (rout r)); r ⇠ gget;
      let m := Z.to_nat (min (Z.of_nat (length dst0)) (rlen r)) in
      let dst := take m dst0 in
      o ⇠ slice_from o;
      let n := copied dst 0 (drop o (rdata r)) in
      let dst1 := copy_to dst 0 (drop o (rdata r)) in
      let n' := copied dst1 n (rdata r) in
      set_out (u64 (rout r + Z.of_nat (n + n')));;
      gret (copy_to dst1 n (rdata r) ++ drop m dst0).
    (** fix.go:111-115, roud.go:105-109, unbounded.go:101-105 *)
    Definition rreset : RM unit :=
      gwrite (λ r, Ring 0 0 (rsize r) (rmask r) (make (rsize r))).
  End Ops.

  (** fix.go:26-38; MaxSize = math.MaxInt64 *)
  Definition max_int64 : Z := 2 ^ 63 - 1.
  Definition fix_new (size : Z) : go (ring T) :=
    if decide (size = 0) then Panic (PUser "size must be greater than 0")
    else if decide (size > max_int64) then Panic (PUser "size is too large")
    else Ret (Ring 0 0 size 0 (make size)).
  (** roud.go:18-32; MaxSize = 1 << 62 *)
  Definition round_new (size : Z) : go (ring T) :=
    if decide (size = 0) then Panic (PUser "size must be greater than 0")
    else size ← round_up_pow_of_2 64 size;
         if decide (size > 2 ^ 62) then Panic (PUser "size is too large")
         else Ret (Ring 0 0 size (u64 (size - 1)) (make size)).
  (** unbounded.go:21-30 *)
  Definition unb_new (size : Z) : go (ring T) :=
    if decide (size > max_int64) then Panic (PUser "size is too large") else Ret (Ring 0 0 size 0 (make size)).

  (** unbounded.go:130-154 *)
  Definition unb_grow (min_size : Z) : RM unit :=
    r ⇠ gget;
    let size := max (u64 (rsize r * 2)) min_size in
    if decide (size > max_int64) then gpanic (PUser "size is too large") else
    let size := if decide (size < 2) then 2 else size in
    if decide (rsize r = 0) then gwrite (λ r, Ring (rin r) (rout r) size 0 (make size)) else
    o ⇠ glift (λ r, ix_mod r (rout r)); o ⇠ slice_from o;
    let data := make size in
    let len := Z.to_nat (rlen r) in
    (* data[:len] and data[copied:len] *)
    if decide (Z.of_nat len ≤ size) then
      let part := take len data in
      let n := copied part 0 (drop o (rdata r)) in
      let part := copy_to (copy_to part 0 (drop o (rdata r))) n (rdata r) in
      gwrite (λ r, Ring (Z.of_nat len) 0 size 0 (part ++ drop len data))
    else gpanic PIndex.
  (** unbounded.go:51-58 *)
  Definition unb_push (e : T) : RM unit :=
    r ⇠ gget; (if rfull r then unb_grow (u64 (rcap r + 1)) else gret tt);; rpush_tail ix_mod e.
  (** unbounded.go:61-73 *)
  Definition unb_mpush (elems : list T) : RM unit :=
    let size := Z.of_nat (length elems) in
    if decide (size = 0) then gret tt else
    r ⇠ gget; (if decide (size > ravail r) then unb_grow (u64 (rcap r + size)) else gret tt);;
    mpush_tail ix_mod elems.

  (** ** Calls *)
  Inductive bop := BPush (e : T) | BMPush (es : list T) | BPop | BMPop (n : Z) | BMPopCopy (dst : list T)
    | BPeek | BReset | BCap | BLen | BAvail | BEmpty | BFull | BGrow (n : Z).
  Inductive bout := BUnit | BVal (v : T) | BSlice (l : list T) | BInt (n : Z) | BBool (b : bool) | BPanic | BDiverge.
  Definition bfin {A} (f : A → bout) (x : go A * ring T) : bout * ring T :=
    match x with (Ret a, r) => (f a, r) | (Panic _, r) => (BPanic, r) | (Diverge, r) => (BDiverge, r) end.
  Definition rstep (ix : ring T → Z → go Z) (push : T → RM unit) (mpush : list T → RM unit) (grow : Z → RM unit)
      r (o : bop) : bout * ring T :=
    match o with
    | BPush e => bfin (λ _, BUnit) (push e r)
    | BMPush es => bfin (λ _, BUnit) (mpush es r)
    | BPop => bfin BVal (rpop ix r)
    | BMPop n => bfin BSlice (rmpop ix n r)
    | BMPopCopy dst => bfin BSlice (rmpopcopy ix dst r)
    | BPeek => bfin BVal (rpeek r)
    | BReset => bfin (λ _, BUnit) (rreset r)
    | BCap => (BInt (rcap r), r)
    | BLen => (BInt (rlen r), r)
    | BAvail => (BInt (ravail r), r)
    | BEmpty => (BBool (rempty r), r)
    | BFull => (BBool (rfull r), r)
    | BGrow n => bfin (λ _, BUnit) (grow n r)
    end.
  (** fix and round have no Grow method *)
  Definition no_grow (n : Z) : RM unit := gret tt.
  Definition fix_step := rstep ix_mod (rpush ix_mod) (rmpush ix_mod) no_grow.
  Definition round_step := rstep ix_mask (rpush ix_mask) (rmpush ix_mask) no_grow.
  Definition unb_step := rstep ix_mod unb_push unb_mpush unb_grow.
  Fixpoint brun (step : ring T → bop → bout * ring T) r (ops : list bop) : list bout * ring T :=
    match ops with
    | [] => ([], r)
    | o :: os => let '(x, r1) := step r o in let '(xs, r2) := brun step r1 os in (x :: xs, r2)
    end.
End Ring.
Arguments bop : clear implicits.
Arguments bout : clear implicits.
