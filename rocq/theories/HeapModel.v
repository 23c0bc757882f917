(** * Model of common/container/heap (Heap and HeapN) and common/container/pqueue *)
From Verif Require Import GoBase.

(** The sift loops.  heap.go, meap/maep.go and reap/reap.go contain the same
    [up]/[down] text over different [less]/[swap] methods, so the loops are
    written once over an arbitrary store [St] with those two methods.
    Simplification: indices are [nat]; the code's guard "[j1 < 0] after int
    overflow" is dropped because slice lengths stay below 2^62. *)
Section SiftLoops.
  Context {St : Type}.
  Context (less : St → nat → nat → go bool).
  Context (swap : St → nat → nat → go St).

  (** heap.go:83-92 (d = 2), heapn.go:72-81 (d = h.n), maep.go:110-119,
      reap.go:99-108.  In Go [(0-1)/2 = 0], as in [nat]. *)
  Fixpoint up (d : nat) (fuel : nat) (s : St) (j : nat) : go St :=
    match fuel with
    | O => Diverge
    | S f =>
        let i := (j - 1) / d in
        if decide (i = j) then Ret s
        else b ← less s j i;
             if (b : bool) then s' ← swap s i j; up d f s' i
             else Ret s
    end.

  (** heap.go:94-112, maep.go:121-139, reap.go:110-128.  Returns the store and
      the final index [i]; the Go result is [i > i0]. *)
  Fixpoint down2 (fuel : nat) (s : St) (i n : nat) : go (St * nat) :=
    match fuel with
    | O => Diverge
    | S f =>
        let j1 := 2 * i + 1 in
        if decide (n ≤ j1) then Ret (s, i)
        else
          let j2 := j1 + 1 in
          j ← (if decide (j2 < n)
               then b ← less s j2 j1; Ret (if (b : bool) then j2 else j1)
               else Ret j1);
          b ← less s j i;
          if (b : bool) then s' ← swap s i j; down2 f s' j n
          else Ret (s, i)
    end.

  (** heapn.go:91-95: the inner scan [for j1 := k+1; j1 < k+4 && j1 < n; j1++];
      [cnt] is the number of iterations the bound [k+w] still allows. *)
  Fixpoint scan (cnt : nat) (s : St) (j j1 n : nat) : go nat :=
    match cnt with
    | O => Ret j
    | S c =>
        if decide (j1 < n)
        then b ← less s j1 j; scan c s (if (b : bool) then j1 else j) (j1 + 1) n
        else Ret j
    end.

  (** heapn.go:83-103 with arity [d] and scan width [w]; the code has w = 4. *)
  Fixpoint downN (d w : nat) (fuel : nat) (s : St) (i n : nat) : go (St * nat) :=
    match fuel with
    | O => Diverge
    | S f =>
        let k := d * i + 1 in
        if decide (n ≤ k) then Ret (s, i)
        else
          j ← scan (w - 1) s k (k + 1) n;
          b ← less s j i;
          if (b : bool) then s' ← swap s i j; downN d w f s' j n
          else Ret (s, i)
    end.
End SiftLoops.

Section Heap.
  Context {T : Type} (lf : T → T → bool).

  (** heap.go:114-116, heapn.go:105-107 *)
  Definition hless (h : list T) (i j : nat) : go bool :=
    x ← idx h i; y ← idx h j; Ret (lf x y).
  (** heap.go:118-120, heapn.go:109-111 *)
  Definition hswap (h : list T) (i j : nat) : go (list T) :=
    y ← idx h j; x ← idx h i; Ret (<[j:=x]> (<[i:=y]> h)).
  (** heap.go:122-124, heapn.go:113-115 *)
  Definition hpush (h : list T) (x : T) : list T := h ++ [x].
  (** heap.go:126-130, heapn.go:117-121; on the empty slice [len-1] is -1 in Go
      and 0 here, both reads panic. *)
  Definition hpop (h : list T) : go (T * list T) :=
    x ← idx h (length h - 1); Ret (x, take (length h - 1) h).

  (** Fuel: [up] strictly decreases j, [down] strictly increases i < n. *)
  Definition hup (d : nat) (h : list T) (j : nat) : go (list T) := up hless hswap d (S j) h j.
  Definition hdown (h : list T) (i n : nat) : go (list T * bool) :=
    r ← down2 hless hswap (S n) h i n; Ret (r.1, bool_decide (i < r.2)).
  Definition hdownN (d : nat) (h : list T) (i n : nat) : go (list T * bool) :=
    r ← downN hless hswap d 4 (S n) h i n; Ret (r.1, bool_decide (i < r.2)).

  (** heap.go:75-81: [for i := n/2 - 1; i >= 0; i--]; the argument counts the
      remaining iterations, so the current index is its predecessor. *)
  Fixpoint hinit_loop (i : nat) (h : list T) : go (list T) :=
    match i with
    | O => Ret h
    | S i' => r ← hdown h i' (length h); hinit_loop i' r.1
    end.
  (** heap.go:10-17.  The slice is used in place (aliasing with the caller's
      slice is not modelled). *)
  Definition heap_new (h : list T) : go (list T) := hinit_loop (length h / 2) h.

  (** The methods shared by Heap and HeapN; [dn]/[d] select the variant. *)
  Section Methods.
    Context (d : nat) (dn : list T → nat → nat → go (list T * bool)).
    (** heap.go:20-25, heapn.go:21-26 *)
    Definition gpop (h : list T) : go (T * list T) :=
      let n := length h - 1 in
      h1 ← hswap h 0 n; r ← dn h1 0 n; hpop r.1.
    (** heap.go:28-30, heapn.go:29-31 *)
    Definition gpeek (h : list T) : go T := idx h 0.
    (** heap.go:33-36, heapn.go:34-37 *)
    Definition gpush (h : list T) (x : T) : go (list T) :=
      let h1 := hpush h x in hup d h1 (length h1 - 1).
    (** heap.go:39-46, heapn.go:40-47 *)
    Definition glen (h : list T) : nat := length h.
    Definition gempty (h : list T) : bool := bool_decide (length h = 0).
    (** heap.go:65-69, heapn.go:66-70 for a non-negative index *)
    Definition gfix_nat (h : list T) (i : nat) : go (list T) :=
      r ← dn h i (length h);
      if (r.2 : bool) then Ret r.1 else hup d r.1 i.
    (** heap.go:65-69 for any Go int: for [i = -1] both loops stop at once
        (2i+1 < 0 and (i-1)/2 = i), for [i < -1] [less] indexes out of range.
        heapn.go:66-70 with n >= 2: (-1-1)/n = 0 for n >= 3, so [less(-1,0)]
        panics; only n = 2 behaves like the binary heap. *)
    Definition gfix (h : list T) (i : Z) : go (list T) :=
      if decide (0 ≤ i)%Z then gfix_nat h (Z.to_nat i)
      else if decide (i = (-1)%Z ∧ d = 2) then Ret h
      else Panic PIndex.
    (** heap.go:50-59, heapn.go:51-60 *)
    Definition gremove_nat (h : list T) (i : nat) : go (T * list T) :=
      let n := length h - 1 in
      if decide (n = i) then hpop h
      else h1 ← hswap h i n;
           r ← dn h1 i n;
           h2 ← (if (r.2 : bool) then Ret r.1 else hup d r.1 i);
           hpop h2.
    (** Negative indices always panic ([swap], or [pop] on the empty heap). *)
    Definition gremove (h : list T) (i : Z) : go (T * list T) :=
      if decide (0 ≤ i)%Z then gremove_nat h (Z.to_nat i) else Panic PIndex.
  End Methods.

  (** Histories.  A panicking call is recorded and leaves the heap unchanged:
      in every panicking case above the first index expression already fails,
      before any write.  [OpSet i x] is the documented use of Fix: the owner
      of the slice writes x at index i and calls Fix(i). *)
  Inductive op :=
    | OpPush (x : T) | OpPop | OpPeek | OpRemove (i : Z) | OpFix (i : Z)
    | OpSet (i : nat) (x : T) | OpLen | OpEmpty.
  Inductive out := OUnit | OVal (x : T) | ONat (n : nat) | OBool (b : bool) | OPanic | ODiverge.

  Definition fin {A} (h : list T) (m : go A) (f : A → out * list T) : out * list T :=
    match m with Ret a => f a | Panic _ => (OPanic, h) | Diverge => (ODiverge, h) end.

  Definition gstep (d : nat) dn (h : list T) (o : op) : out * list T :=
    match o with
    | OpPush x => fin h (gpush d h x) (λ h', (OUnit, h'))
    | OpPop => fin h (gpop dn h) (λ r, (OVal r.1, r.2))
    | OpPeek => fin h (gpeek h) (λ x, (OVal x, h))
    | OpRemove i => fin h (gremove d dn h i) (λ r, (OVal r.1, r.2))
    | OpFix i => fin h (gfix d dn h i) (λ h', (OUnit, h'))
    | OpSet i x =>
        if decide (i < length h)
        then fin h (gfix_nat d dn (<[i:=x]> h) i) (λ h', (OUnit, h'))
        else (OPanic, h)
    | OpLen => (ONat (glen h), h)
    | OpEmpty => (OBool (gempty h), h)
    end.

  Fixpoint grun d dn (h : list T) (ops : list op) : list out * list T :=
    match ops with
    | [] => ([], h)
    | o :: os => let '(r, h1) := gstep d dn h o in
                 let '(rs, h2) := grun d dn h1 os in (r :: rs, h2)
    end.

  (** heap.Heap: heap.go:5-17 *)
  Definition heap_step := gstep 2 hdown.
  Definition heap_run := grun 2 hdown.

  (** heap.HeapN with arity d: heapn.go:4-18.  NewN panics for n < 2 and starts empty. *)
  Definition heapn_new (d : Z) : go (list T) :=
    if decide (d < 2)%Z then Panic (PUser "n must be greater than 2") else Ret [].
  Definition heapn_step (d : nat) := gstep d (hdownN d).
  Definition heapn_run (d : nat) := grun d (hdownN d).

  (** pqueue.go:10-39: every method forwards to the heap. *)
  Definition pq_new := heap_new.
  Definition pq_push := gpush 2.
  Definition pq_pop := gpop hdown.
  Definition pq_peek := gpeek.
  Definition pq_len := glen.
  Definition pq_empty (h : list T) : bool := bool_decide (pq_len h = 0).
End Heap.
Arguments op : clear implicits.
Arguments out : clear implicits.
