(** * Model of common/container/reap/reap.go *)
From Verif Require Import GoBase HeapModel.

(** reap.go:3-6.  Heap memory of *Entry[T] objects: entry number e is the
    e-th allocated one; its two fields are (value, index). *)
Notation ents T := (list (T * Z)).

Section Reap.
  Context {T : Type} (lf : T → T → bool).

  (** One reap seen from a method: the shared entry memory and the slice h of
      entry pointers (reap.go:17-20). *)
  Record rst := RSt { re : ents T; rh : list nat }.

  (** dereference of an entry pointer *)
  Definition deref (E : ents T) (e : nat) : go (T * Z) :=
    match E !! e with Some x => Ret x | None => Panic PNil end.
  (** reap.go:130-132 *)
  Definition rless (s : rst) (i j : nat) : go bool :=
    e ← idx (rh s) i; x ← deref (re s) e; f ← idx (rh s) j; y ← deref (re s) f; Ret (lf x.1 y.1).
  (** write of the index field *)
  Definition set_index (E : ents T) (e : nat) (i : Z) : go (ents T) :=
    x ← deref E e; Ret (<[e := (x.1, i)]> E).
  (** reap.go:135-139 *)
  Definition rswap (s : rst) (i j : nat) : go rst :=
    y ← idx (rh s) j; x ← idx (rh s) i;
    let h := <[j:=x]> (<[i:=y]> (rh s)) in
    ei ← idx h i; E1 ← set_index (re s) ei (Z.of_nat i);
    ej ← idx h j; E2 ← set_index E1 ej (Z.of_nat j);
    Ret (RSt E2 h).
  (** reap.go:99-128 *)
  Definition rup (s : rst) (j : nat) : go rst := up rless rswap 2 (S j) s j.
  Definition rdown (s : rst) (i n : nat) : go (rst * bool) :=
    r ← down2 rless rswap (S n) s i n; Ret (r.1, bool_decide (i < r.2)).
  (** reap.go:142-149 *)
  Definition rpush_ (s : rst) (v : T) : rst * nat :=
    let e := length (re s) in
    (RSt (re s ++ [(v, Z.of_nat (length (rh s)))]) (rh s ++ [e]), e).
  (** reap.go:152-158 *)
  Definition rpop_ (s : rst) : go (T * rst) :=
    e ← idx (rh s) (length (rh s) - 1);
    let h := take (length (rh s) - 1) (rh s) in
    E ← set_index (re s) e (-1)%Z;
    x ← deref E e;
    Ret (x.1, RSt E h).
  (** reap.go:93-97 *)
  Definition rfix (s : rst) (i : nat) : go rst :=
    r ← rdown s i (length (rh s)); if (r.2 : bool) then Ret r.1 else rup r.1 i.

  (** reap.go:29-34 *)
  Definition reap_pop (s : rst) : go (T * rst) :=
    let n := length (rh s) - 1 in
    s1 ← rswap s 0 n; r ← rdown s1 0 n; rpop_ r.1.
  (** reap.go:37-39 *)
  Definition reap_peek (s : rst) : go T := e ← idx (rh s) 0; x ← deref (re s) e; Ret x.1.
  (** reap.go:42-46 *)
  Definition reap_push (s : rst) (v : T) : go (nat * rst) :=
    let '(s1, e) := rpush_ s v in
    s2 ← rup s1 (length (rh s1) - 1); Ret (e, s2).
  (** reap.go:49-65.  e.index is -1 or a non-negative slice index (only push,
      pop and swap write it), hence [Z.to_nat] below line 56. *)
  Definition reap_remove (s : rst) (e : nat) : go (bool * rst) :=
    x ← deref (re s) e;
    if decide (x.2 = (-1)%Z) then Ret (false, s)
    else
      let i := Z.to_nat x.2 in
      let n := length (rh s) - 1 in
      s1 ← (if decide (n = i) then Ret s
            else s1 ← rswap s i n;
                 r ← rdown s1 i n;
                 if (r.2 : bool) then Ret r.1 else rup r.1 i);
      r ← rpop_ s1; Ret (true, r.2).
  (** reap.go:68-77 *)
  Definition reap_set (s : rst) (e : nat) (v : T) : go (bool * rst) :=
    x ← deref (re s) e;
    if decide (x.2 = (-1)%Z) then Ret (false, s)
    else s1 ← rfix (RSt (<[e := (v, x.2)]> (re s)) (rh s)) (Z.to_nat x.2); Ret (true, s1).
  (** reap.go:80-87 *)
  Definition reap_len (s : rst) : nat := length (rh s).
  Definition reap_empty (s : rst) : bool := bool_decide (reap_len s = 0).
  (** reap.go:9-11 *)
  Definition entry_value (E : ents T) (e : nat) : go T := x ← deref E e; Ret x.1.

  (** ** A program using several reaps (reap number r is the slice [rs !! r];
      reap.go:22-26 makes an empty one) that share the entry memory. *)
  Record world := World { we : ents T; ws : list (list nat) }.
  Inductive rop := RNew | RPush (r : nat) (v : T) | RPop (r : nat) | RPeek (r : nat)
    | RRemove (r e : nat) | RSet (r e : nat) (v : T) | RValue (e : nat) | RLen (r : nat) | REmpty (r : nat).
  Inductive rout := RReap (r : nat) | RHandle (e : nat) | RVal (v : T) | RBool (b : bool)
    | RNat (n : nat) | RPanic | RDiverge | RStuck.

  (** Method call on reap [r]; a call that panics before any write changes
      nothing ([RStuck]: no such reap, the program is ill-formed). *)
  Definition wcall {A} (w : world) (r : nat) (m : rst → go (A * rst)) (f : A → rout) : rout * world :=
    match ws w !! r with
    | None => (RStuck, w)
    | Some h =>
        match m (RSt (we w) h) with
        | Ret (a, s) => (f a, World (re s) (<[r := rh s]> (ws w)))
        | Panic _ => (RPanic, w)
        | Diverge => (RDiverge, w)
        end
    end.
  Definition wstep (w : world) (o : rop) : rout * world :=
    match o with
    | RNew => (RReap (length (ws w)), World (we w) (ws w ++ [[]]))
    | RPush r v => wcall w r (λ s, reap_push s v) RHandle
    | RPop r => wcall w r reap_pop RVal
    | RPeek r => wcall w r (λ s, x ← reap_peek s; Ret (x, s)) RVal
    | RRemove r e => wcall w r (λ s, reap_remove s e) RBool
    | RSet r e v => wcall w r (λ s, reap_set s e v) RBool
    | RValue e => match entry_value (we w) e with Ret v => (RVal v, w) | _ => (RPanic, w) end
    | RLen r => wcall w r (λ s, Ret (reap_len s, s)) RNat
    | REmpty r => wcall w r (λ s, Ret (reap_empty s, s)) RBool
    end.
  Fixpoint wrun (w : world) (ops : list rop) : list rout * world :=
    match ops with
    | [] => ([], w)
    | o :: os => let '(r, w1) := wstep w o in
                 let '(rs, w2) := wrun w1 os in (r :: rs, w2)
    end.
  Definition wnew : world := World [] [].
End Reap.
Arguments rst : clear implicits.
Arguments world : clear implicits.
Arguments rop : clear implicits.
Arguments rout : clear implicits.
