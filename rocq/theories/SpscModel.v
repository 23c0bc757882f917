(** * One producer and one consumer on fix.Ring / round.Ring (fix.go, roud.go)

    The doc comment (fix.go:13, roud.go:9) promises thread safety for a single
    producer and a single consumer.  Every access to the fields [in], [out] and
    to a cell of [data] is one atomic step; an execution is an interleaving of
    the steps of the two goroutines (sequential consistency, the most
    favourable reading of the racy code).  [size], [mask] and the slice header
    of [data] are never written after New, so they are constants.
    Simplifications: the built-in copy moves elements one by one in ascending
    order; single loads of [in], [out] and of one element are not torn. *)
From Verif Require Export RingModel.
Local Open Scope Z_scope.

(** code of a goroutine, one constructor per shared access *)
Inductive prog (T A : Type) :=
  | PRet (a : A)
  | PPanic
  | PRdIn (k : Z → prog T A)
  | PRdOut (k : Z → prog T A)
  | PWrIn (v : Z) (k : prog T A)
  | PWrOut (v : Z) (k : prog T A)
  | PRdD (i : nat) (k : T → prog T A)
  | PWrD (i : nat) (v : T) (k : prog T A)
  | PGot (l : list T) (k : prog T A).  (* the consumer's caller receives l *)
Arguments PRet {_ _} _. Arguments PPanic {_ _}. Arguments PRdIn {_ _} _. Arguments PRdOut {_ _} _.
Arguments PWrIn {_ _} _ _. Arguments PWrOut {_ _} _ _. Arguments PRdD {_ _} _ _. Arguments PWrD {_ _} _ _ _.
Arguments PGot {_ _} _ _.

Global Instance prog_ret T : MRet (prog T) := @PRet T.
Global Instance prog_bind T : MBind (prog T) :=
  fix go A B f m := match m with
    | PRet a => f a
    | PPanic => PPanic
    | PRdIn k => PRdIn (λ z, go A B f (k z))
    | PRdOut k => PRdOut (λ z, go A B f (k z))
    | PWrIn v k => PWrIn v (go A B f k)
    | PWrOut v k => PWrOut v (go A B f k)
    | PRdD i k => PRdD i (λ x, go A B f (k x))
    | PWrD i v k => PWrD i v (go A B f k)
    | PGot l k => PGot l (go A B f k)
    end.

Record mem (T : Type) := Mem { m_in : Z; m_out : Z; m_data : list T }.
Arguments Mem {_} _ _ _. Arguments m_in {_} _. Arguments m_out {_} _. Arguments m_data {_} _.

Section Spsc.
  (** [c] is r.size, [ix] the index function (% size or & mask). *)
  Context {T : Type} (c : nat) (ix : Z → nat).
  Notation P := (prog T).

  Definition rd_in : P Z := PRdIn PRet.
  Definition rd_out : P Z := PRdOut PRet.
  Definition wr_in (v : Z) : P unit := PWrIn v (PRet tt).
  Definition wr_out (v : Z) : P unit := PWrOut v (PRet tt).
  Definition got (l : list T) : P unit := PGot l (PRet tt).

  (** fix.go:120-133, roud.go:117-130 *)
  Definition p_len : P Z := i ← rd_in; o ← rd_out; mret (u64 (i - o)).
  Definition p_avail : P Z := l ← p_len; mret (u64 (Z.of_nat c - l)).
  Definition p_empty : P bool := i ← rd_in; o ← rd_out; mret (bool_decide (i = o)).
  Definition p_full : P bool := a ← p_avail; mret (bool_decide (a = 0)).

  (** fix.go:59-66, roud.go:53-60: the counter is advanced before the cell is written *)
  Definition p_push (e : T) : P unit :=
    f ← p_full;
    if (f : bool) then PPanic else
    i ← rd_in; let j := ix i in
    i' ← rd_in; _ ← wr_in (u64 (i' + 1));
    PWrD j e (PRet tt).
  (** fix.go:41-48, roud.go:35-42: the counter is advanced before the cell is read *)
  Definition p_pop : P unit :=
    e ← p_empty;
    if (e : bool) then PPanic else
    o ← rd_out; let j := ix o in
    o' ← rd_out; _ ← wr_out (u64 (o' + 1));
    PRdD j (λ x, got [x]).

  (** copy(r.data[i:], l) for an l that fits *)
  Fixpoint p_store (i : nat) (l : list T) : P unit :=
    match l with [] => PRet tt | x :: l => PWrD i x (p_store (S i) l) end.
  (** copy of n cells from r.data[i:] *)
  Fixpoint p_load (i n : nat) : P (list T) :=
    match n with 0%nat => PRet [] | S n => PRdD i (λ x, l ← p_load (S i) n; mret (x :: l)) end.

  (** fix.go:69-83, roud.go:63-77.  [es] is the argument slice and [spare] the rest of its
      backing array, which elems[:size] can reach.  Avail is evaluated twice. *)
  Definition p_mpush (es spare : list T) : P unit :=
    a ← p_avail;
    elems ← (if decide (Z.of_nat (length es) > a) then
               size ← p_avail;
               if decide (size > Z.of_nat (length (es ++ spare))) then PPanic
               else mret (take (Z.to_nat size) (es ++ spare))
             else mret es);
    if decide (elems = []) then mret tt else
    i ← rd_in; let j := ix i in
    if decide (j ≤ c)%nat then
      let n := Nat.min (c - j) (length elems) in
      _ ← p_store j (take n elems);
      _ ← p_store 0 (take c (drop n elems));
      i' ← rd_in; wr_in (u64 (i' + Z.of_nat (length elems)))
    else PPanic.
  (** fix.go:86-99, roud.go:80-93.  Len is evaluated twice. *)
  Definition p_mpop (size : Z) : P unit :=
    l ← p_len;
    size ← (if decide (size > l) then p_len else mret size);
    if decide (size = 0) then got [] else
    o ← rd_out; let j := ix o in
    if decide (j ≤ c)%nat then
      let n := Nat.min (Z.to_nat size) (c - j) in
      l1 ← p_load j n;
      l2 ← p_load 0 (Nat.min (Z.to_nat size - n) c);
      o' ← rd_out; _ ← wr_out (u64 (o' + size));
      got (l1 ++ l2)
    else PPanic.
  (** fix.go:102-108, roud.go:96-102, for a dst of length [n] *)
  Definition p_mpopcopy (n : Z) : P unit :=
    o ← rd_out; let j := ix o in
    l ← p_len; let m := Z.to_nat (min n l) in
    if decide (j ≤ c)%nat then
      let k := Nat.min m (c - j) in
      l1 ← p_load j k;
      l2 ← p_load 0 (Nat.min (m - k) c);
      o' ← rd_out; _ ← wr_out (u64 (o' + Z.of_nat (length l1 + length l2)));
      got (l1 ++ l2)
    else PPanic.

  Inductive pcall := QPush (e : T) | QMPush (es spare : list T).
  Inductive ccall := QPop | QMPop (n : Z) | QMPopCopy (n : Z).
  Definition p_call (q : pcall) : P unit := match q with QPush e => p_push e | QMPush es sp => p_mpush es sp end.
  Definition c_call (q : ccall) : P unit := match q with QPop => p_pop | QMPop n => p_mpop n | QMPopCopy n => p_mpopcopy n end.
  Fixpoint seqn {A} (f : A → P unit) (l : list A) : P unit :=
    match l with [] => mret tt | x :: l => _ ← f x; seqn f l end.
  Definition producer (l : list pcall) : P unit := seqn p_call l.
  Definition consumer (l : list ccall) : P unit := seqn c_call l.

  (** ** Executions *)
  Definition act (m : mem T) (p : P unit) : mem T * P unit * list T :=
    match p with
    | PRet _ | PPanic => (m, p, [])
    | PRdIn k => (m, k (m_in m), [])
    | PRdOut k => (m, k (m_out m), [])
    | PWrIn v k => (Mem v (m_out m) (m_data m), k, [])
    | PWrOut v k => (Mem (m_in m) v (m_data m), k, [])
    | PRdD i k => match m_data m !! i with Some x => (m, k x, []) | None => (m, PPanic, []) end
    | PWrD i v k => if decide (i < length (m_data m))%nat then (Mem (m_in m) (m_out m) (<[i := v]> (m_data m)), k, []) else (m, PPanic, [])
    | PGot l k => (m, k, l)
    end.
  (** memory, producer, consumer, everything the consumer's caller received *)
  Record config := Cfg { c_mem : mem T; c_prod : P unit; c_cons : P unit; c_recv : list T }.
  (** [true]: the producer moves; a finished or panicked goroutine does not move *)
  Definition move (s : config) (b : bool) : config :=
    if b then let '(m, p, _) := act (c_mem s) (c_prod s) in Cfg m p (c_cons s) (c_recv s)
    else let '(m, p, l) := act (c_mem s) (c_cons s) in Cfg m (c_prod s) p (c_recv s ++ l).
  Definition exec (s : config) (sched : list bool) : config := foldl move s sched.
  Definition init (dv : T) (ps : list pcall) (cs : list ccall) : config :=
    Cfg (Mem 0 0 (make dv (Z.of_nat c))) (producer ps) (consumer cs) [].
End Spsc.
Arguments pcall : clear implicits.
Definition fix_ix (c : nat) (z : Z) : nat := Z.to_nat (z mod Z.of_nat c).
Definition round_ix (c : nat) (z : Z) : nat := Z.to_nat (Z.land z (Z.of_nat c - 1)).
