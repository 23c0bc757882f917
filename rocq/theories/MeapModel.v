(** * Model of common/container/meap/maep.go *)
From stdpp Require Import gmap.
From Verif Require Import GoBase HeapModel.

Section Meap.
  Context {K V : Type} `{Countable K} (lf : K * V → K * V → bool).

  (** maep.go:3-19.  Keys are compared by Leibniz equality, so Go key types
      with a value that is not equal to itself (floats holding NaN) are outside
      the model. *)
  Record meap := Meap { mh : list (K * V); mm : gmap K nat }.

  (** maep.go:21-26 *)
  Definition meap_new : meap := Meap [] ∅.

  (** maep.go:141-143 *)
  Definition mless (s : meap) (i j : nat) : go bool :=
    x ← idx (mh s) i; y ← idx (mh s) j; Ret (lf x y).

  (** maep.go:147-151: swap the entries, then store both new indices, in order. *)
  Definition mswap (s : meap) (i j : nat) : go meap :=
    y ← idx (mh s) j; x ← idx (mh s) i;
    let h := <[j:=x]> (<[i:=y]> (mh s)) in
    ei ← idx h i;
    let m1 := <[ei.1 := i]> (mm s) in
    ej ← idx h j;
    let m2 := <[ej.1 := j]> m1 in
    Ret (Meap h m2).

  (** maep.go:110-119 and 121-139, see HeapModel for the loops *)
  Definition mup (s : meap) (j : nat) : go meap := up mless mswap 2 (S j) s j.
  Definition mdown (s : meap) (i n : nat) : go (meap * bool) :=
    r ← down2 mless mswap (S n) s i n; Ret (r.1, bool_decide (i < r.2)).

  (** maep.go:154-160 *)
  Definition mpush_ (s : meap) (k : K) (v : V) : meap :=
    Meap (mh s ++ [(k, v)]) (<[k := length (mh s)]> (mm s)).
  (** maep.go:163-168 *)
  Definition mpop_ (s : meap) : go ((K * V) * meap) :=
    e ← idx (mh s) (length (mh s) - 1);
    Ret (e, Meap (take (length (mh s) - 1) (mh s)) (delete e.1 (mm s))).
  (** maep.go:104-108 *)
  Definition mfix (s : meap) (i : nat) : go meap :=
    r ← mdown s i (length (mh s)); if (r.2 : bool) then Ret r.1 else mup r.1 i.

  (** maep.go:95-98 *)
  Definition meap_contains (s : meap) (k : K) : bool := bool_decide (is_Some (mm s !! k)).
  (** maep.go:29-34 *)
  Definition meap_pop (s : meap) : go ((K * V) * meap) :=
    let n := length (mh s) - 1 in
    s1 ← mswap s 0 n; r ← mdown s1 0 n; mpop_ r.1.
  (** maep.go:37-39 *)
  Definition meap_peek (s : meap) : go (K * V) := idx (mh s) 0.
  (** maep.go:42-49; [None] is "zero value, false" *)
  Definition meap_get (s : meap) (k : K) : go (option V) :=
    match mm s !! k with
    | None => Ret None
    | Some i => e ← idx (mh s) i; Ret (Some e.2)
    end.
  (** maep.go:52-65.  Line 56 reads h.m[key] of a present key; line 57 writes
      only the Value field of the entry. *)
  Definition meap_push (s : meap) (k : K) (v : V) : go meap :=
    if meap_contains s k then
      let i := default 0 (mm s !! k) in
      e ← idx (mh s) i;
      mfix (Meap (<[i := (e.1, v)]> (mh s)) (mm s)) i
    else
      let s1 := mpush_ s k v in mup s1 (length (mh s1) - 1).
  (** maep.go:68-75 *)
  Definition meap_len (s : meap) : nat := length (mh s).
  Definition meap_empty (s : meap) : bool := bool_decide (meap_len s = 0).
  (** maep.go:78-92 *)
  Definition meap_remove (s : meap) (k : K) : go meap :=
    match mm s !! k with
    | None => Ret s
    | Some i =>
        let n := length (mh s) - 1 in
        s1 ← (if decide (n = i) then Ret s
              else s1 ← mswap s i n;
                   r ← mdown s1 i n;
                   if (r.2 : bool) then Ret r.1 else mup r.1 i);
        r ← mpop_ s1; Ret r.2
    end.

  Inductive mop := MPush (k : K) (v : V) | MPop | MPeek | MGet (k : K)
    | MContains (k : K) | MRemove (k : K) | MLen | MEmpty.
  Inductive mout := MUnit | MEntry (k : K) (v : V) | MOpt (o : option V)
    | MBool (b : bool) | MNat (n : nat) | MPanic | MDiverge.

  (** A panicking call changes nothing (the first index expression fails). *)
  Definition mfin {A} (s : meap) (m : go A) (f : A → mout * meap) : mout * meap :=
    match m with Ret a => f a | Panic _ => (MPanic, s) | Diverge => (MDiverge, s) end.
  Definition meap_step (s : meap) (o : mop) : mout * meap :=
    match o with
    | MPush k v => mfin s (meap_push s k v) (λ s', (MUnit, s'))
    | MPop => mfin s (meap_pop s) (λ r, (MEntry r.1.1 r.1.2, r.2))
    | MPeek => mfin s (meap_peek s) (λ e, (MEntry e.1 e.2, s))
    | MGet k => mfin s (meap_get s k) (λ o, (MOpt o, s))
    | MContains k => (MBool (meap_contains s k), s)
    | MRemove k => mfin s (meap_remove s k) (λ s', (MUnit, s'))
    | MLen => (MNat (meap_len s), s)
    | MEmpty => (MBool (meap_empty s), s)
    end.
  Fixpoint meap_run (s : meap) (ops : list mop) : list mout * meap :=
    match ops with
    | [] => ([], s)
    | o :: os => let '(r, s1) := meap_step s o in
                 let '(rs, s2) := meap_run s1 os in (r :: rs, s2)
    end.
End Meap.
Arguments meap _ _ {_ _}.
Arguments mop : clear implicits.
Arguments mout : clear implicits.
