(** * Model of common/container/list/list.go, deque/deque.go and stack/stack.go *)
From stdpp Require Import gmap.
From Verif Require Export GoState.

(** Pointers to Element[T]: [inl l] is &l.root of list number l, [inr e] is
    the e-th allocated element.  Go nil is [None]. *)
Notation ptr := (nat + nat)%type.

Section List.
  Context {T : Type}.

  (** list.go:15-28 and 48-51, one array per field; a missing map entry is nil.
      [lvals !! e] is the Value of element e, [llens !! l] the len field of list l
      (a list number is valid iff below [length llens]).  The Value and list
      fields of a root element are never used. *)
  Record lmem := LMem {
    lnx : gmap ptr ptr; lpv : gmap ptr ptr; lown : gmap nat nat;
    lvals : list T; llens : list Z }.

  Notation LM := (gst lmem).

  Definition lderef (o : option ptr) : LM ptr :=
    match o with Some p => gret p | None => gpanic PNil end.
  Definition get_next (p : ptr) : LM (option ptr) := gread (λ s, lnx s !! p).
  Definition get_prev (p : ptr) : LM (option ptr) := gread (λ s, lpv s !! p).
  Definition set_next (p : ptr) (o : option ptr) : LM unit :=
    gwrite (λ s, LMem (partial_alter (λ _, o) p (lnx s)) (lpv s) (lown s) (lvals s) (llens s)).
  Definition set_prev (p : ptr) (o : option ptr) : LM unit :=
    gwrite (λ s, LMem (lnx s) (partial_alter (λ _, o) p (lpv s)) (lown s) (lvals s) (llens s)).
  Definition set_own (e : nat) (o : option nat) : LM unit :=
    gwrite (λ s, LMem (lnx s) (lpv s) (partial_alter (λ _, o) e (lown s)) (lvals s) (llens s)).
  Definition get_own (e : nat) : LM (option nat) := gread (λ s, lown s !! e).
  (** A method on a list or element that was never allocated cannot be written
      in Go; the model answers with a nil panic. *)
  Definition get_len (l : nat) : LM Z :=
    glift (λ s, match llens s !! l with Some n => Ret n | None => Panic PNil end).
  Definition set_len (l : nat) (n : Z) : LM unit :=
    gwrite (λ s, LMem (lnx s) (lpv s) (lown s) (lvals s) (<[l:=n]> (llens s))).
  Definition get_val (e : nat) : LM T :=
    glift (λ s, match lvals s !! e with Some v => Ret v | None => Panic PNil end).
  Definition alloc (v : T) : LM nat :=
    λ s, (Ret (length (lvals s)), LMem (lnx s) (lpv s) (lown s) (lvals s ++ [v]) (llens s)).

  (** list.go:31-36 *)
  Definition el_next (e : nat) : LM (option ptr) :=
    p ⇠ get_next (inr e); o ⇠ get_own e;
    match o with
    | Some l => if decide (p = Some (inl l)) then gret None else gret p
    | None => gret None
    end.
  (** list.go:39-44 *)
  Definition el_prev (e : nat) : LM (option ptr) :=
    p ⇠ get_prev (inr e); o ⇠ get_own e;
    match o with
    | Some l => if decide (p = Some (inl l)) then gret None else gret p
    | None => gret None
    end.

  (** list.go:54-59 *)
  Definition lclear (l : nat) : LM unit :=
    set_next (inl l) (Some (inl l));; set_prev (inl l) (Some (inl l));; set_len l 0.
  (** a zero List value: [var l List] *)
  Definition lzero : LM nat :=
    λ s, (Ret (length (llens s)), LMem (lnx s) (lpv s) (lown s) (lvals s) (llens s ++ [0%Z])).
  (** list.go:62 *)
  Definition lnew : LM nat := l ⇠ lzero; lclear l;; gret l.
  (** list.go:66 *)
  Definition llen (l : nat) : LM Z := get_len l.
  (** list.go:69-74 *)
  Definition lfront (l : nat) : LM (option ptr) :=
    n ⇠ get_len l; if decide (n = 0%Z) then gret None else get_next (inl l).
  (** list.go:77-82 *)
  Definition lback (l : nat) : LM (option ptr) :=
    n ⇠ get_len l; if decide (n = 0%Z) then gret None else get_prev (inl l).

  (** list.go:86-89 = 118-121: link e after at *)
  Definition link (e : nat) (at_ : option ptr) : LM unit :=
    set_prev (inr e) at_;;
    a ⇠ lderef at_; an ⇠ get_next a; set_next (inr e) an;;
    ep ⇠ get_prev (inr e); p ⇠ lderef ep; set_next p (Some (inr e));;
    en ⇠ get_next (inr e); q ⇠ lderef en; set_prev q (Some (inr e)).
  (** list.go:102-103 = 115-116: unlink e *)
  Definition unlink (e : nat) : LM unit :=
    ep ⇠ get_prev (inr e); en ⇠ get_next (inr e);
    p ⇠ lderef ep; set_next p en;;
    en' ⇠ get_next (inr e); ep' ⇠ get_prev (inr e);
    q ⇠ lderef en'; set_prev q ep'.

  (** list.go:85-93 *)
  Definition linsert (l e : nat) (at_ : option ptr) : LM nat :=
    link e at_;; set_own e (Some l);; n ⇠ get_len l; set_len l (n + 1);; gret e.
  (** list.go:96-98 *)
  Definition linsert_value (l : nat) (v : T) (at_ : option ptr) : LM nat :=
    e ⇠ alloc v; linsert l e at_.
  (** list.go:101-108 *)
  Definition lremove_ (l e : nat) : LM unit :=
    unlink e;; set_next (inr e) None;; set_prev (inr e) None;; set_own e None;;
    n ⇠ get_len l; set_len l (n - 1).
  (** list.go:111-122 *)
  Definition lmove (e : nat) (at_ : option ptr) : LM unit :=
    if decide (at_ = Some (inr e)) then gret tt else unlink e;; link e at_.
  (** list.go:127-134 *)
  Definition lremove (l e : nat) : LM T :=
    o ⇠ get_own e; (if decide (o = Some l) then lremove_ l e else gret tt);; get_val e.
  (** Remove(p) for the pointer returned by Front/Back: nil panics on e.list.
      A root pointer cannot occur here (its list field is nil, Value is the
      zero value); modelled as a nil panic. *)
  Definition lremove_ptr (l : nat) (o : option ptr) : LM T :=
    match o with Some (inr e) => lremove l e | _ => gpanic PNil end.
  (** list.go:137-144 *)
  Definition lremove_front (l : nat) : LM T := o ⇠ lfront l; lremove_ptr l o.
  Definition lremove_back (l : nat) : LM T := o ⇠ lback l; lremove_ptr l o.
  (** list.go:147-154 *)
  Definition lpush_front (l : nat) (v : T) : LM nat := linsert_value l v (Some (inl l)).
  Definition lpush_back (l : nat) (v : T) : LM nat := p ⇠ get_prev (inl l); linsert_value l v p.
  (** list.go:159-165 *)
  Definition linsert_before (l : nat) (v : T) (mark : nat) : LM (option nat) :=
    o ⇠ get_own mark;
    if decide (o = Some l)
    then p ⇠ get_prev (inr mark); e ⇠ linsert_value l v p; gret (Some e)
    else gret None.
  (** list.go:170-176 *)
  Definition linsert_after (l : nat) (v : T) (mark : nat) : LM (option nat) :=
    o ⇠ get_own mark;
    if decide (o = Some l)
    then e ⇠ linsert_value l v (Some (inr mark)); gret (Some e)
    else gret None.
  (** list.go:181-187 *)
  Definition lmove_front (l e : nat) : LM unit :=
    o ⇠ get_own e; f ⇠ get_next (inl l);
    if decide (o = Some l ∧ f ≠ Some (inr e)) then lmove e (Some (inl l)) else gret tt.
  (** list.go:192-198 *)
  Definition lmove_back (l e : nat) : LM unit :=
    o ⇠ get_own e; b ⇠ get_prev (inl l);
    if decide (o = Some l ∧ b ≠ Some (inr e)) then lmove e b else gret tt.
  (** list.go:203-208 *)
  Definition lmove_before (l e mark : nat) : LM unit :=
    o ⇠ get_own e; m ⇠ get_own mark;
    if decide (o = Some l ∧ e ≠ mark ∧ m = Some l)
    then p ⇠ get_prev (inr mark); lmove e p else gret tt.
  (** list.go:213-218 *)
  Definition lmove_after (l e mark : nat) : LM unit :=
    o ⇠ get_own e; m ⇠ get_own mark;
    if decide (o = Some l ∧ e ≠ mark ∧ m = Some l)
    then lmove e (Some (inr mark)) else gret tt.

  (** list.go:223-225: [i] iterations left, current pointer [e]; the pointer is
      dereferenced (e.Value, then e.Next()) *)
  Fixpoint lpush_back_loop (i : nat) (l : nat) (e : option ptr) : LM unit :=
    match i with
    | O => gret tt
    | S i' => match e with
              | Some (inr e) =>
                  v ⇠ get_val e; p ⇠ get_prev (inl l); _x ⇠ linsert_value l v p;
                  e' ⇠ el_next e; lpush_back_loop i' l e'
              | _ => gpanic PNil
              end
    end.
  (** list.go:222-226 *)
  Definition lpush_back_list (l other : nat) : LM unit :=
    n ⇠ get_len other; e ⇠ lfront other; lpush_back_loop (Z.to_nat n) l e.
  (** list.go:231-233 *)
  Fixpoint lpush_front_loop (i : nat) (l : nat) (e : option ptr) : LM unit :=
    match i with
    | O => gret tt
    | S i' => match e with
              | Some (inr e) =>
                  v ⇠ get_val e; _x ⇠ linsert_value l v (Some (inl l));
                  e' ⇠ el_prev e; lpush_front_loop i' l e'
              | _ => gpanic PNil
              end
    end.
  (** list.go:230-234 *)
  Definition lpush_front_list (l other : nat) : LM unit :=
    n ⇠ get_len other; e ⇠ lback other; lpush_front_loop (Z.to_nat n) l e.
  (** list.go:237-239 *)
  Definition lempty (l : nat) : LM bool := n ⇠ get_len l; gret (bool_decide (n = 0%Z)).
  (** The exported field Value: read and assignment by the caller. *)
  Definition set_val (e : nat) (v : T) : LM unit :=
    gwrite (λ s, LMem (lnx s) (lpv s) (lown s) (<[e:=v]> (lvals s)) (llens s)).

  Inductive lop :=
    | LNew | LZero | LClear (l : nat) | LPushFront (l : nat) (v : T) | LPushBack (l : nat) (v : T)
    | LInsBefore (l : nat) (v : T) (m : nat) | LInsAfter (l : nat) (v : T) (m : nat)
    | LRemove (l e : nat) | LRemoveFront (l : nat) | LRemoveBack (l : nat)
    | LMoveFront (l e : nat) | LMoveBack (l e : nat) | LMoveBefore (l e m : nat) | LMoveAfter (l e m : nat)
    | LPushBackList (l o : nat) | LPushFrontList (l o : nat)
    | LFront (l : nat) | LBack (l : nat) | LNext (e : nat) | LPrev (e : nat)
    | LLen (l : nat) | LEmpty (l : nat) | LVal (e : nat) | LSetVal (e : nat) (v : T).
  Inductive lout := LUnit | LList (l : nat) | LElem (o : option ptr) | LValue (v : T) | LInt (n : Z)
    | LBool (b : bool) | LPanic | LDiverge.

  Definition lfin {A} (f : A → lout) (r : go A * lmem) : lout * lmem :=
    match r with
    | (Ret a, s) => (f a, s) | (Panic _, s) => (LPanic, s) | (Diverge, s) => (LDiverge, s)
    end.
  Definition as_elem (e : nat) : lout := LElem (Some (inr e)).
  Definition lstep (s : lmem) (o : lop) : lout * lmem :=
    match o with
    | LNew => lfin LList (lnew s)
    | LZero => lfin LList (lzero s)
    | LClear l => lfin (λ _, LUnit) (lclear l s)
    | LPushFront l v => lfin as_elem (lpush_front l v s)
    | LPushBack l v => lfin as_elem (lpush_back l v s)
    | LInsBefore l v m => lfin (λ o, LElem (inr <$> o)) (linsert_before l v m s)
    | LInsAfter l v m => lfin (λ o, LElem (inr <$> o)) (linsert_after l v m s)
    | LRemove l e => lfin LValue (lremove l e s)
    | LRemoveFront l => lfin LValue (lremove_front l s)
    | LRemoveBack l => lfin LValue (lremove_back l s)
    | LMoveFront l e => lfin (λ _, LUnit) (lmove_front l e s)
    | LMoveBack l e => lfin (λ _, LUnit) (lmove_back l e s)
    | LMoveBefore l e m => lfin (λ _, LUnit) (lmove_before l e m s)
    | LMoveAfter l e m => lfin (λ _, LUnit) (lmove_after l e m s)
    | LPushBackList l o => lfin (λ _, LUnit) (lpush_back_list l o s)
    | LPushFrontList l o => lfin (λ _, LUnit) (lpush_front_list l o s)
    | LFront l => lfin LElem (lfront l s)
    | LBack l => lfin LElem (lback l s)
    | LNext e => lfin LElem (el_next e s)
    | LPrev e => lfin LElem (el_prev e s)
    | LLen l => lfin LInt (llen l s)
    | LEmpty l => lfin LBool (lempty l s)
    | LVal e => lfin LValue (get_val e s)
    | LSetVal e v => lfin (λ _, LUnit) (set_val e v s)
    end.
  Fixpoint lrun (s : lmem) (ops : list lop) : list lout * lmem :=
    match ops with
    | [] => ([], s)
    | o :: os => let '(r, s1) := lstep s o in
                 let '(rs, s2) := lrun s1 os in (r :: rs, s2)
    end.
  Definition lmem0 : lmem := LMem ∅ ∅ ∅ [] [].

  (** ** deque.go:9-41 (list number l belongs to the deque) *)
  Definition dq_new := lnew.
  Definition dq_push_front (l : nat) (v : T) : LM unit := _x ⇠ lpush_front l v; gret tt.
  Definition dq_push_back (l : nat) (v : T) : LM unit := _x ⇠ lpush_back l v; gret tt.
  Definition dq_pop_front (l : nat) : LM T := lremove_front l.
  Definition dq_pop_back (l : nat) : LM T := lremove_back l.
  Definition dq_len (l : nat) : LM Z := llen l.
  Definition dq_empty (l : nat) : LM bool := lempty l.

  (** ** stack.go:9-36 *)
  Definition st_new := lnew.
  Definition st_push (l : nat) (v : T) : LM unit := _x ⇠ lpush_back l v; gret tt.
  Definition st_pop (l : nat) : LM T := lremove_back l.
  (** stack.go:24-26: Back() is nil on the empty stack *)
  Definition st_peek (l : nat) : LM T :=
    o ⇠ lback l; match o with Some (inr e) => get_val e | _ => gpanic PNil end.
  Definition st_len (l : nat) : LM Z := llen l.
  Definition st_empty (l : nat) : LM bool := lempty l.
End List.
Arguments lmem : clear implicits.
Arguments lop : clear implicits.
Arguments lout : clear implicits.

(** Calls on any number of deques (list numbers) sharing one memory. *)
Inductive dop (T : Type) := DNew | DPushFront (d : nat) (v : T) | DPushBack (d : nat) (v : T)
  | DPopFront (d : nat) | DPopBack (d : nat) | DLen (d : nat) | DEmpty (d : nat).
Arguments DNew {_}. Arguments DPushFront {_} _ _. Arguments DPushBack {_} _ _.
Arguments DPopFront {_} _. Arguments DPopBack {_} _. Arguments DLen {_} _. Arguments DEmpty {_} _.
Inductive sop (T : Type) := SNew | SPush (d : nat) (v : T) | SPop (d : nat) | SPeek (d : nat) | SLen (d : nat) | SEmpty (d : nat).
Arguments SNew {_}. Arguments SPush {_} _ _. Arguments SPop {_} _. Arguments SPeek {_} _.
Arguments SLen {_} _. Arguments SEmpty {_} _.

Section Steps.
  Context {T : Type}.
  Definition dstep (s : lmem T) (o : dop T) : lout T * lmem T :=
    match o with
    | DNew => lfin LList (dq_new s)
    | DPushFront d v => lfin (λ _, LUnit) (dq_push_front d v s)
    | DPushBack d v => lfin (λ _, LUnit) (dq_push_back d v s)
    | DPopFront d => lfin LValue (dq_pop_front d s)
    | DPopBack d => lfin LValue (dq_pop_back d s)
    | DLen d => lfin LInt (dq_len d s)
    | DEmpty d => lfin LBool (dq_empty d s)
    end.
  Definition sstep (s : lmem T) (o : sop T) : lout T * lmem T :=
    match o with
    | SNew => lfin LList (st_new s)
    | SPush d v => lfin (λ _, LUnit) (st_push d v s)
    | SPop d => lfin LValue (st_pop d s)
    | SPeek d => lfin LValue (st_peek d s)
    | SLen d => lfin LInt (st_len d s)
    | SEmpty d => lfin LBool (st_empty d s)
    end.
  Fixpoint steps {O : Type} (f : lmem T → O → lout T * lmem T) (s : lmem T) (ops : list O) : list (lout T) * lmem T :=
    match ops with
    | [] => ([], s)
    | o :: os => let '(r, s1) := f s o in let '(rs, s2) := steps f s1 os in (r :: rs, s2)
    end.
End Steps.
