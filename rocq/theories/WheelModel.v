(** * Model of common/timer/timingwheel (bucket.go, delayqueue.go, timing_wheel.go)

    Granularity.  One step is: the add of one AfterFunc or ScheduleFunc call, or of one
    rescheduling task; one Stop; one element taken from the queue and sent to the channel; in the
    run loop the receive with [advance] and the locking of the bucket, and then, for each timer of
    the bucket, first clearing its pointer and then adding or starting it, and finally the
    unlocking.  So Stop and AfterFunc may come between any two moves of a flush.
    Simplifications: the add of one call is one step (a stale read of [currentTime], or another
    goroutine between [b.add] and [setExpiration], is not modelled); Stop is one step, at its last
    load of the bucket pointer; one goroutine runs Run; the queue's sleeping and wake-up is
    DelayQueueModel's and not repeated here: [take] may return when the head is due; the channel's
    capacity is not bounded; the clock is in milliseconds, as UnixMilli reads it, and does not go back. *)
From Verif Require Import GoBase HeapModel.
Local Open Scope Z_scope.

(** bucket.go:10-15; [tid] is the pointer, [b] is [wtb] below, [elem] is the position in the list *)
Record timer := Timer { tid : nat; texp : Z }.
(** bucket.go:35-39; the mutex is [locked] below *)
Record bucket := Bucket { bexp : Z; btimers : list timer }.
(** a bucket pointer: the level of its wheel and its index *)
Definition ref : Type := nat * Z.
(** timing_wheel.go:16-24 without what the levels share *)
Record level := Level { ltick : Z; linterval : Z; lcur : Z }.
(** the chain of overflow wheels, the buckets, the timers' bucket pointers, the queue's heap *)
Record wheel := Wheel { wsize : Z; wlevels : list level; wbk : ref → bucket; wtb : nat → option ref; wheap : list ref }.

(** bucket.go:63-68 *)
Definition new_bucket : bucket := Bucket (-1) [].
(** timing_wheel.go:191-193 *)
Definition truncate (time tick : Z) : go Z := if tick =? 0 then Panic PDivZero else Ret (i64 (time - Z.rem time tick)).
(** timing_wheel.go:26-39 *)
Definition new_level (tick size now : Z) : go level :=
  c ← truncate now tick; if size <? 0 then Panic PMake else Ret (Level tick (i64 (tick * size)) c).
(** timing_wheel.go:40-43; [now] is the clock reading *)
Definition new_wheel (tick size now : Z) : go wheel :=
  l ← new_level tick size now; Ret (Wheel size [l] (λ _, new_bucket) (λ _, None) []).

Definition fupd {K V} `{EqDecision K} (f : K → V) (k : K) (v : V) : K → V := λ x, if decide (x = k) then v else f x.
Definition set_bk (w : wheel) (r : ref) (b : bucket) : wheel := Wheel (wsize w) (wlevels w) (fupd (wbk w) r b) (wtb w) (wheap w).
Definition set_tb (w : wheel) (t : nat) (o : option ref) : wheel := Wheel (wsize w) (wlevels w) (wbk w) (fupd (wtb w) t o) (wheap w).
Definition set_levels (w : wheel) (ls : list level) : wheel := Wheel (wsize w) ls (wbk w) (wtb w) (wheap w).
Definition set_heap (w : wheel) (h : list ref) : wheel := Wheel (wsize w) (wlevels w) (wbk w) (wtb w) h.
(** delayqueue.go:25-27 *)
Definition sooner (bk : ref → bucket) (a b : ref) : bool := bexp (bk a) <? bexp (bk b).

(** bucket.go:41-48 *)
Definition bucket_add (w : wheel) (r : ref) (t : timer) : wheel :=
  set_tb (set_bk w r (Bucket (bexp (wbk w r)) (btimers (wbk w r) ++ [t]))) (tid t) (Some r).
(** bucket.go:97-99 *)
Definition set_expiration (w : wheel) (r : ref) (e : Z) : bool * wheel :=
  (negb (bexp (wbk w r) =? e), set_bk w r (Bucket e (btimers (wbk w r)))).
(** delayqueue.go:39-50 *)
Definition push (w : wheel) (r : ref) : go wheel := h ← gpush (sooner (wbk w)) 2 (wheap w) r; Ret (set_heap w h).
(** timing_wheel.go:121-146, on level [i]; [lk] is the bucket whose mutex is held, on which
    [b.add] blocks; recursion into the overflow wheels is bounded by [n] *)
Fixpoint add (n : nat) (lk : option ref) (w : wheel) (i : nat) (t : timer) : go (bool * wheel) :=
  match n with
  | O => Diverge
  | S n =>
    match wlevels w !! i with
    | None => Panic PNil
    | Some l =>
      if texp t <? i64 (lcur l + ltick l) then Ret (false, w)
      else if texp t <? i64 (lcur l + linterval l) then
        if ltick l =? 0 then Panic PDivZero else
        let ticks := Z.quot (texp t) (ltick l) in
        if wsize w =? 0 then Panic PDivZero else
        let j := Z.rem ticks (wsize w) in
        if negb ((0 <=? j) && (j <? wsize w)) then Panic PIndex else
        let r : ref := (i, j) in
        if decide (lk = Some r) then Diverge else
        let w := bucket_add w r t in
        let '(changed, w) := set_expiration w r (i64 (ticks * ltick l)) in
        w ← (if changed : bool then push w r else Ret w); Ret (true, w)
      else
        w ← (match wlevels w !! S i with
             | Some _ => Ret w
             | None => l' ← new_level (linterval l) (wsize w) (lcur l); Ret (set_levels w (wlevels w ++ [l']))
             end);
        add n lk w (S i) t
    end
  end.
(** timing_wheel.go:166-177, on the levels from here up *)
Fixpoint advance (ls : list level) (e : Z) : go (list level) :=
  match ls with
  | [] => Ret []
  | l :: ls' =>
    if i64 (lcur l + ltick l) <=? e then
      c ← truncate e (ltick l); r ← advance ls' c; Ret (Level (ltick l) (linterval l) c :: r)
    else Ret ls
  end.
(** bucket.go:17-25, 50-61: the timer is in an unlocked bucket, or in none *)
Definition stop (w : wheel) (t : nat) : bool * wheel :=
  match wtb w t with
  | None => (false, w)
  | Some r => (true, set_tb (set_bk w r (Bucket (bexp (wbk w r)) (filter (λ x, tid x ≠ t) (btimers (wbk w r))))) t None)
  end.

(** Run: waiting; flushing [b], with the timers still to come; with [t] taken out and not yet
    added or started; returned; nil pointer dereference *)
Inductive runner := RIdle | RFlush (b : ref) (rest : list timer) | RMoved (b : ref) (t : timer) (rest : list timer) | RExited | RCrashed.
(** a task started ([go t.task()]): timer, expiration, clock *)
Record start := Start { s_tid : nat; s_exp : Z; s_at : Z }.
Record sys := Sys {
  wh : wheel;
  clock : Z;
  chan : list ref;       (* taken from the queue, not yet received by Run *)
  closed : bool;         (* the channel *)
  cancelled : bool;      (* Run's context *)
  run : runner;
  entered : list (nat * Z * Z);  (* every timer submitted: timer, expiration, clock *)
  started : list start;
  dropped : list nat;    (* AfterFunc timers that were not added *)
  stopped : list nat;    (* timers whose Stop returned true *)
  periodic : list nat;   (* timers made by ScheduleFunc *)
  due : list nat;        (* started periodic timers whose task has not yet rescheduled itself *)
}.
Definition init (w : wheel) (now : Z) : sys := Sys w now [] false false RIdle [] [] [] [] [] [].

Definition locked (s : sys) : option ref := match run s with RFlush b _ | RMoved b _ _ => Some b | _ => None end.
Definition set_wh (s : sys) (w : wheel) : sys := Sys w (clock s) (chan s) (closed s) (cancelled s) (run s) (entered s) (started s) (dropped s) (stopped s) (periodic s) (due s).
Definition set_clock (s : sys) (n : Z) : sys := Sys (wh s) n (chan s) (closed s) (cancelled s) (run s) (entered s) (started s) (dropped s) (stopped s) (periodic s) (due s).
Definition set_chan (s : sys) (l : list ref) : sys := Sys (wh s) (clock s) l (closed s) (cancelled s) (run s) (entered s) (started s) (dropped s) (stopped s) (periodic s) (due s).
Definition set_closed (s : sys) : sys := Sys (wh s) (clock s) (chan s) true (cancelled s) (run s) (entered s) (started s) (dropped s) (stopped s) (periodic s) (due s).
Definition set_cancelled (s : sys) : sys := Sys (wh s) (clock s) (chan s) (closed s) true (run s) (entered s) (started s) (dropped s) (stopped s) (periodic s) (due s).
Definition set_run (s : sys) (r : runner) : sys := Sys (wh s) (clock s) (chan s) (closed s) (cancelled s) r (entered s) (started s) (dropped s) (stopped s) (periodic s) (due s).
Definition set_entered (s : sys) (t : timer) : sys := Sys (wh s) (clock s) (chan s) (closed s) (cancelled s) (run s) (entered s ++ [(tid t, texp t, clock s)]) (started s) (dropped s) (stopped s) (periodic s) (due s).
Definition set_dropped (s : sys) (t : nat) : sys := Sys (wh s) (clock s) (chan s) (closed s) (cancelled s) (run s) (entered s) (started s) (dropped s ++ [t]) (stopped s) (periodic s) (due s).
Definition set_stopped (s : sys) (t : nat) : sys := Sys (wh s) (clock s) (chan s) (closed s) (cancelled s) (run s) (entered s) (started s) (dropped s) (stopped s ++ [t]) (periodic s) (due s).
Definition set_periodic (s : sys) (t : nat) : sys := Sys (wh s) (clock s) (chan s) (closed s) (cancelled s) (run s) (entered s) (started s) (dropped s) (stopped s) (periodic s ++ [t]) (due s).
Definition set_due (s : sys) (l : list nat) : sys := Sys (wh s) (clock s) (chan s) (closed s) (cancelled s) (run s) (entered s) (started s) (dropped s) (stopped s) (periodic s) l.
(** timing_wheel.go:156 [go t.task()]; the task of a periodic timer begins by rescheduling itself *)
Definition do_start (s : sys) (t : timer) : sys :=
  Sys (wh s) (clock s) (chan s) (closed s) (cancelled s) (run s) (entered s) (started s ++ [Start (tid t) (texp t) (clock s)]) (dropped s) (stopped s) (periodic s)
    (if decide (tid t ∈ periodic s) then due s ++ [tid t] else due s).
(** timing_wheel.go:154-158 *)
Definition add_or_run (n : nat) (s : sys) (t : timer) : option sys :=
  match add n (locked s) (wh s) 0 t with
  | Ret (true, w) => Some (set_wh s w)
  | Ret (false, w) => Some (do_start (set_wh s w) t)
  | _ => None
  end.

Inductive event :=
| EvClock (n : Z)                (* time passes *)
| EvAfter (t : nat) (e : Z)      (* AfterFunc, with the expiration it computes *)
| EvSchedule (t : nat) (e : Z)   (* ScheduleFunc, with the first time the scheduler gives *)
| EvAgain (t : nat) (e : Z)      (* the task of a periodic timer, with the next time *)
| EvStop (t : nat) (r : bool)    (* Stop, with its result *)
| EvTake                         (* the queue's goroutine: take returns the head, which is sent *)
| EvRecv                         (* Run receives a bucket *)
| EvMove | EvPut | EvEnd         (* Run flushes it *)
| EvCancel                       (* Run's context *)
| EvClose                        (* take returns nil, the channel is closed *)
| EvExit                         (* Run returns *)
| EvNil.                         (* Run receives nil from the closed channel *)
Definition used (s : sys) (t : nat) : bool := bool_decide (t ∈ (entered s).*1.*1).

Definition next (n : nat) (s : sys) (v : event) : option sys :=
  match v with
  | EvClock c => if decide (clock s ≤ c) then Some (set_clock s c) else None
  (* timing_wheel.go:76-83 *)
  | EvAfter t e =>
    if used s t then None else
    let s := set_entered s (Timer t e) in
    match add n (locked s) (wh s) 0 (Timer t e) with
    | Ret (true, w) => Some (set_wh s w)
    | Ret (false, w) => Some (set_dropped (set_wh s w) t)
    | _ => None
    end
  (* timing_wheel.go:91-98, 110 *)
  | EvSchedule t e => if used s t then None else add_or_run n (set_periodic (set_entered s (Timer t e)) t) (Timer t e)
  (* timing_wheel.go:99-104 *)
  | EvAgain t e =>
    if decide (t ∈ due s) then add_or_run n (set_entered (set_due s (filter (λ x, x ≠ t) (due s))) (Timer t e)) (Timer t e) else None
  | EvStop t r =>
    if decide (wtb (wh s) t ≠ None ∧ wtb (wh s) t = locked s) then None else
    let '(b, w) := stop (wh s) t in
    if decide (b = r) then Some (if b : bool then set_stopped (set_wh s w) t else s) else None
  (* delayqueue.go:65-74, 117-124 *)
  | EvTake =>
    if closed s then None else
    match wheap (wh s) with
    | [] => None
    | h :: _ =>
      if bexp (wbk (wh s) h) <? clock s then
        match gpop (hdown (sooner (wbk (wh s)))) (wheap (wh s)) with Ret (b, hp) => Some (set_chan (set_wh s (set_heap (wh s) hp)) (chan s ++ [b])) | _ => None end
      else None
    end
  (* timing_wheel.go:57-61, bucket.go:71-75 *)
  | EvRecv =>
    match run s, chan s with
    | RIdle, b :: q =>
      match advance (wlevels (wh s)) (bexp (wbk (wh s) b)) with
      | Ret ls => Some (set_run (set_chan (set_wh s (set_levels (wh s) ls)) q) (RFlush b (btimers (wbk (wh s) b))))
      | _ => None
      end
    | _, _ => None
    end
  (* bucket.go:76-81 *)
  | EvMove =>
    match run s with
    | RFlush b (t :: rest) => Some (set_run (set_wh s (if decide (wtb (wh s) (tid t) = Some b) then set_tb (wh s) (tid t) None else wh s)) (RMoved b t rest))
    | _ => None
    end
  (* bucket.go:82 *)
  | EvPut => match run s with RMoved b t rest => match add_or_run n s t with Some s => Some (set_run s (RFlush b rest)) | None => None end | _ => None end
  (* bucket.go:86-88 *)
  | EvEnd => match run s with RFlush b [] => Some (set_run (set_wh s (set_bk (wh s) b new_bucket)) RIdle) | _ => None end
  | EvCancel => Some (set_cancelled s)
  (* delayqueue.go:92-94, 99-100, 118-122 *)
  | EvClose => if cancelled s then Some (set_closed s) else None
  (* timing_wheel.go:62-63 *)
  | EvExit => match run s with RIdle => if cancelled s then Some (set_run s RExited) else None | _ => None end
  (* timing_wheel.go:57-59: [b] is nil and [b.expiration] panics *)
  | EvNil => match run s, chan s with RIdle, [] => if closed s then Some (set_run s RCrashed) else None | _, _ => None end
  end.

(** an execution; [ok] restricts the steps taken *)
Inductive steps (ok : sys → event → Prop) : sys → list event → sys → Prop :=
| steps_nil s : steps ok s [] s
| steps_snoc s0 l s n v s' : steps ok s0 l s → ok s v → next n s v = Some s' → steps ok s0 (l ++ [v]) s'.

(** delayqueue.go:65-77: one look of [take] at the head of the queue, which expires at [e]; the wait
    is the duration given to [time.NewTimer], in nanoseconds *)
Definition take_wait (now e : Z) : Z := i64 (i64 (now - e) * 1000000).
(** the goroutine in [take] with that head: clock in nanoseconds, looks so far, the time at which
    the timer it waits for fires ([time.NewTimer d] fires at once for [d <= 0]) *)
Record taker := Taker { k_clock : Z; k_looks : nat; k_fires : option Z }.
Inductive tick_event := KLook | KFire | KTime (ns : Z).
Definition take_next (e : Z) (k : taker) (v : tick_event) : option taker :=
  match v, k_fires k with
  | KLook, None => let now := k_clock k / 1000000 in
    if e <? now then None else Some (Taker (k_clock k) (S (k_looks k)) (Some (k_clock k + Z.max 0 (take_wait now e))))
  (* delayqueue.go:87-91 *)
  | KFire, Some f => if f <=? k_clock k then Some (Taker (k_clock k) (k_looks k) None) else None
  | KTime ns, _ => if decide (0 ≤ ns) then Some (Taker (k_clock k + ns) (k_looks k) (k_fires k)) else None
  | _, _ => None
  end.
Fixpoint take_run (e : Z) (k : taker) (l : list tick_event) : option taker :=
  match l with [] => Some k | v :: l => match take_next e k v with Some k' => take_run e k' l | None => None end end.
