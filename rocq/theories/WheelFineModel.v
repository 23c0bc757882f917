(** * Model of common/timer/timingwheel, one shared access at a time

    WheelModel takes the add of a timer as one step.  Here every goroutine moves one atomic
    access, one mutex operation, one channel operation or one access to a mutex-protected list or
    heap at a time, and any other may run in between.  Any number of goroutines call AfterFunc,
    ScheduleFunc, Stop and Run; every Run has its own channel and queue goroutine.
    Simplifications: the comparisons inside one heap call read the expirations at one moment;
    [bucket.add] and [bucket.remove] are one step under the bucket's mutex; the expiration of a
    periodic timer is passed along with the timer instead of being stored in it (only the task that
    reschedules it writes it); a panic ends the program ([crashed]); the clock is in milliseconds and does not go back. *)
From stdpp Require Import relations.
From Verif Require Import GoBase HeapModel WheelModel.
Local Open Scope Z_scope.

(** what a goroutine does with the result of [add]: AfterFunc drops it (82), [addOrRun] called by
    ScheduleFunc or a task, [addOrRun] called by the flush of [b], which still has [rest] to do and
    serves the Run whose queue goroutine is [v] *)
Inductive cont := KAfter | KRun | KFlush (v : nat) (b : ref) (rest : list timer).

Inductive pc :=
| Idle
(* add, timing_wheel.go:121-146; level [i], timer [t] *)
| ALoad (i : nat) (t : timer) (k : cont)             (* 122-130 *)
| AOver (i : nat) (c : Z) (t : timer) (k : cont)     (* 140-141; [c] is currentTime as loaded *)
| ANew (i : nat) (c : Z) (t : timer) (k : cont)      (* 142, 179-182 *)
| ALock (r : ref) (e : Z) (t : timer) (k : cont)     (* bucket.go:42 *)
| AIns (r : ref) (e : Z) (t : timer) (k : cont)      (* bucket.go:45-47 *)
| AUnl (r : ref) (e : Z) (t : timer) (k : cont)      (* bucket.go:44 *)
| ASwap (r : ref) (e : Z) (t : timer) (k : cont)     (* timing_wheel.go:135, bucket.go:98 *)
| QLock (r : ref) (t : timer) (k : cont)             (* delayqueue.go:40 *)
| QPush (r : ref) (t : timer) (k : cont)             (* delayqueue.go:43 *)
| QPeek (r : ref) (t : timer) (k : cont)             (* delayqueue.go:45 *)
| QCas (t : timer) (k : cont)                        (* delayqueue.go:46 *)
| QSend (t : timer) (k : cont)                       (* delayqueue.go:47 *)
| QUnl (t : timer) (k : cont)                        (* delayqueue.go:42 *)
| ARet (b : bool) (t : timer) (k : cont)
(* Stop, bucket.go:17-25; the variable [stop] *)
| SLoad (t : nat) (stop : bool)                      (* 20 *)
| SLock (r : ref) (t : nat)                          (* 51 *)
| SIn (r : ref) (t : nat)                            (* 53-60 *)
| SUnl (r : ref) (t : nat) (res : bool)              (* 52 *)
(* Run, timing_wheel.go:51-66; [v] is its queue goroutine *)
| RSelect (v : nat)                                  (* 56 *)
| RGot (v : nat) (b : ref)                           (* 59 *)
| RAdv (v : nat) (b : ref) (i : nat) (e : Z)         (* 167-168, 172 *)
| RStore (v : nat) (b : ref) (i : nat) (e : Z)       (* 169-170 *)
| RLock (v : nat) (b : ref)                          (* bucket.go:72 *)
| RScan (v : nat) (b : ref) (rest : list timer)      (* bucket.go:75-82, 87 *)
| RClear (v : nat) (b : ref)                         (* bucket.go:88, 73 *)
(* the queue goroutine, delayqueue.go:60-103, 115-126 *)
| TLock                                              (* 63 *)
| THead                                              (* 65-67 *)
| TExp (b : ref)                                     (* 68 *)
| TNow (b : ref) (e : Z)                             (* 69-70 *)
| TPop (b : ref)                                     (* 71 *)
| TFound (b : ref)                                   (* 72-73 *)
| TSleep (dl : option Z)                             (* 79; dl: when the timer of 76 fires, in ns *)
| TUnl (dl : option Z)                               (* 80 *)
| TWait (dl : option Z)                              (* 84-101 *)
| TSwap                                              (* 88 *)
| TRecv                                              (* 90 *)
| TSend (b : ref)                                    (* 123 *)
| TClose                                             (* 120 *)
| TEnd.

(** what the wheels share: the chain of wheels, the buckets, their mutexes, the timers' bucket pointers *)
Record mem := Mem { levels : list level; bk : ref → bucket; bmu : ref → option nat; tb : nat → option ref }.
(** delayqueue.go:11-16 *)
Record queue := Queue { heap : list ref; qmu : option nat; sleeping : bool }.
(** the output channel of each queue goroutine: content, closed, its context cancelled *)
Record chans := Chans { outq : nat → list ref; closed : nat → bool; cancelled : nat → bool }.
(** records: every timer submitted, every task started, AfterFunc timers not added, timers removed
    by Stop, timers made by ScheduleFunc, started periodic timers whose task has not yet
    rescheduled itself, the results of Stop *)
Record ghost := Ghost { entered : list nat; started : list nat; dropped : list nat; stopped : list nat;
                        periodic : list nat; due : list nat; rets : list (nat * bool) }.
Record cfg := Cfg { size : Z; mm : mem; qq : queue; cc : chans; clock : Z; th : nat → pc; gh : ghost; crashed : bool }.

(** timing_wheel.go:40-43 *)
Definition init (l : level) (n now : Z) : cfg :=
  Cfg n (Mem [l] (λ _, new_bucket) (λ _, None) (λ _, None)) (Queue [] None false) (Chans (λ _, []) (λ _, false) (λ _, false))
    now (λ _, Idle) (Ghost [] [] [] [] [] [] []) false.

Definition goto (c : cfg) (u : nat) (p : pc) : cfg := Cfg (size c) (mm c) (qq c) (cc c) (clock c) (fupd (th c) u p) (gh c) (crashed c).
Definition crash (c : cfg) : cfg := Cfg (size c) (mm c) (qq c) (cc c) (clock c) (th c) (gh c) true.
Definition set_mm (c : cfg) (m : mem) : cfg := Cfg (size c) m (qq c) (cc c) (clock c) (th c) (gh c) (crashed c).
Definition set_qq (c : cfg) (q : queue) : cfg := Cfg (size c) (mm c) q (cc c) (clock c) (th c) (gh c) (crashed c).
Definition set_cc (c : cfg) (x : chans) : cfg := Cfg (size c) (mm c) (qq c) x (clock c) (th c) (gh c) (crashed c).
Definition set_gh (c : cfg) (g : ghost) : cfg := Cfg (size c) (mm c) (qq c) (cc c) (clock c) (th c) g (crashed c).
Definition set_levels (c : cfg) (l : list level) : cfg := set_mm c (Mem l (bk (mm c)) (bmu (mm c)) (tb (mm c))).
Definition set_bk (c : cfg) (r : ref) (b : bucket) : cfg := set_mm c (Mem (levels (mm c)) (fupd (bk (mm c)) r b) (bmu (mm c)) (tb (mm c))).
Definition set_bmu (c : cfg) (r : ref) (o : option nat) : cfg := set_mm c (Mem (levels (mm c)) (bk (mm c)) (fupd (bmu (mm c)) r o) (tb (mm c))).
Definition set_tb (c : cfg) (t : nat) (o : option ref) : cfg := set_mm c (Mem (levels (mm c)) (bk (mm c)) (bmu (mm c)) (fupd (tb (mm c)) t o)).
Definition set_heap (c : cfg) (h : list ref) : cfg := set_qq c (Queue h (qmu (qq c)) (sleeping (qq c))).
Definition set_qmu (c : cfg) (o : option nat) : cfg := set_qq c (Queue (heap (qq c)) o (sleeping (qq c))).
Definition set_sleeping (c : cfg) (b : bool) : cfg := set_qq c (Queue (heap (qq c)) (qmu (qq c)) b).
Definition set_outq (c : cfg) (v : nat) (l : list ref) : cfg := set_cc c (Chans (fupd (outq (cc c)) v l) (closed (cc c)) (cancelled (cc c))).
Definition set_closed (c : cfg) (v : nat) (b : bool) : cfg := set_cc c (Chans (outq (cc c)) (fupd (closed (cc c)) v b) (cancelled (cc c))).
Definition set_cancelled (c : cfg) (v : nat) (b : bool) : cfg := set_cc c (Chans (outq (cc c)) (closed (cc c)) (fupd (cancelled (cc c)) v b)).
Definition g_enter (g : ghost) (t : nat) : ghost := Ghost (entered g ++ [t]) (started g) (dropped g) (stopped g) (periodic g) (due g) (rets g).
Definition g_drop (g : ghost) (t : nat) : ghost := Ghost (entered g) (started g) (dropped g ++ [t]) (stopped g) (periodic g) (due g) (rets g).
Definition g_stop (g : ghost) (t : nat) : ghost := Ghost (entered g) (started g) (dropped g) (stopped g ++ [t]) (periodic g) (due g) (rets g).
Definition g_ret (g : ghost) (t : nat) (b : bool) : ghost := Ghost (entered g) (started g) (dropped g) (stopped g) (periodic g) (due g) (rets g ++ [(t, b)]).
Definition g_periodic (g : ghost) (t : nat) : ghost := Ghost (entered g) (started g) (dropped g) (stopped g) (periodic g ++ [t]) (due g) (rets g).
Definition g_again (g : ghost) (t : nat) : ghost := Ghost (entered g) (started g) (dropped g) (stopped g) (periodic g) (filter (λ x, x ≠ t) (due g)) (rets g).
(** timing_wheel.go:156 [go t.task()]; the task of a periodic timer begins by rescheduling itself *)
Definition g_start (g : ghost) (t : nat) : ghost :=
  Ghost (entered g) (started g ++ [t]) (dropped g) (stopped g) (periodic g) (if decide (t ∈ periodic g) then due g ++ [t] else due g) (rets g).

(** [add] returned: timing_wheel.go:82, 155-157, bucket.go:82-83 *)
Definition after_add (c : cfg) (u : nat) (b : bool) (t : nat) (k : cont) : cfg :=
  match k with
  | KAfter => goto (if b then c else set_gh c (g_drop (gh c) t)) u Idle
  | KRun => goto (if b then c else set_gh c (g_start (gh c) t)) u Idle
  | KFlush v bb rest => goto (if b then c else set_gh c (g_start (gh c) t)) u (RScan v bb rest)
  end.
(** sync.Mutex.Lock of a bucket and of the queue: possible only while nobody holds it *)
Definition lock_b (c : cfg) (u : nat) (r : ref) (p : pc) : option cfg :=
  match bmu (mm c) r with None => Some (goto (set_bmu c r (Some u)) u p) | Some _ => None end.
Definition lock_q (c : cfg) (u : nat) (p : pc) : option cfg :=
  match qmu (qq c) with None => Some (goto (set_qmu c (Some u)) u p) | Some _ => None end.

(** timing_wheel.go:122-130, 140: where the timer goes, with the wheel as loaded; [None] is a panic *)
Definition decide_add (c : cfg) (i : nat) (t : timer) (k : cont) : option pc :=
  match levels (mm c) !! i with
  | None => None
  | Some l =>
    if texp t <? i64 (lcur l + ltick l) then Some (ARet false t k)
    else if texp t <? i64 (lcur l + linterval l) then
      if ltick l =? 0 then None else
      let ticks := Z.quot (texp t) (ltick l) in
      if size c =? 0 then None else
      let j := Z.rem ticks (size c) in
      if negb ((0 <=? j) && (j <? size c)) then None else Some (ALock (i, j) (i64 (ticks * ltick l)) t k)
    else Some (AOver i (lcur l) t k)
  end.

(** the next step of goroutine [u], where it does not depend on a channel *)
Definition act (c : cfg) (u : nat) : option cfg :=
  match th c u with
  | ALoad i t k => Some match decide_add c i t k with Some p => goto c u p | None => crash c end
  | AOver i cur t k => Some (goto c u (match levels (mm c) !! S i with Some _ => ALoad (S i) t k | None => ANew i cur t k end))
  | ANew i cur t k => Some
    match levels (mm c) !! i with
    | None => crash c
    | Some l => match new_level (linterval l) (size c) cur with
      | Ret l' => goto (match levels (mm c) !! S i with None => set_levels c (levels (mm c) ++ [l']) | Some _ => c end) u (ALoad (S i) t k)
      | _ => crash c
      end
    end
  | ALock r e t k => lock_b c u r (AIns r e t k)
  | AIns r e t k => Some (goto (set_tb (set_bk c r (Bucket (bexp (bk (mm c) r)) (btimers (bk (mm c) r) ++ [t]))) (tid t) (Some r)) u (AUnl r e t k))
  | AUnl r e t k => Some (goto (set_bmu c r None) u (ASwap r e t k))
  | ASwap r e t k => Some (goto (set_bk c r (Bucket e (btimers (bk (mm c) r)))) u (if bexp (bk (mm c) r) =? e then ARet true t k else QLock r t k))
  | QLock r t k => lock_q c u (QPush r t k)
  | QPush r t k => Some match gpush (sooner (bk (mm c))) 2 (heap (qq c)) r with Ret h => goto (set_heap c h) u (QPeek r t k) | _ => crash c end
  | QPeek r t k => Some match gpeek (heap (qq c)) with Ret x => goto c u (if decide (x = r) then QCas t k else QUnl t k) | _ => crash c end
  | QCas t k => Some (if sleeping (qq c) then goto (set_sleeping c false) u (QSend t k) else goto c u (QUnl t k))
  | QUnl t k => Some (goto (set_qmu c None) u (ARet true t k))
  | ARet b t k => Some (after_add c u b (tid t) k)
  | SLoad t stop => Some match tb (mm c) t with None => goto (set_gh c (g_ret (gh c) t stop)) u Idle | Some r => goto c u (SLock r t) end
  | SLock r t => lock_b c u r (SIn r t)
  | SIn r t => Some
    (if decide (tb (mm c) t = Some r)
     then goto (set_gh (set_tb (set_bk c r (Bucket (bexp (bk (mm c) r)) (filter (λ x, tid x ≠ t) (btimers (bk (mm c) r))))) t None) (g_stop (gh c) t)) u (SUnl r t true)
     else goto c u (SUnl r t false))
  | SUnl r t res => Some (goto (set_bmu c r None) u (SLoad t res))
  | RGot v b => Some (goto c u (RAdv v b 0 (bexp (bk (mm c) b))))
  | RAdv v b i e => Some (goto c u
    match levels (mm c) !! i with
    | None => RLock v b
    | Some l => if i64 (lcur l + ltick l) <=? e then RStore v b i e else RLock v b
    end)
  | RStore v b i e => Some
    match levels (mm c) !! i with
    | None => crash c
    | Some l => match truncate e (ltick l) with
      | Ret x => goto (set_levels c (<[i := Level (ltick l) (linterval l) x]> (levels (mm c)))) u (RAdv v b (S i) x)
      | _ => crash c
      end
    end
  | RLock v b => lock_b c u b (RScan v b (btimers (bk (mm c) b)))
  | RScan v b [] => Some (goto (set_bk c b (Bucket (-1) (btimers (bk (mm c) b)))) u (RClear v b))
  | RScan v b (t :: rest) => Some (goto (if decide (tb (mm c) (tid t) = Some b) then set_tb c (tid t) None else c) u (ALoad 0 t (KFlush v b rest)))
  | RClear v b => Some (goto (set_bmu (set_bk c b (Bucket (bexp (bk (mm c) b)) [])) b None) u (RSelect v))
  | TLock => lock_q c u THead
  | THead => Some match heap (qq c) with [] => goto c u (TSleep None) | b :: _ => goto c u (TExp b) end
  | TExp b => Some (goto c u (TNow b (bexp (bk (mm c) b))))
  | TNow b e => Some (goto c u (if e <? clock c then TPop b else TSleep (Some (clock c * 1000000 + Z.max 0 (take_wait (clock c) e)))))
  | TPop b => Some match gpop (hdown (sooner (bk (mm c)))) (heap (qq c)) with Ret (_, h) => goto (set_heap c h) u (TFound b) | _ => crash c end
  | TFound b => Some (goto (set_qmu c None) u (TSend b))
  | TSleep dl => Some (goto (set_sleeping c true) u (TUnl dl))
  | TUnl dl => Some (goto (set_qmu c None) u (TWait dl))
  | TSwap => Some (goto (set_sleeping c false) u (if sleeping (qq c) then TLock else TRecv))
  | TSend b => if decide (length (outq (cc c) u) < 10)%nat then Some (goto (set_outq c u (outq (cc c) u ++ [b])) u TLock) else None
  | TClose => Some (goto (set_closed c u true) u TEnd)
  | Idle | QSend _ _ | RSelect _ | TWait _ | TRecv | TEnd => None
  end.

Inductive call := CAfter (t : timer) | CSchedule (t : timer) | CStop (t : nat) | CRun (v : nat).
Inductive label :=
| LTick (n : Z)              (* time passes *)
| LCall (u : nat) (o : call) (* goroutine [u] makes a call *)
| LAgain (u : nat) (t : timer) (* the task of a periodic timer, on goroutine [u], with the next time *)
| LCancel (v : nat)          (* the context of the Run with queue goroutine [v] *)
| LAct (u : nat)
| LWake (s r : nat)          (* a push sends on q.wakeup, a queue goroutine receives *)
| LTimer (u : nat)           (* delayqueue.go:87 *)
| LDone (u : nat)            (* delayqueue.go:92-94, 99-101 *)
| LRecv (u : nat)            (* timing_wheel.go:57 *)
| LNil (u : nat)             (* timing_wheel.go:57-59: nil from the closed channel *)
| LExit (u : nat).           (* timing_wheel.go:62-63 *)

Definition next (c : cfg) (l : label) : option cfg :=
  if crashed c then None else
  match l with
  | LTick n => if decide (clock c ≤ n) then Some (Cfg (size c) (mm c) (qq c) (cc c) n (th c) (gh c) (crashed c)) else None
  | LCall u o =>
    match th c u, o with
    (* timing_wheel.go:76-83 *)
    | Idle, CAfter t => if decide (tid t ∈ entered (gh c)) then None else Some (goto (set_gh c (g_enter (gh c) (tid t))) u (ALoad 0 t KAfter))
    (* timing_wheel.go:91-98, 110 *)
    | Idle, CSchedule t => if decide (tid t ∈ entered (gh c)) then None else Some (goto (set_gh c (g_periodic (g_enter (gh c) (tid t)) (tid t))) u (ALoad 0 t KRun))
    | Idle, CStop t => Some (goto c u (SLoad t false))
    (* timing_wheel.go:51-54, delayqueue.go:114-116; [v] is the new goroutine *)
    | Idle, CRun v => match th c v with
      | Idle => if decide (u = v) then None else Some (goto (goto (set_outq (set_closed (set_cancelled c v false) v false) v []) u (RSelect v)) v TLock)
      | _ => None end
    | _, _ => None
    end
  (* timing_wheel.go:99-104 *)
  | LAgain u t =>
    match th c u with
    | Idle => if decide (tid t ∈ due (gh c)) then Some (goto (set_gh c (g_enter (g_again (gh c) (tid t)) (tid t))) u (ALoad 0 t KRun)) else None
    | _ => None end
  | LCancel v => Some (set_cancelled c v true)
  | LAct u => act c u
  | LWake s r => match th c s, th c r with QSend t k, TWait _ | QSend t k, TRecv => Some (goto (goto c s (QUnl t k)) r TLock) | _, _ => None end
  | LTimer u => match th c u with TWait (Some d) => if decide (d ≤ clock c * 1000000) then Some (goto c u TSwap) else None | _ => None end
  | LDone u => match th c u with TWait _ => if cancelled (cc c) u then Some (goto c u TClose) else None | _ => None end
  | LRecv u => match th c u with RSelect v => match outq (cc c) v with b :: q => Some (goto (set_outq c v q) u (RGot v b)) | [] => None end | _ => None end
  | LNil u => match th c u with RSelect v => match outq (cc c) v with [] => if closed (cc c) v then Some (crash c) else None | _ => None end | _ => None end
  | LExit u => match th c u with RSelect v => if cancelled (cc c) v then Some (goto c u Idle) else None | _ => None end
  end.

(** executions whose calls and cancellations [ok] allows *)
Definition step (ok : cfg → label → Prop) (c c' : cfg) : Prop := ∃ l, ok c l ∧ next c l = Some c'.
Definition anything (c : cfg) (l : label) : Prop := True.
(** the executions of a new wheel *)
Definition wheel_exec (ok : cfg → label → Prop) (tick n now : Z) (c : cfg) : Prop :=
  ∃ l, new_level tick n now = Ret l ∧ rtc (step ok) (init l n now) c.
Fixpoint exec (c : cfg) (l : list label) : option cfg :=
  match l with [] => Some c | x :: l => match next c x with Some c' => exec c' l | None => None end end.
