(** * Model of common/timer/delayqueue/delayqueue.go

    Any number of goroutines call Push, Take, Pop, Peek, Empty and Channel; each of them
    moves one shared access at a time and any other may run in between.  The heap is
    reached only under the mutex, so one heap call is one step.  time.Time is a
    mathematical integer of nanoseconds and time.Now never goes backwards (the monotonic
    reading); a timer fires at any moment from its deadline on. *)
From stdpp Require Import relations.
From Verif Require Import GoBase HeapModel.
Local Open Scope Z_scope.

Section DelayQueue.
  Context {T : Type}.

  (** delayqueue.go:13-16; [eid] is the identity of the allocated *entry *)
  Record ent := Ent { eid : nat; eval : T; edl : Z }.
  (** delayqueue.go:32-34 *)
  Definition before (a b : ent) : bool := edl a <? edl b.

  (** the calls a goroutine may make; a Channel call makes a new goroutine run the loop of
      131-145, here the goroutine that is given the call *)
  Inductive call := CPush (v : T) (d : Z) | CTake | CPop | CPeek | CEmpty | CChan (size : nat).
  (** what a call returns *)
  Inductive res := RDone | RElem (e : option ent) | RPeek (e : option ent) | REmpty (b : bool).
  (** who runs the Take loop: a caller of Take, or the goroutine of Channel *)
  Inductive user := UTake | UChan.

  (** where a goroutine is, with its local variables *)
  Inductive pc :=
  | Idle
  (* Push, 46-67 *)
  | PuLock (v : T) (d : Z)        (* 48 *)
  | PuNow (v : T) (d : Z)         (* 51-54 *)
  | PuHeap (e : ent) (at_ d : Z)  (* 56 *)
  | PuPeek (e : ent)              (* 60 *)
  | PuCas                         (* 62 *)
  | PuSend                        (* 63 *)
  | PuUnlock                      (* 50 *)
  (* Take, 77-121 *)
  | TkLock (u : user)                     (* 80 *)
  | TkHead (u : user)                     (* 82-83 *)
  | TkNow (u : user) (e : ent)            (* 84-85 *)
  | TkPop (u : user) (e : ent) (n : Z)    (* 86 *)
  | TkFound (u : user) (e : ent)          (* 87-88 *)
  | TkSleep (u : user) (dl : option Z)    (* 95; dl: when the timer of 92 fires *)
  | TkUnlock (u : user) (dl : option Z)   (* 96 *)
  | TkWait (u : user) (dl : option Z)     (* 98-101, 106-118 *)
  | TkSwap (u : user)                     (* 103 *)
  | TkRecv (u : user)                     (* 104 *)
  (* Pop, 171-188 *)
  | PoLock                        (* 172 *)
  | PoHead                        (* 175-179 *)
  | PoNow (e : ent)               (* 181 *)
  | PoPop (e : ent) (n : Z)       (* 186 *)
  | PoUnlock (r : option ent)     (* 173 *)
  (* Peek, 154-162 and Empty, 196-200 *)
  | LkLock (empty : bool)
  | LkHead (empty : bool)
  | LkUnlock (r : res)
  (* the goroutine of Channel, 133-142 *)
  | ChSend (e : ent)              (* 140 *)
  | ChClosed                      (* 136-139 *)
  | Crash.

  (** ghost record of what happened to the heap: Push of an element at a clock reading with
      a delay; removal by Take (or Channel) or by Pop, at the clock reading that allowed it *)
  Inductive event := EvPush (t : nat) (e : ent) (at_ d : Z) | EvTake (t : nat) (e : ent) (n : Z) | EvPop (t : nat) (e : ent) (n : Z).

  (** delayqueue.go:18-25 plus the goroutines, their contexts, the output channels
      and the ghost records *)
  Record cfg := Cfg {
    clock : Z;
    heap : list ent;
    mutex : option nat;
    sleeping : bool;
    th : nat → pc;
    cancelled : nat → bool;
    fresh : nat;
    outq : nat → nat * list ent;    (* capacity and content of the channel made by Channel *)
    hist : list event;
    rets : list (nat * res);
    sent : list (nat * ent);        (* received by the readers of the output channels *)
  }.
  (** delayqueue.go:30-37 *)
  Definition init (now : Z) : cfg := Cfg now [] None false (λ _, Idle) (λ _, false) 0 (λ _, (0%nat, [])) [] [] [].

  Definition upd {A} (f : nat → A) (t : nat) (x : A) : nat → A := λ u, if decide (u = t) then x else f u.
  Definition goto (c : cfg) (t : nat) (p : pc) : cfg :=
    Cfg (clock c) (heap c) (mutex c) (sleeping c) (upd (th c) t p) (cancelled c) (fresh c) (outq c) (hist c) (rets c) (sent c).
  Definition set_heap (c : cfg) (h : list ent) : cfg :=
    Cfg (clock c) h (mutex c) (sleeping c) (th c) (cancelled c) (fresh c) (outq c) (hist c) (rets c) (sent c).
  Definition set_mutex (c : cfg) (m : option nat) : cfg :=
    Cfg (clock c) (heap c) m (sleeping c) (th c) (cancelled c) (fresh c) (outq c) (hist c) (rets c) (sent c).
  Definition set_sleeping (c : cfg) (b : bool) : cfg :=
    Cfg (clock c) (heap c) (mutex c) b (th c) (cancelled c) (fresh c) (outq c) (hist c) (rets c) (sent c).
  Definition set_cancelled (c : cfg) (t : nat) (b : bool) : cfg :=
    Cfg (clock c) (heap c) (mutex c) (sleeping c) (th c) (upd (cancelled c) t b) (fresh c) (outq c) (hist c) (rets c) (sent c).
  Definition set_clock (c : cfg) (n : Z) : cfg :=
    Cfg n (heap c) (mutex c) (sleeping c) (th c) (cancelled c) (fresh c) (outq c) (hist c) (rets c) (sent c).
  Definition set_outq (c : cfg) (t : nat) (q : nat * list ent) : cfg :=
    Cfg (clock c) (heap c) (mutex c) (sleeping c) (th c) (cancelled c) (fresh c) (upd (outq c) t q) (hist c) (rets c) (sent c).
  Definition record (c : cfg) (ev : event) : cfg :=
    Cfg (clock c) (heap c) (mutex c) (sleeping c) (th c) (cancelled c) (fresh c) (outq c) (hist c ++ [ev]) (rets c) (sent c).
  Definition alloc (c : cfg) : cfg :=
    Cfg (clock c) (heap c) (mutex c) (sleeping c) (th c) (cancelled c) (S (fresh c)) (outq c) (hist c) (rets c) (sent c).
  Definition deliver (c : cfg) (t : nat) (e : ent) : cfg :=
    Cfg (clock c) (heap c) (mutex c) (sleeping c) (th c) (cancelled c) (fresh c) (outq c) (hist c) (rets c) (sent c ++ [(t, e)]).
  (** a call returns to its caller *)
  Definition finish (c : cfg) (t : nat) (r : res) : cfg :=
    Cfg (clock c) (heap c) (mutex c) (sleeping c) (upd (th c) t Idle) (cancelled c) (fresh c) (outq c) (hist c) (rets c ++ [(t, r)]) (sent c).
  (** Take returns: to its caller, or into 135-140 *)
  Definition take_returns (c : cfg) (t : nat) (u : user) (r : option ent) : cfg :=
    match u, r with
    | UTake, _ => finish c t (RElem r)
    | UChan, Some e => goto c t (ChSend e)
    | UChan, None => goto c t ChClosed
    end.
  (** sync.Mutex.Lock: possible only while nobody holds it *)
  Definition locked (c : cfg) (t : nat) (p : pc) : option cfg :=
    match mutex c with None => Some (goto (set_mutex c (Some t)) t p) | Some _ => None end.

  (** the next step of goroutine [t] when it does not depend on a channel *)
  Definition act (c : cfg) (t : nat) : option cfg :=
    match th c t with
    | PuLock v d => locked c t (PuNow v d)
    | PuNow v d => Some (goto (alloc c) t (PuHeap (Ent (fresh c) v (clock c + d)) (clock c) d))
    | PuHeap e at_ d => Some match gpush before 2 (heap c) e with
                             | Ret h => goto (record (set_heap c h) (EvPush t e at_ d)) t (PuPeek e)
                             | _ => goto c t Crash
                             end
    | PuPeek e => Some match gpeek (heap c) with
                       | Ret x => goto c t (if decide (eid x = eid e) then PuCas else PuUnlock)
                       | _ => goto c t Crash
                       end
    | PuCas => Some (if sleeping c then goto (set_sleeping c false) t PuSend else goto c t PuUnlock)
    | PuUnlock => Some (finish (set_mutex c None) t RDone)
    | TkLock u => locked c t (TkHead u)
    | TkHead u => Some (if gempty (heap c) then goto c t (TkSleep u None)
                        else match gpeek (heap c) with Ret e => goto c t (TkNow u e) | _ => goto c t Crash end)
    | TkNow u e => Some (goto c t (if edl e <? clock c then TkPop u e (clock c) else TkSleep u (Some (edl e))))
    | TkPop u e n => Some match gpop (hdown before) (heap c) with
                          | Ret (_, h) => goto (record (set_heap c h) (EvTake t e n)) t (TkFound u e)
                          | _ => goto c t Crash
                          end
    | TkFound u e => Some (take_returns (set_mutex c None) t u (Some e))
    | TkSleep u dl => Some (goto (set_sleeping c true) t (TkUnlock u dl))
    | TkUnlock u dl => Some (goto (set_mutex c None) t (TkWait u dl))
    | TkSwap u => Some (goto (set_sleeping c false) t (if sleeping c then TkLock u else TkRecv u))
    | PoLock => locked c t PoHead
    | PoHead => Some (if gempty (heap c) then goto c t (PoUnlock None)
                      else match gpeek (heap c) with Ret e => goto c t (PoNow e) | _ => goto c t Crash end)
    | PoNow e => Some (goto c t (if clock c <? edl e then PoUnlock None else PoPop e (clock c)))
    | PoPop e n => Some match gpop (hdown before) (heap c) with
                        | Ret (_, h) => goto (record (set_heap c h) (EvPop t e n)) t (PoUnlock (Some e))
                        | _ => goto c t Crash
                        end
    | PoUnlock r => Some (finish (set_mutex c None) t (RElem r))
    | LkLock b => locked c t (LkHead b)
    | LkHead true => Some (goto c t (LkUnlock (REmpty (gempty (heap c)))))
    | LkHead false => Some (if gempty (heap c) then goto c t (LkUnlock (RPeek None))
                            else match gpeek (heap c) with Ret e => goto c t (LkUnlock (RPeek (Some e))) | _ => goto c t Crash end)
    | LkUnlock r => Some (finish (set_mutex c None) t r)
    | ChSend e => let '(cap, q) := outq c t in
                  if decide (length q < cap)%nat then Some (goto (set_outq c t (cap, q ++ [e])) t (TkLock UChan)) else None
    | Idle | PuSend | TkWait _ _ | TkRecv _ | ChClosed | Crash => None
    end.

  Definition start (o : call) : pc :=
    match o with
    | CPush v d => PuLock v d
    | CTake => TkLock UTake
    | CPop => PoLock
    | CPeek => LkLock false
    | CEmpty => LkLock true
    | CChan _ => TkLock UChan
    end.
  Definition call_outq (o : call) (old : nat * list ent) : nat * list ent := match o with CChan n => (n, []) | _ => old end.
  (** receiving from q.wakeup: in the selects of 99 and 113, or at 104 *)
  Definition receives (p : pc) : option user :=
    match p with TkWait u _ => Some u | TkRecv u => Some u | _ => None end.

  (** which goroutines take part in a step *)
  Inductive label := LEnv | LOne (t : nat) | LTwo (s r : nat).
  Definition involves (l : label) (t : nat) : Prop := match l with LEnv => False | LOne u => u = t | LTwo s r => s = t ∨ r = t end.

  (** [may t o]: goroutine t may call o; [can t]: t's context may be cancelled *)
  Inductive step (may : nat → call → Prop) (can : nat → Prop) : label → cfg → cfg → Prop :=
  | st_tick c n : clock c ≤ n → step may can LEnv c (set_clock c n)
  | st_call c t o b : th c t = Idle → may t o → (b = true → can t) →
      step may can LEnv c (goto (set_outq (set_cancelled c t b) t (call_outq o (outq c t))) t (start o))
  | st_cancel c t : can t → step may can LEnv c (set_cancelled c t true)
  | st_act c t c' : act c t = Some c' → step may can (LOne t) c c'
  | st_timer c t u dl : th c t = TkWait u (Some dl) → dl ≤ clock c → step may can (LOne t) c (goto c t (TkSwap u))
  | st_done c t u dl : th c t = TkWait u dl → cancelled c t = true → step may can (LOne t) c (take_returns c t u None)
  | st_comm c s r u : th c s = PuSend → receives (th c r) = Some u → step may can (LTwo s r) c (goto (goto c s PuUnlock) r (TkLock u))
  (* a reader of the channel made by Channel receives: from the buffer, or from the blocked sender *)
  | st_recv c t e cap q : outq c t = (cap, e :: q) → step may can LEnv c (deliver (set_outq c t (cap, q)) t e)
  | st_recv0 c t e cap : outq c t = (cap, []) → th c t = ChSend e → step may can (LOne t) c (deliver (goto c t (TkLock UChan)) t e).

  Definition istep may can (c c' : cfg) : Prop := ∃ l, step may can l c c'.
  Definition reachable may can (now : Z) (c : cfg) : Prop := rtc (istep may can) (init now) c.
End DelayQueue.
Arguments ent : clear implicits.
Arguments call : clear implicits.
Arguments res : clear implicits.
Arguments pc : clear implicits.
Arguments event : clear implicits.
Arguments cfg : clear implicits.
