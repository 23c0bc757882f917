(** * Objects protected by a sync.Mutex or sync.RWMutex, used by any number of goroutines

    A call locks, accesses the object in single steps that any other goroutine
    may be scheduled between, unlocks (defer) and returns.  Inputs from outside
    (the clock, the order of a map iteration) are supplied by the schedule. *)
From stdpp Require Import gmap.
From Verif Require Import GoBase.

(** sync.Mutex.Lock or sync.RWMutex.Lock: [MW]; RWMutex.RLock: [MR] *)
Inductive lmode := MR | MW.
Global Instance lmode_eq_dec : EqDecision lmode.
Proof. solve_decision. Defined.

(** the body of a critical section: single accesses to the object, and inputs *)
Inductive body (S I R : Type) :=
| Fin (r : R)
| Act (f : S → S * body S I R)
| Ask (k : I → body S I R).
Arguments Fin {_ _ _} _.
Arguments Act {_ _ _} _.
Arguments Ask {_ _ _} _.

(** running a body alone, on given inputs; stops at the first missing one *)
Fixpoint alone {S I R} (p : body S I R) (ins : list I) (s : S) : S * body S I R :=
  match p with
  | Fin r => (s, Fin r)
  | Act f => let '(s', p') := f s in alone p' ins s'
  | Ask k => match ins with [] => (s, Ask k) | i :: ins => alone (k i) ins s end
  end.

Section Lock.
  Context {S I O R : Type} (mode : O → lmode) (code : O → body S I R).

  (** where a goroutine is: not in a call; called and waiting for the lock; inside; unlocked.
      [inv] is the time (step number) of the invocation, [ins] the inputs so far. *)
  Inductive tstate :=
  | TIdle
  | TPend (o : O) (inv : nat)
  | TIn (o : O) (inv : nat) (ins : list I) (p : body S I R)
  | TOut (o : O) (inv : nat) (r : R).
  (** a call that has left the critical section *)
  Record entry := Entry { e_tid : nat; e_op : O; e_ins : list I; e_res : R; e_inv : nat; e_rel : nat }.
  (** a call that has returned to its caller, and when *)
  Record ret := Retn { r_tid : nat; r_op : O; r_res : R; r_inv : nat; r_at : nat }.
  Record cfg := Cfg { now : nat; sh : S; writer : option nat; readers : list nat; thr : nat → tstate;
                      log : list entry; rets : list ret; seen : list I }.
  Definition init (s : S) : cfg := Cfg 0 s None [] (λ _, TIdle) [] [] [].
  Definition upd (f : nat → tstate) (t : nat) (x : tstate) : nat → tstate := λ u, if decide (u = t) then x else f u.

  Inductive step : cfg → cfg → Prop :=
  | s_inv n s w rs th lg rt sn t o : th t = TIdle →
      step (Cfg n s w rs th lg rt sn) (Cfg (n + 1) s w rs (upd th t (TPend o n)) lg rt sn)
  | s_lock n s th lg rt sn t o inv : th t = TPend o inv → mode o = MW →
      step (Cfg n s None [] th lg rt sn) (Cfg (n + 1) s (Some t) [] (upd th t (TIn o inv [] (code o))) lg rt sn)
  | s_rlock n s rs th lg rt sn t o inv : th t = TPend o inv → mode o = MR →
      step (Cfg n s None rs th lg rt sn) (Cfg (n + 1) s None (t :: rs) (upd th t (TIn o inv [] (code o))) lg rt sn)
  | s_act n s w rs th lg rt sn t o inv ins f s' p : th t = TIn o inv ins (Act f) → f s = (s', p) →
      step (Cfg n s w rs th lg rt sn) (Cfg (n + 1) s' w rs (upd th t (TIn o inv ins p)) lg rt sn)
  | s_ask n s w rs th lg rt sn t o inv ins k i : th t = TIn o inv ins (Ask k) →
      step (Cfg n s w rs th lg rt sn) (Cfg (n + 1) s w rs (upd th t (TIn o inv (ins ++ [i]) (k i))) lg rt (sn ++ [i]))
  | s_unlock n s w rs th lg rt sn t o inv ins r : th t = TIn o inv ins (Fin r) → mode o = MW →
      step (Cfg n s w rs th lg rt sn) (Cfg (n + 1) s None rs (upd th t (TOut o inv r)) (lg ++ [Entry t o ins r inv n]) rt sn)
  | s_runlock n s w rs th lg rt sn t o inv ins r : th t = TIn o inv ins (Fin r) → mode o = MR →
      step (Cfg n s w rs th lg rt sn) (Cfg (n + 1) s w (filter (λ u, u ≠ t) rs) (upd th t (TOut o inv r)) (lg ++ [Entry t o ins r inv n]) rt sn)
  | s_ret n s w rs th lg rt sn t o inv r : th t = TOut o inv r →
      step (Cfg n s w rs th lg rt sn) (Cfg (n + 1) s w rs (upd th t TIdle) lg (rt ++ [Retn t o r inv n]) sn).
  Definition reachable (s0 : S) (c : cfg) : Prop := rtc step (init s0) c.
End Lock.
Arguments tstate : clear implicits.
Arguments cfg : clear implicits.
Arguments entry : clear implicits.
Arguments ret : clear implicits.
