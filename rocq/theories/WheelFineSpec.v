(** * What the timing wheel should guarantee whatever the interleaving *)
From stdpp Require Import relations.
From Verif Require Import GoBase WheelModel WheelFineModel.
Local Open Scope Z_scope.

(** how many entries of a list concern timer [t] *)
Definition times (t : nat) (l : list nat) : nat := length (filter (λ x, x = t) l).
(** submissions, and the ways a submission can end *)
Definition enters (c : cfg) (t : nat) : nat := times t (entered (gh c)).
Definition starts (c : cfg) (t : nat) : nat := times t (started (gh c)).
Definition drops (c : cfg) (t : nat) : nat := times t (dropped (gh c)).
Definition stops (c : cfg) (t : nat) : nat := times t (stopped (gh c)).
(** the calls of Stop that returned true *)
Definition true_stops (c : cfg) (t : nat) : nat := times t (filter (λ x, x.2 = true) (rets (gh c))).*1.
(** a goroutine is adding the timer *)
Definition adds (p : pc) (t : nat) : Prop :=
  match p with
  | ALoad _ x _ | AOver _ _ x _ | ANew _ _ x _ | ALock _ _ x _ | AIns _ _ x _ | ARet false x _ => tid x = t
  | _ => False
  end.
(** pending: in a bucket, or in the hands of a goroutine that is adding it *)
Definition pending (c : cfg) (t : nat) : Prop := (∃ r, tb (mm c) t = Some r) ∨ ∃ u, adds (th c u) t.

(** the buckets a goroutine has locked, and whether it has locked the queue *)
Definition cont_bucket (k : cont) : list ref := match k with KFlush _ b _ => [b] | _ => [] end.
Definition buckets_of (p : pc) : list ref :=
  match p with
  | ALoad _ _ k | AOver _ _ _ k | ANew _ _ _ k | ALock _ _ _ k | ASwap _ _ _ k | QLock _ _ k | QPush _ _ k | QPeek _ _ k
  | QCas _ k | QSend _ k | QUnl _ k | ARet _ _ k => cont_bucket k
  | AIns r _ _ k | AUnl r _ _ k => r :: cont_bucket k
  | SIn r _ | SUnl r _ _ => [r]
  | RScan _ b _ | RClear _ b => [b]
  | _ => []
  end.
Definition has_queue (p : pc) : bool :=
  match p with
  | QPush _ _ _ | QPeek _ _ _ | QCas _ _ | QSend _ _ | QUnl _ _
  | THead | TExp _ | TNow _ _ | TPop _ | TFound _ | TSleep _ | TUnl _ => true
  | _ => false
  end.

(** one Run, never cancelled: a Run is called only while there is no queue goroutine *)
Definition queue_goroutine (p : pc) : bool :=
  match p with TLock | THead | TExp _ | TNow _ _ | TPop _ | TFound _ | TSleep _ | TUnl _ | TWait _ | TSwap | TRecv | TSend _ | TClose | TEnd => true | _ => false end.
Definition one_run (c : cfg) (l : label) : Prop :=
  match l with LCancel _ => False | LCall _ (CRun _) => ∀ w, queue_goroutine (th c w) = false | _ => True end.
(** the queue goroutine of the Run that goroutine [w] executes *)
Definition serves (p : pc) (v : nat) : Prop :=
  match p with
  | ALoad _ _ k | AOver _ _ _ k | ANew _ _ _ k | ALock _ _ _ k | AIns _ _ _ k | AUnl _ _ _ k | ASwap _ _ _ k
  | QLock _ _ k | QPush _ _ k | QPeek _ _ k | QCas _ k | QSend _ k | QUnl _ k | ARet _ _ k => match k with KFlush x _ _ => x = v | _ => False end
  | RSelect x | RGot x _ | RAdv x _ _ _ | RStore x _ _ _ | RLock x _ | RScan x _ _ | RClear x _ => x = v
  | _ => False
  end.
(** goroutine [u] cannot go on before [w] has moved *)
Definition waits (c : cfg) (u w : nat) : Prop :=
  match th c u with
  | ALock r _ _ _ | SLock r _ | RLock _ r => bmu (mm c) r = Some w
  | QLock _ _ _ | TLock => qmu (qq c) = Some w
  | QSend _ _ => th c w = TSwap
  | TSend _ => serves (th c w) u ∧ (10 ≤ length (outq (cc c) u))%nat
  | _ => False
  end.
(** a step of goroutine [u] is possible *)
Definition moves (c : cfg) (u : nat) : Prop :=
  ∃ l c', next c l = Some c' ∧ (l = LAct u ∨ l = LRecv u ∨ (∃ w, l = LWake u w) ∨ ∃ w, l = LWake w u).
(** neither outside of every call nor waiting for time to pass or work to come *)
Definition busy (p : pc) : bool := match p with Idle | RSelect _ | TWait _ | TEnd => false | _ => true end.
(** the run loop waits for the mutex of the bucket it is emptying *)
Definition self_wait (p : pc) : Prop := match p with ALock r _ _ (KFlush _ b _) => r = b | _ => False end.
(** no queue goroutine is where it can receive a wake-up *)
Definition hears (p : pc) : bool := match p with TWait _ | TSwap | TRecv => true | _ => false end.
Definition deaf (c : cfg) : Prop := ∀ w, hears (th c w) = false.
(** the times of all timers are moments from 0 on that fit in an int64 *)
Definition sane_timer (t : timer) : Prop := 0 ≤ texp t < 2 ^ 63.
Definition sane (c : cfg) (l : label) : Prop :=
  match l with LCall _ (CAfter t) | LCall _ (CSchedule t) | LAgain _ t => sane_timer t | _ => True end.
Definition sane_one_run (c : cfg) (l : label) : Prop := sane c l ∧ one_run c l.
(** the buckets a goroutine has in its hands: about to set their expiration, to put them in the
    queue, to send them to the Run, or to empty them *)
Definition carries (p : pc) : list ref :=
  match p with
  | AUnl r _ _ k | ASwap r _ _ k | QLock r _ k | QPush r _ k => r :: cont_bucket k
  | ALoad _ _ k | AOver _ _ _ k | ANew _ _ _ k | ALock _ _ _ k | AIns _ _ _ k | QPeek _ _ k | QCas _ k | QSend _ k | QUnl _ k | ARet _ _ k => cont_bucket k
  | TFound b | TSend b | RGot _ b | RAdv _ b _ _ | RStore _ b _ _ | RLock _ b | RScan _ b _ => [b]
  | _ => []
  end.
(** bucket [r] will be emptied: in the queue, in the channel of a queue goroutine, or in a goroutine's hands *)
Definition on_way (c : cfg) (r : ref) : Prop := r ∈ heap (qq c) ∨ (∃ v, r ∈ outq (cc c) v) ∨ ∃ u, r ∈ carries (th c u).
(** bucket [r] is that of the time of timer [x]: the slot of its tick, in the wheel of the bucket *)
Definition in_slot (c : cfg) (r : ref) (x : timer) : Prop :=
  ∃ l, levels (mm c) !! r.1 = Some l ∧ ∃ q, r.2 = Z.rem q (size c) ∧ ltick l * q ≤ texp x < ltick l * q + Z.abs (ltick l).
(** a Stop that removed timer [t] and has not returned yet *)
Definition reporting (p : pc) (t : nat) : Prop := match p with SUnl _ x true | SLoad x true => x = t | _ => False end.
