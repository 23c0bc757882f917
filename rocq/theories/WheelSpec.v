(** * What a timing wheel should do: every submitted timer is started, dropped, stopped or pending *)
From Verif Require Import GoBase WheelModel.
Local Open Scope Z_scope.

(** how many entries of a list concern timer [t] *)
Definition times (t : nat) (l : list nat) : nat := length (filter (λ x, x = t) l).
Definition enters (s : sys) (t : nat) : nat := times t (entered s).*1.*1.
Definition starts (s : sys) (t : nat) : nat := times t (s_tid <$> started s).
Definition drops (s : sys) (t : nat) : nat := times t (dropped s).
Definition stops (s : sys) (t : nat) : nat := times t (stopped s).
(** pending: submitted, and neither started nor dropped nor stopped since *)
Definition pending (s : sys) (t : nat) : Prop := (starts s t + drops s t + stops s t < enters s t)%nat.

(** the wheel's own steps: queue goroutine and run loop *)
Definition internal (v : event) : Prop := match v with EvTake | EvRecv | EvMove | EvPut | EvEnd => True | _ => False end.
(** every expiration is below [B] *)
Definition bounded (B : Z) (s : sys) (v : event) : Prop :=
  match v with EvAfter _ e | EvSchedule _ e | EvAgain _ e => e < B | _ => True end.
(** in addition: no timer is submitted with an expiration in the past, and the queue hands out a
    bucket only when the run loop is done with the one before *)
Definition prompt (B : Z) (s : sys) (v : event) : Prop :=
  match v with
  | EvAfter _ e | EvSchedule _ e | EvAgain _ e => clock s ≤ e ∧ e < B
  | EvTake => chan s = [] ∧ run s = RIdle
  | _ => True
  end.
(** the wheel has nothing left to do at this clock reading *)
Definition quiet (B : Z) (s : sys) : Prop := ∀ n v s', internal v → prompt B s v → next n s v ≠ Some s'.
(** internal steps only *)
Definition alone (B : Z) (s : sys) (v : event) : Prop := internal v ∧ prompt B s v.
(** executions of a new wheel *)
Definition wheel_run (ok : sys → event → Prop) (tick size now : Z) (l : list event) (s : sys) : Prop :=
  ∃ w, new_wheel tick size now = Ret w ∧ steps ok (init w now) l s.
Definition anyway (s : sys) (v : event) : Prop := True.
(** prompt, and every AfterFunc delay is at least one tick *)
Definition patient (B tick : Z) (s : sys) (v : event) : Prop :=
  prompt B s v ∧ match v with EvAfter _ e => clock s + tick ≤ e | _ => True end.
(** the parameters for which no int64 computation of the wheel overflows up to time [B] *)
Definition sane (tick size B : Z) : Prop := 0 < tick ∧ 2 ≤ size ∧ tick * size ≤ 2 ^ 62 ∧ B * size ≤ 2 ^ 62.
