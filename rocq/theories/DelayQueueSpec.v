(** * What a delay queue should do, without heap, mutex or channels

    [delay_history ev b]: the events [ev] are those of a delay queue that holds the bag [b]
    afterwards; each removed element had been pushed, was due, and no element then in the queue
    was due earlier. *)
From Verif Require Import GoBase DelayQueueModel.
Local Open Scope Z_scope.

Section Spec.
  Context {T : Type}.
  Notation ent := (ent T).
  Notation event := (event T).
  Inductive delay_history : list event → list ent → Prop :=
  | dh_new : delay_history [] []
  | dh_push ev b t e at_ d : delay_history ev b → edl e = at_ + d → delay_history (ev ++ [EvPush t e at_ d]) (e :: b)
  | dh_take ev b b' t e n : delay_history ev b → b ≡ₚ e :: b' → (∀ x, x ∈ b → edl e ≤ edl x) → edl e < n →
      delay_history (ev ++ [EvTake t e n]) b'
  | dh_pop ev b b' t e n : delay_history ev b → b ≡ₚ e :: b' → (∀ x, x ∈ b → edl e ≤ edl x) → edl e ≤ n →
      delay_history (ev ++ [EvPop t e n]) b'
  | dh_bag ev b b' : delay_history ev b → b ≡ₚ b' → delay_history ev b'.
  (** the elements pushed, and removed (by goroutine [t]), in order *)
  Definition pushed (ev : list event) : list ent := omap (λ v, match v with EvPush _ e _ _ => Some e | _ => None end) ev.
  Definition removed (ev : list event) : list ent := omap (λ v, match v with EvTake _ e _ => Some e | EvPop _ e _ => Some e | _ => None end) ev.
  Definition removed_by (t : nat) (ev : list event) : list ent :=
    omap (λ v, match v with EvTake t' e _ | EvPop t' e _ => if decide (t' = t) then Some e else None | _ => None end) ev.
  (** the clock reading of an event *)
  Definition reading (v : event) : Z := match v with EvPush _ _ n _ | EvTake _ _ n | EvPop _ _ n => n end.
  (** the elements that calls made by goroutine [t] have returned, and those it passed to the
      reader of its Channel *)
  Definition returned_by (t : nat) (rs : list (nat * res T)) : list ent :=
    omap (λ r, match r with (t', RElem (Some e)) => if decide (t' = t) then Some e else None | _ => None end) rs.
  Definition sent_by (t : nat) (rs : list (nat * ent)) : list ent := omap (λ r, if decide (r.1 = t) then Some r.2 else None) rs.
End Spec.

(** * Infinite executions and fairness *)
Section Fair.
  Context {T : Type} (may : nat → call T → Prop) (can : nat → Prop).
  Definition execution (now : Z) (run : nat → cfg T) (lab : nat → label) : Prop :=
    run 0%nat = init now ∧ ∀ n, step may can (lab n) (run n) (run (S n)).
  (** goroutine [t] could take part in a step *)
  Definition enabled (t : nat) (c : cfg T) : Prop := ∃ l c', step may can l c c' ∧ involves l t.
  (** the scheduler does not ignore a goroutine that could run all the time *)
  Definition fair (run : nat → cfg T) (lab : nat → label) : Prop :=
    ∀ t n, ∃ m, (n ≤ m)%nat ∧ (involves (lab m) t ∨ ¬ enabled t (run m)).
  Definition at_lock (p : pc T) : bool := match p with PuLock _ _ | TkLock _ | PoLock | LkLock _ => true | _ => false end.
  (** sync.Mutex: nobody waits for ever for a mutex that becomes free again and again *)
  Definition lock_fair (run : nat → cfg T) : Prop :=
    ∀ t n, ∃ m, (n ≤ m)%nat ∧ (at_lock (th (run m) t) = false ∨ ∀ k, (m ≤ k)%nat → mutex (run k) ≠ None).
  Definition clock_unbounded (run : nat → cfg T) : Prop := ∀ z, ∃ n, z < clock (run n).
End Fair.
