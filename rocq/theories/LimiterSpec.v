(** * Specification of the limiters, in terms of clock readings and answers only *)
From stdpp Require Import gmap.
From Verif Require Import GoBase.
Local Open Scope Z_scope.

(** readings never go back *)
Fixpoint ascending (t0 : Z) (ts : list Z) : Prop :=
  match ts with [] => True | t :: ts => t0 ≤ t ∧ ascending t ts end.
(** the times at which a call was granted, given readings and answers *)
Definition grants (ts : list Z) (bs : list bool) : list Z := (filter (λ tb, tb.2 = true) (zip ts bs)).*1.
(** how many of them lie in [a, b] *)
Definition hits (a b : Z) (gs : list Z) : Z := Z.of_nat (length (filter (λ t, a ≤ t ≤ b) gs)).

(** Answers determined by the history: every call is granted iff [allowed] by
    the grants before it (newest first). *)
Fixpoint exact (allowed : list Z → Z → Prop) (past : list Z) (ts : list Z) (bs : list bool) : Prop :=
  match ts, bs with
  | [], [] => True
  | t :: ts, b :: bs => (b = true ↔ allowed past t) ∧ exact allowed (if b then t :: past else past) ts bs
  | _, _ => False
  end.

(** ** Fixed window: a new window starts with the first call more than [w] after the current start *)
Definition next_start (w s t : Z) : Z := if decide (w < t - s) then t else s.
(** the window start each call belongs to *)
Fixpoint starts (w s : Z) (ts : list Z) : list Z :=
  match ts with [] => [] | t :: ts => next_start w s t :: starts w (next_start w s t) ts end.
(** grants per window: the starts of the windows of the granted calls *)
Definition in_window (s : Z) (gs : list Z) : Z := Z.of_nat (length (filter (λ s', s' = s) gs)).

(** a call is granted iff fewer than [limit] calls of its window were ([past]: window starts of the grants so far) *)
Fixpoint fw_exact (limit w s : Z) (past : list Z) (ts : list Z) (bs : list bool) : Prop :=
  match ts, bs with
  | [], [] => True
  | t :: ts, b :: bs => let s' := next_start w s t in
      (b = true ↔ in_window s' past < limit) ∧ fw_exact limit w s' (if b then s' :: past else past) ts bs
  | _, _ => False
  end.

(** ** Sliding windows: sub-window number of a reading, and the grants in the
    [n] sub-windows ending with that of [t] *)
Definition sub_no (small t : Z) : Z := t / small.
Definition recent (small n : Z) (past : list Z) (t : Z) : Z :=
  Z.of_nat (length (filter (λ t', sub_no small t - n < sub_no small t' ≤ sub_no small t) past)).
Definition sw_allowed (limit small n : Z) (past : list Z) (t : Z) : Prop := recent small n past t < limit.

(** ** Sliding log: strategies as (limit, window) pairs *)
Definition consistent (small : Z) (l : list (Z * Z)) : Prop :=
  l ≠ [] ∧ (∀ s, s ∈ l → Z.rem s.2 small = 0) ∧
  ∀ i j s s', i ≠ j → l !! i = Some s → l !! j = Some s' → (s.2 > s'.2 → s.1 > s'.1) ∧ (s.2 = s'.2 → s.1 ≠ s'.1).
Definition sl_violated (small : Z) (past : list Z) (t : Z) (s : Z * Z) : Prop := s.1 ≤ recent small (s.2 / small) past t.
(** every answer of a sliding log from the history of its grants: success iff no strategy is
    violated, otherwise the error names the violated strategy with the largest window (and,
    among equal windows, the largest limit) *)
Definition sl_answer (small : Z) (l : list (Z * Z)) (past : list Z) (t : Z) (r : go (option (Z * Z))) : Prop :=
  match r with
  | Ret None => ∀ s, s ∈ l → ¬ sl_violated small past t s
  | Ret (Some e) => e ∈ l ∧ sl_violated small past t e ∧
      ∀ s, s ∈ l → sl_violated small past t s → s.2 < e.2 ∨ (s.2 = e.2 ∧ s.1 ≤ e.1)
  | _ => False
  end.
Fixpoint sl_exact (small : Z) (l : list (Z * Z)) (past : list Z) (ts : list Z) (rs : list (go (option (Z * Z)))) : Prop :=
  match ts, rs with
  | [], [] => True
  | t :: ts, r :: rs => sl_answer small l past t r ∧ sl_exact small l (match r with Ret None => t :: past | _ => past end) ts rs
  | _, _ => False
  end.
