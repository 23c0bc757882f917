(** * Specification of priority queues: a bag of elements.

    A heap is specified as a bag (a list up to permutation).  The only model
    names used here are the operation and result alphabets [op]/[out]. *)
From Verif Require Import GoBase HeapModel.

(** What a Go [less] function must satisfy to be an ordering with ties. *)
Record strict_weak {T} (lf : T → T → bool) : Prop := {
  sw_asym : ∀ x y, lf x y = true → lf y x = false;
  sw_trans : ∀ x y z, lf y x = false → lf z y = false → lf z x = false;
}.

(** [x] is a least element of the bag [s]. *)
Definition least {T} (lf : T → T → bool) (x : T) (s : list T) : Prop :=
  x ∈ s ∧ ∀ y, y ∈ s → lf y x = false.

Section Spec.
  Context {T : Type}.

  (** Conservation only: what each call does to the bag and returns, without
      saying which element Pop/Peek choose. *)
  Inductive bag_step : list T → op T → out T → list T → Prop :=
    | bs_push s x : bag_step s (OpPush x) OUnit (x :: s)
    | bs_pop s x s' : s ≡ₚ x :: s' → bag_step s OpPop (OVal x) s'
    | bs_pop_empty : bag_step [] OpPop OPanic []
    | bs_peek s x : x ∈ s → bag_step s OpPeek (OVal x) s
    | bs_peek_empty : bag_step [] OpPeek OPanic []
    | bs_remove s i x s' : (0 ≤ i < Z.of_nat (length s))%Z → s ≡ₚ x :: s' →
        bag_step s (OpRemove i) (OVal x) s'
    | bs_remove_bad s i : ¬ (0 ≤ i < Z.of_nat (length s))%Z →
        bag_step s (OpRemove i) OPanic s
    | bs_fix s i : bag_step s (OpFix i) OUnit s
    | bs_fix_bad s i : ¬ (0 ≤ i < Z.of_nat (length s))%Z →
        bag_step s (OpFix i) OPanic s
    | bs_set s i x y r : i < length s → s ≡ₚ y :: r → bag_step s (OpSet i x) OUnit (x :: r)
    | bs_set_bad s i x : length s ≤ i → bag_step s (OpSet i x) OPanic s
    | bs_len s : bag_step s OpLen (ONat (length s)) s
    | bs_empty s : bag_step s OpEmpty (OBool (bool_decide (s = []))) s.

  (** Priority: Pop and Peek return a least element. *)
  Definition prio_step (lf : T → T → bool) (s : list T) (o : op T) (r : out T) : Prop :=
    match o, r with
    | OpPop, OVal x => least lf x s
    | OpPeek, OVal x => least lf x s
    | _, _ => True
    end.

  (** A history: the bag is re-read up to permutation between calls. *)
  Inductive bag_run (P : list T → op T → out T → Prop) :
      list T → list (op T) → list (out T) → list T → Prop :=
    | br_nil s s' : s ≡ₚ s' → bag_run P s [] [] s'
    | br_cons s s1 s2 s3 o os r rs :
        s ≡ₚ s1 → bag_step s1 o r s2 → P s1 o r → bag_run P s2 os rs s3 →
        bag_run P s (o :: os) (r :: rs) s3.
End Spec.

(** The calls that name an index, on the slice [h]: which element they are about, and exactly when
    they panic.  [Fix(-1)] is harmless in the binary heap only, [Fix(0)] also when it is empty. *)
Definition index_step {T} (binary : bool) (h : list T) (o : op T) (r : out T) (h' : list T) : Prop :=
  match o with
  | OpRemove i =>
      if decide (0 ≤ i < Z.of_nat (length h))%Z
      then ∃ x, h !! Z.to_nat i = Some x ∧ r = OVal x ∧ h ≡ₚ x :: h'
      else r = OPanic ∧ h' = h
  | OpFix i =>
      if decide ((0 ≤ i < Z.of_nat (length h))%Z ∨ i = 0%Z ∨ i = (-1)%Z ∧ binary = true)
      then r = OUnit ∧ h' ≡ₚ h
      else r = OPanic ∧ h' = h
  | OpSet i x =>
      if decide (i < length h) then r = OUnit ∧ h' ≡ₚ <[i:=x]> h else r = OPanic ∧ h' = h
  | OpPeek => h' = h ∧ r = match h with [] => OPanic | x :: _ => OVal x end
  | OpPop => match h with [] => r = OPanic ∧ h' = [] | x :: s => r = OVal x ∧ h' ≡ₚ s end
  | _ => True
  end.
