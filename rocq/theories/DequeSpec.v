(** * Specification of Deque and Stack: plain sequences of values *)
From Verif Require Import GoBase ListModel.

Section DSpec.
  Context {T : Type}.
  (** [D !! d]: the values of deque d, front first. *)
  Implicit Types D : list (list T).
  Definition pop_out (o : option T) : lout T := match o with Some v => LValue v | None => LPanic end.
  Definition dspec_step D (o : dop T) : lout T * list (list T) :=
    let q d := default [] (D !! d) in
    match o with
    | DNew => (LList (length D), D ++ [[]])
    | DPushFront d v => (LUnit, <[d := v :: q d]> D)
    | DPushBack d v => (LUnit, <[d := q d ++ [v]]> D)
    | DPopFront d => (pop_out (head (q d)), <[d := tail (q d)]> D)
    | DPopBack d => (pop_out (last (q d)), <[d := removelast (q d)]> D)
    | DLen d => (LInt (Z.of_nat (length (q d))), D)
    | DEmpty d => (LBool (Nat.eqb (length (q d)) 0), D)
    end.
  (** [D !! d]: the values of stack d, most recently pushed first. *)
  Definition sspec_step D (o : sop T) : lout T * list (list T) :=
    let q d := default [] (D !! d) in
    match o with
    | SNew => (LList (length D), D ++ [[]])
    | SPush d v => (LUnit, <[d := v :: q d]> D)
    | SPop d => (pop_out (head (q d)), <[d := tail (q d)]> D)
    | SPeek d => (pop_out (head (q d)), D)
    | SLen d => (LInt (Z.of_nat (length (q d))), D)
    | SEmpty d => (LBool (Nat.eqb (length (q d)) 0), D)
    end.
  Definition dwho (o : dop T) : option nat :=
    match o with DNew => None | DPushFront d _ | DPushBack d _ | DPopFront d | DPopBack d | DLen d | DEmpty d => Some d end.
  Definition swho (o : sop T) : option nat :=
    match o with SNew => None | SPush d _ | SPop d | SPeek d | SLen d | SEmpty d => Some d end.
  Global Instance who_dec (w : option nat) n : Decision (∀ d, w = Some d → d < n).
  Proof. destruct w as [d|]; [destruct (decide (d < n))|]; [left; congruence|right; naive_solver|left; done]. Defined.
  (** Run the specification, as long as only containers that exist are used:
      [None] after a call on one that was never made. *)
  Fixpoint cspec {O : Type} (who : O → option nat) (f : list (list T) → O → lout T * list (list T)) D (ops : list O)
      : option (list (lout T)) :=
    match ops with
    | [] => Some []
    | o :: os => if decide (∀ d, who o = Some d → d < length D)
                 then cons (f D o).1 <$> cspec who f (f D o).2 os else None
    end.
End DSpec.
