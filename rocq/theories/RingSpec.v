(** * Specification of the ring buffers: bounded and growing FIFO queues *)
From Verif Require Import GoBase RingModel.
Local Open Scope Z_scope.

Section RSpec.
  Context {T : Type}.
  (** contents (oldest first) and capacity *)
  Implicit Types s : list T * Z.

  Definition take_out s (n : Z) : list T * (list T * Z) :=
    (take (Z.to_nat n) s.1, (drop (Z.to_nat n) s.1, s.2)).

  (** The operations both kinds share. *)
  Definition queue_step s (o : bop T) : bout T * (list T * Z) :=
    match o with
    | BPop => match s.1 with x :: q => (BVal x, (q, s.2)) | [] => (BPanic, s) end
    | BPeek => match s.1 with x :: _ => (BVal x, s) | [] => (BPanic, s) end
    | BMPop n => let '(out, s') := take_out s n in (BSlice out, s')
    | BMPopCopy dst => let '(out, s') := take_out s (Z.of_nat (length dst)) in
                       (BSlice (out ++ drop (length out) dst), s')
    | BReset => (BUnit, ([], s.2))
    | BCap => (BInt s.2, s)
    | BLen => (BInt (Z.of_nat (length s.1)), s)
    | BAvail => (BInt (s.2 - Z.of_nat (length s.1)), s)
    | BEmpty => (BBool (bool_decide (s.1 = [])), s)
    | BFull => (BBool (bool_decide (Z.of_nat (length s.1) = s.2)), s)
    | BPush _ | BMPush _ | BGrow _ => (BUnit, s)
    end.
  (** fixed capacity: Push panics when full, MPush keeps the prefix that fits *)
  Definition bounded_step s (o : bop T) : bout T * (list T * Z) :=
    match o with
    | BPush e => if decide (Z.of_nat (length s.1) < s.2) then (BUnit, (s.1 ++ [e], s.2)) else (BPanic, s)
    | BMPush es => (BUnit, (s.1 ++ take (Z.to_nat (s.2 - Z.of_nat (length s.1))) es, s.2))
    | _ => queue_step s o
    end.
  (** growing: the capacity at least doubles, to at least what is asked for, and
      to at least 2; over 2^63-1 the call panics without effect *)
  Definition grown (c need : Z) : option Z :=
    if decide (Z.max (2 * c) need ≤ 2 ^ 63 - 1) then Some (Z.max 2 (Z.max (2 * c) need)) else None.
  Definition growing_step s (o : bop T) : bout T * (list T * Z) :=
    match o with
    | BPush e => if decide (Z.of_nat (length s.1) < s.2) then (BUnit, (s.1 ++ [e], s.2))
                 else match grown s.2 (s.2 + 1) with Some c => (BUnit, (s.1 ++ [e], c)) | None => (BPanic, s) end
    | BMPush es => if decide (Z.of_nat (length s.1 + length es) ≤ s.2) then (BUnit, (s.1 ++ es, s.2))
                   else match grown s.2 (s.2 + Z.of_nat (length es)) with Some c => (BUnit, (s.1 ++ es, c)) | None => (BPanic, s) end
    | BGrow n => match grown s.2 n with Some c => (BUnit, (s.1, c)) | None => (BPanic, s) end
    | _ => queue_step s o
    end.
  Fixpoint srun (step : list T * Z → bop T → bout T * (list T * Z)) s (ops : list (bop T)) : list (bout T) :=
    match ops with
    | [] => []
    | o :: os => (step s o).1 :: srun step (step s o).2 os
    end.

  (** elements handed to Push and MPush over a history *)
  Definition offered (ops : list (bop T)) : nat :=
    foldr (λ o n, match o with BPush _ => S n | BMPush es => (length es + n)%nat | _ => n end) 0%nat ops.
  (** arguments are representable: uint64 counts, slices no longer than MaxInt64 *)
  Definition args_ok (o : bop T) : Prop :=
    match o with
    | BMPop n | BGrow n => 0 ≤ n < 2 ^ 64
    | BMPush es | BMPopCopy es => Z.of_nat (length es) < 2 ^ 63
    | _ => True
    end.
  Definition is_grow (o : bop T) : Prop := match o with BGrow _ => True | _ => False end.
  (** MPopCopy while the capacity is 0, anywhere in the history *)
  Fixpoint no_copy_at_zero s (ops : list (bop T)) : Prop :=
    match ops with
    | [] => True
    | o :: os => (match o with BMPopCopy _ => s.2 ≠ 0 | _ => True end) ∧ no_copy_at_zero (growing_step s o).2 os
    end.
End RSpec.
