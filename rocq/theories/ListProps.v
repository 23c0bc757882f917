(** * Properties C10-C13: List, Deque, Stack *)
From stdpp Require Import gmap.
From Verif Require Import GoBase GoState ListModel ListSpec ListRefine DequeSpec DequeProofs.

(** C10: every result of every call on any number of lists made by New is the
    one the sequence specification gives, whatever handles (of this list, of
    another list, or removed) are passed. *)
Theorem list_is_a_sequence : ∀ (T : Type) (ops : list (lop T)),
  Forall no_clear_no_zero ops → all_calls exists_ok lspec0 ops →
  (lrun lmem0 ops).1 = (lspec_run lspec0 ops).1.
Proof. exact @list_refines_plain. Qed.
Print Assumptions list_is_a_sequence.

(** Two lists, foreign and removed handles, self-append. *)
Definition list_case_ops : list (lop nat) :=
  [LNew; LNew; LPushBack 0 10; LPushFront 0 11; LInsAfter 0 12 1; LPushBack 1 20; LRemove 0 3; LMoveBack 0 1;
   LPushBackList 0 0; LRemove 0 0; LRemove 0 0; LInsBefore 0 5 0; LMoveBefore 0 6 2; LMoveAfter 0 2 4; LPushFrontList 1 0;
   LFront 0; LNext 6; LNext 2; LNext 4; LPrev 2; LLen 0; LLen 1; LRemoveBack 0; LBack 1; LPrev 3; LRemoveFront 0; LEmpty 0; LVal 0].
Example list_case : Forall no_clear_no_zero list_case_ops ∧ all_calls exists_ok lspec0 list_case_ops ∧
  (lrun lmem0 list_case_ops).1 =
    [LList 0; LList 1; LElem (Some (inr 0)); LElem (Some (inr 1)); LElem (Some (inr 2)); LElem (Some (inr 3)); LValue 20; LUnit;
     LUnit; LValue 10; LValue 10; LElem None; LUnit; LUnit; LUnit;
     LElem (Some (inr 6)); LElem (Some (inr 1)); LElem (Some (inr 5)); LElem (Some (inr 2)); LElem (Some (inr 4)); LInt 5; LInt 6; LValue 10;
     LElem (Some (inr 3)); LElem (Some (inr 7)); LValue 11; LBool false; LValue 10].
Proof.
  split; [unfold list_case_ops; repeat constructor|]. split; [|by vm_compute].
  unfold list_case_ops. repeat (split; [vm_compute; lia|]). done.
Qed.

(** C11 as stated is false twice: a handle obtained before Clear still acts on the list ... *)
Theorem list_clear_forgets_refuted : ∃ ops : list (lop nat),
  (lrun lmem0 ops).1 = [LList 0; LElem (Some (inr 0)); LUnit; LInt 0; LValue 7; LInt (-1)] ∧
  ops = [LNew; LPushBack 0 7; LClear 0; LLen 0; LRemove 0 0; LLen 0] ∧
  (lspec_run lspec0 ops).1 = [LList 0; LElem (Some (inr 0)); LUnit; LInt 0; LValue 7; LInt 0].
Proof. eexists. split_and!; [|reflexivity|]; by vm_compute. Qed.
Print Assumptions list_clear_forgets_refuted.
(** ... and a zero List panics on its first insertion. *)
Theorem list_zero_value_refuted : ∃ ops : list (lop nat),
  (lrun lmem0 ops).1 = [LList 0; LInt 0; LPanic] ∧
  ops = [LZero; LLen 0; LPushBack 0 7] ∧
  (lspec_run lspec0 ops).1 = [LList 0; LInt 0; LElem (Some (inr 0))].
Proof. eexists. split_and!; [|reflexivity|]; by vm_compute. Qed.
Print Assumptions list_zero_value_refuted.

(** What does hold, with Clear and zero values allowed: everything follows the
    specification as long as no handle that was in a list when it was cleared
    is used with that list or asked for its neighbours ([not_stale]), and
    nothing is inserted into a zero list before Clear ([not_zero]). *)
Theorem list_clear_and_zero_partial : ∀ (T : Type) (ops : list (lop T)),
  all_calls (λ H o, exists_ok H o ∧ not_stale H o ∧ not_zero H o) lspec0 ops →
  (lrun lmem0 ops).1 = (lspec_run lspec0 ops).1.
Proof. exact @list_refines. Qed.
Print Assumptions list_clear_and_zero_partial.

Definition list_clear_ops : list (lop nat) :=
  [LZero; LLen 0; LFront 0; LRemoveFront 0; LPushBackList 0 0; LClear 0; LPushBack 0 1; LPushBack 0 2; LNew; LPushBack 1 3;
   LClear 0; LEmpty 0; LRemove 1 0; LInsAfter 1 4 1; LPushFront 0 5; LFront 0; LNext 3; LLen 0; LVal 1].
Example list_clear_case :
  all_calls (λ H o, exists_ok H o ∧ not_stale H o ∧ not_zero H o) lspec0 list_clear_ops ∧
  (lrun lmem0 list_clear_ops).1 =
   [LList 0; LInt 0; LElem None; LPanic; LUnit; LUnit; LElem (Some (inr 0)); LElem (Some (inr 1)); LList 1; LElem (Some (inr 2));
    LUnit; LBool true; LValue 1; LElem None; LElem (Some (inr 3)); LElem (Some (inr 3)); LElem None; LInt 1; LValue 2].
Proof.
  split; [|by vm_compute]. unfold list_clear_ops.
  repeat (split; [split; [vm_compute; lia|split; [|first [done|by vm_compute; auto]]]; vm_compute; first [done|set_solver]|]). done.
Qed.

(** C12: any number of deques; [cspec] is [None] only for a history that uses a deque never made. *)
Theorem deque_is_double_ended_queue : ∀ (T : Type) (ops : list (dop T)) (out : list (lout T)),
  cspec dwho dspec_step [] ops = Some out → (steps dstep lmem0 ops).1 = out.
Proof. exact @deque_refines. Qed.
Print Assumptions deque_is_double_ended_queue.
Example deque_case : let ops := [DNew; DNew; DPushBack 0 1; DPushBack 0 2; DPushFront 0 3; DPushFront 1 9; DPopBack 0; DPopFront 0; DLen 0; DPopBack 0; DPopBack 0;
      DEmpty 0; DPopFront 0; DPopFront 1] in
  let out := [LList 0; LList 1; LUnit; LUnit; LUnit; LUnit; LValue 2; LValue 3; LInt 1; LValue 1; LPanic; LBool true; LPanic; LValue 9] in
  cspec dwho dspec_step [] ops = Some out ∧ (steps dstep lmem0 ops).1 = out.
Proof. by vm_compute. Qed.

(** C13. *)
Theorem stack_is_lifo : ∀ (T : Type) (ops : list (sop T)) (out : list (lout T)),
  cspec swho sspec_step [] ops = Some out → (steps sstep lmem0 ops).1 = out.
Proof. exact @stack_refines. Qed.
Print Assumptions stack_is_lifo.
Example stack_case : let ops := [SNew; SPush 0 1; SPush 0 2; SPeek 0; SPop 0; SPush 0 3; SPop 0; SLen 0; SPop 0; SPop 0; SPeek 0; SEmpty 0] in
  let out := [LList 0; LUnit; LUnit; LValue 2; LValue 2; LUnit; LValue 3; LInt 1; LValue 1; LPanic; LPanic; LBool true] in
  cspec swho sspec_step [] ops = Some out ∧ (steps sstep lmem0 ops).1 = out.
Proof. by vm_compute. Qed.
