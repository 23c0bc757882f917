(** * Properties C07-C09: Reap *)
From Verif Require Import GoBase HeapSpec HeapNProofs ReapModel ReapSpec ReapProofs.

(** C07: any number of reaps, any less function, any history in which handles
    are used with the reap that issued them (dead handles included). *)
Theorem reap_handles_exact : ∀ (T : Type) (lf : T → T → bool) (ops : list (rop T)),
  hrun (λ _ _ _, True) (HSpec 0 []) ops (wrun lf wnew ops).1.
Proof. exact @reap_run_handles. Qed.
Print Assumptions reap_handles_exact.

(** C08. *)
Theorem reap_pop_peek_minimum : ∀ (T : Type) (lf : T → T → bool), strict_weak lf →
  ∀ ops : list (rop T), hrun (hmin lf) (HSpec 0 []) ops (wrun lf wnew ops).1.
Proof. exact @reap_run_min. Qed.
Print Assumptions reap_pop_peek_minimum.

(** Two reaps, an update in each direction, repeated use of a dead handle. *)
Example reap_case :
  (wrun Nat.ltb wnew
    [RNew; RNew; RPush 0 5; RPush 1 4; RPush 0 3; RPush 0 9; RSet 0 3 1; RPeek 0; RSet 0 2 7;
     RRemove 0 3; RRemove 0 3; RSet 0 3 0; RValue 3; RLen 0; RPop 0; RPop 1; RPop 1; RPop 0; REmpty 0]).1 =
    [RReap 0; RReap 1; RHandle 0; RHandle 1; RHandle 2; RHandle 3; RBool true; RVal 1; RBool true;
     RBool true; RBool false; RBool false; RVal 1; RNat 2; RVal 5; RVal 4; RPanic; RVal 7; RBool true].
Proof. by vm_compute. Qed.

(** C09 as stated is false: Remove on reap 0 with a live handle of reap 1 deletes an element of
    reap 0 and reports success; SetValue changes the foreign entry and reports success. *)
Theorem reap_foreign_handle_refuted : ∃ ops : list (rop nat),
  (wrun Nat.ltb wnew (ops ++ [RLen 0])).1 =
     [RReap 0; RReap 1; RHandle 0; RHandle 1; RNat 1] ∧
  (wrun Nat.ltb wnew (ops ++ [RRemove 0 1; RLen 0; RLen 1])).1 =
     [RReap 0; RReap 1; RHandle 0; RHandle 1; RBool true; RNat 0; RNat 1].
Proof. exact reap_foreign_witness. Qed.
Print Assumptions reap_foreign_handle_refuted.

(** What does hold: any dead handle, foreign or not, is rejected without effect ... *)
Theorem reap_dead_handle_rejected_partial : ∀ (T : Type) (lf : T → T → bool) (w : world T) (r e : nat) (v x : T),
  r < length (ws w) → we w !! e = Some (x, (-1)%Z) →
  wstep lf w (RRemove r e) = (RBool false, w) ∧ wstep lf w (RSet r e v) = (RBool false, w).
Proof. exact @reap_dead_rejected. Qed.
Print Assumptions reap_dead_handle_rejected_partial.

(** ... and a live foreign handle acts exactly like the handle of this reap at the same position. *)
Theorem reap_foreign_acts_as_same_index : ∀ (T : Type) (lf : T → T → bool) (w : world T) (r e f : nat) (x y : T) (i : Z),
  we w !! e = Some (x, i) → we w !! f = Some (y, i) →
  wstep lf w (RRemove r e) = wstep lf w (RRemove r f).
Proof. exact @reap_same_index. Qed.
Print Assumptions reap_foreign_acts_as_same_index.

Example reap_foreign_case :
  let w := (wrun Nat.ltb wnew [RNew; RNew; RPush 0 5; RPush 1 7; RPush 1 8; RPop 1]).2 in
  1 < length (ws w) ∧ we w !! 1 = Some (7, (-1)%Z) ∧ we w !! 0 = Some (5, 0%Z) ∧ we w !! 2 = Some (8, 0%Z).
Proof. vm_compute. split_and!; [lia|done..]. Qed.
