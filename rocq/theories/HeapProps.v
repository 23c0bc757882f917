(** * Properties C01-C04: Heap, PriorityQueue, HeapN *)
From Verif Require Import GoBase HeapModel HeapSpec HeapProofs HeapMethods HeapHist HeapNProofs.

(** C01. *)
Theorem heap_pop_peek_minimum : ∀ (T : Type) (lf : T → T → bool), strict_weak lf →
  ∀ (init : list T) (ops : list (op T)),
  ∃ h0, heap_new lf init = Ret h0 ∧
    let '(rs, h') := heap_run lf h0 ops in bag_run (prio_step lf) init ops rs h'.
Proof. exact @heap_prio_from_new. Qed.
Print Assumptions heap_pop_peek_minimum.

(** Ties, duplicates, removal by index and change-then-Fix all occur here. *)
Example heap_pop_peek_minimum_case :
  let ops := [OpPush 3; OpPush 1; OpRemove 2; OpSet 0 9; OpPop; OpPeek; OpPop; OpLen; OpFix 7; OpPop] in
  strict_weak Nat.ltb ∧ heap_new Nat.ltb [5; 1; 4] = Ret [1; 5; 4] ∧
  (heap_run Nat.ltb [1; 5; 4] ops).1 =
    [OUnit; OUnit; OVal 4; OUnit; OVal 1; OVal 3; OVal 3; ONat 2; OPanic; OVal 5].
Proof. split; [exact nat_ltb_sw|]. by vm_compute. Qed.

(** C02. *)
Theorem heap_conserves_elements : ∀ (T : Type) (lf : T → T → bool) (init : list T) (ops : list (op T)),
  ∃ h0, heap_new lf init = Ret h0 ∧
    let '(rs, h') := heap_run lf h0 ops in bag_run (λ _ _ _, True) init ops rs h'.
Proof. exact @heap_bag_from_new. Qed.
Print Assumptions heap_conserves_elements.

(** The calls by index concern exactly the element at that index, whatever the slice holds. *)
Theorem heap_index_calls : ∀ (T : Type) (lf : T → T → bool) (h : list T) (o : op T),
  let '(r, h') := heap_step lf h o in index_step true h o r h'.
Proof. intros T lf h o. exact (gstep_index lf 2 (hdown lf) ltac:(lia) (hdown_total lf) h o). Qed.
Print Assumptions heap_index_calls.

Theorem heapn_index_calls : ∀ (T : Type) (lf : T → T → bool) (d : nat) (h : list T) (o : op T), 2 ≤ d →
  let '(r, h') := heapn_step lf d h o in index_step (bool_decide (d = 2)) h o r h'.
Proof. intros T lf d h o Hd. exact (gstep_index lf d (hdownN lf d) Hd (hdownN_total lf d ltac:(lia)) h o). Qed.
Print Assumptions heapn_index_calls.

Example heap_index_case :
  map (λ o, heap_step Nat.ltb [1; 5; 4] o)
    [OpRemove 1; OpRemove 3; OpFix (-1); OpFix (-2); OpFix 3; OpSet 0 7; OpPop] =
  [(OVal 5, [1; 4]); (OPanic, [1; 5; 4]); (OUnit, [1; 5; 4]); (OPanic, [1; 5; 4]); (OPanic, [1; 5; 4]);
   (OUnit, [4; 5; 7]); (OVal 1, [4; 5])].
Proof. by vm_compute. Qed.

(** An inconsistent order (always "less") still loses nothing. *)
Example heap_conserves_elements_case :
  heap_new (λ _ _ : nat, true) [5; 1; 4] = Ret [4; 1; 5] ∧
  heap_run (λ _ _ : nat, true) [4; 1; 5] [OpPush 1; OpRemove 2; OpPop; OpLen] =
    ([OUnit; OVal 5; OVal 1; ONat 2], [4; 1]).
Proof. by vm_compute. Qed.

(** C03. *)
Theorem pqueue_drain_sorted : ∀ (T : Type) (lf : T → T → bool), strict_weak lf →
  ∀ (init : list T) (ops : list (op T)),
  ∃ h0, pq_new lf init = Ret h0 ∧
    let '(_, h) := heap_run lf h0 ops in
    ∃ l, pq_drain lf (pq_len h) h = Ret (l, []) ∧ l ≡ₚ h ∧ non_decreasing lf l.
Proof. exact @pq_drain_from_new. Qed.
Print Assumptions pqueue_drain_sorted.

Example pqueue_drain_sorted_case :
  pq_new Nat.ltb [5; 1; 4; 1; 3] = Ret [1; 1; 4; 5; 3] ∧
  pq_drain Nat.ltb 5 [1; 1; 4; 5; 3] = Ret ([1; 1; 3; 4; 5], []).
Proof. by vm_compute. Qed.

(** pqueue.go:17-39: a history of calls of the queue's own methods; the calls by index are not offered *)
Definition pq_step {T} (lf : T → T → bool) (h : list T) (o : op T) : out T * list T :=
  match o with
  | OpPush x => fin h (pq_push lf h x) (λ h', (OUnit, h'))
  | OpPop => fin h (pq_pop lf h) (λ r, (OVal r.1, r.2))
  | OpPeek => fin h (pq_peek h) (λ x, (OVal x, h))
  | OpLen => (ONat (pq_len h), h)
  | OpEmpty => (OBool (pq_empty h), h)
  | _ => (OPanic, h)
  end.
Fixpoint pq_run {T} (lf : T → T → bool) (h : list T) (ops : list (op T)) : list (out T) * list T :=
  match ops with
  | [] => ([], h)
  | o :: os => let '(r, h1) := pq_step lf h o in let '(rs, h2) := pq_run lf h1 os in (r :: rs, h2)
  end.
Lemma pq_run_heap {T} (lf : T → T → bool) ops : Forall no_index_op ops → ∀ h, pq_run lf h ops = heap_run lf h ops.
Proof.
  induction 1 as [|o ops Ho _ IH]; intros h; [done|]. simpl.
  assert (E : pq_step lf h o = heap_step lf h o) by (by destruct o). unfold heap_step in E. rewrite E. unfold heap_run. simpl. destruct (gstep _ _ _ _ _) as [r h1]. rewrite IH. unfold heap_run. by destruct (grun _ _ _ _ _).
Qed.
Theorem pqueue_minimum : ∀ (T : Type) (lf : T → T → bool), strict_weak lf → ∀ (init : list T) (ops : list (op T)), Forall no_index_op ops →
  ∃ h0, pq_new lf init = Ret h0 ∧ let '(rs, h') := pq_run lf h0 ops in bag_run (prio_step lf) init ops rs h'.
Proof.
  intros T lf SW init ops Ho. destruct (heap_prio_from_new lf SW init ops) as (h0 & E & H). exists h0. split; [exact E|]. by rewrite pq_run_heap.
Qed.
Print Assumptions pqueue_minimum.
Example pqueue_minimum_case : pq_run Nat.ltb [1; 5; 4] [OpEmpty; OpPush 0; OpPeek; OpLen; OpPop; OpPop; OpPop; OpPop; OpEmpty; OpPop] =
  ([OBool false; OUnit; OVal 0; ONat 4; OVal 0; OVal 1; OVal 4; OVal 5; OBool true; OPanic], []).
Proof. by vm_compute. Qed.

(** C04.  The property as stated is false: a run over nat keys from an empty
    heap is a priority-queue run for every operation sequence exactly when the
    arity is 4, and with Push/Pop/Peek/Len only exactly when it is 3 or 4. *)
Theorem heapn_minimum_refuted : ∃ d, 2 ≤ d ∧ heapn_new (T := nat) (Z.of_nat d) = Ret [] ∧
  ¬ heapn_correct no_index_op d.
Proof. exact (ex_intro _ 2 (conj (le_n 2) (conj eq_refl heapn2_refuted))). Qed.
Print Assumptions heapn_minimum_refuted.

Theorem heapn_minimum_iff_arity_4 : ∀ d, 2 ≤ d → heapn_correct (λ _, True) d ↔ d = 4.
Proof. exact heapn_correct_iff. Qed.
Print Assumptions heapn_minimum_iff_arity_4.

Theorem heapn_minimum_push_pop_iff : ∀ d, 2 ≤ d → heapn_correct no_index_op d ↔ d = 3 ∨ d = 4.
Proof. exact heapn_correct_pp_iff. Qed.
Print Assumptions heapn_minimum_push_pop_iff.

(** The positive parts, for every element type and order. *)
Theorem heapn_minimum_arity_4_partial : ∀ (T : Type) (lf : T → T → bool) (ops : list (op T)),
  strict_weak lf →
  let '(rs, h') := heapn_run lf 4 [] ops in bag_run (prio_step lf) [] ops rs h'.
Proof. exact @heapn4_prio. Qed.
Print Assumptions heapn_minimum_arity_4_partial.

Theorem heapn_minimum_arity_3_partial : ∀ (T : Type) (lf : T → T → bool) (ops : list (op T)),
  strict_weak lf → Forall no_index_op ops →
  let '(rs, h') := heapn_run lf 3 [] ops in bag_run (prio_step lf) [] ops rs h'.
Proof. exact @heapn3_prio. Qed.
Print Assumptions heapn_minimum_arity_3_partial.

(** Whatever the arity and the order, nothing is lost or duplicated. *)
Theorem heapn_conserves_elements : ∀ (T : Type) (lf : T → T → bool) (d : nat) (ops : list (op T)), 2 ≤ d →
  let '(rs, h') := heapn_run lf d [] ops in bag_run (λ _ _ _, True) [] ops rs h'.
Proof. exact @heapn_bag. Qed.
Print Assumptions heapn_conserves_elements.

Theorem heapn_new_rejects_below_2 : ∀ (T : Type) (d : Z),
  (∃ h : list T, heapn_new d = Ret h) ↔ (2 ≤ d)%Z.
Proof. exact @heapn_new_iff. Qed.
Print Assumptions heapn_new_rejects_below_2.

Example heapn_arity_4_case :
  (heapn_run Nat.ltb 4 [] (pushes [9; 4; 7; 4; 1; 8] ++ [OpPop; OpRemove 1; OpPop; OpPop])).1 =
    replicate 6 OUnit ++ [OVal 1; OVal 8; OVal 4; OVal 4].
Proof. by vm_compute. Qed.
Example heapn_arity_5_case :
  (heapn_run Nat.ltb 5 [] cex5).1 = replicate 7 OUnit ++ [OVal 0; OVal 5; OVal 1].
Proof. by vm_compute. Qed.
