(** * Properties C05-C06: Meap *)
From stdpp Require Import gmap.
From Verif Require Import GoBase HeapSpec MeapModel MeapSpec MeapProofs.

(** C05: any less function, any history. *)
Theorem meap_is_a_map : ∀ (K V : Type) `{Countable K} (lf : K * V → K * V → bool) (ops : list (mop K V)),
  let '(rs, _) := meap_run lf meap_new ops in ∃ M, map_run (λ _ _ _, True) ∅ ops rs M.
Proof. exact @meap_run_map. Qed.
Print Assumptions meap_is_a_map.

(** C06. *)
Theorem meap_pop_peek_minimal : ∀ (K V : Type) `{Countable K} (lf : K * V → K * V → bool),
  strict_weak lf → ∀ ops : list (mop K V),
  let '(rs, _) := meap_run lf meap_new ops in ∃ M, map_run (min_step lf) ∅ ops rs M.
Proof. exact @meap_run_min. Qed.
Print Assumptions meap_pop_peek_minimal.

Definition by_value (a b : nat * nat) : bool := Nat.ltb a.2 b.2.
Lemma by_value_sw : strict_weak by_value.
Proof. split; unfold by_value; intros; rewrite ?Nat.ltb_lt, ?Nat.ltb_ge in *; lia. Qed.

(** In-place updates up and down, removal of an inner key, stale keys. *)
Example meap_case :
  (meap_run by_value meap_new
    [MPush 1 10; MPush 2 20; MPush 3 5; MPush 3 30; MPush 2 1; MPeek; MRemove 1; MGet 1; MGet 3;
     MContains 2; MPop; MGet 2; MLen; MPop; MEmpty; MPop]).1 =
    [MUnit; MUnit; MUnit; MUnit; MUnit; MEntry 2 1; MUnit; MOpt None; MOpt (Some 30);
     MBool true; MEntry 2 1; MOpt None; MNat 1; MEntry 3 30; MBool true; MPanic].
Proof. by vm_compute. Qed.
