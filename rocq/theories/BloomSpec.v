(** * Specification of the Bloom filter *)
From Verif Require Import GoBase BloomModel.
Local Open Scope Z_scope.

(** the elements added since the last Clear *)
Definition live1 (acc : list Z) (o : fop) : list Z :=
  match o with FAdd h => h :: acc | FAddBytes b | FAddString b => fnv64 b :: acc | FClear => [] end.
Definition live (ops : list fop) : list Z := foldl live1 [] ops.
(** the bit a seed probes for a hash *)
Definition probe (cnt h seed : Z) : Z := Z.lxor h seed mod cnt.
Definition covered (cnt : Z) (seeds : list Z) (added : list Z) (h : Z) : Prop :=
  ∀ s, s ∈ seeds → ∃ h' s', h' ∈ added ∧ s' ∈ seeds ∧ probe cnt h s = probe cnt h' s'.
(** arguments are values of Go's types *)
Definition fop_ok (o : fop) : Prop := match o with FAdd h => is_u64 h | FAddBytes b | FAddString b => Forall (λ x, 0 ≤ x < 256) b | FClear => True end.
