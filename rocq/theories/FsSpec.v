(** * What a path denotes in a file tree, and changes of the tree *)
From Verif Require Import GoStr PathModel FsModel.
Local Open Scope Z_scope.

Definition name (c : gostr) : Prop := c ≠ [] ∧ c ≠ str "." ∧ c ≠ str "..".
(** the components [cs], followed from the directory [cur], lead to a place, through [k] links *)
Inductive leads (deny : place → bool) (s : tree) (follow : bool) : nat → place → list gostr → place → Prop :=
| leads_end cur : leads deny s follow 0 cur [] cur
| leads_slash k cur r p : s cur = Some NDir → leads deny s follow k cur r p → leads deny s follow k cur ([] :: r) p
| leads_here k cur r p : s cur = Some NDir → deny cur = false → leads deny s follow k cur r p → leads deny s follow k cur (str "." :: r) p
| leads_up k cur r p : s cur = Some NDir → deny cur = false → leads deny s follow k (up cur) r p → leads deny s follow k cur (str ".." :: r) p
| leads_dir k cur c r p : name c → s cur = Some NDir → deny cur = false → s (cur ++ [c]) = Some NDir → leads deny s follow k (cur ++ [c]) r p → leads deny s follow k cur (c :: r) p
| leads_file cur c x : name c → s cur = Some NDir → deny cur = false → s (cur ++ [c]) = Some (NFile x) → leads deny s follow 0 cur [c] (cur ++ [c])
| leads_link_self cur c t : name c → s cur = Some NDir → deny cur = false → s (cur ++ [c]) = Some (NLink t) → follow = false → leads deny s follow 0 cur [c] (cur ++ [c])
| leads_link k cur c t r p : name c → s cur = Some NDir → deny cur = false → s (cur ++ [c]) = Some (NLink t) → follow = true ∨ r ≠ [] → leads deny s follow k (if is_abs t then [] else cur) (comps t ++ r) p → leads deny s follow (S k) cur (c :: r) p.
Definition denotes_place (P : proc) (s : tree) (follow : bool) (k : nat) (p : gostr) (q : place) : Prop :=
  p ≠ [] ∧ leads (deny P) s follow k (if is_abs p then [] else cwd P) (comps p) q.
(** a well-formed tree: the root is a directory, everything is in a directory *)
Definition good_tree (s : tree) : Prop := s [] = Some NDir ∧ ∀ p c, s (p ++ [c]) ≠ None → s p = Some NDir.
(** there is the node [n] at the path; the system follows at most forty links *)
Definition at_path (P : proc) (s : tree) (follow : bool) (p : gostr) (n : node) : Prop :=
  ∃ k q, (k ≤ 40)%nat ∧ denotes_place P s follow k p q ∧ s q = Some n.
(** nothing changed but for new directories *)
Definition only_dirs_added (s s' : tree) : Prop := ∀ q, s' q = s q ∨ (s q = None ∧ s' q = Some NDir).
(** what was at [a] and below is now at [b], nothing is at [a], everything that is neither is as before *)
Definition moved (s s' : tree) (a b : place) : Prop :=
  (∀ r, s' (b ++ r) = s (a ++ r)) ∧ (∀ r, s' (a ++ r) = None) ∧ ∀ q, ¬ a `prefix_of` q → ¬ b `prefix_of` q → s' q = s q.
Definition removed (s s' : tree) (a : place) : Prop := (∀ r, s' (a ++ r) = None) ∧ ∀ q, ¬ a `prefix_of` q → s' q = s q.
(** the path names an entry of a directory: its last component is not followed, slashes at the end do not count *)
Definition entry_at (P : proc) (s : tree) (p : gostr) (q : place) : Prop :=
  ∃ pre c n k d, comps p = pre ++ c :: replicate n [] ∧ name c ∧ (k ≤ 40)%nat ∧
    leads (deny P) s true k (if is_abs p then [] else cwd P) pre d ∧ s d = Some NDir ∧ deny P d = false ∧ q = d ++ [c].
