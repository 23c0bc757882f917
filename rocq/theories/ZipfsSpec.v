(** * Replacing text, names of archive entries, and what an archive should leave behind *)
From Verif Require Import GoStr PathModel FsModel FsSpec UpfsSpec.
Local Open Scope Z_scope.

(** every occurrence of [old], found from the left and without overlaps, is replaced *)
Definition occurs (old s : gostr) (j : nat) : Prop := ∃ t, drop j s = old ++ t.
Inductive replaced (old new : gostr) : gostr → gostr → Prop :=
| replaced_end s : (∀ j, ¬ occurs old s j) → replaced old new s s
| replaced_step a b b' : (∀ j, (j < length a)%nat → ¬ occurs old (a ++ old ++ b) j) → replaced old new b b' → replaced old new (a ++ old ++ b) (a ++ new ++ b').
(** the names on a path: empty components and "." do not count *)
Definition parts (n : gostr) : list gostr := filter (λ c, c ≠ [] ∧ c ≠ str ".") (comps n).
(** an entry for a directory: by its mode or by a slash at the end of its name *)
Definition dir_entry (e : entry) : Prop := e_isdir e = true ∨ last (e_name e) = Some 47.
(** an entry name that leads nowhere else: no "..", and not absolute if there is no destination *)
Definition inside (dest n : gostr) : Prop := str ".." ∉ comps n ∧ (dest ≠ [] ∨ is_abs n = false).
(** no other entry is at the place of a file or below it *)
Definition separate (es : list entry) : Prop :=
  ∀ i j a b, es !! i = Some a → es !! j = Some b → i ≠ j → ¬ dir_entry a → ¬ parts (e_name a) `prefix_of` parts (e_name b).
(** the destination: a path of names, from the root or the working directory *)
Definition dest_names (dest : gostr) (cs : list gostr) : Prop := p_comps (clean dest) = cs ∧ Forall plain_name cs.
Definition base_place (P : proc) (p : gostr) : place := if is_abs p then [] else cwd P.
(** the path leads to a regular file elsewhere than [q] *)
Definition source (P : proc) (s : tree) (q : place) (f x : gostr) : Prop := ∃ k p, (k ≤ 40)%nat ∧ denotes_place P s true k f p ∧ s p = Some (NFile x) ∧ p ≠ q.
(** directories were added on the way to [d]; at [d] and below no directory was changed and no link was made *)
Definition contained (s s' : tree) (d : place) : Prop :=
  ∀ q, s' q = s q ∨ (s q = None ∧ s' q = Some NDir ∧ q `prefix_of` d) ∨ (d `prefix_of` q ∧ s q ≠ Some NDir ∧ ∀ t, s' q ≠ Some (NLink t)).
(** no links on the way from [st] along [cs], nor below *)
Definition no_links (s : tree) (st cs : place) : Prop := (∀ i t, s (st ++ take i cs) ≠ Some (NLink t)) ∧ ∀ r t, s (st ++ cs ++ r) ≠ Some (NLink t).
(** where an entry goes, and that there is room for it: directories or nothing on the way, at its place a
    regular file or nothing, or for a directory entry a directory or nothing *)
Definition entry_place (P : proc) (dest : gostr) (cs : list gostr) (e : entry) : place := base_place P dest ++ cs ++ parts (e_name e).
Definition room (P : proc) (s : tree) (dest : gostr) (cs : list gostr) (e : entry) : Prop :=
  (∀ i, (i < length (cs ++ parts (e_name e)))%nat → may_dir s (base_place P dest ++ take i (cs ++ parts (e_name e)))) ∧
  (dir_entry e → may_dir s (entry_place P dest cs e)) ∧ (¬ dir_entry e → parts (e_name e) ≠ [] ∧ may_file s (entry_place P dest cs e)).
(** every entry is at its place, and nothing else changed but for new directories on the way *)
Definition extracted (P : proc) (s s' : tree) (dest : gostr) (cs : list gostr) (es : list entry) : Prop :=
  (∀ e, e ∈ es → (dir_entry e → s' (entry_place P dest cs e) = Some NDir) ∧ (¬ dir_entry e → s' (entry_place P dest cs e) = Some (NFile (e_data e)))) ∧
  ∀ p, (∀ e, e ∈ es → ¬ dir_entry e → p ≠ entry_place P dest cs e) → s' p = s p ∨ (s p = None ∧ s' p = Some NDir ∧ ∃ e, e ∈ es ∧ p `prefix_of` entry_place P dest cs e).
