(** * What the file helpers should do *)
From Verif Require Import GoBase GoStr FilesModel.
Local Open Scope Z_scope.

(** a leaf of the tree, with the names on the way to it *)
Inductive leaf : node → list gostr → Prop :=
  | leaf_file b cs name : (name, File) ∈ cs → leaf (Dir b cs) [name]
  | leaf_dir b cs name b' cs' p : (name, Dir b' cs') ∈ cs → leaf (Dir b' cs') p → leaf (Dir b cs) (name :: p).
(** every directory can be read *)
Inductive readable : node → Prop :=
  | rd_file : readable File
  | rd_dir cs : Forall (λ p, readable p.2) cs → readable (Dir true cs).
(** names in a directory are distinct, not empty and without slashes *)
Inductive proper : node → Prop :=
  | pr_file : proper File
  | pr_dir b cs : NoDup cs.*1 → Forall (λ p, p.1 ≠ [] ∧ 47 ∉ p.1 ∧ proper p.2) cs → proper (Dir b cs).
(** the path string of a leaf *)
Definition path_of (dir : gostr) (p : list gostr) : gostr := dir ++ (p ≫= λ name, [47] ++ name).
