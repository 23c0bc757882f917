(** * What the helpers around the process should do *)
From Verif Require Import GoStr PathModel FsModel FsSpec.
Local Open Scope Z_scope.

(** there is something to be read at the path: a file, behind at most forty links *)
Definition readable (P : proc) (s : tree) (p data : gostr) : Prop := at_path P s true p (NFile data).
(** os.Getwd tells the working directory *)
Definition proper_wd (P : proc) : Prop := wd P = path_str (cwd P) ∧ Forall (λ c, name c ∧ 47 ∉ c) (cwd P).
(** the lines of a script *)
Fixpoint script (lines : list gostr) : gostr := match lines with [] => [] | l :: r => l ++ match r with [] => [] | _ => 10 :: script r end end.
