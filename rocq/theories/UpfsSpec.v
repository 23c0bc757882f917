(** * Where the files of a chunked upload are *)
From Verif Require Import GoStr PathModel FsModel FsSpec ConvModel.
Local Open Scope Z_scope.

(** a name: one component of a path, and not "." or ".." *)
Definition plain_name (c : gostr) : Prop := name c ∧ 47 ∉ c.
Definition bp_name : gostr := str "breakpointDir".
Definition done_name : gostr := str "fileDir".
(** the entry for chunk [n]; ConvProps.conv_canonical: [int_to_string] is the decimal numeral *)
Definition chunk_entry (file : gostr) (n : Z) : gostr := file ++ str "_" ++ int_to_string n.
Definition chunk_place (cwd : place) (md5 file : gostr) (n : Z) : place := cwd ++ [bp_name; md5; chunk_entry file n].
(** a place that is free or a directory, or that is free or a regular file *)
Definition may_dir (s : tree) (q : place) : Prop := s q = None ∨ s q = Some NDir.
Definition may_file (s : tree) (q : place) : Prop := s q = None ∨ ∃ x, s q = Some (NFile x).
(** what a place has as a file, nothing if there is none *)
Definition old_data (s : tree) (q : place) : gostr := match s q with Some (NFile x) => x | _ => [] end.
(** the working directory is there and can be searched, as everything can *)
Definition open_proc (P : proc) (s : tree) : Prop := s (cwd P) = Some NDir ∧ ∀ q, deny P q = false.
(** the answers of ReadDir are the entries of the tree *)
Definition lists (rd : place → list gostr) (s : tree) : Prop := ∀ d, NoDup (rd d) ∧ ∀ c, c ∈ rd d ↔ s (d ++ [c]) ≠ None.
(** one file written after some directories were created, or only the directories *)
Definition one_write (s s' : tree) (x : gostr) : Prop :=
  only_dirs_added s s' ∨ ∃ q, s q ≠ Some NDir ∧ (∀ t, s q ≠ Some (NLink t)) ∧ s' q = Some (NFile x) ∧ ∀ p, p ≠ q → s' p = s p ∨ (s p = None ∧ s' p = Some NDir).
(** an upload: chunk number, data, and after how many bytes the write fails if it does *)
Notation upload := (nat * gostr * option nat)%type.
(** the last upload of chunk [k] is complete and has the data [x] *)
Definition finally (us : list upload) (k : nat) (x : gostr) : Prop :=
  ∃ a b, us = a ++ (k, x, None) :: b ∧ Forall (λ u : upload, u.1.1 ≠ k) b.
