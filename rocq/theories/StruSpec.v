(** * What InsertToTable should do with structs *)
From stdpp Require Import gmap.
From Verif Require Import GoBase GoStr GormModel GormSpec StruModel.
Local Open Scope Z_scope.

(** ** INSERT INTO `t` (`c`,...) VALUES (v,...),...   or   INSERT INTO `t` VALUES(), with DEFAULT for a value *)
Inductive sstmt := SRows (table : gostr) (cols : list gostr) (rows : list (list cell)) | SNone (table : gostr).
Definition srow_tokens (row : list cell) : list tok :=
  text (str "(") ++ commas ((λ c, match c with CVal v => [TV v] | CDefault => text (str "DEFAULT") end) <$> row) ++ text (str ")").
Definition sstmt_tokens (s : sstmt) : list tok :=
  match s with
  | SRows t cols rows => text (str "INSERT INTO ") ++ quoted t ++ text (str " (") ++ commas (quoted <$> cols) ++ text (str ") VALUES ") ++ commas (srow_tokens <$> rows)
  | SNone t => text (str "INSERT INTO ") ++ quoted t ++ text (str " VALUES()")
  end.
(** the rows it adds; [dflt i] is what the table gives the i-th new row by itself, a generated key among others.
    MySQL refuses a statement that names a column twice. *)
Definition sadds (dflt : nat → fields) (s : sstmt) (new : list fields) : Prop :=
  match s with
  | SRows _ cols rows =>
    NoDup cols ∧ length new = length rows ∧
    ∀ i row r, rows !! i = Some row → new !! i = Some r →
      length row = length cols ∧
      (∀ j c v, cols !! j = Some c → row !! j = Some (CVal v) → r !! c = Some v) ∧
      (∀ j c, cols !! j = Some c → row !! j = Some CDefault → r !! c = dflt i !! c) ∧
      (∀ c, c ∉ cols → r !! c = dflt i !! c)
  | SNone _ => new = [dflt 0%nat]
  end.
(** ** wanted *)
(** a field that is not set *)
Definition unset (x : fval) : Prop := x = Plain (VInt 0) ∨ x = Plain (VStr []) ∨ x = Plain VNull ∨ x = Ptr None.
(** the row for a struct: what is set is stored; what is not set is the key or has a default of the table, then the
    table decides, or has a default in its tag, or is a time, then it is the present one, or is stored as it is *)
Definition row_for (fs : list sfield) (key : option gostr) (now : gostr → val) (dflt : fields) (s : structv) (r : fields) : Prop :=
  (∀ f, f ∈ fs → let c := f_col f in
    (¬ unset (s c) → r !! c = Some (value_of (s c))) ∧
    (unset (s c) → key = Some c ∨ f_def f = DbDefault → r !! c = dflt !! c) ∧
    (unset (s c) → key ≠ Some c → ∀ v, f_def f = TagDefault v → r !! c = Some v) ∧
    (unset (s c) → key ≠ Some c → f_def f = NoDefault → r !! c = Some (if f_time f then now c else value_of (s c)))) ∧
  ∀ c, c ∉ f_col <$> fs → r !! c = dflt !! c.
(** every field as it is, whatever its tag says *)
Definition plain_row (fs : list sfield) (s : structv) (r : fields) : Prop := ∀ f, f ∈ fs → f_time f = false → r !! f_col f = Some (value_of (s (f_col f))).
(** the statements that take effect, of those that the database accepts, and whether a transaction stays open *)
Fixpoint kept (ok : stmt → bool) (tx : option (list stmt)) (evs : list event) : list stmt :=
  match evs with
  | [] => []
  | EvBegin :: r => kept ok (Some []) r
  | EvExec st :: r => if ok st then match tx with Some l => kept ok (Some (l ++ [st])) r | None => st :: kept ok None r end else kept ok tx r
  | EvCommit :: r => default [] tx ++ kept ok None r
  | EvRollback :: r => kept ok None r
  end.
Fixpoint left_open (tx : bool) (evs : list event) : bool :=
  match evs with [] => tx | EvBegin :: r => left_open true r | EvExec _ :: r => left_open tx r | _ :: r => left_open false r end.
(** a sensible struct type: columns are different, the key is one of them, and as an integer key has no value in
    its tag *)
Record struct_type (fs : list sfield) (pk : option gostr) (auto : bool) : Prop := StructType {
  st_cols : NoDup (f_col <$> fs);
  st_key : ∀ c, pk = Some c → c ∈ f_col <$> fs;
  st_no_tag : ∀ f v, f ∈ fs → auto = true → pk = Some (f_col f) → f_def f ≠ TagDefault v }.
(** nothing has to be filled into a struct *)
Definition complete (fs : list sfield) (pk : option gostr) (s : structv) : Prop :=
  (∀ f, f ∈ fs → unset (s (f_col f)) → f_time f = false ∧ ∀ v, f_def f ≠ TagDefault v) ∧ ∀ c, pk = Some c → ¬ unset (s c).
(** the ways to pass structs; one by value only if it is complete *)
Definition given_as (fs : list sfield) (pk : option gostr) (d : data_arg) (ss : list structv) : Prop :=
  ss ≠ [] ∧ (d = Slice (Some <$> ss) ∨ ∃ s, ss = [s] ∧ (d = Pointer (Some s) ∨ (d = ByValue s ∧ complete fs pk s))).
(** the key that the table generates *)
Definition auto_key (pk : option gostr) (auto : bool) : option gostr := if auto then pk else None.

(** ** keys: AUTO_INCREMENT with its counter, for rows with a key or without *)
Fixpoint auto_ids (counter : Z) (given : list (option Z)) : list Z :=
  match given with
  | [] => []
  | Some v :: r => v :: auto_ids (Z.max counter (v + 1)) r
  | None :: r => counter :: auto_ids (counter + 1) r
  end.
(** the key that a struct brings along *)
Definition own_key (pk : gostr) (s : structv) : option Z := match s pk with Plain (VInt z) => if decide (z = 0) then None else Some z | _ => None end.
