(** * What InsertToTable should do *)
From stdpp Require Import gmap.
From Verif Require Import GoBase GoStr GormModel GormSpec InsModel.
Local Open Scope Z_scope.

(** ** INSERT INTO `t` (`c`,...) VALUES (v,...),...   or   INSERT INTO `t` VALUES() *)
Inductive istmt := IRows (table : gostr) (cols : list gostr) (rows : list (list val)) | IDefault (table : gostr).
Definition row_tokens (row : list val) : list tok := text (str "(") ++ commas ((λ v, [TV v]) <$> row) ++ text (str ")").
Definition istmt_tokens (s : istmt) : list tok :=
  match s with
  | IRows t cols rows => text (str "INSERT INTO ") ++ quoted t ++ text (str " (") ++ commas (quoted <$> cols) ++ text (str ") VALUES ") ++ commas (row_tokens <$> rows)
  | IDefault t => text (str "INSERT INTO ") ++ quoted t ++ text (str " VALUES()")
  end.
(** the rows it adds: columns that are not named take the table's defaults *)
Definition adds (defaults : fields) (s : istmt) (new : list fields) : Prop :=
  match s with
  | IRows _ cols rows =>
    NoDup cols ∧
    Forall2 (λ row r, length row = length cols ∧
      (∀ i c v, cols !! i = Some c → row !! i = Some v → r !! c = Some v) ∧ (∀ c, c ∉ cols → r !! c = defaults !! c)) rows new
  | IDefault _ => new = [defaults]
  end.
(** ** wanted: one row per record, with the record's fields and otherwise the defaults *)
Definition row_of (defaults m r : fields) : Prop := ∀ c, r !! c = match m !! c with Some v => Some v | None => defaults !! c end.
(** the statement sent, and the database's error passed on *)
Definition isent (db : list stmt → stmt → answer) (log : list stmt) (s : istmt) (out : list stmt * option ierr) : Prop :=
  out.1 = log ++ [istmt_tokens s] ∧
  match an_err (db log (istmt_tokens s)) with None => out.2 = None | Some x => out.2 = Some (IDatabase x) end.
(** the order of a range over a map *)
Definition any_range (order : nat → fields → list (gostr * val)) : Prop := ∀ i m, order i m ≡ₚ map_to_list m.
