(** * What the batched statements should be and do *)
From stdpp Require Import gmap.
From Verif Require Import GoBase GoStr GormModel.
Local Open Scope Z_scope.

(** ** inserts *)
Record insert := Insert { in_table : gostr; in_cols : list gostr; in_rows : list (list val) }.
Definition quoted (f : gostr) : list tok := TB 96 :: text f ++ [TB 96].
(** insert into T(`c`,...) values (v,...),... *)
Definition insert_tokens (i : insert) : list tok :=
  text (str "insert into ") ++ text (in_table i) ++ TB 40 :: commas (quoted <$> in_cols i) ++ text (str ") values ") ++
  commas ((λ row, TB 40 :: values_of row ++ [TB 41]) <$> in_rows i).
(** the row holds, column by column, the record's values; NULL for columns the record lacks *)
Definition row_for (cols : list gostr) (m : fields) (row : list val) : Prop :=
  Forall2 (λ c v, v = match m !! c with Some x => x | None => VNull end) cols row.
(** the row stores exactly the record *)
Definition stores (cols : list gostr) (m : fields) (row : list val) : Prop :=
  length row = length cols ∧ list_to_map (zip cols row) = m.
Fixpoint n_values (st : stmt) : Z := match st with [] => 0 | TB _ :: r => n_values r | TV _ :: r => 1 + n_values r end.
(** no placeholder characters in a name *)
Definition plain (s : gostr) : Prop := 63 ∉ s.

(** ** updates *)
(** set f = case when id = ? then ? ... end, ... where id in (...) *)
Record update := Update { up_table : gostr; up_sets : list (gostr * list (Z * val)); up_ids : list Z }.
Definition case_tokens (c : Z * val) : list tok := text (str "when id = ") ++ TV (VInt c.1) :: text (str " then ") ++ TV c.2 :: [TB 32].
Definition set_tokens (s : gostr * list (Z * val)) : list tok := text s.1 ++ text (str "= case ") ++ (s.2 ≫= case_tokens) ++ text (str "end").
Definition update_tokens (u : update) : list tok :=
  text (str "update ") ++ text (up_table u) ++ text (str " set ") ++ commas (set_tokens <$> up_sets u) ++ text (str " where id in (") ++ values_of (VInt <$> up_ids u) ++ [TB 41].
(** its meaning (MySQL): rows whose id is listed; assignments from left to right, each seeing the
    earlier ones; a case without a match is NULL; NULL equals nothing *)
Notation trow := fields.
Definition col_id : gostr := str "id".
Fixpoint case_value (id : option val) (cs : list (Z * val)) : val :=
  match cs with [] => VNull | (k, v) :: r => if decide (id = Some (VInt k)) then v else case_value id r end.
Definition assign (r : trow) (s : gostr * list (Z * val)) : trow := <[s.1 := case_value (r !! col_id) s.2]> r.
Definition update_row (u : update) (r : trow) : trow :=
  match r !! col_id with
  | Some (VInt k) => if decide (k ∈ up_ids u) then foldl assign r (up_sets u) else r
  | _ => r
  end.
(** what is wanted: the row with the listed fields replaced *)
Definition wanted (m : updates) (r : trow) : trow :=
  match r !! col_id with
  | Some (VInt k) => match m !! k with Some f => f ∪ r | None => r end
  | _ => r
  end.
(** the orders are iterations over the map *)
Definition orders_for (m : updates) (o : orders) : Prop :=
  m !! (o_first o).1 = Some (o_first o).2 ∧ o_fields o ≡ₚ (map_to_list (o_first o).2).*1 ∧
  (∀ k, o_field o k ≡ₚ map_to_list m) ∧ o_last o ≡ₚ map_to_list m.
