(** * gorm_tools: InsertToTable
    /repo/gorm_tools/gorm.go:21-31 for records given as a map[string]interface{} or a slice of such maps
    (or a pointer to either); records given as structs, whose columns gorm finds by reflection, are not
    modelled.  As in GwrapModel the table is given by name only, so gorm has no schema, and the handle
    is a fresh one (no Select or Omit, no hooks, CreateBatchSize 0).  Names are without dots and back
    quotes; a value is NULL, an integer or text.  The dialect is MySQL's. *)
From stdpp Require Import gmap sorting.
From Verif Require Import GoBase GoStr GormModel GwrapModel.
Local Open Scope Z_scope.

Inductive record_arg := One (m : fields) | Many (ms : list fields).
Inductive ierr := IEmptySlice | IDatabase (e : gostr).
(** clause.Values *)
Record cvalues := CValues { cv_cols : list gostr; cv_rows : list (list val) }.

(** callbacks.ConvertMapToValuesForCreate: the keys sorted; the row is made with its first value *)
Definition convert_map (m : fields) : cvalues :=
  let keys := sort_strings (map_to_list m).*1 in
  CValues keys (match keys with [] => [] | _ => [(λ k, default VNull (m !! k)) <$> keys] end).
(** callbacks.ConvertSliceOfMapToValuesForCreate: the map result holds, for every key of any record, one
    slot per record, nil at first; the ranges over the records' maps may come in any order *)
Notation result_map := (@gmap gostr (@list_eq_dec Z numbers.Z.eq_dec) (@list_countable Z numbers.Z.eq_dec Z_countable) (list val)).
Definition add_entry (n : nat) (i : nat) (res : result_map) (kv : gostr * val) : result_map :=
  let slots := match res !! kv.1 with Some s => s | None => replicate n VNull end in
  <[kv.1 := <[i := kv.2]> slots]> res.
Definition add_record (n : nat) (order : nat → fields → list (gostr * val)) (res : result_map) (im : nat * fields) : result_map :=
  foldl (add_entry n im.1) res (order im.1 im.2).
Definition collect (order : nat → fields → list (gostr * val)) (ms : list fields) : result_map :=
  foldl (add_record (length ms) order) ∅ (imap pair ms).
(** the columns sorted; row i takes slot i of every column; rows stay empty if there is no column *)
Definition convert_maps (order : nat → fields → list (gostr * val)) (ms : list fields) : cvalues :=
  let res := collect order ms in
  let cols := sort_strings (map_to_list res).*1 in
  CValues cols ((λ i, (λ c, default VNull (res !! c ≫= λ s : list val, s !! i)) <$> cols) <$> seq 0 (length ms)).

(** clause.Values.Build; the dialect writes VALUES() if there are no columns *)
Definition build_values (v : cvalues) : list tok :=
  match cv_cols v with
  | [] => text (str "VALUES()")
  | cols => TB 40 :: commas (quote <$> cols) ++ text (str ") VALUES ") ++
            commas ((λ row, TB 40 :: values_of row ++ [TB 41]) <$> cv_rows v)
  end.

Section insert.
  Context (db : list stmt → stmt → answer) (order : nat → fields → list (gostr * val)) (table : gostr).
  (** callbacks.Create *)
  Definition gorm_create (log : list stmt) (v : cvalues) : list stmt * option ierr :=
    let st := text (str "INSERT INTO ") ++ quote table ++ TB 32 :: build_values v in
    (log ++ [st], IDatabase <$> an_err (db log st)).
  (** gorm.go:21-31 *)
  Definition insert_to_table (log : list stmt) (r : record_arg) : list stmt * option ierr :=
    match r with
    | One m => gorm_create log (convert_map m)
    | Many [] => (log, Some IEmptySlice)
    | Many ms => gorm_create log (convert_maps order ms)
    end.
End insert.
