(** * gorm_tools: InsertToTable for records given as structs
    /repo/gorm_tools/gorm.go:21-31 for a struct, a pointer to one, or a slice of structs or of pointers to them (or a
    pointer to a slice), e.g. with the BaseModel of gorm.go:13-18; maps are in InsModel.v.  gorm 1.24.6 from memory:
    schema.Parse after the fields are known, callbacks.{BeginTransaction,Create,CommitOrRollbackTransaction},
    callbacks.ConvertToCreateValues.  The fields of the struct with their columns, the defaults of their tags and
    their contents are given, not computed by reflection; there are no associations, hooks and create clauses, no
    Select or Omit; the dialect is MySQL's without RETURNING.  A value is NULL, an integer or text. *)
From stdpp Require Import gmap sorting.
From Verif Require Import GoBase GoStr GormModel GwrapModel.
Local Open Scope Z_scope.

(** what a field holds: a value, or a pointer that may be nil *)
Inductive fval := Plain (v : val) | Ptr (o : option val).
(** schema.Field.ValueOf: the value bound to the statement, and reflect's IsZero *)
Definition value_of (x : fval) : val := match x with Plain v => v | Ptr (Some v) => v | Ptr None => VNull end.
Definition is_zero (x : fval) : bool :=
  match x with Plain (VInt z) => z =? 0 | Plain (VStr s) => bool_decide (s = []) | Plain VNull => true | Ptr None => true | Ptr (Some _) => false end.
(** a struct: the content of the field for every column; schema.Field.Set *)
Notation structv := (gostr → fval).
Definition set_field (s : structv) (c : gostr) (v : val) : structv :=
  λ d, if decide (d = c) then match s c with Plain _ => Plain v | Ptr _ => Ptr (Some v) end else s d.

(** schema.Field: HasDefaultValue is false, or true with DefaultValueInterface nil, or true with a value *)
Inductive fdefault := NoDefault | DbDefault | TagDefault (v : val).
(** [f_time]: AutoCreateTime or AutoUpdateTime is set *)
Record sfield := SField { f_col : gostr; f_def : fdefault; f_time : bool }.
(** schema.Schema: the fields that have a column in the order of DBNames, the columns of FieldsWithDefaultDBValue, the
    column of PrioritizedPrimaryField and its AutoIncrementIncrement *)
Record schema := Schema { sc_fields : list sfield; sc_dbdef : list gostr; sc_pk : option gostr; sc_inc : Z }.
Definition is_db (f : sfield) : bool := match f_def f with DbDefault => true | _ => false end.
(** the end of schema.Parse: [pk] is the prioritised primary field, [auto] says that it is an integer without the
    tag AUTOINCREMENT; such a field is added to the list unless it is there, and has a default from now on *)
Definition has_default (f : sfield) : sfield := match f_def f with NoDefault => SField (f_col f) DbDefault (f_time f) | _ => f end.
Definition finish (fs : list sfield) (pk : option gostr) (auto : bool) (inc : Z) : schema :=
  let dbdef := f_col <$> filter (λ f, is_db f) fs in
  match pk with
  | Some c =>
    if auto then
      Schema ((λ f, if decide (f_col f = c) then has_default f else f) <$> fs)
        (dbdef ++ (if decide (c ∈ dbdef) then [] else [c])) pk inc
    else Schema fs dbdef pk inc
  | None => Schema fs dbdef pk inc
  end.

(** a value of the statement, or the word DEFAULT that mysql's DefaultValueOf gives *)
Inductive cell := CVal (v : val) | CDefault.
Definition cell_tokens (c : cell) : list tok := match c with CVal v => [TV v] | CDefault => text (str "DEFAULT") end.
Record svalues := SValues { sv_cols : list gostr; sv_rows : list (list cell) }.
(** clause.Values.Build; the dialect writes VALUES() if there are no columns *)
Definition build_svalues (v : svalues) : list tok :=
  match sv_cols v with
  | [] => text (str "VALUES()")
  | cols => TB 40 :: commas (quote <$> cols) ++ text (str ") VALUES ") ++ commas ((λ row, TB 40 :: commas (cell_tokens <$> row) ++ [TB 41]) <$> sv_rows v)
  end.

(** the argument: a struct by value, a pointer to one (or nil), a slice whose elements are structs or pointers *)
Inductive data_arg := ByValue (s : structv) | Pointer (o : option structv) | Slice (l : list (option structv)).
Inductive serr := SEmptySlice | SInvalidData | SInvalidValue | SDatabase (e : gostr).
(** what the database is told *)
Inductive event := EvBegin | EvExec (st : stmt) | EvCommit | EvRollback.
(** the answer to the statement: an error, the number of rows, and LastInsertId *)
Record sanswer := SAnswer { sa_err : option gostr; sa_rows : Z; sa_id : option gostr + Z }.
(** how the call ends *)
Inductive ending := Done (e : option serr) | Panicked.

(** the panic of reflect.Value.Set *)
Definition unaddressable : panic := PUser "reflect.Value.Set using unaddressable value".
Section insert.
  Context (sc : schema) (now : gostr → val) (table : gostr).
  (** the columns that always are in the statement *)
  Definition plain_fields : list sfield := filter (λ f, negb (is_db f)) (sc_fields sc).
  (** one column of ConvertToCreateValues; Set panics if the struct is not addressable *)
  Definition fill (addr : bool) (f : sfield) (s : structv) : go (val * structv) :=
    let x := s (f_col f) in
    if is_zero x then
      match f_def f with
      | TagDefault v => if addr then Ret (v, set_field s (f_col f) v) else Panic unaddressable
      | _ =>
        if f_time f then
          if addr then let s' := set_field s (f_col f) (now (f_col f)) in Ret (value_of (s' (f_col f)), s') else Panic unaddressable
        else Ret (value_of x, s)
      end
    else Ret (value_of x, s).
  Fixpoint fill_all (addr : bool) (fs : list sfield) (s : structv) : go (list val * structv) :=
    match fs with
    | [] => Ret ([], s)
    | f :: r => '(v, s) ← fill addr f s; '(vs, s) ← fill_all addr r s; Ret (v :: vs, s)
    end.
  (** the rows up to an invalid element, [false] if there is one; the structs as they are afterwards *)
  Fixpoint fill_rows (addr : bool) (l : list (option structv)) : go (list (list val) * list (option structv) * bool) :=
    match l with
    | [] => Ret ([], [], true)
    | None :: r => Ret ([], None :: r, false)
    | Some s :: r =>
      '(vs, s) ← fill_all addr plain_fields s;
      '(rows, r, ok) ← fill_rows addr r; Ret (vs :: rows, Some s :: r, ok)
    end.
  (** the fields with a default of the database that are set somewhere, and the rest of each row *)
  Definition has_value (s : structv) (c : gostr) : bool := negb (is_zero (s c)).
  Definition set_somewhere (ss : list structv) : list gostr := filter (λ c, existsb (λ s, has_value s c) ss) (sc_dbdef sc).
  Definition late_cells (cols : list gostr) (s : structv) : list cell := (λ c, if has_value s c then CVal (value_of (s c)) else CDefault) <$> cols.
  Definition values_for (rows : list (list val)) (ss : list structv) : svalues :=
    let late := set_somewhere ss in
    SValues ((f_col <$> plain_fields) ++ late) (zip_with (λ r s, (CVal <$> r) ++ late_cells late s) rows ss).
  Definition statement (v : svalues) : stmt := text (str "INSERT INTO ") ++ quote table ++ TB 32 :: build_svalues v.

  (** callbacks.Create after the statement: the ids for the structs whose key is zero; one that is not addressable
      makes Set panic *)
  Fixpoint write_ids (addr : bool) (pk : gostr) (id : Z) (l : list (option structv)) : go (list (option structv)) :=
    match l with
    | [] => Ret []
    | None :: r => Ret l
    | Some s :: r =>
      if is_zero (s pk) then
        if addr then r ← write_ids addr pk (id + sc_inc sc) r; Ret (Some (set_field s pk (VInt id)) :: r) else Panic unaddressable
      else r ← write_ids addr pk id r; Ret (Some s :: r)
    end.
  Definition pk_has_default : option gostr :=
    match sc_pk sc with
    | Some c => if existsb (λ f, bool_decide (f_col f = c) && match f_def f with NoDefault => false | _ => true end) (sc_fields sc) then Some c else None
    | None => None
    end.
  Definition after_exec (addr : bool) (a : sanswer) (l : list (option structv)) : go (list (option structv) * option serr) :=
    match sa_err a with
    | Some e => Ret (l, Some (SDatabase e))
    | None =>
      if sa_rows a =? 0 then Ret (l, None)
      else match pk_has_default with
      | None => Ret (l, None)
      | Some pk =>
        match sa_id a with
        | inl e => Ret (l, SDatabase <$> e)
        | inr id => if 0 <? id then r ← write_ids addr pk id l; Ret (r, None) else Ret (l, None)
        end
      end
    end.

  (** [skip]: the handle is a transaction already, or SkipDefaultTransaction *)
  Context (skip : bool) (begin_err commit_err : option gostr) (db : stmt → sanswer).
  (** callbacks.CommitOrRollbackTransaction *)
  Definition finish_tx (evs : list event) (l : list (option structv)) (e : option serr) : list event * ending * list (option structv) :=
    if skip then (evs, Done e, l)
    else match e with
    | Some e => (evs ++ [EvRollback], Done (Some e), l)
    | None => (evs ++ [EvCommit], Done (SDatabase <$> commit_err), l)
    end.
  Definition create (addr : bool) (l : list (option structv)) : list event * ending * list (option structv) :=
    match (if skip then None else begin_err) with
    | Some e => ([], Done (Some (SDatabase e)), l)
    | None =>
      let evs := if skip then [] else [EvBegin] in
      match fill_rows addr l with
      | Ret (rows, l', ok) =>
        if negb ok then finish_tx evs l' (Some SInvalidData)
        else
          let st := statement (values_for rows (omap id l')) in
          match after_exec addr (db st) l' with
          | Ret (l'', e) => finish_tx (evs ++ [EvExec st]) l'' e
          | _ => (evs ++ [EvExec st], Panicked, l')
          end
      | _ => (evs, Panicked, l)
      end
    end.
  (** gorm.go:21-31; an invalid value and an empty slice end before a statement is sent *)
  Definition nothing_sent (l : list (option structv)) (e : serr) : list event * ending * list (option structv) :=
    match (if skip then None else begin_err) with
    | Some e' => ([], Done (Some (SDatabase e')), l)
    | None => finish_tx (if skip then [] else [EvBegin]) l (Some e)
    end.
  Definition insert_data (d : data_arg) : list event * ending * list (option structv) :=
    match d with
    | ByValue s => create false [Some s]
    | Pointer (Some s) => create true [Some s]
    | Pointer None => ([], Done (Some SInvalidValue), [])
    | Slice [] => nothing_sent [] SEmptySlice
    | Slice l => create true l
    end.
End insert.
