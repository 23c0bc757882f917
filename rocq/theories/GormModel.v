(** * gorm_tools: batched inserts and updates
    /repo/gorm_tools/gorm.go:95-202, update.go.  The JSON round trip of dumpStructToMapForInsert
    (gorm.go:186-202) is a parameter: a record is given by its dump, [None] if that fails.
    Column values are NULL, integers or text.  The order in which Go ranges over a map is a parameter.
    gorm's Exec is modelled by its placeholder expansion (clause.Expr.Build); what the database
    answers to a statement is a parameter that may depend on all statements before. *)
From stdpp Require Import gmap.
From Verif Require Import GoBase GoStr.
Local Open Scope Z_scope.

Inductive val := VNull | VInt (z : Z) | VStr (s : gostr).
Global Instance val_eq_dec : EqDecision val.
Proof. solve_decision. Defined.
Notation fields := (@gmap gostr (@list_eq_dec Z numbers.Z.eq_dec) (@list_countable Z numbers.Z.eq_dec Z_countable) val).

(** what reaches the database: text with bound values *)
Inductive tok := TB (b : Z) | TV (v : val).
(** an argument of Exec *)
Inductive arg := AVal (v : val) | ASlice (vs : list val).
Definition text (s : gostr) : list tok := TB <$> s.
(** a sequence of bound values with commas: the loops of clause.Expr.Build and Statement.AddVar *)
Fixpoint commas (l : list (list tok)) : list tok :=
  match l with [] => [] | [x] => x | x :: r => x ++ TB 44 :: commas r end.
Definition values_of (vs : list val) : list tok := commas ((λ v, [TV v]) <$> vs).
(** Statement.AddVar: a slice outside parentheses gets its own, an empty one is (NULL) *)
Definition add_var (a : arg) : list tok :=
  match a with
  | AVal v => [TV v]
  | ASlice [] => text (str "(NULL)")
  | ASlice vs => TB 40 :: values_of vs ++ [TB 41]
  end.
(** in parentheses: the elements of the slice, NULL if it is empty *)
Definition add_paren (a : arg) : list tok :=
  match a with AVal v => [TV v] | ASlice [] => [TV VNull] | ASlice vs => values_of vs end.
(** clause.Expr.Build; left-over arguments are appended *)
Fixpoint expand (after_paren : bool) (sql : gostr) (args : list arg) : list tok :=
  match sql with
  | [] => args ≫= add_var
  | b :: r =>
    match (if b =? 63 then args else []) with
    | a :: args' => (if after_paren then add_paren a else add_var a) ++ expand after_paren r args'
    | [] => TB b :: expand (b =? 40) r args
    end
  end.
Definition gorm_exec (sql : gostr) (args : list arg) : list tok := expand false sql args.

Definition stmt := list tok.
(** the database's answer: an error text, and the number of affected rows *)
Record answer := Answer { an_err : option gostr; an_rows : Z }.
Inductive gerr := EDump | EDuplicate | EExec | EZeroRows | EFields.

(** strings.Join *)
Fixpoint join (sep : gostr) (l : list gostr) : gostr :=
  match l with [] => [] | [x] => x | x :: r => x ++ sep ++ join sep r end.
(** strings.TrimSuffix *)
Definition trim_comma (s : gostr) : gostr := match last s with Some c => if c =? 44 then take (length s - 1) s else s | None => s end.
(** strings.Contains *)
Definition contains (s sub : gostr) : bool := match go_index sub s with Some _ => true | None => false end.

Section insert.
  (** the database, and the iteration order of the range over recordMap[0] (gorm.go:146-148) *)
  Context (db : list stmt → stmt → answer) (order : list stmt → fields → list gostr) (table : gostr).

  (** gorm.go:132-141 *)
  Fixpoint dump_all (records : list (option fields)) : option (list fields) :=
    match records with
    | [] => Some []
    | None :: _ => None
    | Some m :: r => match dump_all r with None => None | Some l => Some (m :: l) end
    end.
  (** gorm.go:162-168 *)
  Definition insert_sql (names : list gostr) (n : nat) : gostr :=
    trim_comma (str "insert into " ++ table ++ str "(" ++ join [44] ((λ f, [96] ++ f ++ [96]) <$> names) ++ str ") values " ++ (replicate n (str "(?),") ≫= id)).
  (** gorm.go:127-183; the log holds the statements executed so far *)
  Definition batch_insert (log : list stmt) (records : list (option fields)) : list stmt * option gerr :=
    match records with
    | [] => (log, None)
    | _ =>
      match dump_all records with
      | None => (log, Some EDump)
      | Some maps =>
        let names := order log (default ∅ (head maps)) in
        let values := (λ m : fields, ASlice ((λ f, default VNull (m !! f)) <$> names)) <$> maps in
        let st := gorm_exec (insert_sql names (length values)) values in
        let an := db log st in
        let err := if contains (default (str "<nil>") (an_err an)) (str "Duplicate entry") then Some EDuplicate
                   else match an_err an with
                        | Some _ => Some EExec
                        | None => if an_rows an =? 0 then Some EZeroRows else None
                        end in
        (log ++ [st], err)
      end
    end.
  (** gorm.go:110-122: one turn of the loop per unit of fuel; [None] if it runs out *)
  Fixpoint split_loop (fuel : nat) (mx : Z) (log : list stmt) (records : list (option fields)) : option (list stmt * option gerr) :=
    match fuel with
    | O => None
    | S fuel' =>
      match records with
      | [] => Some (log, None)
      | _ =>
        let len := Z.of_nat (length records) in
        let n := Z.to_nat (if mx <? len then mx else len) in
        match batch_insert log (take n records) with
        | (log', Some e) => Some (log', Some e)
        | (log', None) => split_loop fuel' mx log' (drop n records)
        end
      end
    end.
  (** gorm.go:95-125 *)
  Definition split_insert (fuel : nat) (log : list stmt) (records : list (option fields)) : option (list stmt * option gerr) :=
    match records with
    | [] => Some (log, None)
    | None :: _ => Some (log, Some EDump)
    | Some m :: _ =>
      if Z.of_nat (size m) =? 0 then Some (log, None)
      else split_loop fuel (65000 `div` Z.of_nat (size m)) log records
    end.
End insert.

(** ** update.go *)
Notation updates := (@gmap Z numbers.Z.eq_dec Z_countable fields).
(** one iteration over the update map *)
Notation entries := (list (Z * fields)).

(** update.go:20-31: index, totalNum, tmpMap, sliceUpdate *)
Definition split_step (total : Z) (st : Z * Z * updates * list updates) (e : Z * fields) : Z * Z * updates * list updates :=
  let '(index, num, tmp, out) := st in
  let tmp := <[e.1 := e.2]> (if index =? 0 then ∅ else tmp) in
  let index := index + 1 in
  let num := num + 1 in
  if (index =? 500) || (num =? total) then (0, num, tmp, out ++ [tmp]) else (index, num, tmp, out).
Definition split_batches (order : entries) : list updates :=
  (foldl (split_step (Z.of_nat (length order))) (0, 0, ∅, []) order).2.

(** the iteration orders of one call of BatchUpdate: the first range (left after one entry), the
    range over that entry's fields, one range per field, the last range *)
Record orders := Orders { o_first : Z * fields; o_fields : list gostr; o_field : nat → entries; o_last : entries }.
(** update.go:62-69 *)
Fixpoint cases (f : gostr) (es : entries) : option (gostr * list arg) :=
  match es with
  | [] => Some ([], [])
  | (id, m) :: r =>
    match m !! f with
    | None => None
    | Some v => match cases f r with None => None | Some (s, a) => Some (str "when id = ? then ? " ++ s, AVal (VInt id) :: AVal v :: a) end
    end
  end.
(** update.go:60-71 *)
Fixpoint case_sql (k : nat) (o : orders) (fs : list gostr) : option (gostr * list arg) :=
  match fs with
  | [] => Some ([], [])
  | f :: r =>
    match cases f (o_field o k) with
    | None => None
    | Some (s, a) => match case_sql (S k) o r with None => None | Some (s', a') => Some (f ++ str "= case " ++ s ++ str "end," ++ s', a ++ a') end
    end
  end.
(** update.go:45-87 *)
Definition batch_update (db : list stmt → stmt → answer) (table : gostr) (log : list stmt) (m : updates) (o : orders) : list stmt * option gerr :=
  if Z.of_nat (size m) =? 0 then (log, None)
  else match case_sql 0 o (o_fields o) with
       | None => (log, Some EFields)
       | Some (s, a) =>
         let sql := (str "update " ++ table ++ str " set ") ++ trim_comma s ++ str " where id in (?)" in
         let st := gorm_exec sql (a ++ [ASlice (VInt ∘ fst <$> o_last o)]) in
         (log ++ [st], match an_err (db log st) with Some _ => Some EExec | None => None end)
       end.
(** update.go:33-40 *)
Fixpoint update_all (db : list stmt → stmt → answer) (table : gostr) (log : list stmt) (bs : list updates) (os : list orders) : list stmt * option gerr :=
  match bs, os with
  | b :: bs', o :: os' =>
    match batch_update db table log b o with
    | (log', Some e) => (log', Some e)
    | (log', None) => update_all db table log' bs' os'
    end
  | _, _ => (log, None)
  end.
(** update.go:13-43 *)
Definition split_update (db : list stmt → stmt → answer) (table : gostr) (log : list stmt) (order : entries) (os : list orders) : list stmt * option gerr :=
  update_all db table log (split_batches order) os.
