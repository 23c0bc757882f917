(** * gorm_tools: one-statement wrappers
    /repo/gorm_tools/gorm.go:32-98 (InsertToTable, gorm.go:21-31, is in InsModel.v).  The handle is a
    fresh one (no conditions of its own, no hooks); the table is given by name only, so gorm has no
    schema for it.  Table and column names are taken without dots and back quotes, which the dialect
    would split and double.  The transaction gorm opens around each statement is not part of the log.
    The database's answer is a parameter that may depend on all statements before. *)
From stdpp Require Import gmap sorting.
From Verif Require Import GoBase GoStr GormModel.
Local Open Scope Z_scope.

Notation conds := (@gmap gostr (@list_eq_dec Z numbers.Z.eq_dec) (@list_countable Z numbers.Z.eq_dec Z_countable) arg).
Inductive werr := WMissingWhere | WDatabase (e : gostr).

(** Go's order of strings, as used by sort.Strings *)
Fixpoint str_leb (a b : gostr) : bool :=
  match a, b with
  | [], _ => true
  | _ :: _, [] => false
  | x :: a', y :: b' => if x <? y then true else if y <? x then false else str_leb a' b'
  end.
Definition str_le (a b : gostr) : Prop := str_leb a b = true.
Global Instance str_le_dec : RelDecision str_le.
Proof. intros a b. unfold str_le. apply _. Defined.
Definition sort_strings (l : list gostr) : list gostr := merge_sort str_le l.

(** Dialector.QuoteTo *)
Definition quote (f : gostr) : list tok := TB 96 :: text f ++ [TB 96].

(** clause.Expr, clause.Eq, clause.IN *)
Inductive expr := EExpr (sql : gostr) (args : list arg) | EEq (col : gostr) (v : val) | EIn (col : gostr) (vs : list val).
(** their Build *)
Definition build (e : expr) : list tok :=
  match e with
  | EExpr sql args => expand false sql args
  | EEq c VNull => quote c ++ text (str " IS NULL")
  | EEq c v => quote c ++ text (str " = ") ++ [TV v]
  | EIn c [] => quote c ++ text (str " IN (NULL)")
  | EIn c [v] => quote c ++ text (str " = ") ++ [TV v]
  | EIn c vs => quote c ++ text (str " IN (") ++ values_of vs ++ [TB 41]
  end.
(** clause.Where.Build: AND between the conditions; none of ours contains AND or OR itself *)
Fixpoint ands (l : list (list tok)) : list tok :=
  match l with [] => [] | [x] => x | x :: r => x ++ text (str " AND ") ++ ands r end.
(** Statement.BuildCondition of a map: keys sorted, slices become IN *)
Definition map_conds (w : conds) : list expr :=
  (λ k, match w !! k with Some (AVal v) => EEq k v | Some (ASlice vs) => EIn k vs | None => EEq k VNull end) <$> sort_strings (map_to_list w).*1.
(** ConvertToAssignments of a map: keys sorted *)
Definition assignments (u : fields) : list (gostr * val) :=
  (λ k, (k, default VNull (u !! k))) <$> sort_strings (map_to_list u).*1.

Section wrappers.
  Context (db : list stmt → stmt → answer) (table : gostr).

  Definition send (log : list stmt) (st : stmt) : list stmt * option werr :=
    (log ++ [st], WDatabase <$> an_err (db log st)).
  (** callbacks.Update: without assignments it returns at once, and only then are missing conditions
      an error *)
  Definition gorm_updates (log : list stmt) (es : list expr) (u : fields) : list stmt * option werr :=
    match assignments u with
    | [] => (log, None)
    | set =>
      match es with
      | [] => (log, Some WMissingWhere)
      | _ =>
        send log (text (str "UPDATE ") ++ quote table ++ text (str " SET ") ++
                  commas ((λ kv : gostr * val, quote kv.1 ++ TB 61 :: [TV kv.2]) <$> set) ++
                  text (str " WHERE ") ++ ands (build <$> es))
      end
    end.
  (** callbacks.Delete *)
  Definition gorm_delete (log : list stmt) (es : list expr) : list stmt * option werr :=
    match es with
    | [] => (log, Some WMissingWhere)
    | _ => send log (text (str "DELETE FROM ") ++ quote table ++ text (str " WHERE ") ++ ands (build <$> es))
    end.

  (** gorm.go:33-44 *)
  Definition del_by_ids (log : list stmt) (ids : list Z) : list stmt * option werr :=
    gorm_delete log [EExpr (str "id in (?)") [ASlice (VInt <$> ids)]].
  (** gorm.go:47-56 *)
  Definition update_by_id (log : list stmt) (id : Z) (u : fields) : list stmt * option werr :=
    gorm_updates log [EExpr (str "id=?") [AVal (VInt id)]] u.
  (** gorm.go:58-67 *)
  Definition update_by_ids (log : list stmt) (ids : list Z) (u : fields) : list stmt * option werr :=
    gorm_updates log [EExpr (str "id in (?)") [ASlice (VInt <$> ids)]] u.
  (** gorm.go:69-80 *)
  Definition update_by_where (log : list stmt) (w : conds) (u : fields) : list stmt * option werr :=
    gorm_updates log (map_conds w) u.
  (** gorm.go:86-98; the two readings of the clock *)
  Definition soft_del (log : list stmt) (id t1 t2 : Z) : list stmt * option werr :=
    let u : fields := <[str "deleted_at" := VInt t2]> (<[str "updated_at" := VInt t1]> ∅) in
    gorm_updates log [EExpr (str "id=?") [AVal (VInt id)]] u.
End wrappers.
