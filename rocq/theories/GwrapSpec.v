(** * What the one-statement wrappers should send, and what it does to the rows *)
From stdpp Require Import gmap sorting.
From Verif Require Import GoBase GoStr GormModel GormSpec GwrapModel.
Local Open Scope Z_scope.

(** ** statements *)
Inductive pred :=
  | PIdIs (v : val)                       (** id=v *)
  | PIdIn (vs : list val)                 (** id in (v,...) *)
  | PNull (c : gostr)                     (** `c` IS NULL *)
  | PIs (c : gostr) (v : val)             (** `c` = v *)
  | PIn (c : gostr) (vs : list val)       (** `c` IN (v,...) *)
  | PNone (c : gostr).                    (** `c` IN (NULL) *)
Inductive wstmt :=
  | WUpdate (table : gostr) (set : list (gostr * val)) (where_ : list pred)
  | WDelete (table : gostr) (where_ : list pred).
Definition pred_tokens (p : pred) : list tok :=
  match p with
  | PIdIs v => text (str "id=") ++ [TV v]
  | PIdIn vs => text (str "id in (") ++ commas ((λ v, [TV v]) <$> vs) ++ text (str ")")
  | PNull c => quoted c ++ text (str " IS NULL")
  | PIs c v => quoted c ++ text (str " = ") ++ [TV v]
  | PIn c vs => quoted c ++ text (str " IN (") ++ commas ((λ v, [TV v]) <$> vs) ++ text (str ")")
  | PNone c => quoted c ++ text (str " IN (NULL)")
  end.
Fixpoint and_tokens (l : list (list tok)) : list tok :=
  match l with [] => [] | [x] => x | x :: r => x ++ text (str " AND ") ++ and_tokens r end.
Definition wstmt_tokens (s : wstmt) : list tok :=
  match s with
  | WUpdate t set w =>
    text (str "UPDATE ") ++ quoted t ++ text (str " SET ") ++
    commas ((λ cv : gostr * val, quoted cv.1 ++ text (str "=") ++ [TV cv.2]) <$> set) ++
    text (str " WHERE ") ++ and_tokens (pred_tokens <$> w)
  | WDelete t w => text (str "DELETE FROM ") ++ quoted t ++ text (str " WHERE ") ++ and_tokens (pred_tokens <$> w)
  end.

(** ** meaning: NULL equals nothing, not even NULL *)
Definition row_val (r : trow) (c : gostr) : val := match r !! c with Some v => v | None => VNull end.
Definition sql_eq (a b : val) : Prop := a = b ∧ a ≠ VNull.
Definition holds (r : trow) (p : pred) : Prop :=
  match p with
  | PIdIs v => sql_eq (row_val r col_id) v
  | PIdIn vs => ∃ v, v ∈ vs ∧ sql_eq (row_val r col_id) v
  | PNull c => row_val r c = VNull
  | PIs c v => sql_eq (row_val r c) v
  | PIn c vs => ∃ v, v ∈ vs ∧ sql_eq (row_val r c) v
  | PNone c => False
  end.
Definition selected (w : list pred) (r : trow) : Prop := ∀ p, p ∈ w → holds r p.
(** assignments of constants, from left to right *)
Definition set_row (set : list (gostr * val)) (r : trow) : trow := foldl (λ r cv, <[cv.1 := cv.2]> r) r set.
(** row by row: [None] stands for a row that is gone *)
Definition effect (s : wstmt) (r : trow) (after : option trow) : Prop :=
  match s with
  | WUpdate _ set w => (selected w r ∧ after = Some (set_row set r)) ∨ (¬ selected w r ∧ after = Some r)
  | WDelete _ w => (selected w r ∧ after = None) ∨ (¬ selected w r ∧ after = Some r)
  end.

(** ** what is wanted *)
Definition has_id (ids : list Z) (r : trow) : Prop := ∃ k, r !! col_id = Some (VInt k) ∧ k ∈ ids.
(** exactly these rows get exactly these values in exactly these columns *)
Definition changed_to (sel : trow → Prop) (u : fields) (r : trow) (after : option trow) : Prop :=
  ∃ r', after = Some r' ∧
    (sel r → ∀ c, r' !! c = match u !! c with Some v => Some v | None => r !! c end) ∧
    (¬ sel r → r' = r).
Definition removed (sel : trow → Prop) (r : trow) (after : option trow) : Prop :=
  (sel r → after = None) ∧ (¬ sel r → after = Some r).
(** a row agrees with a value, or with one of a slice *)
Definition agrees (v : val) (a : arg) : Prop := match a with AVal x => v = x | ASlice vs => v ∈ vs end.
Definition agrees_all (w : gmap gostr arg) (r : trow) : Prop := ∀ c a, w !! c = Some a → agrees (row_val r c) a.
(** no slice holds a NULL *)
Definition no_null_in_slices (w : gmap gostr arg) : Prop := ∀ c vs, w !! c = Some (ASlice vs) → VNull ∉ vs.
(** byte order *)
Fixpoint str_lt (a b : gostr) : Prop :=
  match a, b with
  | _, [] => False
  | [], _ :: _ => True
  | x :: a', y :: b' => x < y ∨ (x = y ∧ str_lt a' b')
  end.
(** sent, and the database's error passed on *)
Definition sent (db : list stmt → stmt → answer) (log : list stmt) (st : wstmt) (out : list stmt * option werr) : Prop :=
  out.1 = log ++ [wstmt_tokens st] ∧
  match an_err (db log (wstmt_tokens st)) with None => out.2 = None | Some x => out.2 = Some (WDatabase x) end.
(** the columns of a soft deletion *)
Definition deletion (t1 t2 : Z) : fields := {[str "updated_at" := VInt t1; str "deleted_at" := VInt t2]}.
